{
 "claims": [
  {
   "property": "C01",
   "status": "proved",
   "theorems": [
    "C01_varint_round_trip",
    "C01_bool"
   ],
   "note": ""
  },
  {
   "property": "C02",
   "status": "proved",
   "theorems": [
    "C02_varint_size_exact"
   ],
   "note": ""
  },
  {
   "property": "C03",
   "status": "proved",
   "theorems": [
    "C03_varint_parse_exact"
   ],
   "note": ""
  },
  {
   "property": "C04",
   "status": "proved",
   "theorems": [
    "C04_zigzag_bijection"
   ],
   "note": ""
  },
  {
   "property": "C05",
   "status": "proved",
   "theorems": [
    "C05_tag_round_trip",
    "C05_tag_rejected",
    "C05_tag_accepted_only"
   ],
   "note": ""
  },
  {
   "property": "C06",
   "status": "proved",
   "theorems": [
    "C06_fixed_round_trip",
    "C06_fixed_total"
   ],
   "note": ""
  },
  {
   "property": "C07",
   "status": "proved",
   "theorems": [
    "C07_bytes_round_trip",
    "C07_bytes_bounds"
   ],
   "note": "payload length below 2^62, input length below 2^63 (Go slice limits)"
  },
  {
   "property": "C08",
   "status": "proved",
   "theorems": [
    "C08_field_skip_safe",
    "C08_field_skip_complete"
   ],
   "note": "input length below 2^63 (Go slice limit)"
  },
  {
   "property": "C09",
   "status": "proved",
   "theorems": [
    "C09_group_round_trip",
    "C09_group_end_marker"
   ],
   "note": ""
  },
  {
   "property": "C10",
   "status": "partial",
   "theorems": [
    "C10_length_prefixes_exact_partial",
    "C10_map_size_wrong_refuted",
    "C10_empty_map_panics_refuted",
    "C10_entry_point_partial",
    "C10_nil_panics_refuted"
   ],
   "note": "proved for all values whose maps have exactly one entry; for other maps the code computes wrong lengths (2+ entries) or divides by zero (empty), which the refutations exhibit"
  },
  {
   "property": "C100",
   "status": "partial",
   "theorems": [
    "C100_fields_partial",
    "C100_untagged_refuted",
    "C100_invert_refuted"
   ],
   "note": "Proved for the documented tag forms. Refuted: a field without a tag adds an empty word; the invert option is ignored on this side."
  },
  {
   "property": "C101",
   "status": "partial",
   "theorems": [
    "C101_exact_partial",
    "C101_unknown",
    "C101_positional_partial",
    "C101_wrong_command_refuted",
    "C101_placeholders_refuted",
    "C101_json_refuted",
    "C101_tie_refuted",
    "C101_missing_refuted",
    "C101_extra_refuted"
   ],
   "note": "Proved: the right function for tags of words that are no prefix of another, unknown first words, positional string arguments. Refuted: a wrong last word still runs the command, placeholders beat words, json tags are never found, an earlier longer tag takes a shorter command, missing arguments are empty strings and extra ones ignored."
  },
  {
   "property": "C102",
   "status": "partial",
   "theorems": [
    "C102_flags_partial",
    "C102_round_trip_partial",
    "C102_value_partial",
    "C102_count_refuted",
    "C102_second_value_refuted",
    "C102_value_is_flag_refuted",
    "C102_separate_refuted"
   ],
   "note": "Flags (also inverted, also from a linked client) proved; a single valued option gets its value. Refuted: valued options are not counted as read, a second one is not read, a value equal to a flag sets it, 'w %v' options are always an error."
  },
  {
   "property": "C103",
   "status": "partial",
   "theorems": [
    "C103_prefix_partial",
    "C103_lost_refuted",
    "C103_string_partial",
    "C103_lines_partial",
    "C103_last_line_refuted",
    "C103_int_partial",
    "C103_int_wrap_refuted"
   ],
   "note": "What is seen is always a prefix of the output, and results are right when all was seen. Refuted: the call can go on before the output was copied; a last line without a newline is dropped; numbers wrap."
  },
  {
   "property": "C104",
   "status": "partial",
   "theorems": [
    "C104_call_made_partial",
    "C104_params",
    "C104_made_error_partial",
    "C104_not_implemented",
    "C104_wrong_type_partial",
    "C104_right_type",
    "C104_return_partial",
    "C104_any_error_refuted",
    "C104_any_nil_refuted",
    "C104_concrete_error_refuted",
    "C104_variadic_refuted",
    "C104_variadic_any_refuted"
   ],
   "note": "Proved for functions that are not variadic and whose error, if any, is of type error, with implementations over []reflect.Value. Refuted: an implementation over []any that returns an error without results, or a nil result, panics; a function whose error type is concrete always fails; forwarding a variadic function panics or nests the arguments."
  },
  {
   "property": "C105",
   "status": "partial",
   "theorems": [
    "C105_functions",
    "C105_listed",
    "C105_order",
    "C105_import_error",
    "C105_import_error_call_partial",
    "C105_import_ok",
    "C105_path_partial",
    "C105_path_refuted"
   ],
   "note": "Functions, order and import proved for every nesting; paths proved for namespaces nested up to three deep. Refuted from four: append shares the array between siblings, so they all get the last one's name. Registered types, hosts and tags of structures are not modelled."
  },
  {
   "property": "C106",
   "status": "partial",
   "theorems": [
    "C106_documentation_partial",
    "C106_first_line",
    "C106_no_lines"
   ],
   "note": "Proved for tags of several lines; the docs tag, the Docs method and embedded structs are not modelled."
  },
  {
   "property": "C107",
   "status": "proved",
   "theorems": [
    "C107_stub",
    "C107_stub_error",
    "C107_typed",
    "C107_link"
   ],
   "note": "For functions that are not variadic (Call itself fails on those, C104) and whose error, if any, is of type error."
  },
  {
   "property": "C108",
   "status": "partial",
   "theorems": [
    "C108_call",
    "C108_read",
    "C108_dispatch",
    "C108_redacted_partial",
    "C108_headers_refuted",
    "C108_form_refuted"
   ],
   "note": "The order and the arguments are proved; responses depend on the redacted error alone when it writes no headers. Refuted: headers of an error are sent unredacted; a GET of a resource that has none serves its form without authentication. The documentation pages, examples and websockets are not in this model."
  },
  {
   "property": "C109",
   "status": "partial",
   "theorems": [
    "C109_error_partial",
    "C109_scenario_partial",
    "C109_not_implemented",
    "C109_typed_partial",
    "C109_no_status_refuted",
    "C109_wrapped_refuted",
    "C109_not_found_refuted",
    "C109_message_refuted",
    "C109_success_refuted",
    "C109_bad_status_refuted",
    "C109_typed_plain_refuted"
   ],
   "note": "Proved for statuses 400-599 but seven that are treated specially, and for registered types. Refuted: an error without a status (or wrapped) arrives as text around its message; 404 loses its message and on DELETE is no error; 429 and others have their message replaced; statuses 102-299 are successes, others panic the handler; a registered error type makes other errors lose their message."
  },
  {
   "property": "C11",
   "status": "partial",
   "theorems": [
    "C11_output_well_formed_partial",
    "C11_map_output_malformed_refuted"
   ],
   "note": "same restriction as C10; fails for maps with several entries"
  },
  {
   "property": "C110",
   "status": "partial",
   "theorems": [
    "C110_result_partial",
    "C110_results_partial",
    "C110_nothing",
    "C110_default",
    "C110_media_type",
    "C110_negotiated",
    "C110_not_supported",
    "C110_reader_partial",
    "C110_status_refuted",
    "C110_reader_failed_refuted",
    "C110_reader_type_refuted",
    "C110_multipart_refuted"
   ],
   "note": "Proved over any JSON codec that reads back what it wrote. Refuted: a result with a status of its own is sent as plain text; a reader's failure is appended to its content; a reader without a mime tag, and a multipart answer, can't be received."
  },
  {
   "property": "C111",
   "status": "partial",
   "theorems": [
    "C111_sequential",
    "C111_fifo",
    "C111_alone_partial",
    "C111_no_xray_refuted",
    "C111_interface_refuted",
    "C111_stuck_refuted"
   ],
   "note": "Order and exactly once proved for any sequence of calls and any schedule. Refuted: Get panics without an xray, an interface type is never found, two concurrent Gets of one value leave one of them, and every later Add, waiting forever."
  },
  {
   "property": "C112",
   "status": "partial",
   "theorems": [
    "C112_reader",
    "C112_reader_off",
    "C112_writer",
    "C112_reader_failure_refuted",
    "C112_close_refuted",
    "C112_writer_failure_refuted"
   ],
   "note": "Proved for sources that do not fail and for all writers. Refuted: with recording on, content before a failure is lost and the source is never closed; a failed write is shown as written."
  },
  {
   "property": "C113",
   "status": "partial",
   "theorems": [
    "C113_order",
    "C113_rank",
    "C113_choose",
    "C113_best",
    "C113_fits_partial",
    "C113_fill",
    "C113_link",
    "C113_round_trip_partial",
    "C113_scan_error",
    "C113_plain_refuted",
    "C113_only_refuted",
    "C113_prefix_refuted",
    "C113_separator_refuted",
    "C113_adjacent_refuted",
    "C113_literal_refuted",
    "C113_nested_refuted"
   ],
   "note": "Proved: the parser chosen is the one that ranks strictly above all others, ranks are the number of texts of a fitting format, in any map order; values with one-byte separators that occur in no argument are parsed by their format. Refuted: %v alone ties with formats that do not fit and is never chosen; a single format is used for any value; /%v/%v and %v%v fit nothing they write; a separator inside an argument; tags without %v fit by their end alone; inside a namespace nothing is chosen and errors are dropped. Functions that take a context are not modelled."
  },
  {
   "property": "C114",
   "status": "partial",
   "theorems": [
    "C114_nil",
    "C114_reports_partial",
    "C114_name",
    "C114_message",
    "C114_list",
    "C114_status",
    "C114_check_status",
    "C114_checks",
    "C114_foreach",
    "C114_foreach_map",
    "C114_nested_refuted",
    "C114_unexported_refuted",
    "C114_element_refuted",
    "C114_limit_refuted"
   ],
   "note": "Proved for objects whose fields are all exported and whose errors are not reports of nested objects. Refuted: a nested object's report makes the outer one panic, so does an unexported field; problems of elements of slices are not named; the limit itself is accepted though the message asks for less."
  },
  {
   "property": "C115",
   "status": "partial",
   "theorems": [
    "C115_slots",
    "C115_round_trip",
    "C115_call_partial",
    "C115_call_nothing_partial",
    "C115_canonical_partial",
    "C115_narrow_refuted",
    "C115_string_refuted",
    "C115_context_refuted",
    "C115_error_refuted",
    "C115_error_lost_refuted",
    "C115_several_refuted",
    "C115_unexported_refuted"
   ],
   "note": "Proved for all types built of numbers, structs of exported fields and arrays, and functions with at most one result of one word. Refuted: int8 and int16 results keep bits of an argument; string arguments, contexts and errors make the host panic; without arguments an error is lost; a result of several words is announced as a pointer but is not one; unexported fields panic."
  },
  {
   "property": "C116",
   "status": "partial",
   "theorems": [
    "C116_found",
    "C116_not_there",
    "C116_import",
    "C116_import_refuted"
   ],
   "note": "Proved for APIs that are there. Refuted: importing one that is not makes the host panic."
  },
  {
   "property": "C117",
   "status": "partial",
   "theorems": [
    "C117_runs",
    "C117_plain",
    "C117_clocks_partial",
    "C117_memory",
    "C117_twice_refuted",
    "C117_compiled_refuted",
    "C117_set_refuted",
    "C117_clocks_refuted"
   ],
   "note": "Proved: any number of runs with APIs and without Compile. Refuted: without APIs the second run panics; after Compile a runner with APIs fails; a file set after Compile is ignored; a single clock function is ignored and the other is nil. wazero is modelled by the two rules stated (a name is instantiated once, a compiled module belongs to its runtime)."
  },
  {
   "property": "C118",
   "status": "partial",
   "theorems": [
    "C118_grammar_partial",
    "C118_documented_refuted",
    "C118_forms_refuted"
   ],
   "note": "Proved for every tag of the grammar given by `show` (any nesting). Refuted: the documentation's own fread tag, and the documented forms [@n], *@n, |@n, >=@n and <=@n, are rejected."
  },
  {
   "property": "C119",
   "status": "partial",
   "theorems": [
    "C119_accepted",
    "C119_total",
    "C119_index_zero_refuted",
    "C119_dangling_refuted",
    "C119_trailing_refuted"
   ],
   "note": "Proved: every accepted type is well formed and parsing ends. Refuted: @0, references to parameters that do not exist and trailing text are accepted."
  },
  {
   "property": "C12",
   "status": "partial",
   "theorems": [
    "C12_encoding_injective_partial",
    "C12_nested_slices_refuted",
    "C12_nil_elements_refuted"
   ],
   "note": "injectivity for scalars, strings, structs, arrays, slices and pointers of one-field types; nested slices and nil elements are lossy in the code"
  },
  {
   "property": "C120",
   "status": "partial",
   "theorems": [
    "C120_last",
    "C120_partial",
    "C120_bad_tag",
    "C120_no_tag",
    "C120_sound",
    "C120_open",
    "C120_preference_refuted",
    "C120_libraries_refuted"
   ],
   "note": "Exact: the last name in the last library decides. So the order of preference is reversed, and a function that the last library lacks is not found; right for one name and one library."
  },
  {
   "property": "C121",
   "status": "partial",
   "theorems": [
    "C121_integers",
    "C121_types",
    "C121_other_types",
    "C121_range_refuted",
    "C121_inferred_refuted",
    "C121_bool_refuted",
    "C121_opaque_refuted",
    "C121_pointer_refuted"
   ],
   "note": "Proved for all signatures of integer types: the parameter is congruent to the argument, and equal when in range. Refuted: out of range wraps silently; a parameter after an inferred one cannot be passed; bool and opaque (FILE) parameters always panic; an integer for a pointer to an integer is passed as the pointer. Conversions with floating point numbers are a parameter of the model."
  },
  {
   "property": "C122",
   "status": "partial",
   "theorems": [
    "C122_string",
    "C122_memory",
    "C122_length",
    "C122_nul_refuted",
    "C122_ownership_refuted"
   ],
   "note": "Proved for every call. Refuted: a string with a NUL arrives cut; strings are only taken for '&char', not for the other documented ownerships."
  },
  {
   "property": "C123",
   "status": "partial",
   "theorems": [
    "C123_integer",
    "C123_bool",
    "C123_pointer",
    "C123_error_refuted",
    "C123_late_refuted",
    "C123_string_refuted",
    "C123_opaque_refuted"
   ],
   "note": "Proved for integer, bool and &void results. Refuted: an error result is always nil (assertions are never checked); a defined type of the same kind, a missing or a surplus result panic after the C function ran; &char and opaque results cannot be used."
  },
  {
   "property": "C124",
   "status": "partial",
   "theorems": [
    "C124_references",
    "C124_ends"
   ],
   "note": "Proved for every set of types, with recursion. Missing: types that name their own schema (TypeJSON, TypesJSON, ValuesJSON), channels and iterators; titles, formats and examples; generic type names."
  },
  {
   "property": "C125",
   "status": "partial",
   "theorems": [
    "C125_valid_partial",
    "C125_null_refuted",
    "C125_bytes_refuted",
    "C125_map_refuted",
    "C125_embedded_refuted",
    "C125_hidden_refuted",
    "C125_quoted_refuted",
    "C125_left_out_refuted",
    "C125_names_refuted"
   ],
   "note": "Proved, through all references, for values without nil and types without bytes, maps by numbers, renamed or hidden embedded fields and the string option, with names told apart; each of these exceptions is refuted."
  },
  {
   "property": "C126",
   "status": "partial",
   "theorems": [
    "C126_documented",
    "C126_path",
    "C126_duplicates",
    "C126_bodies_refuted",
    "C126_both_refuted",
    "C126_method_refuted",
    "C126_http_refuted",
    "C126_path_refuted"
   ],
   "note": "Proved for every list of functions with methods OpenAPI has and well-formed paths. Refuted: of several body arguments without rules only the last is documented; an argument in path and query has no place; a CONNECT route, or an http tag without a space, stops the server from starting; an http tag alone is documented and not served; a format outside braces."
  },
  {
   "property": "C127",
   "status": "proved",
   "theorems": [
    "C127_answers",
    "C127_questions_do_not_matter",
    "C127_shared_fate",
    "C127_stack_allocated"
   ],
   "note": "For every history of marks, links and questions."
  },
  {
   "property": "C128",
   "status": "partial",
   "theorems": [
    "C128_stack_is_safe_partial",
    "C128_method_receiver_refuted",
    "C128_closure_refuted",
    "C128_range_refuted",
    "C128_initialiser_refuted",
    "C128_call_in_initialiser_refuted",
    "C128_receive_refuted",
    "C128_call_result_refuted",
    "C128_struct_result_refuted",
    "C128_map_key_refuted",
    "C128_global_field_refuted",
    "C128_parameter_refuted",
    "C128_blocks_are_not_seen"
   ],
   "note": "Proved for every execution of programs without the following, each of which is refuted by a program: method receivers, closures, range values, initialisers of var, calls in initialisers, received values, results of calls, returned structs, keys of maps, fields of package variables, stores through parameters. Escapes from blocks are never seen without a call."
  },
  {
   "property": "C129",
   "status": "partial",
   "theorems": [
    "C129_plain_partial",
    "C129_no_overflow_partial",
    "C129_panics_partial",
    "C129_example",
    "C129_or_plus_refuted",
    "C129_plus_and_refuted",
    "C129_plus_shift_refuted",
    "C129_or_and_refuted",
    "C129_full_refuted",
    "C129_andnot_refused",
    "C129_complement_refused",
    "C129_plus_refused",
    "C129_chain_refused",
    "C129_signed_division_refused",
    "C129_string_equal_refused",
    "C129_overflow_traps"
   ],
   "note": "Proved through both grammars for every expression in which no operand of a binary operator is an unparenthesised operator that Zig groups differently. The full statement is refuted: the target prints operators without parentheses, and Zig's precedences differ (x | y + z, x + y << z, ...). Recorded besides: operators that Zig refuses (&^, ^x, +x, comparison chains, / on signed, == on strings) and overflow, which traps in Zig. Missing: calls of functions, composite literals, selectors, slices, floats."
  },
  {
   "property": "C13",
   "status": "proved",
   "theorems": [
    "C13_every_live_listener_exactly_once",
    "C13_never_twice"
   ],
   "note": "sequentially consistent atomics; any number of goroutines, any schedule"
  },
  {
   "property": "C130",
   "status": "partial",
   "theorems": [
    "C130_statements_partial",
    "C130_no_overflow_partial",
    "C130_example",
    "C130_break_in_switch_refuted",
    "C130_fallthrough_refuted",
    "C130_label_refuted",
    "C130_full_refuted",
    "C130_range_counter_refused",
    "C130_continue_label_refused",
    "C130_no_default_refused",
    "C130_tagless_refused",
    "C130_two_refused",
    "C130_two_results_refused",
    "C130_if_init_refused",
    "C130_andnot_refused"
   ],
   "note": "Proved through the printer and the Zig grammar, for every nesting and any number of iterations, for the statements of fine_l (ZigStmtParse.v). The full statement is refuted: an unlabelled break in a switch leaves the enclosing loop, fallthrough is dropped, and the label of a range loop is put on its body. Recorded besides: what Zig refuses (no default clause, no tag, two variables or results at once, if with an init statement, &^=, the counter of an int range used as an int). In models of their own: deferred calls (C155), channels (C149), range over slices (C158). Missing: goroutines, pointers, closures."
  },
  {
   "property": "C131",
   "status": "partial",
   "theorems": [
    "C131_int",
    "C131_float_partial",
    "C131_imaginary_partial",
    "C131_string",
    "C131_rune",
    "C131_example",
    "C131_int_refused",
    "C131_float_refused",
    "C131_imaginary_refuted",
    "C131_imaginary_refused"
   ],
   "note": "Proved for every integer literal (with the exact set Zig refuses: a second leading zero, prefixes in upper case), every decimal float without underscores (exactly which are refused), imaginary decimal integers of two digits and more, every ASCII string (refused exactly with bell, backspace, vertical tab or form feed) and every rune. Refuted: imaginary literals of one digit from 1 to 9, or of several zeros, panic in the compiler. Missing: hexadecimal floats, floats with underscores (0_01.5 is refused), other imaginary literals, strings that are not ASCII (a non-breaking space is printed \\u00a0, which Zig does not read)."
  },
  {
   "property": "C132",
   "status": "partial",
   "theorems": [
    "C132_names_partial",
    "C132_example",
    "C132_keyword_refused",
    "C132_local_type_refused",
    "C132_parameter_refused",
    "C132_parameter_mentions_refuted"
   ],
   "note": "Proved for every package and function body with any nesting of scopes, for ASCII names that Zig does not reserve. Refused by Zig: names Zig reserves (and, or, fn, test, u8, ...), types declared in functions under a name from outside, parameters named like something predeclared (they are mentioned under their own name). Missing: function literals, receivers (printed unrenamed), labels."
  },
  {
   "property": "C133",
   "status": "partial",
   "theorems": [
    "C133_strings",
    "C133_words_refuted",
    "C133_empty_refuted",
    "C133_int",
    "C133_uint",
    "C133_too_large",
    "C133_bool",
    "C133_unmarshal_refuted",
    "C133_slice_refuted",
    "C133_example"
   ],
   "note": "Proved: exactly the strings of one word arrive, every integer of every width arrives and one too large is refused, booleans arrive. Refuted: of a string with spaces only the first word arrives and the rest is dropped without an error, the empty string is refused, a value that unmarshals its own text is always given the empty text (it is read into a buffer of no bytes), slices are written and cannot be read. Missing: floats, structs and maps (printed with %v)."
  },
  {
   "property": "C134",
   "status": "partial",
   "theorems": [
    "C134_form_partial",
    "C134_arguments_partial",
    "C134_name",
    "C134_left_out",
    "C134_example",
    "C134_map_refuted",
    "C134_nil_refuted",
    "C134_private_refuted",
    "C134_short_file_refuted",
    "C134_long_file"
   ],
   "note": "Proved for every nesting of structs and pointers and for maps at the top, for names without periods other than the underscore. Refuted: entries of maps inside structs lose their path so two maps with the same key give the same name twice, nil pointers panic, a field with json tag \"-\" is sent under the name \"-\", and the content type of a file shorter than 512 bytes is never plain text. Missing: readers and files as fields, unexported fields (a panic)."
  },
  {
   "property": "C135",
   "status": "partial",
   "theorems": [
    "C135_trace",
    "C135_located_total",
    "C135_message",
    "C135_nil",
    "C135_distinct",
    "C135_example",
    "C135_errorf_refuted",
    "C135_errorf_says",
    "C135_join_refuted"
   ],
   "note": "Proved for every chain of wrappers; that places can be told apart in print is proved for names without newlines. Refuted: an error that wraps a traced one with fmt.Errorf has the whole trace in its message (Format ignores the verb), and the places of errors joined with errors.Join are not printed. Missing: wrappers of other packages, the pcs of StackTrace."
  },
  {
   "property": "C136",
   "status": "partial",
   "theorems": [
    "C136_test",
    "C136_scenarios",
    "C136_found",
    "C136_other",
    "C136_status",
    "C136_untagged",
    "C136_join_refuted",
    "C136_example"
   ],
   "note": "Proved for every list of different registered types and every chain of wrappers that unwrap to one error. Refuted: registered errors inside errors.Join are not recognised. Missing: messages of cases with values, JSON forms (C109)."
  },
  {
   "property": "C137",
   "status": "partial",
   "theorems": [
    "C137_body_partial",
    "C137_fits",
    "C137_example",
    "C137_status_and_body_partial",
    "C137_headers_refuted",
    "C137_no_content_refuted",
    "C137_crash_refuted",
    "C137_address_refuted"
   ],
   "note": "Proved: the body, for all chunks and buffers. Refuted: the headers of the response are not sent, a response of status 204 (that of every function without results), 205, 304 or outside 200-599 ends the server, the address of the client is always <undefined>. Missing: cancellation, concurrent requests."
  },
  {
   "property": "C138",
   "status": "partial",
   "theorems": [
    "C138_call_partial",
    "C138_no_result",
    "C138_example",
    "C138_refused",
    "C138_refused_anywhere",
    "C138_parameter_refuted",
    "C138_result_refuted",
    "C138_error_dropped_refuted",
    "C138_own_function",
    "C138_concurrent_refuted"
   ],
   "note": "Proved for every signature of bools, sized integers, floats, uintptr and pointers, and every history of callbacks made one after another. Refuted: string, function, Back and one-field struct parameters are accepted by Set and panic in every call, so do string and struct results; results after the first (errors) are dropped; two callbacks made at the same time can both run the same function. Refused by Set: int, uint, complex numbers, slices, maps, other structs. Floats are their bits."
  },
  {
   "property": "C139",
   "status": "partial",
   "theorems": [
    "C139_calls_partial",
    "C139_some_program",
    "C139_example",
    "C139_get_refuted",
    "C139_parameter_refuted",
    "C139_ok_refuted",
    "C139_wrap",
    "C139_nested_refuted"
   ],
   "note": "Proved for every API, in every order of visiting maps, for methods other than GET on paths without parameters. Refuted: the functions of GET operations and those of parameters end in a ReferenceError, a response of status 200 is rejected, below a parameter longer paths request another URL. Missing: the text of the program (a path element that is no JavaScript name makes it no program at all), arguments."
  },
  {
   "property": "C14",
   "status": "proved",
   "theorems": [
    "C14_empty_only_if_none_invoked",
    "C14_nil_only_if_some_invoked",
    "C14_live_listener_never_empty",
    "C14_send_wrapper"
   ],
   "note": ""
  },
  {
   "property": "C140",
   "status": "partial",
   "theorems": [
    "C140_page",
    "C140_noted_partial",
    "C140_example",
    "C140_order_refuted",
    "C140_setup_refuted"
   ],
   "note": "Exact for every program (notes not empty, no set up within set up): the page is what happened with the first note moved to the front; so right when the example begins with a note. Refuted: a first note given after a call is shown before it; a set up within a set up ends both, so later calls of the outer one are shown. Missing: concurrent calls, the text of samples."
  },
  {
   "property": "C141",
   "status": "partial",
   "theorems": [
    "C141_flat_partial",
    "C141_three",
    "C141_arrows",
    "C141_example",
    "C141_nested_refuted",
    "C141_previous_refuted",
    "C141_deep_refuted",
    "C141_room_refuted"
   ],
   "note": "Proved: one arrow per call, in the order they return, those of the example come from it; the diagram of an example without calls in calls is exact; no panic up to three calls in each other. Refuted: a call made by a function is drawn as a call of the example or of the function called before; four calls in each other end the page in a panic."
  },
  {
   "property": "C142",
   "status": "partial",
   "theorems": [
    "C142_format",
    "C142_operations",
    "C142_served",
    "C142_example",
    "C142_remainder_refuted",
    "C142_twice_refuted",
    "C142_root_refuted",
    "C142_options_refuted",
    "C142_pages"
   ],
   "note": "Proved for every API, order and format: each operation is yielded once in the format and, other than OPTIONS, served by its function. Refuted: the remainder format is never used; OPTIONS of every resource with a GET is yielded twice (http.ServeMux panics); GET / of the API hides or is yielded beside the index; with both GET and OPTIONS on a path the order of a Go map decides which serves OPTIONS. Noted: the form that answers a missing GET asks for no authentication."
  },
  {
   "property": "C143",
   "status": "partial",
   "theorems": [
    "C143_calls_partial",
    "C143_go_partial",
    "C143_example",
    "C143_interface_refuted",
    "C143_go_refuted",
    "C143_none_refuted",
    "C143_spread_refuted",
    "C143_global_refuted",
    "C143_receiver_refuted",
    "C143_conversion_refuted"
   ],
   "note": "Proved through the printer and Zig's grammar for every nesting of calls of package functions, function values in variables, methods whose receiver needs no & or *, and interface methods on variables, variadic or not, and for go statements of function values. Refuted: the receiver of an interface method is evaluated twice; go of a package function waits for it; variadic calls without variadic arguments, spread slices, function variables of the package, receivers that need & or *, and conversions are refused by Zig. Missing: builtins, immediately called function literals."
  },
  {
   "property": "C144",
   "status": "partial",
   "theorems": [
    "C144_query_partial",
    "C144_equality",
    "C144_match",
    "C144_pointers",
    "C144_elsewhere",
    "C144_example",
    "C144_empty_struct_refuted",
    "C144_tag_options_refuted",
    "C144_elsewhere_refuted",
    "C144_no_cases_refuted",
    "C144_open_table_refuted",
    "C144_second_index_refuted",
    "C144_no_columns_refuted"
   ],
   "note": "Proved for all types of structs, arrays and scalars with exported fields and different column names, every pointer and every tree of conditions. Refuted: Empty of several columns reads the first; tags with options, unexported fields, OpenTable and a second index column are queried wrongly or panic; Cases() is true."
  },
  {
   "property": "C145",
   "status": "partial",
   "theorems": [
    "C145_patch_partial",
    "C145_example",
    "C145_unexported_refuted"
   ],
   "note": "Proved for every list of parts of every type with exported fields and different column names; parts without columns panic, unexported ones are not sent."
  },
  {
   "property": "C146",
   "status": "partial",
   "theorems": [
    "C146_insert",
    "C146_set",
    "C146_search",
    "C146_search_all",
    "C146_lookup",
    "C146_unsafe_delete",
    "C146_delete",
    "C146_update",
    "C146_mutate",
    "C146_add",
    "C146_add_duplicate",
    "C146_example",
    "C146_zero_key_refuted",
    "C146_add_stored_refuted"
   ],
   "note": "Proved against a reference database for keys without floats other than the zero key, which every method refuses; Add with a database that chooses no key stores the record and answers that it did not. Errors of the database and its result channel are in C156."
  },
  {
   "property": "C147",
   "status": "partial",
   "theorems": [
    "C147_new_result",
    "C147_kinds",
    "C147_count_partial",
    "C147_example",
    "C147_signed_count_refuted"
   ],
   "note": "Proved for every row and for counts answered as uint64; signed answers wrap or are lost, and a failed Count answers 1 beside the error."
  },
  {
   "property": "C148",
   "status": "partial",
   "theorems": [
    "C148_unmanaged",
    "C148_one_operation_partial",
    "C148_second_operation_refuted",
    "C148_failure_commits_refuted",
    "C148_left_open_refuted",
    "C148_nested_refuted"
   ],
   "note": "Each operation closes the channel of the transaction, so only functions of one operation that succeed behave as documented."
  },
  {
   "property": "C149",
   "status": "partial",
   "theorems": [
    "C149_order",
    "C149_terminates",
    "C149_no_panic_partial",
    "C149_outcomes_partial",
    "C149_example",
    "C149_sender_not_woken_refuted",
    "C149_two_receivers_refuted",
    "C149_spurious_refuted",
    "C149_receiver_not_woken_refuted",
    "C149_waiter_forgotten_refuted",
    "C149_unbuffered_refuted",
    "C149_empty_struct_refuted",
    "C149_nil_refuted",
    "C149_full_refuted"
   ],
   "note": "For every program and schedule the channel is a queue, each goroutine's values keep their order and none is lost or doubled; runs end. With one receiver nothing panics, and if the channel is never full the outcome is one of Go. Otherwise: a sender waiting for room is never woken, two receivers can panic, channels hold one value more than asked for, struct{} channels panic and nil channels do not block. std.RingBuffer, Mutex and Condition are modelled as documented by Zig's library, which is not in /repo."
  },
  {
   "property": "C15",
   "status": "partial",
   "theorems": [
    "C15_uninterrupted_send_partial",
    "C15_list_is_the_log",
    "C15_cancelled_listener_invoked_refuted",
    "C15_neighbours_refuted",
    "C15_race_refuted"
   ],
   "note": "the code does not have this property: three executions in which a cancelled listener is invoked are exhibited; proved only for a Send that is not interrupted, with no cancelled listener first or behind another cancelled one"
  },
  {
   "property": "C150",
   "status": "partial",
   "theorems": [
    "C150_distinct_partial",
    "C150_prefix",
    "C150_alike",
    "C150_typeable",
    "C150_example",
    "C150_packages_refuted",
    "C150_local_refuted",
    "C150_names_refuted",
    "C150_uintptr_refuted",
    "C150_basics",
    "C150_results_refuted",
    "C150_direction_refuted",
    "C150_variadic_refuted",
    "C150_error_refuted",
    "C150_reflect_numbers",
    "C150_reflect_all_numbers",
    "C150_reflect_refuted"
   ],
   "note": "Proved for every type: exactly the typeable types have a text, texts are prefix-free, and types of one text are alike (same up to channel directions, variadicness, embedding, tags, package path, which type of one name) when no package or type has one of four names. Refuted: packages of one name, local and generic types of one name, a type named bool or void, uint and uintptr, functions of several results, error, and reflection of string, bool and complex numbers."
  },
  {
   "property": "C151",
   "status": "partial",
   "theorems": [
    "C151_headers",
    "C151_preflight",
    "C151_browser_partial",
    "C151_simple",
    "C151_closed",
    "C151_example",
    "C151_get_handler_refuted",
    "C151_function_refuted",
    "C151_order_refuted",
    "C151_form_refuted",
    "C151_cache_refuted",
    "C151_pages",
    "C151_get_handler",
    "C151_nowhere",
    "C151_nowhere_example"
   ],
   "note": "Proved against the browser's side of the CORS protocol: answers carry exactly the rules decided, and scripts get answers exactly as allowed, when no preflight is needed or the rules for the zero Function are those for the function. Refuted for rules per function, for resources with an OPTIONS function, for forms, and behind a cache. A request is identified by the pattern it matches."
  },
  {
   "property": "C152",
   "status": "partial",
   "theorems": [
    "C152_added",
    "C152_ten",
    "C152_ten_reached",
    "C152_sensitive",
    "C152_first",
    "C152_others",
    "C152_caller_partial",
    "C152_caller_refuted",
    "C152_without",
    "C152_leak_refuted",
    "C152_example"
   ],
   "note": "Proved for every chain of redirects: each request carries what is added and the rest is as net/http has it. The request of the caller loses its own headers of those names, and what is added goes to any place redirected to, also where net/http would withhold it. Redirects of net/http are modelled as documented."
  },
  {
   "property": "C153",
   "status": "partial",
   "theorems": [
    "C153_moved_partial",
    "C153_go_lists",
    "C153_zig_lists_partial",
    "C153_unshared_partial",
    "C153_make_refuted",
    "C153_copy_refuted",
    "C153_grown_in_place_refuted",
    "C153_grown_in_place_append_refuted",
    "C153_full_refuted",
    "C153_example",
    "C153_example_unshared"
   ],
   "note": "Proved for every program, sharing arrays or not, if memory is never made longer in place, make is asked for empty slices and nothing is copied to a shorter slice; and without the first of these if no two variables share an array. Otherwise: make leaves elements undefined, copying to a shorter slice panics, and append to a full slice may go on sharing its elements. Slicing expressions, cap, appending several values and assigning to elements do not compile, so they are not in the model. std.ArrayListUnmanaged, ArenaAllocator and copyForwards are as Zig's library documents them, which is not in /repo."
  },
  {
   "property": "C154",
   "status": "partial",
   "theorems": [
    "C154_compiles",
    "C154_plain_partial",
    "C154_range_partial",
    "C154_op_refuted",
    "C154_rest_refuted",
    "C154_dropped_refuted",
    "C154_exchange_refuted",
    "C154_two_refused",
    "C154_full_refuted",
    "C154_range_refuted",
    "C154_example"
   ],
   "note": "Proved for every memory: one target and = (or a variable and an operator) is what Go does, panics included, and slices of arrays with a high bound are Go's. Otherwise: an operator on *p or m[k] stores the operand; after an element of a map on the left everything is left out; two targets otherwise do not compile; a missing high bound of a slice of an array is 0. Values of interface types and other key types than strings (which do not compile) are left out; that two emitted pieces never form one Zig statement is argued in a comment, not proved."
  },
  {
   "property": "C155",
   "status": "partial",
   "theorems": [
    "C155_settled_partial",
    "C155_rounds",
    "C155_call_panics",
    "C155_no_value",
    "C155_late_refuted",
    "C155_late_global_refuted",
    "C155_panic_refuted",
    "C155_block_refused",
    "C155_loop_refused",
    "C155_full_refuted",
    "C155_example",
    "C155_example_loop"
   ],
   "note": "Proved for every function, with for loops (any number of rounds: what has come to an end stays), and every behaviour of what it calls, if what the arguments of deferred calls read is not assigned to after the defer statement: same order, same calls, same result; with a panic, what is printed is what Go prints first. Otherwise: arguments are evaluated when the function ends, a panic leaves the deferred calls out, a defer in a block does not compile. range, switch, recover, deferred function literals are left out."
  },
  {
   "property": "C156",
   "status": "partial",
   "theorems": [
    "C156_beginning",
    "C156_stopped",
    "C156_ends",
    "C156_never_told",
    "C156_success_told",
    "C156_short_told_partial",
    "C156_nil_row_tells",
    "C156_nil_row_is_an_entry_refuted",
    "C156_long_refuted",
    "C156_lookup_refuted",
    "C156_lookup",
    "C156_lookup_nil_row",
    "C156_bad_row_told",
    "C156_over_is_over",
    "C156_start_told",
    "C156_cancelled_left_open_refuted",
    "C156_output_told",
    "C156_output_values",
    "C156_output_none_refuted",
    "C156_output_cancelled",
    "C156_output_cancelled_told",
    "C156_example"
   ],
   "note": "Proved for every schedule: the loop sees a beginning of what matches and ends; it sees everything if the job succeeds, which it does if the database does not fail and at most 64 rows match; rows that do not decode, and searches that cannot begin, are reported; Count reports its job's failure. Refuted for a failing or cancelled job: with a database that keeps to sodium's contract no failure is ever reported, a lookup that failed answers that there is no entry, and with more than 64 rows a loop slower than the database ends after 64 of them with a nil issue. A nil row (not in the contract) would report a failure, but after success it is an entry of its own. /repo has no implementation of sodium.Database: its side is what sodium/sql.go documents."
  },
  {
   "property": "C157",
   "status": "partial",
   "theorems": [
    "C157_sound_partial",
    "C157_exactly",
    "C157_full_partial",
    "C157_short_refuted",
    "C157_field_refuted",
    "C157_index_refuted",
    "C157_elided_refuted",
    "C157_full_refuted",
    "C157_example",
    "C157_example_go"
   ],
   "note": "Proved for every literal: what compiles has Go's value, with the same calls in the same order and the same panics; and what compiles is exactly what is written in full. Refuted: an array with fewer elements, a struct without one of its fields, an element with an index and a literal without its type are no programs. Left out: &T{}, elements converted to interfaces, names of fields that are words of Zig."
  },
  {
   "property": "C158",
   "status": "partial",
   "theorems": [
    "C158_range_partial",
    "C158_rounds",
    "C158_elements",
    "C158_label_refuted",
    "C158_full_refuted",
    "C158_refused",
    "C158_example"
   ],
   "note": "Proved for every nesting of loops over slices, ifs, breaks and continues, and every number of rounds: with no labelled break (and under C153's conditions: make of empty slices, no growth in place, no copy to a shorter slice) every run of the compiled program is one of Go; the number of rounds is fixed when the loop begins, and each element is read in its round. Refuted: break to the loop's own label goes on with the loop; a loop without variables, an index put in a slice, and continue with a label do not compile. Left out: for k, v = range; ranges over strings, arrays, maps and channels (zgo refuses them)."
  },
  {
   "property": "C159",
   "status": "partial",
   "theorems": [
    "C159_whole_partial",
    "C159_append_refuted",
    "C159_full_refuted",
    "C159_example"
   ],
   "note": "Proved for every program and every length: where append is only given slices that are not the beginning of a longer array (and under C153's conditions: make of empty slices, no growth in place, no copy to a shorter slice), every run of the compiled program is one of Go, panics included. Refuted for every array: append to the beginning of an array gets new memory, where Go writes the next element of the array. Left out: slices that do not begin with the first element; an index that is left out is in C154."
  },
  {
   "property": "C16",
   "status": "proved",
   "theorems": [
    "C16_error_stops_and_is_returned",
    "C16_earlier_listeners_served"
   ],
   "note": ""
  },
  {
   "property": "C160",
   "status": "partial",
   "theorems": [
    "C160_leading_partial",
    "C160_exactly",
    "C160_go_runs",
    "C160_go_assigned",
    "C160_first_int_refuted",
    "C160_wrong_field_refuted",
    "C160_full_refuted",
    "C160_example"
   ],
   "note": "Proved for every struct type and program: where what is embedded is the first field, in that the second, and so on (so always for fields that are not promoted), the compiled program is accepted and does what Go does; and a promoted selector is compiled to the field Go means exactly then. Refuted: when the first field is an int a promoted selector is refused or the parser panics; when the first field is a struct with a field of the same name, that one is read and written instead. Left out: pointers (refused by Zig), methods."
  },
  {
   "property": "C161",
   "status": "partial",
   "theorems": [
    "C161_interfaces_partial",
    "C161_compiled",
    "C161_exactly",
    "C161_go_keeps",
    "C161_parameters_refuted",
    "C161_fields_refuted",
    "C161_promoted_refuted",
    "C161_assigned_refuted",
    "C161_full_refuted",
    "C161_example"
   ],
   "note": "Proved for every set of types and every program, whatever the methods do: a program that is accepted does what it does in Go; and it is accepted exactly when all methods have named receivers and no parameters, only structs without fields are put into interfaces, by a conversion or a declaration with a value, and methods are called on the type that declares them. Refuted: a method with parameters makes the program no Zig; values with fields or of types that are no struct, promoted methods, and interfaces that are assigned or declared without a conversion are refused. Left out: results, packages, pointers, empty interfaces, type assertions (which are printed as Go)."
  },
  {
   "property": "C162",
   "status": "partial",
   "theorems": [
    "C162_page_partial",
    "C162_fields_partial",
    "C162_served",
    "C162_browser",
    "C162_schema",
    "C162_neither",
    "C162_denied",
    "C162_patch_refuted",
    "C162_several_refuted",
    "C162_unknown_refuted",
    "C162_unauthenticated_refuted",
    "C162_example"
   ],
   "note": "Proved for every resource, operation, rules and request: which requests run the operation, which get the page or a schema; the page has one tab and one form for each GET, POST, PUT and DELETE, in this order; with different rules, or with one body, the schema is that of what the operation takes. Refuted: operations of other methods (PATCH) have no form; several bodies without rules have a form of one field without a name, for the last of them; a method that is not there is answered like one without a body; a resource without a GET shows its forms and schemas without authorisation. Types and schemas are parameters (C124, C125); headers, script and documentation on the page are left out."
  },
  {
   "property": "C163",
   "status": "partial",
   "theorems": [
    "C163_println_partial",
    "C163_floats_partial",
    "C163_exactly",
    "C163_floats_refuted",
    "C163_named_refuted",
    "C163_many_refuted",
    "C163_full_refuted",
    "C163_example"
   ],
   "note": "Proved through the printed format and Zig's reading of it for every list of at most 32 integers, texts and truth values; and exactly the lists of at most 32 values of unnamed basic types (but complex ones) compile. Refuted: floats are printed as Zig prints them (println(1.0) prints 1e0), arguments of other or named types and more than 32 of them are refused. The digits of integers are a parameter of both; evaluation of arguments is in C129 and C143."
  },
  {
   "property": "C164",
   "status": "partial",
   "theorems": [
    "C164_described_partial",
    "C164_reversed_partial",
    "C164_highest_refuted",
    "C164_amd64_refuted",
    "C164_arm64_refuted",
    "C164_length_refuted",
    "C164_full_refuted",
    "C164_example"
   ],
   "note": "Proved for every tag whose words have eight bits and every arguments, when the places of a letter follow one another (other letters do not come between them), the letter is in no brackets and its argument needs one bit less than the letter has places; in the order of the tag, and reversed (arm64) as the tag with its words in the other order. Refuted: the highest bit of an argument is always lost (a register of five places keeps four bits, for all arguments); brackets count as places, so that ADD of amd64 writes both registers moved by one bit, for all registers; ADD of arm64, reversed, never writes the lowest two bits of its second register, as it is in two bytes; a word of another length than eight bits panics, for every tag and order."
  },
  {
   "property": "C17",
   "status": "proved",
   "theorems": [
    "C17_registrations_never_lost"
   ],
   "note": ""
  },
  {
   "property": "C18",
   "status": "proved",
   "theorems": [
    "C18_use_after_end_detected",
    "C18_use_after_free_detected",
    "C18_detected_forever"
   ],
   "note": "histories of fewer than 2^62-1 revision increments; single goroutine; Copy of a stale pointer is C64"
  },
  {
   "property": "C19",
   "status": "partial",
   "theorems": [
    "C19_end_frees_each_once_partial",
    "C19_free_newest_partial",
    "C19_lent_not_released_partial",
    "C19_older_freed_first_leaks_refuted",
    "C19_both_freed_end_panics_refuted",
    "C19_end_frees_foreign_pointer_refuted",
    "C19_nil_api_leaks_refuted"
   ],
   "note": "holds when pointers are freed by hand newest first and APIs are not nil; otherwise the code leaks, panics or frees a foreign pointer, as the refutations show"
  },
  {
   "property": "C20",
   "status": "partial",
   "theorems": [
    "C20_double_free_detected_partial",
    "C20_zero_value_double_free_refuted"
   ],
   "note": "fails for raw value zero"
  },
  {
   "property": "C21",
   "status": "partial",
   "theorems": [
    "C21_copy_changes_api_object_refuted",
    "C21_copies_freed_twice_refuted"
   ],
   "note": "the code does not have this property: the API object itself is used as the counter and both copies are freed"
  },
  {
   "property": "C22",
   "status": "proved",
   "theorems": [
    "C22_pinned_never_moved_or_copied"
   ],
   "note": "histories of fewer than 2^62-1 revision increments"
  },
  {
   "property": "C23",
   "status": "partial",
   "theorems": [
    "C23_end_twice_harmless_partial",
    "C23_pinned_zero_lifetime_refuted"
   ],
   "note": "proved for lifetimes from NewLifetime; fails for the lifetime of a pinned pointer with raw value zero"
  },
  {
   "property": "C24",
   "status": "partial",
   "theorems": [
    "C24_short_writes_delivered_partial",
    "C24_one_array_any_writer_partial",
    "C24_long_WriteBytes_delivers_nothing_refuted",
    "C24_long_WriteString_panics_refuted",
    "C24_refuted"
   ],
   "note": "holds up to 16 bytes; beyond that the code delivers nothing (WriteBytes) or makes the receiver panic (WriteString), proved for all such data"
  },
  {
   "property": "C25",
   "status": "partial",
   "theorems": [
    "C25_short_runs_delivered_partial",
    "C25_long_runs_lost_refuted",
    "C25_refuted",
    "C25_flush_error_keeps_bytes",
    "C25_write_reports_failed_flush",
    "C25_buffered_write",
    "C25_buffer_bounded"
   ],
   "note": "holds when at most 16 bytes are written between flushes; longer runs are lost whole"
  },
  {
   "property": "C26",
   "status": "proved",
   "theorems": [
    "C26_lookup_last_committed",
    "C26_values_exact",
    "C26_abstract_map_exists",
    "C26_abstract_map_unique",
    "C26_values_stops_early"
   ],
   "note": "Leibniz key equality (no NaN), no nil interface values stored; single goroutine"
  },
  {
   "property": "C27",
   "status": "partial",
   "theorems": [
    "C27_absent_key_panics_refuted",
    "C27_opened_absent_key_partial",
    "C27_opened_lookup_transparent"
   ],
   "note": "the map made by New panics on every absent key; a map opened on a database forwards its answer"
  },
  {
   "property": "C28",
   "status": "proved",
   "theorems": [
    "C28_commit_order_and_errors",
    "C28_commit_effect",
    "C28_set_and_del_of_an_opened_map"
   ],
   "note": ""
  },
  {
   "property": "C29",
   "status": "proved",
   "theorems": [
    "C29_refines_abstract_map",
    "C29_abstract_map_deterministic"
   ],
   "note": "in-memory map, one goroutine (concurrency is C65)"
  },
  {
   "property": "C30",
   "status": "partial",
   "theorems": [
    "C30_keys_distinct_uint_partial",
    "C30_keys_distinct_int_partial",
    "C30_add_answers",
    "C30_add_never_overwrites",
    "C30_add_failure_changes_nothing",
    "C30_keys_repeat_refuted"
   ],
   "note": "any number of goroutines and schedules; distinctness fails after 2^w draws when a key was deleted, as the refutation shows"
  },
  {
   "property": "C31",
   "status": "partial",
   "theorems": [
    "C31_delete_respects_slice_partial",
    "C31_update_respects_slice_partial",
    "C31_count_right_from_zero_partial",
    "C31_no_range_deletes_refuted",
    "C31_nil_query_panics_refuted",
    "C31_empty_slice_deletes_refuted",
    "C31_count_includes_skipped_refuted"
   ],
   "note": "the set of touched records is right when upto >= 1; the count only when from = 0; no refusal without a range"
  },
  {
   "property": "C32",
   "status": "partial",
   "theorems": [
    "C32_search_exact_partial",
    "C32_search_stops_early",
    "C32_tables_have_distinct_keys",
    "C32_slice_ignored_refuted"
   ],
   "note": "proved without a Slice condition, which the in-memory Search ignores; sort.Slice enters as a contract, met by insertion sort"
  },
  {
   "property": "C33",
   "status": "partial",
   "theorems": [
    "C33_key_order_sorted_partial",
    "C33_sort_contract_met",
    "C33_value_order_refuted",
    "C33_two_orders_refuted"
   ],
   "note": "holds for one order on the key; orders on values and several orders are wrong in the code"
  },
  {
   "property": "C34",
   "status": "partial",
   "theorems": [
    "C34_round_trip_partial",
    "C34_unexported_field_panics_refuted",
    "C34_pointer_lost_refuted"
   ],
   "note": "all types without unexported fields; with one, decoding panics although the documentation says it is ignored"
  },
  {
   "property": "C35",
   "status": "partial",
   "theorems": [
    "C35_columns_match_values_partial",
    "C35_unexported_field_refuted"
   ],
   "note": "all types without unexported fields; an unexported field gets a column but no value"
  },
  {
   "property": "C36",
   "status": "proved",
   "theorems": [
    "C36_combinators_are_boolean",
    "C36_query_is_conjunction",
    "C36_merge_with_slice_ignores_conditions_refuted"
   ],
   "note": "conditions evaluated in memory; mixing a Slice or Order into Merge disables the conditions beside it, shown by the refutation"
  },
  {
   "property": "C37",
   "status": "partial",
   "theorems": [
    "C37_values_partial",
    "C37_integers_partial",
    "C37_empty_refuted"
   ],
   "note": "every non-empty duplex number; the empty one panics"
  },
  {
   "property": "C38",
   "status": "partial",
   "theorems": [
    "C38_marshal_partial",
    "C38_unmarshal_text_partial",
    "C38_json_round_trip_partial",
    "C38_unknown_numbers",
    "C38_bool_refuted",
    "C38_overflow_refuted",
    "C38_uintptr_refuted",
    "C38_space_refuted",
    "C38_unknown_json_refuted"
   ],
   "note": "all switches with distinct names whose storage has room for them; fewer fields than bool values, overflowing storage, uintptr, names with spaces and unknown numbers in JSON are refuted; fmt of floats is a parameter"
  },
  {
   "property": "C39",
   "status": "partial",
   "theorems": [
    "C39_memory_partial",
    "C39_interface_partial",
    "C39_string_partial",
    "C39_fits",
    "C39_few",
    "C39_numbers",
    "C39_numeric_refuted",
    "C39_slice_struct_refuted",
    "C39_string_refuted",
    "C39_nil_refuted"
   ],
   "note": "array, pointer-free and interface storage, and string storage where scanning undoes printing; numeric storage forgets payloads, slices and structs panic"
  },
  {
   "property": "C40",
   "status": "partial",
   "theorems": [
    "C40_pair_partial",
    "C40_text_storage_refuted",
    "C40_field_name_refuted"
   ],
   "note": "when no earlier case takes the key by its key or its field name"
  },
  {
   "property": "C41",
   "status": "partial",
   "theorems": [
    "C41_objects_partial",
    "C41_discriminated_partial",
    "C41_kinds_partial",
    "C41_null_partial",
    "C41_texts_partial",
    "C41_nameless_refuted",
    "C41_object_first_refuted",
    "C41_text_first_refuted",
    "C41_escaped_refuted",
    "C41_string_kind_refuted"
   ],
   "note": "the documented forms each on their own; mixtures of forms are refuted; encoding/json on payloads is a parameter"
  },
  {
   "property": "C42",
   "status": "proved",
   "theorems": [
    "C42_expand",
    "C42_pair_round_trip",
    "C42_trio_round_trip",
    "C42_quad_round_trip",
    "C42_only_arrays",
    "C42_trio_only_arrays",
    "C42_quad_only_arrays"
   ],
   "note": ""
  },
  {
   "property": "C43",
   "status": "partial",
   "theorems": [
    "C43_included_partial",
    "C43_omitted",
    "C43_independent_partial",
    "C43_copy_refuted",
    "C43_null_payload_refuted"
   ],
   "note": "payloads not written as null, variables not copied; copies share storage"
  },
  {
   "property": "C44",
   "status": "proved",
   "theorems": [
    "C44_encoder_writes_json_strings",
    "C44_round_trip",
    "C44_valid_strings",
    "C44_no_control_characters"
   ],
   "note": ""
  },
  {
   "property": "C45",
   "status": "partial",
   "theorems": [
    "C45_encode_int",
    "C45_encode_uint",
    "C45_decode_int",
    "C45_decode_uint",
    "C45_delimiter_at_segment_end_refuted"
   ],
   "note": "every integer encodes and decodes; but when the delimiter after it falls on the last byte of a 256-byte segment the decoder panics going on"
  },
  {
   "property": "C46",
   "status": "partial",
   "theorems": [
    "C46_round_trip_partial",
    "C46_decode_partial",
    "C46_array_too_long",
    "C46_encodes",
    "C46_empty_slice_refuted",
    "C46_empty_map_refuted",
    "C46_two_fields_refuted",
    "C46_array_refuted",
    "C46_nil_refuted"
   ],
   "note": "proved for nested non-empty slices, maps with string keys, pointers and one-field structs; the code fails on empty ones, on structs with two fields, on arrays and nil"
  },
  {
   "property": "C47",
   "status": "partial",
   "theorems": [
    "C47_true",
    "C47_false_partial",
    "C47_false_refuted",
    "C47_spelling_refuted",
    "C47_float_partial",
    "C47_negative_float_refuted",
    "C47_whole_float_refuted",
    "C47_null_refuted"
   ],
   "note": "true and unsigned decimals are right; false does not clear the target, other spellings are accepted, negative fractions, whole numbers and null are wrong"
  },
  {
   "property": "C48",
   "status": "partial",
   "theorems": [
    "C48_chunks_partial",
    "C48_cut_string_refuted"
   ],
   "note": "proved for chunks that are multiples of the 256-byte buffer (any last chunk); a string cut elsewhere is truncated"
  },
  {
   "property": "C49",
   "status": "partial",
   "theorems": [
    "C49_base64_partial",
    "C49_empty_refuted",
    "C49_decode_refuted"
   ],
   "note": "every non-empty slice is written as standard base64; the empty slice is written as \"null\", and the decoder does not read base64"
  },
  {
   "property": "C50",
   "status": "partial",
   "theorems": [
    "C50_server_frame_partial",
    "C50_client_frame_partial",
    "C50_conversation_partial",
    "C50_long_server_frame_refuted",
    "C50_long_client_frame_refuted"
   ],
   "note": "proved below 126 bytes of payload; the code drops the extended length, so it fails for every longer payload"
  },
  {
   "property": "C51",
   "status": "partial",
   "theorems": [
    "C51_unmasked_delivered",
    "C51_palindromic_key_partial",
    "C51_other_keys_refuted"
   ],
   "note": "proved for unmasked frames and palindromic keys; wrong for every other key"
  },
  {
   "property": "C52",
   "status": "partial",
   "theorems": [
    "C52_dispatch_partial",
    "C52_not_found_partial",
    "C52_short_path_refuted",
    "C52_binding_refuted",
    "C52_any_method",
    "C52_empty_segment_refuted"
   ],
   "note": "all tables in which no literal is a method name and each placeholder name has one position; a path one placeholder short is dispatched, and reused names are bound to the wrong segment"
  },
  {
   "property": "C53",
   "status": "partial",
   "theorems": [
    "C53_same_method_partial",
    "C53_method_name_in_path_refuted"
   ],
   "note": "proved when no path segment is a method name; DELETE /GET runs the handler of GET /"
  },
  {
   "property": "C54",
   "status": "partial",
   "theorems": [
    "C54_accessors_partial",
    "C54_cleanup_partial",
    "C54_double_space_refuted",
    "C54_unknown_method_refuted",
    "C54_equals_in_literal_refuted"
   ],
   "note": "all tags with single spaces, a known method and no equals sign in a path literal; the accessors panic on two spaces in a row, unknown methods read as GET"
  },
  {
   "property": "C55",
   "status": "partial",
   "theorems": [
    "C55_resolves_partial",
    "C55_distinct",
    "C55_unknown",
    "C55_zero",
    "C55_free_refuted"
   ],
   "note": "everything but freeing: Free does nothing because End deletes under another key type, so a freed handle still resolves"
  },
  {
   "property": "C56",
   "status": "partial",
   "theorems": [
    "C56_size_partial",
    "C56_complex64_refuted",
    "C56_bool_refuted"
   ],
   "note": "types without bool and complex64; those two are refuted"
  },
  {
   "property": "C57",
   "status": "partial",
   "theorems": [
    "C57_one_partial",
    "C57_two_partial",
    "C57_more_refuted"
   ],
   "note": "reads of one and two elements; three or more are refuted"
  },
  {
   "property": "C58",
   "status": "partial",
   "theorems": [
    "C58_fits",
    "C58_round_trip",
    "C58_sixteen",
    "C58_can_partial",
    "C58_refuses",
    "C58_large",
    "C58_value_type_refuted",
    "C58_try_refuted",
    "C58_array_refuted"
   ],
   "note": "NewCache and Cached are proved for all cacheable types; another value type under the same key type is not refused, TryCache gives states that cannot be used, and arrays of pointers count as cacheable"
  },
  {
   "property": "C59",
   "status": "partial",
   "theorems": [
    "C59_live",
    "C59_otherwise_partial",
    "C59_state",
    "C59_again",
    "C59_other_api_refuted"
   ],
   "note": "when the new proxy implements the API of the old value; otherwise it panics after allocating"
  },
  {
   "property": "C60",
   "status": "partial",
   "theorems": [
    "C60_json_partial",
    "C60_order_partial",
    "C60_unregistered_partial",
    "C60_only_any",
    "C60_any_partial",
    "C60_call_refuted",
    "C60_same_type_refuted"
   ],
   "note": "serialisation is proved; calling a registered function panics unless its receiver is of type any"
  },
  {
   "property": "C61",
   "status": "proved",
   "theorems": [
    "C61_registration_order",
    "C61_never_reads_unset_listener"
   ],
   "note": ""
  },
  {
   "property": "C62",
   "status": "proved",
   "theorems": [
    "C62_writer_failure_reported"
   ],
   "note": ""
  },
  {
   "property": "C63",
   "status": "partial",
   "theorems": [
    "C63_moved_pointer_unusable_refuted"
   ],
   "note": "the code does not have this property"
  },
  {
   "property": "C64",
   "status": "partial",
   "theorems": [
    "C64_stale_copy_changes_other_pointer_refuted"
   ],
   "note": "the code does not have this property"
  },
  {
   "property": "C65",
   "status": "partial",
   "theorems": [
    "C65_mutate_atomic_partial",
    "C65_mutual_exclusion",
    "C65_set_lost_refuted"
   ],
   "note": "Mutate, Delete and Lookup are linearisable among themselves; writers that do not take the lock can be lost"
  },
  {
   "property": "C66",
   "status": "proved",
   "theorems": [
    "C66_count_exact",
    "C66_length_exact"
   ],
   "note": ""
  },
  {
   "property": "C67",
   "status": "proved",
   "theorems": [
    "C67_first_exact"
   ],
   "note": ""
  },
  {
   "property": "C68",
   "status": "partial",
   "theorems": [
    "C68_sum_panics_refuted"
   ],
   "note": "the code does not have this property: Sum panics on any matching record without a database"
  },
  {
   "property": "C69",
   "status": "partial",
   "theorems": [
    "C69_documented_names_partial",
    "C69_documented_names_unique",
    "C69_deep_struct_refuted",
    "C69_nested_array_refuted"
   ],
   "note": "holds where no struct field lies two structs deep and no array one struct deep; the code repeats the outer path below that"
  },
  {
   "property": "C70",
   "status": "partial",
   "theorems": [
    "C70_text_frame_crashes_server_refuted"
   ],
   "note": "the code does not have this property: any text frame crashes the server"
  },
  {
   "property": "C71",
   "status": "partial",
   "theorems": [
    "C71_channel_functions_refuted"
   ],
   "note": "the code does not have this property: reflect.MakeChan is called with a directional channel type"
  },
  {
   "property": "C72",
   "status": "proved",
   "theorems": [
    "C72_events_exact",
    "C72_events_prefix",
    "C72_json_exact",
    "C72_json_prefix",
    "C72_channel_first_or_last",
    "C72_channel_prefix"
   ],
   "note": "JSON encoding is a parameter whose output contains no line terminators; write errors not modelled"
  },
  {
   "property": "C73",
   "status": "partial",
   "theorems": [
    "C73_lines_delivered_partial",
    "C73_carriage_returns_partial",
    "C73_first_event_panics_refuted"
   ],
   "note": "the reading loop is right for events under 64 KiB; the client then sends on a receive-only channel and panics"
  },
  {
   "property": "C74",
   "status": "partial",
   "theorems": [
    "C74_path_kept_partial",
    "C74_path_lost_at_root_refuted",
    "C74_path_cut_deeper_refuted"
   ],
   "note": "holds only when the failure is exactly one level down"
  },
  {
   "property": "C75",
   "status": "partial",
   "theorems": [
    "C75_parameters_partial",
    "C75_field_parameter",
    "C75_bad_number_refuted"
   ],
   "note": "all well-formed tags; %[0]v, negative numbers and empty formats panic"
  },
  {
   "property": "C76",
   "status": "partial",
   "theorems": [
    "C76_call_partial",
    "C76_slash_refuted",
    "C76_empty_refuted",
    "C76_bodyless_refuted"
   ],
   "note": "all tags, tables and arguments for scalar path/query arguments and any body arguments; path arguments with a slash or empty text, and body arguments of GET/DELETE, are lost"
  },
  {
   "property": "C77",
   "status": "partial",
   "theorems": [
    "C77_slice_query_refuted"
   ],
   "note": "refuted for every slice: the client writes name, the server reads name[]"
  },
  {
   "property": "C78",
   "status": "partial",
   "theorems": [
    "C78_several_body_refuted"
   ],
   "note": "refuted: every such call is rejected"
  },
  {
   "property": "C79",
   "status": "proved",
   "theorems": [
    "C79_unsupported_kinds_reported"
   ],
   "note": ""
  },
  {
   "property": "C80",
   "status": "proved",
   "theorems": [
    "C80_opened_values_in_order"
   ],
   "note": ""
  },
  {
   "property": "C81",
   "status": "partial",
   "theorems": [
    "C81_get_returns_last_set_partial",
    "C81_set_succeeds_partial",
    "C81_new_succeeds_partial"
   ],
   "note": "proved for histories that free by hand only the newest pointer of a lifetime and use no Move, Copy, Let or Life; the code loses the property outside them (see C19, C20)"
  },
  {
   "property": "C82",
   "status": "partial",
   "theorems": [
    "C82_ping_answered_partial",
    "C82_pong_and_close_frames_partial",
    "C82_other_frames_skipped_partial",
    "C82_pong_data_lost_refuted",
    "C82_close_ignored_refuted"
   ],
   "note": "pings are answered and unknown frames skipped for every length and key; the pong drops the ping's data and a close frame is ignored"
  },
  {
   "property": "C83",
   "status": "partial",
   "theorems": [
    "C83_decoder_reads_json_strings_partial",
    "C83_surrogate_pairs_refuted"
   ],
   "note": "all forms but escaped surrogate pairs"
  },
  {
   "property": "C84",
   "status": "partial",
   "theorems": [
    "C84_out_of_range_refuted",
    "C84_out_of_range_unsigned_refuted"
   ],
   "note": "the code stores integers modulo the width of the target without an error, proved for all of them"
  },
  {
   "property": "C85",
   "status": "partial",
   "theorems": [
    "C85_shared_partial",
    "C85_race_refuted"
   ],
   "note": "holds once the first call has returned before any other began; two first calls at the same time get different accessors"
  },
  {
   "property": "C86",
   "status": "partial",
   "theorems": [
    "C86_numbers",
    "C86_settable",
    "C86_nil_refuted"
   ],
   "note": "set and read are proved for all histories; asking for nil panics"
  },
  {
   "property": "C87",
   "status": "proved",
   "theorems": [
    "C87_length",
    "C87_bytes",
    "C87_decode",
    "C87_copy"
   ],
   "note": ""
  },
  {
   "property": "C88",
   "status": "partial",
   "theorems": [
    "C88_args_refuted",
    "C88_numbers_refuted",
    "C88_strings_partial"
   ],
   "note": "strings returned by functions without parameters; parameters and numeric results are refuted"
  },
  {
   "property": "C89",
   "status": "proved",
   "theorems": [
    "C89_types_json"
   ],
   "note": ""
  },
  {
   "property": "C90",
   "status": "partial",
   "theorems": [
    "C90_kept_partial",
    "C90_omitempty_partial",
    "C90_omitzero_refuted",
    "C90_omitempty_refuted",
    "C90_dash_refuted",
    "C90_unnamed_refuted"
   ],
   "note": "fields without options are always written; omitzero leaves a field out whatever its value, omitempty looks at the whole struct, '-' is written, and a nameless tag is written under a name that is not read"
  },
  {
   "property": "C91",
   "status": "partial",
   "theorems": [
    "C91_program_partial",
    "C91_adc_registers_refuted",
    "C91_adc_eax_refuted",
    "C91_add_memory_refuted",
    "C91_bitwise_memory_panics_refuted",
    "C91_memory_bitwise_refuted",
    "C91_adc_memory16_panics_refuted",
    "C91_adc_memory32_refuted",
    "C91_rsp_refuted",
    "C91_rbp_refuted",
    "C91_complete"
   ],
   "note": "proved for all programs of the forms listed in sound; every other allowed form is shown to be encoded wrongly or to panic"
  },
  {
   "property": "C92",
   "status": "partial",
   "theorems": [
    "C92_extended_refuted",
    "C92_both_partial",
    "C92_adc_memory_partial",
    "C92_memory_value_partial",
    "C92_memory_value16_refuted",
    "C92_register_value_refuted"
   ],
   "note": "register to register forms swap the two REX bits; memory forms with carry are right"
  },
  {
   "property": "C93",
   "status": "partial",
   "theorems": [
    "C93_encoding_partial",
    "C93_program_partial",
    "C93_abs_refuted",
    "C93_addg_refuted",
    "C93_addpt_refuted",
    "C93_zero_modifier_refuted",
    "C93_hints_refuted",
    "C93_label_refuted",
    "C93_cmp_refuted",
    "C93_at_refuted",
    "C93_negative_refuted"
   ],
   "note": "proved for all operands of the calls listed in exact_call and for programs of any length; the other calls are shown to be encoded as other instructions or as none"
  },
  {
   "property": "C94",
   "status": "partial",
   "theorems": [
    "C94_accepts",
    "C94_wide_partial",
    "C94_half_partial",
    "C94_narrow_refuted",
    "C94_and_partial",
    "C94_rejects",
    "C94_and_refuted"
   ],
   "note": "which values are accepted is proved for all 2^64 of them; the encoding is right for patterns that do not repeat after 32 bits, and shown wrong for those that repeat after 16"
  },
  {
   "property": "C95",
   "status": "partial",
   "theorems": [
    "C95_error_dropped_refuted",
    "C95_no_error_partial"
   ],
   "note": "when no call fails nothing is lost; the error of a failed call is dropped"
  },
  {
   "property": "C96",
   "status": "partial",
   "theorems": [
    "C96_into_partial",
    "C96_from_partial",
    "C96_round_trip_partial",
    "C96_struct_partial",
    "C96_nil_refuted",
    "C96_map_refuted",
    "C96_map_empty_partial"
   ],
   "note": "all 1:1 mappings without Map; a nil slice arrives as an empty one, and Map loses every entry"
  },
  {
   "property": "C97",
   "status": "partial",
   "theorems": [
    "C97_renamed_partial",
    "C97_nil",
    "C97_no_field",
    "C97_unknown",
    "C97_unpaired_partial",
    "C97_nested_refuted",
    "C97_unexported_refuted"
   ],
   "note": "pairs of top level fields of structs whose fields are all exported; pairs with nested fields are not renamed and unexported fields make it panic"
  },
  {
   "property": "C98",
   "status": "partial",
   "theorems": [
    "C98_line_partial",
    "C98_json_partial",
    "C98_namespace_partial",
    "C98_prefix_partial",
    "C98_inside_refuted",
    "C98_nested_refuted"
   ],
   "note": "Proved for tags whose words and placeholders are separated by single blanks and where %[k]v does not follow %v. Refuted: a placeholder inside a word (--x=%v) is passed as it is; the tag of an outer namespace is lost inside a nested one."
  },
  {
   "property": "C99",
   "status": "partial",
   "theorems": [
    "C99_in_order",
    "C99_index_partial",
    "C99_index_refuted",
    "C99_named"
   ],
   "note": "%v and names proved; %[k]v proved before any %v. Refuted after: %[k]v is then counted from the arguments already taken."
  }
 ]
}