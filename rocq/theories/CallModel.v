(** Model of the linker for shared libraries (api/call/link.go, api/call/call.go, the parts of
    api/call/internal/jit/jit.go and val.go they use, and the table of C types
    api/call/internal/cgo/gen_linux_amd64.go), on linux/amd64.

    Simplifications: a Go type is its kind and whether it is a defined (named) type; an interface
    type is the type error; elements of pointers and slices are not kept. Results that are
    functions (link.go:229-238) are not modelled: such a result is a panic here. Conversions
    with a floating point number on either side are a parameter. A C function gets its arguments as
    slots (what the dyncall VM holds) and leaves 64 bits in the integer and in the floating point
    result register. A recovered panic and a panic with an error are the same. *)
From Coq Require Import String.
From Verif Require Import GoBase GoText CtagModel.
Open Scope list_scope.

(** ** Looking up the symbol (link.go:50-62, 71-108) *)
Section Lookup.
Context {Ptr : Type}.
(** A lookup gives an address or an error; dlfcn.go:42-48: then the address is nil. *)
Definition lookup := bytes -> option Ptr.
(** link.go:84-91, 93-101: [symbol] and [err] are those of the last lookup, [finalName] that of the last that succeeded.
    [None] is a nil symbol. *)
Definition lookup_all (steps : list (lookup * bytes)) (start : option Ptr) : option Ptr :=
  fold_left (fun _ '(look, name) => look name) steps start.
Definition steps_of (tables : list lookup) (names : list bytes) : list (lookup * bytes) :=
  flat_map (fun t => map (fun n => (t, n)) names) tables.
Inductive linked :=
| Untouched                 (* link.go:75-77: no tag *)
| MakesError                (* link.go:81, 104, 110: MakeError *)
| Compiled (p : Ptr) (t : ctype).  (* link.go:113 *)
(** link.go:71-114, for one function with this tag ([None]: none); compile never gives an error (jit.go:46-65). *)
Definition link_function (tables : list lookup) (tag : option bytes) : linked :=
  match tag with
  | None => Untouched
  | Some [] => Untouched
  | Some tag =>
      match parse_tag tag with
      | None => MakesError
      | Some (names, t) =>
          match lookup_all (steps_of tables names) None with
          | None => MakesError
          | Some p => Compiled p t
          end
      end
  end.
(** link.go:39-62 [Link]: the tables of the libraries that can be opened; [None]: the error of line 57. *)
Definition open_libs (dlopen : bytes -> option lookup) (lib : bytes) : option (list lookup) :=
  match flat_map (fun n => match dlopen n with Some t => [t] | None => [] end) (split lib 32) with
  | [] => None
  | ts => Some ts
  end.
End Lookup.
Arguments linked : clear implicits.
Arguments lookup : clear implicits.

(** ** Kinds *)
Inductive kind :=
| KInvalid | KBool | KInt | KInt8 | KInt16 | KInt32 | KInt64 | KUint | KUint8 | KUint16 | KUint32 | KUint64 | KUintptr
| KFloat32 | KFloat64 | KComplex64 | KComplex128 | KArray | KChan | KFunc | KInterface | KMap | KPointer | KSlice | KString | KStruct | KUnsafePointer.
Definition kind_eqb (a b : kind) : bool :=
  match a, b with
  | KInvalid, KInvalid | KBool, KBool | KInt, KInt | KInt8, KInt8 | KInt16, KInt16 | KInt32, KInt32 | KInt64, KInt64 | KUint, KUint
  | KUint8, KUint8 | KUint16, KUint16 | KUint32, KUint32 | KUint64, KUint64 | KUintptr, KUintptr | KFloat32, KFloat32 | KFloat64, KFloat64
  | KComplex64, KComplex64 | KComplex128, KComplex128 | KArray, KArray | KChan, KChan | KFunc, KFunc | KInterface, KInterface | KMap, KMap
  | KPointer, KPointer | KSlice, KSlice | KString, KString | KStruct, KStruct | KUnsafePointer, KUnsafePointer => true
  | _, _ => false
  end.
(** signed?, width *)
Definition int_kind (k : kind) : option (bool * Z) :=
  match k with
  | KInt8 => Some (true, 8) | KInt16 => Some (true, 16) | KInt32 => Some (true, 32) | KInt64 | KInt => Some (true, 64)
  | KUint8 => Some (false, 8) | KUint16 => Some (false, 16) | KUint32 => Some (false, 32) | KUint64 | KUint | KUintptr => Some (false, 64)
  | _ => None
  end.
Definition is_float (k : kind) : bool := match k with KFloat32 | KFloat64 => true | _ => false end.
Definition is_numeric (k : kind) : bool := match int_kind k with Some _ => true | None => is_float k end.
(** A number of the kind, from any integer. *)
Definition wrap (k : kind) (z : Z) : Z :=
  match int_kind k with Some (true, w) => sgn w z | Some (false, w) => z mod 2 ^ w | None => z end.
(** gen_linux_amd64.go:181-513 and val.go:85-97 [LookupKind] *)
Definition c_types : list (bytes * kind) :=
  [(text "void", KUnsafePointer); (text "func", KFunc);
   (text "char", KInt8); (text "signed_char", KInt8); (text "unsigned_char", KUint8); (text "short", KInt16); (text "unsigned_short", KUint16);
   (text "int", KInt32); (text "unsigned_int", KUint32); (text "long", KInt64); (text "unsigned_long", KUint64); (text "long_long", KInt64);
   (text "unsigned_long_long", KUint64); (text "float", KFloat32); (text "double", KFloat64); (text "long_double", KArray); (text "float_t", KFloat32);
   (text "double_t", KFloat64); (text "int8_t", KInt8); (text "int16_t", KInt16); (text "int32_t", KInt32); (text "int64_t", KInt64);
   (text "uint8_t", KUint8); (text "uint16_t", KUint16); (text "uint32_t", KUint32); (text "uint64_t", KUint64); (text "char16_t", KUint16);
   (text "char32_t", KUint32); (text "wchar_t", KInt32); (text "wint_t", KUint32); (text "size_t", KUint64); (text "time_t", KInt64);
   (text "clock_t", KInt64); (text "bool", KBool); (text "uintptr_t", KUint64); (text "ptrdiff_t", KInt64); (text "intptr_t", KInt64);
   (text "max_align_t", KArray); (text "sig_atomic_t", KInt32); (text "intmax_t", KInt64); (text "uintmax_t", KUint64);
   (text "int_fast8_t", KInt8); (text "int_fast16_t", KInt64); (text "int_fast32_t", KInt64); (text "int_fast64_t", KInt64);
   (text "uint_fast8_t", KUint8); (text "uint_fast16_t", KUint64); (text "uint_fast32_t", KUint64); (text "uint_fast64_t", KUint64);
   (text "int_least8_t", KInt8); (text "int_least16_t", KInt16); (text "int_least32_t", KInt32); (text "int_least64_t", KInt64);
   (text "uint_least8_t", KUint8); (text "uint_least16_t", KUint16); (text "uint_least32_t", KUint32); (text "uint_least64_t", KUint64)].
Definition c_kind (name : bytes) : kind :=
  match find (fun '(n, _) => beq n name) c_types with Some (_, k) => k | None => KInvalid end.
(** link.go:121-163 [normal]; [None] is a nil type *)
Definition normal (k : kind) : option kind :=
  match k with
  | KInt8 | KInt16 | KInt32 | KInt | KInt64 | KUint8 | KUint16 | KUint32 | KUint | KUint64 | KUintptr | KFloat32 | KFloat64
  | KComplex64 | KComplex128 | KBool | KString | KUnsafePointer => Some k
  | _ => None
  end.

(** ** Values *)
(** What is pointed at: an address from elsewhere, or Go memory with these bytes. *)
Inductive pointer := PAddr (a : Z) | PMem (b : bytes).
Inductive value := VInt (z : Z) | VFloat (bits : Z) | VBool (b : bool) | VStr (s : bytes) | VSlice (p : pointer) (n : Z) | VPtr (p : pointer) | VNilError | VOther.
Record gotype := { gk : kind; gnamed : bool }.
(** What the dyncall VM is given (call.go:28-78): a number of bits in two's complement, a floating point number or a pointer. *)
Inductive slot := SInt (width : Z) (bits : Z) | SFloat (width : Z) (bits : Z) | SPtr (p : pointer).
Record registers := { r_int : Z; r_flt : Z }.

Section Compile.
(** Conversion between numeric kinds when one of them is a floating point number. *)
Context (fconv : kind -> kind -> Z -> Z).
Definition convert_num (from into : kind) (v : value) : value :=
  match v with
  | VInt z | VFloat z =>
      match int_kind from, int_kind into with
      | Some _, Some _ => VInt (wrap into z)
      | _, Some _ => VInt (fconv from into z)
      | _, None => VFloat (fconv from into z)
      end
  | _ => v
  end.
(** reflect.Type.ConvertibleTo on kinds: numbers to numbers, integers to strings, and equal kinds of basic types. *)
Definition convertible (from into : kind) : bool :=
  (is_numeric from && is_numeric into) ||
  (match int_kind from with Some _ => true | None => false end && kind_eqb into KString) ||
  (kind_eqb from into && match normal from with Some _ => true | None => false end).

(** call.go:28-78: pushing one argument; the error is a panic (jit.go:54-57) *)
Definition push (k : kind) (v : value) : outcome slot :=
  match int_kind k, v with
  | Some (_, w), VInt z => Ok (SInt w (z mod 2 ^ w))
  | _, VFloat b => if is_float k then Ok (SFloat (match k with KFloat32 => 32 | _ => 64 end) b) else Panic
  | _, VPtr p => match k with KPointer | KFunc | KChan | KMap | KUnsafePointer => Ok (SPtr p) | _ => Panic end
  | _, _ => Panic
  end.
(** jit.go NullTerminated, val.go:16-25 UnsafePointer *)
Definition null_terminated (s : bytes) : bytes := if match rev s with 0 :: _ => true | _ => false end then s else s ++ [0].
(** link.go:264-294 [inferValue]: the kind and value of the inferred argument *)
Definition infer (rule : ctype) (ins : list gotype) (args : list value) : outcome (kind * value) :=
  match rule with CType _ _ _ _ _ test _ _ _ =>
    let eq := a_equality test in
    if g_check eq && (0 <? g_index eq) then
      let! t := index (g_index eq - 1) ins in
      let! v := index (g_index eq - 1) args in
      match gk t, v with
      | KSlice, VSlice _ n => Ok (KInt, VInt n)
      | KString, VStr s => Ok (KInt, VInt (zlen s))
      | _, _ => Panic
      end
    else Panic
  end.
(** link.go:170-214: one argument of the C function: the kind and the value sent. *)
Definition send_one (ins : list gotype) (args : list value) (arg : ctype) : outcome (kind * value) :=
  match arg with CType name _ _ _ free _ _ _ maps =>
    let into := c_kind name in
    let is c := match free with Some f => f =? c | None => false end in
    if is 45 then infer arg ins args else
    if zlen ins <=? maps - 1 then Panic else
    let! from := index (maps - 1) ins in
    let! v := index (maps - 1) args in
    if kind_eqb (gk from) into then Ok (into, v) else
    match normal into with
    | None => Panic
    | Some n =>
        if convertible (gk from) n then Ok (n, convert_num (gk from) n v) else
        match gk from, v with
        | KString, VStr s => if beq name (text "char") && is 38 then Ok (KUnsafePointer, VPtr (PMem (null_terminated s))) else Panic
        | KSlice, VSlice p _ => if (beq name (text "void") || beq name (text "char")) && is 38 then Ok (KUnsafePointer, VPtr p) else Panic
        | KUnsafePointer, VPtr p | KPointer, VPtr p => Ok (KUnsafePointer, VPtr p)
        | KUintptr, _ => Ok (KUintptr, v)
        | _, _ => Panic
        end
    end
  end.
Fixpoint send_all (ins : list gotype) (args : list value) (cargs : list ctype) : outcome (list (kind * value)) :=
  match cargs with
  | [] => Ok []
  | c :: r => let! x := send_one ins args c in let! l := send_all ins args r in Ok (x :: l)
  end.
Fixpoint push_all (l : list (kind * value)) : outcome (list slot) :=
  match l with [] => Ok [] | (k, v) :: r => let! s := push k v in let! rest := push_all r in Ok (s :: rest) end.

(** call.go:79-127: the result of the call, of the wanted kind; [None]: unsupported *)
Definition take_result (k : kind) (r : registers) : option value :=
  match k with
  | KBool => Some (VBool (negb (r_int r mod 2 ^ 8 =? 0)))
  | KFloat32 => Some (VFloat (r_flt r mod 2 ^ 32))
  | KFloat64 => Some (VFloat (r_flt r mod 2 ^ 64))
  | KUnsafePointer | KPointer | KFunc => Some (VPtr (PAddr (r_int r mod 2 ^ 64)))
  | _ => match int_kind k with Some _ => Some (VInt (wrap k (r_int r))) | None => None end
  end.
(** link.go:215-222: which result is asked for; the inner [None] is nil *)
Definition wanted (ret : option ctype) (outs : list gotype) : outcome (option gotype) :=
  match ret with
  | None => Ok None
  | Some (CType name _ _ _ _ _ _ _ _) =>
      if beq name (text "func") || beq name (text "void") then let! o := index 0 outs in Ok (Some o)
      else Ok (match normal (c_kind name) with Some k => Some {| gk := k; gnamed := false |} | None => None end)
  end.
(** link.go:227-266, from the call on: the results. [call]: call[0] with its type, if there is one. reflect.MakeFunc panics
    when a result is missing or is of another type. *)
Definition give_result (name : bytes) (call : option (gotype * value)) (into : gotype) : outcome value :=
  let from := c_kind name in
  if kind_eqb (gk into) KFunc then Panic else
  if kind_eqb from KInvalid then Panic else
  match call with
  | None => Panic
  | Some (ct, v) =>
      if kind_eqb (gk into) from then
        if Bool.eqb (gnamed ct) (gnamed into) || negb (gnamed into) then Ok v else Panic
      else
        match normal from with
        | None => Panic
        | Some n =>
            if convertible n (gk into) then
              if kind_eqb (gk into) KString then match v with VInt z => Ok VOther | _ => Panic end
              else Ok (convert_num n (gk into) v)
            else
              match gk into, v with
              | KBool, VInt z => if gnamed into then Panic else Ok (VBool (negb (z =? 0)))
              | KBool, VFloat z => if gnamed into then Panic else Ok VOther
              | KBool, VBool b => if gnamed into then Panic else Ok (VBool b)
              | KBool, VPtr p => if gnamed into then Panic else Ok (VBool (match p with PAddr 0 => false | _ => true end))
              | KInterface, _ => Ok VNilError
              | KUintptr, VInt z => Ok v
              | KPointer, VPtr p => Ok v
              | _, _ => Panic
              end
        end
  end.
(** link.go:165-268 with jit.go:46-65: a call of the compiled function. The first component is what the C function was called
    with, if it was. *)
Definition call_c (ins outs : list gotype) (t : ctype) (cfun : list slot -> registers) (args : list value) : option (list slot) * outcome (list value) :=
  match t with CType _ ret cargs _ _ _ _ _ _ =>
    match send_all ins args cargs with
    | Panic => (None, Panic)
    | Ok sent =>
        match wanted ret outs with
        | Panic => (None, Panic)
        | Ok want =>
            match push_all sent with
            | Panic => (None, Panic)
            | Ok slots =>
                let call := match want with
                  | None => Ok None
                  | Some g => match take_result (gk g) (cfun slots) with Some v => Ok (Some (g, v)) | None => Panic end
                  end in
                match call with
                | Panic => (None, Panic)   (* call.go:124: before the call *)
                | Ok call =>
                    (Some slots,
                     match ret with
                     | None => match outs with [] => Ok [] | _ => Panic end
                     | Some (CType name _ _ _ _ _ _ _ _) =>
                         let! into := index 0 outs in
                         let! v := give_result name call into in
                         match outs with [_] => Ok [v] | _ => Panic end
                     end)
                end
            end
        end
    end
  end.
End Compile.

(** ** The C side *)
(** The value a C parameter of an integer type sees in a slot. *)
Definition c_sees (k : kind) (s : slot) : option Z :=
  match s, int_kind k with SInt w b, Some _ => Some (wrap k b) | _, _ => None end.
(** The string at a pointer. *)
Fixpoint until_nul (b : bytes) : option bytes :=
  match b with [] => None | c :: r => if c =? 0 then Some [] else match until_nul r with Some s => Some (c :: s) | None => None end end.
Definition c_string (s : slot) : option bytes := match s with SPtr (PMem b) => until_nul b | _ => None end.
