(** Model of rest tags and of a linked call: the tag accessors of
    api/internal/rtags/rtags.go, the parameter parser of api/rest/rest.go, the request
    writer of api/rest/link.go and the argument reader of api/rest/host.go.

    Simplifications: arguments are scalars or slices of scalars, passed directly
    (parameters that name struct fields go through the oracle [sparam], destructured
    structs through [fields]); values are formatted by [text] and scanned by [scan];
    bodies are documents, not bytes; URL query strings are the list of their
    key/value pairs (url.Values.Encode and ParseQuery are inverse to each other).
    Authentication, headers and content types are not modelled. *)
From Verif Require Import GoBase MuxModel.
Local Open Scope nat_scope.

(** strings.Contains(s, c) for one byte, strings.HasPrefix for one byte *)
Fixpoint contains (c : ascii) (s : string) : bool :=
  match s with EmptyString => false | String a r => Ascii.eqb a c || contains c r end.
Definition starts (c : ascii) (s : string) : bool :=
  match s with String a _ => Ascii.eqb a c | _ => false end.

(** ** rtags.go *)
Definition known_methods : list string :=
  ["PUT"; "POST"; "DELETE"; "HEAD"; "OPTIONS"; "PATCH"; "CONNECT"].
(** rtags.go:32-44 [MethodOf] *)
Definition method_of (t : string) : string :=
  match split space t with
  | m :: _ => if existsb (String.eqb m) known_methods then m else "GET"
  | [] => "GET"
  end.
(** rtags.go:47-53 [PathOf] *)
Definition path_of (t : string) : string :=
  match split space t with _ :: p :: _ => p | _ => "" end.
(** rtags.go:20-29 [Decode] *)
Definition decode_tag (t : string) : string * string * string :=
  match split "?"%char (path_of t) with
  | p :: q :: _ => (method_of t, p, q)
  | [p] => (method_of t, p, "")
  | [] => (method_of t, "", "")
  end.
(** rtags.go:56-76 [ResultRulesOf]; splits[2][0] panics when splits[2] is empty *)
Definition result_rules_of (t : string) : outcome (list string) :=
  match split space t with
  | _ :: _ :: r :: rest =>
    match r with
    | EmptyString => Panic
    | String "("%char _ => match rest with r' :: _ => Ok (split ","%char r') | [] => Ok [] end
    | _ => Ok (split ","%char r)
    end
  | _ => Ok []
  end.
(** rtags.go:79-92 [ArgumentRulesOf]; rules[1:len-1] panics for a lone bracket *)
Definition argument_rules_of (t : string) : outcome (list string) :=
  match split space t with
  | _ :: _ :: r :: _ =>
    match r with
    | EmptyString => Panic
    | String "("%char r' =>
      match unsnoc r' with Some (x, _) => Ok (split ","%char x) | None => Panic end
    | _ => Ok []
    end
  | _ => Ok []
  end.
(** rtags.go:95-97 [CleanupPattern]: each leftmost "=" followed by at least one byte
    other than "}" and then "}" is replaced by "}".  [upto] is the text after the next
    "}" with whether anything came before it. *)
Fixpoint upto (s : string) : option (bool * string) :=
  match s with
  | EmptyString => None
  | String a r =>
    if Ascii.eqb a "}"%char then Some (false, r)
    else match upto r with Some (_, t) => Some (true, t) | None => None end
  end.
Fixpoint cleanup_n (fuel : nat) (s : string) : string :=
  match fuel, s with
  | O, _ => s
  | _, EmptyString => ""
  | S f, String a r =>
    if Ascii.eqb a "="%char then
      match upto r with
      | Some (true, t) => String "}"%char (cleanup_n f t)
      | _ => String a (cleanup_n f r)
      end
    else String a (cleanup_n f r)
  end.
Definition cleanup (s : string) : string := cleanup_n (String.length s) s.

(** ** The parameter parser of rest.go *)
(** rest.go:216-233 [parameter]; Location is the set of the path and query bits, or
    void; no bit is the body. *)
Record param := { p_name : string; p_path : bool; p_query : bool; p_void : bool; p_index : list nat }.
Definition no_param : param := {| p_name := ""; p_path := false; p_query := false; p_void := false; p_index := [] |}.
Record pstate := { pos : Z; plist : list param; pstatic : list (string * string) }.
Inductive location := InPath | InQuery.
Definition add_loc (l : location) (p : param) : param :=
  match l with
  | InPath => {| p_name := p_name p; p_path := true; p_query := p_query p; p_void := p_void p; p_index := p_index p |}
  | InQuery => {| p_name := p_name p; p_path := p_path p; p_query := true; p_void := p_void p; p_index := p_index p |}
  end.

(** strconv.Atoi *)
Definition digit (a : ascii) : option Z :=
  let n := Z.of_nat (nat_of_ascii a) in
  if ((48 <=? n) && (n <=? 57))%Z then Some (n - 48)%Z else None.
Fixpoint digits (s : string) (acc : Z) : option Z :=
  match s with
  | EmptyString => Some acc
  | String a r => match digit a with Some d => digits r (acc * 10 + d)%Z | None => None end
  end.
Definition atoi (s : string) : option Z :=
  match s with
  | EmptyString => None
  | String "-"%char r => match r with "" => None | _ => match digits r 0 with Some n => if (n <=? 2^63)%Z then Some (- n)%Z else None | None => None end end
  | String "+"%char r => match r with "" => None | _ => match digits r 0 with Some n => if (n <? 2^63)%Z then Some n else None | None => None end end
  | _ => match digits s 0 with Some n => if (n <? 2^63)%Z then Some n else None | None => None end
  end.

Fixpoint update (i : nat) (f : param -> param) (l : list param) : list param :=
  match l, i with
  | [], _ => []
  | p :: r, O => f p :: r
  | p :: r, S k => p :: update k f r
  end.

Section Parser.
Variable nargs : nat.                                   (* fn.NumIn() *)
Variable sparam : string -> option (string * list nat).  (* parseStructParam: name, index *)
Variable fields : nat -> option (list (string * list nat)). (* destructure of argument i *)

Definition pnew : pstate := {| pos := 0; plist := repeat no_param nargs; pstatic := [] |}.

(** The answer of the parser: panic, an error, or the next state. *)
Definition presult := outcome (option pstate).

(** rest.go:473-546 [parseParam] *)
Definition parse_struct (param : string) (loc : location) (rename : option string) (st : pstate) : presult :=
  match sparam param with
  | None => Ok None
  | Some (n, ix) =>
    let p := add_loc loc {| p_name := match rename with Some r => r | None => n end;
                            p_path := false; p_query := false; p_void := false; p_index := ix |} in
    Ok (Some {| pos := pos st; plist := plist st ++ [p]; pstatic := pstatic st |})
  end.
Definition use_arg (name : string) (loc : location) (p : Z) (st : pstate) : presult :=
  if (Z.of_nat nargs <=? p - 1)%Z then Ok None
  else if (p - 1 <? 0)%Z then Panic                 (* p.list[p.pos-1] *)
  else match nth_error (plist st) (Z.to_nat (p - 1)) with
  | None => Panic
  | Some ex =>
    if negb (String.eqb (p_name ex) "") && negb (String.eqb (p_name ex) name) then Ok None
    else
      let f q := add_loc loc {| p_name := if String.eqb (p_name q) "" then name else p_name q;
                   p_path := p_path q; p_query := p_query q; p_void := p_void q;
                   p_index := [Z.to_nat (p - 1)] |} in
      Ok (Some {| pos := p; plist := update (Z.to_nat (p - 1)) f (plist st); pstatic := pstatic st |})
  end.
Definition parse_param (param : string) (loc : location) (st : pstate) : presult :=
  if contains "="%char param || starts "%"%char param then
    let '(name, after, ok) := cut "="%char param in
    let format := if ok then after else name in
    match format with
    | EmptyString => Panic                            (* format[0] *)
    | String "%"%char f =>
      match unsnoc format with
      | Some (_, "v"%char) =>
        match f with
        | EmptyString => Panic                        (* format[1]; not reached *)
        | String "["%char g =>
          let body := match unsnoc g with Some (x, _) => x | None => "" end in
          if contains "]"%char body then
            let '(numeral, _, _) := cut "]"%char body in
            match atoi numeral with
            | Some n => use_arg name loc n st
            | None => Ok None
            end
          else Ok None
        | _ => use_arg name loc (pos st + 1)%Z st
        end
      | _ => Ok None
      end
    | String "$"%char r => if ok then parse_struct r loc (Some name) st else Ok (Some st)
    | _ => Ok (Some (if ok then {| pos := pos st; plist := plist st; pstatic := pstatic st ++ [(name, format)] |} else st))
    end
  else parse_struct param loc None st.

Fixpoint parse_params (ps : list string) (loc : location) (st : pstate) : presult :=
  match ps with
  | [] => Ok (Some st)
  | p :: r =>
    match parse_param p loc st with
    | Ok (Some st') => parse_params r loc st'
    | other => other
    end
  end.

(** rest.go:698-723 [parsePath]: the text between each opening brace and the next
    closing brace *)
Fixpoint braces (l : list string) : option (list string) :=
  match l with
  | [] => Some []
  | c :: r =>
    let '(x, _, ok) := cut "}"%char c in
    if ok then match braces r with Some xs => Some (x :: xs) | None => None end else None
  end.
Definition parse_path_tag (path : string) (st : pstate) : presult :=
  match path with
  | EmptyString => Ok (Some st)
  | String "/"%char rest =>
    match split "{"%char rest with
    | _ :: l => match braces l with Some ps => parse_params ps InPath st | None => Ok None end
    | [] => Ok (Some st)
    end
  | _ => Ok None
  end.

(** rest.go:548-636 [parseQuery] on the parameters between "&" *)
Definition parse_query_param (param : string) (st : pstate) : presult :=
  if starts "%"%char param then
    if (Z.of_nat (List.length (plist st)) <=? pos st)%Z then Ok None
    else if (pos st <? 0)%Z then Panic
    else if (Z.of_nat nargs <=? pos st)%Z then Ok None
    else match fields (Z.to_nat (pos st)) with
    | None => Ok None
    | Some fs =>
      let voided := update (Z.to_nat (pos st))
        (fun q => {| p_name := p_name q; p_path := false; p_query := false; p_void := true; p_index := p_index q |}) (plist st) in
      let added := map (fun f => {| p_name := fst f; p_path := false; p_query := true; p_void := false; p_index := snd f |}) fs in
      Ok (Some {| pos := (pos st + 1)%Z; plist := voided ++ added; pstatic := pstatic st |})
    end
  else parse_param param InQuery st.
Fixpoint parse_query (ps : list string) (st : pstate) : presult :=
  match ps with
  | [] => Ok (Some st)
  | p :: r => match parse_query_param p st with Ok (Some st') => parse_query r st' | other => other end
  end.

(** rest.go:447-471 [parseBody]: [names] are the argument rules still unused; the
    i-th element of the list is the i-th argument *)
Definition in_body (p : param) : bool := negb (p_path p || p_query p || p_void p).
Fixpoint parse_body (i : nat) (rules : list string) (has_rules : bool) (l : list param) : option (list param) :=
  match l with
  | [] => Some []
  | p :: r =>
    if in_body p then
      match has_rules, rules with
      | false, _ => option_map (cons {| p_name := p_name p; p_path := false; p_query := false; p_void := false; p_index := [i] |})
                               (parse_body (S i) rules has_rules r)
      | true, [] => None
      | true, n :: ns => option_map (cons {| p_name := n; p_path := false; p_query := false; p_void := false; p_index := [i] |})
                                    (parse_body (S i) ns has_rules r)
      end
    else option_map (cons p) (parse_body (S i) rules has_rules r)
  end.

(** strings.ReplaceAll(path, "=%v", "") *)
Fixpoint drop_verb_n (fuel : nat) (s : string) : string :=
  match fuel, s with
  | O, _ => s
  | _, EmptyString => ""
  | S f, String a r =>
    match r with
    | String b (String c t) =>
      if Ascii.eqb a "="%char && Ascii.eqb b "%"%char && Ascii.eqb c "v"%char then drop_verb_n f t
      else String a (drop_verb_n f r)
    | _ => String a (drop_verb_n f r)
    end
  end.
Definition drop_verb (s : string) : string := drop_verb_n (String.length s) s.

(** What loadOperation stores for a function. *)
Record operation := { o_method : string; o_path : string; o_params : list param;
                      o_static : list (string * string); o_rules : list string }.
(** rest.go:299-437 [loadOperation] for a tag that is neither "" nor "-"; result rules,
    content type names and the check for duplicates are left out. *)
Definition load_operation (tag : string) : outcome (option operation) :=
  match split space tag with
  | m0 :: target :: _ =>
    if String.eqb m0 "" then Ok None
    else
      let method :=
        if contains "("%char m0 then
          match unsnoc m0 with
          | Some (m1, ")"%char) => let '(m, _, _) := cut "("%char m1 in Some m
          | _ => None
          end
        else Some m0 in
      match method with
      | None => Ok None
      | Some method =>
        let '(path, query, has_query) := cut "?"%char target in
        let! s1 := parse_path_tag path pnew in
        match s1 with
        | None => Ok None
        | Some st1 =>
          let! s2 := (if has_query then parse_query (split "&"%char query) st1 else Ok (Some st1)) in
          match s2 with
          | None => Ok None
          | Some st2 =>
            let! rules := argument_rules_of tag in
            match parse_body 0 rules (match rules with [] => false | _ => true end) (plist st2) with
            | None => Ok None
            | Some ps =>
              let n := List.length (filter in_body ps) in
              if match rules with [] => false | _ => negb (Nat.eqb (List.length rules) n) end then Ok None
              else Ok (Some {| o_method := method; o_path := cleanup (drop_verb path);
                               o_params := ps; o_static := pstatic st2; o_rules := rules |})
            end
          end
        end
      end
  | _ => Ok None
  end.
End Parser.

(** ** A call over the wire *)
Section Call.
Variable V : Type.
Variable zero : V.
Variable is_zero : V -> bool.
Variable text : V -> string.          (* fmt.Sprintf("%v", v) *)
Variable scan : string -> option V.   (* how host.go:792-813 reads it back *)

Inductive arg := One (v : V) | Many (vs : list V).

(** link.go:68-91 [encodeQuery] *)
Definition encode_query (name : string) (a : arg) : list (string * string) :=
  match a with
  | One v => if is_zero v then [] else [(name, text v)]
  | Many vs => flat_map (fun v => if is_zero v then [] else [(name, text v)]) vs
  end.

(** net/url PathEscape and unescape: %XX for every byte that may not stand in a path
    segment *)
Definition hex (n : nat) : ascii :=
  ascii_of_nat (if Nat.ltb n 10 then 48 + n else 55 + n).
Definition keep_byte (a : ascii) : bool :=
  let n := nat_of_ascii a in
  ((48 <=? n) && (n <=? 57)) || ((65 <=? n) && (n <=? 90)) || ((97 <=? n) && (n <=? 122))
  || existsb (Nat.eqb n) [45; 95; 46; 126; 36; 38; 43; 58; 61; 64]%nat.   (* -_.~ $&+:=@ *)
Fixpoint path_escape (s : string) : string :=
  match s with
  | EmptyString => ""
  | String a r =>
    if keep_byte a then String a (path_escape r)
    else let n := nat_of_ascii a in
         String "%"%char (String (hex (n / 16)) (String (hex (n mod 16)) (path_escape r)))
  end.
Definition unhex (a : ascii) : option nat :=
  let n := nat_of_ascii a in
  if (48 <=? n) && (n <=? 57) then Some (n - 48)
  else if (65 <=? n) && (n <=? 70) then Some (n - 55)
  else if (97 <=? n) && (n <=? 102) then Some (n - 87)
  else None.
Fixpoint path_unescape (s : string) : option string :=
  match s with
  | EmptyString => Some ""
  | String a r =>
    if Ascii.eqb a "%"%char then
      match r with
      | String x (String y r') =>
        match unhex x, unhex y with
        | Some hx, Some hy => option_map (String (ascii_of_nat (16 * hx + hy))) (path_unescape r')
        | _, _ => None
        end
      | _ => None
      end
    else option_map (String a) (path_unescape r)
  end.

(** strings.Replace(s, old, new, 1) *)
Fixpoint prefix_rest (p s : string) : option string :=
  match p, s with
  | EmptyString, _ => Some s
  | String a p', String b s' => if Ascii.eqb a b then prefix_rest p' s' else None
  | _, _ => None
  end.
Fixpoint replace1 (old new s : string) : string :=
  match prefix_rest old s with
  | Some r => (new ++ r)%string
  | None => match s with EmptyString => "" | String a r => String a (replace1 old new r) end
  end.

(** A document of the body: a value, or an object. *)
Inductive doc := DVal (a : arg) | DObj (fs : list (string * arg)).

Record request := { r_path : string; r_query : list (string * string); r_body : list doc }.

Definition nth_arg (args : list arg) (ix : list nat) : option arg :=
  match ix with [i] => nth_error args i | _ => None end.
Definition has_star (name : string) : bool :=
  match unsnoc name with Some (_, "*"%char) => true | _ => false end.
Definition arg_text (a : arg) : string :=
  match a with One v => text v | Many vs => ("[" ++ String.concat " " (map text vs) ++ "]")%string end.

(** link.go:139-165: one parameter after the other.  [mapping]: arguments go into an
    object, keyed by parameter name *)
Fixpoint write_params (mapping : bool) (ps : list param) (args : list arg)
    (path : string) (q : list (string * string)) (m : list (string * arg)) (body : list doc)
  : outcome (string * list (string * string) * list (string * arg) * list doc) :=
  match ps with
  | [] => Ok (path, q, m, body)
  | p :: r =>
    if p_void p then write_params mapping r args path q m body
    else match nth_arg args (p_index p) with
    | None => Panic
    | Some a =>
      let path' := if p_path p then
          let v := if has_star (p_name p) then arg_text a else path_escape (arg_text a) in
          replace1 ("{" ++ p_name p ++ "}") v path
        else path in
      let q' := if p_query p then q ++ encode_query (p_name p) a else q in
      if in_body p then
        if mapping then write_params mapping r args path' q' (m ++ [(p_name p, a)]) body
        else write_params mapping r args path' q' m (body ++ [DVal a])
      else write_params mapping r args path' q' m body
    end
  end.
(** rest.go:361-376: mapping is used when there are argument rules or more than one
    body argument *)
Definition needs_mapping (rules : list string) (ps : list param) : bool :=
  match rules with [] => Nat.ltb 1 (List.length (filter in_body ps)) | _ => true end.
(** link.go:332-337: requests with these methods carry no body *)
Definition bodyless (method : string) : bool :=
  existsb (String.eqb method) ["GET"; "HEAD"; "DELETE"; "OPTIONS"; "TRACE"].
(** link.go:101-177 [clientWrite] and 321-338 *)
Definition client_request (op : operation) (args : list arg) : outcome request :=
  let mp := needs_mapping (o_rules op) (o_params op) in
  let! x := write_params mp (o_params op) args (o_path op) (o_static op) [] [] in
  let '(path', q, m, body) := x in
  Ok {| r_path := path'; r_query := q;
        r_body := if bodyless (o_method op) then [] else if mp then [DObj m] else body |}.

(** The last entry of a JSON object for a key. *)
Fixpoint last_value (k : string) (m : list (string * arg)) (d : option arg) : option arg :=
  match m with
  | [] => d
  | (k', a) :: r => last_value k r (if String.eqb k k' then Some a else d)
  end.
(** http query: the first value of a key, or "" *)
Fixpoint query_get (k : string) (q : list (string * string)) : string :=
  match q with
  | [] => ""
  | (k', v) :: r => if String.eqb k k' then v else query_get k r
  end.
Definition query_count (k : string) (q : list (string * string)) : nat :=
  List.length (filter (fun kv => String.eqb (fst kv) k) q).

Variable of_obj : list (string * arg) -> option arg.

(** host.go:725-829 for one parameter.  [slice] whether it is a slice, [docs] what is left of the body, [fs] the values of
    the mapped object still unused.  [of_obj] says what an argument makes of an object
    sent for several arguments; an exhausted body is an error.  Slices are only filled from
    "name[]" keys, from two on; a slice is scanned as a whole otherwise, which fails. *)
Definition read_param (has_rules : bool) (vals q : list (string * string)) (p : param) (slice : bool)
    (docs : list doc) (fs : list arg) : option (arg * list doc * list arg) :=
  if in_body p then
    if has_rules then match fs with a :: fs' => Some (a, docs, fs') | [] => None end
    else match docs with
    | DVal a :: docs' => Some (a, docs', fs)
    | DObj m :: docs' => option_map (fun a => (a, docs', fs)) (of_obj m)
    | [] => None
    end
  else
    let v := if p_path p then path_value (p_name p) vals else "" in
    if slice then
      let n := if p_query p then query_count (p_name p ++ "[]")%string q else 1%nat in
      match n with
      | O => Some (Many [], docs, fs)
      | S O => let v := if p_query p then match query_get (p_name p) q with "" => v | w => w end else v in
               match v with "" => Some (Many (if p_query p then [zero] else []), docs, fs) | _ => None end
      | _ => match (fix go l := match l with
             | [] => Some []
             | (k, w) :: l' =>
               if String.eqb k (p_name p ++ "[]")%string then
                 match (match w with "" => Some zero | _ => scan w end), go l' with
                 | Some x, Some xs => Some (x :: xs)
                 | _, _ => None
                 end
               else go l'
             end) q with
             | Some xs => Some (Many xs, docs, fs)
             | None => None
             end
      end
    else
      let v := if p_query p then match query_get (p_name p) q with "" => v | w => w end else v in
      match v with
      | "" => Some (One zero, docs, fs)
      | _ => option_map (fun x => (One x, docs, fs)) (scan v)
      end.

(** The arguments as read: parameter i fills argument [p_index]. *)
Fixpoint set_nth {A} (i : nat) (a : A) (l : list A) : list A :=
  match l, i with
  | [], _ => []
  | _ :: r, O => a :: r
  | x :: r, S k => x :: set_nth k a r
  end.
Fixpoint read_params (has_rules : bool) (vals q : list (string * string)) (slices : list bool)
    (ps : list param) (docs : list doc) (fs : list arg) (args : list arg) : option (list arg) :=
  match ps with
  | [] => Some args
  | p :: r =>
    if p_void p then read_params has_rules vals q slices r docs fs args
    else match p_index p with
    | [i] =>
      match read_param has_rules vals q p (nth i slices false) docs fs with
      | Some (a, docs', fs') => read_params has_rules vals q slices r docs' fs' (set_nth i a args)
      | None => None
      end
    | _ => None
    end
  end.
Definition zero_arg (slice : bool) : arg := if slice then Many [] else One zero.
(** host.go:690-708 and 725-829: the arguments of the function for a request, where
    [vals] are the path values set by the router *)
Definition server_args (op : operation) (slices : list bool)
    (vals : list (string * string)) (req : request) : option (list arg) :=
  let ps := o_params op in
  let has_rules := match o_rules op with [] => false | _ => true end in
  let args0 := map zero_arg slices in
  if has_rules then
    match r_body req with
    | DObj m :: docs =>
      let names := map p_name (filter in_body ps) in
      let body_slices := map (fun p => match p_index p with [i] => nth i slices false | _ => false end) (filter in_body ps) in
      let fs := map (fun ns => match last_value (fst ns) m None with Some a => a | None => zero_arg (snd ns) end)
                    (combine names body_slices) in
      read_params has_rules vals (r_query req) slices ps docs fs args0
    | _ => None
    end
  else read_params has_rules vals (r_query req) slices ps (r_body req) [] args0.
End Call.
Arguments One {V}. Arguments Many {V}. Arguments DVal {V}. Arguments DObj {V}.
Arguments r_path {V}. Arguments r_query {V}. Arguments r_body {V}.
Arguments client_request {V}. Arguments server_args {V}. Arguments read_params {V}.
Arguments read_param {V}. Arguments write_params {V}. Arguments encode_query {V}.
Arguments zero_arg {V}. Arguments last_value {V}. Arguments nth_arg {V}. Arguments arg_text {V}.
