(** Model of the tags of shared-library functions: ffi.ParseTag (api/call/internal/ffi/tag.go) and the
    part of text/scanner it uses.

    Simplifications: tags are ASCII (a rune is a byte); of an error only that there is one is kept
    (no position, no message). A token that is a floating point number, a string, a character or a
    number that is not decimal is [TOther] and the rest of the input after it is not kept: every use
    of such a token in tag.go is an error. *)
From Coq Require Import String.
From Verif Require Import GoBase GoText.
Open Scope list_scope.

(** ** text/scanner with its default mode (GoTokens) and white space, as set by Init (tag.go:102-103) *)
Inductive token := TEOF | TIdent (s : bytes) | TInt (s : bytes) | TOther | TCh (c : Z).
Definition is_letter (c : Z) : bool := ((65 <=? c) && (c <=? 90)) || ((97 <=? c) && (c <=? 122)) || (c =? 95).
Definition is_digit (c : Z) : bool := (48 <=? c) && (c <=? 57).
Definition is_space (c : Z) : bool := (c =? 9) || (c =? 10) || (c =? 13) || (c =? 32).
(** scanner.go: scanIdentifier *)
Fixpoint ident_run (s : bytes) : bytes * bytes :=
  match s with
  | c :: r => if is_letter c || is_digit c then let '(a, b) := ident_run r in (c :: a, b) else ([], s)
  | [] => ([], [])
  end.
(** scanner.go: digits, of base 10: digits and underscores *)
Fixpoint digit_run (s : bytes) : bytes * bytes :=
  match s with
  | c :: r => if is_digit c || (c =? 95) then let '(a, b) := digit_run r in (c :: a, b) else ([], s)
  | [] => ([], [])
  end.
Definition peek (s : bytes) : option Z := match s with [] => None | c :: _ => Some c end.
Definition peek_is (s : bytes) (c : Z) : bool := match s with [] => false | d :: _ => d =? c end.
(** scanner.go: scanNumber, of a number that starts with a digit *)
Definition scan_number (s : bytes) : token * bytes :=
  let prefixed := match s with 48 :: c :: _ => member c (text "xXoObB") | _ => false end in
  if prefixed then (TOther, []) else
  let '(ds, r) := digit_run s in
  match r with
  | c :: _ => if member c (text ".eEpP") then (TOther, []) else (TInt ds, r)
  | [] => (TInt ds, [])
  end.
(** scanner.go: scanComment, after the two characters that start it *)
Fixpoint line_comment (s : bytes) : bytes :=
  match s with [] => [] | c :: r => if c =? 10 then s else line_comment r end.
Fixpoint block_comment (s : bytes) : bytes :=
  match s with
  | 42 :: ((47 :: r) as _) => r
  | _ :: r => block_comment r
  | [] => []
  end.
(** scanner.go: Scan. The fuel bounds the comments that are skipped. *)
Fixpoint scan_f (fuel : nat) (s : bytes) : token * bytes :=
  let s := drop_while is_space s in
  match s with
  | [] => (TEOF, [])
  | c :: r =>
      if is_letter c then let '(a, b) := ident_run s in (TIdent a, b)
      else if is_digit c then scan_number s
      else if member c (text """'`") then (TOther, [])
      else if c =? 46 then match r with d :: _ => if is_digit d then (TOther, []) else (TCh c, r) | [] => (TCh c, r) end
      else if c =? 47 then
        match r, fuel with
        | 47 :: r', S f => scan_f f (line_comment r')
        | 42 :: r', S f => scan_f f (block_comment r')
        | _, _ => (TCh c, r)
        end
      else (TCh c, r)
  end.
Definition scan (s : bytes) : token * bytes := scan_f (List.length s) s.

(** ** The types of tag.go:49-92 *)
Record argument := { g_check : bool; g_index : Z; g_const : bytes; g_value : Z }.
Definition no_arg : argument := {| g_check := false; g_index := 0; g_const := []; g_value := 0 |}.
Record assertions := { a_capacity : bool; a_inverted : bool; a_indirect : Z; a_lifetime : argument; a_overlaps : argument;
  a_sametype : argument; a_equality : argument; a_morethan : argument; a_lessthan : argument; a_format : argument }.
Definition no_test : assertions := {| a_capacity := false; a_inverted := false; a_indirect := 0; a_lifetime := no_arg; a_overlaps := no_arg;
  a_sametype := no_arg; a_equality := no_arg; a_morethan := no_arg; a_lessthan := no_arg; a_format := no_arg |}.
Inductive ctype := CType (name : bytes) (func : option ctype) (args : list ctype) (hash : bool) (free : option Z)
  (test : assertions) (call : bytes * list argument) (more : bool) (maps : Z).
(** Type.Free is 0 without an ownership assertion: here [None]. *)

(** strconv.ParseInt(s, 10, bits) of a token of digits and underscores *)
Fixpoint dec_value (s : bytes) (n : Z) : Z := match s with [] => n | c :: r => dec_value r (10 * n + (c - 48)) end.
Definition parse_int (s : bytes) (bits : Z) : option Z :=
  if forallb is_digit s then let n := dec_value s 0 in if n <? 2 ^ (bits - 1) then Some n else None else None.

(** tag.go:111-151 [argument] *)
Definition parse_argument (s : bytes) : option (argument * bytes) :=
  match scan s with
  | (TCh 64, s) =>
      match scan s with
      | (TInt ds, s) => match parse_int ds 8 with Some n => Some ({| g_check := true; g_index := u8 n; g_const := []; g_value := 0 |}, s) | None => None end
      | _ => None
      end
  | (TIdent id, s) => Some ({| g_check := true; g_index := 0; g_const := id; g_value := 0 |}, s)
  | (TInt ds, s) => match parse_int ds 64 with Some n => Some ({| g_check := true; g_index := 0; g_const := []; g_value := n |}, s) | None => None end
  | _ => None
  end.

(** tag.go:161-202: the ownership, the mark of immutability and the name *)
Definition parse_name (s : bytes) : option (bytes * bytes) :=
  match scan s with (TIdent id, s) => Some (id, s) | _ => None end.
Definition parse_head (s : bytes) : option (option Z * bool * bytes * bytes) :=
  match scan s with
  | (TIdent id, s) => Some (None, false, id, s)
  | (TCh c, s) =>
      if member c (text "$&*~+-") then
        let '(hash, s) := if peek_is s 35 then (true, snd (scan s)) else (false, s) in
        match parse_name s with Some (id, s) => Some (Some c, hash, id, s) | None => None end
      else if c =? 35 then
        match parse_name s with Some (id, s) => Some (None, true, id, s) | None => None end
      else None
  | _ => None
  end.

(** tag.go:304-307: the asterisks *)
Fixpoint stars (s : bytes) : nat * bytes :=
  match s with 42 :: r => let '(n, r) := stars r in (S n, r) | _ => (0%nat, s) end.
(** tag.go:310-318: the three dots *)
Definition dots (s : bytes) : option bytes :=
  match scan s with
  | (TCh 46, s) => match scan s with
    | (TCh 46, s) => match scan s with (TCh 46, s) => Some s | _ => None end
    | _ => None end
  | _ => None
  end.
Definition ends_type (s : bytes) : bool := match s with [] => true | c :: _ => (c =? 44) || (c =? 41) end.
(** tag.go:328-356: the operator and its argument *)
Definition apply_op (op : Z) (arg : argument) (t : assertions) (s : bytes) : option (assertions * bytes) :=
  let set inv lt ov st eq mt le fm := {| a_capacity := a_capacity t; a_inverted := inv; a_indirect := a_indirect t; a_lifetime := lt; a_overlaps := ov;
    a_sametype := st; a_equality := eq; a_morethan := mt; a_lessthan := le; a_format := fm |} in
  let inv := a_inverted t in
  let no := no_arg in
  if op =? 62 then if peek_is s 61 then Some (set inv no no no arg arg no no, snd (scan s)) else Some (set inv no no no no arg no no, s)
  else if op =? 60 then if peek_is s 61 then Some (set inv no no no arg no arg no, snd (scan s)) else Some (set inv no no no no no arg no, s)
  else if op =? 61 then Some (set inv no no no arg no no no, s)
  else if op =? 58 then Some (set inv no no arg no no no no, s)
  else if op =? 126 then Some (set (negb inv) no arg no no no no no, s)
  else if op =? 94 then Some (set inv arg no no no no no no, s)
  else if op =? 63 then Some (set inv no no no no no no arg, s)
  else None.
(** tag.go:297-364, from the end of the name or of the function type on: the assertions and whether the
    value is variadic *)
Definition parse_tail (s : bytes) : option (assertions * bool * bytes) :=
  if ends_type s then Some (no_test, false, s) else
  let pre :=
    match s with
    | 91 :: _ => Some (true, 0, false, snd (scan s))
    | 42 :: _ => let '(n, s) := stars s in Some (false, Z.of_nat n, false, s)
    | 46 :: _ => match dots s with Some s => Some (false, 0, true, s) | None => None end
    | _ => Some (false, 0, false, s)
    end in
  match pre with
  | None => None
  | Some (cap, ind, more, s) =>
      let '(inv, s) := if peek_is s 33 then (true, snd (scan s)) else (false, s) in
      let '(tok, s) := scan s in
      match parse_argument s with
      | None => None
      | Some (arg, s) =>
          match tok with
          | TCh op =>
              match apply_op op arg {| a_capacity := cap; a_inverted := inv; a_indirect := ind; a_lifetime := no_arg; a_overlaps := no_arg;
                                       a_sametype := no_arg; a_equality := no_arg; a_morethan := no_arg; a_lessthan := no_arg; a_format := no_arg |} s with
              | None => None
              | Some (t, s) =>
                  if cap then match scan s with (TCh 93, s) => Some (t, more, s) | _ => None end else Some (t, more, s)
              end
          | _ => None
          end
      end
  end.
(** tag.go:266-294: the arguments of the function to call on failure. *)
Fixpoint call_args (fuel : nat) (s : bytes) : option (list argument * bytes) :=
  match fuel with
  | O => None
  | S f =>
      match s with
      | 41 :: r => Some ([], r)
      | [] => None
      | _ =>
          match parse_argument s with
          | None => None
          | Some (a, s) =>
              match s with
              | 44 :: r => match call_args f r with Some (l, s) => Some (a :: l, s) | None => None end
              | 41 :: _ => match call_args f s with Some (l, s) => Some (a :: l, s) | None => None end
              | _ => None
              end
          end
      end
  end.
(** tag.go:248-265 *)
Definition parse_call (s : bytes) : option ((bytes * list argument) * bytes) :=
  if peek_is s 59 then
    match scan (snd (scan s)) with
    | (TIdent id, s) =>
        match scan s with
        | (TCh 40, s) => match call_args (S (List.length s)) s with Some (l, s) => Some ((id, l), s) | None => None end
        | _ => None
        end
    | _ => None
    end
  else Some (([], []), s).
Definition with_maps (t : ctype) (m : Z) : ctype :=
  match t with CType n f a h fr te c mo _ => CType n f a h fr te c mo m end.
(** tag.go:153-366 [parseType]; 203-241: the arguments; 242-248: the result. [seen]: how many arguments there are already. *)
Fixpoint parse_type (fuel : nat) (s : bytes) : option (ctype * bytes) :=
  match fuel with
  | O => None
  | S f =>
      match parse_head s with
      | None => None
      | Some (free, hash, name, s) =>
          if beq name (text "func") then
            match scan s with
            | (TCh 40, s) =>
                match parse_args f s 0 with
                | None => None
                | Some (args, s) =>
                    match (if ends_type s then Some (None, s) else match parse_type f s with Some (t, s) => Some (Some t, s) | None => None end) with
                    | None => None
                    | Some (ret, s) =>
                        match parse_call s with
                        | None => None
                        | Some (call, s) =>
                            match parse_tail s with
                            | None => None
                            | Some (test, more, s) => Some (CType name ret args hash free test call more 0, s)
                            end
                        end
                    end
                end
            | _ => None
            end
          else
            match parse_tail s with
            | None => None
            | Some (test, more, s) => Some (CType name None [] hash free test ([], []) more 0, s)
            end
      end
  end
with parse_args (fuel : nat) (s : bytes) (seen : Z) : option (list ctype * bytes) :=
  match fuel with
  | O => None
  | S f =>
      match s with
      | 41 :: r => Some ([], r)
      | [] => None
      | _ =>
          match parse_type f s with
          | None => None
          | Some (t, s) =>
              let t := with_maps t (seen + 1) in
              match s with
              | 44 :: r => match parse_args f r (seen + 1) with Some (l, s) => Some (t :: l, s) | None => None end
              | 41 :: _ => match parse_args f s (seen + 1) with Some (l, s) => Some (t :: l, s) | None => None end
              | _ => None
              end
          end
      end
  end.
(** tag.go:96-109 [ParseTag]. What is left after the type is not looked at. *)
Definition parse_tag (tag : bytes) : option (list bytes * ctype) :=
  match cut tag 32 with
  | (_, _, false) => None
  | (symbols, st, true) =>
      match parse_type (S (S (List.length st + List.length st))) st with
      | Some (t, _) => Some (split symbols 44, t)
      | None => None
      end
  end.
