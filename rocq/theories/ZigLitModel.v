(** * zgo: literals (zgo/internal/target/zigc/constants.go). *)
From Coq Require Import String.
From Verif Require Import GoBase GoText.
Open Scope list_scope.
Open Scope Z_scope.

(** ** The printer *)
Inductive kind := KInt | KFloat | KImag.

(** strings.ReplaceAll(v, "_", "") *)
Definition no_us (v : bytes) : bytes := filter (fun c => negb (c =? 95)) v.

(** constants.go:21-40: floats and imaginary literals of more than one byte.
    [Panic]: index out of range. *)
Definition fix_float (v : bytes) : outcome bytes :=
  let v := trim_suffix v [105] in
  let v := if beq v [48] then [48; 46; 48] else v in
  let! c := index 1 v in
  let v := if negb (c =? 120) && negb (c =? 111) then drop_while (fun b => b =? 48) v else v in
  let v := if beq v [46] then [48; 46; 48] else v in
  let! c0 := index 0 v in
  let v := if c0 =? 46 then 48 :: v else v in
  let! cl := index (zlen v - 1) v in
  Ok (if cl =? 46 then v ++ [48] else v).

(** constants.go:12-20, 21-45 and 65-66 (INT, FLOAT and IMAG) *)
Definition old_octal (v : bytes) : bool :=
  match v with
  | c0 :: c1 :: _ => (c0 =? 48) && (((48 <? c1) && (c1 <? 57)) || (c1 =? 95))
  | _ => false
  end.
Definition lit_print (k : kind) (v : bytes) : outcome bytes :=
  match k with
  | KInt => if old_octal v then Ok ([48; 111] ++ trim_prefix (tl v) [95]) else Ok (no_us v)
  | KFloat => let! v := (if 1 <? zlen v then fix_float v else Ok v) in Ok (no_us v)
  | KImag => let! v := (if 1 <? zlen v then fix_float v else Ok v) in
             Ok (text "go.complex128.init(0," ++ v ++ text ")")
  end.

(** %q of the value of a string literal (constants.go:55-64), for ASCII strings
    (simplification: the text of a literal is not modelled, strconv.Unquote yields
    its value) *)
Definition hexd (n : Z) : Z := if n <? 10 then 48 + n else 87 + n.
Definition q_byte (c : Z) : bytes :=
  if c =? 34 then [92; 34] else if c =? 92 then [92; 92]
  else if c =? 7 then [92; 97] else if c =? 8 then [92; 98] else if c =? 12 then [92; 102]
  else if c =? 10 then [92; 110] else if c =? 13 then [92; 114] else if c =? 9 then [92; 116]
  else if c =? 11 then [92; 118]
  else if (c <? 32) || (c =? 127) then [92; 120; hexd (c / 16); hexd (c mod 16)] else [c].
Definition lit_string (val : bytes) : bytes := 34 :: flat_map q_byte val ++ [34].

(** %d of the value of a rune literal (constants.go:45-54); a rune has at most 7
    digits, [20] is enough for any int64 *)
Fixpoint decimal (fuel : nat) (n : Z) (acc : bytes) : bytes :=
  match fuel with
  | O => acc
  | S f => let acc := (48 + n mod 10) :: acc in if n <? 10 then acc else decimal f (n / 10) acc
  end.
Definition lit_char (val : Z) : bytes := decimal 20 val [].

(** ** Integer literals of Go and Zig

    [us]: an underscore may come next; [fin]: the literal may end here. *)
Definition digit (c : Z) : option Z :=
  if (48 <=? c) && (c <=? 57) then Some (c - 48)
  else if (97 <=? c) && (c <=? 102) then Some (c - 87)
  else if (65 <=? c) && (c <=? 70) then Some (c - 55)
  else None.
Fixpoint digs (base : Z) (us fin : bool) (acc : Z) (s : bytes) : option Z :=
  match s with
  | [] => if fin then Some acc else None
  | c :: r =>
      if c =? 95 then if us then digs base false false acc r else None
      else match digit c with
           | Some d => if d <? base then digs base true true (acc * base + d) r else None
           | None => None
           end
  end.
(** "Integer literals" in the Go specification: underscores between digits and after
    a prefix, prefixes in both cases, a leading zero means octal *)
Definition go_int (s : bytes) : option Z :=
  match s with
  | [] => None
  | c0 :: r =>
      if c0 =? 48 then
        match r with
        | [] => Some 0
        | c :: r' =>
            if (c =? 98) || (c =? 66) then digs 2 true false 0 r'
            else if (c =? 111) || (c =? 79) then digs 8 true false 0 r'
            else if (c =? 120) || (c =? 88) then digs 16 true false 0 r'
            else digs 8 true false 0 r
        end
      else digs 10 false false 0 s
  end.
(** lib/std/zig/number_literal.zig: prefixes in lower case, no leading zeros,
    underscores between digits only *)
Definition zig_int (s : bytes) : option Z :=
  match s with
  | [] => None
  | c0 :: r =>
      if c0 =? 48 then
        match r with
        | [] => Some 0
        | c :: r' =>
            if c =? 98 then digs 2 false false 0 r'
            else if c =? 111 then digs 8 false false 0 r'
            else if c =? 120 then digs 16 false false 0 r'
            else None
        end
      else digs 10 false false 0 s
  end.

(** ** Decimal floats, without underscores: the value is m * 10^e *)
Definition is_dig (c : Z) : bool := (48 <=? c) && (c <=? 57).
Fixpoint span (s : bytes) : bytes * bytes :=
  match s with
  | c :: r => if is_dig c then let '(a, b) := span r in (c :: a, b) else ([], s)
  | [] => ([], [])
  end.
Fixpoint num (acc : Z) (ds : bytes) : Z :=
  match ds with [] => acc | c :: r => num (acc * 10 + (c - 48)) r end.
(** the exponent: nothing, or e or E, a sign and digits *)
Definition exponent (s : bytes) : option Z :=
  match s with
  | [] => Some 0
  | c :: r =>
      if (c =? 101) || (c =? 69) then
        let '(neg, r) := match r with
                         | x :: r' => if x =? 43 then (false, r') else if x =? 45 then (true, r') else (false, r)
                         | [] => (false, r)
                         end in
        match span r with
        | ([], _) => None
        | (ds, []) => Some (if neg then - num 0 ds else num 0 ds)
        | (_, _ :: _) => None
        end
      else None
  end.
(** the parts of a decimal number: digits before the period, digits after it (if
    there is a period) and the rest *)
Definition parts (s : bytes) : bytes * option bytes * bytes :=
  let '(ip, r) := span s in
  match r with
  | 46 :: r => let '(fp, ex) := span r in (ip, Some fp, ex)
  | _ => (ip, None, r)
  end.
Definition fvalue (ip fp : bytes) (e : Z) : Z * Z := (num 0 (ip ++ fp), e - zlen fp).
(** "Floating-point literals" in the Go specification *)
Definition go_float (s : bytes) : option (Z * Z) :=
  match parts s with
  | (ip, Some fp, ex) =>
      match ip, fp, exponent ex with
      | [], [], _ => None
      | _, _, Some e => Some (fvalue ip fp e)
      | _, _, None => None
      end
  | (ip, None, ex) =>
      match ip, ex, exponent ex with
      | _ :: _, _ :: _, Some e => Some (fvalue ip [] e)
      | _, _, _ => None
      end
  end.
(** Zig: digits on both sides of a period, no leading zeros *)
Definition zig_float (s : bytes) : option (Z * Z) :=
  match parts s with
  | (ip, fp, ex) =>
      if match ip with [] => false | c :: r => negb (c =? 48) || match r with [] => true | _ => false end end then
        match fp, exponent ex with
        | Some [], _ => None
        | Some fp, Some e => Some (fvalue ip fp e)
        | None, Some e => match ex with [] => None | _ => Some (fvalue ip [] e) end
        | _, None => None
        end
      else None
  end.

(** ** Zig string literals: lib/std/zig/string_literal.zig, on ASCII *)
Definition hex_digit (c : Z) : option Z := digit c.
Fixpoint zig_body_str (s : bytes) : option bytes :=
  match s with
  | [] => None
  | [c] => if c =? 34 then Some [] else None
  | c :: ((x :: r') as r) =>
      if c =? 34 then None
      else if c =? 92 then
        if x =? 110 then option_map (cons 10) (zig_body_str r')
        else if x =? 114 then option_map (cons 13) (zig_body_str r')
        else if x =? 116 then option_map (cons 9) (zig_body_str r')
        else if (x =? 92) || (x =? 34) || (x =? 39) then option_map (cons x) (zig_body_str r')
        else if x =? 120 then
          match r' with
          | h :: l :: r'' =>
              match hex_digit h, hex_digit l with
              | Some h, Some l => option_map (cons (16 * h + l)) (zig_body_str r'')
              | _, _ => None
              end
          | _ => None
          end
        else None      (* \u{...} is never printed *)
      else if (c <? 32) || (c =? 127) then None
      else option_map (cons c) (zig_body_str r)
  end.
Definition zig_str (s : bytes) : option bytes :=
  match s with c :: r => if c =? 34 then zig_body_str r else None | [] => None end.
