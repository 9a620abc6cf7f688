(** * api/rest/mime.go: plain text and form data. *)
From Coq Require Import String.
From Verif Require Import GoBase GoText ZigLitModel.
Open Scope list_scope.
Open Scope Z_scope.

(** ** text/plain (mime.go:169-238) *)

(** The values of arguments and results, as far as the encoder tells them apart.
    [PMarshal t]: an encoding.TextMarshaler with text [t]. [PSlice ts]: a slice whose
    elements fmt prints as [ts]. Simplification: other values, which fmt prints
    (floats, structs, maps of arguments), are left out, as are marshalers that fail. *)
Inductive pval := PStr (s : bytes) | PInt (z : Z) | PBool (b : bool) | PMarshal (t : bytes) | PSlice (ts : list bytes).
(** %v of an integer *)
Definition num_text (n : Z) : bytes := decimal (S (Z.to_nat n)) n [].
Definition int_text (z : Z) : bytes := if z <? 0 then 45 :: num_text (- z) else num_text z.
(** mime.go:189-225 *)
Definition text_encode (v : pval) : bytes :=
  match v with
  | PMarshal t => t
  | PSlice ts => flat_map (fun t => t ++ [10]) ts
  | PStr s => s
  | PInt z => int_text z
  | PBool true => text "true"
  | PBool false => text "false"
  end.

(** What is decoded into: [WInt bits], [WUint bits], and [WUnmarshal], an
    encoding.TextUnmarshaler *)
Inductive want := WStr | WInt (bits : Z) | WUint (bits : Z) | WBool | WUnmarshal | WSlice.
(** fmt.isSpace, on ASCII *)
Definition space (c : Z) : bool := ((9 <=? c) && (c <=? 13)) || (c =? 32).
Fixpoint take_while (f : Z -> bool) (s : bytes) : bytes :=
  match s with [] => [] | c :: r => if f c then c :: take_while f r else [] end.
Definition word (s : bytes) : bytes := take_while (fun c => negb (space c)) (drop_while space s).
(** fmt ss.scanInt and scanUint with verb v: a sign, a prefix, digits and underscores *)
Definition oct_digit (c : Z) : bool := (48 <=? c) && (c <=? 55) || (c =? 95).
Definition dec_digit (c : Z) : bool := is_dig c || (c =? 95).
Definition bin_digit (c : Z) : bool := (c =? 48) || (c =? 49) || (c =? 95).
Definition hex_dig (c : Z) : bool := match digit c with Some _ => true | None => c =? 95 end.
Definition number_token (s : bytes) : bytes :=
  match s with
  | 48 :: c :: r =>
      if (c =? 98) || (c =? 66) then 48 :: c :: take_while bin_digit r
      else if (c =? 111) || (c =? 79) then 48 :: c :: take_while oct_digit r
      else if (c =? 120) || (c =? 88) then 48 :: c :: take_while hex_dig r
      else 48 :: take_while oct_digit (c :: r)
  | _ => take_while dec_digit s
  end.
(** fmt.Fscan of an integer: strconv.ParseInt with base 0 reads the integer literals of Go *)
Definition scan_int (signed : bool) (bits : Z) (s : bytes) : option Z :=
  let s := drop_while space s in
  let '(neg, s) := match s with
                   | c :: r => if signed && (c =? 45) then (true, r) else if signed && (c =? 43) then (false, r) else (false, s)
                   | [] => (false, s)
                   end in
  match go_int (number_token s) with
  | Some n => let z := if neg then - n else n in
              if signed then if (- 2 ^ (bits - 1) <=? z) && (z <? 2 ^ (bits - 1)) then Some z else None
              else if z <? 2 ^ bits then Some z else None
  | None => None
  end.
(** fmt ss.scanBool: 0, 1, t, T, f, F, true, false in any case; simplification: the
    spellings the encoder writes, and 0 and 1 *)
Definition scan_bool (s : bytes) : option bool :=
  let s := drop_while space s in
  if has_prefix s (text "true") then Some true
  else if has_prefix s (text "false") then Some false
  else if has_prefix s (text "1") then Some true
  else if has_prefix s (text "0") then Some false
  else None.
(** mime.go:227-237: [None]: an error. A TextUnmarshaler reads into a buffer of no bytes. *)
Definition text_decode (w : want) (body : bytes) : option pval :=
  match w with
  | WUnmarshal => Some (PMarshal [])
  | WStr => match word body with [] => None | s => Some (PStr s) end
  | WInt bits => option_map PInt (scan_int true bits body)
  | WUint bits => option_map PInt (scan_int false bits body)
  | WBool => option_map PBool (scan_bool body)
  | WSlice => None
  end.

(** ** multipart/form-data (mime.go:20-133) *)

(** A field of a struct: its name, the json and form tags ([] when there are none),
    whether it is zero. [mval]: a value that marshals itself or reads as [t], any value
    fmt prints as [t], structs, maps (in the order they are visited; [f_name] is the key
    as fmt prints it) and pointers. Simplification: files are below; errors of writers,
    readers and marshalers, and unexported fields (a panic), are left out. *)
Record finfo := { f_name : bytes; f_json : bytes; f_form : bytes; f_zero : bool }.
Inductive mval :=
| MText (t : bytes)
| MStruct (fs : mfields)
| MMap (fs : mfields)
| MPtr (v : mval)
| MNil          (* a nil pointer *)
with mfields := FNil | FCons (f : finfo) (v : mval) (r : mfields).
(** strings.Cut(tag, ",") *)
Definition cut_comma (s : bytes) : bytes * bytes :=
  (take_while (fun c => negb (c =? 44)) s, match drop_while (fun c => negb (c =? 44)) s with [] => [] | _ :: r => r end).
(** mime.go:102-116 *)
Definition part_name (f : finfo) : bytes :=
  let n := match fst (cut_comma (f_json f)) with [] => f_name f | n => n end in
  match f_form f with [] => n | t => t end.
Definition skipped (f : finfo) : bool :=
  let flags := snd (cut_comma (f_json f)) in
  (contains flags (text "omitempty") || contains flags (text "omitzero")) && f_zero f.
(** mime.go:95-101 *)
Definition prefix_of (name : bytes) : bytes :=
  if beq name [95] then [] else match name with [] => [] | _ => name ++ [46] end.
(** the parts written, name and content; [Panic]: the value of a nil pointer *)
Fixpoint parts_of (name : bytes) (v : mval) : outcome (list (bytes * bytes)) :=
  match v with
  | MText t => Ok [(name, t)]
  | MStruct fs => struct_parts name fs
  | MMap fs => map_parts fs
  | MPtr v => parts_of name v
  | MNil => Panic
  end
with struct_parts (name : bytes) (fs : mfields) : outcome (list (bytes * bytes)) :=
  match fs with
  | FNil => Ok []
  | FCons f v r =>
      if skipped f then struct_parts name r
      else let! a := parts_of (prefix_of name ++ part_name f) v in
           let! b := struct_parts name r in
           Ok (a ++ b)
  end
with map_parts (fs : mfields) : outcome (list (bytes * bytes)) :=
  match fs with
  | FNil => Ok []
  | FCons f v r => let! a := parts_of (f_name f) v in let! b := map_parts r in Ok (a ++ b)
  end.
Definition multipart (v : mval) : outcome (list (bytes * bytes)) := parts_of [] v.

(** ** Files (mime.go:63-72)

    The content type of a file is guessed from a buffer of 512 bytes, whatever the file
    fills of it. The last rule of http.DetectContentType: plain text has no binary bytes. *)
Definition binary_byte (c : Z) : bool :=
  (c <=? 8) || (c =? 11) || ((14 <=? c) && (c <=? 26)) || ((28 <=? c) && (c <=? 31)).
Definition looks_plain (data : bytes) : bool := negb (existsb binary_byte data).
Definition sniffed (content : bytes) : bytes :=
  firstn 512 content ++ repeat 0 (512 - List.length (firstn 512 content)).
