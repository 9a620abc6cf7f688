(** What JSON text means, written from RFC 8259, RFC 3629 and RFC 4648 and independently of
    the code (C44 to C49, C83). *)
From Verif Require Import GoBase JrpcModel.

(** ** UTF-8 (RFC 3629) *)
(** [char cp bs]: the code point cp, not a surrogate, in UTF-8 is bs *)
Inductive char : Z -> bytes -> Prop :=
| Char1 c : 0 <= c < 128 -> char c [c]
| Char2 c : 128 <= c < 2048 -> char c [192 + c / 64; 128 + c mod 64]
| Char3 c : 2048 <= c < 65536 -> ~ (55296 <= c < 57344) ->
    char c [224 + c / 4096; 128 + c / 64 mod 64; 128 + c mod 64]
| Char4 c : 65536 <= c < 1114112 ->
    char c [240 + c / 262144; 128 + c / 4096 mod 64; 128 + c / 64 mod 64; 128 + c mod 64].
(** Valid UTF-8 *)
Inductive utf8 : bytes -> Prop :=
| Utf8Nil : utf8 []
| Utf8Cons c bs s : char c bs -> utf8 s -> utf8 (bs ++ s).
(** [sanitized s s']: s' is s with every byte that starts no valid character replaced by
    U+FFFD *)
Inductive sanitized : bytes -> bytes -> Prop :=
| SanNil : sanitized [] []
| SanChar c bs s s' : char c bs -> sanitized s s' -> sanitized (bs ++ s) (bs ++ s')
| SanBad b s s' : (forall c bs r, b :: s = bs ++ r -> ~ char c bs) -> sanitized s s' ->
    sanitized (b :: s) (239 :: 191 :: 189 :: s').

(** ** JSON strings (RFC 8259) *)
Inductive hex_digit : Z -> Z -> Prop :=
| Hex09 n : 0 <= n <= 9 -> hex_digit (48 + n) n
| Hexaf n : 10 <= n <= 15 -> hex_digit (87 + n) n
| HexAF n : 10 <= n <= 15 -> hex_digit (55 + n) n.
Inductive hex4 : bytes -> Z -> Prop :=
| Hex4 a b c d x y z w : hex_digit a x -> hex_digit b y -> hex_digit c z -> hex_digit d w ->
    hex4 [a; b; c; d] (((x * 16 + y) * 16 + z) * 16 + w).
(** the character after the backslash, and what it stands for *)
Inductive short_escape : Z -> Z -> Prop :=
| EQuote : short_escape 34 34 | EBack : short_escape 92 92 | ESlash : short_escape 47 47
| EB : short_escape 98 8 | EF : short_escape 102 12 | EN : short_escape 110 10
| ER : short_escape 114 13 | ET : short_escape 116 9.
(** [body x s]: the text x between the quotes stands for the string s.  Surrogate pairs are
    in [pair_escape]. *)
Inductive body : bytes -> bytes -> Prop :=
| BNil : body [] []
| BPlain c bs x s : char c bs -> 32 <= c -> c <> 34 -> c <> 92 -> body x s -> body (bs ++ x) (bs ++ s)
| BShort e c x s : short_escape e c -> body x s -> body (92 :: e :: x) (c :: s)
| BHex h c bs x s : hex4 h c -> char c bs -> body x s -> body (92 :: 117 :: h ++ x) (bs ++ s).
Inductive pair_escape : bytes -> bytes -> Prop :=
| Pair h l hi lo bs : hex4 h hi -> hex4 l lo -> 55296 <= hi < 56320 -> 56320 <= lo < 57344 ->
    char (65536 + (hi - 55296) * 1024 + (lo - 56320)) bs ->
    pair_escape (92 :: 117 :: h ++ 92 :: 117 :: l) bs.
Inductive json_string : bytes -> bytes -> Prop :=
| JString x s : body x s -> json_string (34 :: x ++ [34]) s.

(** ** JSON numbers *)
Definition digit (c : Z) : Prop := 48 <= c <= 57.
(** the value of a string of decimal digits *)
Fixpoint digits_value (acc : Z) (ds : bytes) : Z :=
  match ds with [] => acc | c :: r => digits_value (acc * 10 + (c - 48)) r end.
(** [json_int x z]: x is the JSON text of the integer z: no leading zeros, no "-0" *)
Inductive json_int : bytes -> Z -> Prop :=
| JZero : json_int [48] 0
| JPos c ds : 49 <= c <= 57 -> Forall digit ds -> json_int (c :: ds) (digits_value 0 (c :: ds))
| JNeg c ds : 49 <= c <= 57 -> Forall digit ds -> json_int (45 :: c :: ds) (- digits_value 0 (c :: ds)).

(** The signed and unsigned integers of Go *)
Definition width (w : Z) : Prop := In w [8; 16; 32; 64].
Definition fits_int (w z : Z) : Prop := - 2 ^ (w - 1) <= z < 2 ^ (w - 1).
Definition fits_uint (w z : Z) : Prop := 0 <= z < 2 ^ w.

(** ** White space and what may follow a value *)
Definition blank (c : Z) : Prop := In c [32; 9; 10; 13].
Definition delimiter (c : Z) : Prop := In c [44; 125; 93].
(** the end of the input, or , } ] *)
Definition closed (s : bytes) : Prop := match s with [] => True | c :: _ => delimiter c end.
(** the end of the input, white space, or , } ] *)
Definition ended (s : bytes) : Prop := match s with [] => True | c :: _ => delimiter c \/ blank c end.

(** ** The values that the partial round trip covers (C46) *)
(** a name that needs no escaping *)
Definition plain_name (n : bytes) : Prop :=
  n <> [] /\ Forall (fun c => 32 <= c < 256 /\ c <> 34 /\ c <> 92 /\ c <> 44) n.
(** a field without tag, or with a tag that is only a name *)
Definition plain_field (name tag : bytes) : Prop :=
  (tag = [] /\ plain_name name) \/ (plain_name tag /\ tag <> [45]).
Definition distinct_strings (l : list val) : Prop :=
  Forall (fun k => exists s, k = VStr s /\ utf8 s) l /\ NoDup l.
(** booleans, integers, valid UTF-8; non-empty slices other than byte slices; non-empty maps with
    string keys; pointers that are not nil; structs with one field *)
Fixpoint plain (t : ty) (v : val) : Prop :=
  match t, v with
  | TBool, VBool _ => True
  | TInt w, VInt z => width w /\ fits_int w z
  | TUint w, VInt z => width w /\ fits_uint w z
  | TString, VStr s => utf8 s
  | TSlice e, VSlice (Some l) => e <> TUint 8 /\ l <> [] /\ Forall (plain e) l
  | TMap TString e, VMap (Some m) =>
      m <> [] /\ distinct_strings (map fst m) /\ Forall (fun kv => plain e (snd kv)) m
  | TPtr e, VPtr (Some x) => plain e x
  | TStruct [(name, tag, e)], VStruct [x] => plain_field name tag /\ plain e x
  | _, _ => False
  end.
(** no integers anywhere in the type *)
Fixpoint no_ints (t : ty) : Prop :=
  match t with
  | TInt _ | TUint _ => False
  | TSlice e | TMap _ e | TPtr e | TStruct [(_, _, e)] => no_ints e
  | _ => True
  end.

(** ** Base64 (RFC 4648, section 4) *)
(** the 6-bit value of a character of the standard alphabet *)
Definition sextet (c : Z) : option Z :=
  if (65 <=? c) && (c <=? 90) then Some (c - 65)
  else if (97 <=? c) && (c <=? 122) then Some (c - 71)
  else if (48 <=? c) && (c <=? 57) then Some (c + 4)
  else if c =? 43 then Some 62 else if c =? 47 then Some 63 else None.
(** [b64 x b]: the padded text x stands for the bytes b; unused bits are zero *)
Inductive b64 : bytes -> bytes -> Prop :=
| B64Nil : b64 [] []
| B64Three c0 c1 c2 c3 x b0 b1 b2 b s0 s1 s2 s3 :
    sextet c0 = Some s0 -> sextet c1 = Some s1 -> sextet c2 = Some s2 -> sextet c3 = Some s3 ->
    is_bytes [b0; b1; b2] ->
    b0 * 65536 + b1 * 256 + b2 = s0 * 262144 + s1 * 4096 + s2 * 64 + s3 ->
    b64 x b -> b64 (c0 :: c1 :: c2 :: c3 :: x) (b0 :: b1 :: b2 :: b)
| B64Two c0 c1 c2 b0 b1 s0 s1 s2 :
    sextet c0 = Some s0 -> sextet c1 = Some s1 -> sextet c2 = Some s2 -> is_bytes [b0; b1] ->
    (b0 * 256 + b1) * 4 = s0 * 4096 + s1 * 64 + s2 ->
    b64 [c0; c1; c2; 61] [b0; b1]
| B64One c0 c1 b0 s0 s1 :
    sextet c0 = Some s0 -> sextet c1 = Some s1 -> is_byte b0 ->
    b0 * 16 = s0 * 64 + s1 ->
    b64 [c0; c1; 61; 61] [b0].

(** ** How a reader cuts its input (C48) *)
(** every chunk is non-empty, all but the last have a multiple of 256 bytes *)
Fixpoint aligned (r : list bytes) : Prop :=
  match r with
  | [] => True
  | [c] => c <> []
  | c :: r' => c <> [] /\ Nat.modulo (length c) 256 = 0%nat /\ aligned r'
  end.
