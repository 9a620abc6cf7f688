(** Model of package jrpc: the JSON encoder of api/jrpc/enc.go and the JSON decoder of
    api/jrpc/dec.go.

    Simplifications: the writer never fails, so the encoder is a function to bytes; a
    reader is the list of chunks its Read calls deliver, then io.EOF (a chunk longer than
    the buffer offered is delivered in pieces); struct fields are exported; types are finite
    (no recursive Go types); float values are exact rationals, infinity or NaN (no
    rounding) and the text strconv.AppendFloat gives is a parameter; when decoding fails,
    what was already stored in the target is not modelled. Loops take fuel; running out of
    it is a special error that the code cannot return. *)
From Verif Require Import GoBase.

(** ** Types and values *)
Inductive fval := FNaN | FInf | FRat (num den : Z).

(** Go types; a struct field is its name, the json tag ([] when there is none) and its type. *)
Inductive ty :=
| TBool | TInt (w : Z) | TUint (w : Z) | TFloat | TString
| TSlice (t : ty) | TRaw | TArray (n : nat) (t : ty) | TMap (k v : ty)
| TStruct (fs : list (bytes * bytes * ty)) | TPtr (t : ty) | TIface | TOther.
Definition field := (bytes * bytes * ty)%type.

Inductive val :=
| VBool (b : bool) | VInt (z : Z) | VFloat (f : fval) | VStr (s : bytes)
| VSlice (l : option (list val)) | VRaw (b : option bytes) | VArray (l : list val)
| VMap (m : option (list (val * val)))    (* in the order MapRange visits it *)
| VStruct (l : list val) | VPtr (v : option val) | VIface (v : option (ty * val)) | VOther.

(** reflect.Zero *)
Fixpoint zero (t : ty) : val :=
  match t with
  | TBool => VBool false | TInt _ | TUint _ => VInt 0 | TFloat => VFloat (FRat 0 1)
  | TString => VStr [] | TSlice _ => VSlice None | TRaw => VRaw None
  | TArray n t => VArray (repeat (zero t) n) | TMap _ _ => VMap None
  | TStruct fs => VStruct (map (fun f => zero (snd f)) fs)
  | TPtr _ => VPtr None | TIface => VIface None | TOther => VOther
  end.
(** reflect.Value.IsZero *)
Fixpoint is_zero (v : val) : bool :=
  match v with
  | VBool b => negb b | VInt z => z =? 0 | VFloat (FRat n _) => n =? 0 | VFloat _ => false
  | VStr [] => true | VStr _ => false | VSlice None | VRaw None | VMap None | VPtr None | VIface None => true
  | VSlice _ | VRaw _ | VMap _ | VPtr _ | VIface _ | VOther => false
  | VArray l | VStruct l => forallb is_zero l
  end.

(** ** The encoder *)
(** strconv.AppendUint/AppendInt in base 10 *)
Fixpoint digits_n (fuel : nat) (n : Z) (acc : bytes) : bytes :=
  match fuel with
  | O => acc
  | S f => let acc' := (48 + n mod 10) :: acc in if n <? 10 then acc' else digits_n f (n / 10) acc'
  end.
Definition uint_text (n : Z) : bytes := digits_n 20 n [].
Definition int_text (n : Z) : bytes := if n <? 0 then 45 :: uint_text (- n) else uint_text n.

(** "0123456789abcdef" *)
Definition hex (n : Z) : Z := if n <? 10 then 48 + n else 87 + n.
Definition rune_error := 65533.
Definition in_range (lo hi b : Z) : bool := (lo <=? b) && (b <=? hi).
(** utf8.DecodeRuneInString: rune and size *)
Definition decode_rune (s : bytes) : Z * nat :=
  match s with
  | [] => (rune_error, 0%nat)
  | b0 :: r =>
    if b0 <? 128 then (b0, 1%nat)
    else if b0 <? 194 then (rune_error, 1%nat)
    else if b0 <? 224 then
      match r with
      | b1 :: _ => if in_range 128 191 b1 then (b0 mod 32 * 64 + b1 mod 64, 2%nat) else (rune_error, 1%nat)
      | _ => (rune_error, 1%nat)
      end
    else if b0 <? 240 then
      match r with
      | b1 :: b2 :: _ =>
        if in_range (if b0 =? 224 then 160 else 128) (if b0 =? 237 then 159 else 191) b1
           && in_range 128 191 b2
        then (b0 mod 16 * 4096 + b1 mod 64 * 64 + b2 mod 64, 3%nat) else (rune_error, 1%nat)
      | _ => (rune_error, 1%nat)
      end
    else if b0 <? 245 then
      match r with
      | b1 :: b2 :: b3 :: _ =>
        if in_range (if b0 =? 240 then 144 else 128) (if b0 =? 244 then 143 else 191) b1
           && in_range 128 191 b2 && in_range 128 191 b3
        then (b0 mod 8 * 262144 + b1 mod 64 * 4096 + b2 mod 64 * 64 + b3 mod 64, 4%nat) else (rune_error, 1%nat)
      | _ => (rune_error, 1%nat)
      end
    else (rune_error, 1%nat)
  end.

(** enc.go:241-257: the escape of one byte under 0x80 *)
Definition escape_ascii (b : Z) : bytes :=
  if negb ((b <=? 31) || (b =? 34) || (b =? 92)) then [b]
  else 92 :: (if (b =? 92) || (b =? 34) then [b]
              else if b =? 10 then [110] else if b =? 13 then [114] else if b =? 9 then [116]
              else [117; 48; 48; hex (b / 16); hex (b mod 16)]).
(** enc.go:225-302, without the batching of writes *)
Fixpoint escape (s : bytes) : bytes :=
  match s with
  | [] => []
  | b :: r =>
    if b <? 128 then escape_ascii b ++ escape r
    else
      let '(c, n) := decode_rune s in
      if (c =? rune_error) && Nat.eqb n 1 then [92; 117; 102; 102; 102; 100] ++ escape r
      else
        let out := if (c =? 8232) || (c =? 8233) then [92; 117; 50; 48; 50; hex (c mod 16)] else firstn n s in
        match n, r with
        | 2%nat, _ :: r2 => out ++ escape r2
        | 3%nat, _ :: _ :: r3 => out ++ escape r3
        | 4%nat, _ :: _ :: _ :: r4 => out ++ escape r4
        | _, _ => out ++ escape r
        end
  end.
Definition quote (s : bytes) : bytes := 34 :: escape s ++ [34].

(** enc.go:305-372 *)
Definition std : bytes :=
  [65;66;67;68;69;70;71;72;73;74;75;76;77;78;79;80;81;82;83;84;85;86;87;88;89;90;
   97;98;99;100;101;102;103;104;105;106;107;108;109;110;111;112;113;114;115;116;117;118;119;120;121;122;
   48;49;50;51;52;53;54;55;56;57;43;47].
Definition sym (i : Z) : Z := nth (Z.to_nat i) std 0.
Fixpoint base64_quanta (b : bytes) : bytes :=
  match b with
  | b0 :: b1 :: b2 :: r =>
    let x := Z.lor (Z.lor (Z.shiftl b0 16) (Z.shiftl b1 8)) b2 in
    sym (Z.shiftr x 18) :: sym (Z.land (Z.shiftr x 12) 63) :: sym (Z.land (Z.shiftr x 6) 63)
      :: sym (Z.land x 63) :: base64_quanta r
  | [b0] => [sym (Z.shiftr b0 2); sym (Z.land (Z.shiftl b0 4) 63); 61; 61]
  | [b0; b1] =>
    let x := Z.lor (Z.shiftl b0 8) b1 in
    [sym (Z.shiftr x 10); sym (Z.land (Z.shiftr x 4) 63); sym (Z.land (Z.shiftl x 2) 63); 61]
  | [] => []
  end.
Definition null_text : bytes := [110; 117; 108; 108].
Definition base64 (b : bytes) : bytes :=
  match b with
  | [] => 34 :: null_text ++ [34]
  | _ => 34 :: base64_quanta b ++ [34]
  end.

(** strings.Cut at a comma *)
Fixpoint cut_comma (s : bytes) : bytes * bool :=
  match s with
  | [] => ([], false)
  | c :: r => if c =? 44 then ([], true) else let '(x, ok) := cut_comma r in (c :: x, ok)
  end.
Fixpoint prefix_of (p s : bytes) : bool :=
  match p, s with
  | [], _ => true
  | a :: p', b :: s' => (a =? b) && prefix_of p' s'
  | _, _ => false
  end.
Fixpoint contains (p s : bytes) : bool :=
  prefix_of p s || match s with [] => false | _ :: s' => contains p s' end.
Definition omitempty_text : bytes := [44; 111; 109; 105; 116; 101; 109; 112; 116; 121].
Definition omitzero_text : bytes := [44; 111; 109; 105; 116; 122; 101; 114; 111].
(** enc.go:137-150: name and options of a field *)
Definition enc_name (f : field) : bytes :=
  match fst (cut_comma (snd (fst f))) with [] => fst (fst f) | r => r end.
Definition omit_zero (f : field) : bool :=
  snd (cut_comma (snd (fst f))) && contains omitzero_text (snd (fst f)).
Definition omit_empty (f : field) : bool :=
  snd (cut_comma (snd (fst f))) && contains omitempty_text (snd (fst f)).
(** enc.go:151-153; [z]: the whole struct is zero *)
Definition omitted (f : field) (z : bool) : bool :=
  omit_zero f ||
  (omit_empty f && (match snd f with TStruct _ => false | TArray n _ => Nat.eqb n 0 | _ => true end) && z).

Section Encode.
Variable ftext : fval -> bytes.

Section Loops.
Variable enc : val -> ty -> outcome bytes.
(** enc.go:103-112 *)
Fixpoint enc_elems (t : ty) (vs : list val) : outcome bytes :=
  match vs with
  | [] => Ok []
  | v :: r =>
    let! a := enc v t in
    let! b := enc_elems t r in
    Ok (a ++ match r with [] => [] | _ => [44] end ++ b)
  end.
(** enc.go:202-220 *)
Fixpoint enc_pairs (k t : ty) (kvs : list (val * val)) : outcome bytes :=
  match kvs with
  | [] => Ok []
  | (x, y) :: r =>
    let! a := enc x k in
    let! b := enc y t in
    let! c := enc_pairs k t r in
    Ok (a ++ [58] ++ b ++ match r with [] => [] | _ => [44] end ++ c)
  end.
(** enc.go:135-166 *)
Fixpoint enc_fields (z : bool) (vs : list val) (fs : list field) : outcome bytes :=
  match vs, fs with
  | [], [] => Ok []
  | v :: vs', f :: fs' =>
    let! b := enc_fields z vs' fs' in
    if omitted f z then Ok b
    else let! a := enc v (snd f) in Ok ([34] ++ enc_name f ++ [34; 58] ++ a ++ b)
  | _, _ => Panic
  end.
End Loops.

(** enc.go:41-172 [encode].  A mismatch of value and type cannot happen in Go. IsNil (89)
    panics for an array. *)
Fixpoint encode (v : val) (t : ty) {struct v} : outcome bytes :=
  match t, v with
  | TBool, VBool true => Ok [116; 114; 117; 101]
  | TBool, VBool false => Ok [102; 97; 108; 115; 101]
  | TInt _, VInt z => Ok (int_text z)
  | TUint _, VInt z => Ok (uint_text z)
  | TFloat, VFloat f => Ok (ftext f)
  | TString, VStr s => Ok (quote s)
  | TArray _ _, VArray _ => Panic
  | TSlice _, VSlice None | TRaw, VRaw None | TMap _ _, VMap None
  | TPtr _, VPtr None | TIface, VIface None => Ok null_text
  | TRaw, VRaw (Some b) => Ok b
  | TSlice (TUint 8), VSlice (Some vs) => Ok (base64 (map (fun v => match v with VInt z => z | _ => 0 end) vs))
  | TSlice t, VSlice (Some vs) => let! b := enc_elems encode t vs in Ok ([91] ++ b ++ [93])
  | TMap k t, VMap (Some kvs) => let! b := enc_pairs encode k t kvs in Ok ([123] ++ b ++ [125])
  | TPtr t, VPtr (Some v) => encode v t
  | TIface, VIface (Some (t, v)) => encode v t
  | TStruct fs, VStruct vs =>
    let! b := enc_fields encode (forallb is_zero vs) vs fs in Ok ([123] ++ b ++ [125])
  | TOther, VOther => Ok []
  | _, _ => Panic
  end.
End Encode.

(** ** The decoder *)
Inductive err := EEOF | EBad | EFuel.
Inductive res (A : Type) := Good (a : A) | Fail (e : err).
Arguments Good {A}. Arguments Fail {A}.

(** dec.go:13-20 [Decoder]; prev is never read *)
Record dec := { seg : bytes; head : Z; size : Z; rd : list bytes }.
(** dec.go:22-24 *)
Definition new_decoder (chunks : list bytes) : dec :=
  {| seg := repeat 0 256; head := 0; size := 0; rd := chunks |}.

Definition D (A : Type) := dec -> outcome (res A * dec).
Definition dret {A} (a : A) : D A := fun d => Ok (Good a, d).
Definition dfail {A} (e : err) : D A := fun d => Ok (Fail e, d).
Definition dbind {A B} (m : D A) (f : A -> D B) : D B := fun d =>
  match m d with
  | Panic => Panic
  | Ok (Fail e, d') => Ok (Fail e, d')
  | Ok (Good a, d') => f a d'
  end.
Notation "x <- m ;; k" := (dbind m (fun x => k)) (at level 61, m at next level, right associativity).

(** r.Read into a buffer of n bytes: the bytes, or io.EOF *)
Definition read_chunk (n : nat) (rd : list bytes) : option (bytes * list bytes) :=
  match rd with
  | [] => None
  | c :: cs => if Nat.leb (length c) n then Some (c, cs) else Some (firstn n c, skipn n c :: cs)
  end.
(** dec.go:43-50, 56-63: read more when all was consumed: into segment[head:], then from
    position 0 on *)
Definition fill : D unit := fun d =>
  if head d =? size d then
    if (0 <=? head d) && (head d <=? 256) then
      let h := Z.to_nat (head d) in
      match read_chunk (256 - h) (rd d) with
      | None => Ok (Fail EEOF, d)
      | Some (c, r) =>
        Ok (Good tt, {| seg := firstn h (seg d) ++ c ++ skipn (h + length c) (seg d);
                        head := 0; size := size d + zlen c; rd := r |})
      end
    else Panic
  else Ok (Good tt, d).
(** dec.go:42-53 *)
Definition peek : D Z := _ <- fill ;; fun d => let! b := index (head d) (seg d) in Ok (Good b, d).
(** dec.go:55-73 *)
Definition scan : D Z := _ <- fill ;; fun d =>
  let! b := index (head d) (seg d) in
  if head d + 1 =? 256 then Ok (Good b, {| seg := seg d; head := 0; size := 0; rd := rd d |})
  else Ok (Good b, {| seg := seg d; head := head d + 1; size := size d; rd := rd d |}).
(** scan_byte where io.EOF is caught *)
Definition scan_or_eof : D (option Z) := fun d =>
  match scan d with
  | Ok (Good b, d') => Ok (Good (Some b), d')
  | Ok (Fail EEOF, d') => Ok (Good None, d')
  | Ok (Fail e, d') => Ok (Fail e, d')
  | Panic => Panic
  end.
(** d.head, d.head = h, d.head-- *)
Definition get_head : D Z := fun d => Ok (Good (head d), d).
Definition set_head (h : Z) : D unit := fun d =>
  Ok (Good tt, {| seg := seg d; head := h; size := size d; rd := rd d |}).
Definition unread : D unit := h <- get_head ;; set_head (h - 1).

Definition is_space (c : Z) : bool := (c =? 32) || (c =? 9) || (c =? 10) || (c =? 13).
(** dec.go:75-89 *)
Fixpoint skip_space (fuel : nat) : D unit :=
  match fuel with
  | O => dfail EFuel
  | S f => c <- peek ;; if is_space c then (_ <- scan ;; skip_space f) else dret tt
  end.

(** dec.go:97-115 *)
Fixpoint bool_loop (i : nat) (ws : list (Z * option Z)) (init : bool) : D bool :=
  match ws with
  | [] => dret init
  | (f, t) :: r =>
    c <- scan ;;
    if negb (c =? f) && (match t with Some x => negb (c =? x) | None => false end) then dfail EBad
    else if Nat.eqb i 3 && (c =? 101) then dret true
    else bool_loop (S i) r init
  end.
Definition decode_bool (init : bool) : D bool :=
  bool_loop 0 [(102, Some 116); (97, Some 114); (108, Some 117); (115, Some 101); (101, None)] init.

Definition closes (c : Z) : bool := (c =? 44) || (c =? 125) || (c =? 93).
Definition is_digit (c : Z) : bool := (48 <=? c) && (c <=? 57).
(** dec.go:116-146 *)
Fixpoint int_loop (fuel : nat) (reg : Z) (neg : bool) : D Z :=
  match fuel with
  | O => dfail EFuel
  | S f =>
    c <- scan_or_eof ;;
    match c with
    | None => dret (if neg then i64 (- reg) else reg)
    | Some c =>
      if c =? 45 then int_loop f reg true
      else if closes c || is_space c then (_ <- unread ;; dret (if neg then i64 (- reg) else reg))
      else if negb (is_digit c) then dfail EBad
      else int_loop f (i64 (reg * 10 + (c - 48))) neg
    end
  end.
(** dec.go:147-168 *)
Fixpoint uint_loop (fuel : nat) (reg : Z) : D Z :=
  match fuel with
  | O => dfail EFuel
  | S f =>
    c <- scan_or_eof ;;
    match c with
    | None => dret reg
    | Some c =>
      if closes c || is_space c then (_ <- unread ;; dret reg)
      else if negb (is_digit c) then dfail EBad
      else uint_loop f (u64 (reg * 10 + (c - 48)))
    end
  end.
(** dec.go:169-209 *)
Definition float_of (whole fract decimals : Z) (neg : bool) : fval :=
  let w := if neg then i64 (- whole) else whole in
  if decimals =? 0 then (if fract =? 0 then FNaN else FInf)
  else FRat (w * decimals + fract) decimals.
Fixpoint float_loop (fuel : nat) (whole fract decimals : Z) (neg : bool) : D fval :=
  match fuel with
  | O => dfail EFuel
  | S f =>
    c <- scan_or_eof ;;
    match c with
    | None => dret (float_of whole fract decimals neg)
    | Some c =>
      if c =? 45 then float_loop f whole fract decimals true
      else if c =? 46 then float_loop f whole fract 1 neg
      else if closes c then (_ <- unread ;; dret (float_of whole fract decimals neg))
      else if negb (is_digit c) then dfail EBad
      else if decimals =? 0 then float_loop f (i64 (whole * 10 + (c - 48))) fract decimals neg
      else float_loop f whole (u64 (fract * 10 + (c - 48))) (u64 (decimals * 10)) neg
    end
  end.

(** string(rune) *)
Definition rune_text (c : Z) : bytes :=
  if c <? 128 then [c]
  else if c <? 2048 then [192 + c / 64; 128 + c mod 64]
  else if in_range 55296 57343 c || (1114111 <? c) then [239; 191; 189]
  else if c <? 65536 then [224 + c / 4096; 128 + c / 64 mod 64; 128 + c mod 64]
  else [240 + c / 262144; 128 + c / 4096 mod 64; 128 + c / 64 mod 64; 128 + c mod 64].
(** dec.go:255-262 *)
Definition unhex (c : Z) : option Z :=
  if in_range 48 57 c then Some (c - 48)
  else if in_range 97 102 c then Some (c - 97 + 10)
  else if in_range 65 70 c then Some (c - 65 + 10)
  else None.
(** dec.go:242-267 *)
Definition scan_unicode : D bytes :=
  a <- scan ;; b <- scan ;; c <- scan ;; e <- scan ;;
  match unhex a, unhex b, unhex c, unhex e with
  | Some a, Some b, Some c, Some e => dret (rune_text (((a * 16 + b) * 16 + c) * 16 + e))
  | _, _, _, _ => dfail EBad
  end.
(** dec.go:219-273 *)
Fixpoint string_loop (fuel : nat) (buf : bytes) : D bytes :=
  match fuel with
  | O => dfail EFuel
  | S f =>
    c <- scan ;;
    if c =? 34 then dret buf
    else if c =? 92 then
      e <- scan ;;
      if (e =? 34) || (e =? 92) || (e =? 47) then string_loop f (buf ++ [e])
      else if e =? 98 then string_loop f (buf ++ [8])
      else if e =? 102 then string_loop f (buf ++ [12])
      else if e =? 110 then string_loop f (buf ++ [10])
      else if e =? 114 then string_loop f (buf ++ [13])
      else if e =? 116 then string_loop f (buf ++ [9])
      else if e =? 117 then (u <- scan_unicode ;; string_loop f (buf ++ u))
      else dfail EBad
    else string_loop f (buf ++ [c])
  end.
(** dec.go:210-218 *)
Definition decode_string (fuel : nat) : D bytes :=
  c <- scan ;; if c =? 34 then string_loop fuel [] else dfail EBad.

(** dec.go:527-548: the wanted bytes are the FOUR of [4]byte{'u','l','l'} *)
Fixpoint null_loop (want : bytes) : D bool :=
  match want with
  | [] => dret true
  | w :: ws => c <- scan ;; if c =? w then null_loop ws else dret false
  end.
Definition is_null : D bool :=
  saved <- get_head ;;
  c <- scan ;;
  n <- (if c =? 110 then null_loop [117; 108; 108; 0] else dret false) ;;
  if n : bool then dret true else (_ <- set_head saved ;; dret false).

(** SetMapIndex *)
Section MapSet.
Variable veq : val -> val -> bool.
Fixpoint map_set (m : list (val * val)) (k v : val) : list (val * val) :=
  match m with
  | [] => [(k, v)]
  | (k', v') :: r => if veq k k' then (k', v) :: r else (k', v') :: map_set r k v
  end.
End MapSet.
(** Equality of map keys: strings, integers, booleans; other keys are never equal (a
    simplification: struct, array, float and pointer keys). *)
Fixpoint bytes_eqb (a b : bytes) : bool :=
  match a, b with
  | [], [] => true
  | x :: a', y :: b' => (x =? y) && bytes_eqb a' b'
  | _, _ => false
  end.
Definition key_eqb (a b : val) : bool :=
  match a, b with
  | VStr x, VStr y => bytes_eqb x y
  | VInt x, VInt y => x =? y
  | VBool x, VBool y => Bool.eqb x y
  | _, _ => false
  end.

(** dec.go:353-368: the name of a field to the decoder, and the index of the last field
    with a given name *)
Definition dec_name (f : field) : option bytes :=
  match snd (fst f) with
  | [] => Some (fst (fst f))
  | tag => let n := fst (cut_comma tag) in if bytes_eqb n [45] then None else Some n
  end.
Fixpoint field_index (i : nat) (key : bytes) (fs : list field) : option nat :=
  match fs with
  | [] => None
  | f :: r =>
    match field_index (S i) key r with
    | Some j => Some j
    | None => match dec_name f with Some n => if bytes_eqb n key then Some i else None | None => None end
    end
  end.

Section DecLoops.
Variable fuel0 : nat.
(** dec.go:289-342 *)
Variable dk dv : D val.
Fixpoint map_loop (fuel : nat) (m : list (val * val)) : D (list (val * val)) :=
  match fuel with
  | O => dfail EFuel
  | S f =>
    k <- dk ;;
    _ <- skip_space fuel0 ;;
    c <- scan ;;
    if negb (c =? 58) then dfail EBad else
    _ <- skip_space fuel0 ;;
    v <- dv ;;
    let m' := map_set key_eqb m k v in
    _ <- skip_space fuel0 ;;
    c <- scan ;;
    if c =? 125 then dret m'
    else if negb (c =? 44) then dfail EBad
    else (_ <- skip_space fuel0 ;; map_loop f m')
  end.
(** dec.go:468-525; [room i]: an element i may be stored; [old i]: its contents before *)
Variable de : val -> D val.
Variable room : nat -> bool.
Variable old : nat -> val.
Fixpoint elems_loop (fuel : nat) (acc : list val) : D (list val) :=
  match fuel with
  | O => dfail EFuel
  | S f =>
    if negb (room (length acc)) then dfail EBad else
    v <- de (old (length acc)) ;;
    _ <- skip_space fuel0 ;;
    c <- scan ;;
    if c =? 93 then dret (acc ++ [v])
    else if negb (c =? 44) then dfail EBad
    else elems_loop f (acc ++ [v])
  end.
(** dec.go:373-433; [upd i] decodes into field i, [skip] into an empty interface *)
Variable dkey : D bytes.
Variable upd : nat -> list val -> D (list val).
Variable skip : D unit.
Variable fs : list field.
Fixpoint fields_loop (fuel : nat) (vs : list val) : D (list val) :=
  match fuel with
  | O => dfail EFuel
  | S f =>
    key <- dkey ;;
    _ <- skip_space fuel0 ;;
    c <- scan ;;
    if negb (c =? 58) then dfail EBad else
    _ <- skip_space fuel0 ;;
    vs' <- (match field_index 0 key fs with
            | Some i => upd i vs
            | None => (_ <- skip ;; dret vs)
            end) ;;
    _ <- skip_space fuel0 ;;
    c <- scan ;;
    if c =? 125 then dret vs'
    else if negb (c =? 44) then dfail EBad
    else fields_loop f vs'
  end.
End DecLoops.
Section Upd.
Variable dec1 : ty -> val -> D val.
Fixpoint upd_field (fs : list field) (i : nat) (vs : list val) : D (list val) :=
  match fs, vs with
  | f :: fs', v :: vs' =>
    let '(_, _, t) := f in
    match i with
    | O => x <- dec1 t v ;; dret (x :: vs')
    | S j => r <- upd_field fs' j vs' ;; dret (v :: r)
    end
  | _, _ => fun _ => Panic
  end.
End Upd.

(** dec.go:520-565 for an empty interface: null or an error *)
Definition decode_nil_iface (fuel : nat) : D unit :=
  _ <- skip_space fuel ;; n <- is_null ;; if n : bool then dret tt else dfail EBad.

(** dec.go:91-569 [decode] into a target holding [init].  A non-nil interface holds a value
    that cannot be set: storing into it panics (simplification: also when the text is
    wrong before anything is stored). *)
Fixpoint decode (fuel : nat) (t : ty) (init : val) {struct t} : D val :=
  _ <- skip_space fuel ;;
  match t with
  | TBool => b <- decode_bool (match init with VBool b => b | _ => false end) ;; dret (VBool b)
  | TInt w => z <- int_loop fuel 0 false ;; dret (VInt (sgn w z))
  | TUint w => z <- uint_loop fuel 0 ;; dret (VInt (z mod 2^w))
  | TFloat => x <- float_loop fuel 0 0 0 false ;; dret (VFloat x)
  | TString => s <- decode_string fuel ;; dret (VStr s)
  | TMap k v =>
    let m := match init with VMap (Some m) => m | _ => [] end in
    c <- scan ;;
    if negb (c =? 123) then dfail EBad else
    _ <- skip_space fuel ;;
    if c =? 125 then dret (VMap (Some m))
    else m' <- map_loop fuel (decode fuel k (zero k)) (decode fuel v (zero v)) fuel m ;; dret (VMap (Some m'))
  | TStruct fs =>
    c <- scan ;;
    if negb (c =? 123) then dfail EBad else
    _ <- skip_space fuel ;;
    c <- peek ;;
    if c =? 125 then dret init else
    vs <- fields_loop fuel (_ <- skip_space fuel ;; decode_string fuel)
            (upd_field (decode fuel) fs) (decode_nil_iface fuel) fs fuel
            (match init with VStruct vs => vs | _ => [] end) ;;
    dret (VStruct vs)
  | TSlice t =>
    c <- scan ;;
    if negb (c =? 91) then dfail EBad else
    _ <- skip_space fuel ;;
    c <- peek ;;
    if c =? 93 then dret (VSlice (Some [])) else
    vs <- elems_loop fuel (decode fuel t) (fun _ => true) (fun _ => zero t) fuel [] ;; dret (VSlice (Some vs))
  | TRaw =>
    c <- scan ;;
    if negb (c =? 91) then dfail EBad else
    _ <- skip_space fuel ;;
    c <- peek ;;
    if c =? 93 then dret (VRaw (Some [])) else
    vs <- elems_loop fuel (fun _ => _ <- skip_space fuel ;; z <- uint_loop fuel 0 ;; dret (VInt (z mod 2^8)))
            (fun _ => true) (fun _ => VInt 0) fuel [] ;;
    dret (VRaw (Some (map (fun v => match v with VInt z => z | _ => 0 end) vs)))
  | TArray n t =>
    let l := match init with VArray l => l | _ => [] end in
    c <- scan ;;
    if negb (c =? 91) then dfail EBad else
    _ <- skip_space fuel ;;
    c <- peek ;;
    if c =? 93 then dret init else
    vs <- elems_loop fuel (decode fuel t) (fun i => Nat.ltb i n) (fun i => nth i l (zero t)) fuel [] ;;
    dret (VArray (vs ++ skipn (length vs) l))
  | TPtr t =>
    n <- is_null ;;
    if n : bool then dret (VPtr None)
    else v <- decode fuel t (match init with VPtr (Some v) => v | _ => zero t end) ;; dret (VPtr (Some v))
  | TIface =>
    n <- is_null ;;
    if n : bool then dret (VIface None)
    else match init with VIface (Some _) => (fun _ => Panic) | _ => dfail EBad end
  | TOther => dfail EBad
  end.

(** dec.go:34-40 [Decode] on a fresh decoder: the outcome, without the decoder *)
Definition decode_from (fuel : nat) (chunks : list bytes) (t : ty) (init : val) : outcome (res val) :=
  omap fst (decode fuel t init (new_decoder chunks)).
