(** Model of api/grpc/pb.go: the raw protobuf wire format. *)
From Verif Require Import GoBase.

(* api/grpc/pb.go:39-57  wire types *)
Definition typeVarint : Z := 0.
Definition typeFixed64 : Z := 1.
Definition typeBytes : Z := 2.
Definition typeStartGroup : Z := 3.
Definition typeEndGroup : Z := 4.
Definition typeFixed32 : Z := 5.

(* api/grpc/pb.go:50-58  error codes ( _ = -iota ) *)
Definition errCodeTruncated : Z := -1.
Definition errCodeFieldNumber : Z := -2.
Definition errCodeOverflow : Z := -3.
Definition errCodeReserved : Z := -4.
Definition errCodeEndGroup : Z := -5.
Definition errCodeRecursionDepth : Z := -6.

(* api/grpc/pb.go:25-31 *)
Definition MinValidNumber : Z := 1.
Definition DefaultRecursionLimit : Z := 10000.

(* api/grpc/pb.go:186-264  appendVarint.  [vc v k] is [byte((v>>k)&0x7f|0x80)]
   and [vl v k] is [byte(v>>k)]; the ten unrolled cases are kept. *)
Definition vc (v k : Z) : Z := u8 (Z.lor (Z.land (Z.shiftr v k) 127) 128).
Definition vl (v k : Z) : Z := u8 (Z.shiftr v k).
Definition appendVarint (b : bytes) (v : Z) : bytes :=
  if v <? 2^7 then b ++ [vl v 0]
  else if v <? 2^14 then b ++ [vc v 0; vl v 7]
  else if v <? 2^21 then b ++ [vc v 0; vc v 7; vl v 14]
  else if v <? 2^28 then b ++ [vc v 0; vc v 7; vc v 14; vl v 21]
  else if v <? 2^35 then b ++ [vc v 0; vc v 7; vc v 14; vc v 21; vl v 28]
  else if v <? 2^42 then b ++ [vc v 0; vc v 7; vc v 14; vc v 21; vc v 28; vl v 35]
  else if v <? 2^49 then b ++ [vc v 0; vc v 7; vc v 14; vc v 21; vc v 28; vc v 35; vl v 42]
  else if v <? 2^56 then b ++ [vc v 0; vc v 7; vc v 14; vc v 21; vc v 28; vc v 35; vc v 42;
                               vl v 49]
  else if v <? 2^63 then b ++ [vc v 0; vc v 7; vc v 14; vc v 21; vc v 28; vc v 35; vc v 42;
                               vc v 49; vl v 56]
  else b ++ [vc v 0; vc v 7; vc v 14; vc v 21; vc v 28; vc v 35; vc v 42;
             vc v 49; vc v 56; 1].

(* api/grpc/pb.go:266-369  consumeVarint: ten unrolled steps in uint64 arithmetic.
   [y << k] is a uint64 shift, [v += ...] and [v -= 0x80 << k] wrap at 2^64.
   The Go function tests [len(b) <= i] before reading b[i]: that is the match. *)
Definition vadd (v y k : Z) : Z := u64 (v + u64 (Z.shiftl y k)).
Definition vsub (v k : Z) : Z := u64 (v - Z.shiftl 128 k).
Definition consumeVarint (b : bytes) : Z * Z :=
  match b with [] => (0, errCodeTruncated) | b0 :: b =>
  let v := b0 in if v <? 128 then (v, 1) else let v := u64 (v - 128) in
  match b with [] => (0, errCodeTruncated) | y :: b =>
  let v := vadd v y 7 in if y <? 128 then (v, 2) else let v := vsub v 7 in
  match b with [] => (0, errCodeTruncated) | y :: b =>
  let v := vadd v y 14 in if y <? 128 then (v, 3) else let v := vsub v 14 in
  match b with [] => (0, errCodeTruncated) | y :: b =>
  let v := vadd v y 21 in if y <? 128 then (v, 4) else let v := vsub v 21 in
  match b with [] => (0, errCodeTruncated) | y :: b =>
  let v := vadd v y 28 in if y <? 128 then (v, 5) else let v := vsub v 28 in
  match b with [] => (0, errCodeTruncated) | y :: b =>
  let v := vadd v y 35 in if y <? 128 then (v, 6) else let v := vsub v 35 in
  match b with [] => (0, errCodeTruncated) | y :: b =>
  let v := vadd v y 42 in if y <? 128 then (v, 7) else let v := vsub v 42 in
  match b with [] => (0, errCodeTruncated) | y :: b =>
  let v := vadd v y 49 in if y <? 128 then (v, 8) else let v := vsub v 49 in
  match b with [] => (0, errCodeTruncated) | y :: b =>
  let v := vadd v y 56 in if y <? 128 then (v, 9) else let v := vsub v 56 in
  match b with [] => (0, errCodeTruncated) | y :: b =>
  let v := vadd v y 63 in if y <? 2 then (v, 10) else (0, errCodeOverflow)
  end end end end end end end end end end.

(* math/bits.Len64: number of bits needed to represent v (0 for 0). *)
Definition Len64 (v : Z) : Z := if v =? 0 then 0 else Z.log2 v + 1.

(* api/grpc/pb.go:372-376  sizeVarint: int(9*uint32(bits.Len64(v))+64) / 64 *)
Definition sizeVarint (v : Z) : Z := u32 (9 * Len64 v + 64) / 64.

(* api/grpc/pb.go:379-385 and 403-413 *)
Definition appendFixed32 (b : bytes) (v : Z) : bytes :=
  b ++ [u8 (Z.shiftr v 0); u8 (Z.shiftr v 8); u8 (Z.shiftr v 16); u8 (Z.shiftr v 24)].
Definition appendFixed64 (b : bytes) (v : Z) : bytes :=
  b ++ [u8 (Z.shiftr v 0); u8 (Z.shiftr v 8); u8 (Z.shiftr v 16); u8 (Z.shiftr v 24);
        u8 (Z.shiftr v 32); u8 (Z.shiftr v 40); u8 (Z.shiftr v 48); u8 (Z.shiftr v 56)].

(* api/grpc/pb.go:389-395 *)
Definition consumeFixed32 (b : bytes) : Z * Z :=
  match b with
  | b0 :: b1 :: b2 :: b3 :: _ =>
      (Z.lor (Z.lor (Z.lor (Z.shiftl b0 0) (Z.shiftl b1 8)) (Z.shiftl b2 16)) (Z.shiftl b3 24), 4)
  | _ => (0, errCodeTruncated)
  end.
(* api/grpc/pb.go:417-423 *)
Definition consumeFixed64 (b : bytes) : Z * Z :=
  match b with
  | b0 :: b1 :: b2 :: b3 :: b4 :: b5 :: b6 :: b7 :: _ =>
      (Z.lor (Z.lor (Z.lor (Z.lor (Z.lor (Z.lor (Z.lor
        (Z.shiftl b0 0) (Z.shiftl b1 8)) (Z.shiftl b2 16)) (Z.shiftl b3 24))
        (Z.shiftl b4 32)) (Z.shiftl b5 40)) (Z.shiftl b6 48)) (Z.shiftl b7 56), 8)
  | _ => (0, errCodeTruncated)
  end.

(* api/grpc/pb.go:431-433, 455-457 (appendString is the same function on strings) *)
Definition appendBytes (b v : bytes) : bytes := appendVarint b (u64 (zlen v)) ++ v.

(* api/grpc/pb.go:437-446.  [b[n:]] and [[:m]] are bounds-checked slices; the model
   makes the two panics explicit.  [int(m)] is a signed 64-bit conversion. *)
Definition consumeBytes (b : bytes) : outcome (bytes * Z) :=
  let '(m, n) := consumeVarint b in
  if n <? 0 then Ok ([], n) else
  let! rest := slice_from n b in
  if m >? zlen rest then Ok ([], errCodeTruncated) else
  let! v := slice_to m rest in
  Ok (v, n + i64 m).

(* api/grpc/pb.go:449-452 *)
Definition sizeBytes (n : Z) : Z := sizeVarint (u64 n) + n.

(* api/grpc/pb.go:502-508  decodeTag *)
Definition decodeTag (x : Z) : Z * Z :=
  if Z.shiftr x 3 >? 2^31 - 1 then (-1, 0)
  else (i32 (Z.shiftr x 3), i8 (Z.land x 7)).

(* api/grpc/pb.go:511-513  encodeTag: uint64(num)<<3 | uint64(typ&7) *)
Definition encodeTag (num typ : Z) : Z :=
  Z.lor (u64 (Z.shiftl (u64 num) 3)) (u64 (Z.land typ 7)).

(* api/grpc/pb.go:163-165 *)
Definition appendTag (b : bytes) (num typ : Z) : bytes := appendVarint b (encodeTag num typ).

(* api/grpc/pb.go:169-179 *)
Definition consumeTag (b : bytes) : Z * Z * Z :=
  let '(v, n) := consumeVarint b in
  if n <? 0 then (0, 0, n) else
  let '(num, typ) := decodeTag v in
  if num <? MinValidNumber then (0, 0, errCodeFieldNumber)
  else (num, typ, n).

(* api/grpc/pb.go:181-183 *)
Definition sizeTag (num : Z) : Z := sizeVarint (encodeTag num 0).

(* api/grpc/pb.go:117-160  consumeFieldValueD and, inside it, the group loop
   (lines 134-153).  Recursion and loop share the fuel argument; [None] is "out of
   fuel" and is shown never to happen with the fuel of [consumeFieldValue] below.
   Every [b[n:]] is a bounds-checked slice whose failure is [Panic]. *)
Fixpoint consumeFieldValueD (fuel : nat) (num typ : Z) (b : bytes) (depth : Z)
  : option (outcome Z) :=
  match fuel with O => None | S fuel =>
  if typ =? typeVarint then Some (Ok (snd (consumeVarint b)))
  else if typ =? typeFixed32 then Some (Ok (snd (consumeFixed32 b)))
  else if typ =? typeFixed64 then Some (Ok (snd (consumeFixed64 b)))
  else if typ =? typeBytes then Some (omap snd (consumeBytes b))
  else if typ =? typeStartGroup then
    if depth <? 0 then Some (Ok errCodeRecursionDepth)
    else consumeGroupLoop fuel num b depth (zlen b)
  else if typ =? typeEndGroup then Some (Ok errCodeEndGroup)
  else Some (Ok errCodeReserved)
  end
with consumeGroupLoop (fuel : nat) (num : Z) (b : bytes) (depth n0 : Z)
  : option (outcome Z) :=
  match fuel with O => None | S fuel =>
  let '(num2, typ2, n) := consumeTag b in
  if n <? 0 then Some (Ok n) else
  match slice_from n b with
  | Panic => Some Panic
  | Ok b =>
    if typ2 =? typeEndGroup then
      if negb (num =? num2) then Some (Ok errCodeEndGroup)
      else Some (Ok (n0 - zlen b))
    else
      match consumeFieldValueD fuel num2 typ2 b (depth - 1) with
      | None => None
      | Some Panic => Some Panic
      | Some (Ok n) =>
        if n <? 0 then Some (Ok n) else
        match slice_from n b with
        | Panic => Some Panic
        | Ok b => consumeGroupLoop fuel num b depth n0
        end
      end
  end
  end.

(* api/grpc/pb.go:113-115  consumeFieldValue.  Fuel: one step per byte and per
   recursion level is enough; the model supplies 2*len+2. *)
Definition fieldFuel (b : bytes) : nat := (2 * length b + 2)%nat.
Definition consumeFieldValue (num typ : Z) (b : bytes) : option (outcome Z) :=
  consumeFieldValueD (fieldFuel b) num typ b DefaultRecursionLimit.

(* api/grpc/pb.go:95-105  consumeField *)
Definition consumeField (b : bytes) : option (outcome (Z * Z * Z)) :=
  let '(num, typ, n) := consumeTag b in
  if n <? 0 then Some (Ok (0, 0, n)) else
  match slice_from n b with
  | Panic => Some Panic
  | Ok rest =>
    match consumeFieldValue num typ rest with
    | None => None
    | Some Panic => Some Panic
    | Some (Ok m) => if m <? 0 then Some (Ok (0, 0, m)) else Some (Ok (num, typ, n + m))
    end
  end.

(* api/grpc/pb.go:468-470 *)
Definition appendGroup (b : bytes) (num : Z) (v : bytes) : bytes :=
  appendVarint (b ++ v) (encodeTag num typeEndGroup).

(* api/grpc/pb.go:487-489: the loop stripping trailing bytes whose low seven bits are 0.
   The recursion is on the reversed slice. *)
Fixpoint strip_rev (r : bytes) : bytes :=
  match r with
  | [] => []
  | x :: r' => if Z.land x 127 =? 0 then strip_rev r' else r
  end.
Definition stripZeros (b : bytes) : bytes := rev (strip_rev (rev b)).

(* api/grpc/pb.go:476-492  consumeGroup *)
Definition consumeGroup (num : Z) (b : bytes) : option (outcome (bytes * Z)) :=
  match consumeFieldValue num typeStartGroup b with
  | None => None
  | Some Panic => Some Panic
  | Some (Ok n) =>
    if n <? 0 then Some (Ok ([], n)) else
    Some (let! b1 := slice_to n b in
          let b2 := stripZeros b1 in
          let! b3 := slice_to (zlen b2 - sizeTag num) b2 in
          Ok (b3, n))
  end.

(* api/grpc/pb.go:495-497 *)
Definition sizeGroup (num n : Z) : Z := n + sizeTag num.

(* api/grpc/pb.go:519-521  decodeZigZag: int64(x>>1) ^ int64(x)<<63>>63
   (Go: << and >> bind tighter than ^ and associate left). *)
Definition decodeZigZag (x : Z) : Z :=
  Z.lxor (i64 (Z.shiftr x 1)) (Z.shiftr (i64 (Z.shiftl (i64 x) 63)) 63).

(* api/grpc/pb.go:527-529  encodeZigZag: uint64(x<<1) ^ uint64(x>>63) *)
Definition encodeZigZag (x : Z) : Z :=
  Z.lxor (u64 (i64 (Z.shiftl x 1))) (u64 (Z.shiftr x 63)).

(* api/grpc/pb.go:535-548 *)
Definition decodeBool (x : Z) : bool := negb (x =? 0).
Definition encodeBool (x : bool) : Z := if x then 1 else 0.

(* api/grpc/pb.go:550-552  encodeInt: reinterpret the int64 bits as uint64 *)
Definition encodeInt (x : Z) : Z := u64 x.
