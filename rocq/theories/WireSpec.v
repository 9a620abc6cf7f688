(** Independent specification of the protobuf wire format, written from the public
    encoding document (https://protobuf.dev/programming-guides/encoding), not from
    the model. *)
From Verif Require Import GoBase.

(** [varint p v]: the byte string [p] is one self-delimiting base-128 little-endian
    integer with value [v]: every byte but the last has the high bit set. *)
Inductive varint : bytes -> Z -> Prop :=
| varint_last l : 0 <= l < 128 -> varint [l] l
| varint_cont c p v : 128 <= c < 256 -> varint p v -> varint (c :: p) ((c - 128) + 128 * v).

(** A varint that fits the wire format: at most ten bytes, value below 2^64. *)
Definition uvarint (p : bytes) (v : Z) : Prop :=
  varint p v /\ zlen p <= 10 /\ 0 <= v < 2^64.

(** Little-endian value of a byte string. *)
Fixpoint le_value (bs : bytes) : Z :=
  match bs with [] => 0 | b :: r => b + 256 * le_value r end.

(** A field tag: number and wire type packed as number*8+type. *)
Definition tag (p : bytes) (num typ : Z) : Prop :=
  1 <= num < 2^31 /\ 0 <= typ < 8 /\ uvarint p (8 * num + typ).

(** The grammar of field values.  [levels] is how many further levels of group
    nesting are allowed. Wire types: 0 varint, 1 fixed64, 2 length-delimited,
    3 group start, 4 group end, 5 fixed32. *)
Inductive fvalue : Z -> Z -> Z -> bytes -> Prop :=
| fv_varint d num p v : uvarint p v -> fvalue d num 0 p
| fv_fixed64 d num p : is_bytes p -> zlen p = 8 -> fvalue d num 1 p
| fv_bytes d num p body : is_bytes body -> uvarint p (zlen body) -> fvalue d num 2 (p ++ body)
| fv_group d num body p : 1 <= d -> fields (d - 1) body -> tag p num 4 ->
    fvalue d num 3 (body ++ p)
| fv_fixed32 d num p : is_bytes p -> zlen p = 4 -> fvalue d num 5 p
with fields : Z -> bytes -> Prop :=
| fields_nil d : fields d []
| fields_cons d num typ p q rest :
    tag p num typ -> fvalue d num typ q -> fields d rest -> fields d (p ++ q ++ rest).

(** Every byte announces a further one. *)
Definition all_cont (b : bytes) : Prop := Forall (fun c => 128 <= c < 256) b.
(** The input ends before its varint does. *)
Definition truncated (b : bytes) : Prop := all_cont b /\ zlen b < 10.
(** Ten bytes do not complete a varint below 2^64: nine announce a successor and the
    tenth is more than one bit. *)
Definition overlong (b : bytes) : Prop :=
  10 <= zlen b /\ all_cont (firstn 9 b) /\ 2 <= nth 9 b 0.
(** The reader's error codes. *)
Definition is_err (n : Z) : Prop := -6 <= n <= -1.
