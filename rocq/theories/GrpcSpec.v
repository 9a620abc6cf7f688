(** What it means for bytes to be the protobuf encoding of a Go value as field [n], written
    from the protobuf encoding document: scalars are one tagged field, a struct or array is a
    length-delimited message of its numbered members, a slice repeats the field, a map is a
    repeated message with the key as field 1 and the value as field 2, nil is absent. *)
From Verif Require Import GoBase WireModel WireSpec GrpcModel.

Inductive pb : Z -> gval -> bytes -> Prop :=
| pb_bool n b p : tag p n 0 -> pb n (GBool b) (p ++ [if b then 1 else 0])
| pb_int n z p q : tag p n 0 -> uvarint q (z mod 2^64) -> pb n (GInt z) (p ++ q)
| pb_uint n z p q : tag p n 0 -> uvarint q z -> pb n (GUint z) (p ++ q)
| pb_f32 n x p q : tag p n 5 -> is_bytes q -> zlen q = 4 -> le_value q = x -> pb n (GFloat32 x) (p ++ q)
| pb_f64 n x p q : tag p n 1 -> is_bytes q -> zlen q = 8 -> le_value q = x -> pb n (GFloat64 x) (p ++ q)
| pb_string n s p q : tag p n 2 -> uvarint q (zlen s) -> is_bytes s -> pb n (GString s) (p ++ q ++ s)
| pb_array n vs p q body : tag p n 2 -> uvarint q (zlen body) -> pb_fields 1 vs body ->
    pb n (GArray vs) (p ++ q ++ body)
| pb_struct n vs p q body : tag p n 2 -> uvarint q (zlen body) -> pb_fields 1 vs body ->
    pb n (GStruct vs) (p ++ q ++ body)
| pb_slice n vs bs : pb_repeated n vs bs -> pb n (GSlice vs) bs
| pb_map n es bs : pb_entries n es bs -> pb n (GMap es) bs
| pb_nil n : pb n GNil []
| pb_ptr n v bs : pb n v bs -> pb n (GPtr v) bs
with pb_fields : Z -> list gval -> bytes -> Prop :=
| pbf_nil i : pb_fields i [] []
| pbf_cons i v vs b bs : pb i v b -> pb_fields (i + 1) vs bs -> pb_fields i (v :: vs) (b ++ bs)
with pb_repeated : Z -> list gval -> bytes -> Prop :=
| pbr_nil n : pb_repeated n [] []
| pbr_cons n v vs b bs : pb n v b -> pb_repeated n vs bs -> pb_repeated n (v :: vs) (b ++ bs)
with pb_entries : Z -> list (gval * gval) -> bytes -> Prop :=
| pbe_nil n : pb_entries n [] []
| pbe_cons n k v es p q bk bv bs : tag p n 2 -> uvarint q (zlen (bk ++ bv)) -> pb 1 k bk -> pb 2 v bv ->
    pb_entries n es bs -> pb_entries n ((k, v) :: es) (p ++ q ++ (bk ++ bv) ++ bs).

(** Go's own invariants on the values (ranges), at most 2^31-2 members per struct or array, and
    no unsupported kind anywhere.  [maps k] says which sizes of map are allowed. *)
Fixpoint goval (maps : Z -> Prop) (v : gval) : Prop :=
  match v with
  | GBool _ | GNil => True
  | GInt z => - 2^63 <= z < 2^63
  | GUint z => 0 <= z < 2^64
  | GFloat32 x => 0 <= x < 2^32
  | GFloat64 x => 0 <= x < 2^64
  | GString s => is_bytes s
  | GArray vs | GStruct vs => zlen vs < 2^31 - 1 /\
      (fix go (vs : list gval) : Prop := match vs with [] => True | x :: r => goval maps x /\ go r end) vs
  | GSlice vs =>
      (fix go (vs : list gval) : Prop := match vs with [] => True | x :: r => goval maps x /\ go r end) vs
  | GMap es => maps (zlen es) /\
      (fix go (es : list (gval * gval)) : Prop :=
         match es with [] => True | (k, x) :: r => goval maps k /\ goval maps x /\ go r end) es
  | GPtr x => goval maps x
  | GUnsupported => False
  end.
Definition one_entry (n : Z) : Prop := n = 1.

(** A stream of top-level fields that all carry the given number (and contain no groups). *)
Inductive stream (n : Z) : bytes -> Prop :=
| stream_nil : stream n []
| stream_cons typ p q rest : tag p n typ -> (forall levels, fvalue levels n typ q) -> stream n rest ->
    stream n (p ++ q ++ rest).
(** The package's own reader, applied field after field, reaches the end without an error and
    sees only the field number n. *)
Inductive parses (n : Z) : bytes -> Prop :=
| parses_end : parses n []
| parses_field b typ k rest : consumeField b = Some (Ok (n, typ, k)) -> 0 < k ->
    slice_from k b = Ok rest -> parses n rest -> parses n b.

(** Go types whose encoding a reader can invert: [one] are those that always produce exactly one
    field; slices and pointers only of those. *)
Inductive ty := TBool | TInt | TUint | TFloat32 | TFloat64 | TString
  | TArray (len : nat) (t : ty) | TStruct (ts : list ty) | TSlice (t : ty) | TPtr (t : ty).
Definition one_field (t : ty) : Prop := match t with TSlice _ | TPtr _ => False | _ => True end.
Fixpoint invertible (t : ty) : Prop :=
  match t with
  | TArray _ t => invertible t
  | TStruct ts => (fix go (ts : list ty) : Prop := match ts with [] => True | x :: r => invertible x /\ go r end) ts
  | TSlice t | TPtr t => one_field t /\ invertible t
  | _ => True
  end.
(** [v] is a value of type [t]. *)
Inductive has_type : ty -> gval -> Prop :=
| ht_bool b : has_type TBool (GBool b)
| ht_int z : has_type TInt (GInt z)
| ht_uint z : has_type TUint (GUint z)
| ht_f32 z : has_type TFloat32 (GFloat32 z)
| ht_f64 z : has_type TFloat64 (GFloat64 z)
| ht_string s : has_type TString (GString s)
| ht_array t vs : Forall (has_type t) vs -> has_type (TArray (length vs) t) (GArray vs)
| ht_struct ts vs : Forall2 has_type ts vs -> has_type (TStruct ts) (GStruct vs)
| ht_slice t vs : Forall (has_type t) vs -> has_type (TSlice t) (GSlice vs)
| ht_nilptr t : has_type (TPtr t) GNil
| ht_ptr t v : has_type t v -> has_type (TPtr t) (GPtr v).

(** Some part of the value that the encoder walks over is of a kind that protobuf cannot carry. *)
Inductive has_unsupported : gval -> Prop :=
| hu_here : has_unsupported GUnsupported
| hu_array vs x : In x vs -> has_unsupported x -> has_unsupported (GArray vs)
| hu_struct vs x : In x vs -> has_unsupported x -> has_unsupported (GStruct vs)
| hu_slice vs x : In x vs -> has_unsupported x -> has_unsupported (GSlice vs)
| hu_key es k x : In (k, x) es -> has_unsupported k -> has_unsupported (GMap es)
| hu_value es k x : In (k, x) es -> has_unsupported x -> has_unsupported (GMap es)
| hu_ptr x : has_unsupported x -> has_unsupported (GPtr x).
