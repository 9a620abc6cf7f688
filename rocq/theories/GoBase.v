(** Shared vocabulary for all models: Go fixed-width integers as [Z] with
    explicit wrap-around, bytes, byte strings, and Go outcomes with panics. *)
From Coq Require Export ZArith List Bool Lia.
Export ListNotations.
Open Scope Z_scope.

(** A Go [byte] is a [Z] in [0,256); a Go [[]byte] / [string] is a list of them. *)
Definition is_byte (b : Z) : Prop := 0 <= b < 256.
Definition bytes := list Z.
Definition is_bytes (bs : bytes) : Prop := Forall is_byte bs.

(** Go conversions: truncation to an unsigned width, and reinterpretation as
    two's complement signed width. *)
Definition u8  (x : Z) : Z := x mod 2^8.
Definition u16 (x : Z) : Z := x mod 2^16.
Definition u32 (x : Z) : Z := x mod 2^32.
Definition u64 (x : Z) : Z := x mod 2^64.
Definition sgn (w x : Z) : Z :=
  let m := x mod 2^w in if m <? 2^(w-1) then m else m - 2^w.
Definition i8  (x : Z) : Z := sgn 8 x.
Definition i16 (x : Z) : Z := sgn 16 x.
Definition i32 (x : Z) : Z := sgn 32 x.
Definition i64 (x : Z) : Z := sgn 64 x.

(** Go [len(b)] as an integer. *)
Definition zlen {A} (l : list A) : Z := Z.of_nat (length l).

(** Go slicing [b[n:]] and [b[:n]] for an in-range n (callers guard the range;
    the models that can go out of range use [slice_from]/[slice_to]). *)
Definition zskip {A} (n : Z) (l : list A) : list A := skipn (Z.to_nat n) l.
Definition ztake {A} (n : Z) (l : list A) : list A := firstn (Z.to_nat n) l.

(** Outcome of a Go call that can panic. *)
Inductive outcome (A : Type) : Type :=
| Ok (a : A)
| Panic.
Arguments Ok {A} a.
Arguments Panic {A}.

Definition obind {A B} (x : outcome A) (f : A -> outcome B) : outcome B :=
  match x with Ok a => f a | Panic => Panic end.
Notation "'let!' x ':=' e 'in' k" := (obind e (fun x => k))
  (at level 200, x pattern, e at level 200, k at level 200).
Definition omap {A B} (f : A -> B) (x : outcome A) : outcome B :=
  match x with Ok a => Ok (f a) | Panic => Panic end.

(** [b[n:]] with Go's bounds check (0 <= n <= len). *)
Definition slice_from {A} (n : Z) (l : list A) : outcome (list A) :=
  if (0 <=? n) && (n <=? zlen l) then Ok (zskip n l) else Panic.
(** [b[:n]] with Go's bounds check, where cap = len. *)
Definition slice_to {A} (n : Z) (l : list A) : outcome (list A) :=
  if (0 <=? n) && (n <=? zlen l) then Ok (ztake n l) else Panic.
(** [b[i]] with Go's bounds check. *)
Definition index {A} (i : Z) (l : list A) : outcome A :=
  if (0 <=? i) && (i <? zlen l) then
    match nth_error l (Z.to_nat i) with Some a => Ok a | None => Panic end
  else Panic.
