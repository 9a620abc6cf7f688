(** * Selectors of Go, written from its specification

    "Selectors": x.f is the field f at the shallowest depth in the type of x where there is
    one; if there is not exactly one there, it is no selector. Fields of embedded structs are
    one deeper. *)
From Coq Require Import List Arith ZArith Bool.
From Verif Require Import ZigSelModel.
Import ListNotations.

Inductive reaches : ty -> nat -> list nat -> Prop :=
| Here : forall t f i b u, nth_error (fields_of t) i = Some (f, b, u) -> reaches t f [i]
| Inside : forall t f i n u idx, nth_error (fields_of t) i = Some (n, true, u) -> reaches u f idx -> reaches t f (i :: idx).
Definition selects (t : ty) (f : nat) (idx : list nat) : Prop :=
  reaches t f idx /\ forall other, reaches t f other -> length idx < length other \/ other = idx.
(** The fields of a struct have different names. *)
Inductive proper : ty -> Prop :=
| PInt : proper TInt
| PStruct : forall fs, NoDup (map (fun f => fst (fst f)) fs) -> (forall f, In f fs -> proper (snd f)) -> proper (TStruct fs).

Fixpoint well_selected (g : env) (p : place) : Prop :=
  match p with
  | Var _ => True
  | Sel p f idx => well_selected g p /\ exists t, type_of g p = Some t /\ selects t f idx
  end.
Definition an_int (g : env) (p : place) : Prop := well_selected g p /\ type_of g p = Some TInt.
Definition typed (g : env) (c : stmt) : Prop :=
  match c with
  | Set_ p (Int _) | Print p => an_int g p
  | Set_ p (From q) => well_selected g p /\ well_selected g q /\ exists t, type_of g p = Some t /\ type_of g q = Some t
  end.

(** What is embedded is the first field of the struct, in that the second, and so on. *)
Definition leading (idx : list nat) : Prop := firstn (length idx - 1) idx = seq 0 (length idx - 1).
Fixpoint all_leading (p : place) : Prop := match p with Var _ => True | Sel p _ idx => all_leading p /\ leading idx end.
Definition leading_in (c : stmt) : Prop :=
  match c with
  | Set_ p (Int _) | Print p => all_leading p
  | Set_ p (From q) => all_leading p /\ all_leading q
  end.
