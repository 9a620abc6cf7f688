(** * Composite literals: what Go's type checker admits, and the literals that are written out
    in full. *)
From Coq Require Import List ZArith Arith.
From Verif Require Import ZigCompModel.
Import ListNotations.

Fixpoint keys (l : elems) : list key := match l with LNil => [] | LCons k _ r => k :: keys r end.
(** the places of elements of an array or a slice *)
Fixpoint places (p : nat) (ks : list key) : list nat :=
  match ks with [] => [] | KIndex i :: r => i :: places (S i) r | _ :: r => p :: places (S p) r end.
Definition field_names (ks : list key) : list nat := flat_map (fun k => match k with KField x => [x] | _ => [] end) ks.

(** The keys Go admits in a literal of this type. *)
Definition admitted (t : ty) (ks : list key) : Prop :=
  match t with
  | TInt => False
  | TArray n _ => (forall k, List.In k ks -> k = KNone \/ exists i, k = KIndex i) /\ NoDup (places 0 ks) /\ (forall i, List.In i (places 0 ks) -> i < n)
  | TSlice _ => (forall k, List.In k ks -> k = KNone \/ exists i, k = KIndex i) /\ NoDup (places 0 ks)
  | TMap _ => forall k, List.In k ks -> exists e, k = KExpr e
  | TStruct fs =>
    NoDup (names fs) /\
    ((forall k, List.In k ks -> k = KNone) /\ (length ks = length (names fs) \/ ks = []) \/
     (forall k, List.In k ks -> exists x, k = KField x) /\ NoDup (field_names ks) /\ incl (field_names ks) (names fs))
  end.
(** Nothing is left to be the zero value, and no index is written. [escapes]: see
    ZigCompModel. *)
Definition in_full (escapes : nat -> bool) (t : ty) (ks : list key) : Prop :=
  match t with
  | TInt => False
  | TArray n _ => (forall k, List.In k ks -> k = KNone) /\ length ks = n
  | TSlice _ => forall k, List.In k ks -> k = KNone
  | TMap _ => True
  | TStruct fs => length ks = length (names fs) /\ forall x, List.In x (field_names ks) -> escapes x = false
  end.

Section Deep.
Variable P : ty -> list key -> Prop.
(** P of every literal in it; [L]: of a literal whose type is left out. *)
Variable L : Prop.
Fixpoint every (t : ty) (e : expr) : Prop :=
  match e with
  | EInt _ | ECall _ => True
  | ELit (Some t) l => P t (keys l) /\ every_of t 0 l
  | ELit None l => L /\ P t (keys l) /\ every_of t 0 l
  end
with every_of (t : ty) (i : nat) (l : elems) : Prop :=
  match l with
  | LNil => True
  | LCons k e r => match k with KExpr ke => every TInt ke | _ => True end /\ every (inner t i k) e /\ every_of t (S i) r
  end.
End Deep.
(** [e] is a Go expression for a place of type [t]. *)
Definition typed : ty -> expr -> Prop := every admitted True.
(** It is written in full, with the types of all literals. *)
Definition full (escapes : nat -> bool) : ty -> expr -> Prop := every (in_full escapes) False.
