(** * Programs with range loops: what the theorems of C158 ask of them. *)
From Coq Require Import List Arith Bool.
From Verif Require Import ZigSliceModel ZigRangeModel.
Import ListNotations.

(** No break goes to a label. *)
Fixpoint unlabelled (c : rstmt) : Prop :=
  match c with
  | RBreak l => l = None
  | RIf _ _ r | RRange _ _ _ _ r => unlabelled_all r
  | _ => True
  end
with unlabelled_all (l : rstmts) : Prop := match l with RNil => True | RCons c r => unlabelled c /\ unlabelled_all r end.
(** make is only asked for empty slices. *)
Fixpoint makes_empty (c : rstmt) : Prop :=
  match c with
  | ROne (Make _ l _) => l = 0
  | RIf _ _ r | RRange _ _ _ _ r => makes_empty_all r
  | _ => True
  end
with makes_empty_all (l : rstmts) : Prop := match l with RNil => True | RCons c r => makes_empty c /\ makes_empty_all r end.
(** A statement that prints nothing and does not touch what is not the program's. *)
Definition quiet (c : stmt) : Prop :=
  match c with Copy _ _ | PrintElem _ _ | PrintLen _ => False | _ => True end.
(** The variables assigned to are the program's: their numbers are even. *)
Definition own_target (c : stmt) : Prop :=
  match c with Literal x _ | Make x _ _ | Let x _ | Append x _ _ => Nat.Even x | _ => True end.
Fixpoint own_targets (c : rstmt) : Prop :=
  match c with
  | ROne c => own_target c
  | RAppend x _ _ => Nat.Even x
  | RIf _ _ r | RRange _ _ _ _ r => own_targets_all r
  | _ => True
  end
with own_targets_all (l : rstmts) : Prop := match l with RNil => True | RCons c r => own_targets c /\ own_targets_all r end.
