(** * Programs with slices of arrays: what the theorems of C159 ask of them. *)
From Coq Require Import List Arith ZArith Bool.
From Verif Require Import ZigSliceModel ZigArrModel.
Import ListNotations.

(** What a variable is: the array of n elements, or a slice. *)
Definition kinds := nat -> option nat.
Definition slices_only (k : kinds) (c : stmt) : Prop :=
  match c with
  | Literal x _ | Make x _ _ | Clear x | PrintElem x _ | PrintLen x => k x = None
  | Let x y | Append x y _ | Copy x y => k x = None /\ k y = None
  end.
(** Go's types *)
Definition typed (k : kinds) (c : astmt) : Prop :=
  match c with
  | One c => slices_only k c
  | Decl a vs => k a = Some (length vs)
  | Put a i _ | At a i => exists n, k a = Some n /\ i < n
  | Cut x a hi => k x = None /\ exists n, k a = Some n
  end.

(** Append is only given variables that grow, and what these are is never the beginning of
    an array that goes on. *)
Definition grown_whole (k : kinds) (grows : nat -> bool) (c : astmt) : Prop :=
  match c with
  | One (Append _ y _) => grows y = true
  | One (Let x y) => grows x = true -> grows y = true
  | Cut x a hi => grows x = true -> exists n, k a = Some n /\ hi = Z.of_nat n
  | _ => True
  end.
Definition makes_empty (c : astmt) : Prop := match c with One (Make _ l _) => l = 0 | _ => True end.
