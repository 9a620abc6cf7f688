(** * Slices that share nothing: lists

    What a program prints when every variable has its own elements, and what programs have
    that property. Written from the Go specification. *)
From Coq Require Import List Arith ZArith Bool.
From Verif Require Import ZigSliceModel.
Import ListNotations.

Record lists := { list_of : nat -> list nat; printed : list nat; ended : option panic }.
Definition no_lists : lists := {| list_of := fun _ => []; printed := []; ended := None |}.
Definition with_list (x : nat) (l : list nat) (s : lists) : lists :=
  {| list_of := fun y => if y =? x then l else list_of s y; printed := printed s; ended := ended s |}.
Definition with_line (n : nat) (s : lists) : lists :=
  {| list_of := list_of s; printed := printed s ++ [n]; ended := ended s |}.
Definition list_step (c : stmt) (s : lists) : lists :=
  match c with
  | Literal x vs => with_list x vs s
  | Make x l _ => with_list x (repeat 0 l) s
  | Let x y => with_list x (list_of s y) s
  | Append x y v => with_list x (list_of s y ++ [v]) s
  | Copy x y =>
      let n := Nat.min (length (list_of s x)) (length (list_of s y)) in
      with_line n (with_list x (firstn n (list_of s y) ++ skipn n (list_of s x)) s)
  | Clear x => with_list x (repeat 0 (length (list_of s x))) s
  | PrintElem x i =>
      if (i <? 0)%Z then {| list_of := list_of s; printed := printed s; ended := Some OutOfRange |}
      else match nth_error (list_of s x) (Z.to_nat i) with
           | Some v => with_line v s
           | None => {| list_of := list_of s; printed := printed s; ended := Some OutOfRange |}
           end
  | PrintLen x => with_line (length (list_of s x)) s
  end.
Fixpoint list_run (p : list stmt) (s : lists) : lists :=
  match p with
  | [] => s
  | c :: p' => match ended s with Some _ => s | None => list_run p' (list_step c s) end
  end.

(** No variable is assigned another's slice, and what append returns goes back to where it
    came from. *)
Definition own (c : stmt) : Prop :=
  match c with Let _ _ => False | Append x y _ => x = y | _ => True end.
Definition unshared (p : list stmt) : Prop := Forall own p.
(** make is only asked for empty slices *)
Definition made_empty (p : list stmt) : Prop :=
  Forall (fun c => match c with Make _ l _ => l = 0 | _ => True end) p.
