(** * Deferred arguments that are settled: what they read does not change after the defer
    statement. *)
From Coq Require Import List ZArith Bool.
From Verif Require Import ZigDeferModel.
Import ListNotations.

(** x is assigned to somewhere in the statements *)
Fixpoint assigned_in (x : nat) (c : stmt) : Prop :=
  match c with
  | SSet y _ => y = x
  | SIf _ yes no => assigned x yes \/ assigned x no
  | SFor _ post body => assigned x post \/ assigned x body
  | _ => False
  end
with assigned (x : nat) (l : stmts) : Prop := match l with SNil => False | SCons c r => assigned_in x c \/ assigned x r end.
(** The expression reads the variable of the function, or one of the package. *)
Fixpoint reads (x : nat) (e : expr) : Prop :=
  match e with ELocal y => y = x | EAdd a b => reads x a \/ reads x b | _ => False end.
Fixpoint reads_global (e : expr) : Prop :=
  match e with EGlobal _ => True | EAdd a b => reads_global a \/ reads_global b | _ => False end.
Definition settled_args (args : list expr) (rest : stmts) : Prop :=
  forall e, In e args -> ~ reads_global e /\ forall x, reads x e -> ~ assigned x rest.
Fixpoint settled (l : stmts) : Prop :=
  match l with
  | SNil => True
  | SCons (SDefer _ args) r => settled_args args r /\ settled r
  | SCons _ r => settled r
  end.
