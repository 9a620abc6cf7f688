(** * Interfaces of Go, written from its specification

    "Method sets", "Implementing an interface", "Selectors": a type has the methods declared
    with it and, those aside, the ones of what is embedded in it; it implements an interface
    if it has its methods. *)
From Coq Require Import List Arith ZArith Bool.
From Verif Require Import ZigIfaceModel.
Import ListNotations.

Definition declared (t : ty) (m : nat) : Prop := exists d, In d (methods_of t) /\ name d = m.
Inductive has : ty -> nat -> Prop :=
| Own : forall t m, declared t m -> has t m
| Promoted : forall id fs ms u m, has u m -> has (Ty id fs ms (Some u)) m.
Definition implements (t : ty) (ms : list nat) : Prop := forall m, In m ms -> has t m.

Definition size (sh : shape) : nat := match sh with Basic => 1 | Struct n => n end.
Inductive shaped : val -> ty -> Prop :=
| Flat : forall own id sh ms, length own = size sh -> shaped (Val own None) (Ty id sh ms None)
| Deep : forall own w id n ms u, length own = n -> shaped w u -> shaped (Val own (Some w)) (Ty id (Struct n) ms (Some u)).

(** [defined]: the variables of interfaces that are declared by now *)
Definition typed (g : env) (types : list ty) (defined : list nat) (c : stmt) : Prop :=
  match c with
  | Set_ x v => shaped v (vtype g x) /\ In (vtype g x) types
  | Conv i x | Assign i x => implements (vtype g x) (iface g i) /\ In (vtype g x) types
  | Zero _ => True
  | Copy i j => In j defined /\ forall m, In m (iface g i) -> In m (iface g j)
  | Call i m => In i defined /\ In m (iface g i)
  | On x m => has (vtype g x) m /\ In (vtype g x) types
  end.
Definition defines (c : stmt) : list nat := match c with Conv i _ | Assign i _ | Zero i | Copy i _ => [i] | _ => [] end.
Fixpoint well_typed (g : env) (types : list ty) (defined : list nat) (p : list stmt) : Prop :=
  match p with [] => True | c :: r => typed g types defined c /\ well_typed g types (defines c ++ defined) r end.

(** ** What compiles: methods without parameters whose receivers have names; in interfaces
    only structs without fields, converted, with methods of their own. *)
Definition empty_struct (t : ty) : Prop := exists id ms, t = Ty id (Struct 0) ms None.
Definition simple (t : ty) : Prop := forall d, In d (methods_of t) -> named d = true /\ params d = 0.
Definition plain (g : env) (c : stmt) : Prop :=
  match c with
  | Set_ _ _ | Call _ _ => True
  | Conv i x => iface g i <> [] /\ empty_struct (vtype g x) /\ forall m, In m (iface g i) -> declared (vtype g x) m
  | Assign _ _ | Zero _ => False
  | Copy i j => itype g i = itype g j
  | On x m => declared (vtype g x) m
  end.
