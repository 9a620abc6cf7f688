(** What package via promises, independently of the code (C58, C59). *)
From Verif Require Import GoBase ViaModel.

(** no pointer is hidden in a value of the type *)
Inductive pointer_free : vtype -> Prop :=
| pf_plain s : pointer_free (TPlain s)
| pf_struct s fs : Forall pointer_free fs -> pointer_free (TStruct s fs)
| pf_array s n e : n = 0%nat \/ pointer_free e -> pointer_free (TArray s n e).
(** no array occurs in the type *)
Inductive array_free : vtype -> Prop :=
| af_plain s : array_free (TPlain s)
| af_ref s : array_free (TRef s)
| af_struct s fs : Forall array_free fs -> array_free (TStruct s fs).
Definition is_allocated (e : event) : bool := match e with Allocated _ => true | _ => false end.
Definition is_notified (e : event) : bool := match e with Notified _ _ => true | _ => false end.
(** how often the allocator was called; how often a proxy was told of its replacement *)
Definition allocations (es : list event) : nat := length (filter is_allocated es).
Definition notifications (es : list event) : nat := length (filter is_notified es).
(** the value has a proxy that is a V and says it is alive *)
Definition live (is_v : Z -> bool) (a : any_api) (p : proxy) : Prop :=
  impl a = Some p /\ is_v (ptype p) = true /\ alive p (internal a) = true.
