(** What a user of api/pair expects, said without the model's functions on mappings. *)
From Verif Require Import GoBase PairModel.

(** Values that differ at most in nil slices being empty slices. *)
Inductive alike : value -> value -> Prop :=
| alike_same v : alike v v
| alike_slice l l' :
    Forall2 alike (match l with Some l => l | None => [] end) (match l' with Some l => l | None => [] end) ->
    alike (VSlice l) (VSlice l').
(** A value of the type that a rule is for. *)
Inductive typed : rule -> value -> Prop :=
| typed_num z : typed RNum (VNum z)
| typed_str s : typed RStr (VStr s)
| typed_nil r : typed (RSlice r) (VSlice None)
| typed_slice r l : Forall (typed r) l -> typed (RSlice r) (VSlice (Some l))
| typed_map k e m : typed (RMap k e) (VMap m).
(** ... without nil slices. *)
Inductive full : rule -> value -> Prop :=
| full_num z : full RNum (VNum z)
| full_str s : full RStr (VStr s)
| full_slice r l : Forall (full r) l -> full (RSlice r) (VSlice (Some l)).
Fixpoint no_maps (r : rule) : Prop :=
  match r with RSlice r => no_maps r | RMap _ _ => False | _ => True end.

(** Two places of a struct that do not overlap. *)
Definition apart (p q : list nat) : Prop := ~ (exists r, q = p ++ r) /\ ~ (exists r, p = q ++ r).
Definition pointers_apart (p q : pointer) : Prop :=
  match p, q with Field p, Field q => apart p q | _, _ => True end.
(** A pointer to a place that exists in the struct type whose zero value is z. *)
Definition in_struct (z : value) (p : pointer) : Prop :=
  match p with Field p => get p z <> None | Constant _ => True end.
(** A 1:1 mapping: every place is used at most once on each side. *)
Definition one_to_one (m : mapping) : Prop :=
  ForallOrdPairs (fun f g => pointers_apart (into_ptr f) (into_ptr g) /\ pointers_apart (from_ptr f) (from_ptr g)) m.
Definition well_placed (zf zi : value) (m : mapping) : Prop :=
  Forall (fun f => in_struct zf (from_ptr f) /\ in_struct zi (into_ptr f)) m.
