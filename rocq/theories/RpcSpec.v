(** What package rpc promises, independently of the code (C60, C89). *)
From Verif Require Import GoBase RpcModel.

(** the name under which a registered value can be called, if it is a callable function: it takes
    a receiver and a runtime and gives a string and the function *)
Definition callable (v : rval) : option (gty * gty * gty) :=
  match vty v with GFunc [recv; run] [GStr _; T] => Some (recv, run, T) | _ => None end.
(** the registrations that gave this name, the last first *)
Definition named (fname : Z -> outcome str) (n : str) (v : rval) : Prop :=
  exists recv run s outs, vty v = GFunc [recv; run] (GStr s :: outs) /\ fname (vid v) = Ok n.
(** the registrations a listing for T shows: name and receiver *)
Definition listed (fname : Z -> outcome str) (T : gty) (v : rval) (e : str * gty) : Prop :=
  exists recv run s more, vty v = GFunc [recv; run] (GStr s :: T :: more) /\ fname (vid v) = Ok (fst e) /\ snd e = recv.
Inductive listing (fname : Z -> outcome str) (T : gty) : list (option rval) -> list (str * gty) -> Prop :=
| listing_nil : listing fname T [] []
| listing_yes v e l r : listed fname T v e -> listing fname T l r -> listing fname T (Some v :: l) (e :: r)
| listing_no v l r : (forall v' e, v = Some v' -> ~ listed fname T v' e) -> listing fname T l r -> listing fname T (v :: l) r.
