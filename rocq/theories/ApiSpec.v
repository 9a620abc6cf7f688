(** What users of package api rely on (api/api.go, doc comments). *)
From Coq Require Import String Permutation.
From Verif Require Import GoBase GoText ApiModel.
Local Open Scope Z_scope.
Local Open Scope list_scope.

(** ** Values and calls *)
(** A Go value of type t. *)
Definition has_type (v : rvalue) (t : gtype) : Prop :=
  vtype v = t /\
  match vdata v with
  | None => is_interface t = true
  | Some d => is_interface (dtype d) = false /\ (if is_interface t then implements (dtype d) t = true else dtype d = t)
  end.
Definition is_error (e : dyn) : Prop := is_interface (dtype e) = false /\ implements (dtype e) error_type = true.
Definition is_context (c : dyn) : Prop := is_interface (dtype c) = false /\ implements (dtype c) context_type = true.
(** The parameters but the context, the results but the error. *)
Definition takes_context (ft : ftype) : bool := match ins ft with t :: _ => gtype_eqb t context_type | [] => false end.
Definition params (ft : ftype) : list gtype := if takes_context ft then tl (ins ft) else ins ft.
(** Functions whose last result is an error of type error, and functions without an error. *)
Definition returns_error (ft : ftype) : Prop := exists rs, outs ft = rs ++ [error_type].
Definition without_error (ft : ftype) : Prop := outs ft = [] \/ exists rs t, outs ft = rs ++ [t] /\ implements t error_type = false.
Definition results (ft : ftype) : list gtype :=
  if has_error ft then removelast (outs ft) else outs ft.
(** An implementation that returns results of the right types (or none), and errors that are errors. *)
Definition well_typed (ft : ftype) (f : dyn -> list rvalue -> fres (option (list rvalue) * option dyn)) : Prop :=
  forall ctx args rs err, f ctx args = Ret (rs, err) ->
    (forall l, rs = Some l -> Forall2 has_type l (results ft)) /\ (forall e, err = Some e -> is_error e).

(** ** Structures *)
(** The function fields of a struct type, at any depth. *)
Inductive field_at : list afield -> list nat -> bytes -> ftype -> Prop :=
| at_func fs i n ft : nth_error fs i = Some (FFunc n ft) -> field_at fs [i] n ft
| at_struct fs i m gs l n ft : nth_error fs i = Some (FStruct m gs) -> field_at gs l n ft -> field_at fs (i :: l) n ft.
(** The functions of a structure, with the names of the namespaces that lead to them. *)
Inductive fn_at : structure -> list nat -> list bytes -> Prop :=
| fn_here s f : In f (functions s) -> fn_at s (fn_loc f) []
| fn_inside s n c loc p : In (n, c) (namespace s) -> fn_at c loc p -> fn_at s loc (n :: p).
(** Namespaces nested at most d deep. *)
Inductive shallow : nat -> structure -> Prop :=
| shallow_flat d fns : shallow d (Struct fns [])
| shallow_deep d fns ns : Forall (fun nc => shallow d (snd nc)) ns -> shallow (S d) (Struct fns ns).
