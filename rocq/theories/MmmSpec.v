(** Histories of the mmm package. *)
From Verif Require Import GoBase MmmModel.

(** Which pointers and lifetimes an operation hands out, and which it is given. *)
Definition new_ptrs (r : outcome reply) : list ptr := match r with Ok (RPtr p) => [p] | _ => [] end.
Definition new_lifetimes (r : outcome reply) : list lifetime := match r with Ok (RLife l) => [l] | _ => [] end.
Definition args_ok (ps : list ptr) (ls : list lifetime) (o : op) : Prop :=
  match o with
  | ONewLifetime _ => True
  | OEndLifetime _ l => In l ls
  | ONew l _ _ _ | OPin l _ _ _ | OLet l _ _ _ => In l ls
  | OFree p | OEnd p | OGet p | OSet p _ | OApi p | OLife p => In p ps
  | OMove p l _ | OCopy p l _ => In p ps /\ In l ls
  end.

(** A configuration is the state together with everything handed out so far (the zero pointer
    can always be written down). *)
Definition config : Type := state * list ptr * list lifetime.
Definition start (w : nat -> Z * Z) : config := (init w, [None], []).

(** Any sequence of operations, including ones that panic, on handles that were handed out;
    [ok] restricts which operations the history may contain. *)
Inductive reaches (ok : op -> Prop) : config -> config -> Prop :=
| reaches_refl c : reaches ok c c
| reaches_step c s ps ls o r s' :
    reaches ok c (s, ps, ls) -> args_ok ps ls o -> ok o -> run o s = Some (r, s') ->
    reaches ok c (s', new_ptrs r ++ ps, new_lifetimes r ++ ls).
Definition any (o : op) : Prop := True.
(** Pointers are created with an API that is not nil. *)
Definition has_api (o : op) : Prop :=
  match o with ONew _ a _ _ | OPin _ a _ _ | OLet _ a _ _ => a <> O | _ => True end.

(** The revision counter has 62 bits: the theorems speak of histories in which fewer than
    2^62-1 revisions have been used up. *)
Definition counter_ok (s : state) : Prop := ends s < 2^62 - 1.

(** Newest-first discipline: each open lifetime with the pointers created in it and not yet freed,
    newest first, with their raw values; a pointer is freed by hand only while it is the newest
    of its lifetime.  API objects are not nil. *)
Inductive disciplined : state -> list (lifetime * list (ptr * Z)) -> Prop :=
| disc_start w : disciplined (init w) []
| disc_lifetime s open pick l s' : disciplined s open ->
    run (ONewLifetime pick) s = Some (Ok (RLife l), s') -> disciplined s' ((l, []) :: open)
| disc_new s before after l st a v pick p s' : disciplined s (before ++ (l, st) :: after) -> a <> O ->
    run (ONew l a v pick) s = Some (Ok (RPtr p), s') ->
    disciplined s' (before ++ (l, (p, v) :: st) :: after)
| disc_pin s before after l st a v pick p s' : disciplined s (before ++ (l, st) :: after) -> a <> O ->
    run (OPin l a v pick) s = Some (Ok (RPtr p), s') ->
    disciplined s' (before ++ (l, (p, v) :: st) :: after)
| disc_free s before after l st p v s' : disciplined s (before ++ (l, (p, v) :: st) :: after) ->
    run (OFree p) s = Some (Ok RUnit, s') -> disciplined s' (before ++ (l, st) :: after)
| disc_end s before after l st fuel s' : disciplined s (before ++ (l, st) :: after) ->
    run (OEndLifetime fuel l) s = Some (Ok RUnit, s') -> disciplined s' (before ++ after)
| disc_set s before after l newer older p v v' s' :
    disciplined s (before ++ (l, newer ++ (p, v) :: older) :: after) ->
    run (OSet p v') s = Some (Ok RUnit, s') ->
    disciplined s' (before ++ (l, newer ++ (p, v') :: older) :: after)
| disc_get s open p r s' : disciplined s open -> run (OGet p) s = Some (r, s') -> disciplined s' open
| disc_api s open p r s' : disciplined s open -> run (OApi p) s = Some (r, s') -> disciplined s' open.

(** The operations that use a pointer (Copy is treated separately). *)
Definition uses (p : ptr) (o : op) : Prop :=
  match o with
  | OGet q | OEnd q | OFree q | OApi q | OSet q _ | OMove q _ _ => q = p
  | _ => False
  end.
(** Histories that do not turn pinned pointers into lifetimes. *)
Definition no_life (o : op) : Prop := match o with OLife _ => False | _ => True end.
(** [o] panics in [s] and has no effect. *)
Definition rejected (o : op) (s : state) : Prop := run o s = Some (Panic, s).

(** A script of operations from a state: the replies and the final state. *)
Fixpoint script (os : list op) (s : state) : option (list (outcome reply) * state) :=
  match os with
  | [] => Some ([], s)
  | o :: os => match run o s with
      | None => None
      | Some (r, s') => match script os s' with Some (rs, s'') => Some (r :: rs, s'') | None => None end
      end
  end.
Definition replies (os : list op) (s : state) : option (list (outcome reply)) := option_map fst (script os s).
Definition final {A} (f : state -> A) (os : list op) (s : state) : option A := option_map (fun x => f (snd x)) (script os s).
