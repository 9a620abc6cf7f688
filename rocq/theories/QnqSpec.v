(** What executions of a channel are and what is observed of them. *)
From Coq Require Import List Arith Bool.
Import ListNotations.
From Verif Require Import QnqModel.

(** [execution s log]: some schedule of any length, with any number of goroutines, takes a
    fresh channel to state s and produces the observable log. *)
Inductive execution : state -> list event -> Prop :=
| exec_init : execution init []
| exec_step s log a s' ev :
    execution s log -> exec s a = Some (s', ev) -> execution s' (log ++ ev).

(** [a] happens before [b] in the log. *)
Definition before (log : list event) (a b : event) : Prop :=
  exists l1 l2 l3, log = l1 ++ a :: l2 ++ b :: l3.

(** Number of times Send [s] invoked listener [l]. *)
Fixpoint calls (s l : tid) (log : list event) : nat :=
  match log with
  | [] => 0
  | ECall s' l' :: r => (if Nat.eqb s s' && Nat.eqb l l' then 1 else 0) + calls s l r
  | _ :: r => calls s l r
  end.

(** [linked s x]: x is reachable from the head of the channel's list. *)
Inductive linked (s : state) : nat -> Prop :=
| linked_head : linked s 0
| linked_next n m : linked s n -> nnext (nodes s n) = Some m -> linked s m.

(** [registered s n ls]: walking the list from node n, the listeners met are ls (their Listen
    call and context), and the walk ends at the empty node. *)
Inductive registered (s : state) : nat -> list (tid * ctx) -> Prop :=
| reg_end n : nread (nodes s n) = false -> nnext (nodes s n) = None -> registered s n []
| reg_cons n m l c ls :
    nread (nodes s n) = true -> nhandler (nodes s n) = Some l -> nctx (nodes s n) = Some c ->
    nnext (nodes s n) = Some m -> registered s m ls -> registered s n ((l, c) :: ls).

(** No listener whose context is cancelled comes first or directly after another such one. *)
Fixpoint isolated (s : state) (prev_cancelled : bool) (ls : list (tid * ctx)) : Prop :=
  match ls with
  | [] => True
  | (_, c) :: r => (cancelled s c = true -> prev_cancelled = false) /\ isolated s (cancelled s c) r
  end.

(** The log of a Send that invokes exactly the given listeners, each returning nil. *)
Definition delivery_log (t : tid) (ls : list (tid * ctx)) : list event :=
  flat_map (fun lc => [ECall t (fst lc); EReply t (fst lc) None]) ls.
Definition live (s : state) (ls : list (tid * ctx)) : list (tid * ctx) :=
  filter (fun lc => negb (cancelled s (snd lc))) ls.
