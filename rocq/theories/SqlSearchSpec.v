(** What a user of sql.Map relies on when a search ends: if no issue was reported, every
    entry that matches was seen, in order; if the key is there, Lookup finds it or says
    why not.  Nothing here is about channels. *)
From Coq Require Import List.
Import ListNotations.

Section Spec.
Variables (R A E : Type).

(** What the loop saw is the beginning of what matches, nothing skipped, doubled or
    out of order.  [entry] is what a row stands for. *)
Definition beginning (entry : R -> A + E) (rows : list R) (seen : list A) : Prop :=
  exists n, map inl seen = map entry (firstn n rows) /\ n <= length rows.

(** A loop that ran to its end and left no issue saw everything. *)
Definition told (entry : R -> A) (rows : list R) (seen : list A) (issue : option E) : Prop :=
  issue = None -> seen = map entry rows.
End Spec.
Arguments beginning {R A E}. Arguments told {R A E}.
