(** Searching a database through sql.Map: sql/map.go:209-354 ([Output], [Search],
    [First], [Count], [Lookup]) next to a database that keeps to the contract of
    sql/std/sodium/sql.go:14-46: the rows go into a channel the map made, by sends that
    do not wait, the channel is closed when the search is complete, cancelled or has
    failed, and what became of it is what Wait of the job answers.

    What a row decodes to is a parameter ([SqlDbModel] has the decoding of rows); so is
    how many rows match.  The compiled query, and the sending of the job, are in
    [SqlDbModel].  A schedule is a list of who moves. *)
From Coq Require Import List Arith Lia.
Import ListNotations.

Section Search.
Variables (R A E : Type).
(** map.go:294-299: decoding of a row into a key and a value, or the error *)
Variable dec : R -> A + E.
(** map.go:282-283: the key and the value no row was decoded into *)
Variable zero : A.
(** the error of a send that found no room (sodium/sql.go:19-20) *)
Variable full : E.
(** the caller: whether it goes on after what it has seen (map.go:290,300: what yield
    answers) *)
Variable more : list A -> bool.

(** map.go:268: [make(chan []sodium.Value, 64)] *)
Definition room : nat := 64.

Inductive job := Running | Finished | Failed (e : E).

Record st := {
  todo : list R;             (* rows the database has not sent yet *)
  buf : list (option R);     (* the channel; [None] is a nil row *)
  closed : bool;             (* the channel is closed *)
  state : job;               (* what Wait answers, or that it waits *)
  waiting : bool;            (* the map took a nil row and is in Wait: 284-285 *)
  seen : list A;             (* what was yielded *)
  issue : option E;          (* what *issue was set to *)
  over : bool                (* the iteration has ended *)
}.

Definition begin (rows : list R) : st :=
  {| todo := rows; buf := []; closed := false; state := Running; waiting := false;
     seen := []; issue := None; over := false |}.

(** Who moves.  The database: sends its next row, completes, fails (or is cancelled), or
    does the last two with a nil row before the channel is closed.  The map: goes on. *)
Inductive move := Send | Complete | Fail (e : E) | CompleteNil | FailNil (e : E) | Go.

Definition stop (s : st) (j : job) (rest : list (option R)) : st :=
  {| todo := todo s; buf := buf s ++ rest; closed := true; state := j;
     waiting := waiting s; seen := seen s; issue := issue s; over := over s |}.

(** a send that does not wait, of a nil row: left out when there is no room *)
Definition nil_row (s : st) : list (option R) :=
  if length (buf s) <? room then [None] else [].

Definition yielded (s : st) (b : list (option R)) (a : A) : st :=
  {| todo := todo s; buf := b; closed := closed s; state := state s; waiting := false;
     seen := seen s ++ [a]; issue := issue s; over := negb (more (seen s ++ [a])) |}.

Definition ended (s : st) (b : list (option R)) (i : option E) : st :=
  {| todo := todo s; buf := b; closed := closed s; state := state s; waiting := false;
     seen := seen s; issue := match i with Some e => Some e | None => issue s end;
     over := true |}.

(** map.go:281-303: the loop over the channel *)
Definition go (s : st) : st :=
  if over s then s
  else if waiting s then
    match state s with
    | Running => s                                 (* 285: Wait waits *)
    | Failed e => ended s (buf s) (Some e)         (* 286-289 *)
    | Finished => yielded s (buf s) zero           (* 290-293 *)
    end
  else
    match buf s with
    | [] => if closed s then ended s [] None else s  (* 281 *)
    | None :: b =>
      {| todo := todo s; buf := b; closed := closed s; state := state s; waiting := true;
         seen := seen s; issue := issue s; over := false |}
    | Some r :: b =>
      match dec r with
      | inl a => yielded s b a                     (* 300-302 *)
      | inr e => ended s b (Some e)                (* 296-299 *)
      end
    end.

(** sodium/sql.go:15-21: the database *)
Definition step (s : st) (m : move) : st :=
  match m with
  | Go => go s
  | Send =>
    match state s, todo s with
    | Running, r :: t =>
      if length (buf s) <? room then
        {| todo := t; buf := buf s ++ [Some r]; closed := closed s; state := Running;
           waiting := waiting s; seen := seen s; issue := issue s; over := over s |}
      else stop s (Failed full) []
    | _, _ => s
    end
  | Complete =>
    match state s, todo s with Running, [] => stop s Finished [] | _, _ => s end
  | CompleteNil =>
    match state s, todo s with Running, [] => stop s Finished (nil_row s) | _, _ => s end
  | Fail e => match state s with Running => stop s (Failed e) [] | _ => s end
  | FailNil e => match state s with Running => stop s (Failed e) (nil_row s) | _ => s end
  end.

Definition run (rows : list R) (ms : list move) : st := fold_left step ms (begin rows).

(** map.go:309-315 [First]: the first entry yielded, else the error *)
Definition first (s : st) : option A * option E :=
  match seen s with a :: _ => (Some a, None) | [] => (None, issue s) end.

(** map.go:343-353 [Lookup]: the same, with a query for one row by its key *)
Definition lookup (s : st) : option A * option E :=
  match seen s with a :: _ => (Some a, None) | [] => (None, issue s) end.

End Search.

Arguments begin {R A E}. Arguments run {R A E}. Arguments step {R A E}. Arguments go {R A E}.
Arguments seen {R A E}. Arguments issue {R A E}. Arguments over {R A E}.
Arguments state {R A E}. Arguments todo {R A E}. Arguments buf {R A E}.
Arguments closed {R A E}. Arguments waiting {R A E}.
Arguments first {R A E}. Arguments lookup {R A E}.
Arguments Send {E}. Arguments Complete {E}. Arguments CompleteNil {E}. Arguments Go {E}.
Arguments Fail {E}. Arguments FailNil {E}.
Arguments Running {E}. Arguments Finished {E}. Arguments Failed {E}.

(** ** The beginning of a search: map.go:269-280, and of an output: 230-241.
    What Manage answers; whether the context was done before the job was taken; what
    becomes of the transaction's channel. *)
Inductive start E := NoTransaction (e : E) | Cancelled (e : E) | Taken.
Arguments NoTransaction {E}. Arguments Cancelled {E}. Arguments Taken {E}.

(** whether the search goes on, the issue, and whether the transaction was closed *)
Definition search_start {E} (w : start E) : bool * option E * option bool :=
  match w with
  | NoTransaction e => (false, Some e, None)        (* 271-274 *)
  | Cancelled e => (false, Some e, Some false)      (* 277-279: not closed *)
  | Taken => (true, None, Some true)                (* 276,280 *)
  end.
Definition output_start {E} (w : start E) : bool * option E * option bool :=
  match w with
  | NoTransaction e => (false, Some e, None)        (* 231-233 *)
  | Cancelled e => (false, Some e, Some true)       (* 237-239 *)
  | Taken => (true, None, Some true)                (* 235-236 *)
  end.

(** ** [Output] after the job was taken: map.go:242-253.  What Wait answered, what the
    channel of one place holds, whether the context is done, and which of two ready
    cases [select] takes. *)
Inductive got V := Values (l : list V) | ClosedEmpty | Nothing.
Arguments Values {V}. Arguments ClosedEmpty {V}. Arguments Nothing {V}.
Inductive answer V E := Stats (l : list V) | Error (e : E) | Panics | Blocks.
Arguments Stats {V E}. Arguments Error {V E}. Arguments Panics {V E}. Arguments Blocks {V E}.

(** 246-248: output[i] for each statistic asked for *)
Definition update {V E} (asked : nat) (l : list V) : answer V E :=
  if length l <? asked then Panics else Stats (firstn asked l).

Definition output_end {V E} (asked : nat) (waited : option E) (g : got V)
    (done : option E) (pick : bool) : answer V E :=
  match waited with
  | Some e => Error e                                   (* 242-244 *)
  | None =>
    let values := match g with
                  | Values l => Some (update asked l)
                  | ClosedEmpty => Some (update asked [])
                  | Nothing => None
                  end in
    match values, done with
    | Some a, None => a
    | Some a, Some e => if pick then a else Error e
    | None, Some e => Error e                           (* 250-251 *)
    | None, None => Blocks
    end
  end.
