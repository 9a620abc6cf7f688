(** * zgo: channels of compiled programs
    (zgo/internal/target/zigc/build_runtime.zig:372-433; statements.go:119-128 and
    expressions.go:162-168 call send and recv, builtins.go:75-94 calls make).

    A program is one channel and a list of goroutines, each of which sends and receives
    on it; what else they do is left out. There is no close in the target
    (the field [bad] is never set) and no select (it does not compile). *)
From Coq Require Import List Arith Lia.
Import ListNotations.

Inductive op := Send (v : nat) | Recv.

(** ** Go ("Channel types", "Send statements", "Receive operator")

    [todo]: what each goroutine has still to do; [queue]: what is buffered, oldest
    first; [got]: what has been received, by whom, oldest first. *)
Record go_state := { g_todo : list (list op); g_queue : list nat; g_got : list (nat * nat) }.
Definition go_start (p : list (list op)) : go_state := {| g_todo := p; g_queue := []; g_got := [] |}.
Fixpoint put {A} (i : nat) (x : A) (l : list A) : list A :=
  match l, i with
  | [], _ => []
  | _ :: l', O => x :: l'
  | y :: l', S i' => y :: put i' x l'
  end.
(** [nil]: the channel is nil, then nothing is ever possible *)
Inductive go_step (nil : bool) (cap : nat) : go_state -> go_state -> Prop :=
| GoSend : forall i v r s, nil = false -> nth_error (g_todo s) i = Some (Send v :: r) -> length (g_queue s) < cap ->
    go_step nil cap s {| g_todo := put i r (g_todo s); g_queue := g_queue s ++ [v]; g_got := g_got s |}
| GoRecv : forall i r v q s, nil = false -> nth_error (g_todo s) i = Some (Recv :: r) -> g_queue s = v :: q ->
    go_step nil cap s {| g_todo := put i r (g_todo s); g_queue := q; g_got := g_got s ++ [(i, v)] |}
| GoMeet : forall i j v r r' s, nil = false -> nth_error (g_todo s) i = Some (Send v :: r) -> nth_error (g_todo s) j = Some (Recv :: r') ->
    g_queue s = [] ->
    go_step nil cap s {| g_todo := put j r' (put i r (g_todo s)); g_queue := []; g_got := g_got s ++ [(j, v)] |}.
Inductive go_steps (nil : bool) (cap : nat) : go_state -> go_state -> Prop :=
| GoDone : forall s, go_steps nil cap s s
| GoMore : forall s t u, go_steps nil cap s t -> go_step nil cap t u -> go_steps nil cap s u.

(** ** The runtime

    A goroutine waits on the condition of its routine, which nobody else waits on.
    [Asleep]: in wait, which let go of the mutex; [Awake]: signalled, and has to take the
    mutex again. What is done between taking and letting go of the mutex is one step. *)
Inductive status := Next | Asleep | Awake.
Record state := {
  todo : list (status * list op);
  buf : list nat;              (* std.RingBuffer: the elements in it *)
  sig : option nat;            (* [sig]: whose condition *)
  got : list (nat * nat);
  sent : list (nat * nat);     (* ghost: the values whose send got through, by whom, oldest first *)
  crashed : bool }.
Definition start (p : list (list op)) : state :=
  {| todo := map (fun l => (Next, l)) p; buf := []; sig := None; got := []; sent := []; crashed := false |}.

(** signal(): wakes the goroutine when it waits *)
Definition wake (who : option nat) (l : list (status * list op)) : list (status * list op) :=
  match who with
  | Some i => match nth_error l i with Some (Asleep, r) => put i (Awake, r) l | _ => l end
  | None => l
  end.

Section Runtime.
Variable nil : bool.        (* the pointer is null: a channel that was never made *)
Variable size : nat.        (* @sizeOf(T) *)
Variable cap : nat.
(** 386: room for one element more than asked for *)
Definition slots := S cap.
Definition is_full (s : state) : bool := slots <=? length (buf s).

(** 402-405, after the loop: the value is written, the waiter signalled *)
Definition deliver (i v : nat) (r : list op) (waiter : option nat) (s : state) : state :=
  {| todo := wake waiter (put i (Next, r) (todo s)); buf := buf s ++ [v]; sig := waiter;
     got := got s; sent := sent s ++ [(i, v)]; crashed := crashed s |}.
(** 398-399, 420-421: wait *)
Definition sleep (i : nat) (r : list op) (s : state) : state :=
  {| todo := put i (Asleep, r) (todo s); buf := buf s; sig := Some i; got := got s; sent := sent s; crashed := crashed s |}.
(** 424-425: the value is read; readFirst fails when there is none, and that is a panic *)
Definition take (i : nat) (r : list op) (waiter : option nat) (s : state) : state :=
  match buf s with
  | v :: q => {| todo := put i (Next, r) (todo s); buf := q; sig := waiter; got := got s ++ [(i, v)]; sent := sent s; crashed := crashed s |}
  | [] => {| todo := todo s; buf := []; sig := waiter; got := got s; sent := sent s; crashed := true |}
  end.
Definition crash (s : state) : state :=
  {| todo := todo s; buf := buf s; sig := sig s; got := got s; sent := sent s; crashed := true |}.
Definition pass (i : nat) (r : list op) (s : state) : state :=
  {| todo := put i (Next, r) (todo s); buf := buf s; sig := sig s; got := got s; sent := sent s; crashed := crashed s |}.

(** The next step of goroutine i, if it can take one. *)
Definition turn (i : nat) (s : state) : option state :=
  if crashed s then None else
  match nth_error (todo s) i with
  | Some (Next, Send v :: r) =>                                   (* 391-411 *)
    if nil then Some (pass i r s)                                 (* 407-409: exit frees the memory, and send returns *)
    else if size =? 0 then Some (crash s)                         (* isFull divides by the length of the buffer *)
    else if is_full s then Some (sleep i (Send v :: r) s)
    else Some (deliver i v r (sig s) s)
  | Some (Next, Recv :: r) =>                                     (* 412-431 *)
    if nil then Some {| todo := put i (Next, r) (todo s); buf := buf s; sig := sig s; got := got s ++ [(i, 0)]; sent := sent s; crashed := false |}
    else match buf s with
         | [] => Some (sleep i (Recv :: r) s)
         | _ => Some (take i r (sig s) s)
         end
  | Some (Awake, Send v :: r) =>                                  (* 400, and the loop *)
    if is_full s then Some (sleep i (Send v :: r) s) else Some (deliver i v r None s)
  | Some (Awake, Recv :: r) => Some (take i r None s)             (* 422: the buffer is not looked at again *)
  | _ => None
  end.
(** [spurious]: a wait may end without a signal (std.Thread.Condition allows it). *)
Variable spurious : bool.
Inductive step : state -> state -> Prop :=
| Turn : forall i s s', turn i s = Some s' -> step s s'
| Spurious : forall i r s, spurious = true -> crashed s = false -> nth_error (todo s) i = Some (Asleep, r) ->
    step s {| todo := put i (Awake, r) (todo s); buf := buf s; sig := sig s; got := got s; sent := sent s; crashed := false |}.
Inductive steps : state -> state -> Prop :=
| Done : forall s, steps s s
| More : forall s t u, steps s t -> step t u -> steps s u.

(** a schedule without spurious wakeups *)
Fixpoint turns (is : list nat) (s : state) : option state :=
  match is with
  | [] => Some s
  | i :: is' => match turn i s with Some s' => turns is' s' | None => None end
  end.
End Runtime.
