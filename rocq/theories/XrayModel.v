(** Model of api/xray/xray.go: values recorded in a context, and recording readers and writers. *)
From Verif Require Import GoBase.
Local Open Scope Z_scope.
Local Open Scope list_scope.

Section Queue.
Variables (Ty V : Type).
Variable ty_eqb : Ty -> Ty -> bool.
Variable type_of : V -> Ty.
(** xray.go:14-18: a channel for each type: its elements and its capacity. *)
Record chan := { elems : list V; cap : nat }.
Definition values := list (Ty * chan).
Fixpoint lookup (t : Ty) (s : values) : option chan := match s with [] => None | (u, c) :: r => if ty_eqb u t then Some c else lookup t r end.
Fixpoint assign (t : Ty) (c : chan) (s : values) : values := match s with [] => [(t, c)] | (u, d) :: r => if ty_eqb u t then (t, c) :: r else (u, d) :: assign t c r end.
(** A send to a channel: [None]: it blocks. *)
Definition send (c : chan) (v : V) : option chan := if Nat.ltb (length (elems c)) (cap c) then Some {| elems := elems c ++ [v]; cap := cap c |} else None.
Fixpoint send_all (c : chan) (vs : list V) : option chan := match vs with [] => Some c | v :: r => match send c v with Some d => send_all d r | None => None end end.
(** xray.go:33-56 [ContextAdd], inside the lock; the channel is replaced by one twice as large when full. *)
Definition add (s : values) (v : V) : option values :=
  let t := type_of v in
  let c := match lookup t s with Some c => c | None => {| elems := []; cap := 1 |} end in
  let c := if Nat.eqb (length (elems c)) (cap c) then send_all {| elems := []; cap := (cap c * 2)%nat |} (elems c) else Some c in
  match c with None => None | Some c => match send c v with None => None | Some c => Some (assign t c s) end end.
(** xray.go:58-68 [ContextHas] *)
Definition has (s : values) (t : Ty) : bool := match lookup t s with Some c => negb (Nat.eqb (length (elems c)) 0) | None => false end.
(** xray.go:70-90 [ContextGet], alone: [None] is the zero value. *)
Definition get (s : values) (t : Ty) : option V * values :=
  match lookup t s with
  | Some {| elems := v :: r; cap := n |} => (Some v, assign t {| elems := r; cap := n |} s)
  | _ => (None, s)
  end.
(** A context has values, or not (no xray, or ContextOff). [Panic]: the type assertion of ContextGet. *)
Definition context_add (c : option values) (v : V) : option (option values) := match c with None => Some None | Some s => match add s v with Some s => Some (Some s) | None => None end end.
Definition context_has (c : option values) (t : Ty) : bool := match c with None => false | Some s => has s t end.
Definition context_get (c : option values) (t : Ty) : option (option V * option values) := match c with None => None | Some s => let '(v, s) := get s t in Some (v, Some s) end.

(** ** Concurrent use of one type's queue *)
(** A goroutine: about to add, about to get, holding the read lock and about to look, or holding it and
    receiving, since there was an element; or done. *)
Inductive thread := Add (v : V) | Get | Look | Receive | Done.
Record state := { queue : list V; threads : list thread; log_added : list V; log_got : list (option V) }.
Fixpoint upd (i : nat) (t : thread) (l : list thread) : list thread :=
  match l, i with [], _ => [] | _ :: r, O => t :: r | x :: r, S i => x :: upd i t r end.
Definition reading (t : thread) : bool := match t with Look | Receive => true | _ => false end.
(** xray.go:38-55, 73-89. Adding holds the lock, so no reader does: it is a single step. A receive waits for
    an element or for the context to be done ([cancelled]). *)
Inductive step (cancelled : bool) : state -> state -> Prop :=
| step_add s i v : nth_error (threads s) i = Some (Add v) -> existsb reading (threads s) = false ->
    step cancelled s {| queue := queue s ++ [v]; threads := upd i Done (threads s); log_added := log_added s ++ [v]; log_got := log_got s |}
| step_lock s i : nth_error (threads s) i = Some Get ->
    step cancelled s {| queue := queue s; threads := upd i Look (threads s); log_added := log_added s; log_got := log_got s |}
| step_none s i : nth_error (threads s) i = Some Look -> queue s = [] ->
    step cancelled s {| queue := []; threads := upd i Done (threads s); log_added := log_added s; log_got := log_got s ++ [None] |}
| step_some s i : nth_error (threads s) i = Some Look -> queue s <> [] ->
    step cancelled s {| queue := queue s; threads := upd i Receive (threads s); log_added := log_added s; log_got := log_got s |}
| step_receive s i v r : nth_error (threads s) i = Some Receive -> queue s = v :: r ->
    step cancelled s {| queue := r; threads := upd i Done (threads s); log_added := log_added s; log_got := log_got s ++ [Some v] |}
| step_cancel s i : nth_error (threads s) i = Some Receive -> cancelled = true ->
    step cancelled s {| queue := queue s; threads := upd i Done (threads s); log_added := log_added s; log_got := log_got s ++ [None] |}.
Inductive steps (c : bool) : state -> state -> Prop := steps_refl s : steps c s s | steps_step s t u : step c s t -> steps c t u -> steps c s u.
Definition start (ts : list thread) : state := {| queue := []; threads := ts; log_added := []; log_got := [] |}.
End Queue.

(** ** Readers and writers *)
(** A source: its content, then an end or a failure; and whether it has been closed. *)
Record source := { content : bytes; fails : bool; closed : bool }.
(** What reading all of something gives: io.ReadAll. *)
Definition read_all (s : source) : bytes * bool := (content s, fails s).
(** xray.go:104-131 [NewReader]: what it reads (and whether that fails), what String gives, and the source
    after Close. *)
Record reader := { r_read : bytes * bool; r_string : bytes; r_close : source }.
Definition not_enabled : bytes := map (fun n => Z.of_nat n) [120; 114; 97; 121; 32; 110; 111; 116; 32; 101; 110; 97; 98; 108; 101; 100]%nat.
Definition new_reader (on : bool) (s : source) : reader :=
  if on then
    let '(b, err) := read_all s in
    if err then {| r_read := ([], true); r_string := not_enabled; r_close := s |}
    else {| r_read := (b, false); r_string := b; r_close := s |}
  else {| r_read := read_all s; r_string := not_enabled; r_close := {| content := content s; fails := fails s; closed := true |} |}.
(** xray.go:162-211 [NewWriter]: a sink that takes what each write gives it, or fails; after a list of
    writes: what it has taken, what String gives, and whether each write succeeded. *)
Fixpoint write_all (sink : nat -> bytes -> bool) (n : nat) (ws : list bytes) : bytes * bytes * list bool :=
  match ws with
  | [] => ([], [], [])
  | w :: r =>
    let ok := sink n w in
    let '(taken, recorded, oks) := write_all sink (S n) r in
    ((if ok then w else []) ++ taken, w ++ recorded, ok :: oks)
  end.
