(** * api/doc.go, api/rest/host.go: examples of an API and how they are shown. *)
From Coq Require Import String.
From Verif Require Import GoBase GoText.
Open Scope list_scope.
Open Scope nat_scope.

(** A call of a traced function: the name of its API and its own, and [c_data] for its
    arguments, results and error. *)
Record call := { c_api : bytes; c_fn : bytes; c_data : bytes }.
(** What an example does: notes, calls (whose implementation does more of that), set up, and
    maybe a panic. *)
Inductive act :=
| AGuide (note : bytes)
| ACall (c : call) (inner : acts)
| ASetup (inner : acts)
| APanic
with acts := Anil | Acons (a : act) (r : acts).
(** doc.go:91-115 [Step], [Example] *)
Record step := { p_note : bytes; p_call : option call; p_depth : nat; p_setup : bool }.
Definition empty_step : step := {| p_note := []; p_call := None; p_depth := 0; p_setup := false |}.
Record eg := { e_steps : list step; e_depth : nat; e_setup : bool }.
Definition fresh : eg := {| e_steps := []; e_depth := 0; e_setup := false |}.
Definition with_steps (l : list step) (e : eg) : eg := {| e_steps := l; e_depth := e_depth e; e_setup := e_setup e |}.
Definition with_depth (d : nat) (e : eg) : eg := {| e_steps := e_steps e; e_depth := d; e_setup := e_setup e |}.
Definition with_setup (b : bool) (e : eg) : eg := {| e_steps := e_steps e; e_depth := e_depth e; e_setup := b |}.
(** doc.go:145-154 [Guide] *)
Definition noted (n : bytes) (s : step) : step := {| p_note := n; p_call := p_call s; p_depth := p_depth s; p_setup := p_setup s |}.
Definition guide (n : bytes) (e : eg) : eg :=
  let l := match e_steps e with [] => [empty_step] | l => l end in
  match l with
  | [] => e
  | s :: r => match p_note s with
              | [] => with_steps (noted n s :: r) e
              | _ => with_steps (l ++ [noted n empty_step]) e
              end
  end.
(** doc.go:165-181: after the call, the last step is filled, or another one made *)
Definition filled (c : call) (d : nat) (b : bool) (s : step) : step := {| p_note := p_note s; p_call := Some c; p_depth := d; p_setup := b |}.
Definition record (c : call) (e : eg) : eg :=
  let l := match e_steps e with [] => [empty_step] | l => l end in
  let l := match p_call (last l empty_step) with Some _ => l ++ [empty_step] | None => l end in
  with_steps (removelast l ++ [filled c (e_depth e) (e_setup e) (last l empty_step)]) e.
(** doc.go:134-143 [Setup], 157-184 [trace]; the second result tells whether it panics *)
Fixpoint act_run (a : act) (e : eg) : eg * bool :=
  match a with
  | AGuide n => (guide n e, false)
  | ACall c inner =>
      let '(e1, p) := acts_run inner (with_depth (S (e_depth e)) e) in
      let e2 := if p then e1 else record c e1 in
      (with_depth (Nat.pred (e_depth e2)) e2, p)
  | ASetup inner =>
      let '(e1, p) := acts_run inner (with_setup true e) in (with_setup false e1, p)
  | APanic => (e, true)
  end
with acts_run (l : acts) (e : eg) : eg * bool :=
  match l with
  | Anil => (e, false)
  | Acons a r => let '(e1, p) := act_run a e in if p then (e1, true) else acts_run r e1
  end.
(** doc.go:18-66 [Example]: its steps and whether it panicked *)
Definition example (l : acts) : list step * bool := let '(e, p) := acts_run l fresh in (e_steps e, p).

(** ** The page (host.go:489-514): notes, and samples of calls *)
Inductive item := Note (n : bytes) | Sample (c : call).
Definition page_step (s : step) : list item :=
  (match p_note s with [] => [] | n => [Note n] end) ++
  (if (1 <? p_depth s) || p_setup s then [] else match p_call s with Some c => [Sample c] | None => [] end).
Definition page (l : list step) : list item := flat_map page_step l.

(** ** The sequence diagram (host.go:461-487) *)
(** A Go slice: an array and a length. Growing doubles the array, as Go does up to 256
    elements (simplification: always). *)
Record slice := { arr : list bytes; len : nat }.
Definition append (s : slice) (x : bytes) : slice :=
  if len s <? List.length (arr s)
  then {| arr := firstn (len s) (arr s) ++ x :: skipn (S (len s)) (arr s); len := S (len s) |}
  else {| arr := firstn (len s) (arr s) ++ x :: repeat [] (Nat.pred (List.length (arr s))); len := S (len s) |}.
(** s[:n]: up to the capacity *)
Definition cut (s : slice) (n : nat) : outcome slice :=
  if n <=? List.length (arr s) then Ok {| arr := arr s; len := n |} else Panic.
Definition last_of (s : slice) : outcome bytes :=
  match len s with O => Panic | S i => match nth_error (arr s) i with Some x => Ok x | None => Panic end end.
Definition line := (bytes * bytes * bytes)%type.
Definition the_api (c : call) : bytes := c_api c ++ text " API".
Record drawing := { d_depth : nat; d_stack : slice; d_space : bytes }.
Definition example_name : bytes := text "Example".
Definition blank : drawing := {| d_depth := 1; d_stack := {| arr := [example_name]; len := 1 |}; d_space := example_name |}.
Definition draw_step (s : step) (d : drawing) : outcome (list line * drawing) :=
  if p_setup s then Ok ([], d) else
  match p_call s with
  | None => Ok ([], d)
  | Some c =>
      let stack := if d_depth d <? p_depth s then append (d_stack d) (d_space d) else d_stack d in
      let! stack := if p_depth s <? d_depth d then cut stack (p_depth s) else Ok stack in
      let! from := last_of stack in
      Ok ([(from, the_api c, c_fn c)], {| d_depth := p_depth s; d_stack := stack; d_space := the_api c |})
  end.
Fixpoint draw (l : list step) (d : drawing) : outcome (list line) :=
  match l with
  | [] => Ok []
  | s :: r => let! x := draw_step s d in let '(a, d) := x in let! b := draw r d in Ok (a ++ b)
  end.
Definition diagram (l : list step) : outcome (list line) := draw l blank.
