(** * zgo: deferred calls of compiled programs
    (zgo/internal/target/zigc/statements.go:80-87, function.go:18-24, expressions.go:96-102).

    A function is a list of statements. The functions it calls are what they do to the
    package's variables, what they print and whether they panic. Loops are for statements
    (loops.go:11-52); range, switch, labels, recover and deferred function literals are left
    out. break and continue are for loops only (Go's type checker sees to that). *)
From Coq Require Import List ZArith Bool.
Import ListNotations.
Open Scope Z_scope.

Inductive expr :=
| EInt (z : Z)
| ELocal (x : nat)      (* a variable of the function *)
| EGlobal (x : nat)     (* a variable of the package *)
| EAdd (a b : expr).
Inductive stmt :=
| SSet (x : nat) (e : expr)                  (* x = e *)
| SSetGlobal (x : nat) (e : expr)            (* X = e *)
| SCall (f : nat) (args : list expr)         (* f(args) *)
| SDefer (f : nat) (args : list expr)        (* defer f(args) *)
| SIf (c : expr) (yes no : stmts)            (* if c != 0 { yes } else { no } *)
| SFor (c : expr) (post body : stmts)        (* for ; c != 0; post { body } *)
| SBreak
| SContinue
| SReturn (e : expr)
| SPanic
with stmts := SNil | SCons (s : stmt) (l : stmts).

Definition vars := nat -> Z.
(** What calling a function with these arguments does: the variables of the package after,
    what it printed, whether it panicked. *)
Definition call := list Z -> vars -> vars * list Z * bool.

Fixpoint value (e : expr) (l g : vars) : Z :=
  match e with EInt z => z | ELocal x => l x | EGlobal x => g x | EAdd a b => value a l g + value b l g end.
Definition bind (x : nat) (v : Z) (f : vars) : vars := fun y => if Nat.eqb y x then v else f y.

(** ** Running the statements

    [P]: what is kept of the arguments of a deferred call. [pending]: the deferred calls,
    last first. *)
Section Run.
Variable P : Type.
Variable keep : list expr -> vars -> vars -> P.
Variable functions : nat -> call.
Record state := { local : vars; global : vars; out : list Z; pending : list (nat * P) }.
(** [Runs]: the loops have not come to an end in [fuel] rounds. *)
Inductive ending := Ends | Returns (v : Z) | Panics | Breaks | Continues | Runs.
Variable fuel : nat.
Fixpoint iterate (n : nat) (test : state -> bool) (body post : state -> state * ending) (s : state) : state * ending :=
  match n with
  | O => (s, Runs)
  | S n =>
    if test s then
      let '(s', e) := body s in
      match e with
      | Ends | Continues => let '(s'', e') := post s' in match e' with Ends => iterate n test body post s'' | _ => (s'', e') end
      | Breaks => (s', Ends)
      | _ => (s', e)
      end
    else (s, Ends)
  end.
Definition invoke (f : nat) (vs : list Z) (s : state) : state * bool :=
  let '(g, o, p) := functions f vs (global s) in
  ({| local := local s; global := g; out := out s ++ o; pending := pending s |}, p).
Fixpoint run (c : stmt) (s : state) : state * ending :=
  match c with
  | SSet x e => ({| local := bind x (value e (local s) (global s)) (local s); global := global s; out := out s; pending := pending s |}, Ends)
  | SSetGlobal x e => ({| local := local s; global := bind x (value e (local s) (global s)) (global s); out := out s; pending := pending s |}, Ends)
  | SCall f args =>
      let '(s', p) := invoke f (map (fun e => value e (local s) (global s)) args) s in (s', if p then Panics else Ends)
  | SDefer f args =>
      ({| local := local s; global := global s; out := out s; pending := (f, keep args (local s) (global s)) :: pending s |}, Ends)
  | SIf e yes no => if value e (local s) (global s) =? 0 then run_all no s else run_all yes s
  | SFor e post body => iterate fuel (fun s => negb (value e (local s) (global s) =? 0)) (run_all body) (run_all post) s
  | SBreak => (s, Breaks)
  | SContinue => (s, Continues)
  | SReturn e => (s, Returns (value e (local s) (global s)))
  | SPanic => (s, Panics)
  end
with run_all (l : stmts) (s : state) : state * ending :=
  match l with
  | SNil => (s, Ends)
  | SCons c r => let '(s', e) := run c s in match e with Ends => run_all r s' | _ => (s', e) end
  end.
End Run.
Arguments local {P} _. Arguments global {P} _. Arguments out {P} _. Arguments pending {P} _.

(** What is seen of a call: what was printed, the variables of the package, what is
    returned, whether it panics; [running]: it has not come to an end. *)
Record outcome := { lines : list Z; after : vars; returned : option Z; panicked : bool; running : bool }.

(** ** Go: the arguments are evaluated by the defer statement, and the calls are made however
    the function ends; a panic of one does not keep the others from being made. *)
Definition go_keep (args : list expr) (l g : vars) : list Z := map (fun e => value e l g) args.
Fixpoint go_deferred (functions : nat -> call) (p : list (nat * list Z)) (g : vars) (o : list Z) (panics : bool) : list Z * vars * bool :=
  match p with
  | [] => (o, g, panics)
  | (f, vs) :: r => let '(g', o', q) := functions f vs g in go_deferred functions r g' (o ++ o') (panics || q)
  end.
Definition go (functions : nat -> call) (fuel : nat) (body : stmts) (l g : vars) : outcome :=
  let '(s, e) := run_all (list Z) go_keep functions fuel body {| local := l; global := g; out := []; pending := [] |} in
  match e with
  | Runs => {| lines := out s; after := global s; returned := None; panicked := false; running := true |}
  | _ =>
    let '(o, g', p) := go_deferred functions (pending s) (global s) (out s) (match e with Panics => true | _ => false end) in
    {| lines := o; after := g'; returned := if p then None else match e with Returns v => Some v | _ => None end; panicked := p; running := false |}
  end.

(** ** The compiled program: Zig's defer, which keeps the expression (statements.go:80-87 prints
    the call after it); a panic ends the program. *)
Definition zig_keep (args : list expr) (l g : vars) : list expr := args.
Fixpoint zig_deferred (functions : nat -> call) (p : list (nat * list expr)) (l g : vars) (o : list Z) : list Z * vars * bool :=
  match p with
  | [] => (o, g, false)
  | (f, args) :: r =>
      let '(g', o', q) := functions f (map (fun e => value e l g) args) g in
      if q then (o ++ o', g', true) else zig_deferred functions r l g' (o ++ o')
  end.
Definition zig (functions : nat -> call) (fuel : nat) (body : stmts) (l g : vars) : outcome :=
  let '(s, e) := run_all (list expr) zig_keep functions fuel body {| local := l; global := g; out := []; pending := [] |} in
  match e with
  | Panics => {| lines := out s; after := global s; returned := None; panicked := true; running := false |}
  | Runs => {| lines := out s; after := global s; returned := None; panicked := false; running := true |}
  | _ =>
    let '(o, g', p) := zig_deferred functions (pending s) (local s) (global s) (out s) in
    {| lines := o; after := g'; returned := if p then None else match e with Returns v => Some v | _ => None end; panicked := p; running := false |}
  end.
(** function.go:18-24 marks the defers of the function itself; others do not compile
    (statements.go:82-86). *)
Fixpoint no_defer (c : stmt) : bool :=
  match c with SDefer _ _ => false | SIf _ yes no => no_defers yes && no_defers no | SFor _ post body => no_defers post && no_defers body | _ => true end
with no_defers (l : stmts) : bool := match l with SNil => true | SCons c r => no_defer c && no_defers r end.
Fixpoint compiles (l : stmts) : bool :=
  match l with
  | SNil => true
  | SCons (SDefer _ _) r => compiles r
  | SCons c r => no_defer c && compiles r
  end.
