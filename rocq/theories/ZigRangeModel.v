(** * zgo: range loops over slices of compiled programs
    (zgo/internal/target/zigc/loops.go:87-134, 136-144; statements.go:90-97;
    zgo/internal/parser/statements.go:141-160).

    The statements about slices of C153 (ZigSliceModel) in loops over slices, ifs, break and
    continue. A variable of a loop is printed, appended to a slice or compared with a
    literal. The variables of slices have even numbers: the slice that a loop is over is
    evaluated once, and its copy is put in a variable with an odd number. Names are those
    after renaming (C132), and no variable of a loop escapes (C128). Loops that assign to
    variables there already are ([for k, v = range]) are left out. *)
From Coq Require Import List Arith ZArith Bool.
From Verif Require Import ZigSliceModel.
Import ListNotations.

(** [for], [for k := range], [for k, v := range]; [_] is [Blank]. *)
Inductive binder := Named (n : nat) | Blank | Absent.
Inductive rstmt :=
| ROne (c : stmt)
| RPrint (v : nat)                                  (* println(v) *)
| RAppend (x y v : nat)                             (* x = append(y, v) *)
| RIf (v n : nat) (yes : rstmts)                    (* if v == n { yes } *)
| RRange (label : option nat) (k v : binder) (x : nat) (body : rstmts)
| RBreak (label : option nat)
| RContinue (label : option nat)
with rstmts := RNil | RCons (c : rstmt) (r : rstmts).

Definition env := nat -> nat.
Definition bound (b : binder) (n : nat) (e : env) : env :=
  match b with Named v => fun y => if y =? v then n else e y | _ => e end.

Inductive ending := Ends | Breaks (label : option nat) | Continues (label : option nat) | Stops.
Definition same_label (a b : option nat) : bool :=
  match a, b with Some x, Some y => x =? y | _, _ => false end.

(** What a loop does after a round that ended so: go on, be left, or end so itself.

    Go: a break without a label, or with the loop's, leaves the loop. *)
Inductive next := On | Left (e : ending).
Definition go_next (label : option nat) (e : ending) : next :=
  match e with
  | Ends | Continues None => On
  | Breaks None => Left Ends
  | Breaks l => if same_label l label then Left Ends else Left e
  | Continues l => if same_label l label then On else Left e
  | Stops => Left Stops
  end.
(** loops.go:118-120: the label is printed after the captures and is one of the loop's body:
    breaking out of that ends the round. *)
Definition zig_next (label : option nat) (e : ending) : next :=
  match e with
  | Ends | Continues None => On
  | Breaks None => Left Ends
  | Breaks l => if same_label l label then On else Left e
  | Continues _ => Left e
  | Stops => Left Stops
  end.

(** ** Runs

    [d]: how many loops there are around. [step]: of the statements of C153. *)
Section Exec.
Variable step : stmt -> state -> state -> Prop.
Variable after : option nat -> ending -> next.
Definition ending_of (s : state) : ending := match stopped s with None => Ends | Some _ => Stops end.
Inductive exec : nat -> env -> rstmt -> state -> state -> ending -> Prop :=
| XOne : forall d e c s s', step c s s' -> exec d e (ROne c) s s' (ending_of s')
| XPrint : forall d e v s, exec d e (RPrint v) s (print (e v) s) Ends
| XAppend : forall d e x y v s s', step (Append x y (e v)) s s' -> exec d e (RAppend x y v) s s' (ending_of s')
| XIfYes : forall d e v n l s s' r, e v = n -> exec_all d e l s s' r -> exec d e (RIf v n l) s s' r
| XIfNo : forall d e v n l s, e v <> n -> exec d e (RIf v n l) s s Ends
| XBreak : forall d e l s, exec d e (RBreak l) s s (Breaks l)
| XContinue : forall d e l s, exec d e (RContinue l) s s (Continues l)
| XRange : forall d e label k v x body s s' r,
    rounds d e label k v body (len (vars s x)) 0 (assign (S (2 * d)) (vars s x) s) s' r ->
    exec d e (RRange label k v x body) s s' r
with exec_all : nat -> env -> rstmts -> state -> state -> ending -> Prop :=
| ANil : forall d e s, exec_all d e RNil s s Ends
| ACons : forall d e c r s s1 s2 q, exec d e c s s1 Ends -> exec_all d e r s1 s2 q -> exec_all d e (RCons c r) s s2 q
| AEnd : forall d e c r s s1 q, exec d e c s s1 q -> q <> Ends -> exec_all d e (RCons c r) s s1 q
(** the rounds of a loop over n elements, from the i-th on; an element is read when its round
    begins *)
with rounds : nat -> env -> option nat -> binder -> binder -> rstmts -> nat -> nat -> state -> state -> ending -> Prop :=
| LDone : forall d e label k v body n i s, n <= i -> rounds d e label k v body n i s s Ends
| LOn : forall d e label k v body n i s s1 q s2 r, i < n ->
    exec_all (S d) (bound v (elem s (S (2 * d)) i) (bound k i e)) body s s1 q -> after label q = On ->
    rounds d e label k v body n (S i) s1 s2 r -> rounds d e label k v body n i s s2 r
| LLeft : forall d e label k v body n i s s1 q r, i < n ->
    exec_all (S d) (bound v (elem s (S (2 * d)) i) (bound k i e)) body s s1 q -> after label q = Left r ->
    rounds d e label k v body n i s s1 r.
End Exec.

(** The program in Go, and the compiled one. *)
Definition go_run (p : rstmts) (s : state) (r : ending) : Prop := exec_all go_step go_next 0 (fun _ => 0) p start s r.
Definition zig_run (in_place : bool) (p : rstmts) (s : state) (r : ending) : Prop :=
  exec_all (zig_step in_place) zig_next 0 (fun _ => 0) p start s r.

(** ** What compiles: Zig's for has one capture for each thing it is over (96-117), a loop
    that captures nothing is printed with [||]; the index is a usize, which is no element of
    a slice of ints, and it can be printed and compared with a literal; continue does not go
    to the label of a block. [index]: the variables that are one. *)
Definition marked (b : binder) (m : bool) (f : nat -> bool) : nat -> bool :=
  match b with Named v => fun y => if y =? v then m else f y | _ => f end.
Fixpoint compiles (index : nat -> bool) (c : rstmt) : bool :=
  match c with
  | ROne _ | RPrint _ | RBreak _ => true
  | RAppend _ _ v => negb (index v)
  | RIf _ _ l => compiles_all index l
  | RRange _ k v _ body =>
      match v with Absent => false | _ => true end && compiles_all (marked v false (marked k true index)) body
  | RContinue l => match l with None => true | Some _ => false end
  end
with compiles_all (index : nat -> bool) (l : rstmts) : bool :=
  match l with RNil => true | RCons c r => compiles index c && compiles_all index r end.
