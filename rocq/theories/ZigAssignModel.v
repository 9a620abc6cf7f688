(** * zgo: assignments to what pointers point to and to elements of maps and arrays, and
    slices of arrays (zgo/internal/target/zigc/assignment.go:51-136, expressions.go:172-194,
    build_runtime.zig:199-233, 292-327).

    Of each assignment the types are those of its parts: all values are integers, kept
    unbounded (overflow is what C130 speaks of); the keys of maps are strings unless said
    otherwise. Values that are interfaces are left out. *)
From Coq Require Import List ZArith String Bool.
Import ListNotations.
Local Open Scope list_scope.

(** ** Programs *)
Inductive key := KString (s : string) | KVar (x : nat).
Inductive expr :=
| EInt (z : Z)
| EVar (x : nat)
| EDeref (p : nat)              (* *p *)
| EGet (m : nat) (k : key).     (* m[k] *)
Inductive target :=
| TBlank                        (* _ *)
| TVar (x : nat)
| TDeref (p : nat)              (* *p *)
| TGet (m : nat) (k : key)      (* m[k], keys are strings *)
| TOther (m : nat) (k : expr)   (* m[k], keys are not *)
| TSlice (s : nat) (i : expr).  (* s[i], s a slice *)
Inductive token := Set_ | Add_ | Sub_ | Mul_.
(** As many values as targets; one of each unless the token is =. *)
Record assignment := { token_of : token; left_right : list (target * expr) }.

(** ** Memory: variables are cells; a pointer is nil or a cell; a map variable is a map. *)
Record mem := {
  cells : nat -> Z; pointers : nat -> option nat; strings : nat -> string;
  maps : nat -> nat; tables : nat -> list (string * Z) }.
Definition bind {A} (x : nat) (v : A) (f : nat -> A) : nat -> A := fun y => if Nat.eqb y x then v else f y.
Fixpoint find (k : string) (t : list (string * Z)) : Z :=      (* 319-323: zero when there is none *)
  match t with [] => 0%Z | (k', v) :: r => if String.eqb k' k then v else find k r end.
Fixpoint put (k : string) (v : Z) (t : list (string * Z)) : list (string * Z) :=
  match t with [] => [(k, v)] | (k', w) :: r => if String.eqb k' k then (k', v) :: r else (k', w) :: put k v r end.
Definition key_of (k : key) (s : mem) : string := match k with KString t => t | KVar x => strings s x end.
Definition set_cell (x : nat) (v : Z) (s : mem) : mem :=
  {| cells := bind x v (cells s); pointers := pointers s; strings := strings s; maps := maps s; tables := tables s |}.
Definition set_table (m : nat) (k : string) (v : Z) (s : mem) : mem :=
  {| cells := cells s; pointers := pointers s; strings := strings s; maps := maps s;
     tables := bind m (put k v (tables s m)) (tables s) |}.
(** [None]: nil pointer dereference *)
Definition value (e : expr) (s : mem) : option Z :=
  match e with
  | EInt z => Some z
  | EVar x => Some (cells s x)
  | EDeref p => match pointers s p with Some x => Some (cells s x) | None => None end
  | EGet m k => Some (find (key_of k s) (tables s (maps s m)))
  end.
Definition apply (t : token) (a b : Z) : Z :=
  match t with Set_ => b | Add_ => a + b | Sub_ => a - b | Mul_ => a * b end%Z.

(** ** What is emitted: pieces, one after the other with nothing in between (assignment.go:51-134) *)
Inductive piece :=
| PUse (e : expr)                              (* go.use(e) *)
| PVar (x : nat) (t : token) (e : expr)        (* x t e *)
| PSet (p : nat) (e : expr)                    (* p.set(e) *)
| PMap (m : nat) (k : key) (e : expr)          (* m.set(goto,k, e) *)
| PMissing                                     (* go.runtime.map_set( *)
| PCall (s : nat) (i : expr) (t : token) (e : expr).  (* s.index(i) t e *)
Fixpoint pieces (t : token) (l : list (target * expr)) : list piece :=
  match l with
  | [] => []
  | (TDeref p, e) :: r => PSet p e :: pieces t r                     (* 54-63 *)
  | (TGet m k, e) :: r => [PMap m k e]                               (* 64-80: it returns *)
  | (TOther m k, e) :: r => [PMissing]                               (* 82-94: it returns *)
  | (TSlice s i, e) :: r => PCall s i t e :: pieces t r              (* 96-133 *)
  | (TBlank, e) :: r => PUse e :: pieces t r                         (* 98-107 *)
  | (TVar x, e) :: r => PVar x t e :: pieces t r                     (* 108-133 *)
  end.
(** Zig takes a line if it is one statement, and one of those there are: calls are not
    assigned to, and the runtime has no go.runtime. Two pieces never make one statement:
    where the name a piece ends with runs into the one the next begins with, what comes
    out would assign a call of set, which has no value, or an assignment, which is none
    in Zig. *)
Definition accepted (l : list piece) : option piece :=
  match l with
  | [PMissing] | [PCall _ _ _ _] => None
  | [p] => Some p
  | _ => None
  end.
Definition compile (a : assignment) : option piece := accepted (pieces (token_of a) (left_right a)).
(** What the statement does; [None]: it panics *)
Definition zig (p : piece) (s : mem) : option mem :=
  match p with
  | PUse e => match value e s with Some _ => Some s | None => None end
  | PVar x t e => match value e s with Some v => Some (set_cell x (apply t (cells s x) v) s) | None => None end
  | PSet p e => match value e s with                                 (* 206-212 *)
                | Some v => match pointers s p with Some x => Some (set_cell x v s) | None => None end
                | None => None
                end
  | PMap m k e => match value e s with Some v => Some (set_table (maps s m) (key_of k s) v s) | None => None end  (* 315-317 *)
  | PMissing | PCall _ _ _ _ => None
  end.

(** ** Slices of arrays that a pointer points to: [low:high] of an array of n elements
    (expressions.go:172-194, build_runtime.zig:220-233) *)
Definition zig_range (n : Z) (low high : option Z) : option (Z * Z) :=
  let pos := match low with Some a => a | None => 0%Z end in
  let end_ := match high with Some b => b | None => 0%Z end in
  if ((pos <? 0) || (end_ <? pos) || (n <? end_))%Z then None else Some (pos, end_).
