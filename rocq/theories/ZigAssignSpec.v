(** * Go's assignments and slice expressions

    "Assignment statements": the operands on the left and the expressions on the right are
    all evaluated; then the assignments are done from left to right. x op= y is
    x = x op y, with x evaluated once. "Slice expressions": a missing low index is zero, a
    missing high index the length. *)
From Coq Require Import List ZArith String Bool.
From Verif Require Import ZigAssignModel.
Import ListNotations.
Local Open Scope list_scope.

(** Where a target is, once its operands are evaluated; slices and maps with other keys are
    not said anything about. *)
Inductive place := Nowhere | Cell (x : nat) | Nil | Entry (m : nat) (k : string).
Definition place_of (t : target) (s : mem) : option place :=
  match t with
  | TBlank => Some Nowhere
  | TVar x => Some (Cell x)
  | TDeref p => Some (match pointers s p with Some x => Cell x | None => Nil end)
  | TGet m k => Some (Entry (maps s m) (key_of k s))
  | TOther _ _ | TSlice _ _ => None
  end.
Definition read (p : place) (s : mem) : option Z :=
  match p with
  | Nowhere => Some 0%Z
  | Cell x => Some (cells s x)
  | Nil => None
  | Entry m k => Some (find k (tables s m))
  end.
Definition write (p : place) (v : Z) (s : mem) : option mem :=
  match p with
  | Nowhere => Some s
  | Cell x => Some (set_cell x v s)
  | Nil => None
  | Entry m k => Some (set_table m k v s)
  end.
Inductive go_values : list (target * expr) -> mem -> list (place * Z) -> Prop :=
| NoValues : forall s, go_values [] s []
| MoreValues : forall t e p v l w s, place_of t s = Some p -> value e s = Some v -> go_values l s w ->
    go_values ((t, e) :: l) s ((p, v) :: w).
Inductive go_writes : list (place * Z) -> mem -> option mem -> Prop :=
| NoWrites : forall s, go_writes [] s (Some s)
| Write : forall p v w s s' r, write p v s = Some s' -> go_writes w s' r -> go_writes ((p, v) :: w) s r
| WritePanics : forall p v w s, write p v s = None -> go_writes ((p, v) :: w) s None.
(** [None]: the program panics *)
Inductive go : assignment -> mem -> option mem -> Prop :=
| GoAssign : forall l s w r, go_values l s w -> go_writes w s r -> go {| token_of := Set_; left_right := l |} s r
| GoPanic : forall l s t e, In (t, e) l -> value e s = None -> go {| token_of := Set_; left_right := l |} s None
| GoOp : forall o t e p v old s r, o <> Set_ -> place_of t s = Some p -> read p s = Some old -> value e s = Some v ->
    go_writes [(p, apply o old v)] s r -> go {| token_of := o; left_right := [(t, e)] |} s r
| GoOpPanic : forall o t e p s, o <> Set_ -> place_of t s = Some p -> read p s = None \/ value e s = None ->
    go {| token_of := o; left_right := [(t, e)] |} s None.

Definition go_range (n : Z) (low high : option Z) : option (Z * Z) :=
  let a := match low with Some a => a | None => 0%Z end in
  let b := match high with Some b => b | None => n end in
  if ((0 <=? a) && (a <=? b) && (b <=? n))%Z then Some (a, b) else None.
