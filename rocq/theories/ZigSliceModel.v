(** * zgo: slices of compiled programs
    (zgo/internal/target/zigc/build_runtime.zig:155-196, 457-466; builtins.go:53-81, 115-169 and
    expressions.go:108-127 call them).

    A program is a list of statements about variables that hold slices of integers. Slicing
    expressions are left out: what they compile to calls a function that there is none of
    (build_runtime.zig:193), so they do not compile; neither do cap and the assignment to an
    element (an index is a call). So every slice begins where its array begins. *)
From Coq Require Import List Arith ZArith Bool Lia.
Import ListNotations.

Inductive stmt :=
| Literal (x : nat) (vs : list nat)        (* x := []int{...} *)
| Make (x l spare : nat)                   (* x := make([]int, l, l+spare) *)
| Let (x y : nat)                          (* x = y *)
| Append (x y : nat) (v : nat)             (* x = append(y, v) *)
| Copy (x y : nat)                         (* println(copy(x, y)) *)
| Clear (x : nat)                          (* clear(x) *)
| PrintElem (x : nat) (i : Z)              (* println(x[i]) *)
| PrintLen (x : nat).                      (* println(len(x)) *)

Inductive panic := OutOfRange | TooLong.
Record slice := { arr : nat; len : nat; cap : nat }.
Definition nil_slice : slice := {| arr := 0; len := 0; cap := 0 |}.
(** [heap]: the arrays, oldest first; [out]: what was printed, oldest first *)
Record state := { heap : list (list nat); vars : nat -> slice; out : list nat; stopped : option panic }.
Definition start : state := {| heap := []; vars := fun _ => nil_slice; out := []; stopped := None |}.

Definition array (s : state) (a : nat) : list nat := nth a (heap s) [].
Definition elem (s : state) (x i : nat) : nat := nth i (array s (arr (vars s x))) 0.
Definition bind (x : nat) (v : slice) (f : nat -> slice) : nat -> slice := fun y => if y =? x then v else f y.
Fixpoint set_nth {A} (i : nat) (x : A) (l : list A) : list A :=
  match l, i with
  | [], _ => []
  | _ :: l', O => x :: l'
  | y :: l', S i' => y :: set_nth i' x l'
  end.
(** the first elements of an array replaced *)
Definition overwrite (new l : list nat) : list nat := new ++ skipn (length new) l.

Definition print (n : nat) (s : state) : state :=
  {| heap := heap s; vars := vars s; out := out s ++ [n]; stopped := stopped s |}.
Definition stop (p : panic) (s : state) : state :=
  {| heap := heap s; vars := vars s; out := out s; stopped := Some p |}.
(** x becomes a slice of a new array *)
Definition fresh (x l : nat) (a : list nat) (s : state) : state :=
  {| heap := heap s ++ [a]; vars := bind x {| arr := length (heap s); len := l; cap := length a |} (vars s);
     out := out s; stopped := stopped s |}.
(** x becomes v; array a becomes l *)
Definition store (a : nat) (l : list nat) (s : state) : state :=
  {| heap := set_nth a l (heap s); vars := vars s; out := out s; stopped := stopped s |}.
Definition assign (x : nat) (v : slice) (s : state) : state :=
  {| heap := heap s; vars := bind x v (vars s); out := out s; stopped := stopped s |}.
Definition longer (v : slice) : slice := {| arr := arr v; len := S (len v); cap := cap v |}.
Definition contents (s : state) (x : nat) : list nat := firstn (len (vars s x)) (array s (arr (vars s x))).

(** ** Go ("Appending to and copying slices", "Making slices, maps and channels", "Clear",
    "Index expressions"). How much room append leaves in a new array is not said. *)
Inductive go_step : stmt -> state -> state -> Prop :=
| GLiteral : forall x vs s, go_step (Literal x vs) s (fresh x (length vs) vs s)
| GMake : forall x l c s, go_step (Make x l c) s (fresh x l (repeat 0 (l + c)) s)
| GLet : forall x y s, go_step (Let x y) s (assign x (vars s y) s)
| GAppendRoom : forall x y v s, len (vars s y) < cap (vars s y) ->
    go_step (Append x y v) s
      (assign x (longer (vars s y)) (store (arr (vars s y)) (set_nth (len (vars s y)) v (array s (arr (vars s y)))) s))
| GAppendNew : forall x y v spare s, len (vars s y) = cap (vars s y) ->
    go_step (Append x y v) s (fresh x (S (len (vars s y))) (contents s y ++ v :: repeat 0 spare) s)
| GCopy : forall x y s,
    go_step (Copy x y) s
      (print (Nat.min (len (vars s x)) (len (vars s y)))
        (store (arr (vars s x)) (overwrite (firstn (len (vars s x)) (contents s y)) (array s (arr (vars s x)))) s))
| GClear : forall x s,
    go_step (Clear x) s (store (arr (vars s x)) (overwrite (repeat 0 (len (vars s x))) (array s (arr (vars s x)))) s)
| GElem : forall x i s, (0 <= i < Z.of_nat (len (vars s x)))%Z ->
    go_step (PrintElem x i) s (print (elem s x (Z.to_nat i)) s)
| GElemPanic : forall x i s, ~ (0 <= i < Z.of_nat (len (vars s x)))%Z ->
    go_step (PrintElem x i) s (stop OutOfRange s)
| GLen : forall x s, go_step (PrintLen x) s (print (len (vars s x)) s).

(** ** The compiled program

    [junk]: memory nobody has written. The elements are in a std.ArrayListUnmanaged, the
    memory is the routine's std.heap.ArenaAllocator: memory that was got last can be made
    longer in place. [in_place]: whether that is ever done. *)
Inductive zig_step (in_place : bool) : stmt -> state -> state -> Prop :=
| ZLiteral : forall x vs s, zig_step in_place (Literal x vs) s (fresh x (length vs) vs s)               (* 167-175 *)
| ZMake : forall x l c junk s, length junk = l + c ->
    zig_step in_place (Make x l c) s (fresh x l junk s)                                                 (* 160-166: resize leaves them undefined *)
| ZLet : forall x y s, zig_step in_place (Let x y) s (assign x (vars s y) s)
| ZAppendRoom : forall x y v s, len (vars s y) < cap (vars s y) ->                              (* 457-461 *)
    zig_step in_place (Append x y v) s
      (assign x (longer (vars s y)) (store (arr (vars s y)) (set_nth (len (vars s y)) v (array s (arr (vars s y)))) s))
| ZAppendNew : forall x y v junk s, len (vars s y) = cap (vars s y) ->
    zig_step in_place (Append x y v) s (fresh x (S (len (vars s y))) (contents s y ++ v :: junk) s)
| ZAppendGrow : forall x y v junk s, in_place = true -> len (vars s y) = cap (vars s y) ->
    0 < cap (vars s y) -> length (heap s) = S (arr (vars s y)) -> length (array s (arr (vars s y))) = cap (vars s y) ->
    zig_step in_place (Append x y v) s
      (assign x {| arr := arr (vars s y); len := S (len (vars s y)); cap := S (cap (vars s y)) + length junk |}
        (store (arr (vars s y)) (array s (arr (vars s y)) ++ v :: junk) s))
| ZCopy : forall x y s, len (vars s y) <= len (vars s x) ->                                     (* 463-466: copyForwards *)
    zig_step in_place (Copy x y) s
      (print (Nat.min (len (vars s x)) (len (vars s y)))
        (store (arr (vars s x)) (overwrite (contents s y) (array s (arr (vars s x)))) s))
| ZCopyPanic : forall x y s, len (vars s x) < len (vars s y) -> zig_step in_place (Copy x y) s (stop TooLong s)
| ZClear : forall x s,                                                                          (* 185-187 *)
    zig_step in_place (Clear x) s (store (arr (vars s x)) (overwrite (repeat 0 (len (vars s x))) (array s (arr (vars s x)))) s)
| ZElem : forall x i s, (i <? 0)%Z || (Z.of_nat (len (vars s x)) <=? i)%Z = false ->            (* 179-184 *)
    zig_step in_place (PrintElem x i) s (print (elem s x (Z.to_nat i)) s)
| ZElemPanic : forall x i s, (i <? 0)%Z || (Z.of_nat (len (vars s x)) <=? i)%Z = true ->
    zig_step in_place (PrintElem x i) s (stop OutOfRange s)
| ZLen : forall x s, zig_step in_place (PrintLen x) s (print (len (vars s x)) s).                        (* 176-178 *)

(** A run: a panic ends it. *)
Inductive run (step : stmt -> state -> state -> Prop) : list stmt -> state -> state -> Prop :=
| RDone : forall s, run step [] s s
| RStop : forall p s e, stopped s = Some e -> run step p s s
| RStep : forall c p s s' s'', stopped s = None -> step c s s' -> run step p s' s'' -> run step (c :: p) s s''.
