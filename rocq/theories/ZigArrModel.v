(** * zgo: arrays and slices of them in compiled programs
    (zgo/internal/target/zigc/expressions.go:113-144, 172-194, 205-215; assignment.go:108-133;
    zgo/internal/target/zigc/composite.go:10-42; build_runtime.zig:159-233, 457-466).

    The statements about slices of C153 (ZigSliceModel), and arrays of ints whose address is
    taken: [a := [n]int{...}; p := &a]. An array has a number among the variables of slices;
    there it is the slice of all its elements. A slice of an array begins with its first
    element: slices have no offset in C153's memory. What slices become when an index is
    left out is in C154. *)
From Coq Require Import List Arith ZArith Bool.
From Verif Require Import ZigSliceModel.
Import ListNotations.

Inductive astmt :=
| One (c : stmt)
| Decl (a : nat) (vs : list nat)         (* a := [...]int{vs} *)
| Put (a i v : nat)                      (* a[i] = v, i a literal: there is such an element *)
| At (a i : nat)                         (* println(a[i]), the same *)
| Cut (x a : nat) (hi : Z).              (* x = p[0:hi], p := &a *)

Definition placed (a i v : nat) (s : state) : state :=
  store (arr (vars s a)) (set_nth i v (array s (arr (vars s a)))) s.

(** ** Go ("Slice expressions": of an array, the result shares it, and has room up to its end) *)
Inductive go_astep : astmt -> state -> state -> Prop :=
| GOne : forall c s s', go_step c s s' -> go_astep (One c) s s'
| GDecl : forall a vs s, go_astep (Decl a vs) s (fresh a (length vs) vs s)
| GPut : forall a i v s, i < len (vars s a) -> go_astep (Put a i v) s (placed a i v s)
| GAt : forall a i s, i < len (vars s a) -> go_astep (At a i) s (print (elem s a i) s)
| GCut : forall x a hi s, (0 <= hi <= Z.of_nat (len (vars s a)))%Z ->
    go_astep (Cut x a hi) s (assign x {| arr := arr (vars s a); len := Z.to_nat hi; cap := len (vars s a) |} s)
| GCutPanic : forall x a hi s, ~ (0 <= hi <= Z.of_nat (len (vars s a)))%Z -> go_astep (Cut x a hi) s (stop OutOfRange s).

(** ** The compiled program: pointer.range sets the items of an empty ArrayListUnmanaged
    (220-229): its capacity is 0, and append to a list that has no room for one more (457-461)
    gets new memory. *)
Inductive zig_astep (in_place : bool) : astmt -> state -> state -> Prop :=
| ZOne : forall c s s', zig_step in_place c s s' -> zig_astep in_place (One c) s s'
| ZOver : forall x y v junk s, cap (vars s y) < len (vars s y) ->
    zig_astep in_place (One (Append x y v)) s (fresh x (S (len (vars s y))) (contents s y ++ v :: junk) s)
| ZDecl : forall a vs s, zig_astep in_place (Decl a vs) s (fresh a (length vs) vs s)
| ZPut : forall a i v s, i < len (vars s a) -> zig_astep in_place (Put a i v) s (placed a i v s)
| ZAt : forall a i s, i < len (vars s a) -> zig_astep in_place (At a i) s (print (elem s a i) s)
| ZCut : forall x a hi s, (hi <? 0)%Z || (Z.of_nat (len (vars s a)) <? hi)%Z = false ->
    zig_astep in_place (Cut x a hi) s (assign x {| arr := arr (vars s a); len := Z.to_nat hi; cap := 0 |} s)
| ZCutPanic : forall x a hi s, (hi <? 0)%Z || (Z.of_nat (len (vars s a)) <? hi)%Z = true ->
    zig_astep in_place (Cut x a hi) s (stop OutOfRange s).

(** A run: a panic ends it. *)
Inductive arun (step : astmt -> state -> state -> Prop) : list astmt -> state -> state -> Prop :=
| ADone : forall s, arun step [] s s
| AStop : forall p s e, stopped s = Some e -> arun step p s s
| AStep : forall c p s s' s'', stopped s = None -> step c s s' -> arun step p s' s'' -> arun step (c :: p) s s''.
