(** * Assignments and slices of arrays of compiled programs (C154) *)
From Coq Require Import List ZArith String Bool Lia.
From Verif Require Import ZigAssignModel ZigAssignSpec.
Import ListNotations.
Local Open Scope list_scope.

(** The property: an assignment that compiles does what Go says. *)
Definition C154_full : Prop := forall a p s r, compile a = Some p -> go a s r -> zig p s = r.

(** What compiles: one target that is no element of a slice or of a map with other keys
    than strings; or any number, if an element of a map with strings comes first. *)
Theorem C154_compiles : forall a, (exists p, compile a = Some p) <->
  (exists t e, left_right a = [(t, e)] /\ (forall m k, t <> TOther m k) /\ (forall s i, t <> TSlice s i)) \/
  (exists m k e r, left_right a = (TGet m k, e) :: r).
Proof.
  intros [t l]. unfold compile. cbn [token_of left_right]. split.
  - intros [p H]. destruct l as [|[[|x|q|m k|m k|q i] e] r]; cbn [pieces accepted] in H; try discriminate.
    + left. destruct r as [|[[| | | | |] e'] r]; cbn [pieces] in H; try discriminate. exists TBlank, e. repeat split; discriminate.
    + left. destruct r as [|[[| | | | |] e'] r]; cbn [pieces] in H; try discriminate. exists (TVar x), e. repeat split; discriminate.
    + left. destruct r as [|[[| | | | |] e'] r]; cbn [pieces] in H; try discriminate. exists (TDeref q), e. repeat split; discriminate.
    + right. exists m, k, e, r. reflexivity.
    + destruct r as [|[[| | | | |] e'] r]; cbn [pieces] in H; discriminate.
  - intros [(x & e & -> & N & M)|(m & k & e & r & ->)]; [|eexists; reflexivity].
    destruct x as [|x|q|m k|m k|q i]; cbn; try (eexists; reflexivity).
    + exfalso. now apply (N m k).
    + exfalso. now apply (M q i).
Qed.

(** One target, and = unless it is a variable *)
Definition plain (a : assignment) : Prop :=
  exists t e, left_right a = [(t, e)] /\ (token_of a = Set_ \/ exists x, t = TVar x).
Lemma go_one : forall t e p v s r, place_of t s = Some p -> value e s = Some v -> write p v s = r ->
  go {| token_of := Set_; left_right := [(t, e)] |} s r.
Proof.
  intros t e p v s r P V W. apply GoAssign with (w := [(p, v)]).
  - apply MoreValues; [assumption|assumption|apply NoValues].
  - destruct r as [s'|]; [|now apply WritePanics]. apply Write with (s' := s'); [assumption|apply NoWrites].
Qed.
Lemma writes_one : forall p v s r, go_writes [(p, v)] s r -> r = write p v s.
Proof.
  intros p v s r H. inversion H as [|p0 v0 w s0 s' r0 W R|p0 v0 w s0 W]; subst; [inversion R; subst; now rewrite W|now rewrite W].
Qed.
Lemma one_go : forall t e s r, go {| token_of := Set_; left_right := [(t, e)] |} s r ->
  (exists p v, place_of t s = Some p /\ value e s = Some v /\ r = write p v s) \/ (value e s = None /\ r = None).
Proof.
  intros t e s r H. inversion H as [l s0 w r0 V W|l s0 t0 e0 I V| |]; subst; try congruence.
  - left. inversion V as [|t0 e0 p v l w0 s0 P E V']; subst. inversion V'; subst. exists p, v.
    split; [assumption|]. split; [assumption|]. now apply writes_one.
  - right. destruct I as [I|[]]. inversion I; subst. split; [assumption|reflexivity].
Qed.
(** Such an assignment does exactly what Go says, panics included, in every memory. *)
Theorem C154_plain_partial : forall a p s r, plain a -> compile a = Some p -> (go a s r <-> zig p s = r).
Proof.
  intros [o l] p s r (t & e & L & T) C. cbn [left_right token_of] in *. subst l. unfold compile in C. cbn [token_of left_right] in C.
  assert (S0 : o = Set_ -> (go {| token_of := Set_; left_right := [(t, e)] |} s r <-> zig p s = r)).
  { intro O. subst o. destruct t as [|x|q|m k|m k|q i]; cbn [pieces accepted] in C; inversion C; subst p; clear C; cbn [zig].
    - split; intro H.
      + apply one_go in H. destruct H as [(p & v & P & V & R)|[V R]]; rewrite V; [|congruence]. inversion P; subst. reflexivity.
      + destruct (value e s) as [v|] eqn:V; [now apply go_one with (p := Nowhere) (v := v)|]. subst r. apply GoPanic with (t := TBlank) (e := e); [now left|assumption].
    - split; intro H.
      + apply one_go in H. destruct H as [(p & v & P & V & R)|[V R]]; rewrite V; [|congruence]. inversion P; subst. reflexivity.
      + destruct (value e s) as [v|] eqn:V; [now apply go_one with (p := Cell x) (v := v)|]. subst r. apply GoPanic with (t := TVar x) (e := e); [now left|assumption].
    - split; intro H.
      + apply one_go in H. destruct H as [(p & v & P & V & R)|[V R]]; rewrite V; [|congruence]. cbn [place_of] in P. inversion P; subst.
        destruct (pointers s q); reflexivity.
      + destruct (value e s) as [v|] eqn:V.
        * apply go_one with (p := match pointers s q with Some x => Cell x | None => Nil end) (v := v); [reflexivity|assumption|].
          destruct (pointers s q); exact H.
        * subst r. apply GoPanic with (t := TDeref q) (e := e); [now left|assumption].
    - split; intro H.
      + apply one_go in H. destruct H as [(p & v & P & V & R)|[V R]]; rewrite V; [|congruence]. inversion P; subst. reflexivity.
      + destruct (value e s) as [v|] eqn:V; [now apply go_one with (p := Entry (maps s m) (key_of k s)) (v := v)|].
        subst r. apply GoPanic with (t := TGet m k) (e := e); [now left|assumption]. }
  destruct T as [O|[x X]]; [subst o; now apply S0|]. destruct o eqn:Eo; [now apply S0| | |]; clear S0; subst t;
    cbn [pieces accepted] in C; inversion C; subst p; clear C; cbn [zig].
  all: split; intro H.
  all: try (inversion H as [| |o0 t0 e0 p v old s0 r0 N P R V W|o0 t0 e0 p s0 N P D]; subst; cbn [place_of] in P; inversion P; subst p;
    [cbn [read] in R; inversion R; subst old; rewrite V; apply writes_one in W; now subst r
    |destruct D as [D|D]; [cbn [read] in D; discriminate|now rewrite D]]).
  all: destruct (value e s) as [v|] eqn:V;
    [subst r; eapply GoOp; [discriminate|reflexivity|reflexivity|exact V|eapply Write; [reflexivity|apply NoWrites]]
    |subst r; eapply GoOpPanic; [discriminate|reflexivity|now right]].
Qed.

(** ** Where it does not *)
(** *p op= e and m[k] op= e store e. *)
Theorem C154_op_refuted : forall o e v s, o <> Set_ -> value e s = Some v ->
  (forall p x, pointers s p = Some x -> exists c, compile {| token_of := o; left_right := [(TDeref p, e)] |} = Some c /\
     zig c s = Some (set_cell x v s) /\
     go {| token_of := o; left_right := [(TDeref p, e)] |} s (Some (set_cell x (apply o (cells s x) v) s))) /\
  (forall m k, exists c, compile {| token_of := o; left_right := [(TGet m k, e)] |} = Some c /\
     zig c s = Some (set_table (maps s m) (key_of k s) v s) /\
     go {| token_of := o; left_right := [(TGet m k, e)] |} s
       (Some (set_table (maps s m) (key_of k s) (apply o (find (key_of k s) (tables s (maps s m))) v) s))).
Proof.
  intros o e v s N V. split.
  - intros p x P. exists (PSet p e). split; [reflexivity|]. split; [cbn; now rewrite V, P|].
    eapply GoOp; [assumption|cbn; now rewrite P|reflexivity|exact V|]. eapply Write; [reflexivity|apply NoWrites].
  - intros m k. exists (PMap m k e). split; [reflexivity|]. split; [cbn; now rewrite V|].
    eapply GoOp; [assumption|reflexivity|reflexivity|exact V|]. eapply Write; [reflexivity|apply NoWrites].
Qed.
(** Whatever comes after an element of a map on the left is left out, with what it was to be
    assigned: *)
Theorem C154_rest_refuted : forall m k e rest,
  compile {| token_of := Set_; left_right := (TGet m k, e) :: rest |} = compile {| token_of := Set_; left_right := [(TGet m k, e)] |}.
Proof. reflexivity. Qed.
(** m[k], x = e, z leaves x as it was; *)
Theorem C154_dropped_refuted : forall m k e v x z s, value e s = Some v ->
  exists c s', compile {| token_of := Set_; left_right := [(TGet m k, e); (TVar x, EInt z)] |} = Some c /\
    zig c s = Some s' /\ cells s' x = cells s x /\
    exists g, go {| token_of := Set_; left_right := [(TGet m k, e); (TVar x, EInt z)] |} s (Some g) /\ cells g x = z.
Proof.
  intros m k e v x z s V. exists (PMap m k e), (set_table (maps s m) (key_of k s) v s). split; [reflexivity|]. split; [cbn; now rewrite V|]. split; [reflexivity|].
  exists (set_cell x z (set_table (maps s m) (key_of k s) v s)). split.
  - apply GoAssign with (w := [(Entry (maps s m) (key_of k s), v); (Cell x, z)]).
    + apply MoreValues; [reflexivity|assumption|]. apply MoreValues; [reflexivity|reflexivity|apply NoValues].
    + eapply Write; [reflexivity|]. eapply Write; [reflexivity|apply NoWrites].
  - cbn. unfold bind. now rewrite Nat.eqb_refl.
Qed.
(** and m[k], m[l] = m[l], m[k] does not exchange the two. *)
Theorem C154_exchange_refuted : forall m k l s, key_of k s <> key_of l s ->
  let swap := {| token_of := Set_; left_right := [(TGet m k, EGet m l); (TGet m l, EGet m k)] |} in
  exists c s', compile swap = Some c /\ zig c s = Some s' /\
    value (EGet m k) s' = value (EGet m l) s /\ value (EGet m l) s' = value (EGet m l) s.
Proof.
  intros m k l s N swap. exists (PMap m k (EGet m l)). eexists. split; [reflexivity|]. split; [reflexivity|].
  assert (F1 : forall k v t, find k (put k v t) = v).
  { intros k0 v t. induction t as [|[k1 w] t IH]; cbn; [now rewrite String.eqb_refl|]. destruct (String.eqb k1 k0) eqn:E; cbn; now rewrite E. }
  assert (F2 : forall k l v t, k <> l -> find l (put k v t) = find l t).
  { intros k0 l0 v t D. induction t as [|[k1 w] t IH]; cbn.
    - apply String.eqb_neq in D. now rewrite D.
    - destruct (String.eqb k1 k0) eqn:E; cbn; [|now rewrite IH]. apply String.eqb_eq in E. subst k1.
      apply String.eqb_neq in D. now rewrite D. }
  cbn [value set_table tables maps]. unfold bind. rewrite Nat.eqb_refl. split.
  - f_equal. destruct k, l; apply F1.
  - f_equal. destruct k, l; apply F2; exact N.
Qed.
(** Two targets otherwise do not compile, so exchanging two variables does not. *)
Theorem C154_two_refused : forall t x y e f r, (forall m k, x <> TGet m k) -> compile {| token_of := t; left_right := (x, e) :: (y, f) :: r |} = None.
Proof.
  intros t x y e f r N. destruct (compile _) as [p|] eqn:C; [|reflexivity]. exfalso.
  destruct (proj1 (C154_compiles _) (ex_intro _ p C)) as [(a & b & L & _)|(m & k & a & q & L)]; cbn [left_right] in L; inversion L; subst.
  now apply (N m k).
Qed.
Definition empty : mem :=
  {| cells := fun _ => 3%Z; pointers := fun x => if Nat.eqb x 0 then Some 5 else None; strings := fun _ => "a"%string; maps := fun x => x; tables := fun _ => [] |}.
Theorem C154_full_refuted : ~ C154_full.
Proof.
  intro F. destruct (C154_op_refuted Add_ (EInt 4) 4 empty ltac:(discriminate) eq_refl) as [P _].
  destruct (P 0 5 eq_refl) as (c & C & Z & G). specialize (F _ _ _ _ C G). rewrite Z in F.
  assert (E : cells (set_cell 5 4 empty) 5 = cells (set_cell 5 (apply Add_ (cells empty 5) 4) empty) 5) by congruence.
  vm_compute in E. discriminate.
Qed.

(** ** Slices of arrays *)
(** p[low:high] and p[:high] are what they are in Go, for arrays of any length; *)
Theorem C154_range_partial : forall n low b, (0 <= n)%Z -> zig_range n low (Some b) = go_range n low (Some b).
Proof.
  intros n low b N. unfold zig_range, go_range. set (a := match low with Some a => a | None => 0%Z end).
  destruct (a <? 0)%Z eqn:A, (b <? a)%Z eqn:B, (n <? b)%Z eqn:C, (0 <=? a)%Z eqn:D, (a <=? b)%Z eqn:E, (b <=? n)%Z eqn:F; cbn; try reflexivity;
    rewrite ?Z.ltb_lt, ?Z.ltb_ge, ?Z.leb_le, ?Z.leb_gt in *; lia.
Qed.
(** p[:] has no elements, and p[low:] panics unless low is 0. *)
Theorem C154_range_refuted : forall n, (0 < n)%Z ->
  zig_range n None None = Some (0, 0)%Z /\ go_range n None None = Some (0, n)%Z /\
  (forall a, (0 < a <= n)%Z -> zig_range n (Some a) None = None /\ go_range n (Some a) None = Some (a, n)).
Proof.
  intros n N. unfold zig_range, go_range. split; [|split].
  - cbn. assert (E : (n <? 0)%Z = false) by (apply Z.ltb_ge; lia). now rewrite E.
  - cbn [andb Z.leb Z.compare]. assert (E : (0 <=? n)%Z = true) by (apply Z.leb_le; lia). rewrite E. assert (F : (n <=? n)%Z = true) by (apply Z.leb_le; lia). now rewrite F.
  - intros a A. split.
    + assert (E : (a <? 0)%Z = false) by (apply Z.ltb_ge; lia). assert (F : (0 <? a)%Z = true) by (apply Z.ltb_lt; lia). now rewrite E, F.
    + assert (E : (0 <=? a)%Z = true) by (apply Z.leb_le; lia). assert (F : (a <=? n)%Z = true) by (apply Z.leb_le; lia).
      assert (G : (n <=? n)%Z = true) by (apply Z.leb_le; lia). now rewrite E, F, G.
Qed.

(** What C154_plain_partial speaks of: *p = m["b"] when p points to a variable, and when it is
    nil. *)
Theorem C154_example : plain {| token_of := Set_; left_right := [(TDeref 0, EGet 1 (KString "b"))] |} /\
  (exists c s, compile {| token_of := Set_; left_right := [(TDeref 0, EGet 1 (KString "b"))] |} = Some c /\
     zig c (set_table 1 "b" 9 empty) = Some s /\ cells s 5 = 9%Z) /\
  (exists c, compile {| token_of := Set_; left_right := [(TDeref 1, EInt 2)] |} = Some c /\ zig c empty = None).
Proof.
  split; [eexists; eexists; split; [reflexivity|now left]|]. split.
  - eexists. eexists. split; [reflexivity|]. split; reflexivity.
  - eexists. split; reflexivity.
Qed.
Print Assumptions C154_plain_partial.
Print Assumptions C154_full_refuted.
