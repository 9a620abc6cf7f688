(** * Slices of compiled programs (C153) *)
From Coq Require Import List Arith ZArith Bool Lia.
From Verif Require Import ZigSliceModel ZigSliceSpec.
Import ListNotations.

(** The property: what a compiled program does with slices is something Go allows. *)
Definition C153_full : Prop := forall in_place p s, run (zig_step in_place) p start s ->
  exists g, run go_step p start g /\ out g = out s /\ stopped g = stopped s.

(** ** Arrays *)
Lemma nth_set : forall A i j (x d : A) l, nth j (set_nth i x l) d = if (j =? i) && (i <? length l) then x else nth j l d.
Proof.
  induction i as [|i IH]; intros j x d [|y l]; cbn [set_nth nth length]; destruct j as [|j]; cbn; try reflexivity.
  - now rewrite andb_false_r.
  - rewrite IH. reflexivity.
Qed.
Lemma length_set : forall A i (x : A) l, length (set_nth i x l) = length l.
Proof. induction i as [|i IH]; intros x [|y l]; cbn; auto. Qed.
Lemma nth_over : forall new l i, length new <= length l ->
  nth i (overwrite new l) 0 = if i <? length new then nth i new 0 else nth i l 0.
Proof.
  intros new l i L. unfold overwrite. destruct (i <? length new) eqn:E.
  - apply Nat.ltb_lt in E. now apply app_nth1.
  - apply Nat.ltb_ge in E. rewrite app_nth2 by lia.
    rewrite <- (firstn_skipn (length new) l) at 2. rewrite app_nth2; rewrite firstn_length_le by lia; [reflexivity|lia].
Qed.
Lemma length_over : forall new l, length new <= length l -> length (overwrite new l) = length l.
Proof. intros. unfold overwrite. rewrite app_length, skipn_length. lia. Qed.
Lemma array_store : forall a l s b, array (store a l s) b = if (b =? a) && (a <? length (heap s)) then l else array s b.
Proof. intros. unfold array, store. cbn [heap]. apply nth_set. Qed.
Lemma array_fresh : forall x n l s b, array (fresh x n l s) b = if b =? length (heap s) then l else array s b.
Proof.
  intros. unfold array, fresh. cbn [heap]. destruct (b =? length (heap s)) eqn:E.
  - apply Nat.eqb_eq in E. subst. now rewrite app_nth2, Nat.sub_diag by lia.
  - apply Nat.eqb_neq in E. destruct (Nat.lt_ge_cases b (length (heap s))) as [L|L].
    + now rewrite app_nth1.
    + rewrite !nth_overflow; [reflexivity|lia|rewrite app_length; cbn; lia].
Qed.

(** What is true of every state: slices are within their arrays. *)
Definition fits (s : state) : Prop := forall x,
  len (vars s x) <= cap (vars s x) /\ cap (vars s x) <= length (array s (arr (vars s x))).
Lemma fits_heap : forall s x, fits s -> 0 < cap (vars s x) -> arr (vars s x) < length (heap s).
Proof.
  intros s x F C. destruct (F x) as [_ L]. unfold array in L.
  destruct (Nat.lt_ge_cases (arr (vars s x)) (length (heap s))); [assumption|].
  rewrite nth_overflow in L by assumption. cbn in L. lia.
Qed.
Lemma length_contents : forall s x, fits s -> length (contents s x) = len (vars s x).
Proof. intros s x F. unfold contents. apply firstn_length_le. destruct (F x). lia. Qed.
Lemma nth_firstn : forall A i n (l : list A) d, i < n -> nth i (firstn n l) d = nth i l d.
Proof.
  induction i as [|i IH]; intros [|n] [|x l] d L; cbn; try lia; try reflexivity. apply IH. lia.
Qed.
Lemma nth_contents : forall s x i, i < len (vars s x) -> nth i (contents s x) 0 = elem s x i.
Proof. intros. unfold contents, elem. now apply nth_firstn. Qed.

(** ** When memory is never made longer in place *)
Definition alike (s g : state) : Prop :=
  vars s = vars g /\ out s = out g /\ stopped s = stopped g /\ length (heap s) = length (heap g) /\
  (forall a, length (array s a) = length (array g a)) /\
  (forall x i, i < len (vars s x) -> elem s x i = elem g x i).

Lemma fits_fresh : forall x l a s, fits s -> l <= length a -> fits (fresh x l a s).
Proof.
  intros x l a s F L y. rewrite array_fresh. cbn [vars fresh]. unfold bind. destruct (y =? x) eqn:E.
  - cbn [len cap arr]. rewrite Nat.eqb_refl. split; [assumption|lia].
  - destruct (arr (vars s y) =? length (heap s)) eqn:K.
    + apply Nat.eqb_eq in K. destruct (F y) as [F1 F2]. unfold array in F2. rewrite nth_overflow in F2 by lia. cbn in F2. lia.
    + exact (F y).
Qed.
Lemma fits_store : forall a l s, fits s -> length (array s a) <= length l -> fits (store a l s).
Proof.
  intros a l s F L y. rewrite array_store. cbn [vars store]. destruct (F y) as [F1 F2]. split; [assumption|].
  destruct ((arr (vars s y) =? a) && (a <? length (heap s))) eqn:E; [|assumption].
  apply andb_true_iff in E. destruct E as [E _]. apply Nat.eqb_eq in E. subst a. lia.
Qed.
Lemma fits_assign : forall x v s, fits s -> len v <= cap v -> cap v <= length (array s (arr v)) -> fits (assign x v s).
Proof.
  intros x v s F L C y. cbn [vars assign]. unfold bind. destruct (y =? x); [split; assumption|apply F].
Qed.
Lemma fits_same : forall s t, fits s -> vars t = vars s -> heap t = heap s -> fits t.
Proof. intros s t F V H x. unfold array. rewrite V, H. apply F. Qed.

Lemma elem_store : forall a l s x i, elem (store a l s) x i = if (arr (vars s x) =? a) && (a <? length (heap s)) then nth i l 0 else elem s x i.
Proof. intros. unfold elem. rewrite array_store. cbn [vars store]. destruct ((_ =? _) && _); reflexivity. Qed.

Lemma fits_zig : forall b c s s', fits s -> zig_step b c s s' -> fits s'.
Proof.
  intros b c s s' F T. inversion T; subst.
  - apply fits_fresh; [assumption|lia].
  - apply fits_fresh; [assumption|lia].
  - apply fits_assign; [assumption|apply F|apply F].
  - apply fits_assign.
    + apply fits_store; [assumption|]. rewrite length_set. lia.
    + cbn. lia.
    + cbn [arr longer cap]. rewrite array_store. destruct (_ && _); [rewrite length_set|]; apply F.
  - apply fits_fresh; [assumption|]. rewrite app_length, length_contents by assumption. cbn [length]. lia.
  - apply fits_assign.
    + apply fits_store; [assumption|]. rewrite app_length. lia.
    + cbn [len cap]. lia.
    + cbn [arr cap]. rewrite array_store. rewrite Nat.eqb_refl.
      assert (K : arr (vars s y) <? length (heap s) = true) by (apply Nat.ltb_lt; lia). rewrite K. cbn [andb].
      rewrite app_length. cbn [length]. lia.
  - apply fits_same with (s := store (arr (vars s x)) (overwrite (contents s y) (array s (arr (vars s x)))) s); [|reflexivity|reflexivity].
    apply fits_store; [assumption|]. rewrite length_over; [lia|]. rewrite length_contents by assumption. destruct (F x). lia.
  - apply fits_same with (s := s); [assumption|reflexivity|reflexivity].
  - apply fits_store; [assumption|]. rewrite length_over; [lia|]. rewrite repeat_length. destruct (F x). lia.
  - apply fits_same with (s := s); [assumption|reflexivity|reflexivity].
  - apply fits_same with (s := s); [assumption|reflexivity|reflexivity].
  - apply fits_same with (s := s); [assumption|reflexivity|reflexivity].
Qed.
Lemma fits_start : fits start.
Proof. intro x. cbn. lia. Qed.

Lemma alike_fits : forall s g, alike s g -> fits s -> fits g.
Proof.
  intros s g (V & _ & _ & _ & L & _) F x. rewrite <- V, <- L. apply F.
Qed.
Lemma alike_contents : forall s g x, alike s g -> fits s -> contents s x = contents g x.
Proof.
  intros s g x A F. pose proof (alike_fits _ _ A F) as G. destruct A as (V & _ & _ & _ & L & E).
  apply nth_ext with (d := 0) (d' := 0).
  - rewrite !length_contents by assumption. now rewrite V.
  - intros i H. rewrite length_contents in H by assumption. rewrite !nth_contents; [now apply E|now rewrite <- V|assumption].
Qed.
(** The same slice of a new array *)
Lemma alike_fresh : forall x n l l' s g, alike s g -> fits s -> length l = length l' -> n <= length l ->
  (forall i, i < n -> nth i l 0 = nth i l' 0) -> alike (fresh x n l s) (fresh x n l' g).
Proof.
  intros x n l l' s g A F L N E. pose proof (alike_fits _ _ A F) as G. destruct A as (V & O & S0 & H & LA & EL). unfold alike.
  split; [|split; [|split; [|split; [|split]]]].
  - cbn [vars fresh]. now rewrite V, H, L.
  - cbn. assumption.
  - cbn. assumption.
  - cbn [heap fresh]. rewrite !app_length, H. reflexivity.
  - intro a. rewrite !array_fresh, H. destruct (a =? _); auto.
  - intros y i. unfold elem. rewrite !array_fresh. cbn [vars fresh]. rewrite <- V, <- H, <- L. unfold bind. destruct (y =? x).
    + cbn [len arr]. rewrite Nat.eqb_refl. apply E.
    + destruct (arr (vars s y) =? length (heap s)) eqn:K.
      * apply Nat.eqb_eq in K. destruct (F y) as [F1 F2]. unfold array in F2. rewrite nth_overflow in F2 by lia. cbn in F2. lia.
      * specialize (EL y i). unfold elem in EL. rewrite <- V in EL. exact EL.
Qed.
(** An array changed where a slice can see it *)
Lemma alike_store : forall a l l' s g, alike s g -> length l = length l' -> length l = length (array s a) ->
  (forall x i, arr (vars s x) = a -> i < len (vars s x) -> nth i l 0 = nth i l' 0) -> alike (store a l s) (store a l' g).
Proof.
  intros a l l' s g (V & O & S0 & H & LA & EL) L L' E. unfold alike. cbn [vars out stopped store].
  split; [assumption|]. split; [assumption|]. split; [assumption|]. split; [|split].
  - cbn [heap store]. now rewrite !length_set.
  - intro b. rewrite !array_store, H. destruct (_ && _); auto.
  - intros x i K. rewrite !elem_store, <- V, <- H. destruct ((arr (vars s x) =? a) && _) eqn:B; [|now apply EL].
    apply andb_true_iff in B. destruct B as [B _]. apply Nat.eqb_eq in B. eauto.
Qed.

Lemma alike_assign : forall x v s g, alike s g ->
  (forall i, i < len v -> nth i (array s (arr v)) 0 = nth i (array g (arr v)) 0) -> alike (assign x v s) (assign x v g).
Proof.
  intros x v s g (V & O & S0 & H & LA & EL) E. unfold alike. cbn [vars out stopped heap assign]. rewrite V.
  split; [reflexivity|]. split; [assumption|]. split; [assumption|]. split; [assumption|]. split; [assumption|].
  intros z i. unfold elem, array, assign. cbn [vars heap]. unfold bind. destruct (z =? x); [apply E|].
  specialize (EL z i). unfold elem, array in EL. rewrite V in *. exact EL.
Qed.

Lemma in_range : forall i n, (i <? 0)%Z || (Z.of_nat n <=? i)%Z = false <-> (0 <= i < Z.of_nat n)%Z.
Proof.
  intros i n. rewrite orb_false_iff, Z.ltb_ge, Z.leb_gt. tauto.
Qed.
Definition empty_make (c : stmt) : Prop := match c with Make _ l _ => l = 0 | _ => True end.
Lemma alike_step : forall c s s' g, alike s g -> fits s -> empty_make c -> zig_step false c s s' -> stopped s' <> Some TooLong ->
  exists g', go_step c g g' /\ alike s' g'.
Proof.
  intros c s s' g A F M T NT. pose proof (alike_fits _ _ A F) as G. pose proof A as (V & O & S0 & H & LA & EL).
  inversion T; subst; cbn [empty_make] in M; try discriminate.
  - eexists. split; [apply GLiteral|]. apply alike_fresh; auto.
  - subst l. eexists. split; [apply GMake|]. apply alike_fresh; auto; [now rewrite repeat_length|lia|lia].
  - eexists. split; [apply GLet|]. rewrite <- V. apply alike_assign; [assumption|]. intros i I.
    specialize (EL y i I). unfold elem in EL. now rewrite <- V in EL.
  - eexists. split; [apply GAppendRoom; rewrite <- V; assumption|]. rewrite <- V.
    set (L := set_nth (len (vars s y)) v (array s (arr (vars s y)))).
    set (L' := set_nth (len (vars s y)) v (array g (arr (vars s y)))).
    apply alike_assign.
    + apply alike_store; auto; unfold L, L'; rewrite ?length_set; auto.
      intros z i K I. rewrite !nth_set, <- LA. destruct (_ && _); [reflexivity|].
      specialize (EL z i I). unfold elem in EL. rewrite <- V, K in EL. exact EL.
    + cbn [len longer arr]. intros i I. rewrite !array_store, <- H, Nat.eqb_refl. cbn [andb].
      assert (R : arr (vars s y) <? length (heap s) = true) by (apply Nat.ltb_lt, (fits_heap s y F); lia). rewrite R.
      unfold L, L'. rewrite !nth_set, <- LA.
      destruct ((i =? len (vars s y)) && (len (vars s y) <? length (array s (arr (vars s y))))) eqn:B; [reflexivity|].
      assert (i <> len (vars s y)).
      { intro; subst i. rewrite Nat.eqb_refl in B. cbn in B. apply Nat.ltb_ge in B. destruct (F y). lia. }
      specialize (EL y i ltac:(lia)). unfold elem in EL. now rewrite <- V in EL.
  - exists (fresh x (S (len (vars g y))) (contents g y ++ v :: repeat 0 (length junk)) g). split; [apply GAppendNew; rewrite <- V; assumption|].
    rewrite <- V, <- (alike_contents s g y A F).
    apply alike_fresh; auto.
    + rewrite !app_length. cbn [length]. now rewrite repeat_length.
    + rewrite app_length, length_contents by assumption. cbn [length]. lia.
    + intros i I. destruct (Nat.eq_dec i (len (vars s y))) as [->|NE].
      * rewrite !app_nth2 by (rewrite length_contents by assumption; lia). now rewrite length_contents, Nat.sub_diag by assumption.
      * rewrite !app_nth1 by (rewrite length_contents by assumption; lia). reflexivity.
  - eexists. split; [apply GCopy|]. rewrite <- V. rewrite <- (alike_contents s g y A F).
    rewrite firstn_all2 by (rewrite length_contents by assumption; assumption).
    set (L := overwrite (contents s y) (array s (arr (vars s x)))). set (L' := overwrite (contents s y) (array g (arr (vars s x)))).
    assert (B1 : length (contents s y) <= length (array s (arr (vars s x)))) by (rewrite length_contents by assumption; destruct (F x); lia).
    assert (AS : alike (store (arr (vars s x)) L s) (store (arr (vars s x)) L' g)).
    { apply alike_store; auto.
      - unfold L, L'. rewrite !length_over; rewrite <- ?LA; auto.
      - unfold L. now rewrite length_over.
      - intros z i K I. unfold L, L'. rewrite !nth_over; [|rewrite <- LA; assumption|assumption].
        destruct (_ <? _); [reflexivity|]. specialize (EL z i I). unfold elem in EL. rewrite <- V, K in EL. exact EL. }
    destruct AS as (V' & O' & S0' & H' & LA' & EL'). unfold alike, print. cbn [vars out stopped heap] in *.
    split; [assumption|]. split; [cbn [out store]; rewrite O; reflexivity|]. split; [assumption|]. split; [assumption|]. split; [assumption|]. assumption.
  - cbn in NT. congruence.
  - eexists. split; [apply GClear|]. rewrite <- V.
    assert (B1 : length (repeat 0 (len (vars s x))) <= length (array s (arr (vars s x)))) by (rewrite repeat_length; destruct (F x); lia).
    apply alike_store; auto.
    + rewrite !length_over; rewrite <- ?LA; auto.
    + now rewrite length_over.
    + intros z i K I. rewrite !nth_over; [|rewrite <- LA; assumption|assumption].
      destruct (_ <? _); [reflexivity|]. specialize (EL z i I). unfold elem in EL. rewrite <- V, K in EL. exact EL.
  - rename H0 into R. apply in_range in R. eexists. split; [apply GElem; rewrite <- V; assumption|].
    unfold alike, print. cbn [vars out stopped heap]. rewrite O, (EL x (Z.to_nat i)) by lia.
    split; [assumption|]. split; [reflexivity|]. split; [assumption|]. split; [assumption|]. split; [assumption|]. assumption.
  - rename H0 into R. eexists. split; [apply GElemPanic; rewrite <- V; intro K; apply in_range in K; congruence|].
    unfold alike, stop. cbn [vars out stopped heap].
    split; [assumption|]. split; [assumption|]. split; [reflexivity|]. split; [assumption|]. split; [assumption|]. assumption.
  - eexists. split; [apply GLen|]. rewrite <- V. unfold alike, print. cbn [vars out stopped heap]. rewrite O.
    split; [assumption|]. split; [reflexivity|]. split; [assumption|]. split; [assumption|]. split; [assumption|]. assumption.
Qed.
Lemma alike_run : forall p s s' g, alike s g -> fits s -> made_empty p -> run (zig_step false) p s s' -> stopped s' <> Some TooLong ->
  exists g', run go_step p g g' /\ alike s' g'.
Proof.
  intros p s s' g A F M T. revert g A F M. induction T as [s|p s e E|c p s s1 s2 N T R IH]; intros g A F M NT.
  - exists g. split; [constructor|assumption].
  - exists g. split; [|assumption]. destruct A as (_ & _ & S0 & _). apply RStop with (e := e). now rewrite <- S0.
  - inversion M as [|c' p' M1 M2]; subst c' p'.
    assert (NT1 : stopped s1 <> Some TooLong).
    { intro K. apply NT. inversion R; subst; congruence. }
    destruct (alike_step c s s1 g A F M1 T NT1) as (g1 & G1 & A1).
    destruct (IH g1 A1 (fits_zig _ _ _ _ F T) M2 NT) as (g2 & G2 & A2).
    exists g2. split; [|assumption]. apply RStep with (s' := g1); [|assumption|assumption].
    destruct A as (_ & _ & S0 & _). now rewrite <- S0.
Qed.
(** If memory is never made longer in place, every run of the compiled program that does not
    copy to a slice that is too short is one Go allows: the same lines are printed and it ends
    in the same way. Slices may share arrays. make must have been asked for empty slices. *)
Theorem C153_moved_partial : forall p s, made_empty p -> run (zig_step false) p start s -> stopped s <> Some TooLong ->
  exists g, run go_step p start g /\ out g = out s /\ stopped g = stopped s.
Proof.
  intros p s M R NT.
  assert (A : alike start start) by (unfold alike; auto 10).
  destruct (alike_run p start s start A fits_start M R NT) as (g & G & (_ & O & S0 & _)). eauto.
Qed.

(** ** When nothing is shared *)
Definition separate (s : state) : Prop := forall x z, x <> z -> 0 < cap (vars s x) -> 0 < cap (vars s z) -> arr (vars s x) <> arr (vars s z).
Lemma contents_fresh : forall x n a s z, fits s -> contents (fresh x n a s) z = if z =? x then firstn n a else contents s z.
Proof.
  intros x n a s z F. unfold contents. rewrite array_fresh. cbn [vars fresh]. unfold bind. destruct (z =? x).
  - cbn [len arr]. now rewrite Nat.eqb_refl.
  - destruct (arr (vars s z) =? length (heap s)) eqn:K; [|reflexivity].
    apply Nat.eqb_eq in K. destruct (F z) as [F1 F2]. unfold array in *. rewrite nth_overflow in F2 by lia. cbn in F2.
    replace (len (vars s z)) with 0 by lia. reflexivity.
Qed.
Lemma contents_store : forall x a s z, fits s -> separate s -> (cap (vars s x) = 0 -> a = array s (arr (vars s x))) ->
  contents (store (arr (vars s x)) a s) z = if z =? x then firstn (len (vars s x)) a else contents s z.
Proof.
  intros x a s z F P CA. unfold contents. rewrite array_store. cbn [vars store]. destruct (F z) as [F1 F2]. destruct (z =? x) eqn:E.
  - apply Nat.eqb_eq in E. subst z. rewrite Nat.eqb_refl. cbn [andb]. destruct (arr (vars s x) <? length (heap s)) eqn:K; [reflexivity|].
    apply Nat.ltb_ge in K. assert (C : cap (vars s x) = 0).
    { destruct (cap (vars s x)) eqn:C; [reflexivity|]. pose proof (fits_heap s x F ltac:(lia)). lia. }
    replace (len (vars s x)) with 0 by lia. reflexivity.
  - apply Nat.eqb_neq in E. destruct ((arr (vars s z) =? arr (vars s x)) && (arr (vars s x) <? length (heap s))) eqn:K; [|reflexivity].
    apply andb_true_iff in K. destruct K as [K1 K2]. apply Nat.eqb_eq in K1.
    destruct (Nat.eq_dec (len (vars s z)) 0) as [Z|Z]; [now rewrite Z|].
    destruct (Nat.eq_dec (cap (vars s x)) 0) as [C|C].
    + rewrite (CA C), K1. reflexivity.
    + exfalso. apply (P z x E); lia.
Qed.
Lemma contents_assign : forall x v s z, contents (assign x v s) z = if z =? x then firstn (len v) (array s (arr v)) else contents s z.
Proof. intros. unfold contents, assign, array. cbn [vars heap]. unfold bind. destruct (z =? x); reflexivity. Qed.

Definition as_lists (s : state) (l : lists) : Prop :=
  fits s /\ separate s /\ (forall x, contents s x = list_of l x) /\ out s = printed l /\ stopped s = ended l.
Lemma separate_fresh : forall x n a s, fits s -> separate s -> separate (fresh x n a s).
Proof.
  intros x n a s F P y z N. cbn [vars fresh]. unfold bind. destruct (y =? x) eqn:Y, (z =? x) eqn:Z; cbn [cap arr]; intros C D.
  - apply Nat.eqb_eq in Y. apply Nat.eqb_eq in Z. congruence.
  - pose proof (fits_heap s z F D). lia.
  - pose proof (fits_heap s y F C). lia.
  - now apply P.
Qed.
Lemma separate_same : forall s t, separate s -> vars t = vars s -> separate t.
Proof. intros s t P V x z. rewrite V. apply P. Qed.
Lemma separate_own : forall x v s, separate s -> arr v = arr (vars s x) -> 0 < cap (vars s x) -> separate (assign x v s).
Proof.
  intros x v s P E C y z N. cbn [vars assign]. unfold bind. destruct (y =? x) eqn:Y, (z =? x) eqn:Z; cbn [cap arr]; intros C1 C2.
  - apply Nat.eqb_eq in Y. apply Nat.eqb_eq in Z. congruence.
  - apply Nat.eqb_eq in Y. subst y. rewrite E. now apply P.
  - apply Nat.eqb_eq in Z. subst z. rewrite E. now apply P.
  - now apply P.
Qed.

Lemma as_fresh : forall x n a s l, as_lists s l -> n <= length a -> as_lists (fresh x n a s) (with_list x (firstn n a) l).
Proof.
  intros x n a s l (F & P & C & O & S0) N. unfold as_lists. split; [now apply fits_fresh|]. split; [now apply separate_fresh|].
  split; [|split; assumption]. intro z. rewrite contents_fresh by assumption. cbn [list_of with_list]. rewrite C. reflexivity.
Qed.
(** the elements of x replaced *)
Lemma as_store : forall x a s l, as_lists s l -> length (array s (arr (vars s x))) <= length a ->
  (cap (vars s x) = 0 -> a = array s (arr (vars s x))) ->
  as_lists (store (arr (vars s x)) a s) (with_list x (firstn (len (vars s x)) a) l).
Proof.
  intros x a s l (F & P & C & O & S0) N CA. unfold as_lists. split; [now apply fits_store|].
  split; [now apply separate_same with (s := s)|]. split; [|split; assumption].
  intro z. rewrite contents_store by assumption. cbn [list_of with_list]. rewrite C. reflexivity.
Qed.
(** x made longer where it is *)
Lemma as_longer : forall x v a s l, as_lists s l -> 0 < cap (vars s x) -> arr v = arr (vars s x) -> len v <= cap v -> cap v <= length a ->
  length (array s (arr (vars s x))) <= length a ->
  as_lists (assign x v (store (arr (vars s x)) a s)) (with_list x (firstn (len v) a) l).
Proof.
  intros x v a s l (F & P & C & O & S0) CP E L1 L2 N. unfold as_lists.
  assert (R : arr (vars s x) <? length (heap s) = true) by (apply Nat.ltb_lt, fits_heap; assumption).
  split; [|split; [|split; [|split; assumption]]].
  - apply fits_assign; [now apply fits_store|assumption|]. rewrite E, array_store, Nat.eqb_refl, R. assumption.
  - apply separate_own; [now apply separate_same with (s := s)|assumption|assumption].
  - intro z. rewrite contents_assign, E, array_store, Nat.eqb_refl, R. cbn [andb list_of with_list].
    destruct (z =? x) eqn:Z; [reflexivity|]. rewrite contents_store, Z by (try assumption; lia). apply C.
Qed.
Lemma as_print : forall n s l, as_lists s l -> as_lists (print n s) (with_line n l).
Proof.
  intros n s l (F & P & C & O & S0). unfold as_lists. split; [now apply fits_same with (s := s)|].
  split; [now apply separate_same with (s := s)|]. split; [exact C|]. split; [|exact S0]. cbn. now rewrite O.
Qed.
Lemma as_len : forall s l x, as_lists s l -> len (vars s x) = length (list_of l x).
Proof. intros s l x (F & P & C & _). rewrite <- C. symmetry. now apply length_contents. Qed.
Lemma as_same_list : forall x s l m, as_lists s (with_list x m l) -> forall m', m = m' -> as_lists s (with_list x m' l).
Proof. intros. now subst. Qed.

Lemma first_set : forall n v (a : list nat), n < length a -> firstn (S n) (set_nth n v a) = firstn n a ++ [v].
Proof.
  induction n as [|n IH]; intros v [|y a] L; cbn [length] in L; try lia; cbn [set_nth firstn app]; [reflexivity|].
  f_equal. apply IH. lia.
Qed.
Lemma first_over : forall n new (a : list nat), length new <= n -> n <= length a ->
  firstn n (overwrite new a) = new ++ skipn (length new) (firstn n a).
Proof.
  intros n new a L N. unfold overwrite. rewrite firstn_app, firstn_all2 by assumption. f_equal.
  revert n a L N. induction new as [|y new IH]; intros n a L N; cbn [length skipn] in *; [now rewrite Nat.sub_0_r|].
  destruct n as [|n]; [lia|]. destruct a as [|z a]; cbn [length firstn] in *; [lia|]. apply IH; lia.
Qed.
Lemma first_app : forall (a b : list nat) n, n = length a -> firstn n (a ++ b) = a.
Proof. intros a b n ->. rewrite firstn_app, Nat.sub_diag, firstn_all. cbn. apply app_nil_r. Qed.
Lemma as_copied : forall x y s l, as_lists s l ->
  as_lists (store (arr (vars s x)) (overwrite (firstn (len (vars s x)) (contents s y)) (array s (arr (vars s x)))) s)
    (with_list x (firstn (Nat.min (length (list_of l x)) (length (list_of l y))) (list_of l y) ++
                  skipn (Nat.min (length (list_of l x)) (length (list_of l y))) (list_of l x)) l).
Proof.
  intros x y s l A. pose proof A as (F & P & C & _). destruct (F x) as [F1 F2].
  set (N := firstn (len (vars s x)) (contents s y)).
  assert (LN : length N = Nat.min (length (list_of l x)) (length (list_of l y))).
  { unfold N. rewrite firstn_length, <- !C, !length_contents by assumption. reflexivity. }
  apply as_same_list with (m := firstn (len (vars s x)) (overwrite N (array s (arr (vars s x))))).
  - apply as_store; [assumption| |].
    + rewrite length_over; [lia|]. unfold N. rewrite firstn_length. lia.
    + intro Z. unfold N. replace (len (vars s x)) with 0 by lia. reflexivity.
  - rewrite first_over; [|unfold N; rewrite firstn_length; lia|lia]. rewrite LN.
    change (firstn (len (vars s x)) (array s (arr (vars s x)))) with (contents s x). rewrite C. f_equal.
    unfold N. rewrite (as_len s l x A), C.
    destruct (Nat.le_ge_cases (length (list_of l x)) (length (list_of l y))).
    + now rewrite Nat.min_l by assumption.
    + rewrite Nat.min_r by assumption. rewrite !firstn_all2; [reflexivity|lia|lia].
Qed.
Lemma as_cleared : forall x s l, as_lists s l ->
  as_lists (store (arr (vars s x)) (overwrite (repeat 0 (len (vars s x))) (array s (arr (vars s x)))) s)
    (with_list x (repeat 0 (length (list_of l x))) l).
Proof.
  intros x s l A. pose proof A as (F & P & C & _). destruct (F x) as [F1 F2].
  apply as_same_list with (m := firstn (len (vars s x)) (overwrite (repeat 0 (len (vars s x))) (array s (arr (vars s x))))).
  - apply as_store; [assumption| |].
    + rewrite length_over; [lia|]. rewrite repeat_length. lia.
    + intro Z. replace (len (vars s x)) with 0 by lia. reflexivity.
  - rewrite <- (as_len s l x A). apply first_app. now rewrite repeat_length.
Qed.
Lemma as_elem : forall x i s l, as_lists s l -> (0 <= i < Z.of_nat (len (vars s x)))%Z ->
  as_lists (print (elem s x (Z.to_nat i)) s) (list_step (PrintElem x i) l).
Proof.
  intros x i s l A I. cbn [list_step]. assert (I0 : (i <? 0)%Z = false) by (apply Z.ltb_ge; lia). rewrite I0.
  rewrite (nth_error_nth' (list_of l x) 0) by (rewrite <- (as_len s l x A); lia).
  replace (nth (Z.to_nat i) (list_of l x) 0) with (elem s x (Z.to_nat i)); [now apply as_print|].
  destruct A as (F & P & C & _). rewrite <- C, nth_contents; [reflexivity|lia].
Qed.
Lemma as_stopped : forall x i s l, as_lists s l -> ~ (0 <= i < Z.of_nat (len (vars s x)))%Z ->
  as_lists (stop OutOfRange s) (list_step (PrintElem x i) l).
Proof.
  intros x i s l A I. cbn [list_step].
  assert (G : as_lists (stop OutOfRange s) {| list_of := list_of l; printed := printed l; ended := Some OutOfRange |}).
  { destruct A as (F & P & C & O & S0). unfold as_lists. split; [now apply fits_same with (s := s)|].
    split; [now apply separate_same with (s := s)|]. split; [exact C|]. split; [exact O|reflexivity]. }
  destruct (i <? 0)%Z eqn:I0; [exact G|]. apply Z.ltb_ge in I0.
  rewrite (proj2 (nth_error_None (list_of l x) (Z.to_nat i))); [exact G|]. rewrite <- (as_len s l x A). lia.
Qed.

Lemma as_go : forall c s s' l, as_lists s l -> own c -> go_step c s s' -> as_lists s' (list_step c l).
Proof.
  intros c s s' l A W T. pose proof A as (F & P & C & O & S0). inversion T; subst; cbn [own] in W; try contradiction; cbn [list_step].
  - apply as_same_list with (m := firstn (length vs) vs); [now apply as_fresh|apply firstn_all].
  - apply as_same_list with (m := firstn l0 (repeat 0 (l0 + c0))).
    + apply as_fresh; [assumption|]. rewrite repeat_length. lia.
    + rewrite repeat_app. apply first_app. now rewrite repeat_length.
  - subst y. destruct (F x) as [F1 F2].
    apply as_same_list with (m := firstn (S (len (vars s x))) (set_nth (len (vars s x)) v (array s (arr (vars s x))))).
    + apply as_longer; cbn [longer len cap arr]; rewrite ?length_set; auto; lia.
    + rewrite first_set by lia. f_equal. apply C.
  - subst y. apply as_same_list with (m := firstn (S (len (vars s x))) (contents s x ++ v :: repeat 0 spare)).
    + apply as_fresh; [assumption|]. rewrite app_length, length_contents by assumption. cbn [length]. lia.
    + rewrite <- C. change (v :: repeat 0 spare) with ([v] ++ repeat 0 spare). rewrite app_assoc. apply first_app.
      rewrite app_length, length_contents by assumption. cbn [length]. lia.
  - replace (Nat.min (len (vars s x)) (len (vars s y))) with (Nat.min (length (list_of l x)) (length (list_of l y))) by now rewrite !(as_len s l _ A).
    apply as_print. now apply as_copied.
  - now apply as_cleared.
  - now apply as_elem.
  - now apply as_stopped.
  - rewrite (as_len s l _ A). now apply as_print.
Qed.
Lemma as_zig : forall b c s s' l, as_lists s l -> own c -> empty_make c -> zig_step b c s s' -> stopped s' <> Some TooLong -> as_lists s' (list_step c l).
Proof.
  intros b c s s' l A W M T NT. pose proof A as (F & P & C & O & S0). inversion T; subst; cbn [own empty_make] in W, M; try contradiction; cbn [list_step].
  - apply as_same_list with (m := firstn (length vs) vs); [now apply as_fresh|apply firstn_all].
  - subst l0. apply as_same_list with (m := firstn 0 junk); [|reflexivity]. apply as_fresh; [assumption|lia].
  - subst y. destruct (F x) as [F1 F2].
    apply as_same_list with (m := firstn (S (len (vars s x))) (set_nth (len (vars s x)) v (array s (arr (vars s x))))).
    + apply as_longer; cbn [longer len cap arr]; rewrite ?length_set; auto; lia.
    + rewrite first_set by lia. f_equal. apply C.
  - subst y. apply as_same_list with (m := firstn (S (len (vars s x))) (contents s x ++ v :: junk)).
    + apply as_fresh; [assumption|]. rewrite app_length, length_contents by assumption. cbn [length]. lia.
    + rewrite <- C. change (v :: junk) with ([v] ++ junk). rewrite app_assoc. apply first_app.
      rewrite app_length, length_contents by assumption. cbn [length]. lia.
  - subst y. destruct (F x) as [F1 F2].
    apply as_same_list with (m := firstn (S (len (vars s x))) (array s (arr (vars s x)) ++ v :: junk)).
    + apply as_longer; cbn [len cap arr]; rewrite ?app_length; cbn [length]; auto; lia.
    + rewrite <- C. unfold contents. rewrite firstn_all2 with (n := len (vars s x)) by lia.
      change (v :: junk) with ([v] ++ junk). rewrite app_assoc. apply first_app. rewrite app_length. cbn [length]. lia.
  - replace (Nat.min (len (vars s x)) (len (vars s y))) with (Nat.min (length (list_of l x)) (length (list_of l y))) by now rewrite !(as_len s l _ A).
    apply as_print.
    rewrite <- (firstn_all2 (n := len (vars s x)) (contents s y)) by (rewrite length_contents by assumption; assumption).
    now apply as_copied.
  - now apply as_cleared.
  - apply as_elem; [assumption|]. now apply in_range.
  - apply as_stopped; [assumption|]. intro K. apply in_range in K. congruence.
  - rewrite (as_len s l _ A). now apply as_print.
Qed.
Lemma as_start : as_lists start no_lists.
Proof.
  unfold as_lists. split; [apply fits_start|]. split; [intros x z _ C; cbn in C; lia|]. split; [reflexivity|split; reflexivity].
Qed.
(** When variables share nothing, what Go prints is what lists give, whatever room append
    leaves; *)
Theorem C153_go_lists : forall p g, unshared p -> run go_step p start g ->
  out g = printed (list_run p no_lists) /\ stopped g = ended (list_run p no_lists).
Proof.
  intros p g U R.
  assert (A : as_lists g (list_run p no_lists)); [|destruct A as (_ & _ & _ & O & S0); split; assumption].
  pose proof as_start as A0. remember start as s eqn:Es. clear Es. remember no_lists as l eqn:El. clear El. revert l A0 U.
  induction R as [s|p s e E|c p s s1 s2 N T R IH]; intros l A0 U; cbn [list_run].
  - assumption.
  - destruct p as [|c p]; [assumption|]. cbn [list_run]. pose proof A0 as (_ & _ & _ & _ & S0). rewrite <- S0, E. assumption.
  - pose proof A0 as (_ & _ & _ & _ & S0). rewrite <- S0, N. inversion U as [|c' p' U1 U2]; subst c' p'.
    apply IH; [|assumption]. now apply as_go with (s := s).
Qed.
(** and so is what the compiled program prints, whether or not memory is made longer in
    place. *)
Theorem C153_zig_lists_partial : forall in_place p s, unshared p -> made_empty p -> run (zig_step in_place) p start s ->
  stopped s <> Some TooLong ->
  out s = printed (list_run p no_lists) /\ stopped s = ended (list_run p no_lists).
Proof.
  intros b p g U M R NT.
  assert (A : as_lists g (list_run p no_lists)); [|destruct A as (_ & _ & _ & O & S0); split; assumption].
  pose proof as_start as A0. remember start as s eqn:Es. clear Es. remember no_lists as l eqn:El. clear El. revert l A0 U M.
  induction R as [s|p s e E|c p s s1 s2 N T R IH]; intros l A0 U M; cbn [list_run].
  - assumption.
  - destruct p as [|c p]; [assumption|]. cbn [list_run]. pose proof A0 as (_ & _ & _ & _ & S0). rewrite <- S0, E. assumption.
  - pose proof A0 as (_ & _ & _ & _ & S0). rewrite <- S0, N. inversion U as [|c' p' U1 U2]; subst c' p'. inversion M as [|c' p' M1 M2]; subst c' p'.
    apply IH; [assumption| |assumption|assumption]. apply as_zig with (b := b) (s := s); auto.
    intro K. apply NT. inversion R; subst; congruence.
Qed.
(** So then the compiled program and Go agree, whatever either chooses. *)
Theorem C153_unshared_partial : forall in_place p s g, unshared p -> made_empty p ->
  run (zig_step in_place) p start s -> run go_step p start g -> stopped s <> Some TooLong ->
  out s = out g /\ stopped s = stopped g.
Proof.
  intros b p s g U M R G NT. destruct (C153_zig_lists_partial b p s U M R NT) as [O S0]. destruct (C153_go_lists p g U G) as [O' S0'].
  now rewrite O, S0, O', S0'.
Qed.

(** ** Where a compiled program differs *)
(** What make gives is whatever was in the memory; in Go it is zero. *)
Theorem C153_make_refuted : forall in_place v,
  (exists s, run (zig_step in_place) [Make 0 1 0; PrintElem 0 0] start s /\ out s = [v] /\ stopped s = None) /\
  (forall g, run go_step [Make 0 1 0; PrintElem 0 0] start g -> out g = [0]).
Proof.
  intros b v. split.
  - eexists. split; [|split].
    + eapply RStep; [reflexivity|apply ZMake with (junk := [v]); reflexivity|].
      eapply RStep; [reflexivity|apply ZElem; reflexivity|]. apply RDone.
    + reflexivity.
    + reflexivity.
  - intros g R. apply C153_go_lists in R; [exact (proj1 R)|]. unfold unshared. repeat constructor.
Qed.
(** Copying to a shorter slice ends the program; in Go it copies what there is room for. *)
Theorem C153_copy_refuted : forall in_place xs ys, length xs < length ys ->
  (forall s, run (zig_step in_place) [Literal 0 xs; Literal 1 ys; Copy 0 1] start s -> stopped s = Some TooLong /\ out s = []) /\
  (forall g, run go_step [Literal 0 xs; Literal 1 ys; Copy 0 1] start g -> out g = [length xs] /\ stopped g = None).
Proof.
  intros b xs ys L. split.
  - intros s R. inversion R as [|p0 s0 e E|c p0 s0 s1 s2 N T R1]; subst; [discriminate|]. inversion T; subst. clear T.
    inversion R1 as [|p0 s0 e E|c p0 s0 s1 s2 N1 T R2]; subst; [discriminate|]. inversion T; subst. clear T.
    inversion R2 as [|p0 s0 e E|c p0 s0 s1 s2 N2 T R3]; subst; [discriminate|].
    inversion T as [| | | | | |x y s0 B| x y s0 B| | | |]; subst; cbn in B; [lia|].
    inversion R3; subst; split; reflexivity.
  - intros g R. apply C153_go_lists in R; [|unfold unshared; repeat constructor].
    cbn [list_run list_step ended printed no_lists with_list with_line list_of Nat.eqb] in R. rewrite Nat.min_l in R by lia. exact R.
Qed.
(** A slice that append had to make a longer copy of can still share its elements with the
    one it was made from: what is done to that one shows in it. *)
Theorem C153_grown_in_place_refuted : forall v w,
  (exists s, run (zig_step true) [Literal 0 [v]; Append 1 0 w; Clear 0; PrintElem 1 0] start s /\ out s = [0] /\ stopped s = None) /\
  (forall g, run go_step [Literal 0 [v]; Append 1 0 w; Clear 0; PrintElem 1 0] start g -> out g = [v] /\ stopped g = None).
Proof.
  intros v w. split.
  - eexists. split; [|split].
    + eapply RStep; [reflexivity|apply ZLiteral|].
      eapply RStep; [reflexivity|apply ZAppendGrow with (junk := []); [reflexivity|reflexivity|cbn; lia|reflexivity|reflexivity]|].
      eapply RStep; [reflexivity|apply ZClear|].
      eapply RStep; [reflexivity|apply ZElem; reflexivity|]. apply RDone.
    + reflexivity.
    + reflexivity.
  - intros g R. inversion R as [|p0 s0 e E|c p0 s0 s1 s2 N T R1]; subst; [discriminate|]. inversion T; subst. clear T.
    inversion R1 as [|p0 s0 e E|c p0 s0 s1 s2 N1 T R2]; subst; [discriminate|].
    inversion T as [| | |x y v0 s0 B|x y v0 sp s0 B| | | | |]; subst; cbn in B; [lia|]. clear T.
    inversion R2 as [|p0 s0 e E|c p0 s0 s1 s2 N2 T R3]; subst; [discriminate|]. inversion T; subst. clear T.
    inversion R3 as [|p0 s0 e E|c p0 s0 s1 s2 N3 T R4]; subst; [discriminate|].
    inversion T as [| | | | | | |x i s0 I|x i s0 I|]; subst; cbn in I; [|lia].
    inversion R4; subst; split; reflexivity.
Qed.
(** That needs neither clear nor copy: appending to a shorter slice of the same array is
    enough. *)
Theorem C153_grown_in_place_append_refuted : forall u v w,
  (exists s, run (zig_step true) [Make 0 0 1; Append 1 0 u; Append 2 1 v; Append 3 0 w; PrintElem 2 0] start s /\ out s = [w] /\ stopped s = None) /\
  (forall g, run go_step [Make 0 0 1; Append 1 0 u; Append 2 1 v; Append 3 0 w; PrintElem 2 0] start g -> out g = [u] /\ stopped g = None).
Proof.
  intros u v w. split.
  - eexists. split; [|split].
    + eapply RStep; [reflexivity|apply ZMake with (junk := [7]); reflexivity|].
      eapply RStep; [reflexivity|apply ZAppendRoom; cbn; lia|].
      eapply RStep; [reflexivity|apply ZAppendGrow with (junk := []); [reflexivity|reflexivity|cbn; lia|reflexivity|reflexivity]|].
      eapply RStep; [reflexivity|apply ZAppendRoom; cbn; lia|].
      eapply RStep; [reflexivity|apply ZElem; reflexivity|]. apply RDone.
    + reflexivity.
    + reflexivity.
  - intros g R. inversion R as [|p0 s0 e E|c p0 s0 s1 s2 N T R1]; subst; [discriminate|]. inversion T; subst. clear T.
    inversion R1 as [|p0 s0 e E|c p0 s0 s1 s2 N1 T R2]; subst; [discriminate|].
    inversion T as [| | |x y v0 s0 B|x y v0 sp s0 B| | | | |]; subst; cbn in B; [|lia]. clear T.
    inversion R2 as [|p0 s0 e E|c p0 s0 s1 s2 N2 T R3]; subst; [discriminate|].
    inversion T as [| | |x y v0 s0 B2|x y v0 sp s0 B2| | | | |]; subst; cbn in B2; [lia|]. clear T.
    inversion R3 as [|p0 s0 e E|c p0 s0 s1 s2 N3 T R4]; subst; [discriminate|].
    inversion T as [| | |x y v0 s0 B3|x y v0 sp' s0 B3| | | | |]; subst; cbn in B3; [|lia]. clear T.
    inversion R4 as [|p0 s0 e E|c p0 s0 s1 s2 N4 T R5]; subst; [discriminate|].
    inversion T as [| | | | | | |x i s0 I|x i s0 I|]; subst; cbn in I; [|lia].
    inversion R5; subst; split; reflexivity.
Qed.
Theorem C153_full_refuted : ~ C153_full.
Proof.
  intro C. destruct (C153_grown_in_place_refuted 1 2) as [(s & R & O & _) G].
  destruct (C true _ s R) as (g & Rg & Og & _). destruct (G g Rg) as [E _]. rewrite Og, O in E. discriminate.
Qed.

(** Programs the theorems speak of: slices that share an array, and one that shares nothing. *)
Definition sharing : list stmt :=
  [Make 0 0 3; Append 1 0 5; Let 2 1; Append 3 1 6; Append 4 1 7; PrintElem 3 1; Clear 1; PrintElem 2 0; PrintLen 4].
Theorem C153_example : made_empty sharing /\ exists s, run (zig_step false) sharing start s /\ out s = [7; 0; 2] /\ stopped s = None.
Proof.
  split; [unfold made_empty; repeat constructor|]. eexists. split; [|split].
  - unfold sharing.
    eapply RStep; [reflexivity|apply ZMake with (junk := [9; 9; 9]); reflexivity|].
    eapply RStep; [reflexivity|apply ZAppendRoom; cbn; lia|].
    eapply RStep; [reflexivity|apply ZLet|].
    eapply RStep; [reflexivity|apply ZAppendRoom; cbn; lia|].
    eapply RStep; [reflexivity|apply ZAppendRoom; cbn; lia|].
    eapply RStep; [reflexivity|apply ZElem; reflexivity|].
    eapply RStep; [reflexivity|apply ZClear|].
    eapply RStep; [reflexivity|apply ZElem; reflexivity|].
    eapply RStep; [reflexivity|apply ZLen|]. apply RDone.
  - reflexivity.
  - reflexivity.
Qed.
Definition owning : list stmt :=
  [Literal 0 [1; 2]; Append 0 0 3; Literal 1 [8]; Copy 0 1; PrintElem 0 0; Clear 1; PrintElem 1 0; PrintElem 0 2; PrintElem 0 3; PrintLen 0].
Theorem C153_example_unshared : unshared owning /\ made_empty owning /\
  (exists s, run (zig_step true) owning start s /\ stopped s = Some OutOfRange) /\
  printed (list_run owning no_lists) = [1; 8; 0; 3] /\ ended (list_run owning no_lists) = Some OutOfRange.
Proof.
  split; [unfold unshared; repeat constructor|]. split; [unfold made_empty; repeat constructor|]. split; [|split; reflexivity].
  eexists. split.
  - unfold owning.
    eapply RStep; [reflexivity|apply ZLiteral|].
    eapply RStep; [reflexivity|apply ZAppendGrow with (junk := [4]); [reflexivity|reflexivity|cbn; lia|reflexivity|reflexivity]|].
    eapply RStep; [reflexivity|apply ZLiteral|].
    eapply RStep; [reflexivity|apply ZCopy; cbn; lia|].
    eapply RStep; [reflexivity|apply ZElem; reflexivity|].
    eapply RStep; [reflexivity|apply ZClear|].
    eapply RStep; [reflexivity|apply ZElem; reflexivity|].
    eapply RStep; [reflexivity|apply ZElem; reflexivity|].
    eapply RStep; [reflexivity|apply ZElemPanic; reflexivity|].
    eapply RStop. reflexivity.
  - reflexivity.
Qed.
Print Assumptions C153_moved_partial.
Print Assumptions C153_unshared_partial.
Print Assumptions C153_grown_in_place_append_refuted.
