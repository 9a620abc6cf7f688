(** * Arrays and slices of them in compiled programs (C159) *)
From Coq Require Import List Arith ZArith Bool Lia.
From Verif Require Import ZigSliceModel ZigSliceSpec ZigSlice ZigArrModel ZigArrSpec.
Import ListNotations.

(** The property: what a compiled program does with arrays and slices of them is something
    Go allows. *)
Definition C159_full : Prop := forall in_place k p s, Forall (typed k) p -> arun (zig_astep in_place) p start s ->
  exists g, arun go_astep p start g /\ out g = out s /\ stopped g = stopped s.

(** ** Room for what is there: a list without capacity as one that is full *)
Definition full (v : slice) : slice := {| arr := arr v; len := len v; cap := Nat.max (cap v) (len v) |}.
Definition lifts (s t : state) : Prop :=
  heap t = heap s /\ out t = out s /\ stopped t = stopped s /\ forall x, vars t x = full (vars s x).
Lemma lifts_contents : forall s t x, lifts s t -> contents t x = contents s x.
Proof. intros s t x (H & _ & _ & V). unfold contents, array. now rewrite H, V. Qed.
Lemma lifts_assign : forall x v s t, lifts s t -> lifts (assign x v s) (assign x (full v) t).
Proof.
  intros x v s t (H & O & S0 & V). unfold lifts, assign. cbn [heap out stopped vars].
  split; [assumption|]. split; [assumption|]. split; [assumption|]. intro y. unfold bind. destruct (y =? x); auto.
Qed.
Lemma lifts_fresh : forall x n l s t, lifts s t -> n <= length l -> lifts (fresh x n l s) (fresh x n l t).
Proof.
  intros x n l s t (H & O & S0 & V) L. unfold lifts, fresh. cbn [heap out stopped vars]. rewrite H.
  split; [reflexivity|]. split; [assumption|]. split; [assumption|]. intro y. unfold bind. destruct (y =? x); [|auto].
  unfold full. cbn [arr len cap]. f_equal. lia.
Qed.
Lemma lifts_store : forall a l s t, lifts s t -> lifts (store a l s) (store a l t).
Proof.
  intros a l s t (H & O & S0 & V). unfold lifts, store. cbn [heap out stopped vars]. rewrite H. auto.
Qed.
Lemma lifts_print : forall n s t, lifts s t -> lifts (print n s) (print n t).
Proof. intros n s t (H & O & S0 & V). unfold lifts, print. cbn [heap out stopped vars]. rewrite O. auto. Qed.
Lemma lifts_stop : forall e s t, lifts s t -> lifts (stop e s) (stop e t).
Proof. intros e s t (H & O & S0 & V). unfold lifts, stop. cbn [heap out stopped vars]. auto. Qed.

Lemma lifts_one : forall c s s' t, lifts s t -> fits t -> zig_astep false (One c) s s' -> exists t', zig_step false c t t' /\ lifts s' t'.
Proof.
  intros c s s' t L F T. pose proof L as (H & O & S0 & V).
  assert (N : forall x, len (vars s x) = len (vars t x)) by (intro; now rewrite V).
  assert (A : forall x, arr (vars s x) = arr (vars t x)) by (intro; now rewrite V).
  assert (B : forall a, array s a = array t a) by (intro; unfold array; now rewrite H).
  assert (C : forall x, contents s x = contents t x) by (intro; symmetry; now apply lifts_contents).
  inversion T as [c0 s0 s0' K|x y v junk s0 K| | | | |]; subst.
  - inversion K; subst; try discriminate.
    + eexists. split; [apply ZLiteral|]. now apply lifts_fresh.
    + eexists. split; [eapply ZMake; eassumption|]. apply lifts_fresh; [assumption|lia].
    + exists (assign x (vars t y) t). split; [apply ZLet|]. rewrite V. now apply lifts_assign.
    + assert (R : len (vars t y) < cap (vars t y)) by (rewrite V; cbn; lia).
      eexists. split; [now apply ZAppendRoom|]. rewrite N, A, B.
      match goal with |- lifts (assign x ?v ?z) (assign x ?w ?z') => replace w with (full v) end.
      * apply lifts_assign, lifts_store, L.
      * rewrite V. unfold full, longer. cbn. f_equal. lia.
    + rename H0 into E0. assert (R : len (vars t y) = cap (vars t y)) by (rewrite V; cbn; lia).
      eexists. split; [apply (ZAppendNew false x y v junk t R)|]. rewrite N, C. apply lifts_fresh; [assumption|].
      rewrite app_length. cbn [length]. rewrite length_contents by assumption. lia.
    + rename H0 into E0. eexists. split; [apply ZCopy; now rewrite <- !N|]. rewrite !N, A, B, C. now apply lifts_print, lifts_store.
    + rename H0 into E0. eexists. split; [apply ZCopyPanic; now rewrite <- !N|]. now apply lifts_stop.
    + eexists. split; [apply ZClear|]. rewrite N, A, B. now apply lifts_store.
    + rename H0 into E0. rewrite N in E0. eexists. split; [apply ZElem; eassumption|]. unfold elem. rewrite A, B. now apply lifts_print.
    + rename H0 into E0. rewrite N in E0. eexists. split; [apply ZElemPanic; eassumption|]. now apply lifts_stop.
    + eexists. split; [apply ZLen|]. rewrite N. now apply lifts_print.
  - assert (R : len (vars t y) = cap (vars t y)) by (rewrite V; cbn; lia).
    eexists. split; [apply (ZAppendNew false x y v junk t R)|]. rewrite N, C. apply lifts_fresh; [assumption|].
    rewrite app_length. cbn [length]. rewrite length_contents by assumption. lia.
Qed.

(** ** Room that nobody appends to *)
Section Grows.
Variable k : kinds.
Variable grows : nat -> bool.
Definition roomy (t g : state) : Prop :=
  heap g = heap t /\ out g = out t /\ stopped g = stopped t /\
  (forall x, arr (vars g x) = arr (vars t x) /\ len (vars g x) = len (vars t x)) /\
  (forall x, grows x = true -> vars g x = vars t x).
Lemma roomy_assign : forall x v w t g, roomy t g -> arr w = arr v -> len w = len v -> (grows x = true -> w = v) ->
  roomy (assign x v t) (assign x w g).
Proof.
  intros x v w t g (H & O & S0 & V & E) A N W. unfold roomy, assign. cbn [heap out stopped vars].
  split; [assumption|]. split; [assumption|]. split; [assumption|]. unfold bind. split; intro y.
  - destruct (y =? x); auto.
  - intro G. destruct (y =? x) eqn:Y; [|auto]. apply Nat.eqb_eq in Y. subst y. auto.
Qed.
Lemma roomy_fresh : forall x n l t g, roomy t g -> roomy (fresh x n l t) (fresh x n l g).
Proof.
  intros x n l t g (H & O & S0 & V & E). unfold roomy, fresh. cbn [heap out stopped vars]. rewrite H.
  split; [reflexivity|]. split; [assumption|]. split; [assumption|]. unfold bind. split; intro y; destruct (y =? x); auto.
Qed.
Lemma roomy_store : forall a l t g, roomy t g -> roomy (store a l t) (store a l g).
Proof.
  intros a l t g (H & O & S0 & V & E). unfold roomy, store. cbn [heap out stopped vars]. rewrite H.
  split; [reflexivity|]. split; [assumption|]. split; [assumption|]. split; assumption.
Qed.
Lemma roomy_print : forall n t g, roomy t g -> roomy (print n t) (print n g).
Proof.
  intros n t g (H & O & S0 & V & E). unfold roomy, print. cbn [heap out stopped vars]. rewrite O.
  split; [assumption|]. split; [reflexivity|]. split; [assumption|]. split; assumption.
Qed.
Lemma roomy_stop : forall e t g, roomy t g -> roomy (stop e t) (stop e g).
Proof.
  intros e t g (H & O & S0 & V & E). unfold roomy, stop. cbn [heap out stopped vars].
  split; [assumption|]. split; [assumption|]. split; [reflexivity|]. split; assumption.
Qed.
Lemma roomy_one : forall c t t' g, roomy t g -> grown_whole k grows (One c) -> go_step c t t' -> exists g', go_step c g g' /\ roomy t' g'.
Proof.
  intros c t t' g L G T. pose proof L as (H & O & S0 & V & E).
  assert (N : forall x, len (vars g x) = len (vars t x)) by (intro; apply V).
  assert (A : forall x, arr (vars g x) = arr (vars t x)) by (intro; apply V).
  assert (B : forall a, array g a = array t a) by (intro; unfold array; now rewrite H).
  assert (C : forall x, contents g x = contents t x) by (intro; unfold contents; now rewrite N, A, B).
  inversion T; subst; cbn in G.
  - eexists. split; [apply GLiteral|]. now apply roomy_fresh.
  - eexists. split; [apply GMake|]. now apply roomy_fresh.
  - eexists. split; [apply GLet|]. apply roomy_assign; auto.
  - eexists. split; [apply GAppendRoom; now rewrite E|]. rewrite N, A, B, E by assumption. apply roomy_assign; auto. now apply roomy_store.
  - eexists. split; [apply (GAppendNew x y v spare g); now rewrite E|]. rewrite N, C. now apply roomy_fresh.
  - eexists. split; [apply GCopy|]. rewrite !N, A, B, C. now apply roomy_print, roomy_store.
  - eexists. split; [apply GClear|]. rewrite N, A, B. now apply roomy_store.
  - rename H0 into R. rewrite <- N in R. eexists. split; [apply GElem; exact R|]. unfold elem. rewrite A, B. now apply roomy_print.
  - rename H0 into R. rewrite <- N in R. eexists. split; [apply GElemPanic; exact R|]. now apply roomy_stop.
  - eexists. split; [apply GLen|]. rewrite N. now apply roomy_print.
Qed.

(** ** Arrays have the length they have *)
Definition sized (s : state) : Prop := forall a n, k a = Some n -> len (vars s a) = n \/ len (vars s a) = 0.
Lemma sized_step : forall c s s', sized s -> typed k c -> zig_astep false c s s' -> sized s'.
Proof.
  intros c s s' Z T R a n K. specialize (Z a n K).
  assert (X : forall x v z, k x = None -> len (vars z a) = len (vars s a) -> len (vars (assign x v z) a) = n \/ len (vars (assign x v z) a) = 0).
  { intros x v z Kx Q. cbn [vars assign]. unfold bind. destruct (a =? x) eqn:Y; [apply Nat.eqb_eq in Y; congruence|]. now rewrite Q. }
  assert (Y : forall x m l, k x = None -> len (vars (fresh x m l s) a) = n \/ len (vars (fresh x m l s) a) = 0).
  { intros x m l Kx. cbn [vars fresh]. unfold bind. destruct (a =? x) eqn:Y; [apply Nat.eqb_eq in Y; congruence|]. assumption. }
  inversion R as [c0 s0 s0' Q|x y v junk s0 Q|b vs s0| | |x b hi s0 Q|]; subst; cbn in T.
  - inversion Q; subst; cbn in T; try (apply X; tauto); try (apply Y; tauto); try assumption.
  - apply Y. tauto.
  - cbn [vars fresh]. unfold bind. destruct (a =? b) eqn:E; [|assumption]. apply Nat.eqb_eq in E. subst b. left. cbn. congruence.
  - assumption.
  - assumption.
  - apply X; tauto.
  - assumption.
Qed.

(** ** The simulation *)
Definition same (s g : state) : Prop := exists t u, lifts s t /\ fits t /\ alike t u /\ roomy u g.
Lemma same_step : forall c s s' g, same s g -> sized s -> typed k c -> grown_whole k grows c -> makes_empty c ->
  zig_astep false c s s' -> stopped s' <> Some TooLong -> exists g', go_astep c g g' /\ same s' g'.
Proof.
  intros c s s' g (t & u & L & F & A & R) Z T G M Q NT.
  destruct c as [c|a vs|a i v|a i|x a hi].
  - destruct (lifts_one c s s' t L F Q) as (t' & Q1 & L1).
    assert (M1 : empty_make c) by (destruct c; exact M).
    assert (NT1 : stopped t' <> Some TooLong) by (destruct L1 as (_ & _ & S1 & _); now rewrite S1).
    destruct (alike_step c t t' u A F M1 Q1 NT1) as (u' & Q2 & A1).
    destruct (roomy_one c u u' g R G Q2) as (g' & Q3 & R1).
    exists g'. split; [now apply GOne|]. exists t', u'. split; [assumption|]. split; [exact (fits_zig _ _ _ _ F Q1)|]. split; assumption.
  - inversion Q; subst. eexists. split; [apply GDecl|]. exists (fresh a (length vs) vs t), (fresh a (length vs) vs u).
    split; [now apply lifts_fresh|]. split; [now apply fits_fresh|]. split; [now apply alike_fresh|now apply roomy_fresh].
  - inversion Q as [| | |a0 i0 v0 s0 I| | |]; subst. pose proof L as (H & _ & _ & V). pose proof A as (VA & _ & _ & HA & LA & EL). pose proof R as (HR & _ & _ & VR & _).
    assert (E0 : len (vars g a) = len (vars s a)) by (destruct (VR a) as [_ VR2]; now rewrite VR2, <- VA, V).
    eexists. split; [apply GPut; now rewrite E0|].
    exists (placed a i v t), (placed a i v u). unfold placed.
    assert (E1 : arr (vars t a) = arr (vars s a)) by now rewrite V.
    assert (E2 : array t (arr (vars s a)) = array s (arr (vars s a))) by (unfold array; now rewrite H).
    split; [rewrite E1, E2; now apply lifts_store|].
    split; [apply fits_store; [assumption|rewrite length_set; lia]|].
    split.
    + rewrite <- VA. apply alike_store; [assumption| | |].
      * now rewrite !length_set, LA.
      * now rewrite length_set.
      * intros x j K J. rewrite !nth_set, <- LA. destruct (_ && _); [reflexivity|]. specialize (EL x j J). unfold elem in EL. rewrite <- VA, K in EL. exact EL.
    + destruct (VR a) as [VR1 _]. rewrite VR1. replace (array g (arr (vars u a))) with (array u (arr (vars u a))) by (unfold array; now rewrite HR). now apply roomy_store.
  - inversion Q; subst. pose proof L as (H & _ & _ & V). pose proof A as (VA & OA & SA & HA & LA & EL). pose proof R as (HR & _ & _ & VR & _).
    assert (E0 : len (vars g a) = len (vars s a)) by (destruct (VR a) as [_ VR2]; now rewrite VR2, <- VA, V).
    assert (E1 : elem t a i = elem s a i) by (unfold elem, array; now rewrite V, H).
    assert (E2 : elem t a i = elem u a i) by (apply EL; now rewrite V).
    assert (E3 : elem g a i = elem u a i) by (unfold elem, array; destruct (VR a) as [VR1 _]; now rewrite VR1, HR).
    eexists. split; [apply GAt; now rewrite E0|]. exists (print (elem s a i) t), (print (elem s a i) u).
    split; [now apply lifts_print|]. split; [now apply fits_same with (s := t)|]. split.
    + unfold alike, print. cbn [vars out stopped heap]. rewrite OA. split; [assumption|]. split; [reflexivity|]. split; [assumption|]. split; [assumption|]. split; assumption.
    + rewrite E3, <- E2, E1. now apply roomy_print.
  - pose proof L as (H & O & S0 & V). pose proof A as (VA & OA & SA & HA & LA & EL). pose proof R as (HR & _ & _ & VR & _).
    assert (E0 : len (vars g a) = len (vars s a)) by (destruct (VR a) as [_ VR2]; now rewrite VR2, <- VA, V).
    assert (E1 : arr (vars g a) = arr (vars t a)) by (destruct (VR a) as [VR1 _]; now rewrite VR1, <- VA).
    assert (E2 : arr (vars t a) = arr (vars s a)) by now rewrite V.
    inversion Q as [| | | | |x0 a0 hi0 s0 B|x0 a0 hi0 s0 B]; subst.
    + rewrite orb_false_iff, Z.ltb_ge, Z.ltb_ge in B.
      eexists. split; [apply GCut; rewrite E0; exact B|]. rewrite E0, E1, <- E2.
      set (w := {| arr := arr (vars t a); len := Z.to_nat hi; cap := Z.to_nat hi |}).
      exists (assign x w t), (assign x w u). split; [|split; [|split]].
      * replace w with (full {| arr := arr (vars t a); len := Z.to_nat hi; cap := 0 |}) by reflexivity. now apply lifts_assign.
      * apply fits_assign; [assumption|reflexivity|]. destruct (F a) as [F1 F2]. rewrite V in F1, F2 at 1. cbn in *. lia.
      * apply alike_assign; [assumption|]. cbn [len arr w]. intros i I. assert (J : i < len (vars t a)) by (rewrite V; cbn; lia).
        specialize (EL a i J). unfold elem in EL. now rewrite <- VA in EL.
      * apply roomy_assign; [assumption|reflexivity|reflexivity|]. intro Gx. cbn in G, T. destruct T as (_ & m & Km). destruct (G Gx) as (n & Kn & Hn).
        assert (m = n) by congruence. subst m. unfold w. f_equal. destruct (Z a n Kn) as [Z1|Z1]; rewrite Z1 in *; lia.
    + eexists. split; [apply GCutPanic; rewrite E0; intro K|].
      * rewrite orb_true_iff, Z.ltb_lt, Z.ltb_lt in B. lia.
      * exists (stop OutOfRange t), (stop OutOfRange u). split; [now apply lifts_stop|]. split; [now apply fits_same with (s := t)|]. split; [|now apply roomy_stop].
        unfold alike, stop. cbn [vars out stopped heap]. split; [assumption|]. split; [assumption|]. split; [reflexivity|]. split; [assumption|]. split; assumption.
Qed.
Lemma same_run : forall p s s' g, same s g -> sized s -> Forall (typed k) p -> Forall (grown_whole k grows) p -> Forall makes_empty p ->
  arun (zig_astep false) p s s' -> stopped s' <> Some TooLong -> exists g', arun go_astep p g g' /\ same s' g'.
Proof.
  intros p s s' g A Z T G M Q. revert g A Z T G M. induction Q as [s|p s e E|c p s s1 s2 N Q R IH]; intros g A Z T G M NT.
  - exists g. split; [constructor|assumption].
  - exists g. split; [|assumption]. destruct A as (t & u & (_ & _ & S1 & _) & _ & (_ & _ & S2 & _) & (_ & _ & S3 & _)). apply AStop with (e := e). congruence.
  - inversion T; inversion G; inversion M; subst.
    assert (NT1 : stopped s1 <> Some TooLong) by (intro K; apply NT; inversion R; subst; congruence).
    destruct (same_step c s s1 g) as (g1 & G1 & A1); try assumption.
    destruct (IH g1) as (g2 & G2 & A2); try assumption.
    { now apply sized_step with (c := c) (s := s). }
    exists g2. split; [|assumption]. apply AStep with (s' := g1); [|assumption|assumption].
    destruct A as (t & u & (_ & _ & S1 & _) & _ & (_ & _ & S2 & _) & (_ & _ & S3 & _)). congruence.
Qed.
End Grows.
(** Where append is only given slices that are not the beginning of a longer array, what is
    compiled does what Go does: slices and their arrays see each other's changes. (The same is
    asked of make and copy as in C153.) *)
Theorem C159_whole_partial : forall k grows p s, Forall (typed k) p -> Forall (grown_whole k grows) p -> Forall makes_empty p ->
  arun (zig_astep false) p start s -> stopped s <> Some TooLong ->
  exists g, arun go_astep p start g /\ out g = out s /\ stopped g = stopped s.
Proof.
  intros k grows p s T G M R NT.
  destruct (same_run k grows p start s start) as (g & Rg & (t & u & (_ & O1 & S1 & _) & _ & (_ & O2 & S2 & _) & (_ & O3 & S3 & _))); try assumption.
  - exists start, start. split; [|split; [exact fits_start|split]].
    + unfold lifts. auto.
    + unfold alike. auto 10.
    + unfold roomy. auto 10.
  - intros a n _. right. reflexivity.
  - exists g. split; [assumption|]. split; congruence.
Qed.

(** ** Where it does not: append to the beginning of an array. In Go it is the next element
    of the array that is changed; compiled, the array stays as it is. *)
Definition beginning (vs : list nat) (hi w : nat) : list astmt :=
  [Decl 0 vs; Cut 1 0 (Z.of_nat hi); One (Append 1 1 w); At 0 hi].
Lemma beginning_zig : forall in_place vs hi w s, hi < length vs -> arun (zig_astep in_place) (beginning vs hi w) start s ->
  out s = [nth hi vs 0] /\ stopped s = None.
Proof.
  intros b vs hi w s L R. unfold beginning in R.
  inversion R as [| |c p s0 s1 s0' N1 T1 R1]; subst; [discriminate|]. inversion T1; subst. clear R T1 N1.
  inversion R1 as [| |c p s0 s2 s0' N2 T2 R2]; subst; [discriminate|]. clear R1 N2.
  inversion T2 as [| | | | |x a z s0 B|x a z s0 B]; subst; clear T2.
  2:{ exfalso. cbn [vars fresh ZigSliceModel.bind Nat.eqb len] in B. rewrite orb_true_iff, Z.ltb_lt, Z.ltb_lt in B. lia. }
  inversion R2 as [| |c p s0 s3 s0' N3 T3 R3]; subst; [discriminate|]. clear R2 N3.
  assert (X : exists l m, s3 = fresh 1 m l (assign 1 {| arr := 0; len := hi; cap := 0 |} (fresh 0 (length vs) vs start))).
  { inversion T3 as [c s0 s0' K|x y v junk s0 K| | | | |]; subst.
    - inversion K as [| | |x y v s0 C|x y v junk s0 C|x y v junk s0 _ C D| | | | | |]; subst; cbn in C; try lia.
      + rewrite Nat2Z.id in *. cbn. eauto.
      + cbn in D. lia.
    - rewrite Nat2Z.id in *. cbn. eauto. }
  destruct X as (l & m & ->).
  inversion R3 as [| |c p s0 s4 s0' N4 T4 R4]; subst; [discriminate|]. clear R3 N4.
  inversion T4; subst. clear T4.
  inversion R4 as [s0|p s0 e E|]; subst; [|discriminate]. split; [|reflexivity].
  cbn. reflexivity.
Qed.
Lemma beginning_go : forall vs hi w g, hi < length vs -> arun go_astep (beginning vs hi w) start g -> out g = [w] /\ stopped g = None.
Proof.
  intros vs hi w s L R. unfold beginning in R.
  inversion R as [| |c p s0 s1 s0' N1 T1 R1]; subst; [discriminate|]. inversion T1; subst. clear R T1 N1.
  inversion R1 as [| |c p s0 s2 s0' N2 T2 R2]; subst; [discriminate|]. clear R1 N2.
  inversion T2 as [| | | |x a z s0 B|x a z s0 B]; subst; clear T2.
  2:{ exfalso. cbn [vars fresh ZigSliceModel.bind Nat.eqb len] in B. lia. }
  inversion R2 as [| |c p s0 s3 s0' N3 T3 R3]; subst; [discriminate|]. clear R2 N3.
  inversion T3 as [c s0 s0' K| | | | |]; subst; clear T3.
  inversion K as [| | |x y v s0 C|x y v spare s0 C| | | | |]; subst; cbn in C; rewrite Nat2Z.id in *; [|lia].
  inversion R3 as [| |c p s0 s4 s0' N4 T4 R4]; subst; [discriminate|]. clear R3 N4.
  inversion T4; subst. clear T4.
  inversion R4 as [s0|p s0 e E|]; subst; [|discriminate]. split; [|reflexivity].
  cbn. rewrite nth_set, Nat.eqb_refl. cbn [andb]. now rewrite (proj2 (Nat.ltb_lt _ _) L).
Qed.
Theorem C159_append_refuted : forall in_place vs hi w, hi < length vs ->
  (exists s, arun (zig_astep in_place) (beginning vs hi w) start s /\ stopped s = None) /\
  (forall s, arun (zig_astep in_place) (beginning vs hi w) start s -> out s = [nth hi vs 0]) /\
  (forall g, arun go_astep (beginning vs hi w) start g -> out g = [w]).
Proof.
  intros b vs hi w L. split; [|split].
  - eexists. split.
    + eapply AStep; [reflexivity|apply ZDecl|].
      eapply AStep; [reflexivity|apply ZCut; cbn; rewrite orb_false_iff, Z.ltb_ge, Z.ltb_ge; lia|].
      eapply AStep; [reflexivity| |].
      { instantiate (1 := fresh 1 (S hi) (firstn hi vs ++ [w]) (assign 1 {| arr := 0; len := hi; cap := 0 |} (fresh 0 (length vs) vs start))).
        cbn [vars fresh ZigSliceModel.bind Nat.eqb arr heap start length]. rewrite Nat2Z.id.
        destruct (Nat.eq_dec hi 0) as [->|NE].
        - apply ZOne. exact (ZAppendNew b 1 1 w [] (assign 1 {| arr := 0; len := 0; cap := 0 |} (fresh 0 (length vs) vs start)) eq_refl).
        - refine (ZOver b 1 1 w [] (assign 1 {| arr := 0; len := hi; cap := 0 |} (fresh 0 (length vs) vs start)) _). cbn. lia. }
      eapply AStep; [reflexivity|apply ZAt; cbn; assumption|apply ADone].
    + reflexivity.
  - intros s R. now apply (beginning_zig b vs hi w).
  - intros g R. now apply (beginning_go vs hi w).
Qed.
Theorem C159_full_refuted : ~ C159_full.
Proof.
  intro F. destruct (C159_append_refuted false [5; 6] 1 9 ltac:(cbn; lia)) as ((s & R & S0) & Z & G).
  destruct (F false (fun x => if x =? 0 then Some 2 else None) (beginning [5; 6] 1 9) s) as (g & Rg & Og & _).
  - repeat constructor; cbn; eauto.
  - exact R.
  - rewrite (G g Rg), (Z s R) in Og. discriminate.
Qed.

(** [a := [2]int{5, 6}; p := &a; x = p[0:2]; a[0] = 7; println(x[0]); x = append(x, 8);
    y = p[0:1]; clear(y); println(a[0]); println(len(x)); y = p[0:3]]: the last one panics. *)
Definition example : list astmt :=
  [Decl 0 [5; 6]; Cut 1 0 2; Put 0 0 7; One (PrintElem 1 0); One (Append 1 1 8); Cut 2 0 1; One (Clear 2); At 0 0; One (PrintLen 1); Cut 2 0 3].
Theorem C159_example : Forall (typed (fun x => if x =? 0 then Some 2 else None)) example /\
  Forall (grown_whole (fun x => if x =? 0 then Some 2 else None) (fun x => x =? 1)) example /\ Forall makes_empty example /\
  exists s, arun (zig_astep false) example start s /\ out s = [7; 0; 3] /\ stopped s = Some OutOfRange.
Proof.
  split; [|split; [|split]].
  - unfold example. repeat (apply Forall_cons; [cbn; eauto|]). apply Forall_nil.
  - unfold example. repeat (apply Forall_cons; [cbn; first [exact I|reflexivity|discriminate|intros _; exists 2; split; reflexivity]|]). apply Forall_nil.
  - unfold example. repeat (apply Forall_cons; [exact I|]). apply Forall_nil.
  - eexists. split; [|split].
    + unfold example.
      eapply AStep; [reflexivity|apply ZDecl|].
      eapply AStep; [reflexivity|apply ZCut; reflexivity|].
      eapply AStep; [reflexivity|apply ZPut; cbn; lia|].
      eapply AStep; [reflexivity|apply ZOne, ZElem; reflexivity|].
      eapply AStep; [reflexivity|apply (ZOver false 1 1 8 []); cbn; lia|].
      eapply AStep; [reflexivity|apply ZCut; reflexivity|].
      eapply AStep; [reflexivity|apply ZOne, ZClear|].
      eapply AStep; [reflexivity|apply ZAt; cbn; lia|].
      eapply AStep; [reflexivity|apply ZOne, ZLen|].
      eapply AStep; [reflexivity|apply ZCutPanic; reflexivity|].
      apply ADone.
    + reflexivity.
    + reflexivity.
Qed.
