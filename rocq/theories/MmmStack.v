(** Proofs about newest-first histories (C19). *)
From Verif Require Import BaseLemmas MmmModel MmmSpec MmmProofs.
From Coq Require Import Permutation.
Arguments Z.add : simpl never.

Definition blockOf (p : ptr) : nat := match p with Some (_, b) => b | None => O end.
Definition owned (o : lifetime * list (ptr * Z)) : list nat := lroot (fst o) :: map (fun e => blockOf (fst e)) (snd o).
Definition everything (s : state) (open : list (lifetime * list (ptr * Z))) : list nat :=
  pool s ++ roots s ++ concat (map owned open).

(* the live block x of pointer p *)
Definition live (s : state) (r x : nat) (p : ptr) (v : Z) : Prop :=
  exists prev, p = Some (prev, x) /\ 0 <= prev < maxRevision /\
    prv (heap s x) = r /\ api (heap s x) <> O /\ cb (heap s x) = UserFree /\ raw (heap s x) = v /\
    (rev (heap s x) = prev \/ rev (heap s x) = prev + 2^63).
Fixpoint seg (s : state) (r x : nat) (st : list (ptr * Z)) : Prop :=
  match st with
  | [] => x = r
  | (p, v) :: st => live s r x p v /\ seg s r (nxt (heap s x)) st
  end.
Definition chain (s : state) (o : lifetime * list (ptr * Z)) : Prop :=
  let r := lroot (fst o) in
  prv (heap s r) = r /\ api (heap s r) = O /\ rev (heap s r) = lrev (fst o) /\ 0 <= lrev (fst o) < maxRevision /\
  seg s r (nxt (heap s r)) (snd o).
Record DInv (s : state) (open : list (lifetime * list (ptr * Z))) : Prop := {
  d_fresh : (1 <= fresh s)%nat;
  d_nodup : NoDup (everything s open);
  d_bound : forall x, In x (everything s open) -> (x < fresh s)%nat;
  d_pool : forall x, In x (pool s) -> 0 <= rev (heap s x) < maxRevision;
  d_roots : forall x, In x (roots s) -> prv (heap s x) = x /\ nxt (heap s x) = x /\ api (heap s x) = O /\ 0 <= rev (heap s x) < maxRevision;
  d_open : forall o, In o open -> chain s o }.

Lemma seg_in s r x st p v : seg s r x st -> In (p, v) st -> live s r (blockOf p) p v.
Proof.
  revert x. induction st as [|[q w] st IH]; intros x H Hin; [contradiction|]. destruct H as [H1 H2].
  destruct Hin as [E|Hin]; [injection E as -> ->|eapply IH; eauto].
  destruct H1 as (prev & -> & H1). exists prev. auto.
Qed.
Lemma seg_frame s s' r x st : seg s r x st -> (forall b, In b (map (fun e => blockOf (fst e)) st) -> heap s' b = heap s b) -> seg s' r x st.
Proof.
  revert x. induction st as [|[q w] st IH]; intros x H F; [exact H|]. destruct H as [H1 H2].
  destruct H1 as (prev & -> & H1). cbn in F.
  assert (Hx : heap s' x = heap s x) by (apply F; left; reflexivity).
  split; [exists prev; rewrite Hx; auto|]. rewrite Hx. apply IH; [exact H2|]. intros b Hb. apply F. right. exact Hb.
Qed.
Lemma chain_frame s s' o : chain s o -> (forall b, In b (owned o) -> heap s' b = heap s b) -> chain s' o.
Proof.
  intros (H1 & H2 & H3 & H4 & H5) F. unfold chain. rewrite (F (lroot (fst o))) by (left; reflexivity).
  repeat (split; [assumption|]). eapply seg_frame; [exact H5|]. intros b Hb. apply F. right. exact Hb.
Qed.
Lemma owned_in open o b : In o open -> In b (owned o) -> In b (concat (map owned open)).
Proof. intros H1 H2. apply in_concat. exists (owned o). split; [apply in_map; exact H1|exact H2]. Qed.

(** Live pointers can be read. *)
Lemma low_pin z : 0 <= z < maxRevision -> low z = z /\ low (z + 2^63) = z.
Proof. unfold low, maxRevision. lia. Qed.
Lemma live_matches s r x prev v : live s r x (Some (prev, x)) v -> matches (rev (heap s x)) prev = true.
Proof.
  intros (q & E & Hq & _ & _ & _ & _ & Hr). injection E as <-. destruct (low_pin prev Hq). unfold maxRevision in *.
  rewrite matches_low by (destruct Hr; lia). destruct Hr as [-> | ->]; lia.
Qed.
Lemma live_get s open l st p v : DInv s open -> In (l, st) open -> In (p, v) st -> run (OGet p) s = Some (Ok (RVal v), s).
Proof.
  intros D Ho Hp. destruct (d_open _ _ D _ Ho) as (_ & _ & _ & _ & Hs). pose proof (seg_in _ _ _ _ _ _ Hs Hp) as H.
  pose proof H as H0. destruct H0 as (prev & E & _ & _ & _ & _ & Hv & _). rewrite E in *. cbn [blockOf] in *.
  cbn [run]. unfold lift, GetPtr, bind, look. apply live_matches in H. rewrite H. cbn. rewrite Hv. reflexivity.
Qed.

(** Removing the newest pointer. *)
Record popped (s s' : state) (x r : nat) : Prop := {
  p_other : forall y, y <> x -> y <> r -> heap s' y = heap s y;
  p_root : heap s' r = setNxt (nxt (heap s x)) (heap s r);
  p_x : rev (heap s' x) = (if raw (heap s x) =? 0 then rev (heap s x) else u64 (rev (heap s x) + 1));
  p_pool : pool s' = if rev (heap s' x) <? maxRevision then x :: pool s else pool s;
  p_fresh : fresh s' = fresh s;
  p_roots : roots s' = roots s;
  p_rel : released s' = released s ++ [raw (heap s x)] }.
Lemma setPrv_id r c : prv c = r -> setPrv r c = c.
Proof. intros <-. destruct c. reflexivity. Qed.
Lemma setNxt_id r c : nxt c = r -> setNxt r c = c.
Proof. intros <-. destruct c. reflexivity. Qed.

Definition hset (s : state) (i : nat) (c : cell) : state :=
  mkState (upd (heap s) i c) (fresh s) (pool s) (roots s) (words s) (released s) (ends s).
Lemma modify_eq i f s : modify i f s = (Ok tt, hset s i (f (heap s i))).
Proof. reflexivity. Qed.
Lemma bind_modify {B} i f (k : unit -> M B) s : bind (modify i f) k s = k tt (hset s i (f (heap s i))).
Proof. reflexivity. Qed.
Lemma bind_look {B} i (k : cell -> M B) s : bind (look i) k s = k (heap s i) s.
Proof. reflexivity. Qed.
Lemma hset_same s i c : heap (hset s i c) i = c.
Proof. cbn. apply upd_same. Qed.
Lemma hset_other s i c j : j <> i -> heap (hset s i c) j = heap s j.
Proof. intros. cbn. apply upd_other. assumption. Qed.
Lemma EndPtr_exact s prev x : matches (rev (heap s x)) prev = true -> prv (heap s x) <> x -> nxt (heap s x) <> x ->
  exists s', EndPtr (Some (prev, x)) s = (Ok (raw (heap s x)), s') /\
  (forall y, y <> x -> heap s' y = (if Nat.eqb y (nxt (heap s x)) then setPrv (prv (heap s x)) else fun c => c)
     ((if Nat.eqb y (prv (heap s x)) then setNxt (nxt (heap s x)) else fun c => c) (heap s y))) /\
  rev (heap s' x) = (if raw (heap s x) =? 0 then rev (heap s x) else u64 (rev (heap s x) + 1)) /\
  cb (heap s' x) = NoCallback /\
  pool s' = (if rev (heap s' x) <? maxRevision then x :: pool s else pool s) /\
  fresh s' = fresh s /\ roots s' = roots s /\ released s' = released s.
Proof.
  intros Hm Hp Hn. unfold EndPtr. rewrite bind_look, Hm. cbn [negb]. cbv zeta. rewrite bind_modify.
  set (c := heap s x) in *.
  set (s1 := hset s x (setCb NoCallback c)).
  assert (A : exists s2, (forall k : unit -> M Z, bind (if raw c =? 0 then ret tt else do _ <- modify x (setRaw 0); bump x) k s1 = k tt s2) /\
    (forall y, y <> x -> heap s2 y = heap s y) /\ rev (heap s2 x) = (if raw c =? 0 then rev c else u64 (rev c + 1)) /\
    cb (heap s2 x) = NoCallback /\ prv (heap s2 x) = prv c /\ nxt (heap s2 x) = nxt c /\
    pool s2 = pool s /\ fresh s2 = fresh s /\ roots s2 = roots s /\ released s2 = released s).
  { destruct (raw c =? 0).
    - exists s1. split; [reflexivity|]. unfold s1. rewrite hset_same. repeat split. intros y Hy. apply hset_other. exact Hy.
    - exists (mkState (heap (hset (hset s1 x (setRaw 0 (heap s1 x))) x (setRev (u64 (rev (heap (hset s1 x (setRaw 0 (heap s1 x))) x) + 1)) (heap (hset s1 x (setRaw 0 (heap s1 x))) x))))
        (fresh s) (pool s) (roots s) (words s) (released s) (ends s + 1)).
      split; [reflexivity|]. split; [|].
      + intros y Hy. cbn [heap]. rewrite !hset_other by assumption. unfold s1. apply hset_other; assumption.
      + cbn [heap]. rewrite !hset_same. unfold s1. rewrite !hset_same. repeat split. }
  destruct A as (s2 & E2 & A1 & A2 & A3 & A4 & A5 & A6 & A7 & A8 & A9). rewrite E2.
  rewrite bind_look, A4, A5, !bind_modify, bind_look.
  set (s3 := hset s2 (prv c) _). set (s4 := hset s3 (nxt c) _).
  assert (X4 : heap s4 x = heap s2 x).
  { unfold s4, s3. rewrite !hset_other by congruence. reflexivity. }
  rewrite X4.
  assert (Y4 : forall y, y <> x -> heap s4 y = (if Nat.eqb y (nxt c) then setPrv (prv c) else fun c => c)
     ((if Nat.eqb y (prv c) then setNxt (nxt c) else fun c => c) (heap s y))).
  { intros y Hy. unfold s4. destruct (Nat.eqb_spec y (nxt c)) as [->|N].
    - rewrite hset_same. f_equal. unfold s3. destruct (Nat.eqb_spec (nxt c) (prv c)) as [Q|N].
      + rewrite Q, hset_same. rewrite A1; [reflexivity|congruence].
      + rewrite hset_other by assumption. apply A1. assumption.
    - rewrite hset_other by assumption. unfold s3. destruct (Nat.eqb_spec y (prv c)) as [->|N'].
      + rewrite hset_same. rewrite A1; auto.
      + rewrite hset_other by assumption. apply A1. assumption. }
  exists (if rev (heap s2 x) <? maxRevision then mkState (heap s4) (fresh s4) (x :: pool s4) (roots s4) (words s4) (released s4) (ends s4) else s4).
  split; [|].
  - unfold bind. destruct (_ <? _); reflexivity.
  - destruct (rev (heap s2 x) <? maxRevision) eqn:Em; cbn [heap fresh pool roots released]; rewrite X4, Em; (split; [exact Y4|]);
      rewrite A2; repeat split; try assumption; unfold s4, s3; cbn [pool hset roots fresh released]; congruence.
Qed.

Lemma chain_first s l p v st : chain s (l, (p, v) :: st) -> NoDup (owned (l, (p, v) :: st)) ->
  exists prev x, p = Some (prev, x) /\ nxt (heap s (lroot l)) = x /\ live s (lroot l) x p v /\
    seg s (lroot l) (nxt (heap s x)) st /\ x <> lroot l /\ nxt (heap s x) <> x /\
    (nxt (heap s x) = lroot l \/ (nxt (heap s x) <> lroot l /\ prv (heap s (nxt (heap s x))) = lroot l)) /\
    ~ In x (map (fun e => blockOf (fst e)) st) /\ ~ In (lroot l) (map (fun e => blockOf (fst e)) st).
Proof.
  intros (H1 & H2 & H3 & H4 & H5 & H6) N. cbn [fst snd] in *. destruct H5 as (prev & -> & H5).
  exists prev, (nxt (heap s (lroot l))). set (x := nxt (heap s (lroot l))) in *.
  unfold owned in N. cbn in N. inversion N as [|? ? N1 N2]; subst. inversion N2 as [|? ? N3 N4]; subst.
  split; [reflexivity|]. split; [reflexivity|]. split; [exists prev; auto|]. split; [exact H6|].
  split; [intros E; apply N1; left; exact E|].
  assert (D : nxt (heap s x) = lroot l \/ (In (nxt (heap s x)) (map (fun e => blockOf (fst e)) st) /\ prv (heap s (nxt (heap s x))) = lroot l)).
  { destruct st as [|[q w] st]; [left; exact H6|]. right. destruct H6 as [(pr & -> & Hp) _]. split; [left; reflexivity|apply Hp]. }
  assert (M2 : ~ In (lroot l) (map (fun e => blockOf (fst e)) st)) by (intros I; apply N1; right; exact I).
  split; [|split; [|split; assumption]].
  - destruct D as [-> |[D _]]; [intros E; apply N1; left; auto|intros E; rewrite E in D; contradiction].
  - destruct D as [D|[D D']]; [left; exact D|right]. split; [intros E; rewrite E in D; contradiction|exact D'].
Qed.

Lemma pop_end s l p v st : chain s (l, (p, v) :: st) -> NoDup (owned (l, (p, v) :: st)) ->
  exists s', UserFreeMethod p s = (Ok tt, s') /\ popped s s' (blockOf p) (lroot l) /\ cb (heap s' (blockOf p)) = NoCallback.
Proof.
  intros C N. destruct (chain_first _ _ _ _ _ C N) as (prev & x & -> & Hx & L & _ & X1 & X2 & X3 & _). cbn [blockOf].
  pose proof (live_matches _ _ _ _ _ L) as Hm. destruct L as (q & E & Hq & L1 & L2 & L3 & L4 & L5). injection E as <-.
  destruct (EndPtr_exact s prev x Hm ltac:(congruence) X2) as (s' & E & A1 & A2 & A3 & A4 & A5 & A6 & A7).
  unfold UserFreeMethod, bind. rewrite E. eexists. split; [reflexivity|]. split; [|exact A3].
  split; cbn [heap pool fresh roots released]; try assumption.
  - intros y Y1 Y2. rewrite A1 by assumption. rewrite L1. destruct (Nat.eqb_spec y (lroot l)); [contradiction|].
    destruct (Nat.eqb_spec y (nxt (heap s x))) as [->|]; [|reflexivity]. destruct X3 as [X3|[_ X3]]; [contradiction|]. apply setPrv_id. exact X3.
  - rewrite A1 by congruence. rewrite L1, Nat.eqb_refl. destruct (Nat.eqb_spec (lroot l) (nxt (heap s x))) as [E'|]; [|reflexivity].
    apply setPrv_id. cbn. apply C.
  - rewrite A7. reflexivity.
Qed.
Lemma notcounted z : 0 <= z < maxRevision -> isRefCounted z = false /\ isRefCounted (z + 2^63) = false.
Proof.
  unfold isRefCounted, maxRevision. intros H. rewrite !Z.testbit_false by lia. lia.
Qed.
Lemma pop_free s l p v st : chain s (l, (p, v) :: st) -> NoDup (owned (l, (p, v) :: st)) ->
  exists s', freeObj (blockOf p) s = (Ok tt, s') /\ popped s s' (blockOf p) (lroot l).
Proof.
  intros C N. destruct (chain_first _ _ _ _ _ C N) as (prev & x & -> & Hx & L & Hseg & X1 & X2 & X3 & X4 & X5). cbn [blockOf].
  pose proof (live_matches _ _ _ _ _ L) as Hm. pose proof L as LL. destruct L as (q & E & Hq & L1 & L2 & L3 & L4 & L5). injection E as <-.
  unfold freeObj. rewrite bind_look, bind_modify, bind_look.
  set (s1 := hset s _ _).
  assert (H1x : heap s1 x = heap s x) by (unfold s1; apply hset_other; congruence).
  rewrite bind_modify, bind_look. set (s2 := hset s1 _ _).
  assert (H2x : heap s2 x = heap s x) by (unfold s2; rewrite hset_other by (rewrite H1x; congruence); exact H1x).
  rewrite H2x.
  assert (H2y : forall y, y <> x -> y <> lroot l -> heap s2 y = heap s y).
  { intros y Y1 Y2. unfold s2. rewrite H1x. destruct (Nat.eq_dec y (nxt (heap s x))) as [->|Ny].
    - rewrite hset_same, L1. unfold s1. rewrite L1, hset_other by assumption. destruct X3 as [X3|[_ X3]]; [contradiction|]. apply setPrv_id. exact X3.
    - rewrite hset_other by assumption. unfold s1. rewrite L1, hset_other by assumption. reflexivity. }
  assert (H2r : heap s2 (lroot l) = setNxt (nxt (heap s x)) (heap s (lroot l))).
  { unfold s2. rewrite H1x. destruct (Nat.eq_dec (lroot l) (nxt (heap s x))) as [Er|Ny].
    - rewrite <- Er, hset_same, L1. unfold s1. rewrite L1, hset_same, <- Er. apply setPrv_id. cbn. apply C.
    - rewrite hset_other by assumption. unfold s1. rewrite L1, hset_same. reflexivity. }
  destruct (notcounted prev Hq) as [NC1 NC2].
  assert (NC : isRefCounted (rev (heap s x)) = false) by (destruct L5 as [-> | ->]; assumption).
  rewrite NC. unfold bind at 1. cbn [ret]. unfold ret at 1. cbv beta iota. rewrite L3.
  assert (Hm2 : matches (rev (heap s2 x)) (rev (heap s x)) = true) by (rewrite H2x; unfold matches; apply Z.eqb_refl).
  destruct (EndPtr_exact s2 (rev (heap s x)) x Hm2 ltac:(rewrite H2x; congruence) ltac:(rewrite H2x; exact X2)) as (s' & E & A1 & A2 & A3 & A4 & A5 & A6 & A7).
  rewrite H2x in *.
  unfold UserFreeMethod. unfold bind at 1 2. rewrite E. unfold release at 1. unfold bind at 1, look at 1. cbn [heap].
  rewrite A3. unfold ret. eexists. split; [reflexivity|].
  split; cbn [heap pool fresh roots released]; try assumption.
  - intros y Y1 Y2. rewrite A1 by assumption. rewrite L1. destruct (Nat.eqb_spec y (lroot l)); [contradiction|]. rewrite H2y by assumption.
    destruct (Nat.eqb_spec y (nxt (heap s x))) as [->|]; [|reflexivity]. destruct X3 as [X3|[_ X3]]; [contradiction|]. apply setPrv_id. exact X3.
  - rewrite A1 by congruence. rewrite L1, Nat.eqb_refl, H2r.
    rewrite (setNxt_id (nxt (heap s x)) (setNxt (nxt (heap s x)) (heap s (lroot l)))) by reflexivity.
    destruct (Nat.eqb_spec (lroot l) (nxt (heap s x))) as [E'|]; [|reflexivity].
    apply setPrv_id. cbn. apply C.
  - rewrite A7. reflexivity.
Qed.

Lemma owned_perm before after l p v st :
  Permutation (concat (map owned (before ++ (l, (p, v) :: st) :: after))) (blockOf p :: concat (map owned (before ++ (l, st) :: after))).
Proof.
  rewrite !map_app, !concat_app. cbn [map concat]. unfold owned at 2 4. cbn [fst snd map app].
  etransitivity; [apply Permutation_app_head, perm_swap|].
  symmetry. apply Permutation_middle.
Qed.
Lemma in_middle {A} (x : A) a b y : In x (a ++ y :: b) <-> x = y \/ In x (a ++ b).
Proof. rewrite !in_app_iff. cbn. intuition congruence. Qed.
Lemma nodup_owned s open o : NoDup (everything s open) -> In o open -> NoDup (owned o).
Proof.
  intros N Ho. apply in_split in Ho as (a & b & ->). unfold everything in N. rewrite map_app, concat_app in N. cbn in N.
  assert (NA : forall (A B : list nat), NoDup (A ++ B) -> NoDup B).
  { induction A as [|? A IH]; intros B HH; [exact HH|]. inversion HH; auto. }
  assert (NB : forall (A B : list nat), NoDup (A ++ B) -> NoDup A).
  { induction A as [|? A IH]; intros B HH; [constructor|]. inversion HH as [|? ? G1 G2]; subst. constructor; [|eapply IH; eauto]. intros G. apply G1. apply in_or_app. auto. }
  apply NA in N. apply NA in N. apply NA in N. apply (NB (owned o) _ N).
Qed.
Lemma nodup_disj {A} (a b : list A) x : NoDup (a ++ b) -> In x a -> In x b -> False.
Proof. intros N Ha Hb. apply in_split in Ha as (p & q & ->). rewrite <- app_assoc in N. cbn in N. apply NoDup_remove_2 in N. apply N. rewrite !in_app_iff. auto. Qed.

Lemma popped_inv s s' before after l p v st :
  DInv s (before ++ (l, (p, v) :: st) :: after) -> popped s s' (blockOf p) (lroot l) -> DInv s' (before ++ (l, st) :: after).
Proof.
  intros D P. set (x := blockOf p) in *. set (R := concat (map owned (before ++ (l, st) :: after))).
  assert (Ho : In (l, (p, v) :: st) (before ++ (l, (p, v) :: st) :: after)) by (apply in_middle; auto).
  pose proof (d_open _ _ D _ Ho) as C. pose proof (nodup_owned _ _ _ (d_nodup _ _ D) Ho) as N.
  destruct (chain_first _ _ _ _ _ C N) as (prev & x' & -> & Hx & L & Hseg & X1 & X2 & X3 & X4 & X5). cbn [blockOf] in x. subst x.
  assert (PE : Permutation (everything s (before ++ (l, (Some (prev, x'), v) :: st) :: after)) (x' :: pool s ++ roots s ++ R)).
  { unfold everything. etransitivity; [apply Permutation_app_head, Permutation_app_head, owned_perm|]. cbn [blockOf].
    rewrite !app_assoc. symmetry. apply Permutation_middle. }
  pose proof (Permutation_NoDup PE (d_nodup _ _ D)) as ND. inversion ND as [|? ? ND1 ND2]; subst.
  assert (Hroot : In (lroot l) R).
  { eapply owned_in; [apply in_middle; left; reflexivity|left; reflexivity]. }
  assert (NP : ~ In (lroot l) (pool s)) by (intros I; eapply (nodup_disj _ _ _ ND2 I); apply in_or_app; auto).
  assert (NR : ~ In (lroot l) (roots s)).
  { intros I. assert (ND3 : NoDup (roots s ++ R)).
    { clear -ND2. induction (pool s); [exact ND2|]. inversion ND2; auto. }
    eapply (nodup_disj _ _ _ ND3 I Hroot). }
  assert (XP : ~ In (nxt (heap s (lroot l))) (pool s)) by (intros I; apply ND1; apply in_or_app; auto).
  assert (XR : ~ In (nxt (heap s (lroot l))) (roots s)) by (intros I; apply ND1; rewrite !in_app_iff; auto).
  set (x := nxt (heap s (lroot l))) in *.
  assert (PE' : forall y, In y (everything s' (before ++ (l, st) :: after)) -> y = x \/ In y (pool s ++ roots s ++ R)).
  { intros y. unfold everything. fold R. rewrite (p_pool _ _ _ _ P), (p_roots _ _ _ _ P). destruct (_ <? _); cbn; intuition. }
  split.
  - rewrite (p_fresh _ _ _ _ P). apply (d_fresh _ _ D).
  - unfold everything. fold R. rewrite (p_pool _ _ _ _ P), (p_roots _ _ _ _ P). destruct (_ <? _); assumption.
  - intros y Hy. rewrite (p_fresh _ _ _ _ P). apply (d_bound _ _ D). eapply Permutation_in; [symmetry; exact PE|]. destruct (PE' y Hy) as [-> |]; [left; reflexivity|right; assumption].
  - intros y. rewrite (p_pool _ _ _ _ P). destruct (Z.ltb_spec (rev (heap s' x)) maxRevision) as [Hlt|Hlt].
    + intros [<-|Hy].
      * split; [|exact Hlt]. rewrite (p_x _ _ _ _ P). destruct L as (q & E & Hq & _ & _ & _ & _ & L5). injection E as <-. unfold maxRevision, u64 in *.
        destruct (_ =? 0); [lia|]. apply Z.mod_pos_bound. lia.
      * rewrite (p_other _ _ _ _ P); [apply (d_pool _ _ D _ Hy)|congruence|congruence].
    + intros Hy. rewrite (p_other _ _ _ _ P); [apply (d_pool _ _ D _ Hy)|congruence|congruence].
  - intros y. rewrite (p_roots _ _ _ _ P). intros Hy. rewrite (p_other _ _ _ _ P); [apply (d_roots _ _ D _ Hy)|congruence|congruence].
  - intros o Ho'. apply in_middle in Ho' as [->|Ho'].
    + destruct C as (C1 & C2 & C3 & C4 & _). unfold chain. cbn [fst snd] in *. rewrite (p_root _ _ _ _ P).
      unfold setNxt; cbn [prv api rev nxt]. repeat (split; [assumption|]).
      eapply seg_frame; [exact Hseg|]. intros b Hb. apply (p_other _ _ _ _ P); intros ->; contradiction.
    + assert (Ho2 : In o (before ++ (l, (Some (prev, x), v) :: st) :: after)) by (apply in_middle; auto).
      eapply chain_frame; [apply (d_open _ _ D _ Ho2)|]. intros b Hb.
      assert (Hdis : NoDup (owned (l, (Some (prev, x), v) :: st) ++ concat (map owned (before ++ after)))).
      { pose proof (d_nodup _ _ D) as N0. unfold everything in N0.
        assert (NA : forall (A B : list nat), NoDup (A ++ B) -> NoDup B).
        { induction A as [|? A IH]; intros B HH; [exact HH|]. inversion HH; auto. }
        apply NA in N0. apply NA in N0. eapply Permutation_NoDup; [|exact N0].
        rewrite !map_app, !concat_app. cbn [map concat]. rewrite !app_assoc. apply Permutation_app_tail. apply Permutation_app_comm. }
      assert (Hb' : In b (concat (map owned (before ++ after)))) by (eapply owned_in; eauto).
      apply (p_other _ _ _ _ P); intros ->; eapply (nodup_disj _ _ _ Hdis); try exact Hb'; [right; left; reflexivity|left; reflexivity].
Qed.

(** The loop of End *)
Lemma endLoop_more fuel k root s r : endLoop fuel root s = Some r -> endLoop (fuel + k) root s = Some r.
Proof.
  revert s. induction fuel as [|fuel IH]; intros s E; cbn [endLoop] in E; [discriminate|]. cbn [endLoop Nat.add]. cbv zeta in *.
  destruct (Nat.eqb _ 0); [exact E|]. destruct (freeObj _ s) as [[[]|] s1]; [apply IH; exact E|exact E].
Qed.
Lemma endLoop_det f1 f2 root s r1 r2 : endLoop f1 root s = Some r1 -> endLoop f2 root s = Some r2 -> r1 = r2.
Proof.
  intros H1 H2. apply (endLoop_more _ f2) in H1. apply (endLoop_more _ f1) in H2. rewrite Nat.add_comm in H2. congruence.
Qed.
Lemma endLoop_all before after l st : forall s, DInv s (before ++ (l, st) :: after) ->
  exists s', endLoop (S (length st)) (lroot l) s = Some (Ok tt, s') /\ DInv s' (before ++ (l, []) :: after) /\
    released s' = released s ++ map snd st /\
    (forall p v, In (p, v) st -> v <> 0 -> match p with Some (prev, x) => matches (rev (heap s' x)) prev = false | None => False end) /\
    (forall b, In b (pool s) -> heap s' b = heap s b) /\
    (forall b, ~ In b (owned (l, st)) -> heap s' b = heap s b).
Proof.
  induction st as [|[p v] st IH]; intros s D.
  - exists s. assert (Ho : In (l, []) (before ++ (l, []) :: after)) by (apply in_middle; auto).
    destruct (d_open _ _ D _ Ho) as (C1 & C2 & C3 & C4 & C5). cbn [fst snd seg] in *.
    cbn [endLoop length]. cbv zeta. rewrite C5, C2. cbn. rewrite app_nil_r.
    split; [reflexivity|]. split; [exact D|]. repeat split; auto. intros ? ? [].
  - assert (Ho : In (l, (p, v) :: st) (before ++ (l, (p, v) :: st) :: after)) by (apply in_middle; auto).
    pose proof (d_open _ _ D _ Ho) as C. pose proof (nodup_owned _ _ _ (d_nodup _ _ D) Ho) as N.
    destruct (pop_free _ _ _ _ _ C N) as (s1 & E1 & P).
    pose proof (popped_inv _ _ _ _ _ _ _ _ D P) as D1.
    destruct (IH s1 D1) as (s' & E & D' & Rl & St & Pl & Fr).
    destruct (chain_first _ _ _ _ _ C N) as (prev & x & -> & Hx & L & Hseg & X1 & X2 & X3 & X4 & X5). cbn [blockOf] in *.
    pose proof L as L0. destruct L as (q & Eq & Hq & L1 & L2 & L3 & L4 & L5). injection Eq as <-.
    exists s'. split; [|split; [exact D'|split; [|split; [|split]]]].
    + cbn [length]. change (endLoop (S (S (length st))) (lroot l) s) with
        (let next := nxt (heap s (lroot l)) in if Nat.eqb (api (heap s next)) 0 then Some (Ok tt, s)
         else match freeObj next s with (Ok _, s') => endLoop (S (length st)) (lroot l) s' | (Panic, s') => Some (Panic, s') end).
      cbv zeta. rewrite Hx. destruct (Nat.eqb_spec (api (heap s x)) 0); [contradiction|]. rewrite E1. exact E.
    + rewrite Rl, (p_rel _ _ _ _ P), L4, <- app_assoc. reflexivity.
    + intros p' v' [Ein|Hin] Hv; [|apply (St p' v' Hin Hv)]. injection Ein as <- <-.
      assert (Hs' : heap s' x = heap s1 x).
      { apply Fr. intros [I|I]; [cbn in I; congruence|]. contradiction. }
      rewrite Hs', (p_x _ _ _ _ P), L4. destruct (Z.eqb_spec v 0); [contradiction|].
      destruct (low_pin prev Hq) as [K1 K2]. unfold maxRevision in *.
      assert (Hr : 0 <= rev (heap s x) < 2^64 /\ low (rev (heap s x)) = prev) by (destruct L5 as [-> | ->]; lia).
      destruct Hr as [Hr1 Hr2]. destruct (low_bump _ Hr1 ltac:(lia)) as [B1 B2].
      rewrite B1. rewrite matches_low; [|lia|lia]. rewrite B2. lia.
    + intros b Hb. assert (Hb1 : In b (pool s1)) by (rewrite (p_pool _ _ _ _ P); destruct (_ <? _); cbn; auto).
      rewrite (Pl b Hb1). apply (p_other _ _ _ _ P).
      * intros ->. eapply nodup_disj; [apply (d_nodup _ _ D)|exact Hb|]. apply in_or_app. right. eapply owned_in; [exact Ho|right; left; reflexivity].
      * intros ->. eapply nodup_disj; [apply (d_nodup _ _ D)|exact Hb|]. apply in_or_app. right. eapply owned_in; [exact Ho|left; reflexivity].
    + intros b Hb. rewrite Fr by (intros [I|I]; apply Hb; [left; exact I|right; right; exact I]).
      apply (p_other _ _ _ _ P); intros ->; apply Hb; [right; left; reflexivity|left; reflexivity].
Qed.

Lemma takeAt_perm k l x r : takeAt k l = Some (x, r) -> Permutation l (x :: r).
Proof.
  revert k x r. induction l as [|z l IH]; intros k x r E; [destruct k; discriminate|].
  destruct k; [injection E as -> ->; reflexivity|]. cbn [takeAt] in E.
  destruct (takeAt k l) as [[y r']|] eqn:T; [|discriminate]. injection E as -> <-.
  etransitivity; [apply perm_skip, (IH _ _ _ T)|]. apply perm_swap.
Qed.
Lemma DInv_start w : DInv (init w) [].
Proof. split; cbn; try constructor; try (intros; contradiction). Qed.

Lemma DInv_end s before after l st : DInv s (before ++ (l, st) :: after) ->
  exists s', (forall fuel, (length st < fuel)%nat -> EndLifetime fuel l s = Some (Ok tt, s')) /\ DInv s' (before ++ after) /\
    released s' = released s ++ map snd st /\
    (forall p v, In (p, v) st -> v <> 0 -> match p with Some (prev, x) => matches (rev (heap s' x)) prev = false | None => False end) /\
    (forall fuel r s'', EndLifetime fuel l s = Some (r, s'') -> r = Ok tt /\ s'' = s').
Proof.
  intros D. destruct (endLoop_all _ _ _ _ s D) as (s1 & E1 & D1 & Rl & St & _).
  assert (Ho : In (l, st) (before ++ (l, st) :: after)) by (apply in_middle; auto).
  pose proof (d_open _ _ D _ Ho) as (C1 & C2 & C3 & C4 & C5).
  assert (Ho1 : In (l, []) (before ++ (l, []) :: after)) by (apply in_middle; auto).
  pose proof (d_open _ _ D1 _ Ho1) as (B1 & B2 & B3 & B4 & B5). cbn [fst snd seg] in *.
  set (r := lroot l) in *.
  set (s2 := mkState (upd (heap s1) r (setRev (u64 (rev (heap s1 r) + 1)) (heap s1 r))) (fresh s1) (pool s1) (roots s1) (words s1) (released s1) (ends s1 + 1)).
  assert (R2 : rev (heap s2 r) = lrev l + 1).
  { unfold s2. cbn [heap]. rewrite upd_same. unfold setRev. cbn [rev]. rewrite B3. apply u64_small. unfold maxRevision in *. lia. }
  set (s3 := if rev (heap s2 r) <? maxRevision then mkState (heap s2) (fresh s2) (pool s2) (r :: roots s2) (words s2) (released s2) (ends s2) else s2).
  assert (Efuel : forall fuel s4, endLoop fuel r s = Some (Ok tt, s4) -> EndLifetime fuel l s = Some (Ok tt, s3)).
  { intros fuel s4 E4. pose proof (endLoop_det _ _ _ _ _ _ E4 E1) as K. injection K as ->.
    unfold EndLifetime. fold r. cbv zeta. rewrite C3, Z.eqb_refl, C2. cbn [negb Nat.eqb]. rewrite E4.
    assert (Eb : bump r s1 = (Ok tt, s2)) by reflexivity.
    unfold bind at 1. rewrite Eb, bind_look.
    unfold s3. destruct (rev (heap s2 r) <? maxRevision); reflexivity. }
  assert (PE : Permutation (everything s1 (before ++ (l, []) :: after)) (r :: pool s1 ++ roots s1 ++ concat (map owned (before ++ after)))).
  { unfold everything. rewrite !map_app, !concat_app. cbn [map concat owned fst snd app].
    rewrite !app_assoc. symmetry. apply Permutation_middle. }
  pose proof (Permutation_NoDup PE (d_nodup _ _ D1)) as ND. inversion ND as [|? ? ND1 ND2]; subst.
  assert (H3 : forall b, b <> r -> heap s3 b = heap s1 b).
  { intros b Hb. unfold s3. destruct (_ <? _); cbn [heap]; unfold s2; cbn [heap]; apply upd_other; exact Hb. }
  assert (X : r <> r -> False) by congruence.
  assert (Hpool : pool s3 = pool s1) by (unfold s3; destruct (_ <? _); reflexivity).
  assert (Hin : forall b, In b (pool s1 ++ roots s1 ++ concat (map owned (before ++ after))) -> b <> r) by (intros b Hb ->; contradiction).
  exists s3. split; [|split; [|split; [|split]]].
  - intros fuel Hf. replace fuel with (S (length st) + (fuel - S (length st)))%nat by lia.
    eapply Efuel. apply endLoop_more. exact E1.
  - assert (Hroots : roots s3 = if rev (heap s2 r) <? maxRevision then r :: roots s1 else roots s1) by (unfold s3; destruct (_ <? _); reflexivity).
    assert (Hev : forall y, In y (everything s3 (before ++ after)) -> y = r \/ In y (pool s1 ++ roots s1 ++ concat (map owned (before ++ after)))).
    { intros y. unfold everything. rewrite Hpool, Hroots. destruct (_ <? _); rewrite ?in_app_iff; cbn; rewrite ?in_app_iff; intuition. }
    assert (Hfr : fresh s3 = fresh s1) by (unfold s3; destruct (_ <? _); reflexivity).
    split.
    + rewrite Hfr. apply (d_fresh _ _ D1).
    + unfold everything. rewrite Hpool, Hroots. destruct (_ <? _); [|exact ND2].
      eapply Permutation_NoDup; [|exact ND]. cbn. apply Permutation_middle.
    + intros y Hy. rewrite Hfr. apply (d_bound _ _ D1). eapply Permutation_in; [symmetry; exact PE|]. destruct (Hev y Hy) as [->|]; [left; reflexivity|right; assumption].
    + rewrite Hpool. intros y Hy. rewrite H3 by (apply Hin; apply in_or_app; auto). apply (d_pool _ _ D1 _ Hy).
    + rewrite Hroots. intros y Hy. destruct (Z.ltb_spec (rev (heap s2 r)) maxRevision) as [Hlt|Hlt].
      * destruct Hy as [<-|Hy]; [|rewrite H3 by (apply Hin; rewrite !in_app_iff; auto); apply (d_roots _ _ D1 _ Hy)].
        assert (H3r : heap s3 r = setRev (u64 (rev (heap s1 r) + 1)) (heap s1 r)).
        { unfold s3. try destruct (_ <? _); cbn [heap]; unfold s2; cbn [heap]; apply upd_same. }
        assert (R3 : rev (heap s3 r) = rev (heap s2 r)) by (rewrite H3r; unfold s2; cbn [heap]; rewrite upd_same; reflexivity).
        rewrite R3, R2, H3r. unfold setRev. cbn [prv nxt api]. unfold maxRevision in *. repeat split; try assumption; lia.
      * rewrite H3 by (apply Hin; rewrite !in_app_iff; auto). apply (d_roots _ _ D1 _ Hy).
    + intros o Ho'. eapply chain_frame; [apply (d_open _ _ D1); apply in_middle; right; exact Ho'|].
      intros b Hb. apply H3. apply Hin. rewrite !in_app_iff. right. right. rewrite <- ?in_app_iff. eapply owned_in; eauto.
  - rewrite <- Rl. unfold s3. destruct (_ <? _); reflexivity.
  - intros p v Hp Hv. specialize (St p v Hp Hv). destruct p as [[prev x]|]; [|exact St]. rewrite H3; [exact St|].
    intros ->. pose proof (nodup_owned _ _ _ (d_nodup _ _ D) Ho) as N. inversion N as [|? ? N1 N2]; subst.
    apply N1. apply in_map_iff. exists (Some (prev, r), v). split; [reflexivity|exact Hp].
  - intros fuel r' s'' E. pose proof E as E0. unfold EndLifetime in E. fold r in E. cbv zeta in E. rewrite C3, Z.eqb_refl, C2 in E. cbn [negb Nat.eqb] in E.
    destruct (endLoop fuel r s) as [[o s4]|] eqn:E4; [|discriminate].
    pose proof (endLoop_det _ _ _ _ _ _ E4 E1) as K. injection K as -> ->.
    rewrite (Efuel _ _ E4) in E0. injection E0 as <- <-. auto.
Qed.

Lemma DInv_lifetime s open pick l s' : DInv s open -> NewLifetime pick s = (Ok l, s') -> DInv s' ((l, []) :: open).
Proof.
  intros D E. unfold NewLifetime in E. unfold bind at 1 in E. unfold allocRoot in E.
  set (t := match pick with Some k => takeAt k (roots s) | None => None end) in *.
  destruct t as [[b rest]|] eqn:Et.
  - assert (T : Permutation (roots s) (b :: rest)).
    { destruct pick as [k|]; [|discriminate]. apply takeAt_perm with k. exact Et. }
    rewrite bind_modify, bind_look in E. unfold ret in E. injection E as <- <-.
    destruct (d_roots _ _ D b) as (R1 & R2 & R3 & R4); [eapply Permutation_in; [symmetry; exact T|left; reflexivity]|].
    set (s1 := mkState (heap s) (fresh s) (pool s) rest (words s) (released s) (ends s)).
    set (s2 := hset s1 b _).
    assert (H2 : forall y, heap s2 y = heap s y).
    { intros y. unfold s2. destruct (Nat.eq_dec y b) as [->|]; [rewrite hset_same|rewrite hset_other by assumption; reflexivity].
      cbn. unfold setApi. rewrite <- R3. destruct (heap s b). reflexivity. }
    assert (PE : Permutation (everything s2 ((mkLifetime (rev (heap s2 b)) b, []) :: open)) (everything s open)).
    { unfold everything. unfold s2, s1. cbn [pool roots hset map concat owned fst snd app lroot].
      apply Permutation_app_head. etransitivity; [|apply Permutation_app_tail; symmetry; exact T]. cbn. symmetry. apply Permutation_middle. }
    split.
    + apply (d_fresh _ _ D).
    + eapply Permutation_NoDup; [symmetry; exact PE|apply (d_nodup _ _ D)].
    + intros y Hy. apply (d_bound _ _ D). eapply Permutation_in; [exact PE|exact Hy].
    + intros y Hy. rewrite H2. apply (d_pool _ _ D). exact Hy.
    + intros y Hy. rewrite H2. apply (d_roots _ _ D). eapply Permutation_in; [symmetry; exact T|right; exact Hy].
    + intros o [<-|Ho].
      * unfold chain. cbn [fst snd lroot lrev seg]. change (upd (heap s) b (setApi 0 (heap s b)) b) with (heap s2 b). rewrite !H2. auto.
      * eapply chain_frame; [apply (d_open _ _ D _ Ho)|]. intros; apply H2.
  - rewrite bind_modify, bind_look in E. unfold ret in E. injection E as <- <-.
    set (s1 := mkState _ (S (fresh s)) (pool s) (roots s) (words s) (released s) (ends s)).
    set (b := fresh s) in *. set (s2 := hset s1 b _).
    assert (H2 : forall y, y <> b -> heap s2 y = heap s y).
    { intros y Hy. unfold s2. rewrite hset_other by assumption. unfold s1. cbn. apply upd_other. exact Hy. }
    assert (H2b : heap s2 b = mkCell b b 0 NoCallback 0 0 KRoot).
    { unfold s2. rewrite hset_same. unfold s1. cbn [heap]. rewrite upd_same. reflexivity. }
    assert (PE : Permutation (everything s2 ((mkLifetime (rev (heap s2 b)) b, []) :: open)) (b :: everything s open)).
    { unfold everything. unfold s2, s1. cbn [pool roots hset map concat owned fst snd app lroot].
      rewrite !app_assoc. symmetry. apply Permutation_middle. }
    assert (Nb : forall y, In y (everything s open) -> y <> b) by (intros y Hy ->; apply (d_bound _ _ D) in Hy; unfold b in Hy; lia).
    split.
    + cbn. lia.
    + eapply Permutation_NoDup; [symmetry; exact PE|]. constructor; [|apply (d_nodup _ _ D)]. intros I. apply (Nb _ I). reflexivity.
    + intros y Hy. eapply Permutation_in in Hy; [|exact PE]. unfold s2, s1. cbn [hset fresh]. fold b. destruct Hy as [<-|Hy]; [lia|]. apply (d_bound _ _ D) in Hy. unfold b. lia.
    + intros y Hy. rewrite H2 by (apply Nb; unfold everything; apply in_or_app; left; exact Hy). apply (d_pool _ _ D). exact Hy.
    + intros y Hy. rewrite H2 by (apply Nb; unfold everything; rewrite !in_app_iff; right; left; exact Hy). apply (d_roots _ _ D). exact Hy.
    + intros o [<-|Ho].
      * unfold chain. cbn [fst snd lroot lrev seg]. match goal with |- context [rev (upd ?h ?i ?c ?j)] => change (upd h i c j) with (heap s2 b) end. rewrite H2b. cbn. unfold maxRevision. repeat split; lia.
      * eapply chain_frame; [apply (d_open _ _ D _ Ho)|]. intros y Hy; apply H2. apply Nb. unfold everything. rewrite !in_app_iff. right. right. eapply owned_in; eauto.
Qed.

Lemma DInv_new s before after l st a v pick p s' :
  DInv s (before ++ (l, st) :: after) -> a <> O -> NewPtr UserFree l a v pick s = (Ok p, s') ->
  DInv s' (before ++ (l, (p, v) :: st) :: after).
Proof.
  intros D Ha E. unfold NewPtr in E.
  assert (Ho : In (l, st) (before ++ (l, st) :: after)) by (apply in_middle; auto).
  pose proof (d_open _ _ D _ Ho) as (C1 & C2 & C3 & C4 & C5). cbn [fst snd] in *. set (r := lroot l) in *.
  set (R := concat (map owned (before ++ (l, st) :: after))).
  (* allocation *)
  assert (A : exists x s1, allocBlock pick s = (Ok x, s1) /\ ~ In x (pool s1 ++ roots s1 ++ R) /\ NoDup (pool s1 ++ roots s1 ++ R) /\
     (forall y, y <> x -> heap s1 y = heap s y) /\ 0 <= rev (heap s1 x) < maxRevision /\ roots s1 = roots s /\ (x < fresh s1)%nat /\
     (fresh s <= fresh s1)%nat /\ (forall y, In y (pool s1) -> In y (pool s)) /\ (forall y, In y (pool s1 ++ roots s1 ++ R) -> (y < fresh s1)%nat)).
  { pose proof (d_nodup _ _ D) as ND. unfold everything in ND. fold R in ND.
    pose proof (d_bound _ _ D) as BD. unfold everything in BD. fold R in BD.
    unfold allocBlock. set (t := match pick with Some k => takeAt k (pool s) | None => None end).
    destruct t as [[b rest]|] eqn:Et.
    - assert (T : Permutation (pool s) (b :: rest)).
      { destruct pick as [k|]; [|discriminate]. apply takeAt_perm with k. exact Et. }
      assert (ND' : NoDup (b :: rest ++ roots s ++ R)).
      { eapply Permutation_NoDup; [|exact ND]. change (b :: rest ++ roots s ++ R) with ((b :: rest) ++ roots s ++ R). apply Permutation_app_tail. exact T. }
      inversion ND' as [|? ? N1 N2]; subst.
      assert (Hb : In b (pool s)) by (eapply Permutation_in; [symmetry; exact T|left; reflexivity]).
      eexists b, _. split; [reflexivity|]. cbn [pool roots heap fresh].
      split; [exact N1|]. split; [exact N2|]. split; [reflexivity|]. split; [apply (d_pool _ _ D _ Hb)|]. split; [reflexivity|].
      split; [apply BD; apply in_or_app; auto|]. split; [lia|].
      assert (Hsub : forall y, In y rest -> In y (pool s)) by (intros y Hy; eapply Permutation_in; [symmetry; exact T|right; exact Hy]).
      split; [exact Hsub|]. intros y Hy. apply BD. rewrite in_app_iff in *. destruct Hy; auto.
    - eexists (fresh s), _. split; [reflexivity|]. cbn [pool roots heap fresh]. split.
      + intros I. apply BD in I. lia.
      + split; [exact ND|]. split; [intros y Hy; apply upd_other; exact Hy|]. rewrite upd_same. cbn. unfold maxRevision.
        split; [lia|]. split; [reflexivity|]. split; [lia|]. split; [lia|]. split; [auto|]. intros y Hy. apply BD in Hy. lia. }
  destruct A as (x & s1 & E1 & A1 & A2 & A3 & A4 & A5 & A6 & A7 & A8 & A9).
  unfold bind at 1 in E. rewrite E1 in E. rewrite bind_modify, bind_look in E. cbv zeta in E.
  set (s2 := hset s1 x _) in E. fold r in E.
  assert (Hr : In r R) by (eapply owned_in; [exact Ho|left; reflexivity]).
  assert (Xr : r <> x) by (intros ->; apply A1; rewrite !in_app_iff; auto).
  assert (H2r : heap s2 r = heap s r) by (unfold s2; rewrite hset_other by exact Xr; apply A3; exact Xr).
  rewrite H2r, C1 in E. rewrite bind_look, H2r, bind_modify, bind_modify, bind_look in E. unfold ret in E.
  set (s3 := hset s2 r _) in E. set (s4 := hset s3 x _) in E.
  assert (Es : s' = s4) by congruence. assert (Epp : p = Some (rev (heap s4 x), x)) by congruence. clear E. subst s' p.
  assert (H4r : heap s4 r = setNxt x (heap s r)).
  { unfold s4. rewrite hset_other by exact Xr. unfold s3. rewrite hset_same, ?H2r. reflexivity. }
  assert (H4x : heap s4 x = mkCell r (nxt (heap s r)) a UserFree (rev (heap s1 x)) v (kind (heap s1 x))).
  { unfold s4. rewrite hset_same. unfold s3. rewrite hset_other by congruence. unfold s2. rewrite hset_same. reflexivity. }
  assert (H4 : forall y, y <> x -> y <> r -> heap s4 y = heap s y).
  { intros y Y1 Y2. unfold s4. rewrite hset_other by assumption. unfold s3. rewrite hset_other by assumption. unfold s2. rewrite hset_other by assumption. apply A3. exact Y1. }
  rewrite H4x. cbn [rev].
  set (p := Some (rev (heap s1 x), x)).
  assert (PE : Permutation (everything s4 (before ++ (l, (p, v) :: st) :: after)) (x :: pool s1 ++ roots s1 ++ R)).
  { unfold everything. etransitivity; [apply Permutation_app_head, Permutation_app_head, owned_perm|].
    change (blockOf p) with x. change (pool s4) with (pool s1). change (roots s4) with (roots s1). fold R.
    rewrite !app_assoc. symmetry. apply Permutation_middle. }
  assert (ND : NoDup (pool s ++ roots s ++ R)) by apply (d_nodup _ _ D).
  assert (NP : ~ In r (pool s)) by (intros I; eapply (nodup_disj _ _ _ ND I); apply in_or_app; auto).
  assert (NR : ~ In r (roots s)).
  { intros I. assert (ND3 : NoDup (roots s ++ R)).
    { clear -ND. induction (pool s); [exact ND|]. inversion ND; auto. }
    eapply (nodup_disj _ _ _ ND3 I Hr). }
  assert (SS : chain s4 (l, st) -> True) by auto.
  split.
  - change (fresh s4) with (fresh s1). lia.
  - eapply Permutation_NoDup; [symmetry; exact PE|]. constructor; assumption.
  - intros y Hy. change (fresh s4) with (fresh s1). eapply Permutation_in in Hy; [|exact PE]. destruct Hy as [<-|Hy]; [exact A6|apply A9; exact Hy].
  - change (pool s4) with (pool s1). intros y Hy. rewrite H4.
    + apply (d_pool _ _ D). auto.
    + intros ->. apply A1. apply in_or_app. auto.
    + intros ->. apply NP. auto.
  - change (roots s4) with (roots s1). rewrite A5. intros y Hy. rewrite H4.
    + apply (d_roots _ _ D). auto.
    + intros ->. apply A1. rewrite A5, !in_app_iff. auto.
    + intros ->. apply NR. auto.
  - intros o Ho'. apply in_middle in Ho' as [->|Ho'].
    + unfold chain. cbn [fst snd seg]. fold r. rewrite H4r. unfold setNxt; cbn [prv api rev nxt].
      repeat (split; [assumption|]). cbn [nxt]. split.
      * exists (rev (heap s1 x)). rewrite H4x. cbn [prv api cb raw rev]. repeat split; auto; apply A4.
      * rewrite H4x. cbn [nxt]. eapply seg_frame; [exact C5|]. intros b Hb. apply H4.
        -- intros ->. apply A1. rewrite !in_app_iff. right. right. eapply owned_in; [exact Ho|right; exact Hb].
        -- intros ->. pose proof (nodup_owned _ _ _ (d_nodup _ _ D) Ho) as N. inversion N as [|? ? N1 N2]; subst. apply N1. exact Hb.
    + assert (Ho2 : In o (before ++ (l, st) :: after)) by (apply in_middle; auto).
      eapply chain_frame; [apply (d_open _ _ D _ Ho2)|]. intros b Hb. apply H4.
      * intros ->. apply A1. rewrite !in_app_iff. right. right. eapply owned_in; [exact Ho2|exact Hb].
      * intros ->.
        assert (Hdis : NoDup (owned (l, st) ++ concat (map owned (before ++ after)))).
        { assert (NA : forall (A B : list nat), NoDup (A ++ B) -> NoDup B).
          { induction A as [|? A IH]; intros B HH; [exact HH|]. inversion HH; auto. }
          apply NA in ND. apply NA in ND. eapply Permutation_NoDup; [|exact ND]. unfold R.
          rewrite !map_app, !concat_app. cbn [map concat]. rewrite !app_assoc. apply Permutation_app_tail. apply Permutation_app_comm. }
        eapply (nodup_disj _ _ _ Hdis); [left; reflexivity|]. eapply owned_in; eauto.
Qed.
Lemma live_heap s s' r x p v : heap s' x = heap s x -> live s r x p v -> live s' r x p v.
Proof. intros E (q & H). exists q. rewrite E. exact H. Qed.
Lemma DInv_pin s before after l st prev x v :
  DInv s (before ++ (l, (Some (prev, x), v) :: st) :: after) -> rev (heap s x) = prev ->
  DInv (hset s x (setRev (pinRev (rev (heap s x))) (heap s x))) (before ++ (l, (Some (prev, x), v) :: st) :: after).
Proof.
  intros D Hr0. set (s' := hset s x _).
  assert (Ho : In (l, (Some (prev, x), v) :: st) (before ++ (l, (Some (prev, x), v) :: st) :: after)) by (apply in_middle; auto).
  pose proof (d_open _ _ D _ Ho) as C. pose proof (nodup_owned _ _ _ (d_nodup _ _ D) Ho) as N.
  destruct (chain_first _ _ _ _ _ C N) as (pr & x' & E & Hx & L & Hseg & X1 & X2 & X3 & X4 & X5). injection E as <- <-.
  assert (H' : forall y, y <> x -> heap s' y = heap s y) by (intros; apply hset_other; assumption).
  assert (NDa := d_nodup _ _ D). unfold everything in NDa.
  assert (Hin : In x (concat (map owned (before ++ (l, (Some (prev, x), v) :: st) :: after)))) by (eapply owned_in; [exact Ho|right; left; reflexivity]).
  split; try apply D.
  - intros y Hy. rewrite H'; [apply (d_pool _ _ D _ Hy)|]. intros ->. eapply (nodup_disj _ _ _ NDa Hy). apply in_or_app. auto.
  - intros y Hy. rewrite H'; [apply (d_roots _ _ D _ Hy)|]. intros ->.
    assert (ND3 : NoDup (roots s ++ concat (map owned (before ++ (l, (Some (prev, x), v) :: st) :: after)))).
    { clear -NDa. induction (pool s); [exact NDa|]. inversion NDa; auto. }
    eapply (nodup_disj _ _ _ ND3 Hy Hin).
  - intros o Ho'. apply in_middle in Ho' as [->|Ho'].
    + destruct C as (C1 & C2 & C3 & C4 & _). unfold chain. cbn [fst snd seg] in *. rewrite H' by congruence.
      repeat (split; [assumption|]). rewrite Hx. split.
      * destruct L as (q & E & Hq & L1 & L2 & L3 & L4 & L5). injection E as <-. exists prev.
        unfold s'. rewrite hset_same. unfold setRev. cbn [prv api cb raw rev]. repeat (split; [auto; try lia|]).
        right. rewrite Hr0. unfold pinRev. rewrite or_bit by lia.
        assert (T : Z.testbit prev 63 = false) by (rewrite Z.testbit_false by lia; unfold maxRevision in Hq; lia).
        rewrite T. reflexivity.
      * unfold s' at 2. rewrite hset_same. unfold setRev. cbn [nxt]. eapply seg_frame; [exact Hseg|]. intros b Hb. apply H'. intros ->. contradiction.
    + assert (Ho2 : In o (before ++ (l, (Some (prev, x), v) :: st) :: after)) by (apply in_middle; auto).
      eapply chain_frame; [apply (d_open _ _ D _ Ho2)|]. intros b Hb. apply H'. intros ->.
      assert (Hdis : NoDup (owned (l, (Some (prev, x), v) :: st) ++ concat (map owned (before ++ after)))).
      { assert (NA : forall (A B : list nat), NoDup (A ++ B) -> NoDup B).
        { induction A as [|? A IH]; intros B HH; [exact HH|]. inversion HH; auto. }
        apply NA in NDa. apply NA in NDa. eapply Permutation_NoDup; [|exact NDa].
        rewrite !map_app, !concat_app. cbn [map concat]. rewrite !app_assoc. apply Permutation_app_tail. apply Permutation_app_comm. }
      eapply (nodup_disj _ _ _ Hdis); [right; left; reflexivity|]. eapply owned_in; eauto.
Qed.
Lemma NewPtr_rev f l a v pick s r x s' : NewPtr f l a v pick s = (Ok (Some (r, x)), s') -> rev (heap s' x) = r.
Proof.
  unfold NewPtr. unfold bind at 1. destruct (allocBlock pick s) as [[b|] s1]; [|discriminate].
  rewrite bind_modify, bind_look. cbv zeta. rewrite bind_look, !bind_modify, bind_look. unfold ret. intros E. injection E as <- <- <-. reflexivity.
Qed.
Lemma read_only s o r s' : (exists p, o = OGet p \/ o = OApi p) -> run o s = Some (r, s') -> s' = s.
Proof.
  intros (p & [-> | ->]); cbn [run]; unfold lift.
  - unfold GetPtr. destruct p as [[q b]|]; [|cbn; congruence]. rewrite bind_look. destruct (negb _); cbn; congruence.
  - unfold ApiPtr. destruct p as [[q b]|]; [|cbn; congruence]. rewrite bind_look. destruct (negb _); [cbn; congruence|].
    destruct (isRefCounted q); cbn; congruence.
Qed.
Lemma seg_set s r b v' : forall newer x prev v older,
  seg s r x (newer ++ (Some (prev, b), v) :: older) ->
  NoDup (map (fun e => blockOf (fst e)) (newer ++ (Some (prev, b), v) :: older)) ->
  seg (hset s b (setRaw v' (heap s b))) r x (newer ++ (Some (prev, b), v') :: older).
Proof.
  induction newer as [|[q w] newer IH]; intros x prev v older H N; cbn [app seg map fst blockOf] in *.
  - destruct H as [(pr & E & H) Hs]. injection E as <- <-. inversion N as [|? ? N1 N2]; subst. split.
    + exists prev. rewrite hset_same. unfold setRaw. cbn [prv api cb raw rev]. intuition.
    + rewrite hset_same. unfold setRaw at 2. cbn [nxt]. eapply seg_frame; [exact Hs|].
      intros y Hy. apply hset_other. intros ->. contradiction.
  - destruct H as [(pr & -> & H) Hs]. inversion N as [|? ? N1 N2]; subst. cbn [blockOf] in *.
    assert (Hx : x <> b).
    { intros ->. apply N1. rewrite map_app. apply in_or_app. right. left. reflexivity. }
    rewrite hset_other by exact Hx. split.
    + exists pr. rewrite hset_other by exact Hx. auto.
    + eapply IH; eauto.
Qed.
Lemma owned_set l newer older p v v' : owned (l, newer ++ (p, v) :: older) = owned (l, newer ++ (p, v') :: older).
Proof. unfold owned. cbn [fst snd]. f_equal. rewrite !map_app. reflexivity. Qed.
Lemma live_set s open l st p v v' : DInv s open -> In (l, st) open -> In (p, v) st ->
  SetPtr p v' s = (Ok tt, hset s (blockOf p) (setRaw v' (heap s (blockOf p)))).
Proof.
  intros D Ho Hp. destruct (d_open _ _ D _ Ho) as (_ & _ & _ & _ & Hs). pose proof (seg_in _ _ _ _ _ _ Hs Hp) as H.
  pose proof H as H0. destruct H0 as (prev & E & _). rewrite E in *. cbn [blockOf] in *.
  unfold SetPtr. rewrite bind_look. apply live_matches in H. rewrite H. reflexivity.
Qed.
Lemma DInv_set s before after l newer older p v v' :
  DInv s (before ++ (l, newer ++ (p, v) :: older) :: after) ->
  DInv (hset s (blockOf p) (setRaw v' (heap s (blockOf p)))) (before ++ (l, newer ++ (p, v') :: older) :: after).
Proof.
  intros D. set (st := newer ++ (p, v) :: older) in *. set (st' := newer ++ (p, v') :: older).
  assert (Ho : In (l, st) (before ++ (l, st) :: after)) by (apply in_middle; auto).
  pose proof (d_open _ _ D _ Ho) as C. pose proof (nodup_owned _ _ _ (d_nodup _ _ D) Ho) as N.
  assert (Hp : In (p, v) st) by (unfold st; apply in_or_app; right; left; reflexivity).
  pose proof C as (C1 & C2 & C3 & C4 & C5). cbn [fst snd] in *.
  pose proof (seg_in _ _ _ _ _ _ C5 Hp) as L. destruct p as [[prev x]|]; [|destruct L as (? & E & _); discriminate]. cbn [blockOf] in *. clear L.
  assert (Hxin : In x (map (fun e => blockOf (fst e)) st)).
  { apply in_map_iff. exists (Some (prev, x), v). split; [reflexivity|exact Hp]. }
  assert (EV : everything (hset s x (setRaw v' (heap s x))) (before ++ (l, st') :: after) = everything s (before ++ (l, st) :: after)).
  { unfold everything. cbn [hset pool roots]. rewrite !map_app. cbn [map]. unfold st, st'. rewrite (owned_set l newer older (Some (prev, x)) v v'). reflexivity. }
  assert (NDa := d_nodup _ _ D). pose proof NDa as NDb. unfold everything in NDb.
  assert (Hin : In x (concat (map owned (before ++ (l, st) :: after)))) by (eapply owned_in; [exact Ho|right; exact Hxin]).
  assert (H' : forall y, y <> x -> heap (hset s x (setRaw v' (heap s x))) y = heap s y) by (intros; apply hset_other; assumption).
  split.
  - apply D.
  - rewrite EV. exact NDa.
  - intros y Hy. rewrite EV in Hy. apply (d_bound _ _ D _ Hy).
  - intros y Hy. rewrite H'; [apply (d_pool _ _ D _ Hy)|]. intros ->. eapply (nodup_disj _ _ _ NDb Hy). apply in_or_app. auto.
  - intros y Hy. rewrite H'; [apply (d_roots _ _ D _ Hy)|]. intros ->.
    assert (ND3 : NoDup (roots s ++ concat (map owned (before ++ (l, st) :: after)))).
    { clear -NDb. induction (pool s); [exact NDb|]. inversion NDb; auto. }
    eapply (nodup_disj _ _ _ ND3 Hy Hin).
  - inversion N as [|? ? N1 N2]; subst. intros o Ho'. apply in_middle in Ho' as [->|Ho'].
    + unfold chain. cbn [fst snd]. rewrite H' by (intros E; apply N1; rewrite E; exact Hxin).
      repeat (split; [assumption|]). unfold st'. eapply seg_set; [exact C5|exact N2].
    + assert (Ho2 : In o (before ++ (l, st) :: after)) by (apply in_middle; auto).
      eapply chain_frame; [apply (d_open _ _ D _ Ho2)|]. intros b Hb. apply H'. intros ->.
      assert (Hdis : NoDup (owned (l, st) ++ concat (map owned (before ++ after)))).
      { assert (NA : forall (A B : list nat), NoDup (A ++ B) -> NoDup B).
        { induction A as [|? A IH]; intros B HH; [exact HH|]. inversion HH; auto. }
        apply NA in NDb. apply NA in NDb. eapply Permutation_NoDup; [|exact NDb].
        rewrite !map_app, !concat_app. cbn [map concat]. rewrite !app_assoc. apply Permutation_app_tail. apply Permutation_app_comm. }
      eapply (nodup_disj _ _ _ Hdis); [right; exact Hxin|]. eapply owned_in; eauto.
Qed.
Lemma disciplined_inv s open : disciplined s open -> DInv s open.
Proof.
  intros H. induction H as [w|s open pick l s' H IH E|s before after l st a v pick p s' H IH Ha E|s before after l st a v pick p s' H IH Ha E
     |s before after l st p v s' H IH E|s before after l st fuel s' H IH E|s before after l newer older p v v' s' H IH E|s open p r s' H IH E|s open p r s' H IH E].
  - apply DInv_start.
  - cbn [run] in E. unfold lift in E. destruct (NewLifetime pick s) as [[l'|] s1] eqn:En; [|discriminate]. cbn in E. injection E as -> ->.
    eapply DInv_lifetime; eauto.
  - cbn [run] in E. unfold lift in E. destruct (NewPtr UserFree l a v pick s) as [[q|] s1] eqn:En; [|discriminate]. cbn in E. injection E as -> ->.
    eapply DInv_new; eauto.
  - cbn [run] in E. unfold lift in E. destruct (PinPtr l a v pick s) as [[q|] s1] eqn:En; [|discriminate]. cbn in E. injection E as -> ->.
    unfold PinPtr in En. unfold bind at 1 in En. destruct (NewPtr UserFree l a v pick s) as [[[[r x]|]|] s1] eqn:En1; [|discriminate|discriminate].
    rewrite bind_modify in En. unfold ret in En. injection En as <- <-.
    apply DInv_pin; [eapply DInv_new; eauto|]. eapply NewPtr_rev; eauto.
  - cbn [run] in E. unfold lift in E.
    assert (Ho : In (l, (p, v) :: st) (before ++ (l, (p, v) :: st) :: after)) by (apply in_middle; auto).
    destruct (pop_end _ _ _ _ _ (d_open _ _ IH _ Ho) (nodup_owned _ _ _ (d_nodup _ _ IH) Ho)) as (s1 & E1 & P & _).
    rewrite E1 in E. cbn in E. injection E as <-. eapply popped_inv; eauto.
  - cbn [run] in E. destruct (EndLifetime fuel l s) as [[r s1]|] eqn:Ee; [|discriminate].
    destruct (DInv_end _ _ _ _ _ IH) as (s2 & _ & D2 & _ & _ & U). destruct (U _ _ _ Ee) as [-> ->]. cbn in E. injection E as <-. exact D2.
  - assert (Ho : In (l, newer ++ (p, v) :: older) (before ++ (l, newer ++ (p, v) :: older) :: after)) by (apply in_middle; auto).
    assert (Hp : In (p, v) (newer ++ (p, v) :: older)) by (apply in_or_app; right; left; reflexivity).
    cbn [run] in E. unfold lift in E. rewrite (live_set _ _ _ _ _ _ v' IH Ho Hp) in E. cbn in E. injection E as <-.
    apply DInv_set with v. exact IH.
  - rewrite (read_only _ _ _ _ (ex_intro _ p (or_introl eq_refl)) E). exact IH.
  - rewrite (read_only _ _ _ _ (ex_intro _ p (or_intror eq_refl)) E). exact IH.
Qed.

Lemma end_frees_all s before after l st : disciplined s (before ++ (l, st) :: after) ->
  exists s', (forall fuel, (length st < fuel)%nat -> run (OEndLifetime fuel l) s = Some (Ok RUnit, s')) /\
    released s' = released s ++ map snd st /\
    (forall p v, In (p, v) st -> v <> 0 -> rejected (OGet p) s' /\ rejected (OFree p) s') /\
    (forall l' st' p v, In (l', st') (before ++ after) -> In (p, v) st' -> run (OGet p) s' = Some (Ok (RVal v), s')).
Proof.
  intros H. apply disciplined_inv in H. destruct (DInv_end _ _ _ _ _ H) as (s' & E & D' & Rl & St & _).
  exists s'. split; [|split; [exact Rl|split]].
  - intros fuel Hf. cbn [run]. rewrite (E fuel Hf). reflexivity.
  - intros p v Hp Hv. specialize (St p v Hp Hv). destruct p as [[prev x]|]; [|contradiction].
    unfold rejected. cbn [run]. unfold lift, UserFreeMethod, GetPtr, EndPtr, bind, look. rewrite St. auto.
  - intros l' st' p v Ho Hp. eapply live_get; eauto.
Qed.
Lemma free_newest s before after l st p v : disciplined s (before ++ (l, (p, v) :: st) :: after) ->
  exists s', run (OFree p) s = Some (Ok RUnit, s') /\ released s' = released s ++ [v] /\
    (forall l' st' q w, In (l', st') (before ++ (l, st) :: after) -> In (q, w) st' -> run (OGet q) s' = Some (Ok (RVal w), s')).
Proof.
  intros H. pose proof (disciplined_inv _ _ H) as D.
  assert (Ho : In (l, (p, v) :: st) (before ++ (l, (p, v) :: st) :: after)) by (apply in_middle; auto).
  pose proof (d_open _ _ D _ Ho) as C. pose proof (nodup_owned _ _ _ (d_nodup _ _ D) Ho) as N.
  destruct (pop_end _ _ _ _ _ C N) as (s1 & E1 & P & _).
  exists s1. split; [cbn [run]; unfold lift; rewrite E1; reflexivity|].
  assert (E2 : run (OFree p) s = Some (Ok RUnit, s1)) by (cbn [run]; unfold lift; rewrite E1; reflexivity).
  split.
  - rewrite (p_rel _ _ _ _ P). destruct (chain_first _ _ _ _ _ C N) as (prev & x & -> & Hx & L & _). cbn [blockOf].
    destruct L as (q & _ & _ & _ & _ & _ & L4 & _). rewrite L4. reflexivity.
  - intros l' st' q w Ho' Hq. eapply live_get; [eapply popped_inv; eauto|exact Ho'|exact Hq].
Qed.
(** C81 *)
Lemma get_live s open l st p v : disciplined s open -> In (l, st) open -> In (p, v) st ->
  run (OGet p) s = Some (Ok (RVal v), s).
Proof. intros H. apply live_get. apply disciplined_inv. exact H. Qed.
Lemma set_live s open l st p v v' : disciplined s open -> In (l, st) open -> In (p, v) st ->
  exists s', run (OSet p v') s = Some (Ok RUnit, s') /\ released s' = released s.
Proof.
  intros H Ho Hp. apply disciplined_inv in H. eexists. cbn [run]. unfold lift.
  rewrite (live_set _ _ _ _ _ _ v' H Ho Hp). cbn. split; reflexivity.
Qed.
Lemma new_live s before after l st a v pick : disciplined s (before ++ (l, st) :: after) -> a <> O ->
  exists p s', run (ONew l a v pick) s = Some (Ok (RPtr p), s') /\ released s' = released s /\
    run (OApi p) s' = Some (Ok (RVal (Z.of_nat a)), s') /\
    (forall l' st' q w, In (l', st') (before ++ (l, st) :: after) -> In (q, w) st' -> q <> p).
Proof.
  intros H Ha. pose proof (disciplined_inv _ _ H) as D.
  assert (En : exists p s', NewPtr UserFree l a v pick s = (Ok p, s') /\ released s' = released s /\
     exists r x, p = Some (r, x) /\ rev (heap s' x) = r /\ api (heap s' x) = a).
  { unfold NewPtr. unfold bind at 1.
    assert (A : exists b s1, allocBlock pick s = (Ok b, s1) /\ released s1 = released s).
    { unfold allocBlock. destruct (match pick with Some k => takeAt k (pool s) | None => None end) as [[b rest]|]; eexists _, _; split; reflexivity. }
    destruct A as (b & s1 & -> & R1). rewrite bind_modify, bind_look. cbv zeta. rewrite bind_look, !bind_modify, bind_look. unfold ret.
    eexists _, _. split; [reflexivity|]. split; [exact R1|]. eexists _, _. split; [reflexivity|]. split; [reflexivity|].
    rewrite hset_same. reflexivity. }
  destruct En as (p & s' & E & R & r & x & -> & Hr & Hapi).
  pose proof (DInv_new _ _ _ _ _ _ _ _ _ _ D Ha E) as D'.
  exists (Some (r, x)), s'. split; [cbn [run]; unfold lift; rewrite E; reflexivity|]. split; [exact R|].
  assert (Ho : In (l, (Some (r, x), v) :: st) (before ++ (l, (Some (r, x), v) :: st) :: after)) by (apply in_middle; auto).
  split.
  - cbn [run]. unfold lift, ApiPtr. rewrite bind_look, Hr.
    assert (L := seg_in _ _ _ _ _ _ (proj2 (proj2 (proj2 (proj2 (d_open _ _ D' _ Ho))))) (or_introl eq_refl)).
    pose proof L as (q & Eq & Hq & _). injection Eq as <-.
    assert (Hm : matches r r = true) by (unfold matches; apply Z.eqb_refl). rewrite Hm. cbn [negb].
    destruct (notcounted r Hq) as [-> _]. unfold ret. cbn. rewrite Hapi. reflexivity.
  - intros l' st' q w Ho' Hq ->.
    assert (PE := Permutation_NoDup (Permutation_app_head (pool s') (Permutation_app_head (roots s') (owned_perm before after l (Some (r, x)) v st))) (d_nodup _ _ D')).
    cbn [blockOf] in PE.
    assert (NA : forall (A B : list nat), NoDup (A ++ B) -> NoDup B).
    { induction A as [|? A IH]; intros B HH; [exact HH|]. inversion HH; auto. }
    apply NA in PE. apply NA in PE. inversion PE as [|? ? N1 N2]; subst. apply N1.
    eapply owned_in; [exact Ho'|]. right. apply in_map_iff. eexists (_, _). split; [|exact Hq]. reflexivity.
Qed.
