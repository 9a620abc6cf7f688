From Verif Require Import BaseLemmas MmmModel MmmSpec.

(** ** Revisions *)
Definition low (r : Z) : Z := r mod 2^62.
Lemma masked_low r : 0 <= r < 2^64 -> masked r = low r.
Proof.
  intros H. unfold masked, low. change (Z.lor (2^62) (2^63)) with (3 * 2^62).
  apply Z.bits_inj'. intros i Hi. rewrite Z.ldiff_spec.
  destruct (Z_lt_ge_dec i 62).
  - rewrite Z.mod_pow2_bits_low by lia. rewrite Z.mul_pow2_bits_low by lia. apply andb_true_r.
  - rewrite Z.mod_pow2_bits_high by lia. destruct (Z_lt_ge_dec i 64).
    + assert (i = 62 \/ i = 63) as [-> | ->] by lia; apply andb_false_r.
    + rewrite (testbit_high r 64 i) by lia. reflexivity.
Qed.
Lemma matches_low a b : 0 <= a < 2^64 -> 0 <= b < 2^64 -> matches a b = (low a =? low b).
Proof. intros. unfold matches. rewrite !masked_low by lia. reflexivity. Qed.
Lemma low_bump r : 0 <= r < 2^64 -> low r < 2^62 - 1 -> u64 (r + 1) = r + 1 /\ low (r + 1) = low r + 1.
Proof.
  unfold low. intros H H1.
  assert (r + 1 < 2^64) by lia. split; [apply u64_small; lia|]. lia.
Qed.
Lemma or_bit r k : 0 <= k -> Z.lor r (2^k) = if Z.testbit r k then r else r + 2^k.
Proof.
  intros Hk. destruct (Z.testbit r k) eqn:E.
  - apply Z.bits_inj'. intros i Hi. rewrite Z.lor_spec, Z.pow2_bits_eqb by lia.
    destruct (Z.eqb_spec k i) as [->|]; [rewrite E; reflexivity|apply orb_false_r].
  - assert (D : Z.land r (2^k) = 0).
    { apply Z.bits_inj'. intros i Hi. rewrite Z.land_spec, Z.bits_0, Z.pow2_bits_eqb by lia.
      destruct (Z.eqb_spec k i) as [->|]; [rewrite E; reflexivity|apply andb_false_r]. }
    rewrite <- Z.lxor_lor by exact D. symmetry. apply Z.add_nocarry_lxor. exact D.
Qed.
Lemma or_low r k : 0 <= r < 2^64 -> 62 <= k <= 63 -> 0 <= Z.lor r (2^k) < 2^64 /\ low (Z.lor r (2^k)) = low r.
Proof.
  intros H Hk. rewrite or_bit by lia. destruct (Z.testbit r k) eqn:E; [auto|].
  assert (k = 62 \/ k = 63) as [-> | ->] by lia.
  - assert (Hb : (r / 2^62) mod 2 = 0).
    { rewrite Z.testbit_false in E by lia. exact E. }
    unfold low. lia.
  - assert (Hb : (r / 2^63) mod 2 = 0).
    { rewrite Z.testbit_false in E by lia. exact E. }
    unfold low. lia.
Qed.
Lemma pinned_bump r : 0 <= r < 2^64 -> low r < 2^62 - 1 -> isPinned r = true -> isPinned (r + 1) = true.
Proof.
  unfold isPinned, low. intros H H1 H2. rewrite Z.testbit_true in * by lia. lia.
Qed.

(** ** The invariant *)
Section SPEC.
Variable strict : bool.
Record Inv (s : state) : Prop := {
  v_fresh : (1 <= fresh s)%nat;
  v_new : forall b, (fresh s <= b)%nat -> rev (heap s b) = 0 /\ kind (heap s b) = KBlock;
  v_links : forall b, (prv (heap s b) < fresh s)%nat /\ (nxt (heap s b) < fresh s)%nat;
  v_pool : forall b, In b (pool s) -> (1 <= b < fresh s)%nat /\ kind (heap s b) = KBlock;
  v_roots : forall b, In b (roots s) -> (b < fresh s)%nat /\ (strict = true -> kind (heap s b) = KRoot);
  v_rev : forall b, 0 <= rev (heap s b) < 2^64 /\ low (rev (heap s b)) <= ends s;
  v_zero : api (heap s 0%nat) = O /\ kind (heap s 0%nat) = KBlock;
  v_kind : forall b, kind (heap s b) = KRoot -> api (heap s b) = O /\ rev (heap s b) <= ends s }.

(* what no operation undoes *)
Record Rel (s s' : state) : Prop := {
  r_fresh : (fresh s <= fresh s')%nat;
  r_ends : ends s <= ends s';
  r_low : forall b, (b < fresh s)%nat -> low (rev (heap s b)) <= low (rev (heap s' b));
  r_pin : forall b, (b < fresh s)%nat -> isPinned (rev (heap s b)) = true -> isPinned (rev (heap s' b)) = true;
  r_kind : forall b, (b < fresh s)%nat -> kind (heap s' b) = kind (heap s b) }.
Lemma Rel_refl s : Rel s s.
Proof. split; auto; lia. Qed.
Lemma Rel_trans a b c : Rel a b -> Rel b c -> Rel a c.
Proof.
  intros H1 H2. split.
  - pose proof (r_fresh _ _ H1). pose proof (r_fresh _ _ H2). lia.
  - pose proof (r_ends _ _ H1). pose proof (r_ends _ _ H2). lia.
  - intros x Hx. pose proof (r_low _ _ H1 x Hx). pose proof (r_fresh _ _ H1). pose proof (r_low _ _ H2 x ltac:(lia)). lia.
  - intros x Hx Hp. pose proof (r_fresh _ _ H1). apply (r_pin _ _ H2); [lia|]. apply (r_pin _ _ H1); auto.
  - intros x Hx. pose proof (r_fresh _ _ H1). rewrite (r_kind _ _ H2) by lia. apply (r_kind _ _ H1); auto.
Qed.

(** ** Hoare triples: [spec P m Q] *)
Definition spec {A} (P : state -> Prop) (m : M A) (Q : A -> state -> Prop) : Prop :=
  forall s r s', Inv s -> P s -> m s = (r, s') ->
    ends s <= ends s' /\ (counter_ok s' -> Inv s' /\ Rel s s' /\ match r with Ok a => Q a s' | Panic => True end).
(* P survives *)
Definition stable (P : state -> Prop) : Prop := forall s s', Rel s s' -> P s -> P s'.
(* the facts we track *)
Definition vld (b : nat) (s : state) : Prop := (b < fresh s)%nat.
Definition isb (b : nat) (s : state) : Prop := (1 <= b < fresh s)%nat /\ kind (heap s b) = KBlock.
Definition isr (b : nat) (s : state) : Prop := (b < fresh s)%nat /\ kind (heap s b) = KRoot.
Definition lowge (b : nat) (n : Z) (s : state) : Prop := (b < fresh s)%nat /\ n <= low (rev (heap s b)).
Definition pinned (b : nat) (s : state) : Prop := (b < fresh s)%nat /\ isPinned (rev (heap s b)) = true.
Definition fact (F : Prop) (s : state) : Prop := F.
Definition both (P Q : state -> Prop) (s : state) : Prop := P s /\ Q s.
Definition imp (F : Prop) (P : state -> Prop) (s : state) : Prop := F -> P s.
Lemma st_vld b : stable (vld b).
Proof. intros s s' R H. unfold vld in *. pose proof (r_fresh _ _ R). lia. Qed.
Lemma st_isb b : stable (isb b).
Proof. intros s s' R [H1 H2]. split; [pose proof (r_fresh _ _ R); lia|]. rewrite (r_kind _ _ R); auto; lia. Qed.
Lemma st_isr b : stable (isr b).
Proof. intros s s' R [H1 H2]. split; [pose proof (r_fresh _ _ R); lia|]. rewrite (r_kind _ _ R); auto. Qed.
Lemma st_lowge b n : stable (lowge b n).
Proof. intros s s' R [H1 H2]. split; [pose proof (r_fresh _ _ R); lia|]. pose proof (r_low _ _ R b H1). lia. Qed.
Lemma st_pinned b : stable (pinned b).
Proof. intros s s' R [H1 H2]. split; [pose proof (r_fresh _ _ R); lia|]. apply (r_pin _ _ R); auto. Qed.
Lemma st_fact F : stable (fact F).
Proof. intros s s' _ H. exact H. Qed.
Lemma st_both P Q : stable P -> stable Q -> stable (both P Q).
Proof. intros HP HQ s s' R [H1 H2]. split; [eapply HP|eapply HQ]; eauto. Qed.
Lemma st_imp F P : stable P -> stable (imp F P).
Proof. intros HP s s' R H HF. eapply HP; eauto. Qed.
End SPEC.
Create HintDb st.
#[export] Hint Resolve st_vld st_isb st_isr st_lowge st_pinned st_fact st_both st_imp : st.

Definition mono {A} (m : M A) : Prop := forall s r s', m s = (r, s') -> ends s <= ends s'.
Lemma mono_bind {A B} (m : M A) (k : A -> M B) : mono m -> (forall a, mono (k a)) -> mono (bind m k).
Proof.
  intros Hm Hk s r s' E. unfold bind in E. destruct (m s) as [[a|] s1] eqn:Em.
  - apply Hm in Em. apply Hk in E. lia.
  - injection E as <- <-. apply Hm in Em. lia.
Qed.
Ltac mono1 := intros s r s' E; cbv [ret crash look store countEnd release putPool putRoot getWords setWords] in E;
  injection E as <- <-; cbn; lia.
Lemma mono_ret {A} (a : A) : mono (ret a). Proof. mono1. Qed.
Lemma mono_crash {A} : mono (@crash A). Proof. mono1. Qed.
Lemma mono_look i : mono (look i). Proof. mono1. Qed.
Lemma mono_store i c : mono (store i c). Proof. mono1. Qed.
Lemma mono_countEnd : mono countEnd. Proof. mono1. Qed.
Lemma mono_release v : mono (release v). Proof. mono1. Qed.
Lemma mono_putPool v : mono (putPool v). Proof. mono1. Qed.
Lemma mono_putRoot v : mono (putRoot v). Proof. mono1. Qed.
Lemma mono_getWords v : mono (getWords v). Proof. mono1. Qed.
Lemma mono_setWords v w : mono (setWords v w). Proof. mono1. Qed.
Lemma mono_allocBlock v : mono (allocBlock v).
Proof.
  intros s r s' E. unfold allocBlock in E.
  destruct v as [k|]; [destruct (takeAt k (pool s)) as [[b rest]|]|]; injection E as <- <-; cbn; lia.
Qed.
Lemma mono_allocRoot v : mono (allocRoot v).
Proof.
  intros s r s' E. unfold allocRoot in E.
  destruct v as [k|]; [destruct (takeAt k (roots s)) as [[b rest]|]|]; injection E as <- <-; cbn; lia.
Qed.
#[export] Hint Resolve mono_ret mono_crash mono_look mono_store mono_countEnd mono_release mono_putPool
  mono_putRoot mono_getWords mono_setWords mono_allocBlock mono_allocRoot : mono.
Ltac mono :=
  repeat first
    [ solve [eauto with mono nocore]
    | apply mono_bind; [|intros ?]
    | match goal with
      | |- mono (if ?c then _ else _) => destruct c
      | |- mono (match ?c with _ => _ end) => destruct c
      | |- mono (let _ := _ in _) => cbv zeta
      end ].
Lemma mono_modify i f : mono (modify i f). Proof. unfold modify. mono. Qed.
#[export] Hint Resolve mono_modify : mono.
Lemma mono_bump i : mono (bump i). Proof. unfold bump. mono. Qed.
#[export] Hint Resolve mono_bump : mono.
Lemma mono_EndPtr p : mono (EndPtr p). Proof. unfold EndPtr. mono. Qed.
#[export] Hint Resolve mono_EndPtr : mono.
Lemma mono_UserFree p : mono (UserFreeMethod p). Proof. unfold UserFreeMethod. mono. Qed.
#[export] Hint Resolve mono_UserFree : mono.
Lemma mono_freeObj b : mono (freeObj b). Proof. unfold freeObj. mono. Qed.
#[export] Hint Resolve mono_freeObj : mono.
Lemma mono_NewLifetime p : mono (NewLifetime p). Proof. unfold NewLifetime. mono. Qed.
Lemma mono_NewPtr f l a v p : mono (NewPtr f l a v p). Proof. unfold NewPtr. mono. Qed.
#[export] Hint Resolve mono_NewLifetime mono_NewPtr : mono.
Lemma mono_PinPtr l a v p : mono (PinPtr l a v p). Proof. unfold PinPtr. mono. Qed.
Lemma mono_LetPtr l a v p : mono (LetPtr l a v p). Proof. unfold LetPtr. mono. Qed.
Lemma mono_GetPtr p : mono (GetPtr p). Proof. unfold GetPtr. mono. Qed.
Lemma mono_SetPtr p v : mono (SetPtr p v). Proof. unfold SetPtr. mono. Qed.
Lemma mono_ApiPtr p : mono (ApiPtr p). Proof. unfold ApiPtr. mono. Qed.
#[export] Hint Resolve mono_PinPtr mono_LetPtr mono_GetPtr mono_SetPtr mono_ApiPtr : mono.
Lemma mono_MovePtr p l k : mono (MovePtr p l k). Proof. unfold MovePtr. mono. Qed.
Lemma mono_CopyPtr p l k : mono (CopyPtr p l k). Proof. unfold CopyPtr. mono. Qed.
Lemma mono_LifePtr p : mono (LifePtr p). Proof. unfold LifePtr. mono. Qed.
#[export] Hint Resolve mono_MovePtr mono_CopyPtr mono_LifePtr : mono.

(** ** Rules *)
Section RULES.
Variable strict : bool.
Notation spec := (spec strict).
Notation Inv := (Inv strict).
Lemma spec_step {A B} P (m : M A) Q (k : A -> M B) Q' :
  stable P -> spec P m Q -> (forall a, spec (both P (Q a)) (k a) Q') -> (forall a, mono (k a)) ->
  spec P (bind m k) Q'.
Proof.
  intros St Hm Hk He s r s' I HP E. unfold bind in E. destruct (m s) as [[a|] s1] eqn:Em.
  - destruct (Hm _ _ _ I HP Em) as [L1 H1]. pose proof (He a _ _ _ E) as L2. split; [lia|]. intros C.
    destruct H1 as (I1 & R1 & Q1); [unfold counter_ok in *; lia|].
    destruct (Hk a _ _ _ I1 (conj (St _ _ R1 HP) Q1) E) as [_ H2]. destruct (H2 C) as (I2 & R2 & Q2).
    split; [exact I2|]. split; [eapply Rel_trans; eassumption|exact Q2].
  - injection E as <- <-. destruct (Hm _ _ _ I HP Em) as [L1 H1]. split; [exact L1|]. intros C.
    destruct (H1 C) as (I1 & R1 & _). auto.
Qed.
Lemma spec_weak {A} (P P' : state -> Prop) (m : M A) (Q Q' : A -> state -> Prop) :
  spec P' m Q' -> (forall s, Inv s -> P s -> P' s) -> (forall a s, Inv s -> Q' a s -> Q a s) -> spec P m Q.
Proof.
  intros H H1 H2 s r s' I HP E. destruct (H s r s' I (H1 s I HP) E) as [L H3]. split; [exact L|].
  intros C. destruct (H3 C) as (I' & R & HQ). split; [exact I'|]. split; [exact R|]. destruct r; auto.
Qed.
Lemma spec_frame {A} (P R : state -> Prop) (m : M A) (Q : A -> state -> Prop) :
  stable R -> spec P m Q -> spec (both P R) m (fun a => both (Q a) R).
Proof.
  intros St H s r s' I [HP HR] E. destruct (H s r s' I HP E) as [L H3]. split; [exact L|].
  intros C. destruct (H3 C) as (I' & R' & HQ). split; [exact I'|]. split; [exact R'|].
  destruct r; [split; eauto|auto].
Qed.
Lemma spec_pure {A} (P : state -> Prop) (m : M A) Q : (forall s, Inv s -> P s -> m s = m s -> exists a, m s = (Ok a, s) /\ Q a s) -> spec P m Q.
Proof.
  intros H s r s' I HP E. destruct (H s I HP eq_refl) as (a & Ha & HQ). rewrite Ha in E. injection E as <- <-.
  split; [lia|]. intros _. split; [exact I|]. split; [apply Rel_refl|exact HQ].
Qed.
Lemma spec_ret {A} (P : state -> Prop) (a : A) (Q : A -> state -> Prop) : (forall s, Inv s -> P s -> Q a s) -> spec P (ret a) Q.
Proof. intros H. apply spec_pure. intros s I HP _. exists a. split; [reflexivity|auto]. Qed.
Lemma spec_crash {A} (P : state -> Prop) (Q : A -> state -> Prop) : spec P crash Q.
Proof.
  intros s r s' I HP E. unfold crash in E. injection E as <- <-. split; [lia|]. intros _. split; [exact I|]. split; [apply Rel_refl|auto].
Qed.
(* what is known of a cell that was read at b, also later *)
Record read (b : nat) (c : cell) (s : state) : Prop := {
  rd_prv : vld (prv c) s;
  rd_nxt : vld (nxt c) s;
  rd_rev : 0 <= rev c < 2^64;
  rd_low : lowge b (low (rev c)) s;
  rd_pin : isPinned (rev c) = true -> pinned b s;
  rd_kind : kind (heap s b) = kind c;
  rd_root : kind c = KRoot -> api c = O /\ low (rev c) = rev c;
  rd_zero : api c <> O -> b <> O }.
Lemma st_read b c : stable (read b c).
Proof.
  intros s s' R [H1 H2 H3 H4 H5 H6 H7 H8]. constructor; auto.
  - eapply st_vld; eauto. - eapply st_vld; eauto. - eapply st_lowge; eauto.
  - intros. eapply st_pinned; eauto.
  - rewrite (r_kind _ _ R); [exact H6|apply H4].
Qed.
Lemma low_le r : 0 <= r -> low r <= r.
Proof. unfold low. lia. Qed.
Lemma low_small r : 0 <= r < 2^62 -> low r = r.
Proof. unfold low. intros. apply Z.mod_small. lia. Qed.
Lemma spec_look (P : state -> Prop) b : (forall s, Inv s -> P s -> ends s < 2^62 - 1 -> vld b s) -> spec P (look b) (fun c => read b c).
Proof.
  intros Hv s r s' I HP E. unfold look in E. injection E as <- <-. split; [lia|]. intros C.
  specialize (Hv s I HP C).
  split; [exact I|]. split; [apply Rel_refl|].
  pose proof (v_rev _ _ I b) as [Hr1 Hr2]. destruct (v_links _ _ I b) as [Hl1 Hl2].
  constructor; try assumption; try reflexivity.
  - split; [exact Hv|lia].
  - intros Hp. split; assumption.
  - intros Hk. destruct (v_kind _ _ I b Hk) as [Ha He]. split; [exact Ha|]. apply low_small. unfold counter_ok in C. lia.
  - intros Ha ->. destruct (v_zero _ _ I). contradiction.
Qed.

(** Updates of the heap at one cell. *)
Lemma upd_same {A} (f : nat -> A) i a : upd f i a i = a.
Proof. unfold upd. rewrite Nat.eqb_refl. reflexivity. Qed.
Lemma upd_other {A} (f : nat -> A) i a j : j <> i -> upd f i a j = f j.
Proof. unfold upd. intros. destruct (Nat.eqb_spec j i); congruence. Qed.
Lemma spec_modify (P : state -> Prop) b f (Q : unit -> state -> Prop) :
  (forall s, Inv s -> P s -> ends s < 2^62 - 1 ->
     let c := heap s b in let c' := f c in
     (prv c' < fresh s)%nat /\ (nxt c' < fresh s)%nat /\ kind c' = kind c /\ 0 <= rev c' < 2^64 /\ low (rev c') = low (rev c) /\
     (isPinned (rev c) = true -> isPinned (rev c') = true) /\
     (rev c' <> rev c -> isb b s) /\
     (api c' = api c \/ isb b s \/ (vld b s /\ api c' = O))) ->
  (forall s, Inv s -> P s -> ends s < 2^62 - 1 ->
     (forall s', Rel s s' -> heap s' b = f (heap s b) -> fresh s' = fresh s -> Q tt s')) -> spec P (modify b f) Q.
Proof.
  intros H HQ s r s' I HP E. unfold modify, bind, look, store in E. injection E as <- <-. split; [cbn; lia|].
  intros C. unfold counter_ok in C. cbn in C. specialize (H s I HP C). cbv zeta in H.
  destruct H as (H1 & H2 & H3 & H4 & H5 & H6 & H7 & H8).
  assert (R : Rel s (mkState (upd (heap s) b (f (heap s b))) (fresh s) (pool s) (roots s) (words s) (released s) (ends s))).
  { split; cbn; try lia.
    - intros x Hx. destruct (Nat.eq_dec x b) as [->|]; [rewrite upd_same; lia|rewrite upd_other by assumption; lia].
    - intros x Hx Hp. destruct (Nat.eq_dec x b) as [->|]; [rewrite upd_same; auto|rewrite upd_other by assumption; auto].
    - intros x Hx. destruct (Nat.eq_dec x b) as [->|]; [rewrite upd_same; auto|rewrite upd_other by assumption; auto]. }
  split; [|split; [exact R|apply (HQ s I HP C); [exact R|cbn; apply upd_same|reflexivity]]].
  split; cbn.
  - apply (v_fresh _ _ I).
  - intros x Hx. destruct (Nat.eq_dec x b) as [->|]; [rewrite upd_same|rewrite upd_other by assumption; apply (v_new _ _ I x Hx)].
    destruct (v_new _ _ I b Hx) as [N1 N2]. split; [|congruence].
    destruct (Z.eq_dec (rev (f (heap s b))) (rev (heap s b))) as [He|He]; [congruence|]. destruct (H7 He). lia.
  - intros x. destruct (Nat.eq_dec x b) as [->|]; [rewrite upd_same; auto|rewrite upd_other by assumption; apply (v_links _ _ I x)].
  - intros x Hx. destruct (v_pool _ _ I x Hx) as [V1 V2]. split; [exact V1|].
    destruct (Nat.eq_dec x b) as [->|]; [rewrite upd_same; congruence|rewrite upd_other by assumption; exact V2].
  - intros x Hx. destruct (v_roots _ _ I x Hx) as [V1 V2]. split; [exact V1|].
    destruct (Nat.eq_dec x b) as [->|]; [rewrite upd_same; intros; rewrite H3; auto|rewrite upd_other by assumption; exact V2].
  - intros x. destruct (Nat.eq_dec x b) as [->|]; [rewrite upd_same|rewrite upd_other by assumption; apply (v_rev _ _ I x)].
    destruct (v_rev _ _ I b). split; [assumption|lia].
  - destruct (v_zero _ _ I) as [Z1 Z2]. destruct (Nat.eq_dec 0%nat b) as [<-|]; [rewrite upd_same|rewrite upd_other by assumption; auto].
    split; [|congruence]. destruct H8 as [H8|[[H8 _]|(_ & H8)]]; [congruence|lia|exact H8].
  - intros x. destruct (Nat.eq_dec x b) as [->|]; [rewrite upd_same|rewrite upd_other by assumption; apply (v_kind _ _ I x)].
    intros Hk. rewrite H3 in Hk. destruct (v_kind _ _ I b Hk) as [K1 K2]. split.
    + destruct H8 as [H8|[[_ H8]|(_ & H8)]]; congruence.
    + destruct (Z.eq_dec (rev (f (heap s b))) (rev (heap s b))) as [He|He]; [congruence|]. destruct (H7 He). congruence.
Qed.
(* the ghost counter and the lists *)
Lemma spec_other (P : state -> Prop) (m : M unit) (Q : unit -> state -> Prop) (f : state -> state) :
  (forall s, m s = (Ok tt, f s)) ->
  (forall s, heap (f s) = heap s /\ fresh (f s) = fresh s /\ ends (f s) = ends s) ->
  (forall s, Inv s -> P s -> ends s < 2^62 - 1 -> (forall b, In b (pool (f s)) -> In b (pool s) \/ isb b s) /\
     (forall b, In b (roots (f s)) -> In b (roots s) \/ (vld b s /\ (strict = true -> isr b s)))) ->
  (forall s, P s -> Q tt (f s)) -> spec P m Q.
Proof.
  intros Hm Hf Hl HQ s r s' I HP E. rewrite Hm in E. injection E as <- <-.
  destruct (Hf s) as (F1 & F2 & F3). split; [lia|]. intros C. unfold counter_ok in C. rewrite F3 in C.
  destruct (Hl s I HP C) as [L1 L2].
  split; [|split; [|apply HQ; exact HP]].
  - destruct I. split; rewrite ?F1, ?F2, ?F3; auto.
    + intros b Hb. destruct (L1 b Hb) as [|[]]; auto.
    + intros b Hb. destruct (L2 b Hb) as [|[V1 V2]]; auto. split; [exact V1|]. intros Hs. apply V2; assumption.
  - split; rewrite ?F1, ?F2, ?F3; auto; intros; lia.
Qed.
End RULES.
#[export] Hint Resolve st_read : st.

Section OPS.
Variable strict : bool.
Notation spec := (spec strict).
Notation Inv := (Inv strict).
Lemma spec_bump (P : state -> Prop) b n :
  (forall s, P s -> lowge b n s) -> spec P (bump b) (fun _ => lowge b (n + 1)).
Proof.
  intros HP0 s r s' I HP E. apply HP0 in HP. unfold bump, modify, bind, look, store, countEnd in E. injection E as <- <-. split; [cbn; lia|].
  intros C. unfold counter_ok in C. cbn in C. destruct HP as [Hv Hn].
  pose proof (v_rev _ _ I b) as [Hr1 Hr2].
  destruct (low_bump (rev (heap s b)) Hr1 ltac:(lia)) as [B1 B2].
  assert (Hl : low (u64 (rev (heap s b) + 1)) = low (rev (heap s b)) + 1) by (rewrite B1; exact B2).
  assert (Hr : 0 <= u64 (rev (heap s b) + 1) < 2^64).
  { unfold u64. lia. }

  split; [|split].
  - split; cbn [heap fresh pool roots words released ends].
    + apply (v_fresh _ _ I).
    + intros x Hx. unfold vld in Hv. rewrite upd_other by lia. apply (v_new _ _ I x Hx).
    + intros x. destruct (Nat.eq_dec x b) as [->|]; [rewrite upd_same|rewrite upd_other by assumption]; apply (v_links _ _ I).
    + intros x Hx. destruct (Nat.eq_dec x b) as [->|]; [rewrite upd_same|rewrite upd_other by assumption]; apply (v_pool _ _ I); exact Hx.
    + intros x Hx. destruct (Nat.eq_dec x b) as [->|]; [rewrite upd_same|rewrite upd_other by assumption]; apply (v_roots _ _ I); exact Hx.
    + intros x. destruct (Nat.eq_dec x b) as [->|]; [rewrite upd_same|rewrite upd_other by assumption; destruct (v_rev _ _ I x); split; [assumption|lia]].
      unfold setRev; cbn [rev]. rewrite Hl. split; [exact Hr|lia].
    + destruct (Nat.eq_dec 0%nat b) as [<-|]; [rewrite upd_same|rewrite upd_other by assumption]; apply (v_zero _ _ I).
    + intros x Hk. destruct (Nat.eq_dec x b) as [->|].
      * rewrite upd_same in *. unfold setRev in *; cbn [api rev kind] in *. destruct (v_kind _ _ I b Hk). split; [assumption|]. rewrite B1. lia.
      * rewrite upd_other in * by assumption. destruct (v_kind _ _ I x Hk). split; [assumption|]. lia.
  - split; cbn [heap fresh pool roots words released ends]; try lia.
    + intros x Hx. destruct (Nat.eq_dec x b) as [->|]; [rewrite upd_same; unfold setRev; cbn [rev]; lia|rewrite upd_other by assumption; lia].
    + intros x Hx Hp. destruct (Nat.eq_dec x b) as [->|]; [rewrite upd_same; unfold setRev; cbn [rev]|rewrite upd_other by assumption; auto].
      rewrite B1. apply pinned_bump; auto. lia.
    + intros x Hx. destruct (Nat.eq_dec x b) as [->|]; [rewrite upd_same; auto|rewrite upd_other by assumption; auto].
  - split; cbn [heap fresh pool roots words released ends]; [exact Hv|]. rewrite upd_same. unfold setRev; cbn [rev]. lia.
Qed.
Lemma takeAt_in k l x r : takeAt k l = Some (x, r) -> In x l /\ forall y, In y r -> In y l.
Proof.
  revert k x r. induction l as [|z l IH]; intros k x r E; cbn in E; [destruct k; discriminate|].
  destruct k; [injection E as -> ->; split; [left; reflexivity|intros; right; assumption]|].
  cbn [takeAt] in E. destruct (takeAt k l) as [[y r']|] eqn:T; [|discriminate]. injection E as -> <-.
  destruct (IH _ _ _ T). split; [right; assumption|]. intros y' [->|Hy]; [left; reflexivity|right; auto].
Qed.
Lemma spec_allocRoot P pick : spec P (allocRoot pick) (fun b => both (vld b) (fun s => strict = true -> isr b s)).
Proof.
  intros s r s' I HP E. unfold allocRoot in E.
  set (t := match pick with Some k => takeAt k (roots s) | None => None end) in *.
  destruct t as [[b rest]|] eqn:Et.
  - injection E as <- <-. split; [cbn; lia|]. intros C.
    assert (Hin : In b (roots s) /\ forall y, In y rest -> In y (roots s)).
    { destruct pick as [k|]; [|discriminate]. apply takeAt_in with k. exact Et. }
    destruct Hin as [Hb Hrest]. destruct (v_roots _ _ I b Hb) as [V1 V2].
    split; [|split].
    + destruct I. split; cbn; auto.
    + split; cbn; auto; lia.
    + split; [exact V1|]. intros Hs. split; [exact V1|]. cbn. apply V2. exact Hs.
  - injection E as <- <-. split; [cbn; lia|]. intros C. unfold counter_ok in C. cbn in C.
    pose proof (v_fresh _ _ I) as Hf.
    assert (He : 0 <= ends s).
    { pose proof (v_rev _ _ I 0%nat). unfold low in *. pose proof (Z.mod_pos_bound (rev (heap s 0%nat)) (2^62) eq_refl). lia. }
    split; [|split].
    + split; cbn.
      * lia.
      * intros x Hx. rewrite upd_other by lia. apply (v_new _ _ I). lia.
      * intros x. destruct (Nat.eq_dec x (fresh s)) as [->|]; [rewrite upd_same; cbn; lia|rewrite upd_other by assumption].
        pose proof (v_links _ _ I x). lia.
      * intros x Hx. destruct (v_pool _ _ I x Hx) as [V1 V2]. rewrite upd_other by lia. split; [lia|exact V2].
      * intros x Hx. destruct (v_roots _ _ I x Hx) as [V1 V2]. rewrite upd_other by lia. split; [lia|exact V2].
      * intros x. destruct (Nat.eq_dec x (fresh s)) as [->|]; [rewrite upd_same; cbn; unfold low; cbn; lia|rewrite upd_other by assumption; apply (v_rev _ _ I)].
      * rewrite upd_other by lia. apply (v_zero _ _ I).
      * intros x. destruct (Nat.eq_dec x (fresh s)) as [->|]; [rewrite upd_same; cbn; auto|rewrite upd_other by assumption; apply (v_kind _ _ I)].
    + split; cbn; try lia.
      * intros x Hx. rewrite upd_other by lia. lia.
      * intros x Hx. rewrite upd_other by lia. auto.
      * intros x Hx. rewrite upd_other by lia. auto.
    + split; cbn; [unfold vld; cbn; lia|]. intros _. split; cbn; [lia|]. rewrite upd_same. reflexivity.
Qed.
(* allocation together with the first writes to the block (mmm.go:355-359) *)
Definition create f a v pick : M nat := do b <- allocBlock pick; do _ <- modify b (fun c => setCb f (setRaw v (setApi a c))); ret b.
Lemma spec_create P f a v pick : spec P (create f a v pick) (fun b => isb b).
Proof.
  intros s r s' I HP E. unfold create, bind, allocBlock, modify, look, store, ret in E.
  set (t := match pick with Some k => takeAt k (pool s) | None => None end) in *.
  destruct t as [[b rest]|] eqn:Et.
  - injection E as <- <-. split; [cbn; lia|]. intros C.
    assert (Hin : In b (pool s) /\ forall y, In y rest -> In y (pool s)).
    { destruct pick as [k|]; [|discriminate]. apply takeAt_in with k. exact Et. }
    destruct Hin as [Hb Hrest]. destruct (v_pool _ _ I b Hb) as [V1 V2].
    split; [|split].
    + destruct I as [I1 I2 I3 I4 I5 I6 I7 I8]. split; cbn; auto.
      * intros x Hx. rewrite upd_other by lia. auto.
      * intros x. destruct (Nat.eq_dec x b) as [->|]; [rewrite upd_same; cbn|rewrite upd_other by assumption]; auto.
      * intros x Hx. destruct (Nat.eq_dec x b) as [->|]; [rewrite upd_same; cbn|rewrite upd_other by assumption]; auto.
      * intros x Hx. destruct (Nat.eq_dec x b) as [->|]; [rewrite upd_same; cbn|rewrite upd_other by assumption]; auto.
      * intros x. destruct (Nat.eq_dec x b) as [->|]; [rewrite upd_same; cbn|rewrite upd_other by assumption]; auto.
      * rewrite upd_other by lia. auto.
      * intros x. destruct (Nat.eq_dec x b) as [->|]; [rewrite upd_same; cbn; congruence|rewrite upd_other by assumption]; auto.
    + split; cbn; auto; try lia.
      * intros x Hx. destruct (Nat.eq_dec x b) as [->|]; [rewrite upd_same; cbn|rewrite upd_other by assumption]; lia.
      * intros x Hx. destruct (Nat.eq_dec x b) as [->|]; [rewrite upd_same; cbn|rewrite upd_other by assumption]; auto.
      * intros x Hx. destruct (Nat.eq_dec x b) as [->|]; [rewrite upd_same; cbn|rewrite upd_other by assumption]; auto.
    + split; cbn; [exact V1|]. rewrite upd_same. exact V2.
  - injection E as <- <-. split; [cbn; lia|]. intros C. unfold counter_ok in C. cbn in C.
    pose proof (v_fresh _ _ I) as Hf.
    assert (He : 0 <= ends s).
    { pose proof (v_rev _ _ I 0%nat). unfold low in *. pose proof (Z.mod_pos_bound (rev (heap s 0%nat)) (2^62) eq_refl). lia. }
    assert (EQ : forall g x, x <> fresh s -> upd (upd (heap s) (fresh s) (mkCell 0 0 0 NoCallback 0 0 KBlock)) (fresh s) g x = heap s x).
    { intros g x Hx. rewrite !upd_other by assumption. reflexivity. }
    split; [|split].
    + split; cbn.
      * lia.
      * intros x Hx. rewrite EQ by lia. apply (v_new _ _ I). lia.
      * intros x. destruct (Nat.eq_dec x (fresh s)) as [->|]; [rewrite !upd_same; cbn; lia|rewrite EQ by assumption].
        pose proof (v_links _ _ I x). lia.
      * intros x Hx. destruct (v_pool _ _ I x Hx) as [V1 V2]. rewrite EQ by lia. split; [lia|exact V2].
      * intros x Hx. destruct (v_roots _ _ I x Hx) as [V1 V2]. rewrite EQ by lia. split; [lia|exact V2].
      * intros x. destruct (Nat.eq_dec x (fresh s)) as [->|]; [rewrite !upd_same; cbn; unfold low; cbn; lia|rewrite EQ by assumption; apply (v_rev _ _ I)].
      * rewrite EQ by lia. apply (v_zero _ _ I).
      * intros x. destruct (Nat.eq_dec x (fresh s)) as [->|]; [rewrite !upd_same; cbn; discriminate|rewrite EQ by assumption; apply (v_kind _ _ I)].
    + split; cbn; try lia.
      * intros x Hx. rewrite EQ by lia. lia.
      * intros x Hx. rewrite EQ by lia. auto.
      * intros x Hx. rewrite EQ by lia. auto.
    + split; cbn; [lia|]. rewrite !upd_same. reflexivity.
Qed.
Lemma spec_eq {A} P (m m' : M A) Q : (forall s, m s = m' s) -> spec P m' Q -> spec P m Q.
Proof. intros H H' s r s' I HP E. rewrite H in E. eapply H'; eauto. Qed.

(** Simple field updates *)
Ltac modrule := apply spec_modify; [|intros; exact Logic.I];
  intros s I HP C; cbv zeta; pose proof (v_links _ _ I) as HL; pose proof (v_rev _ _ I) as HR.
Lemma spec_setNxt (P : state -> Prop) b n : (forall s, Inv s -> P s -> vld n s) -> spec P (modify b (setNxt n)) (fun _ _ => True).
Proof.
  intros H. modrule. specialize (HL b). specialize (HR b). specialize (H s I HP). unfold vld in H.
  unfold setNxt; cbn [prv nxt api cb rev raw kind]. intuition congruence.
Qed.
Lemma spec_setPrv (P : state -> Prop) b n : (forall s, Inv s -> P s -> vld n s) -> spec P (modify b (setPrv n)) (fun _ _ => True).
Proof.
  intros H. modrule. specialize (HL b). specialize (HR b). specialize (H s I HP). unfold vld in H.
  unfold setPrv; cbn [prv nxt api cb rev raw kind]. intuition congruence.
Qed.
Lemma spec_setCb (P : state -> Prop) b n : spec P (modify b (setCb n)) (fun _ _ => True).
Proof. modrule. specialize (HL b). specialize (HR b). unfold setCb; cbn [prv nxt api cb rev raw kind]. intuition congruence. Qed.
Lemma spec_setRaw (P : state -> Prop) b n : spec P (modify b (setRaw n)) (fun _ _ => True).
Proof. modrule. specialize (HL b). specialize (HR b). unfold setRaw; cbn [prv nxt api cb rev raw kind]. intuition congruence. Qed.
Lemma spec_setApi (P : state -> Prop) b a : (forall s, Inv s -> P s -> isb b s) -> spec P (modify b (setApi a)) (fun _ _ => True).
Proof.
  intros H. modrule. specialize (HL b). specialize (HR b). specialize (H s I HP). unfold setApi; cbn [prv nxt api cb rev raw kind].
  repeat match goal with |- _ /\ _ => split end; try tauto; try congruence.
Qed.
Lemma spec_setRoot (P : state -> Prop) b : (forall s, Inv s -> P s -> vld b s /\ (strict = true -> isr b s)) -> spec P (modify b (setApi 0)) (fun _ _ => True).
Proof.
  intros H. modrule. specialize (HL b). specialize (HR b). destruct (H s I HP) as [H1 H2]. unfold setApi; cbn [prv nxt api cb rev raw kind].
  repeat match goal with |- _ /\ _ => split end; try tauto; try congruence.
Qed.
Lemma spec_place (P : state -> Prop) b a n p : (forall s, Inv s -> P s -> isb b s /\ vld n s /\ vld p s) ->
  spec P (modify b (fun c => setApi a (setNxt n (setPrv p c)))) (fun _ _ => True).
Proof.
  intros H. modrule. specialize (HL b). specialize (HR b). destruct (H s I HP) as (H1 & H2 & H3). unfold vld in *. unfold setApi, setNxt, setPrv; cbn [prv nxt api cb rev raw kind].
  repeat match goal with |- _ /\ _ => split end; try tauto; try congruence.
Qed.
Lemma spec_pin (P : state -> Prop) b : (forall s, Inv s -> P s -> isb b s) ->
  spec P (modify b (fun c => setRev (pinRev (rev c)) c)) (fun _ => pinned b).
Proof.
  intros H. apply spec_modify.
  - intros s I HP C. cbv zeta. pose proof (v_links _ _ I b) as HL. pose proof (v_rev _ _ I b) as HR. specialize (H s I HP).
    unfold setRev, pinRev; cbn [prv nxt api cb rev raw kind]. destruct (or_low (rev (heap s b)) 63 ltac:(tauto) ltac:(lia)).
    repeat match goal with |- _ /\ _ => split end; try tauto; try congruence.
    unfold isPinned. rewrite Z.lor_spec. intros ->. reflexivity.
  - intros s I HP C s' R Hh Hf. specialize (H s I HP). destruct H as [H _]. split; [lia|]. rewrite Hh. unfold isPinned, pinRev, setRev. cbn [rev].
    rewrite Z.lor_spec. rewrite Z.pow2_bits_true by lia. apply orb_true_r.
Qed.
Lemma spec_pinApi (P : state -> Prop) b a : (forall s, Inv s -> P s -> isb b s) ->
  spec P (modify b (fun c => setRev (pinRev (rev c)) (setApi a c))) (fun _ => pinned b).
Proof.
  intros H. apply spec_modify.
  - intros s I HP C. cbv zeta. pose proof (v_links _ _ I b) as HL. pose proof (v_rev _ _ I b) as HR. specialize (H s I HP).
    unfold setRev, pinRev, setApi; cbn [prv nxt api cb rev raw kind]. destruct (or_low (rev (heap s b)) 63 ltac:(tauto) ltac:(lia)).
    repeat match goal with |- _ /\ _ => split end; try tauto; try congruence.
    + unfold isPinned. rewrite Z.lor_spec. intros ->. reflexivity.
  - intros s I HP C s' R Hh Hf. specialize (H s I HP). destruct H as [H _]. split; [lia|]. rewrite Hh. unfold isPinned, pinRev, setRev. cbn [rev].
    rewrite Z.lor_spec. rewrite Z.pow2_bits_true by lia. apply orb_true_r.
Qed.
Lemma spec_count (P : state -> Prop) b : (forall s, Inv s -> P s -> isb b s) ->
  spec P (modify b (fun c => setRev (countRev (rev c)) c)) (fun _ _ => True).
Proof.
  intros H. apply spec_modify; [|intros; exact Logic.I].
  intros s I HP C. cbv zeta. pose proof (v_links _ _ I b) as HL. pose proof (v_rev _ _ I b) as HR. specialize (H s I HP).
  unfold setRev, countRev; cbn [prv nxt api cb rev raw kind]. destruct (or_low (rev (heap s b)) 62 ltac:(tauto) ltac:(lia)).
  repeat match goal with |- _ /\ _ => split end; try tauto; try congruence.
  unfold isPinned. rewrite Z.lor_spec. intros ->. reflexivity.
Qed.
Lemma spec_putPool (P : state -> Prop) b : (forall s, Inv s -> P s -> isb b s) -> spec P (putPool b) (fun _ _ => True).
Proof.
  intros H. eapply spec_other; [intros s; reflexivity|cbn; auto| |auto].
  intros s I HP C. cbn. split; [|auto]. intros x [<-|Hx]; [right; apply H; assumption|auto].
Qed.
Lemma spec_putRoot (P : state -> Prop) b : (forall s, Inv s -> P s -> vld b s /\ (strict = true -> isr b s)) -> spec P (putRoot b) (fun _ _ => True).
Proof.
  intros H. eapply spec_other; [intros s; reflexivity|cbn; auto| |auto].
  intros s I HP C. cbn. split; [auto|]. intros x [<-|Hx]; [right; apply H; assumption|auto].
Qed.
Lemma spec_release P v : spec P (release v) (fun _ _ => True).
Proof. eapply spec_other; [intros s; reflexivity|cbn; auto|cbn; auto|auto]. Qed.
Lemma spec_setWords P a w : spec P (setWords a w) (fun _ _ => True).
Proof. eapply spec_other; [intros s; reflexivity|cbn; auto|cbn; auto|auto]. Qed.
Lemma spec_getWords P a : spec P (getWords a) (fun _ _ => True).
Proof. apply spec_pure. intros s I HP _. eexists. split; [reflexivity|auto]. Qed.
(** ** Operations *)
Ltac sstep := eapply spec_step; [eauto 12 with st| |intros ?|intros ?; mono].
Ltac facts := repeat match goal with H : both _ _ _ |- _ => destruct H | H : fact _ _ |- _ => unfold fact in H end.

Definition okptr (p : ptr) (s : state) : Prop :=
  match p with None => True | Some (r, b) => isb b s /\ 0 <= r < 2^64 /\ lowge b (low r) s end.
Lemma st_okptr p : stable (okptr p).
Proof.
  intros s s' R. destruct p as [[r b]|]; [|auto]. intros (H1 & H2 & H3).
  split; [eapply st_isb; eauto|]. split; [exact H2|]. eapply st_lowge; eauto.
Qed.
(* a pointer whose revision has been overtaken *)
Definition stale (p : ptr) (s : state) : Prop :=
  match p with None => False | Some (r, b) => lowge b (low r + 1) s end.
Lemma st_stale p : stable (stale p).
Proof. intros s s' R. destruct p as [[r b]|]; [|auto]. intros H. eapply st_lowge; eauto. Qed.
Lemma st_true : stable (fun _ => True).
Proof. intros s s' _ _. exact Logic.I. Qed.
Hint Resolve st_okptr st_stale st_true : st.

Lemma matches_true a b : 0 <= a < 2^64 -> 0 <= b < 2^64 -> matches a b = true -> low a = low b.
Proof. intros. rewrite matches_low in * by assumption. lia. Qed.

Lemma spec_EndPtr p : spec (okptr p) (EndPtr p) (fun v => imp (v <> 0) (stale p)).
Proof.
  destruct p as [[prev b]|]; [|apply spec_ret; intros s I _ H; lia]. unfold EndPtr.
  sstep. { apply spec_look. intros s I (H & _) _. unfold vld. destruct H. lia. }
  rename a into c. destruct (matches (rev c) prev) eqn:Em; cbn [negb]; [|apply spec_crash]. cbv zeta.
  sstep. { apply spec_setCb. }
  sstep. { instantiate (1 := fun _ => imp (raw c <> 0) (stale (Some (prev, b)))).
    destruct (Z.eqb_spec (raw c) 0); [apply spec_ret; intros s I _ H; lia|].
    sstep. { apply spec_setRaw. }
    eapply spec_weak with (P' := lowge b (low prev)) (Q' := fun _ => lowge b (low prev + 1)).
    - apply spec_bump. auto.
    - intros s I H. facts. match goal with H : okptr _ _ |- _ => destruct H as (_ & _ & H) end. assumption.
    - intros [] s I H _. exact H. }
  sstep. { apply spec_look. intros s I H _. facts. unfold vld. match goal with H : okptr _ _ |- _ => destruct H as ([H _] & _) end. lia. }
  rename a1 into c1.
  sstep. { apply spec_setNxt. intros s I H. facts. match goal with H : read b c1 s |- _ => destruct H end. assumption. }
  sstep. { apply spec_setPrv. intros s I H. facts. match goal with H : read b c1 s |- _ => destruct H end. assumption. }
  sstep. { apply spec_look. intros s I H _. facts. unfold vld. match goal with H : okptr _ _ |- _ => destruct H as ([H _] & _) end. lia. }
  sstep. { instantiate (1 := fun _ _ => True). destruct (_ <? _); [apply spec_putPool|apply spec_ret; auto].
    intros s I H. facts. match goal with H : okptr _ _ |- _ => destruct H as (H & _) end. assumption. }
  apply spec_ret. intros s I H. facts. assumption.
Qed.
Lemma spec_UserFree p : spec (okptr p) (UserFreeMethod p) (fun _ _ => True).
Proof.
  unfold UserFreeMethod. sstep. { apply spec_EndPtr. } apply spec_release.
Qed.
Lemma spec_freeObj b : spec (isb b) (freeObj b) (fun _ _ => True).
Proof.
  assert (L : forall s, isb b s -> vld b s) by (intros s [H _]; unfold vld; lia).
  unfold freeObj.
  sstep. { apply spec_look. intros. apply L. assumption. }
  sstep. { apply spec_setNxt. intros s I H. facts. match goal with H : read b _ s |- _ => destruct H end. assumption. }
  sstep. { apply spec_look. intros s I H _. facts. apply L. assumption. }
  sstep. { apply spec_setPrv. intros s I H. facts. match goal with H : read b a1 s |- _ => destruct H end. assumption. }
  sstep. { apply spec_look. intros s I H _. facts. apply L. assumption. }
  rename a3 into c.
  sstep. { instantiate (1 := fun _ _ => True). destruct (isRefCounted (rev c)); [|apply spec_ret; auto].
    sstep. { apply spec_getWords. } cbv zeta. sstep. { apply spec_setWords. } apply spec_ret. auto. }
  destruct a3; [apply spec_setCb|].
  assert (OK : forall s, isb b s -> read b c s -> okptr (Some (rev c, b)) s).
  { intros s H1 H2. destruct H2. split; [exact H1|]. split; assumption. }
  sstep. { instantiate (1 := fun _ _ => True). destruct (cb c).
    - apply spec_crash.
    - eapply spec_weak; [apply (spec_UserFree (Some (rev c, b)))| |auto]. intros s I H. facts. apply OK; assumption.
    - sstep. { eapply spec_weak; [apply (spec_EndPtr (Some (rev c, b)))| |auto].
        + intros s I H. facts. apply OK; assumption.
        + intros v s I H. exact H. }
      apply spec_ret. auto. }
  sstep. { apply spec_look. intros s I H _. facts. apply L. assumption. }
  destruct (cb _); [apply spec_ret; auto|apply spec_crash|apply spec_crash].
Qed.
Lemma spec_NewLifetime pick P : spec P (NewLifetime pick) (fun l s => 0 <= lrev l < 2^64 /\ lowge (lroot l) (low (lrev l)) s /\ (strict = true -> isr (lroot l) s)
   /\ (isr (lroot l) s -> low (lrev l) = lrev l)).
Proof.
  eapply spec_weak with (P' := fun _ => True); [|auto|intros a s I H; exact H].
  unfold NewLifetime. sstep. { apply spec_allocRoot. }
  rename a into b.
  assert (S1 : stable (fun s => strict = true -> isr b s)) by (intros s s' R H Hs; eapply st_isr; eauto).
  sstep. { apply spec_setRoot. intros s I H. facts. auto. }
  sstep. { apply spec_look. intros s I H _. facts. auto. }
  apply spec_ret. intros s I H. facts. cbn. match goal with H : read _ _ _ |- _ => destruct H end.
  split; [assumption|]. split; [assumption|]. split; [assumption|].
  intros [_ Hk]. apply rd_root0. congruence.
Qed.
Lemma spec_NewPtr f l a v pick :
  spec (vld (lroot l)) (NewPtr f l a v pick) (fun p s => okptr p s /\ p <> None).
Proof.
  apply spec_eq with (m' := do b <- create f a v pick;
    do rt <- look (lroot l);
    let last := prv rt in
    do lc <- look last;
    let next := nxt lc in
    do _ <- modify last (setNxt b);
    do _ <- modify b (fun c => setApi a (setNxt next (setPrv last c)));
    do c <- look b;
    ret (Some (rev c, b))).
  { intros s. unfold NewPtr, create, bind, ret. destruct (allocBlock pick s) as [[b|] s1]; [|reflexivity].
    destruct (modify b _ s1) as [[[]|] s2]; reflexivity. }
  sstep. { apply spec_create. } rename a0 into b.
  sstep. { apply spec_look. intros s I H _. facts. assumption. }
  cbv zeta. sstep. { apply spec_look. intros s I H _. facts. match goal with H : read _ _ s |- _ => destruct H end. assumption. }
  sstep. { apply spec_setNxt. intros s I H. facts. match goal with H : isb _ s |- _ => destruct H end. unfold vld. lia. }
  sstep. { apply spec_place. intros s I H. facts. split; [assumption|].
    repeat match goal with H : read _ _ s |- _ => destruct H end. auto. }
  sstep. { apply spec_look. intros s I H _. facts. match goal with H : isb _ s |- _ => destruct H end. unfold vld. lia. }
  apply spec_ret. intros s I H. facts. match goal with H : read b _ s |- _ => destruct H end. cbn. split; [auto|discriminate].
Qed.
Lemma spec_PinPtr l a v pick : spec (vld (lroot l)) (PinPtr l a v pick)
  (fun p s => okptr p s /\ match p with Some (r, b) => pinned b s | None => False end).
Proof.
  unfold PinPtr. sstep. { apply spec_NewPtr. } destruct a0 as [[r b]|]; [|apply spec_crash].
  assert (S1 : stable (fun s => okptr (Some (r, b)) s /\ Some (r, b) <> None)).
  { intros s s' R [H1 H2]. split; [eapply st_okptr; eauto|exact H2]. }
  sstep. { apply spec_pin. intros s I H. facts. destruct H0 as [(H0 & _) _]. exact H0. }
  apply spec_ret. intros s I H. facts. tauto.
Qed.
Lemma spec_LetPtr l a v pick : spec (vld (lroot l)) (LetPtr l a v pick)
  (fun p s => okptr p s /\ match p with Some (r, b) => pinned b s | None => False end).
Proof.
  unfold LetPtr. sstep. { apply spec_NewPtr. } destruct a0 as [[r b]|]; [|apply spec_crash].
  assert (S1 : stable (fun s => okptr (Some (r, b)) s /\ Some (r, b) <> None)).
  { intros s s' R [H1 H2]. split; [eapply st_okptr; eauto|exact H2]. }
  sstep. { apply spec_pinApi. intros s I H. facts. destruct H0 as [(H0 & _) _]. exact H0. }
  apply spec_ret. intros s I H. facts. tauto.
Qed.
Lemma okptr_vld r b s : okptr (Some (r, b)) s -> vld b s.
Proof. intros ([H _] & _). unfold vld. lia. Qed.
Lemma spec_GetPtr p : spec (okptr p) (GetPtr p) (fun _ _ => True).
Proof.
  destruct p as [[r b]|]; [|apply spec_ret; auto]. unfold GetPtr.
  sstep. { apply spec_look. intros s I H _. apply okptr_vld in H. exact H. }
  destruct (negb _); [apply spec_crash|apply spec_ret; auto].
Qed.
Lemma spec_SetPtr p v : spec (okptr p) (SetPtr p v) (fun _ _ => True).
Proof.
  destruct p as [[r b]|]; [|apply spec_crash]. unfold SetPtr.
  sstep. { apply spec_look. intros s I H _. apply okptr_vld in H. exact H. }
  destruct (negb _); [apply spec_crash|apply spec_setRaw].
Qed.
Lemma spec_ApiPtr p : spec (okptr p) (ApiPtr p) (fun _ _ => True).
Proof.
  destruct p as [[r b]|]; [|apply spec_crash]. unfold ApiPtr.
  sstep. { apply spec_look. intros s I H _. apply okptr_vld in H. exact H. }
  destruct (negb _); [apply spec_crash|]. destruct (isRefCounted r); [|apply spec_ret; auto].
  sstep. { apply spec_getWords. } apply spec_ret; auto.
Qed.
Ltac pre := let s := fresh in let I := fresh in let H := fresh in intros s I H; facts; assumption.
Lemma spec_MovePtr p l pick : spec (both (okptr p) (vld (lroot l))) (MovePtr p l pick) (fun _ _ => True).
Proof.
  destruct p as [[r b]|]; [|apply spec_crash]. unfold MovePtr.
  sstep. { apply spec_look. intros s I H _. facts. eapply okptr_vld; eauto. }
  destruct (isPinned _); [apply spec_crash|]. destruct (isRefCounted _); [apply spec_crash|].
  sstep. { eapply spec_weak; [apply spec_ApiPtr| |intros ? ? ? H; exact H]. pre. }
  sstep. { eapply spec_weak; [apply spec_EndPtr| |intros ? ? ? H; exact H]. pre. }
  eapply spec_step with (Q := fun _ _ => True); [eauto 12 with st| |intros ?|intros ?; mono].
  { eapply spec_weak; [apply spec_NewPtr| |auto]. pre. }
  apply spec_ret; auto.
Qed.
Lemma spec_CopyPtr p l pick : spec (both (okptr p) (vld (lroot l))) (CopyPtr p l pick) (fun q => okptr q).
Proof.
  destruct p as [[r b]|]; [|apply spec_crash]. unfold CopyPtr.
  sstep. { apply spec_look. intros s I H _. facts. eapply okptr_vld; eauto. }
  destruct (isPinned _); [apply spec_crash|].
  sstep. { instantiate (1 := fun _ _ => True). destruct (negb _); [|apply spec_ret; auto].
     apply spec_count. intros s I H. facts. match goal with H : okptr _ s |- _ => destruct H as [H _] end. assumption. }
  sstep. { eapply spec_weak; [apply spec_ApiPtr| |intros ? ? ? H; exact H]. pre. }
  sstep. { eapply spec_weak; [apply spec_GetPtr| |intros ? ? ? H; exact H]. pre. }
  eapply spec_step with (Q := fun p => okptr p); [eauto 12 with st| |intros q|intros ?; mono].
  { eapply spec_weak; [apply spec_NewPtr| |]. pre. intros ? s I [H _]. exact H. }
  sstep. { apply spec_look. intros s I H _. facts. eapply okptr_vld; eauto. }
  sstep. { apply spec_getWords. }
  sstep. { apply spec_setWords. }
  destruct q as [[qr qb]|]; [|apply spec_crash].
  sstep. { apply spec_setApi. intros s I H. facts. match goal with H : okptr (Some (qr, qb)) s |- _ => destruct H as [H _] end. assumption. }
  apply spec_ret. pre.
Qed.
Definition okl (l : lifetime) (s : state) : Prop :=
  0 <= lrev l < 2^64 /\ lowge (lroot l) (low (lrev l)) s /\ (strict = true -> isr (lroot l) s /\ low (lrev l) = lrev l).
Lemma st_okl l : stable (okl l).
Proof.
  intros s s' R (H1 & H2 & H3). split; [exact H1|]. split; [eapply st_lowge; eauto|]. intros Hs. destruct (H3 Hs). split; [eapply st_isr; eauto|assumption].
Qed.
Lemma okl_vld l s : okl l s -> vld (lroot l) s.
Proof. intros (_ & [H _] & _). exact H. Qed.
Lemma spec_LifePtr p : strict = false -> spec (okptr p) (LifePtr p) (fun l => okl l).
Proof.
  intros Hs. destruct p as [[r b]|]; [|apply spec_crash]. unfold LifePtr.
  sstep. { apply spec_look. intros s I H _. apply okptr_vld in H. exact H. }
  destruct (isPinned _); [|apply spec_crash]. apply spec_ret. intros s I [H1 H2]. destruct H2.
  split; [cbn; assumption|]. split; [cbn; assumption|]. congruence.
Qed.
Lemma spec_NewLife pick P : spec P (NewLifetime pick) (fun l => okl l).
Proof.
  eapply (spec_weak _ _ (fun _ => True) _ (fun l => okl l)); [apply (spec_NewLifetime pick (fun _ => True))|auto|].
  intros l s _ H. destruct H as (H1 & H2 & H3 & H4).
  split; [exact H1|]. split; [exact H2|]. intros Hs. auto.
Qed.

(* the same for partial operations *)
Definition ospec {A} (P : state -> Prop) (m : state -> option (outcome A * state)) (Q : A -> state -> Prop) : Prop :=
  forall s r s', Inv s -> P s -> m s = Some (r, s') ->
    ends s <= ends s' /\ (counter_ok s' -> Inv s' /\ Rel s s' /\ match r with Ok a => Q a s' | Panic => True end).
Lemma api_isb s b : Inv s -> vld b s -> api (heap s b) <> O -> isb b s.
Proof.
  intros I Hv Ha. split.
  - assert (b <> O) by (intros ->; destruct (v_zero _ _ I); contradiction). unfold vld in Hv. lia.
  - destruct (kind (heap s b)) eqn:E; [|reflexivity]. destruct (v_kind _ _ I b E). contradiction.
Qed.
Lemma ospec_endLoop fuel root : ospec (vld root) (endLoop fuel root) (fun _ _ => True).
Proof.
  induction fuel as [|fuel IH]; intros s r s' I HP E; cbn [endLoop] in E; [discriminate|]. cbv zeta in E.
  destruct (Nat.eqb_spec (api (heap s (nxt (heap s root)))) 0) as [Ha|Ha].
  - injection E as <- <-. split; [lia|]. intros C. split; [exact I|]. split; [apply Rel_refl|auto].
  - destruct (freeObj (nxt (heap s root)) s) as [r1 s1] eqn:Ef.
    assert (Hb : isb (nxt (heap s root)) s) by (apply api_isb; [exact I|apply (v_links _ _ I)|exact Ha]).
    destruct (spec_freeObj _ _ _ _ I Hb Ef) as [L1 H1].
    destruct r1 as [[]|].
    + assert (L : forall fuel s r s', endLoop fuel root s = Some (r, s') -> ends s <= ends s').
      { clear. induction fuel as [|fuel IH]; intros s r s' E; cbn [endLoop] in E; [discriminate|]. cbv zeta in E.
        destruct (Nat.eqb _ 0); [injection E as <- <-; lia|].
        destruct (freeObj _ s) as [[[]|] s1] eqn:Ef.
        - apply IH in E. apply mono_freeObj in Ef. lia.
        - injection E as <- <-. apply mono_freeObj in Ef. lia. }
      pose proof (L _ _ _ _ E). split; [lia|]. intros C. destruct H1 as (I1 & R1 & _); [unfold counter_ok in *; lia|].
      destruct (IH _ _ _ I1 (st_vld _ _ _ R1 HP) E) as [_ H2]. destruct (H2 C) as (I2 & R2 & HQ).
      split; [exact I2|]. split; [eapply Rel_trans; eassumption|exact HQ].
    + injection E as <- <-. split; [exact L1|]. intros C. destruct (H1 C) as (I1 & R1 & _). auto.
Qed.
Lemma ospec_EndLifetime fuel l : ospec (okl l) (EndLifetime fuel l) (fun _ s => strict = true -> lowge (lroot l) (low (lrev l) + 1) s).
Proof.
  intros s r s' I HP E. pose proof (okl_vld _ _ HP) as Hv. destruct HP as (Hr & Hl & Hst).
  unfold EndLifetime in E. cbv zeta in E. destruct (Z.eqb_spec (rev (heap s (lroot l))) (lrev l)) as [Er|Er]; cbn [negb] in E.
  2: { injection E as <- <-. split; [lia|]. intros C. split; [exact I|]. split; [apply Rel_refl|]. intros Hs.
       destruct (Hst Hs) as [[_ Hk] Hlow]. destruct (v_kind _ _ I _ Hk) as [_ He]. pose proof (v_rev _ _ I (lroot l)) as [Hrr _].
       split; [exact Hv|]. destruct Hl as [_ Hl]. unfold counter_ok in C. rewrite (low_small (rev _)) in * by lia. lia. }
  destruct (Nat.eqb_spec (api (heap s (lroot l))) 0) as [Ea|Ea]; cbn [negb] in E.
  2: { destruct (freeObj (lroot l) s) as [r1 s1] eqn:Ef. injection E as <- <-.
       destruct (spec_freeObj _ _ _ _ I (api_isb _ _ I Hv Ea) Ef) as [L1 H1]. split; [exact L1|]. intros C.
       destruct (H1 C) as (I1 & R1 & _). split; [exact I1|]. split; [exact R1|]. destruct r1; [|auto]. intros Hs.
       destruct (Hst Hs) as [[_ Hk] _]. destruct (v_kind _ _ I _ Hk). contradiction. }
  destruct (endLoop fuel (lroot l) s) as [[[[]|] s1]|] eqn:El; [| |discriminate].
  2: { injection E as <- <-. destruct (ospec_endLoop _ _ _ _ _ I Hv El) as [L1 H1]. split; [exact L1|]. intros C. destruct (H1 C) as (I1 & R1 & _). auto. }
  destruct (ospec_endLoop _ _ _ _ _ I Hv El) as [L1 H1].
  set (m := (do _ <- bump (lroot l); do c <- look (lroot l); if rev c <? maxRevision then putRoot (lroot l) else ret tt)) in E.
  assert (Hm : spec (okl l) m (fun _ => lowge (lroot l) (low (lrev l) + 1))).
  { pose proof st_okl. unfold m.
    sstep. { eapply spec_bump with (n := low (lrev l)). intros ? (_ & H' & _). exact H'. }
    sstep. { apply spec_look. intros ? ? H' _. facts. apply okl_vld; assumption. }
    destruct (_ <? _); [|apply spec_ret; pre].
    eapply spec_weak with (P' := both (okl l) (lowge (lroot l) (low (lrev l) + 1))) (Q' := fun _ => both (okl l) (lowge (lroot l) (low (lrev l) + 1))).
    - intros s0 r0 s0' I0 HP0 E0.
      assert (T : spec (okl l) (putRoot (lroot l)) (fun _ _ => True)).
      { apply spec_putRoot. intros s2 _ H2. split; [apply okl_vld; exact H2|]. intros Hs. destruct H2 as (_ & _ & H2). apply H2. exact Hs. }
      destruct (T _ _ _ I0 (proj1 HP0) E0) as [T1 T2]. split; [exact T1|]. intros C. destruct (T2 C) as (T3 & T4 & _).
      split; [exact T3|]. split; [exact T4|]. destruct r0; [|auto]. destruct HP0. split; [eapply st_okl; eauto|eapply st_lowge; eauto].
    - intros ? ? H'; facts; split; assumption.
    - intros [] ? _ [_ H']. exact H'. }
  injection E as E. assert (Em : m s1 = (r, s')) by exact E.
  assert (M1 : mono m) by (unfold m; mono).
  pose proof (M1 _ _ _ Em) as L2. split; [lia|]. intros C.
  destruct H1 as (I1 & R1 & _); [unfold counter_ok in *; lia|].
  assert (K1 : okl l s1) by (eapply st_okl; [exact R1|]; split; [|split]; assumption).
  destruct (Hm _ _ _ I1 K1 Em) as [_ H2]. destruct (H2 C) as (I2 & R2 & Q2).
  split; [exact I2|]. split; [eapply Rel_trans; eassumption|]. destruct r; [intros _; exact Q2|auto].
Qed.

(** ** Histories *)
Definition CInv (c : config) : Prop :=
  let '(s, ps, ls) := c in Inv s /\ (forall p, In p ps -> okptr p s) /\ (forall l, In l ls -> okl l s).
Definition allowed (o : op) : Prop := strict = true -> match o with OLife _ => False | _ => True end.
Definition sound (s : state) (m : option (outcome reply * state)) : Prop :=
  forall r s', m = Some (r, s') -> ends s <= ends s' /\ (counter_ok s' -> Inv s' /\ Rel s s' /\
    (forall p, In p (new_ptrs r) -> okptr p s') /\ (forall l, In l (new_lifetimes r) -> okl l s')).
Lemma sound_lift {A} (P : state -> Prop) (m : M A) (Q : A -> state -> Prop) (f : A -> reply) s :
  spec P m Q -> Inv s -> P s -> (forall a s', Q a s' -> match f a with RPtr p => okptr p s' | RLife l => okl l s' | _ => True end) ->
  sound s (lift f m s).
Proof.
  intros H I HP HQ r s' E. unfold lift in E. destruct (m s) as [r1 s1] eqn:Em. injection E as <- <-.
  destruct (H _ _ _ I HP Em) as [L H1]. split; [exact L|]. intros C. destruct (H1 C) as (I1 & R1 & Q1).
  split; [exact I1|]. split; [exact R1|]. destruct r1 as [a|]; [|split; intros ? []].
  specialize (HQ a _ Q1). cbn. destruct (f a); split; cbn; intros ? Hin; try contradiction; destruct Hin as [<-|[]]; assumption.
Qed.
Lemma run_sound o s ps ls : CInv (s, ps, ls) -> args_ok ps ls o -> allowed o -> sound s (run o s).
Proof.
  intros (I & Hp & Hl) HA Hok. unfold allowed in Hok. destruct o; cbn [args_ok] in HA; cbn [run].
  - eapply sound_lift; [apply (spec_NewLife pick (fun _ => True))|exact I|exact Logic.I|cbn; auto].
  - intros r s' E. destruct (EndLifetime fuel l s) as [[r1 s1]|] eqn:Ee; [|discriminate]. injection E as <- <-.
    destruct (ospec_EndLifetime _ _ _ _ _ I (Hl _ HA) Ee) as [L H1]. split; [exact L|]. intros C. destruct (H1 C) as (I1 & R1 & _).
    split; [exact I1|]. split; [exact R1|]. destruct r1; cbn; split; intros ? [].
  - eapply sound_lift; [apply spec_NewPtr|exact I|apply okl_vld; auto|cbn; tauto].
  - eapply sound_lift; [apply spec_PinPtr|exact I|apply okl_vld; auto|cbn; tauto].
  - eapply sound_lift; [apply spec_LetPtr|exact I|apply okl_vld; auto|cbn; tauto].
  - eapply sound_lift; [apply spec_UserFree|exact I|auto|cbn; tauto].
  - eapply sound_lift; [apply spec_EndPtr|exact I|auto|cbn; tauto].
  - eapply sound_lift; [apply spec_GetPtr|exact I|auto|cbn; tauto].
  - eapply sound_lift; [apply spec_SetPtr|exact I|auto|cbn; tauto].
  - eapply sound_lift; [apply spec_ApiPtr|exact I|auto|cbn; tauto].
  - destruct HA. eapply sound_lift; [apply spec_MovePtr|exact I|split; [auto|apply okl_vld; auto]|cbn; tauto].
  - destruct HA. eapply sound_lift; [apply spec_CopyPtr|exact I|split; [auto|apply okl_vld; auto]|cbn; tauto].
  - destruct strict eqn:Es; [destruct (Hok eq_refl)|]. rewrite <- Es in *.
    eapply sound_lift; [apply spec_LifePtr; congruence|exact I|auto|cbn; tauto].
Qed.
Lemma run_mono o s r s' : run o s = Some (r, s') -> ends s <= ends s'.
Proof.
  intros E. destruct o; cbn [run] in E; unfold lift in E;
      try (match type of E with (let '(_, _) := ?m s in _) = _ => assert (M1 : mono m) by mono; destruct (m s) as [r1 s1] eqn:Em; apply M1 in Em end; injection E as <- <-; exact Em).
    destruct (EndLifetime fuel l s) as [[r1 s1]|] eqn:Ee; [|discriminate]. injection E as <- <-.
    assert (L : forall fuel root s r s', endLoop fuel root s = Some (r, s') -> ends s <= ends s').
    { clear. induction fuel as [|fuel IH]; intros root s r s' E; cbn [endLoop] in E; [discriminate|]. cbv zeta in E.
      destruct (Nat.eqb _ 0); [injection E as <- <-; lia|].
      destruct (freeObj _ s) as [[[]|] s1] eqn:Ef.
      - apply IH in E. apply mono_freeObj in Ef. lia.
      - injection E as <- <-. apply mono_freeObj in Ef. lia. }
    unfold EndLifetime in Ee. cbv zeta in Ee.
    destruct (negb _); [injection Ee as <- <-; lia|]. destruct (negb _).
    { injection Ee as Ee. apply mono_freeObj in Ee. exact Ee. }
    destruct (endLoop fuel (lroot l) s) as [[[[]|] s2]|] eqn:El; [| |discriminate].
    - apply L in El. injection Ee as Ee. match type of Ee with ?m s2 = _ => assert (M1 : mono m) by mono; apply M1 in Ee end. lia.
    - apply L in El. injection Ee as <- <-. exact El.
Qed.
Lemma reaches_sound (ok : op -> Prop) c c' : (forall o, ok o -> allowed o) -> reaches ok c c' -> CInv c ->
  ends (fst (fst c)) <= ends (fst (fst c')) /\ (counter_ok (fst (fst c')) -> CInv c' /\ Rel (fst (fst c)) (fst (fst c'))).
Proof.
  intros Hok H I. induction H as [c|c s ps ls o r s' H IH HA Ho E]; [split; [lia|]; intros; split; [exact I|apply Rel_refl]|].
  specialize (IH I). cbn [fst] in *. destruct IH as [L IH].
  pose proof (run_mono _ _ _ _ E) as Hmono.
  split; [lia|]. intros C. destruct IH as [I1 R1]; [unfold counter_ok in *; lia|].
  destruct (run_sound o s ps ls I1 HA (Hok o Ho) r s' E) as [_ H2]. destruct (H2 C) as (I2 & R2 & N1 & N2).
  split; [|eapply Rel_trans; eassumption]. destruct I1 as (_ & P1 & P2). split; [exact I2|].
  split; intros x Hx; apply in_app_or in Hx as [Hx|Hx]; auto.
  - eapply st_okptr; eauto.
  - eapply st_okl; eauto.
Qed.
Lemma CInv_start w : CInv (start w).
Proof.
  split; [|split].
  - split; cbn; auto; try lia; try (intros; contradiction); try discriminate.
  - intros p [<-|[]]. exact Logic.I.
  - intros l [].
Qed.
Lemma reaches_trans ok a b c : reaches ok a b -> reaches ok b c -> reaches ok a c.
Proof. intros H1 H2. induction H2; [exact H1|]. econstructor; eauto. Qed.
End OPS.

(** ** Results *)
Lemma stale_rejected b' p s o : Inv b' s -> okptr p s -> stale p s -> uses p o -> rejected o s.
Proof.
  intros I Hok Hst Hu. destruct p as [[r b]|]; [|contradiction]. destruct Hok as (_ & Hr & _). destruct Hst as [_ Hlow].
  assert (Hm : matches (rev (heap s b)) r = false).
  { rewrite matches_low by (try exact Hr; apply (v_rev _ _ I)). lia. }
  unfold rejected. destruct o; cbn [uses] in Hu; try contradiction; subst; cbn [run]; unfold lift.
  - unfold UserFreeMethod, EndPtr, bind, look. rewrite Hm. reflexivity.
  - unfold EndPtr, bind, look. rewrite Hm. reflexivity.
  - unfold GetPtr, bind, look. rewrite Hm. reflexivity.
  - unfold SetPtr, bind, look. rewrite Hm. reflexivity.
  - unfold ApiPtr, bind, look. rewrite Hm. reflexivity.
  - unfold MovePtr, ApiPtr, bind, look. destruct (isPinned _); [reflexivity|]. destruct (isRefCounted _); [reflexivity|]. rewrite Hm. reflexivity.
Qed.
Lemma any_allowed (ok : op -> Prop) o : ok o -> allowed false o.
Proof. intros _ H. discriminate. Qed.
Lemma reach_start (ok : op -> Prop) w s ps ls : reaches ok (start w) (s, ps, ls) -> counter_ok s -> CInv false (s, ps, ls).
Proof.
  intros H C. destruct (reaches_sound false ok _ _ (any_allowed ok) H (CInv_start false w)) as [_ H1]. apply H1. exact C.
Qed.
Lemma reaches_mono ok c1 c2 : reaches ok c1 c2 -> ends (fst (fst c1)) <= ends (fst (fst c2)).
Proof. intros H. induction H as [|c s ps ls o r s' H IH HA Ho E]; [lia|]. cbn [fst] in *. pose proof (run_mono _ _ _ _ E). lia. Qed.
Lemma later b' (ok : op -> Prop) w s1 ps ls s2 ps2 ls2 : (forall o, ok o -> allowed b' o) ->
  reaches ok (start w) (s1, ps, ls) -> reaches ok (s1, ps, ls) (s2, ps2, ls2) -> counter_ok s2 ->
  CInv b' (s1, ps, ls) /\ CInv b' (s2, ps2, ls2) /\ Rel s1 s2.
Proof.
  intros Hok H1 H2 C. pose proof (reaches_mono _ _ _ H2) as L. cbn [fst] in L.
  destruct (reaches_sound b' ok _ _ Hok H1 (CInv_start b' w)) as [_ K1]. cbn [fst] in K1.
  destruct K1 as [I1 _]; [unfold counter_ok in *; lia|].
  destruct (reaches_sound b' ok _ _ Hok H2 I1) as [_ K]. destruct (K C) as [I2 R]. auto.
Qed.
Lemma stale_later w s1 ps ls s2 ps2 ls2 p o :
  reaches any (start w) (s1, ps, ls) -> In p ps -> stale p s1 -> reaches any (s1, ps, ls) (s2, ps2, ls2) ->
  counter_ok s2 -> uses p o -> rejected o s2.
Proof.
  intros H1 Hp Hs H2 C Hu. destruct (later false any _ _ _ _ _ _ _ (any_allowed any) H1 H2 C) as ((I1 & P1 & _) & (I2 & P2 & _) & R).
  eapply stale_rejected; [exact I2|exact (st_okptr p _ _ R (P1 p Hp))|eapply st_stale; [exact R|exact Hs]|exact Hu].
Qed.
(* one step followed by a history *)
Lemma reach_step w s1 ps ls o r s2 : reaches any (start w) (s1, ps, ls) -> args_ok ps ls o -> run o s1 = Some (r, s2) ->
  new_ptrs r = [] -> new_lifetimes r = [] -> reaches any (start w) (s2, ps, ls).
Proof.
  intros H HA E N1 N2. pose proof (reaches_step any _ _ _ _ _ _ _ H HA Logic.I E) as K. rewrite N1, N2 in K. exact K.
Qed.
Lemma end_stale w s1 ps ls p v s2 : reaches any (start w) (s1, ps, ls) -> In p ps ->
  run (OEnd p) s1 = Some (Ok (RVal v), s2) -> v <> 0 -> counter_ok s2 -> stale p s2.
Proof.
  intros H Hp E Hv C. pose proof (run_mono _ _ _ _ E).
  assert (C1 : counter_ok s1) by (unfold counter_ok in *; lia).
  destruct (reach_start _ _ _ _ _ H C1) as (I & P & _).
  cbn [run] in E. unfold lift in E. destruct (EndPtr p s1) as [[a|] s'] eqn:Ee; [|discriminate]. cbn in E. injection E as <- <-.
  destruct (spec_EndPtr false p _ _ _ I (P p Hp) Ee) as [_ K]. destruct (K C) as (_ & _ & Q). apply Q. exact Hv.
Qed.
Lemma free_end s p s2 : run (OFree p) s = Some (Ok RUnit, s2) -> exists v s', run (OEnd p) s = Some (Ok (RVal v), s') /\
  s2 = mkState (heap s') (fresh s') (pool s') (roots s') (words s') (released s' ++ [v]) (ends s').
Proof.
  cbn [run]. unfold lift, UserFreeMethod, bind. destruct (EndPtr p s) as [[v|] s'] eqn:Ee; [|discriminate].
  cbn. intros E. injection E as <-. exists v, s'. auto.
Qed.
Lemma end_value s p v s2 w : run (OEnd p) s = Some (Ok (RVal v), s2) -> run (OGet p) s = Some (Ok (RVal w), s) -> v = w.
Proof.
  intros E E'. cbn [run] in *. unfold lift in *. destruct p as [[r b]|]; [|cbn in E, E'; congruence].
  unfold GetPtr, bind, look in E'. unfold EndPtr in E.
  unfold bind at 1 in E. unfold look at 1 in E.
  destruct (negb _); [discriminate|]. cbn in E'. injection E' as <-. cbv zeta in E.
  match type of E with (let '(_, _) := ?m s in _) = _ => assert (T : forall s0 v s', m s0 = (Ok v, s') -> v = raw (heap s b)) end.
  { intros s0 v0 s' K. unfold bind, ret in K.
    repeat match type of K with
    | match ?x with _ => _ end = _ => destruct x as [[?|] ?]; [|discriminate]
    end. injection K as <- <-. reflexivity. }
  match type of E with (let '(_, _) := ?m s in _) = _ => destruct (m s) as [[v'|] s'] eqn:Em; [|discriminate] end.
  apply T in Em. cbn in E. injection E as <- <-. exact Em.
Qed.
Lemma use_after_end w s1 ps ls p v s2 s3 ps3 ls3 o :
  reaches any (start w) (s1, ps, ls) -> In p ps -> run (OEnd p) s1 = Some (Ok (RVal v), s2) -> v <> 0 ->
  reaches any (s2, ps, ls) (s3, ps3, ls3) -> counter_ok s3 -> uses p o -> rejected o s3.
Proof.
  intros H Hp E Hv H3 C Hu. pose proof (reaches_mono _ _ _ H3) as L. cbn [fst] in L.
  eapply stale_later; [|exact Hp| |exact H3|exact C|exact Hu].
  - eapply reach_step; [exact H| |exact E|reflexivity|reflexivity]. exact Hp.
  - eapply end_stale; eauto. unfold counter_ok in *. lia.
Qed.
Lemma use_after_free w s1 ps ls p v s2 s3 ps3 ls3 o :
  reaches any (start w) (s1, ps, ls) -> In p ps -> run (OGet p) s1 = Some (Ok (RVal v), s1) -> v <> 0 ->
  run (OFree p) s1 = Some (Ok RUnit, s2) ->
  reaches any (s2, ps, ls) (s3, ps3, ls3) -> counter_ok s3 -> uses p o -> rejected o s3.
Proof.
  intros H Hp Eg Hv Ef H3 C Hu. pose proof (reaches_mono _ _ _ H3) as L. cbn [fst] in L.
  destruct (free_end _ _ _ Ef) as (v' & s' & Ee & ->). pose proof (end_value _ _ _ _ _ Ee Eg) as ->.
  assert (St : stale p s').
  { eapply end_stale; eauto. unfold counter_ok in *. cbn in L. lia. }
  eapply stale_later; [|exact Hp| |exact H3|exact C|exact Hu].
  - eapply reach_step; [exact H| |exact Ef|reflexivity|reflexivity]. exact Hp.
  - destruct p as [[r b]|]; [|contradiction]. exact St.
Qed.
Lemma detected_forever w s1 ps ls p s2 ps2 ls2 o :
  reaches any (start w) (s1, ps, ls) -> In p ps -> p <> None -> rejected (OGet p) s1 ->
  reaches any (s1, ps, ls) (s2, ps2, ls2) -> counter_ok s2 -> uses p o -> rejected o s2.
Proof.
  intros H Hp Hn Hr H2 C Hu. destruct (later false any _ _ _ _ _ _ _ (any_allowed any) H H2 C) as ((I1 & P1 & _) & _ & R).
  eapply stale_later; eauto. specialize (P1 p Hp). destruct p as [[r b]|]; [|congruence].
  unfold rejected in Hr. cbn [run] in Hr. unfold lift, GetPtr, bind, look in Hr.
  destruct P1 as (Hb & Hrr & Hlow). destruct (matches (rev (heap s1 b)) r) eqn:Em; [discriminate|].
  rewrite matches_low in Em by (try exact Hrr; apply (v_rev _ _ I1)). destruct Hlow as [L1 L2].
  split; [exact L1|]. lia.
Qed.
Lemma pinned_rejected w s1 ps ls o p s2 s3 ps3 ls3 l pick :
  reaches any (start w) (s1, ps, ls) -> args_ok ps ls o ->
  (exists l a v pick, o = OPin l a v pick \/ o = OLet l a v pick) -> run o s1 = Some (Ok (RPtr p), s2) ->
  reaches any (s2, p :: ps, ls) (s3, ps3, ls3) -> counter_ok s3 ->
  rejected (OMove p l pick) s3 /\ rejected (OCopy p l pick) s3.
Proof.
  intros H HA (l0 & a & v & pk & Ho) E H3 C. pose proof (reaches_mono _ _ _ H3) as L. cbn [fst] in L.
  assert (C2 : counter_ok s2) by (unfold counter_ok in *; lia).
  pose proof (run_mono _ _ _ _ E) as L1.
  assert (C1 : counter_ok s1) by (unfold counter_ok in *; lia).
  destruct (reach_start _ _ _ _ _ H C1) as (I1 & P1 & Q1).
  assert (Hpin : match p with Some (r, b) => pinned b s2 | None => False end).
  { destruct Ho as [-> | ->]; cbn [run] in E; unfold lift in E; cbn [args_ok] in HA.
    - destruct (PinPtr l0 a v pk s1) as [[q|] s'] eqn:Ep; [|discriminate]. cbn in E. injection E as <- <-.
      destruct (spec_PinPtr false _ _ _ _ _ _ _ I1 (okl_vld _ _ _ (Q1 _ HA)) Ep) as [_ K]. destruct (K C2) as (_ & _ & _ & K'). exact K'.
    - destruct (LetPtr l0 a v pk s1) as [[q|] s'] eqn:Ep; [|discriminate]. cbn in E. injection E as <- <-.
      destruct (spec_LetPtr false _ _ _ _ _ _ _ I1 (okl_vld _ _ _ (Q1 _ HA)) Ep) as [_ K]. destruct (K C2) as (_ & _ & _ & K'). exact K'. }
  assert (H2 : reaches any (start w) (s2, p :: ps, ls)).
  { exact (reaches_step any _ _ _ _ _ _ _ H HA Logic.I E). }
  destruct (later false any _ _ _ _ _ _ _ (any_allowed any) H2 H3 C) as (_ & _ & R).
  destruct p as [[r b]|]; [|contradiction]. pose proof (st_pinned _ _ _ R Hpin) as [_ Hb].
  unfold rejected. cbn [run]. unfold lift, MovePtr, CopyPtr, bind, look. rewrite Hb. auto.
Qed.
Lemma end_twice w s1 ps ls l fuel s2 s3 ps3 ls3 fuel' :
  reaches no_life (start w) (s1, ps, ls) -> In l ls -> run (OEndLifetime fuel l) s1 = Some (Ok RUnit, s2) ->
  reaches no_life (s2, ps, ls) (s3, ps3, ls3) -> counter_ok s3 ->
  run (OEndLifetime fuel' l) s3 = Some (Ok RUnit, s3).
Proof.
  intros H Hl E H3 C. pose proof (reaches_mono _ _ _ H3) as L. cbn [fst] in L. pose proof (run_mono _ _ _ _ E) as L1.
  assert (Hok : forall o, no_life o -> allowed true o) by (intros o Ho _; exact Ho).
  assert (H2 : reaches no_life (start w) (s2, ps, ls)).
  { exact (reaches_step no_life _ _ _ _ (OEndLifetime fuel l) _ _ H Hl Logic.I E). }
  destruct (later true no_life _ _ _ _ _ _ _ Hok H2 H3 C) as (_ & (I3 & _ & _) & R).
  destruct (reaches_sound true no_life _ _ Hok H (CInv_start true w)) as [_ K1]. cbn [fst] in K1.
  destruct K1 as [(I1 & _ & Q1) _]; [unfold counter_ok in *; lia|].
  specialize (Q1 l Hl). cbn [run] in E. destruct (EndLifetime fuel l s1) as [[[[]|] s']|] eqn:Ee; [|discriminate|discriminate].
  cbn in E. injection E as <-.
  destruct (ospec_EndLifetime true _ _ _ _ _ I1 Q1 Ee) as [_ K]. destruct K as (_ & R2 & K); [unfold counter_ok in *; lia|].
  specialize (K eq_refl). pose proof (st_lowge _ _ _ _ R K) as [Hv Hlow]. destruct Q1 as (Hr & _ & Q1). destruct (Q1 eq_refl) as [Hroot Hll].
  pose proof (st_isr _ _ _ R (st_isr _ _ _ R2 Hroot)) as [_ Hk].
  destruct (v_kind _ _ I3 _ Hk) as [_ He]. pose proof (v_rev _ _ I3 (lroot l)) as [Hrr _].
  unfold counter_ok in C. rewrite (low_small (rev _)) in Hlow by lia.
  cbn [run]. unfold EndLifetime. cbv zeta. destruct (Z.eqb_spec (rev (heap s3 (lroot l))) (lrev l)); [lia|]. reflexivity.
Qed.
