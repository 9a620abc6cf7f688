(** Lemmas about the search of BitPattern.encode. *)
From Verif Require Import GoBase BaseLemmas ArmModel ArmSpec ArmProofs.

Lemma ones_bit n i : 0 <= n -> 0 <= i -> Z.testbit (Z.ones n) i = (i <? n).
Proof. intros N I. destruct (i <? n) eqn:E; [apply Z.ltb_lt in E; apply Z.ones_spec_low; lia|apply Z.ltb_ge in E; apply Z.ones_spec_high; lia]. Qed.
Lemma ones_eq n : Z.ones n = 2 ^ n - 1.
Proof. rewrite Z.ones_equiv. lia. Qed.
Lemma u64_bit x i : 0 <= i -> Z.testbit (u64 x) i = Z.testbit x i && (i <? 64).
Proof.
  intros I. unfold u64. destruct (i <? 64) eqn:E; [apply Z.ltb_lt in E; rewrite Z.mod_pow2_bits_low, andb_true_r by lia|apply Z.ltb_ge in E; rewrite Z.mod_pow2_bits_high, andb_false_r by lia]; reflexivity.
Qed.
Lemma bit_high e p i : 0 <= p < 2 ^ e -> 0 <= e <= i -> Z.testbit p i = false.
Proof.
  intros P I. destruct (Z.eq_dec p 0) as [->|N]; [apply Z.bits_0|]. apply Z.bits_above_log2; [lia|]. apply Z.log2_lt_pow2; [lia|].
  assert (2 ^ e <= 2 ^ i) by (apply Z.pow_le_mono_r; lia). lia.
Qed.
Lemma bits_eq e p q : 0 <= p < 2 ^ e -> 0 <= q < 2 ^ e -> 0 <= e -> (forall i, 0 <= i < e -> Z.testbit p i = Z.testbit q i) -> p = q.
Proof.
  intros P Q E H. apply Z.bits_inj'. intros i I. destruct (Z_lt_ge_dec i e) as [L|G]; [apply H; lia|].
  rewrite (bit_high e p), (bit_high e q) by lia. reflexivity.
Qed.
(** The rotation by r within e bits. *)
Definition rotate (e p r : Z) : Z := Z.shiftr p r |. Z.land (u64 (p << (e - r))) ((1 << e) - 1).
Lemma mask_ones e : 0 <= e -> (1 << e) - 1 = Z.ones e.
Proof. intros E. rewrite Z.shiftl_mul_pow2, ones_eq by lia. lia. Qed.
Lemma rotate_bit e p r i : 0 <= p < 2 ^ e -> 0 <= r < e -> e <= 64 -> 0 <= i < e ->
  Z.testbit (rotate e p r) i = Z.testbit p ((i + r) mod e).
Proof.
  intros P R E I. unfold rotate. rewrite mask_ones, Z.lor_spec, Z.land_spec, u64_bit, ones_bit, Z.shiftr_spec, Z.shiftl_spec by lia.
  replace (i <? e) with true by (symmetry; apply Z.ltb_lt; lia). replace (i <? 64) with true by (symmetry; apply Z.ltb_lt; lia). rewrite !andb_true_r.
  destruct (Z_lt_ge_dec (i + r) e) as [L|G].
  - rewrite (Z.testbit_neg_r p (i - (e - r))) by lia. rewrite orb_false_r, Z.mod_small by lia. reflexivity.
  - rewrite (bit_high e p (i + r)) by lia. cbn [orb]. f_equal. apply (Z.mod_unique _ _ 1); lia.
Qed.
Lemma rotate_bound e p r : 0 <= p < 2 ^ e -> 0 <= r < e -> 0 <= rotate e p r < 2 ^ e.
Proof.
  intros P R. unfold rotate. apply lor_bound; [lia| |].
  - rewrite Z.shiftr_div_pow2 by lia. pose proof (Z.pow_pos_nonneg 2 r ltac:(lia) ltac:(lia)). split; [apply Z.div_pos; lia|].
    apply Z.div_lt_upper_bound; [lia|]. nia.
  - rewrite mask_ones, Z.land_ones by lia. apply Z.mod_pos_bound. apply Z.pow_pos_nonneg; lia.
Qed.

(** Consecutive ones. *)
Lemma consecutive v : 0 <= v < 2 ^ 64 -> is_consecutive_ones v = true -> exists c, 1 <= c <= 64 /\ v = 2 ^ c - 1.
Proof.
  unfold is_consecutive_ones. intros V H. apply andb_true_iff in H. destruct H as [H1 H2]. apply negb_true_iff, Z.eqb_neq in H1. apply Z.eqb_eq in H2.
  destruct (Z.eq_dec v (2 ^ 64 - 1)) as [->|N]; [exists 64; lia|].
  unfold u64 in H2. rewrite Z.mod_small in H2 by lia.
  pose proof (Z.log2_spec v ltac:(lia)) as [A B]. pose proof (Z.log2_nonneg v) as C. set (k := Z.log2 v) in *.
  assert (K : k < 64). { apply Z.log2_lt_pow2; lia. }
  destruct (Z.eq_dec (v + 1) (2 ^ Z.succ k)) as [E|NE]; [exists (Z.succ k); lia|]. exfalso.
  assert (L : Z.log2 (v + 1) = k) by (apply Z.log2_unique; lia).
  assert (T : Z.testbit (Z.land (v + 1) v) k = true).
  { rewrite Z.land_spec. rewrite <- L at 1. rewrite Z.bit_log2 by lia. unfold k. rewrite Z.bit_log2 by lia. reflexivity. }
  rewrite H2, Z.bits_0 in T. discriminate.
Qed.
Lemma consecutive_back c : 1 <= c <= 64 -> is_consecutive_ones (2 ^ c - 1) = true.
Proof.
  intros C. unfold is_consecutive_ones. assert (P : 2 ^ 1 <= 2 ^ c) by (apply Z.pow_le_mono_r; lia). change (2 ^ 1) with 2 in P.
  apply andb_true_iff. split; [apply negb_true_iff, Z.eqb_neq; lia|apply Z.eqb_eq].
  replace (2 ^ c - 1 + 1) with (2 ^ c) by lia. apply Z.bits_inj'. intros i I. rewrite Z.bits_0, Z.land_spec, u64_bit, <- ones_eq, ones_bit by lia.
  destruct (i <? c) eqn:E; [apply Z.ltb_lt in E|apply andb_false_r]. rewrite Z.pow2_bits_false by lia. reflexivity.
Qed.
Lemma trailing_ones fuel : forall c n, 0 <= c <= Z.of_nat fuel -> trailing fuel (2 ^ c - 1) n = n + c.
Proof.
  induction fuel as [|f IH]; intros c n C; cbn [trailing]; [assert (c = 0) by lia; subst; cbn; lia|].
  destruct (Z.eq_dec c 0) as [->|N]; [cbn; lia|].
  replace (2 ^ c - 1) with (2 * (2 ^ (c - 1) - 1) + 1).
  2:{ replace c with (c - 1 + 1) at 2 by lia. rewrite Z.pow_add_r by lia. lia. }
  rewrite Z.add_comm, Z.odd_add_mul_2. cbn [Z.odd].
  replace (Z.shiftr (1 + 2 * (2 ^ (c - 1) - 1)) 1) with (2 ^ (c - 1) - 1).
  2:{ rewrite Z.shiftr_div_pow2 by lia. change (2 ^ 1) with 2. apply (Z.div_unique _ 2 _ 1); lia. }
  rewrite IH by lia. lia.
Qed.
Lemma count_ones c : 1 <= c <= 64 -> count_trailing_ones (2 ^ c - 1) = c.
Proof.
  intros C. unfold count_trailing_ones. assert (P : 2 ^ 1 <= 2 ^ c) by (apply Z.pow_le_mono_r; lia). change (2 ^ 1) with 2 in P.
  replace (2 ^ c - 1 =? 0) with false by (symmetry; apply Z.eqb_neq; lia). rewrite trailing_ones by lia. lia.
Qed.

(** Loops with an early return. *)
Lemma first_some {A B} (f : A -> option B) l y : first f l = Some y -> exists x, In x l /\ f x = Some y.
Proof.
  induction l as [|a l IH]; cbn [first]; [discriminate|]. destruct (f a) eqn:E; intros Q; [injection Q as <-; exists a; split; [left; reflexivity|exact E]|].
  destruct (IH Q) as (x & I & F). exists x. split; [right; exact I|exact F].
Qed.
Lemma first_none {A B} (f : A -> option B) l x : first f l = None -> In x l -> f x = None.
Proof.
  induction l as [|a l IH]; cbn [first]; [intros _ []|]. destruct (f a) eqn:E; [discriminate|]. intros Q [->|I]; [exact E|exact (IH Q I)].
Qed.
Lemma upto_in n x : In x (upto n) <-> 0 <= x < Z.of_nat n.
Proof.
  unfold upto. rewrite in_map_iff. split.
  - intros (k & <- & I). apply in_seq in I. lia.
  - intros H. exists (Z.to_nat x). split; [lia|]. apply in_seq. lia.
Qed.

(** The repeated pattern. *)
Lemma expected_bit e p : 0 < e -> 0 <= p < 2 ^ e -> forall k i, 0 <= i < 64 ->
  Z.testbit (fold_left (fun acc j => acc |. u64 (p << (j * e))) (upto k) 0) i = Z.testbit p (i mod e) && (i <? Z.of_nat k * e).
Proof.
  intros E P. induction k as [|k IH]; intros i I.
  - cbn [upto seq map fold_left]. rewrite Z.bits_0. replace (i <? Z.of_nat 0 * e) with false by (symmetry; apply Z.ltb_ge; lia). rewrite andb_false_r. reflexivity.
  - unfold upto in *. rewrite seq_S, map_app, fold_left_app. cbn [map fold_left]. rewrite Nat.add_0_l, Z.lor_spec, IH, u64_bit, Z.shiftl_spec by lia.
    replace (i <? 64) with true by (symmetry; apply Z.ltb_lt; lia). rewrite andb_true_r.
    destruct (Z_lt_ge_dec i (Z.of_nat k * e)) as [L|G].
    + replace (i <? Z.of_nat k * e) with true by (symmetry; apply Z.ltb_lt; lia). replace (i <? Z.of_nat (S k) * e) with true by (symmetry; apply Z.ltb_lt; lia).
      rewrite (Z.testbit_neg_r p (i - Z.of_nat k * e)) by lia. rewrite andb_true_r, orb_false_r. reflexivity.
    + replace (i <? Z.of_nat k * e) with false by (symmetry; apply Z.ltb_ge; lia). rewrite andb_false_r. cbn [orb].
      destruct (Z_lt_ge_dec i (Z.of_nat (S k) * e)) as [L2|G2].
      * replace (i <? Z.of_nat (S k) * e) with true by (symmetry; apply Z.ltb_lt; lia). rewrite andb_true_r. f_equal. apply (Z.mod_unique _ _ (Z.of_nat k)); lia.
      * replace (i <? Z.of_nat (S k) * e) with false by (symmetry; apply Z.ltb_ge; lia). rewrite andb_false_r. apply (bit_high e); [exact P|lia].
Qed.
Definition small (e : Z) : Prop := e = 2 \/ e = 4 \/ e = 8 \/ e = 16 \/ e = 32.
(** The value repeats after e bits, stated with the remainder. *)
Definition rep (e v : Z) : Prop := forall i, 0 <= i < 64 -> Z.testbit v i = Z.testbit v (i mod e).
Lemma rep_repeats e v : 0 < e -> rep e v <-> repeats e v.
Proof.
  intros E. split.
  - intros H i I L. rewrite H by lia. rewrite (H i) by lia. f_equal. replace (i + e) with (i + 1 * e) by lia. apply Z.mod_add. lia.
  - intros H i. assert (G : forall k j, 0 <= j -> j + Z.of_nat k * e < 64 -> Z.testbit v (j + Z.of_nat k * e) = Z.testbit v j).
    { induction k as [|k IH]; intros j J L; [f_equal; lia|]. replace (j + Z.of_nat (S k) * e) with (j + Z.of_nat k * e + e) by lia.
      rewrite H by lia. apply IH; lia. }
    intros I. pose proof (Z.div_mod i e ltac:(lia)). pose proof (Z.mod_pos_bound i e ltac:(lia)). pose proof (Z.div_pos i e ltac:(lia) ltac:(lia)).
    rewrite <- (G (Z.to_nat (i / e)) (i mod e)) by lia. f_equal. lia.
Qed.
Lemma pattern_bit v e i : 0 <= e -> 0 <= i -> Z.testbit (Z.land v ((1 << e) - 1)) i = Z.testbit v i && (i <? e).
Proof. intros E I. rewrite mask_ones, Z.land_spec, ones_bit by lia. reflexivity. Qed.
Lemma pattern_bound v e : 0 <= e -> 0 <= Z.land v ((1 << e) - 1) < 2 ^ e.
Proof. intros E. rewrite mask_ones, Z.land_ones by lia. apply Z.mod_pos_bound. apply Z.pow_pos_nonneg; lia. Qed.
Lemma fold_bound (g : Z -> Z) l : forall a, 0 <= a < 2 ^ 64 -> 0 <= fold_left (fun acc j => acc |. u64 (g j)) l a < 2 ^ 64.
Proof.
  induction l as [|x l IH]; intros a A; cbn [fold_left]; [exact A|]. apply IH. apply lor_bound; [lia|exact A|]. unfold u64. apply Z.mod_pos_bound. lia.
Qed.
Lemma expected_rep v e : small e -> 0 <= v < 2 ^ 64 -> (expected e (Z.land v ((1 << e) - 1)) =? v) = true <-> rep e v.
Proof.
  intros Sm V. assert (E : 0 < e <= 32) by (unfold small in Sm; lia).
  assert (X : forall i, 0 <= i < 64 -> Z.testbit (expected e (Z.land v ((1 << e) - 1))) i = Z.testbit v (i mod e)).
  { intros i I. unfold expected. rewrite expected_bit by (try apply pattern_bound; lia).
    replace (i <? Z.of_nat (Z.to_nat (64 / e)) * e) with true.
    2:{ symmetry. apply Z.ltb_lt. unfold small in Sm. assert (64 / e * e = 64) by (destruct Sm as [->|[->|[->|[->| ->]]]]; reflexivity).
        pose proof (Z.div_pos 64 e ltac:(lia) ltac:(lia)). rewrite Z2Nat.id by lia. lia. }
    pose proof (Z.mod_pos_bound i e ltac:(lia)). rewrite pattern_bit, andb_true_r by lia.
    replace (i mod e <? e) with true by (symmetry; apply Z.ltb_lt; lia). apply andb_true_r. }
  rewrite Z.eqb_eq. split.
  - intros Q i I. rewrite <- X by exact I. rewrite Q. reflexivity.
  - intros R. apply (bits_eq 64); [apply fold_bound; lia|exact V|lia|]. intros i I. rewrite X by exact I. symmetry. apply R. exact I.
Qed.
(** A run of s+1 ones rotated left by r within elements of e bits. *)
Definition run (e s r v : Z) : Prop := forall i, 0 <= i < 64 -> Z.testbit v i = ((i - r) mod e <=? s).
Lemma land63 r : 0 <= r < 64 -> Z.land r 63 = r.
Proof. intros R. change 63 with (Z.ones 6). rewrite Z.land_ones by lia. apply Z.mod_small. lia. Qed.
Lemma mod_mod_sub i r e : 0 < e -> (i mod e - r) mod e = (i - r) mod e.
Proof. intros E. rewrite Zminus_mod_idemp_l. reflexivity. Qed.

Lemma small_sound v e n r s : small e -> 0 <= v < 2 ^ 64 -> search_small v e = Some (n, r, s) ->
  n = 0 /\ 0 <= r < e /\ 0 <= s < e /\ rep e v /\ run e s r v.
Proof.
  intros Sm V. assert (E : 0 < e <= 32) by (unfold small in Sm; lia). unfold search_small. cbv zeta.
  set (p := Z.land v ((1 << e) - 1)). destruct (expected e p =? v) eqn:X; [|discriminate].
  unfold p in X. apply expected_rep in X; [|exact Sm|exact V].
  intros Q. apply first_some in Q. destruct Q as (r0 & I & Q). apply upto_in in I. rewrite Z2Nat.id in I by lia.
  change (Z.shiftr p r0 |. Z.land (u64 (p << (e - r0))) ((1 << e) - 1)) with (rotate e p r0) in Q.
  assert (P : 0 <= p < 2 ^ e) by (apply pattern_bound; lia).
  pose proof (rotate_bound e p r0 P I) as B. assert (B64 : 2 ^ e <= 2 ^ 32) by (apply Z.pow_le_mono_r; lia).
  destruct (is_consecutive_ones (rotate e p r0)) eqn:C; [|discriminate]. apply consecutive in C; [|lia]. destruct C as (c & C & W).
  rewrite W in Q. rewrite count_ones in Q by lia.
  assert (CE : c <= e). { rewrite W in B. destruct (Z_le_gt_dec c e); [assumption|]. assert (2 ^ (e + 1) <= 2 ^ c) by (apply Z.pow_le_mono_r; lia). rewrite Z.pow_add_r in H by lia. lia. }
  destruct (c - 1 <? e) eqn:L; [|discriminate]. injection Q as <- <- <-. rewrite !land63 by lia.
  split; [reflexivity|]. split; [lia|]. split; [lia|]. split; [exact X|]. intros i Hi. rewrite X by exact Hi.
  pose proof (Z.mod_pos_bound i e ltac:(lia)) as M. set (j := (i - r0) mod e). pose proof (Z.mod_pos_bound (i - r0) e ltac:(lia)) as J. fold j in J.
  assert (T : Z.testbit (rotate e p r0) j = Z.testbit v (i mod e)).
  { rewrite rotate_bit by lia. unfold p. rewrite pattern_bit by (try apply Z.mod_pos_bound; lia). replace ((j + r0) mod e) with (i mod e).
    - replace (i mod e <? e) with true by (symmetry; apply Z.ltb_lt; lia). apply andb_true_r.
    - unfold j. rewrite Zplus_mod_idemp_l. f_equal. lia. }
  rewrite <- T, W, <- ones_eq, ones_bit by lia. destruct (j <? c) eqn:Y, (j <=? c - 1) eqn:Z'; try reflexivity; [apply Z.ltb_lt in Y; apply Z.leb_gt in Z'|apply Z.ltb_ge in Y; apply Z.leb_le in Z']; lia.
Qed.
Lemma small_complete v e s r : small e -> 0 <= v < 2 ^ 64 -> 0 <= r < e -> 0 <= s < e -> run e s r v -> search_small v e <> None.
Proof.
  intros Sm V R S' H Q. assert (E : 0 < e <= 32) by (unfold small in Sm; lia). revert Q. unfold search_small. cbv zeta.
  assert (X : rep e v). { intros i I. pose proof (Z.mod_pos_bound i e ltac:(lia)). rewrite (H i I), H by lia. rewrite mod_mod_sub by lia. reflexivity. }
  pose proof X as X'. apply expected_rep in X'; [|exact Sm|exact V]. rewrite X'. intros Q.
  set (p := Z.land v ((1 << e) - 1)) in *. assert (P : 0 <= p < 2 ^ e) by (apply pattern_bound; lia).
  apply (first_none _ _ r) in Q; [|apply upto_in; lia]. cbv beta in Q.
  change (Z.shiftr p r |. Z.land (u64 (p << (e - r))) ((1 << e) - 1)) with (rotate e p r) in Q.
  assert (W : rotate e p r = 2 ^ (s + 1) - 1).
  { assert (PO : 0 <= Z.ones (s + 1) < 2 ^ e). { rewrite ones_eq. pose proof (Z.pow_pos_nonneg 2 (s + 1) ltac:(lia) ltac:(lia)). assert (2 ^ (s + 1) <= 2 ^ e) by (apply Z.pow_le_mono_r; lia). lia. }
    rewrite <- ones_eq. apply (bits_eq e); [apply rotate_bound; lia|exact PO|lia|]. intros i I. rewrite rotate_bit, ones_bit by lia.
    pose proof (Z.mod_pos_bound (i + r) e ltac:(lia)) as M. unfold p. rewrite pattern_bit by lia. replace ((i + r) mod e <? e) with true by (symmetry; apply Z.ltb_lt; lia).
    rewrite andb_true_r, H by lia. rewrite mod_mod_sub by lia. replace (i + r - r) with i by lia. rewrite Z.mod_small by lia.
    destruct (i <=? s) eqn:Y, (i <? s + 1) eqn:Z'; try reflexivity; [apply Z.leb_le in Y; apply Z.ltb_ge in Z'|apply Z.leb_gt in Y; apply Z.ltb_lt in Z']; lia. }
  rewrite W in Q. rewrite consecutive_back, count_ones in Q by lia. replace (s + 1 - 1 <? e) with true in Q by (symmetry; apply Z.ltb_lt; lia). discriminate.
Qed.

(** Elements of 64 bits. *)
Lemma block s : 0 <= s < 64 -> u64 (u64 (1 << (s + 1)) - 1) = Z.ones (s + 1).
Proof.
  intros H. rewrite ones_eq, Z.shiftl_mul_pow2, Z.mul_1_l by lia. destruct (Z.eq_dec s 63) as [->|N]; [reflexivity|].
  assert (2 ^ (s + 1) <= 2 ^ 63) by (apply Z.pow_le_mono_r; lia). pose proof (Z.pow_pos_nonneg 2 (s + 1) ltac:(lia) ltac:(lia)).
  unfold u64. rewrite (Z.mod_small (2 ^ (s + 1))) by lia. apply Z.mod_small. lia.
Qed.
Lemma rotate64 w r : 0 <= w < 2 ^ 64 -> 0 <= r < 64 -> Z.shiftr w r |. u64 (w << (64 - r)) = rotate 64 w r.
Proof. intros W R. unfold rotate. f_equal. rewrite mask_ones, Z.land_ones by lia. unfold u64. rewrite Z.mod_mod by lia. reflexivity. Qed.
Definition rrun (e s r v : Z) : Prop := forall i, 0 <= i < 64 -> Z.testbit v i = ((i + r) mod e <=? s).
Lemma ones_lt s : 0 <= s < 64 -> 0 <= Z.ones (s + 1) < 2 ^ 64.
Proof. intros H. rewrite ones_eq. pose proof (Z.pow_pos_nonneg 2 (s + 1) ltac:(lia) ltac:(lia)). assert (2 ^ (s + 1) <= 2 ^ 64) by (apply Z.pow_le_mono_r; lia). lia. Qed.
Lemma rotated_run s r i : 0 <= s < 64 -> 0 <= r < 64 -> 0 <= i < 64 -> Z.testbit (rotate 64 (Z.ones (s + 1)) r) i = ((i + r) mod 64 <=? s).
Proof.
  intros S' R I. pose proof (ones_lt s S'). rewrite rotate_bit by lia. pose proof (Z.mod_pos_bound (i + r) 64 ltac:(lia)). rewrite ones_bit by lia.
  set (j := (i + r) mod 64) in *. destruct (j <=? s) eqn:Y, (j <? s + 1) eqn:Z'; try reflexivity; [apply Z.leb_le in Y; apply Z.ltb_ge in Z'|apply Z.leb_gt in Y; apply Z.ltb_lt in Z']; lia.
Qed.
Lemma wide_sound v n r s : search64 v = Some (n, r, s) -> n = 1 /\ 0 <= r < 64 /\ 0 <= s < 64 /\ rrun 64 s r v.
Proof.
  unfold search64. cbv zeta. intros Q. apply first_some in Q. destruct Q as (s0 & IS & Q). apply first_some in Q. destruct Q as (r0 & IR & Q).
  apply upto_in in IS. apply upto_in in IR. rewrite block in Q by lia. rewrite rotate64 in Q by (try apply ones_lt; lia).
  destruct (rotate 64 (Z.ones (s0 + 1)) r0 =? v) eqn:E; [|discriminate]. apply Z.eqb_eq in E. injection Q as <- <- <-. rewrite !land63 by lia.
  split; [reflexivity|]. split; [lia|]. split; [lia|]. intros i I. rewrite <- E. apply rotated_run; lia.
Qed.
Lemma wide_complete v s r : 0 <= v < 2 ^ 64 -> 0 <= s < 64 -> 0 <= r < 64 -> rrun 64 s r v -> search64 v <> None.
Proof.
  intros V S' R H Q. unfold search64 in Q. cbv zeta in Q. apply (first_none _ _ s) in Q; [|apply upto_in; lia]. apply (first_none _ _ r) in Q; [|apply upto_in; lia]. cbv beta in Q.
  rewrite block in Q by lia. rewrite rotate64 in Q by (try apply ones_lt; lia).
  replace (rotate 64 (Z.ones (s + 1)) r =? v) with true in Q; [discriminate|]. symmetry. apply Z.eqb_eq.
  apply (bits_eq 64); [apply rotate_bound; [apply ones_lt; lia|lia]|exact V|lia|]. intros i I. rewrite rotated_run by lia. symmetry. apply H. exact I.
Qed.
