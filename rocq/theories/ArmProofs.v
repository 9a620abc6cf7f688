(** Lemmas for the ARM64 assembler: fields of a word put together from parts. *)
From Verif Require Import GoBase BaseLemmas ArmModel ArmSpec.

Lemma field_land w lo n : 0 <= lo -> 0 <= n -> field w lo n = Z.land (Z.shiftr w lo) (Z.ones n).
Proof. intros L N. unfold field. rewrite Z.land_ones, Z.shiftr_div_pow2 by lia. reflexivity. Qed.
Lemma field_lor a b lo n : 0 <= lo -> 0 <= n -> field (a |. b) lo n = field a lo n |. field b lo n.
Proof. intros L N. rewrite !field_land, Z.shiftr_lor, Z.land_lor_distr_l by lia. reflexivity. Qed.
(** A part above the field, below it, and the field itself. *)
Lemma field_above x k lo n : 0 <= lo -> 0 <= n -> lo + n <= k -> field (x << k) lo n = 0.
Proof.
  intros L N K. unfold field. rewrite Z.shiftl_mul_pow2 by lia. replace k with (k - lo - n + n + lo) by lia.
  rewrite (Z.pow_add_r 2 (k - lo - n + n) lo), Z.mul_assoc, Z.div_mul by lia.
  rewrite Z.pow_add_r, Z.mul_assoc by lia. apply Z.mod_mul. lia.
Qed.
Lemma field_below x k w lo n : 0 <= k -> 0 <= w -> 0 <= x < 2 ^ w -> k + w <= lo -> field (x << k) lo n = 0.
Proof.
  intros K W X L. unfold field. rewrite Z.shiftl_mul_pow2 by lia. rewrite Z.div_small; [reflexivity|].
  assert (2 ^ w * 2 ^ k <= 2 ^ lo) by (rewrite <- Z.pow_add_r by lia; apply Z.pow_le_mono_r; lia).
  pose proof (Z.pow_pos_nonneg 2 k ltac:(lia) ltac:(lia)). nia.
Qed.
Lemma field_same x k n : 0 <= k -> 0 <= x < 2 ^ n -> field (x << k) k n = x.
Proof. intros K X. unfold field. rewrite Z.shiftl_mul_pow2, Z.div_mul by lia. apply Z.mod_small. exact X. Qed.

(** The parts, for values that fit. *)
Lemma land_fit w v : 0 <= w -> 0 <= v < 2 ^ w -> Z.land v (Z.ones w) = v.
Proof. intros W V. rewrite Z.land_ones by lia. apply Z.mod_small. exact V. Qed.
Lemma rd_fit r : reg r -> rd r = r << 0.
Proof. intros R. unfold rd. change 31 with (Z.ones 5). rewrite land_fit; [reflexivity|lia|exact R]. Qed.
Lemma rn_fit r : reg r -> rn r = r << 5.
Proof. intros R. unfold rn. change 31 with (Z.ones 5). rewrite land_fit; [reflexivity|lia|exact R]. Qed.
Lemma rm_fit r : reg r -> rm r = r << 16.
Proof. intros R. unfold rm. change 31 with (Z.ones 5). rewrite land_fit; [reflexivity|lia|exact R]. Qed.
Lemma imm_fit w v : 0 <= w -> within (2 ^ w) v -> imm w v = v.
Proof.
  intros W V. unfold imm, within in *. destruct (v <? 0) eqn:E; [apply Z.ltb_lt in E; lia|]. apply land_fit; assumption.
Qed.

(** Evaluation of the fields of a word. [leaf] does one part. *)
Ltac range := unfold reg, within in *; lia.
Ltac leaf :=
  match goal with
  | |- context [field (?x << ?k) ?lo ?n] =>
      first [ rewrite (field_above x k lo n) by range
            | rewrite (field_below x k 5 lo n) by range
            | rewrite (field_below x k 1 lo n) by range
            | rewrite (field_below x k 2 lo n) by range
            | rewrite (field_below x k 3 lo n) by range
            | rewrite (field_below x k 4 lo n) by range
            | rewrite (field_below x k 6 lo n) by range
            | rewrite (field_below x k 12 lo n) by range
            | rewrite (field_below x k 16 lo n) by range
            | rewrite (field_below x k 19 lo n) by range
            | constr_eq k lo; rewrite (field_same x k n) by range ]
  end.
Ltac zconst c := match c with Z0 => idtac | Zpos _ => idtac | Zneg _ => idtac end.
Ltac const :=
  match goal with
  | |- context [field ?c ?lo ?n] => zconst c; let v := eval vm_compute in (field c lo n) in change (field c lo n) with v
  end.
Ltac fields := rewrite ?field_lor by lia; repeat first [const | leaf]; rewrite ?Z.lor_0_l, ?Z.lor_0_r.
Ltac step :=
  match goal with
  | |- (if ?c then _ else _) = _ =>
      let H := fresh "H" in eassert (H : c = _) by (fields; cbn; reflexivity); rewrite H; clear H
  end.
Ltac dec := unfold decode; cbv zeta; repeat step; fields; try reflexivity.

(** Bounds of a word. *)
Lemma lor_bound n a b : 0 <= n -> 0 <= a < 2 ^ n -> 0 <= b < 2 ^ n -> 0 <= a |. b < 2 ^ n.
Proof.
  intros N A B. split; [apply Z.lor_nonneg; lia|].
  destruct (Z.eq_dec (a |. b) 0) as [E|NE]; [rewrite E; apply Z.pow_pos_nonneg; lia|].
  assert (0 <= a |. b) by (apply Z.lor_nonneg; lia).
  apply Z.log2_lt_cancel. rewrite Z.log2_pow2 by lia. rewrite Z.log2_lor by lia.
  apply Z.max_lub_lt; [destruct (Z.eq_dec a 0) as [->|]|destruct (Z.eq_dec b 0) as [->|]]; try (cbn; destruct (Z.eq_dec n 0) as [->|]; [|lia]).
  - change (2 ^ 0) with 1 in *. assert (b = 0) by lia. subst. exfalso. apply NE. reflexivity.
  - apply Z.log2_lt_pow2; lia.
  - change (2 ^ 0) with 1 in *. assert (a = 0) by lia. subst. exfalso. apply NE. reflexivity.
  - apply Z.log2_lt_pow2; lia.
Qed.
Lemma shl_bound x k w n : 0 <= k -> 0 <= w -> 0 <= x < 2 ^ w -> k + w <= n -> 0 <= x << k < 2 ^ n.
Proof.
  intros K W X L. rewrite Z.shiftl_mul_pow2 by lia. pose proof (Z.pow_pos_nonneg 2 k ltac:(lia) ltac:(lia)). split; [nia|].
  assert (2 ^ w * 2 ^ k <= 2 ^ n) by (rewrite <- Z.pow_add_r by lia; apply Z.pow_le_mono_r; lia). nia.
Qed.
Ltac word_bound :=
  repeat match goal with
  | |- 0 <= _ |. _ < _ => apply (lor_bound 32); [lia| |]
  | |- 0 <= ?x << 0 < _ => apply (shl_bound x 0 5 32); range
  | |- 0 <= ?x << 5 < _ => first [apply (shl_bound x 5 5 32); range | apply (shl_bound x 5 16 32); range | apply (shl_bound x 5 19 32); range]
  | |- 0 <= ?x << ?k < _ => first [apply (shl_bound x k 2 32); range | apply (shl_bound x k 3 32); range
      | apply (shl_bound x k 6 32); range | apply (shl_bound x k 12 32); range | apply (shl_bound x k 5 32); range]
  | |- 0 <= Zpos _ < _ => split; [discriminate|reflexivity]
  end.
Ltac parts := rewrite ?rd_fit, ?rn_fit, ?rm_fit, ?imm_fit by (assumption || range).

(** [good_word c i]: the word of c is a 32 bit word that decodes to i. *)
Definition says (c : call) (r : option arm) : Prop :=
  exists w, word c = Some w /\ 0 <= w < 2 ^ 32 /\ decode w = r.
Ltac says_tac := eexists; split; [cbn [word]; reflexivity|]; parts; split; [change 4294967296 with (2 ^ 32); word_bound|dec].

(** The offset of ADR and ADRP: the low 2 bits and the 19 above them, in two's complement. *)
Lemma immlo_fit v : immlo v = (v mod 4) << 29.
Proof. unfold immlo. change 3 with (Z.ones 2). rewrite Z.land_ones by lia. reflexivity. Qed.
Lemma immhi_fit v : - 2 ^ 20 <= v < 2 ^ 20 -> immhi v = ((v mod 2 ^ 21) / 4) << 5.
Proof.
  intros V. unfold immhi. apply Z.bits_inj'. intros i I.
  assert (T : forall i, 0 <= i -> Z.testbit (v mod 2 ^ 21 / 4) i = (Z.testbit v (i + 2) && (i <? 19))).
  { intros j J. change 4 with (2 ^ 2). rewrite Z.div_pow2_bits by lia. destruct (j <? 19) eqn:E; [apply Z.ltb_lt in E|apply Z.ltb_ge in E].
    - rewrite Z.mod_pow2_bits_low by lia. rewrite andb_true_r. reflexivity.
    - rewrite Z.mod_pow2_bits_high by lia. rewrite andb_false_r. reflexivity. }
  assert (M : forall n i, 0 <= n -> 0 <= i -> Z.testbit (Z.ones n) i = (i <? n)).
  { intros n j N J. destruct (j <? n) eqn:E; [apply Z.ltb_lt in E; apply Z.ones_spec_low; lia|apply Z.ltb_ge in E; apply Z.ones_spec_high; lia]. }
  rewrite (Z.shiftl_spec _ 5) by lia. destruct (Z_lt_ge_dec i 5) as [L|G].
  { rewrite (Z.testbit_neg_r _ (i - 5)) by lia. destruct (v <? 0); rewrite Z.shiftl_spec by lia.
    - destruct (Z_lt_ge_dec i 3); [rewrite Z.testbit_neg_r by lia; reflexivity|].
      rewrite Z.lor_spec, Z.land_spec, !Z.shiftl_spec by lia. rewrite (Z.testbit_neg_r _ (i - 3 - 2)) by lia. rewrite (Z.testbit_neg_r _ (i - 3 - 20)) by lia. rewrite andb_false_r. reflexivity.
    - destruct (Z_lt_ge_dec i 3); [rewrite Z.testbit_neg_r by lia; reflexivity|].
      rewrite Z.land_spec, Z.shiftl_spec by lia. rewrite (Z.testbit_neg_r _ (i - 3 - 2)) by lia. rewrite andb_false_r. reflexivity. }
  rewrite T by lia. replace (i - 5 + 2) with (i - 3) by lia.
  change 262143 with (Z.ones 18). change 524287 with (Z.ones 19).
  destruct (v <? 0) eqn:E; [apply Z.ltb_lt in E|apply Z.ltb_ge in E]; rewrite Z.shiftl_spec by lia.
  - rewrite Z.lor_spec, Z.land_spec, !Z.shiftl_spec by lia. rewrite M by lia.
    destruct (Z.eq_dec i 23) as [->|NE].
    + change (23 - 3 - 2 <? 18) with false. change (Z.testbit 1 (23 - 3 - 20)) with true. change (23 - 5 <? 19) with true.
      change (23 - 3) with 20. rewrite andb_false_r, andb_true_r. cbn [orb]. symmetry.
      assert (B : Z.testbit v 20 = negb (Z.testbit (Z.lnot v) 20)) by (rewrite Z.lnot_spec by lia; rewrite negb_involutive; reflexivity).
      rewrite B. rewrite Z.bits_above_log2; [reflexivity|unfold Z.lnot; lia|].
      destruct (Z.eq_dec (Z.lnot v) 0) as [->|N0]; [cbn; lia|]. apply Z.log2_lt_pow2; unfold Z.lnot in *; lia.
    + replace (Z.testbit 1 (i - 3 - 20)) with false.
      2:{ destruct (Z_lt_ge_dec (i - 3 - 20) 0); [rewrite Z.testbit_neg_r by lia; reflexivity|]. symmetry. change 1 with (Z.ones 1). rewrite M by lia. apply Z.ltb_ge. lia. }
      rewrite orb_false_r. f_equal. destruct (i - 3 - 2 <? 18) eqn:A, (i - 5 <? 19) eqn:B; try reflexivity; [apply Z.ltb_lt in A; apply Z.ltb_ge in B|apply Z.ltb_ge in A; apply Z.ltb_lt in B]; lia.
  - rewrite Z.land_spec, Z.shiftl_spec by lia. rewrite M by lia. f_equal. replace (i - 3 - 2) with (i - 5) by lia. reflexivity.
Qed.
Lemma sgn21_back v : - 2 ^ 20 <= v < 2 ^ 20 -> sgn21 (v mod 2 ^ 21 / 4 * 4 + v mod 4) = v.
Proof.
  intros V. replace (v mod 4) with ((v mod 2 ^ 21) mod 4).
  2:{ rewrite (Z.mod_eq v (2 ^ 21)) by lia. change (2 ^ 21) with (524288 * 4). set (q := v / (524288 * 4)).
      replace (v - 524288 * 4 * q) with (v + - (524288 * q) * 4) by lia. apply Z.mod_add. lia. }
  rewrite (Z.mul_comm _ 4), <- Z.div_mod by lia. unfold sgn21.
  change (2 ^ 21) with 2097152. change (2 ^ 20) with 1048576 in *.
  destruct (Z_lt_ge_dec v 0).
  - rewrite <- (Z.mod_unique v 2097152 (-1) (v + 2097152)) by lia. destruct (v + 2097152 <? 1048576) eqn:E; [apply Z.ltb_lt in E; lia|lia].
  - rewrite Z.mod_small by lia. destruct (v <? 1048576) eqn:E; [reflexivity|apply Z.ltb_ge in E; lia].
Qed.

(** A field within a field. *)
Lemma field_sub w lo n j k : 0 <= lo -> 0 <= j -> 0 <= k -> j + k <= n -> field w (lo + j) k = field (field w lo n) j k.
Proof.
  intros L J K N. rewrite !field_land by lia. apply Z.bits_inj'. intros i I.
  assert (M : forall n i, 0 <= n -> 0 <= i -> Z.testbit (Z.ones n) i = (i <? n)).
  { intros m q A B. destruct (q <? m) eqn:E; [apply Z.ltb_lt in E; apply Z.ones_spec_low; lia|apply Z.ltb_ge in E; apply Z.ones_spec_high; lia]. }
  rewrite !Z.land_spec, !Z.shiftr_spec, Z.land_spec, Z.shiftr_spec, !M by lia.
  replace (i + j + lo) with (i + (lo + j)) by lia. destruct (i <? k) eqn:E; [|rewrite !andb_false_r; reflexivity].
  apply Z.ltb_lt in E. replace (i + j <? n) with true by (symmetry; apply Z.ltb_lt; lia). rewrite !andb_true_r. reflexivity.
Qed.
(** The classes of the decoder all have other bits 28 to 24 than these. *)
Lemma no_class w : field w 24 5 = 8 \/ field w 24 5 = 28 -> decode w = None.
Proof.
  intros C. unfold decode. cbv zeta.
  assert (N : forall lo n c j, 0 <= lo -> 0 <= j -> j + 5 <= n -> lo + j = 24 -> field c j 5 <> 8 -> field c j 5 <> 28 -> (field w lo n =? c) = false).
  { intros lo n c j A B D E F G. apply Z.eqb_neq. intros Q. rewrite <- Q in F, G. rewrite <- field_sub in F, G by lia. rewrite E in F, G. lia. }
  assert (K : forall c, c <> 8 -> c <> 28 -> (field w 24 5 =? c) = false) by (intros c A B; apply Z.eqb_neq; lia).
  rewrite (K 11), (K 10), (K 16) by lia. cbn [andb].
  rewrite (N 22 10 582 2) by (cbn; lia). rewrite (N 21 8 208 3), (N 21 11 1232 3), (N 21 8 212 3), (N 21 10 214 3), (N 21 10 726 3) by (cbn; lia).
  rewrite !(N 16 16 56001 8), (N 22 10 974 2), !(N 12 20 872498 12), !(N 12 20 872452 12), (N 19 13 6817 5), (N 10 22 3512256 14) by (cbn; lia). cbn [andb].
  assert (N' : forall c, field c 1 5 <> 8 -> field c 1 5 <> 28 -> (field w 23 6 =? c) = false).
  { intros c F G. apply Z.eqb_neq. intros Q. rewrite <- Q in F, G. rewrite <- field_sub in F, G by lia. change (23 + 1) with 24 in *. lia. }
  rewrite (N' 34), (N' 36), (N' 38) by (cbn; lia). reflexivity.
Qed.
