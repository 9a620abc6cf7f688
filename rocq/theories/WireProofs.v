From Verif Require Import BaseLemmas WireModel WireSpec.

(** ** Varint reader *)

(* The unrolled reader as a loop with the very same operations. *)
Fixpoint vloop (n : nat) (k v c : Z) (b : bytes) : Z * Z :=
  match n with
  | O => (0, errCodeOverflow)
  | S n' =>
    match b with
    | [] => (0, errCodeTruncated)
    | y :: b =>
      let v := vadd v y k in
      match n' with
      | O => if y <? 2 then (v, c) else (0, errCodeOverflow)
      | _ => if y <? 128 then (v, c) else vloop n' (k + 7) (vsub v k) (c + 1) b
      end
    end
  end.

Lemma consumeVarint_loop b :
  consumeVarint b =
  match b with
  | [] => (0, errCodeTruncated)
  | b0 :: b => if b0 <? 128 then (b0, 1) else vloop 9 7 (u64 (b0 - 128)) 2 b
  end.
Proof. reflexivity. Qed.

Lemma vadd_ok v y k : 0 <= k <= 63 -> 0 <= v < 2^k -> 0 <= y -> v + y * 2^k < 2^64 ->
  vadd v y k = v + y * 2^k.
Proof.
  intros Hk Hv Hy Hs. unfold vadd. rewrite Z.shiftl_mul_pow2 by lia.
  assert (0 <= y * 2^k) by (apply Z.mul_nonneg_nonneg; lia).
  rewrite (u64_small (y * 2^k)) by lia. apply u64_small. lia.
Qed.

Lemma vsub_ok v y k : 0 <= k <= 56 -> 0 <= v < 2^k -> 128 <= y < 256 ->
  vsub (vadd v y k) k = v + (y - 128) * 2^k.
Proof.
  intros Hk Hv Hy.
  assert (Hp : 2^k <= 2^56) by (apply Z.pow_le_mono_r; lia).
  rewrite vadd_ok; [|lia|lia|lia|].
  - unfold vsub. rewrite Z.shiftl_mul_pow2 by lia.
    assert (0 <= (y - 128) * 2^k) by (apply Z.mul_nonneg_nonneg; lia).
    replace (v + y * 2^k - 128 * 2^k) with (v + (y-128) * 2^k) by ring.
    apply u64_small. split; [lia|].
    assert ((y-128) * 2^k <= 127 * 2^56) by (apply Z.mul_le_mono_nonneg; lia). lia.
  - assert (y * 2^k <= 255 * 2^56) by (apply Z.mul_le_mono_nonneg; lia). lia.
Qed.

Lemma pow7 k : 0 <= k -> 2^(k+7) = 128 * 2^k.
Proof. intros. rewrite Z.pow_add_r by lia. change (2^7) with 128. ring. Qed.

Lemma vnext_bound v y k : 0 <= k <= 56 -> 0 <= v < 2^k -> 128 <= y < 256 ->
  0 <= v + (y-128) * 2^k < 2^(k+7).
Proof.
  intros Hk Hv Hy. rewrite pow7 by lia.
  assert (0 <= (y - 128) * 2^k) by (apply Z.mul_nonneg_nonneg; lia).
  assert ((y-128) * 2^k <= 127 * 2^k) by (apply Z.mul_le_mono_nonneg; lia). lia.
Qed.

Lemma varint_nonneg p v : varint p v -> 0 <= v.
Proof. induction 1; lia. Qed.
Lemma varint_nonempty p v : varint p v -> 1 <= zlen p.
Proof. induction 1; rewrite ?zlen_cons, ?zlen_nil; lia. Qed.
Lemma varint_bytes p v : varint p v -> is_bytes p.
Proof. induction 1; constructor; unfold is_byte; try lia; auto. Qed.

Lemma vloop_ok n : forall k v c p x rest,
  varint p x -> (1 <= n <= 9)%nat -> k = 7 * (10 - Z.of_nat n) ->
  0 <= v < 2^k -> v + x * 2^k < 2^64 -> zlen p <= Z.of_nat n ->
  vloop n k v c (p ++ rest) = (v + x * 2^k, c + zlen p - 1).
Proof.
  induction n as [|n IH]; intros k v c p x rest Hp Hn Hk Hv Hs Hl; [lia|].
  inversion Hp as [l Hlr | y q w Hy Hq]; subst p x.
  - (* last byte *)
    cbn [vloop app]. rewrite vadd_ok by lia.
    change (zlen [l]) with 1.
    destruct n as [|n].
    + assert (k = 63) as -> by lia.
      destruct (Z.ltb_spec l 2); [f_equal; lia|]. exfalso.
      assert (2 * 2^63 <= l * 2^63) by (apply Z.mul_le_mono_nonneg_r; lia). lia.
    + destruct (Z.ltb_spec l 128); [f_equal; lia|lia].
  - rewrite zlen_cons in Hl. pose proof (varint_nonempty _ _ Hq).
    pose proof (varint_nonneg _ _ Hq).
    destruct n as [|n]; [lia|].
    change (vloop (S (S n)) k v c ((y :: q) ++ rest)) with
      (if y <? 128 then (vadd v y k, c)
       else vloop (S n) (k + 7) (vsub (vadd v y k) k) (c + 1) (q ++ rest)).
    destruct (Z.ltb_spec y 128); [lia|].
    rewrite vsub_ok by lia.
    pose proof (pow7 k ltac:(lia)) as P7.
    rewrite (IH (k + 7) _ (c + 1) q w rest); try assumption.
    + rewrite zlen_cons. f_equal; [|lia]. rewrite P7. ring.
    + lia.
    + lia.
    + apply vnext_bound; lia.
    + rewrite P7. lia.
    + lia.
Qed.

Lemma consumeVarint_ok p v rest : uvarint p v ->
  consumeVarint (p ++ rest) = (v, zlen p).
Proof.
  intros (Hp & Hl & Hv). rewrite consumeVarint_loop.
  inversion Hp as [l Hlr | y q w Hy Hq]; subst p v; cbn [app].
  - destruct (Z.ltb_spec l 128); [|lia]. reflexivity.
  - destruct (Z.ltb_spec y 128); [lia|].
    rewrite zlen_cons in Hl.
    rewrite u64_small by lia.
    pose proof (varint_nonneg _ _ Hq).
    rewrite (vloop_ok 9 7 (y - 128) 2 q w rest); try assumption; try lia.
    rewrite zlen_cons. f_equal; [change (2^7) with 128; ring|lia].
Qed.

(** Truncated: fewer than ten bytes, all with the high bit set. *)

Lemma vloop_trunc n : forall k v c b, all_cont b -> (length b < n)%nat ->
  vloop n k v c b = (0, errCodeTruncated).
Proof.
  induction n as [|n IH]; intros k v c b Hb Hl; [lia|].
  destruct b as [|y b]; [reflexivity|]. inversion Hb; subst.
  cbn [length] in Hl. destruct n as [|n]; [lia|].
  change (vloop (S (S n)) k v c (y :: b)) with
    (if y <? 128 then (vadd v y k, c)
     else vloop (S n) (k + 7) (vsub (vadd v y k) k) (c + 1) b).
  destruct (Z.ltb_spec y 128); [lia|]. apply IH; [assumption|lia].
Qed.

Lemma vloop_over n : forall k v c b, (S n <= length b)%nat -> all_cont (firstn n b) ->
  2 <= nth n b 0 ->
  vloop (S n) k v c b = (0, errCodeOverflow).
Proof.
  induction n as [|n IH]; intros k v c b Hl Hb Hn.
  - destruct b as [|y b]; [cbn in Hl; lia|]. cbn in Hn |- *.
    destruct (Z.ltb_spec y 2); [lia|reflexivity].
  - destruct b as [|y b]; [cbn in Hl; lia|]. cbn [length] in Hl.
    cbn [firstn] in Hb. inversion Hb; subst.
    change (vloop (S (S n)) k v c (y :: b)) with
      (if y <? 128 then (vadd v y k, c)
       else vloop (S n) (k + 7) (vsub (vadd v y k) k) (c + 1) b).
    destruct (Z.ltb_spec y 128); [lia|]. apply IH; [lia|assumption|exact Hn].
Qed.


Lemma consumeVarint_trunc b : truncated b -> consumeVarint b = (0, errCodeTruncated).
Proof.
  intros [Hc Hl]. rewrite consumeVarint_loop. destruct b as [|y b]; [reflexivity|].
  inversion Hc; subst. destruct (Z.ltb_spec y 128); [lia|].
  apply vloop_trunc; [assumption|]. unfold zlen in Hl. cbn [length] in Hl. lia.
Qed.

Lemma consumeVarint_over b : overlong b -> consumeVarint b = (0, errCodeOverflow).
Proof.
  intros (Hl & Hc & Hn). rewrite consumeVarint_loop.
  destruct b as [|y b]; [cbn in Hl; lia|].
  cbn [firstn] in Hc. inversion Hc; subst. destruct (Z.ltb_spec y 128); [lia|].
  apply (vloop_over 8); [unfold zlen in Hl; cbn [length] in Hl; lia|assumption|exact Hn].
Qed.

Lemma varint_app_cont c p v : all_cont c -> varint p v ->
  exists w, varint (c ++ p) w /\ w < 128 ^ (zlen c) * (v + 1) /\ 128 ^ (zlen c) * v <= w.
Proof.
  intros Hc Hp. induction Hc as [|y c Hy Hc IH].
  - exists v. split; [exact Hp|]. rewrite zlen_nil. lia.
  - destruct IH as (w & Hw & Hu & Hl). exists ((y - 128) + 128 * w).
    split; [constructor; assumption|].
    rewrite zlen_cons. rewrite Z.pow_add_r by (pose proof (zlen_nonneg c); lia).
    change (128^1) with 128.
    assert (E1: 128 * 128 ^ zlen c * (v + 1) = 128 * (128 ^ zlen c * (v+1))) by ring.
    assert (E2: 128 * 128 ^ zlen c * v = 128 * (128 ^ zlen c * v)) by ring.
    rewrite E1, E2. lia.
Qed.

(** Every byte string falls in one of the three classes. *)
Lemma scan b : is_bytes b ->
  (exists c l r, b = c ++ l :: r /\ all_cont c /\ 0 <= l < 128) \/ all_cont b.
Proof.
  induction 1 as [|y b Hy Hb IH]; [right; constructor|].
  destruct (Z_lt_ge_dec y 128).
  - left. exists [], y, b. unfold is_byte in Hy. repeat split; try constructor; lia.
  - destruct IH as [(c & l & r & -> & Hc & Hl)|Hc].
    + left. exists (y :: c), l, r. split; [reflexivity|]. split; [|exact Hl].
      constructor; [unfold is_byte in Hy; lia|exact Hc].
    + right. constructor; [unfold is_byte in Hy; lia|exact Hc].
Qed.

Lemma firstn_all_cont n b : all_cont b -> all_cont (firstn n b).
Proof.
  intros H. revert n. induction H as [|y b Hy Hb IH]; intros [|n]; try constructor.
  - exact Hy.
  - apply IH.
Qed.

Lemma varint_trichotomy b : is_bytes b ->
  (exists p v rest, b = p ++ rest /\ uvarint p v) \/ truncated b \/ overlong b.
Proof.
  intros Hb. destruct (scan b Hb) as [(c & l & r & -> & Hc & Hl)|Hc].
  - destruct (Z_le_gt_dec (zlen c) 9) as [H9|H9].
    + destruct (varint_app_cont c [l] l Hc (varint_last l Hl)) as (w & Hw & Hu & Hlo).
      pose proof (zlen_nonneg c).
      destruct (Z_lt_ge_dec w (2^64)) as [Hs|Hs].
      * left. exists (c ++ [l]), w, r. rewrite <- app_assoc. split; [reflexivity|].
        split; [exact Hw|]. rewrite zlen_app, zlen_cons, zlen_nil.
        pose proof (varint_nonneg _ _ Hw). lia.
      * right. right.
        assert (H9' : zlen c = 9).
        { destruct (Z.eq_dec (zlen c) 9) as [|N]; [assumption|]. exfalso.
          assert (128 ^ zlen c <= 128 ^ 8) by (apply Z.pow_le_mono_r; lia).
          assert (128 ^ zlen c * (l+1) <= 128^8 * 128) by (apply Z.mul_le_mono_nonneg; lia).
          lia. }
        assert (2 <= l). { rewrite H9' in Hu. change (128^9) with (2^63) in Hu. lia. }
        assert (L : length c = 9%nat) by (unfold zlen in H9'; lia).
        unfold overlong. rewrite zlen_app, zlen_cons, H9'. pose proof (zlen_nonneg r).
        split; [lia|]. rewrite firstn_app, L, Nat.sub_diag, firstn_O, app_nil_r.
        rewrite firstn_all2 by lia. split; [exact Hc|].
        rewrite app_nth2, L, Nat.sub_diag by lia. cbn. lia.
    + right. right. unfold overlong. rewrite zlen_app, zlen_cons. pose proof (zlen_nonneg r).
      unfold zlen in H9.
      split; [unfold zlen; lia|].
      rewrite firstn_app. replace (9 - length c)%nat with 0%nat by lia.
      rewrite firstn_O, app_nil_r. split; [apply firstn_all_cont; exact Hc|].
      rewrite app_nth1 by lia.
      assert (In (nth 9 c 0) c) as HI by (apply nth_In; lia).
      unfold all_cont in Hc. rewrite Forall_forall in Hc. specialize (Hc _ HI). lia.
  - right. destruct (Z_lt_ge_dec (zlen b) 10) as [H|H]; [left; split; assumption|].
    right. split; [lia|]. split; [apply firstn_all_cont; exact Hc|].
    unfold zlen in H.
    assert (In (nth 9 b 0) b) as HI by (apply nth_In; lia).
    unfold all_cont in Hc. rewrite Forall_forall in Hc. specialize (Hc _ HI). lia.
Qed.

Lemma varint_det p1 v1 r1 : varint p1 v1 -> forall p2 v2 r2, varint p2 v2 ->
  p1 ++ r1 = p2 ++ r2 -> p1 = p2 /\ v1 = v2.
Proof.
  induction 1 as [l Hl|c p v Hc Hp IH]; intros p2 v2 r2 H2 E;
  inversion H2; subst; cbn in E; inversion E; subst; try lia.
  - split; reflexivity.
  - destruct (IH _ _ _ H0 H4) as [-> ->]. split; reflexivity.
Qed.

Lemma consumeVarint_cases b : is_bytes b ->
  (exists p v rest, b = p ++ rest /\ uvarint p v /\ consumeVarint b = (v, zlen p)) \/
  (truncated b /\ consumeVarint b = (0, errCodeTruncated)) \/
  (overlong b /\ consumeVarint b = (0, errCodeOverflow)).
Proof.
  intros Hb. destruct (varint_trichotomy b Hb) as [(p & v & rest & -> & Hu)|[Ht|Ho]].
  - left. exists p, v, rest. repeat split; try apply Hu. apply consumeVarint_ok; exact Hu.
  - right; left. split; [exact Ht|apply consumeVarint_trunc; exact Ht].
  - right; right. split; [exact Ho|apply consumeVarint_over; exact Ho].
Qed.

Lemma consumeVarint_exact b v n : is_bytes b -> 0 <= n ->
  (consumeVarint b = (v, n) <-> exists p rest, b = p ++ rest /\ zlen p = n /\ uvarint p v).
Proof.
  intros Hb Hn. split.
  - intros E. destruct (consumeVarint_cases b Hb) as [(p & w & rest & -> & Hu & E')|[[_ E']|[_ E']]];
    rewrite E' in E; inversion E; subst.
    + exists p, rest. repeat split; apply Hu.
    + unfold errCodeTruncated in Hn; lia.
    + unfold errCodeOverflow in Hn; lia.
  - intros (p & rest & -> & <- & Hu). apply consumeVarint_ok; exact Hu.
Qed.

Lemma consumeVarint_trunc_iff b : is_bytes b ->
  (snd (consumeVarint b) = errCodeTruncated <-> truncated b).
Proof.
  intros Hb. split.
  - destruct (consumeVarint_cases b Hb) as [(p & w & rest & -> & Hu & E')|[[H E']|[_ E']]];
    rewrite E'; cbn; intros E; try discriminate; [|exact H].
    pose proof (zlen_nonneg p). unfold errCodeTruncated in E. lia.
  - intros H. rewrite consumeVarint_trunc by exact H. reflexivity.
Qed.
Lemma consumeVarint_over_iff b : is_bytes b ->
  (snd (consumeVarint b) = errCodeOverflow <-> overlong b).
Proof.
  intros Hb. split.
  - destruct (consumeVarint_cases b Hb) as [(p & w & rest & -> & Hu & E')|[[_ E']|[H E']]];
    rewrite E'; cbn; intros E; try discriminate; [|exact H].
    pose proof (zlen_nonneg p). unfold errCodeOverflow in E. lia.
  - intros H. rewrite consumeVarint_over by exact H. reflexivity.
Qed.

(** ** Varint writer *)

Lemma vc_val v k : 0 <= v -> 0 <= k -> vc v k = (v / 2^k) mod 128 + 128.
Proof.
  intros Hv Hk. unfold vc. rewrite Z.shiftr_div_pow2 by lia.
  change 127 with (2^7 - 1). rewrite land_ones' by lia.
  change 128 with (1 * 2^7) at 1. change 128 with (2^7).
  assert (0 <= (v / 2^k) mod 2^7 < 2^7) by (apply Z.mod_pos_bound; lia).
  rewrite lor_add by lia. apply u8_small. lia.
Qed.
Lemma vl_val v k : 0 <= v < 128 * 2^k -> 0 <= k -> vl v k = v / 2^k /\ 0 <= v / 2^k < 128.
Proof.
  intros Hv Hk. unfold vl. rewrite Z.shiftr_div_pow2 by lia.
  assert (0 < 2^k) by (apply Z.pow_pos_nonneg; lia).
  assert (0 <= v / 2^k < 128).
  { split; [apply Z.div_pos; lia|]. apply Z.div_lt_upper_bound; lia. }
  split; [|assumption]. apply u8_small. lia.
Qed.

(* one step of the written varint *)
Lemma varint_vc v k p : 0 <= v -> 0 <= k -> varint p (v / 2^(k+7)) ->
  varint (vc v k :: p) (v / 2^k).
Proof.
  intros Hv Hk Hp.
  assert (E : v / 2^k = ((v/2^k) mod 128 + 128 - 128) + 128 * (v / 2^(k+7))).
  { rewrite pow7 by lia. rewrite (Z.mul_comm 128 (2^k)), <- Z.div_div by (try lia; apply Z.pow_nonzero; lia).
    generalize (v / 2^k). intros w. lia. }
  rewrite vc_val by lia. rewrite E at 2. constructor; [|exact Hp].
  generalize (v / 2^k). intros w. lia.
Qed.
Lemma varint_vl v k : 0 <= v < 128 * 2^k -> 0 <= k -> varint [vl v k] (v / 2^k).
Proof. intros Hv Hk. destruct (vl_val v k Hv Hk) as [-> Hb]. constructor. exact Hb. Qed.
Lemma varint_one v : 2^63 <= v < 2^64 -> varint [1] (v / 2^63).
Proof. intros. assert (v / 2^63 = 1) as -> by lia. constructor. lia. Qed.

Lemma appendVarint_app b v : appendVarint b v = b ++ appendVarint [] v.
Proof.
  unfold appendVarint. cbn [app].
  repeat match goal with |- context [if ?c then _ else _] => destruct c; [reflexivity|] end.
  reflexivity.
Qed.

Ltac norm7 := match goal with |- context [?a + 7] =>
  let r := eval compute in (a + 7) in change (a + 7) with r end.
Lemma appendVarint_varint v : 0 <= v < 2^64 -> uvarint (appendVarint [] v) v.
Proof.
  intros Hv. split; [|split; [|exact Hv]].
  - rewrite <- (Z.div_1_r v) at 2. change 1 with (2^0).
    unfold appendVarint. cbn [app].
    repeat match goal with
    | |- context [if ?a <? ?b then _ else _] =>
        destruct (Z.ltb_spec a b);
        [repeat (apply varint_vc; [lia|lia|norm7]); apply varint_vl; lia|]
    end.
    repeat (apply varint_vc; [lia|lia|norm7]). apply varint_one. lia.
  - unfold appendVarint. cbn [app].
    repeat match goal with
    | |- context [if ?a <? ?b then _ else _] => destruct (a <? b); [cbn; lia|]
    end. cbn. lia.
Qed.

Lemma log2_size v k : 0 <= k -> 2^k <= v < 2^(k+1) -> Len64 v = k + 1.
Proof.
  intros Hk Hv. unfold Len64.
  assert (0 < 2^k) by (apply Z.pow_pos_nonneg; lia).
  destruct (Z.eqb_spec v 0); [lia|]. f_equal. apply Z.log2_unique; [lia|].
  unfold Z.succ. lia.
Qed.

Lemma Len64_bound v k : 0 <= k -> 0 <= v < 2^k -> 0 <= Len64 v <= k.
Proof.
  intros Hk Hv. unfold Len64. destruct (Z.eqb_spec v 0); [lia|].
  pose proof (Z.log2_nonneg v). assert (Z.log2 v < k) by (apply Z.log2_lt_pow2; lia). lia.
Qed.
Lemma Len64_lower v k : 0 <= k -> 2^k <= v -> k + 1 <= Len64 v.
Proof.
  intros Hk Hv. unfold Len64.
  assert (0 < 2^k) by (apply Z.pow_pos_nonneg; lia).
  destruct (Z.eqb_spec v 0); [lia|].
  assert (k <= Z.log2 v) by (apply Z.log2_le_pow2; lia). lia.
Qed.

Lemma sizeVarint_ok v : 0 <= v < 2^64 -> sizeVarint v = zlen (appendVarint [] v).
Proof.
  intros Hv. unfold sizeVarint.
  pose proof (Len64_bound v 64 ltac:(lia) Hv) as B64.
  rewrite u32_small by lia.
  unfold appendVarint. cbn [app].
  destruct (Z.ltb_spec v (2^7)) as [H7|H7];
    [pose proof (Len64_bound v 7 ltac:(lia) ltac:(lia)); unfold zlen; cbn [length]; lia|].
  pose proof (Len64_lower v 7 ltac:(lia) H7) as L7.
  destruct (Z.ltb_spec v (2^14)) as [H14|H14];
    [pose proof (Len64_bound v 14 ltac:(lia) ltac:(lia)); unfold zlen; cbn [length]; lia|].
  pose proof (Len64_lower v 14 ltac:(lia) H14) as L14.
  destruct (Z.ltb_spec v (2^21)) as [H21|H21];
    [pose proof (Len64_bound v 21 ltac:(lia) ltac:(lia)); unfold zlen; cbn [length]; lia|].
  pose proof (Len64_lower v 21 ltac:(lia) H21) as L21.
  destruct (Z.ltb_spec v (2^28)) as [H28|H28];
    [pose proof (Len64_bound v 28 ltac:(lia) ltac:(lia)); unfold zlen; cbn [length]; lia|].
  pose proof (Len64_lower v 28 ltac:(lia) H28) as L28.
  destruct (Z.ltb_spec v (2^35)) as [H35|H35];
    [pose proof (Len64_bound v 35 ltac:(lia) ltac:(lia)); unfold zlen; cbn [length]; lia|].
  pose proof (Len64_lower v 35 ltac:(lia) H35) as L35.
  destruct (Z.ltb_spec v (2^42)) as [H42|H42];
    [pose proof (Len64_bound v 42 ltac:(lia) ltac:(lia)); unfold zlen; cbn [length]; lia|].
  pose proof (Len64_lower v 42 ltac:(lia) H42) as L42.
  destruct (Z.ltb_spec v (2^49)) as [H49|H49];
    [pose proof (Len64_bound v 49 ltac:(lia) ltac:(lia)); unfold zlen; cbn [length]; lia|].
  pose proof (Len64_lower v 49 ltac:(lia) H49) as L49.
  destruct (Z.ltb_spec v (2^56)) as [H56|H56];
    [pose proof (Len64_bound v 56 ltac:(lia) ltac:(lia)); unfold zlen; cbn [length]; lia|].
  pose proof (Len64_lower v 56 ltac:(lia) H56) as L56.
  destruct (Z.ltb_spec v (2^63)) as [H63|H63];
    [pose proof (Len64_bound v 63 ltac:(lia) ltac:(lia)); unfold zlen; cbn [length]; lia|].
  pose proof (Len64_lower v 63 ltac:(lia) H63) as L63.
  unfold zlen; cbn [length]; lia.
Qed.

(** ** Zig-zag *)

Lemma lxor_ones a k : 0 <= k -> 0 <= a < 2^k -> Z.lxor a (2^k - 1) = 2^k - 1 - a.
Proof.
  intros Hk Ha.
  assert (E : Z.lxor a (2^k - 1) = Z.land (Z.lnot a) (2^k - 1)).
  { replace (2^k - 1) with (Z.ones k) by (rewrite Z.ones_equiv; lia).
    apply Z.bits_inj'. intros i Hi. rewrite Z.lxor_spec, Z.land_spec, Z.lnot_spec by lia.
    destruct (Z_lt_ge_dec i k).
    - rewrite Z.ones_spec_low by lia. destruct (Z.testbit a i); reflexivity.
    - rewrite Z.ones_spec_high by lia. rewrite (testbit_high a k i) by lia. reflexivity. }
  rewrite E, land_ones' by lia.
  assert (Z.lnot a = - a - 1) as -> by (unfold Z.lnot; lia).
  symmetry. apply Z.mod_unique with (-1); lia.
Qed.

Lemma encodeZigZag_val x : - 2^63 <= x < 2^63 ->
  encodeZigZag x = if x <? 0 then -2 * x - 1 else 2 * x.
Proof.
  intros Hx. unfold encodeZigZag.
  assert (A : u64 (i64 (Z.shiftl x 1)) = u64 (2 * x)).
  { rewrite Z.shiftl_mul_pow2 by lia. unfold u64, i64, sgn.
    change (2^(64-1)) with (2^63). change (2^1) with 2.
    destruct (Z.ltb_spec ((x * 2) mod 2^64) (2^63)); lia. }
  rewrite A. rewrite Z.shiftr_div_pow2 by lia. unfold u64.
  destruct (Z.ltb_spec x 0).
  - assert (x / 2^63 = -1) as -> by lia.
    change (-1 mod 2^64) with (2^64 - 1).
    rewrite lxor_ones; [|lia|apply Z.mod_pos_bound; lia]. lia.
  - assert (x / 2^63 = 0) as -> by lia. change (0 mod 2^64) with 0.
    rewrite Z.lxor_0_r. lia.
Qed.

Lemma decodeZigZag_val x : 0 <= x < 2^64 ->
  decodeZigZag x = if Z.even x then x / 2 else - (x / 2) - 1.
Proof.
  intros Hx. unfold decodeZigZag.
  rewrite (Z.shiftr_div_pow2 x 1) by lia. change (2^1) with 2.
  rewrite i64_small by lia.
  assert (A : i64 (Z.shiftl (i64 x) 63) = if Z.even x then 0 else - 2^63).
  { rewrite Z.shiftl_mul_pow2 by lia.
    rewrite Zeven_mod. unfold Zeq_bool. unfold i64, sgn.
    change (2^(64-1)) with (2^63).
    assert (B : forall y, y = x \/ y = x - 2^64 -> (y * 2^63) mod 2^64 = (x mod 2) * 2^63).
    { intros y [->| ->].
      - symmetry. apply Z.mod_unique with (x / 2); lia.
      - symmetry. apply Z.mod_unique with (x / 2 - 2^63); lia. }
    cbv zeta. rewrite (Z.mod_small x) by lia.
    assert (C : x mod 2 = 0 \/ x mod 2 = 1) by lia.
    destruct (Z.ltb_spec x (2^63)).
    - rewrite (B x) by (left; reflexivity). destruct C as [C|C]; rewrite C; reflexivity.
    - rewrite (B (x - 2^64)) by (right; reflexivity). destruct C as [C|C]; rewrite C; reflexivity. }
  rewrite A. destruct (Z.even x).
  - change (Z.shiftr 0 63) with 0. apply Z.lxor_0_r.
  - change (Z.shiftr (- 2^63) 63) with (-1). rewrite Z.lxor_m1_r. unfold Z.lnot. lia.
Qed.

Lemma zigzag_dec_enc x : - 2^63 <= x < 2^63 ->
  0 <= encodeZigZag x < 2^64 /\ decodeZigZag (encodeZigZag x) = x.
Proof.
  intros Hx. rewrite encodeZigZag_val by exact Hx.
  destruct (Z.ltb_spec x 0).
  - split; [lia|]. rewrite decodeZigZag_val by lia.
    replace (-2 * x - 1) with (1 + 2 * (- x - 1)) by ring.
    rewrite Z.even_add_mul_2. change (Z.even 1) with false. cbv iota. lia.
  - split; [lia|]. rewrite decodeZigZag_val by lia.
    replace (2 * x) with (0 + 2 * x) by ring. rewrite Z.even_add_mul_2. change (Z.even 0) with true.
    cbv iota. lia.
Qed.
Lemma zigzag_enc_dec x : 0 <= x < 2^64 ->
  - 2^63 <= decodeZigZag x < 2^63 /\ encodeZigZag (decodeZigZag x) = x.
Proof.
  intros Hx. rewrite decodeZigZag_val by exact Hx.
  destruct (Z.even x) eqn:E.
  - assert (x mod 2 = 0) by (rewrite Zeven_mod in E; unfold Zeq_bool in E;
      destruct (x mod 2 ?= 0) eqn:F; try discriminate; apply Z.compare_eq; exact F).
    split; [lia|]. rewrite encodeZigZag_val by lia.
    destruct (Z.ltb_spec (x/2) 0); lia.
  - assert (x mod 2 = 1).
    { assert (x mod 2 = 0 \/ x mod 2 = 1) as [H|H] by lia; [|exact H].
      rewrite Zeven_mod, H in E. discriminate. }
    split; [lia|]. rewrite encodeZigZag_val by lia.
    destruct (Z.ltb_spec (-(x/2)-1) 0); lia.
Qed.

(** ** Fixed width *)
Lemma shl a k : 0 <= k -> Z.shiftl a k = a * 2^k.
Proof. intros. apply Z.shiftl_mul_pow2. lia. Qed.
Lemma shr a k : 0 <= k -> Z.shiftr a k = a / 2^k.
Proof. intros. apply Z.shiftr_div_pow2. lia. Qed.

Lemma consumeFixed32_ok p rest : is_bytes p -> zlen p = 4 ->
  consumeFixed32 (p ++ rest) = (le_value p, 4).
Proof.
  intros Hb Hl. unfold zlen in Hl.
  destruct p as [|b0 [|b1 [|b2 [|b3 [|? ?]]]]]; cbn [length] in Hl; try lia.
  repeat match goal with H : is_bytes (_ :: _) |- _ => inversion H; clear H; subst end.
  repeat match goal with H : Forall _ (_ :: _) |- _ => inversion H; clear H; subst end.
  unfold is_byte in *. cbn [consumeFixed32 app le_value]. f_equal.
  rewrite !shl by lia. change (2^0) with 1. rewrite Z.mul_1_r.
  rewrite (lor_add _ _ 8) by lia. rewrite (lor_add _ _ 16) by lia. rewrite (lor_add _ _ 24) by lia. lia.
Qed.
Lemma consumeFixed64_ok p rest : is_bytes p -> zlen p = 8 ->
  consumeFixed64 (p ++ rest) = (le_value p, 8).
Proof.
  intros Hb Hl. unfold zlen in Hl.
  destruct p as [|b0 [|b1 [|b2 [|b3 [|b4 [|b5 [|b6 [|b7 [|? ?]]]]]]]]]; cbn [length] in Hl; try lia.
  repeat match goal with H : is_bytes (_ :: _) |- _ => inversion H; clear H; subst end.
  repeat match goal with H : Forall _ (_ :: _) |- _ => inversion H; clear H; subst end.
  unfold is_byte in *. cbn [consumeFixed64 app le_value]. f_equal.
  rewrite !shl by lia. change (2^0) with 1. rewrite Z.mul_1_r.
  rewrite (lor_add _ _ 8) by lia. rewrite (lor_add _ _ 16) by lia. rewrite (lor_add _ _ 24) by lia. rewrite (lor_add _ _ 32) by lia. rewrite (lor_add _ _ 40) by lia. rewrite (lor_add _ _ 48) by lia. rewrite (lor_add _ _ 56) by lia. lia.
Qed.
Lemma consumeFixed32_short b : zlen b < 4 -> consumeFixed32 b = (0, errCodeTruncated).
Proof.
  unfold zlen. intros. destruct b as [|? [|? [|? [|? ?]]]]; cbn [length] in *; try lia; reflexivity.
Qed.
Lemma consumeFixed64_short b : zlen b < 8 -> consumeFixed64 b = (0, errCodeTruncated).
Proof.
  unfold zlen. intros.
  destruct b as [|? [|? [|? [|? [|? [|? [|? [|? ?]]]]]]]]; cbn [length] in *; try lia; reflexivity.
Qed.
Lemma appendFixed32_ok b v : 0 <= v < 2^32 ->
  exists p, appendFixed32 b v = b ++ p /\ is_bytes p /\ zlen p = 4 /\ le_value p = v.
Proof.
  intros Hv. unfold appendFixed32. eexists. split; [reflexivity|].
  rewrite !shr by lia. unfold u8. split; [|split; [reflexivity|]].
  - repeat constructor; try (apply Z.mod_pos_bound; lia).
  - cbn [le_value]. change (2^0) with 1. change (2^8) with 256. lia.
Qed.
Lemma appendFixed64_ok b v : 0 <= v < 2^64 ->
  exists p, appendFixed64 b v = b ++ p /\ is_bytes p /\ zlen p = 8 /\ le_value p = v.
Proof.
  intros Hv. unfold appendFixed64. eexists. split; [reflexivity|].
  rewrite !shr by lia. unfold u8. split; [|split; [reflexivity|]].
  - repeat constructor; try (apply Z.mod_pos_bound; lia).
  - cbn [le_value]. change (2^0) with 1. change (2^8) with 256. lia.
Qed.

(** ** Tags *)
Lemma encodeTag_val num typ : 0 <= num < 2^31 -> 0 <= typ < 8 -> encodeTag num typ = 8 * num + typ.
Proof.
  intros Hn Ht. unfold encodeTag. rewrite (u64_small num) by lia.
  rewrite shl by lia. rewrite u64_small by lia.
  change 7 with (2^3 - 1). rewrite land_ones' by lia. rewrite Z.mod_small by lia.
  rewrite u64_small by lia. rewrite lor_add' by lia. lia.
Qed.
Lemma decodeTag_val num typ : 0 <= num < 2^31 -> 0 <= typ < 8 ->
  decodeTag (8 * num + typ) = (num, typ).
Proof.
  intros Hn Ht. unfold decodeTag. rewrite shr by lia. change (2^3) with 8.
  assert ((8 * num + typ) / 8 = num) as -> by lia.
  rewrite Z.gtb_ltb. destruct (Z.ltb_spec (2^31-1) num); [lia|].
  rewrite i32_small by lia.
  change 7 with (2^3 - 1). rewrite land_ones' by lia.
  change (2^3) with 8.
  assert ((8 * num + typ) mod 8 = typ) as -> by lia. rewrite i8_small by lia. reflexivity.
Qed.
Lemma decodeTag_over x : 2^34 <= x < 2^64 -> decodeTag x = (-1, 0).
Proof.
  intros Hx. unfold decodeTag. rewrite shr by lia. change (2^3) with 8.
  rewrite Z.gtb_ltb. destruct (Z.ltb_spec (2^31-1) (x / 8)); [reflexivity|lia].
Qed.

Lemma consumeTag_ok p num typ rest : tag p num typ -> consumeTag (p ++ rest) = (num, typ, zlen p).
Proof.
  intros (Hn & Ht & Hu). unfold consumeTag. rewrite (consumeVarint_ok p _ rest Hu).
  pose proof (zlen_nonneg p). destruct (Z.ltb_spec (zlen p) 0); [lia|].
  rewrite decodeTag_val by lia. unfold MinValidNumber. destruct (Z.ltb_spec num 1); [lia|reflexivity].
Qed.

Lemma consumeTag_cases b : is_bytes b ->
  (exists p num typ rest, b = p ++ rest /\ tag p num typ /\ consumeTag b = (num, typ, zlen p)) \/
  (exists p v rest, b = p ++ rest /\ uvarint p v /\ ~ (1 <= v / 8 < 2^31) /\
      consumeTag b = (0, 0, errCodeFieldNumber)) \/
  (truncated b /\ consumeTag b = (0, 0, errCodeTruncated)) \/
  (overlong b /\ consumeTag b = (0, 0, errCodeOverflow)).
Proof.
  intros Hb. destruct (consumeVarint_cases b Hb) as [(p & v & rest & E & Hu & Ev)|[[H Ev]|[H Ev]]].
  - pose proof (zlen_nonneg p). assert (0 <= v < 2^64) as Hv by apply Hu.
    destruct (Z_lt_ge_dec (v / 8) (2^31)) as [Hlt|Hge].
    + destruct (Z_lt_ge_dec (v / 8) 1) as [H1|H1].
      * right; left. exists p, v, rest. repeat (split; [assumption || apply Hu|]). split; [lia|].
        unfold consumeTag. rewrite Ev. destruct (Z.ltb_spec (zlen p) 0); [lia|].
        replace v with (8 * (v/8) + v mod 8) by lia. rewrite decodeTag_val by lia.
        unfold MinValidNumber. destruct (Z.ltb_spec (v/8) 1); [reflexivity|lia].
      * left. exists p, (v / 8), (v mod 8), rest.
        assert (tag p (v/8) (v mod 8)) as Ht.
        { split; [lia|]. split; [lia|]. replace (8 * (v/8) + v mod 8) with v by lia. exact Hu. }
        split; [exact E|]. split; [exact Ht|]. rewrite E. apply consumeTag_ok; exact Ht.
    + right; left. exists p, v, rest. repeat (split; [assumption || apply Hu|]). split; [lia|].
      unfold consumeTag. rewrite Ev. destruct (Z.ltb_spec (zlen p) 0); [lia|].
      rewrite decodeTag_over by lia. reflexivity.
  - right; right; left. split; [exact H|]. unfold consumeTag. rewrite Ev. reflexivity.
  - right; right; right. split; [exact H|]. unfold consumeTag. rewrite Ev. reflexivity.
Qed.

Lemma appendTag_ok b num typ : 1 <= num < 2^31 -> 0 <= typ < 8 ->
  exists p, appendTag b num typ = b ++ p /\ tag p num typ /\ sizeTag num = zlen p.
Proof.
  intros Hn Ht. unfold appendTag. rewrite appendVarint_app, encodeTag_val by lia.
  exists (appendVarint [] (8 * num + typ)). split; [reflexivity|].
  split. { split; [lia|]. split; [lia|]. apply appendVarint_varint. lia. }
  unfold sizeTag. rewrite encodeTag_val by lia.
  rewrite <- sizeVarint_ok by lia. unfold sizeVarint.
  assert (Len64 (8 * num + 0) = Len64 (8 * num + typ)) as ->; [|reflexivity].
  unfold Len64. destruct (Z.eqb_spec (8*num+0) 0); [lia|]. destruct (Z.eqb_spec (8*num+typ) 0); [lia|].
  f_equal.
  replace (8 * num + 0) with (2^3 * num) by lia.
  assert (num = Z.shiftr (8 * num + typ) 3) as Hs by (rewrite shr by lia; change (2^3) with 8; lia).
  pose proof (Z.log2_shiftr (8 * num + typ) 3 ltac:(lia)) as HL. rewrite <- Hs in HL.
  rewrite Z.mul_comm, Z.log2_mul_pow2 by lia.
  assert (3 <= Z.log2 (8 * num + typ)).
  { change 3 with (Z.log2 8). apply Z.log2_le_mono. lia. }
  lia.
Qed.

(** ** Length-delimited *)
Lemma consumeBytes_ok p body rest : uvarint p (zlen body) -> zlen p + zlen body < 2^63 ->
  consumeBytes (p ++ body ++ rest) = Ok (body, zlen p + zlen body).
Proof.
  intros Hu Hl. unfold consumeBytes. rewrite (consumeVarint_ok p _ _ Hu).
  pose proof (zlen_nonneg p). pose proof (zlen_nonneg body). pose proof (zlen_nonneg rest).
  destruct (Z.ltb_spec (zlen p) 0); [lia|].
  rewrite slice_from_app. cbn [obind]. rewrite zlen_app, Z.gtb_ltb.
  destruct (Z.ltb_spec (zlen body + zlen rest) (zlen body)); [lia|].
  rewrite slice_to_app. cbn [obind]. rewrite i64_small by lia. reflexivity.
Qed.

Lemma consumeBytes_cases b : is_bytes b -> zlen b < 2^63 ->
  (exists p body rest, b = p ++ body ++ rest /\ uvarint p (zlen body) /\
      consumeBytes b = Ok (body, zlen p + zlen body)) \/
  (exists p m rest, b = p ++ rest /\ uvarint p m /\ zlen rest < m /\
      consumeBytes b = Ok ([], errCodeTruncated)) \/
  (truncated b /\ consumeBytes b = Ok ([], errCodeTruncated)) \/
  (overlong b /\ consumeBytes b = Ok ([], errCodeOverflow)).
Proof.
  intros Hb Hlen. destruct (consumeVarint_cases b Hb) as [(p & v & rest & E & Hu & Ev)|[[H Ev]|[H Ev]]].
  - assert (0 <= v < 2^64) as Hv by apply Hu. pose proof (zlen_nonneg p).
    destruct (Z_le_gt_dec v (zlen rest)) as [Hle|Hgt].
    + left. destruct (split_at v rest ltac:(lia)) as (body & r & -> & <-).
      exists p, body, r. split; [exact E|]. split; [exact Hu|]. subst b.
      apply consumeBytes_ok; [exact Hu|]. rewrite !zlen_app in Hlen.
      pose proof (zlen_nonneg r). lia.
    + right; left. exists p, v, rest. split; [exact E|]. split; [exact Hu|]. split; [lia|].
      unfold consumeBytes. rewrite Ev. destruct (Z.ltb_spec (zlen p) 0); [lia|].
      subst b. rewrite slice_from_app. cbn [obind]. rewrite Z.gtb_ltb.
      destruct (Z.ltb_spec (zlen rest) v); [reflexivity|lia].
  - right; right; left. split; [exact H|]. unfold consumeBytes. rewrite Ev. reflexivity.
  - right; right; right. split; [exact H|]. unfold consumeBytes. rewrite Ev. reflexivity.
Qed.

Lemma appendBytes_ok b v : zlen v < 2^63 ->
  exists p, appendBytes b v = b ++ p ++ v /\ uvarint p (zlen v) /\ sizeBytes (zlen v) = zlen p + zlen v.
Proof.
  intros Hl. pose proof (zlen_nonneg v). unfold appendBytes. rewrite u64_small by lia.
  rewrite appendVarint_app. exists (appendVarint [] (zlen v)). rewrite app_assoc.
  split; [reflexivity|]. split; [apply appendVarint_varint; lia|].
  unfold sizeBytes. rewrite u64_small by lia. rewrite sizeVarint_ok by lia. reflexivity.
Qed.

(** ** Fields and groups *)

Lemma slice_from_some {A} n (b b' : list A) : slice_from n b = Ok b' -> (length b' <= length b)%nat.
Proof.
  unfold slice_from. destruct ((0 <=? n) && (n <=? zlen b)); [|discriminate].
  intros E. inversion E; subst. unfold zskip. rewrite skipn_length. lia.
Qed.
Lemma slice_from_pos {A} n (b b' : list A) : slice_from n b = Ok b' -> 1 <= n ->
  (length b' < length b)%nat.
Proof.
  unfold slice_from. destruct ((0 <=? n) && (n <=? zlen b)) eqn:G; [|discriminate].
  intros E Hn. inversion E; subst. unfold zskip, zlen in *. rewrite skipn_length. lia.
Qed.
Lemma tag_nonempty p num typ : tag p num typ -> 1 <= zlen p.
Proof. intros (_ & _ & Hu). eapply varint_nonempty. apply Hu. Qed.
Lemma consumeTag_pos b num typ n : is_bytes b -> consumeTag b = (num, typ, n) -> 0 <= n ->
  1 <= n /\ exists p rest, b = p ++ rest /\ zlen p = n /\ tag p num typ.
Proof.
  intros Hb E Hn.
  destruct (consumeTag_cases b Hb) as [(p & nu & ty & rest & Eb & Ht & Ec)|[(p & v & rest & Eb & Hu & _ & Ec)|[[_ Ec]|[_ Ec]]]];
  rewrite Ec in E; inversion E; subst;
  try (unfold errCodeFieldNumber, errCodeTruncated, errCodeOverflow in Hn; lia).
  split; [eapply tag_nonempty; exact Ht|]. exists p, rest. repeat split; try apply Ht.
Qed.


Lemma skip_total fuel :
  (forall num typ b depth, is_bytes b -> (2 * length b + 2 <= fuel)%nat ->
     exists r, consumeFieldValueD fuel num typ b depth = Some r) /\
  (forall num b depth n0, is_bytes b -> (2 * length b + 1 <= fuel)%nat ->
     exists r, consumeGroupLoop fuel num b depth n0 = Some r).
Proof.
  induction fuel as [|fuel [IHv IHg]]; [split; intros; lia|]. split.
  - intros num typ b depth Hb Hf. cbn [consumeFieldValueD].
    do 4 match goal with |- context [if ?c then _ else _] => destruct c; [eauto|] end.
    destruct (typ =? typeStartGroup).
    + destruct (depth <? 0); [eauto|]. apply IHg; [exact Hb|lia].
    + destruct (typ =? typeEndGroup); eauto.
  - intros num b depth n0 Hb Hf. cbn [consumeGroupLoop].
    destruct (consumeTag b) as [[num2 typ2] n] eqn:Et.
    destruct (Z.ltb_spec n 0) as [|Hn]; [eauto|].
    destruct (consumeTag_pos b _ _ _ Hb Et Hn) as (H1 & p & rest & -> & <- & Ht).
    rewrite slice_from_app. apply is_bytes_app in Hb. destruct Hb as [Hp Hr].
    rewrite app_length in Hf. unfold zlen in H1.
    destruct (typ2 =? typeEndGroup). { destruct (negb (num =? num2)); eauto. }
    destruct (IHv num2 typ2 rest (depth - 1) Hr ltac:(lia)) as [r ->].
    destruct r as [m|]; [|eauto]. destruct (Z.ltb_spec m 0); [eauto|].
    destruct (slice_from m rest) as [b'|] eqn:Es; [|eauto].
    pose proof (slice_from_some _ _ _ Es).
    apply IHg; [|lia]. unfold slice_from in Es. destruct ((0 <=? m) && (m <=? zlen rest)); [|discriminate].
    inversion Es. unfold zskip, is_bytes. rewrite <- (firstn_skipn (Z.to_nat m) rest) in Hr.
    apply Forall_app in Hr. apply Hr.
Qed.

Lemma skip_sound fuel :
  (forall num typ b depth r, is_bytes b -> zlen b < 2^63 ->
     consumeFieldValueD fuel num typ b depth = Some r ->
     exists n, r = Ok n /\ (is_err n \/
       exists q rest, b = q ++ rest /\ zlen q = n /\ fvalue (depth + 1) num typ q)) /\
  (forall num b depth n0 r, is_bytes b -> zlen b < 2^63 -> zlen b <= n0 -> 0 <= depth ->
     consumeGroupLoop fuel num b depth n0 = Some r ->
     exists n, r = Ok n /\ (is_err n \/
       exists body p rest, b = body ++ p ++ rest /\ n = n0 - zlen rest /\
         fields depth body /\ tag p num 4)).
Proof.
  induction fuel as [|fuel [IHv IHg]]; [split; intros; discriminate|]. split.
  - intros num typ b depth r Hb Hl. cbn [consumeFieldValueD].
    destruct (Z.eqb_spec typ typeVarint) as [->|_].
    { intros E. inversion E; subst. eexists. split; [reflexivity|].
      destruct (consumeVarint_cases b Hb) as [(p & v & rest & Eb & Hu & Ec)|[[_ Ec]|[_ Ec]]]; rewrite Ec; cbn.
      - right. exists p, rest. split; [exact Eb|]. split; [reflexivity|]. econstructor. exact Hu.
      - left. unfold is_err, errCodeTruncated. lia.
      - left. unfold is_err, errCodeOverflow. lia. }
    destruct (Z.eqb_spec typ typeFixed32) as [->|_].
    { intros E. inversion E; subst. eexists. split; [reflexivity|].
      destruct (Z_lt_ge_dec (zlen b) 4) as [H|H].
      - rewrite consumeFixed32_short by lia. left. cbn. unfold is_err, errCodeTruncated. lia.
      - destruct (split_at 4 b ltac:(lia)) as (p & rest & -> & Hp). apply is_bytes_app in Hb.
        rewrite consumeFixed32_ok by (apply Hb || exact Hp). right. exists p, rest.
        split; [reflexivity|]. split; [exact Hp|]. constructor; [apply Hb|exact Hp]. }
    destruct (Z.eqb_spec typ typeFixed64) as [->|_].
    { intros E. inversion E; subst. eexists. split; [reflexivity|].
      destruct (Z_lt_ge_dec (zlen b) 8) as [H|H].
      - rewrite consumeFixed64_short by lia. left. cbn. unfold is_err, errCodeTruncated. lia.
      - destruct (split_at 8 b ltac:(lia)) as (p & rest & -> & Hp). apply is_bytes_app in Hb.
        rewrite consumeFixed64_ok by (apply Hb || exact Hp). right. exists p, rest.
        split; [reflexivity|]. split; [exact Hp|]. constructor; [apply Hb|exact Hp]. }
    destruct (Z.eqb_spec typ typeBytes) as [->|_].
    { intros E. inversion E; subst.
      destruct (consumeBytes_cases b Hb Hl) as [(p & body & rest & Eb & Hu & Ec)|[(p & m & rest & Eb & Hu & Hm & Ec)|[[_ Ec]|[_ Ec]]]];
      rewrite Ec; cbn; eexists; (split; [reflexivity|]);
      try (left; unfold is_err, errCodeTruncated, errCodeOverflow; lia).
      right. exists (p ++ body), rest. rewrite <- app_assoc. split; [exact Eb|].
      rewrite zlen_app. split; [reflexivity|]. constructor; [|exact Hu].
      subst b. apply is_bytes_app in Hb. destruct Hb as [_ Hb]. apply is_bytes_app in Hb. apply Hb. }
    destruct (Z.eqb_spec typ typeStartGroup) as [->|_].
    { destruct (Z.ltb_spec depth 0) as [Hd|Hd].
      - intros E. inversion E; subst. eexists. split; [reflexivity|]. left.
        unfold is_err, errCodeRecursionDepth. lia.
      - intros E. destruct (IHg num b depth (zlen b) r Hb Hl ltac:(lia) ltac:(lia) E)
          as (n & -> & [He|(body & p & rest & -> & -> & Hf & Ht)]).
        + exists n. split; [reflexivity|]. left; exact He.
        + eexists. split; [reflexivity|]. right. exists (body ++ p), rest.
          rewrite <- app_assoc. split; [reflexivity|]. rewrite !zlen_app.
          split; [lia|]. constructor; [lia| |exact Ht]. replace (depth + 1 - 1) with depth by lia. exact Hf. }
    destruct (typ =? typeEndGroup); intros E; inversion E; subst; eexists; (split; [reflexivity|]);
    left; unfold is_err, errCodeEndGroup, errCodeReserved; lia.
  - intros num b depth n0 r Hb Hl Hn0 Hd. cbn [consumeGroupLoop].
    destruct (consumeTag b) as [[num2 typ2] n] eqn:Et.
    destruct (Z.ltb_spec n 0) as [Hneg|Hn].
    { intros E. inversion E; subst. eexists. split; [reflexivity|]. left.
      destruct (consumeTag_cases b Hb) as [(p & nu & ty & rest & Eb & Ht & Ec)|[(p & v & rest & Eb & Hu & _ & Ec)|[[_ Ec]|[_ Ec]]]];
      rewrite Ec in Et; inversion Et; subst;
      unfold is_err, errCodeFieldNumber, errCodeTruncated, errCodeOverflow; try lia.
      pose proof (zlen_nonneg p). lia. }
    destruct (consumeTag_pos b _ _ _ Hb Et Hn) as (H1 & p & rest & -> & <- & Ht).
    rewrite slice_from_app. apply is_bytes_app in Hb. destruct Hb as [Hp Hr].
    rewrite zlen_app in Hl, Hn0.
    destruct (Z.eqb_spec typ2 typeEndGroup) as [->|_].
    { destruct (Z.eqb_spec num num2) as [->|]; cbn [negb]; intros E; inversion E; subst;
      eexists; (split; [reflexivity|]).
      - right. exists [], p, rest. cbn [app]. repeat split; try apply Ht. constructor.
      - left. unfold is_err, errCodeEndGroup. lia. }
    destruct (consumeFieldValueD fuel num2 typ2 rest (depth - 1)) as [r1|] eqn:Ev; [|discriminate].
    destruct (IHv _ _ _ _ _ Hr ltac:(lia) Ev) as (m & -> & [He|(q & rest' & -> & <- & Hq)]).
    { unfold is_err in He. destruct (Z.ltb_spec m 0); [|lia].
      intros E. inversion E; subst. eexists. split; [reflexivity|]. left. exact He. }
    pose proof (zlen_nonneg q). destruct (Z.ltb_spec (zlen q) 0); [lia|].
    rewrite slice_from_app. intros E. rewrite zlen_app in Hl, Hn0. apply is_bytes_app in Hr.
    destruct (IHg num rest' depth n0 r (proj2 Hr) ltac:(lia) ltac:(lia) Hd E) as (k & -> & [He|(body & p' & rr & -> & -> & Hf & Ht')]).
    + eexists. split; [reflexivity|]. left; exact He.
    + eexists. split; [reflexivity|]. right. exists (p ++ q ++ body), p', rr.
      split; [rewrite <- !app_assoc; reflexivity|]. split; [reflexivity|]. split; [|exact Ht'].
      econstructor; [exact Ht| |exact Hf]. replace depth with (depth - 1 + 1) by lia. exact Hq.
Qed.

Scheme fvalue_mut := Induction for fvalue Sort Prop
  with fields_mut := Induction for fields Sort Prop.
Combined Scheme fvalue_fields_ind from fvalue_mut, fields_mut.

Lemma skip_complete :
  (forall levels num typ q, fvalue levels num typ q -> forall rest fuel,
     (2 * length (q ++ rest) + 2 <= fuel)%nat -> zlen (q ++ rest) < 2^63 ->
     consumeFieldValueD fuel num typ (q ++ rest) (levels - 1) = Some (Ok (zlen q))) /\
  (forall levels body, fields levels body -> forall num r fuel n0,
     (2 * length (body ++ r) + 1 <= fuel)%nat -> zlen (body ++ r) < 2^63 ->
     exists fuel', (2 * length r + 1 <= fuel')%nat /\
     consumeGroupLoop fuel num (body ++ r) levels n0 = consumeGroupLoop fuel' num r levels n0).
Proof.
  apply fvalue_fields_ind.
  - intros d num p v Hu rest fuel Hf Hl. destruct fuel; [lia|]. cbn [consumeFieldValueD].
    rewrite (consumeVarint_ok _ _ _ Hu). reflexivity.
  - intros d num p Hb H8 rest fuel Hf Hl. destruct fuel; [lia|]. cbn [consumeFieldValueD].
    rewrite consumeFixed64_ok by assumption. rewrite H8. reflexivity.
  - intros d num p body Hb Hu rest fuel Hf Hl. destruct fuel; [lia|]. cbn [consumeFieldValueD].
    rewrite <- app_assoc in *. rewrite !zlen_app in Hl. pose proof (zlen_nonneg rest).
    rewrite (consumeBytes_ok p body rest Hu) by lia. rewrite (zlen_app p body). reflexivity.
  - intros d num body p Hd Hf IH Ht rest fuel Hfu Hl. destruct fuel as [|fuel]; [lia|].
    cbn [consumeFieldValueD]. cbn [Z.eqb typeStartGroup typeVarint typeFixed32 typeFixed64 typeBytes Pos.eqb].
    destruct (Z.ltb_spec (d - 1) 0); [lia|]. rewrite <- app_assoc in *.
    destruct (IH num (p ++ rest) fuel (zlen (body ++ p ++ rest)) ltac:(lia) Hl) as (fuel' & Hf' & ->).
    destruct fuel' as [|fuel']; [lia|]. cbn [consumeGroupLoop].
    rewrite (consumeTag_ok _ _ _ _ Ht). pose proof (zlen_nonneg p).
    destruct (Z.ltb_spec (zlen p) 0); [lia|]. rewrite slice_from_app. rewrite Z.eqb_refl.
    cbn [negb]. rewrite Z.eqb_refl. cbn [negb]. rewrite !zlen_app. do 2 f_equal. lia.
  - intros d num p Hb H8 rest fuel Hf Hl. destruct fuel; [lia|]. cbn [consumeFieldValueD].
    rewrite consumeFixed32_ok by assumption. rewrite H8. reflexivity.
  - intros d num r fuel n0 Hf Hl. exists fuel. split; [exact Hf|reflexivity].
  - intros d num typ p q rest Ht Hq IHq Hf IHf num0 r fuel n0 Hfu Hl.
    rewrite <- !app_assoc in *.
    destruct fuel as [|fuel]; [lia|]. cbn [consumeGroupLoop].
    rewrite (consumeTag_ok _ _ _ _ Ht). pose proof (tag_nonempty _ _ _ Ht) as Hp.
    destruct (Z.ltb_spec (zlen p) 0); [lia|]. rewrite slice_from_app.
    rewrite app_length in Hfu. rewrite zlen_app in Hl. unfold zlen in Hp.
    pose proof (zlen_nonneg p).
    destruct (Z.eqb_spec typ typeEndGroup) as [->|_]; [inversion Hq|].
    rewrite IHq by (lia || exact Hl). pose proof (zlen_nonneg q).
    destruct (Z.ltb_spec (zlen q) 0); [lia|]. rewrite slice_from_app.
    rewrite app_length in Hfu. rewrite zlen_app in Hl.
    apply IHf; lia.
Qed.

Lemma consumeFieldValue_total num typ b : is_bytes b -> zlen b < 2^63 ->
  exists n, consumeFieldValue num typ b = Some (Ok n) /\ (is_err n \/
       exists q rest, b = q ++ rest /\ zlen q = n /\ fvalue 10001 num typ q).
Proof.
  intros Hb Hl. unfold consumeFieldValue, fieldFuel.
  destruct (proj1 (skip_total _) num typ b DefaultRecursionLimit Hb (Nat.le_refl _)) as [r Hr].
  destruct (proj1 (skip_sound _) _ _ _ _ _ Hb Hl Hr) as (n & -> & H).
  exists n. split; [exact Hr|]. exact H.
Qed.
Lemma consumeFieldValue_ok num typ q rest : fvalue 10001 num typ q -> zlen (q ++ rest) < 2^63 ->
  consumeFieldValue num typ (q ++ rest) = Some (Ok (zlen q)).
Proof.
  intros Hq Hl. unfold consumeFieldValue, fieldFuel.
  change DefaultRecursionLimit with (10001 - 1). apply (proj1 skip_complete); [exact Hq|lia|exact Hl].
Qed.

Lemma consumeField_total b : is_bytes b -> zlen b < 2^63 ->
  exists num typ n, consumeField b = Some (Ok (num, typ, n)) /\
    (is_err n \/ exists p q rest, b = p ++ q ++ rest /\ n = zlen (p ++ q) /\
        tag p num typ /\ fvalue 10001 num typ q).
Proof.
  intros Hb Hl. unfold consumeField.
  destruct (consumeTag b) as [[num typ] n] eqn:Et.
  destruct (Z.ltb_spec n 0) as [Hneg|Hn].
  { do 3 eexists. split; [reflexivity|]. left.
    destruct (consumeTag_cases b Hb) as [(p & nu & ty & rest & Eb & Ht & Ec)|[(p & v & rest & Eb & Hu & _ & Ec)|[[_ Ec]|[_ Ec]]]];
      rewrite Ec in Et; inversion Et; subst;
      unfold is_err, errCodeFieldNumber, errCodeTruncated, errCodeOverflow; try lia.
    pose proof (zlen_nonneg p). lia. }
  destruct (consumeTag_pos b _ _ _ Hb Et Hn) as (H1 & p & rest & -> & <- & Ht).
  rewrite slice_from_app. apply is_bytes_app in Hb. destruct Hb as [Hp Hr]. rewrite zlen_app in Hl.
  destruct (consumeFieldValue_total num typ rest Hr ltac:(lia)) as (m & -> & [He|(q & rest' & -> & <- & Hq)]).
  - unfold is_err in He. destruct (Z.ltb_spec m 0); [|lia]. do 3 eexists. split; [reflexivity|]. left; exact He.
  - pose proof (zlen_nonneg q). destruct (Z.ltb_spec (zlen q) 0); [lia|].
    do 3 eexists. split; [reflexivity|]. right. exists p, q, rest'. rewrite zlen_app.
    split; [reflexivity|]. split; [reflexivity|]. split; assumption.
Qed.

Lemma consumeField_ok p q rest num typ : tag p num typ -> fvalue 10001 num typ q ->
  zlen (p ++ q ++ rest) < 2^63 ->
  consumeField (p ++ q ++ rest) = Some (Ok (num, typ, zlen (p ++ q))).
Proof.
  intros Ht Hq Hl. unfold consumeField. rewrite (consumeTag_ok _ _ _ _ Ht).
  pose proof (zlen_nonneg p). destruct (Z.ltb_spec (zlen p) 0); [lia|]. rewrite slice_from_app.
  rewrite zlen_app in Hl. rewrite (consumeFieldValue_ok num typ q rest Hq) by lia.
  pose proof (zlen_nonneg q). destruct (Z.ltb_spec (zlen q) 0); [lia|]. rewrite zlen_app. reflexivity.
Qed.

(** *** Group end marker stripping *)
Lemma stripZeros_snoc l x : stripZeros (l ++ [x]) = if Z.land x 127 =? 0 then stripZeros l else l ++ [x].
Proof.
  unfold stripZeros. rewrite rev_unit. cbn [strip_rev].
  destruct (Z.land x 127 =? 0); [reflexivity|]. cbn [rev]. rewrite rev_involutive. reflexivity.
Qed.
Lemma Len64_shift c w : 0 <= c < 128 -> 0 < w -> Len64 (c + 128 * w) = Len64 w + 7.
Proof.
  intros Hc Hw. unfold Len64. destruct (Z.eqb_spec (c+128*w) 0); [lia|]. destruct (Z.eqb_spec w 0); [lia|].
  assert (w = Z.shiftr (c + 128 * w) 7) as Hs by (rewrite shr by lia; change (2^7) with 128; lia).
  pose proof (Z.log2_shiftr (c + 128 * w) 7 ltac:(lia)) as HL. rewrite <- Hs in HL.
  assert (7 <= Z.log2 (c + 128 * w)). { change 7 with (Z.log2 128). apply Z.log2_le_mono. lia. }
  lia.
Qed.
Lemma sizeVarint_small v : 0 <= v < 128 -> sizeVarint v = 1.
Proof.
  intros Hv. unfold sizeVarint. pose proof (Len64_bound v 7 ltac:(lia) ltac:(lia)).
  rewrite u32_small by lia. lia.
Qed.
Lemma sizeVarint_step c w : 0 <= c < 128 -> 0 < w -> c + 128 * w < 2^64 ->
  sizeVarint (c + 128 * w) = 1 + sizeVarint w.
Proof.
  intros Hc Hw Hl. unfold sizeVarint. rewrite Len64_shift by lia.
  pose proof (Len64_bound w 57 ltac:(lia) ltac:(lia)).
  pose proof (Len64_lower w 0 ltac:(lia) ltac:(lia)).
  rewrite !u32_small by lia. lia.
Qed.

Lemma strip_varint p v : varint p v ->
  (v = 0 -> forall body, stripZeros (body ++ p) = stripZeros body) /\
  (0 < v < 2^64 -> exists p', zlen p' = sizeVarint v /\ forall body, stripZeros (body ++ p) = body ++ p').
Proof.
  induction 1 as [l Hl|c p v Hc Hp [IH0 IH1]].
  - assert (E : Z.land l 127 = l).
    { change 127 with (2^7-1). rewrite land_ones' by lia. apply Z.mod_small. change (2^7) with 128. lia. }
    split; intros Hv.
    + intros body. rewrite stripZeros_snoc, E. subst l. reflexivity.
    + exists [l]. split; [rewrite sizeVarint_small by lia; reflexivity|].
      intros body. rewrite stripZeros_snoc, E. destruct (Z.eqb_spec l 0); [lia|reflexivity].
  - pose proof (varint_nonneg _ _ Hp) as Hv0.
    assert (E : Z.land c 127 = c - 128).
    { change 127 with (2^7-1). rewrite land_ones' by lia. change (2^7) with 128. lia. }
    assert (A : forall body, body ++ c :: p = (body ++ [c]) ++ p) by (intros; rewrite <- app_assoc; reflexivity).
    split; intros Hv.
    + intros body. assert (v = 0) by lia. rewrite A, IH0 by assumption.
      rewrite stripZeros_snoc, E. destruct (Z.eqb_spec (c-128) 0); [reflexivity|lia].
    + destruct (Z.eq_dec v 0) as [->|Hnz].
      * exists [c]. split; [rewrite sizeVarint_small by lia; reflexivity|]. intros body.
        rewrite A, IH0 by reflexivity. rewrite stripZeros_snoc, E. destruct (Z.eqb_spec (c-128) 0); [lia|reflexivity].
      * destruct (IH1 ltac:(lia)) as (p' & Hl & Hs). exists (c :: p').
        split. { rewrite zlen_cons, Hl. rewrite sizeVarint_step by lia. reflexivity. }
        intros body. rewrite A, Hs, <- app_assoc. reflexivity.
Qed.

Lemma sizeTag_eq num typ : 1 <= num < 2^31 -> 0 <= typ < 8 -> sizeTag num = sizeVarint (8 * num + typ).
Proof.
  intros Hn Ht. destruct (appendTag_ok [] num typ Hn Ht) as (p & E & Htag & ->).
  unfold appendTag in E. rewrite encodeTag_val in E by lia. cbn [app] in E. subst p.
  rewrite sizeVarint_ok by lia. reflexivity.
Qed.

Lemma consumeGroup_ok num body p rest : fields 10000 body -> tag p num 4 ->
  zlen (body ++ p ++ rest) < 2^63 ->
  consumeGroup num (body ++ p ++ rest) = Some (Ok (body, zlen (body ++ p))).
Proof.
  intros Hf Ht Hl. unfold consumeGroup.
  rewrite app_assoc in *.
  rewrite (consumeFieldValue_ok num typeStartGroup (body ++ p) rest) by
    (exact Hl || (apply fv_group; [lia|exact Hf|exact Ht])).
  pose proof (zlen_nonneg (body ++ p)). destruct (Z.ltb_spec (zlen (body ++ p)) 0); [lia|].
  rewrite slice_to_app. cbn [obind].
  destruct Ht as (Hn & _ & Hu).
  destruct (proj2 (strip_varint p _ (proj1 Hu)) ltac:(lia)) as (p' & Hp' & Hs).
  rewrite Hs, zlen_app, Hp', <- (sizeTag_eq num 4) by lia.
  replace (zlen body + sizeTag num - sizeTag num) with (zlen body) by lia.
  rewrite slice_to_app. reflexivity.
Qed.

Lemma consumeGroup_mismatch num num' body p rest : fields 10000 body -> tag p num' 4 -> num <> num' ->
  zlen (body ++ p ++ rest) < 2^63 ->
  consumeGroup num (body ++ p ++ rest) = Some (Ok ([], errCodeEndGroup)).
Proof.
  intros Hf Ht Hne Hl. unfold consumeGroup, consumeFieldValue, fieldFuel.
  rewrite Nat.add_comm. cbn [Nat.add].
  set (f := (S (2 * length (body ++ p ++ rest)))).
  cbn [consumeFieldValueD]. cbn [Z.eqb typeStartGroup typeVarint typeFixed32 typeFixed64 typeBytes Pos.eqb].
  change (DefaultRecursionLimit <? 0) with false. cbv iota.
  destruct (proj2 skip_complete _ _ Hf num (p ++ rest) f (zlen (body ++ p ++ rest)) ltac:(subst f; lia) Hl)
    as (fuel' & Hf' & E).
  change DefaultRecursionLimit with 10000. rewrite E.
  destruct fuel' as [|fuel']; [lia|]. cbn [consumeGroupLoop].
  rewrite (consumeTag_ok _ _ _ _ Ht). pose proof (zlen_nonneg p).
  destruct (Z.ltb_spec (zlen p) 0); [lia|]. rewrite slice_from_app.
  change (4 =? typeEndGroup) with true. cbv iota.
  destruct (Z.eqb_spec num num'); [contradiction|]. reflexivity.
Qed.

Lemma appendGroup_ok b num v : 1 <= num < 2^31 ->
  exists p, appendGroup b num v = b ++ v ++ p /\ tag p num 4 /\ sizeGroup num (zlen v) = zlen (v ++ p).
Proof.
  intros Hn. unfold appendGroup. rewrite appendVarint_app, encodeTag_val by (unfold typeEndGroup; lia).
  eexists. rewrite <- app_assoc. split; [reflexivity|]. split.
  - split; [lia|]. split; [lia|]. apply appendVarint_varint. unfold typeEndGroup. lia.
  - unfold sizeGroup. rewrite (sizeTag_eq num 4) by lia. unfold typeEndGroup.
    rewrite sizeVarint_ok by lia. rewrite zlen_app. reflexivity.
Qed.

(** ** Statements assembled for WireProps.v *)
Lemma sizeVarint_exact v : 0 <= v < 2^64 ->
  sizeVarint v = zlen (appendVarint [] v) /\ 1 <= sizeVarint v <= 10.
Proof.
  intros Hv. pose proof (appendVarint_varint v Hv) as (Hp & Hl & _).
  pose proof (varint_nonempty _ _ Hp). rewrite sizeVarint_ok by exact Hv. lia.
Qed.
Lemma consumeVarint_spec b : is_bytes b ->
  (forall v n, 0 <= n ->
     (consumeVarint b = (v, n) <-> exists p rest, b = p ++ rest /\ zlen p = n /\ uvarint p v)) /\
  (snd (consumeVarint b) = errCodeTruncated <-> truncated b) /\
  (snd (consumeVarint b) = errCodeOverflow <-> overlong b) /\
  (0 <= snd (consumeVarint b) \/ truncated b \/ overlong b).
Proof.
  intros Hb. split; [intros; apply consumeVarint_exact; assumption|].
  split; [apply consumeVarint_trunc_iff; exact Hb|].
  split; [apply consumeVarint_over_iff; exact Hb|].
  destruct (consumeVarint_cases b Hb) as [(p & v & rest & -> & Hu & E)|[[H E]|[H E]]].
  - left. rewrite E. apply zlen_nonneg.
  - right; left; exact H.
  - right; right; exact H.
Qed.
Lemma varint_cases_inhabited : uvarint [172; 2] 300 /\ truncated [200; 129] /\
  overlong [255;255;255;255;255;255;255;255;255;2].
Proof.
  split; [|split].
  - split; [|split; [vm_compute; congruence|lia]].
    change 300 with (172 - 128 + 128 * 2). repeat constructor; lia.
  - split; [repeat constructor; lia|reflexivity].
  - split; [vm_compute; congruence|]. split; [repeat constructor; lia|cbn; lia].
Qed.
Lemma encodeZigZag_abs x : - 2^63 <= x < 2^63 ->
  encodeZigZag x = if x <? 0 then 2 * Z.abs x - 1 else 2 * Z.abs x.
Proof. intros H. rewrite encodeZigZag_val by exact H. destruct (Z.ltb_spec x 0); lia. Qed.
Lemma tag_round_trip b num typ suffix : 1 <= num < 2^31 -> 0 <= typ < 8 ->
  exists p, appendTag b num typ = b ++ p /\ tag p num typ /\
    sizeTag num = zlen p /\ consumeTag (p ++ suffix) = (num, typ, zlen p).
Proof.
  intros Hn Ht. destruct (appendTag_ok b num typ Hn Ht) as (p & E & H & S).
  exists p. repeat (split; [assumption|]). apply consumeTag_ok; exact H.
Qed.
Lemma consumeTag_reject p v suffix : uvarint p v -> ~ (1 <= v / 8 < 2^31) ->
  consumeTag (p ++ suffix) = (0, 0, errCodeFieldNumber).
Proof.
  intros Hu Hv. unfold consumeTag. rewrite (consumeVarint_ok _ _ _ Hu). pose proof (zlen_nonneg p).
  destruct (Z.ltb_spec (zlen p) 0); [lia|]. assert (0 <= v < 2^64) as Hr by apply Hu.
  destruct (Z_lt_ge_dec (v / 8) 1).
  - replace v with (8 * (v/8) + v mod 8) by lia. rewrite decodeTag_val by lia.
    unfold MinValidNumber. destruct (Z.ltb_spec (v/8) 1); [reflexivity|lia].
  - rewrite decodeTag_over by lia. reflexivity.
Qed.
Lemma consumeTag_only b num typ n : is_bytes b -> consumeTag b = (num, typ, n) ->
  0 <= n -> exists p rest, b = p ++ rest /\ zlen p = n /\ tag p num typ.
Proof. intros Hb E Hn. exact (proj2 (consumeTag_pos b num typ n Hb E Hn)). Qed.
Lemma tag_inhabited : tag [130; 1] 16 2 /\ uvarint [7] 7 /\ ~ (1 <= 7 / 8 < 2^31).
Proof.
  split; [|split].
  - split; [lia|]. split; [lia|]. split; [|split; [vm_compute; congruence|lia]].
    change (8 * 16 + 2) with (130 - 128 + 128 * 1). repeat constructor; lia.
  - split; [constructor; lia|split; [vm_compute; congruence|lia]].
  - change (7/8) with 0. lia.
Qed.
Lemma fixed_round_trip b v suffix :
  (0 <= v < 2^32 -> exists p, appendFixed32 b v = b ++ p /\ is_bytes p /\ zlen p = 4 /\
     le_value p = v /\ consumeFixed32 (p ++ suffix) = (v, 4)) /\
  (0 <= v < 2^64 -> exists p, appendFixed64 b v = b ++ p /\ is_bytes p /\ zlen p = 8 /\
     le_value p = v /\ consumeFixed64 (p ++ suffix) = (v, 8)).
Proof.
  split; intros Hv.
  - destruct (appendFixed32_ok b v Hv) as (p & E & Hb & Hl & Hval). exists p.
    repeat (split; [assumption|]). rewrite consumeFixed32_ok by assumption. rewrite Hval. reflexivity.
  - destruct (appendFixed64_ok b v Hv) as (p & E & Hb & Hl & Hval). exists p.
    repeat (split; [assumption|]). rewrite consumeFixed64_ok by assumption. rewrite Hval. reflexivity.
Qed.
Lemma fixed_total b : is_bytes b ->
  (zlen b < 4 -> consumeFixed32 b = (0, errCodeTruncated)) /\
  (zlen b < 8 -> consumeFixed64 b = (0, errCodeTruncated)) /\
  (4 <= zlen b -> consumeFixed32 b = (le_value (ztake 4 b), 4)) /\
  (8 <= zlen b -> consumeFixed64 b = (le_value (ztake 8 b), 8)).
Proof.
  intros Hb. split; [apply consumeFixed32_short|]. split; [apply consumeFixed64_short|].
  split; intros H.
  - destruct (split_at 4 b ltac:(lia)) as (p & r & -> & Hp). apply is_bytes_app in Hb.
    rewrite consumeFixed32_ok by (apply Hb || exact Hp). replace (ztake 4 (p ++ r)) with p by (rewrite <- Hp; symmetry; apply ztake_app). reflexivity.
  - destruct (split_at 8 b ltac:(lia)) as (p & r & -> & Hp). apply is_bytes_app in Hb.
    rewrite consumeFixed64_ok by (apply Hb || exact Hp). replace (ztake 8 (p ++ r)) with p by (rewrite <- Hp; symmetry; apply ztake_app). reflexivity.
Qed.
Lemma bytes_round_trip b v suffix : is_bytes v -> zlen v < 2^62 ->
  exists p, appendBytes b v = b ++ p ++ v /\ sizeBytes (zlen v) = zlen (p ++ v) /\
    consumeBytes (p ++ v ++ suffix) = Ok (v, zlen (p ++ v)).
Proof.
  intros _ Hl. destruct (appendBytes_ok b v ltac:(lia)) as (p & E & Hu & Hs).
  exists p. rewrite zlen_app. repeat (split; [assumption|]).
  apply consumeBytes_ok; [exact Hu|]. destruct Hu as (_ & H10 & _). lia.
Qed.
Lemma bytes_bounds b : is_bytes b -> zlen b < 2^63 ->
  exists v n, consumeBytes b = Ok (v, n) /\
    ((is_err n /\ v = []) \/
     exists p rest, b = p ++ v ++ rest /\ n = zlen (p ++ v) /\ uvarint p (zlen v)).
Proof.
  intros Hb Hl.
  destruct (consumeBytes_cases b Hb Hl) as [(p & body & rest & Eb & Hu & Ec)|[(p & m & rest & Eb & Hu & Hm & Ec)|[[_ Ec]|[_ Ec]]]];
  rewrite Ec; do 2 eexists; (split; [reflexivity|]);
  try (left; unfold is_err, errCodeTruncated, errCodeOverflow; split; [lia|reflexivity]).
  right. exists p, rest. rewrite zlen_app. repeat split; try apply Hu. exact Eb.
Qed.
Lemma consumeField_safe b : is_bytes b -> zlen b < 2^63 ->
  exists num typ n, consumeField b = Some (Ok (num, typ, n)) /\
    (is_err n \/
     (1 <= n <= zlen b /\ exists p q rest, b = p ++ q ++ rest /\ n = zlen (p ++ q) /\
        tag p num typ /\ fvalue 10001 num typ q)).
Proof.
  intros Hb Hl. destruct (consumeField_total b Hb Hl) as (num & typ & n & E & H).
  exists num, typ, n. split; [exact E|]. destruct H as [H|(p & q & rest & -> & -> & Ht & Hq)]; [left; exact H|].
  right. split.
  - pose proof (tag_nonempty _ _ _ Ht). rewrite !zlen_app.
    pose proof (zlen_nonneg q). pose proof (zlen_nonneg rest). lia.
  - exists p, q, rest. repeat (split; [reflexivity|]). split; assumption.
Qed.
Lemma group_round_trip b num body suffix :
  1 <= num < 2^31 -> fields 10000 body -> zlen body + zlen suffix < 2^62 ->
  exists p, appendGroup b num body = b ++ body ++ p /\
    sizeGroup num (zlen body) = zlen (body ++ p) /\
    consumeGroup num (body ++ p ++ suffix) = Some (Ok (body, zlen (body ++ p))).
Proof.
  intros Hn Hf Hl. destruct (appendGroup_ok b num body Hn) as (p & E & Ht & Hs).
  exists p. repeat (split; [assumption|]). apply consumeGroup_ok; [assumption|assumption|].
  rewrite !zlen_app. destruct Ht as (_ & _ & _ & H10 & _). lia.
Qed.
Lemma group_end_marker num num' body p suffix :
  fields 10000 body -> tag p num' 4 -> zlen (body ++ p ++ suffix) < 2^63 ->
  consumeGroup num (body ++ p ++ suffix) =
    if num =? num' then Some (Ok (body, zlen (body ++ p)))
    else Some (Ok ([], errCodeEndGroup)).
Proof.
  intros Hf Ht Hl. destruct (Z.eqb_spec num num') as [->|Hne].
  - apply consumeGroup_ok; assumption.
  - eapply consumeGroup_mismatch; eassumption.
Qed.
Lemma group_inhabited : fields 10000 [8; 1; 19; 20] /\ tag [140; 128; 0] 1 4 /\
  consumeGroup 1 ([8; 1; 19; 20] ++ [140; 128; 0] ++ [77]) = Some (Ok ([8; 1; 19; 20], 7)).
Proof.
  assert (Huv : forall x, 0 <= x < 128 -> uvarint [x] x).
  { intros x Hx. split; [constructor; lia|]. split; [vm_compute; congruence|lia]. }
  split; [|split].
  - apply (fields_cons 10000 1 0 [8] [1] [19; 20]).
    + split; [lia|]. split; [lia|]. apply (Huv 8). lia.
    + econstructor. apply (Huv 1). lia.
    + apply (fields_cons 10000 2 3 [19] [20] []).
      * split; [lia|]. split; [lia|]. apply (Huv 19). lia.
      * apply (fv_group 10000 2 [] [20]); [lia|constructor|].
        split; [lia|]. split; [lia|]. apply (Huv 20). lia.
      * constructor.
  - split; [lia|]. split; [lia|]. split; [|split; [vm_compute; congruence|lia]].
    change (8 * 1 + 4) with (140 - 128 + 128 * (128 - 128 + 128 * 0)). repeat constructor; lia.
  - vm_compute. reflexivity.
Qed.
