(** Arithmetic and list lemmas shared by the proofs. *)
From Coq Require Export ZifyBool ZifyNat ZifyN.
From Verif Require Export GoBase.
Ltac Zify.zify_post_hook ::= Z.div_mod_to_equations.

Lemma zlen_app {A} (a b : list A) : zlen (a ++ b) = zlen a + zlen b.
Proof. unfold zlen. rewrite app_length. lia. Qed.
Lemma zlen_nil {A} : zlen (@nil A) = 0.
Proof. reflexivity. Qed.
Lemma zlen_cons {A} (x : A) l : zlen (x :: l) = 1 + zlen l.
Proof. unfold zlen. cbn [length]. lia. Qed.
Lemma zlen_nonneg {A} (l : list A) : 0 <= zlen l.
Proof. unfold zlen. lia. Qed.
Lemma zskip_app {A} (a b : list A) : zskip (zlen a) (a ++ b) = b.
Proof.
  unfold zskip, zlen. rewrite Nat2Z.id, skipn_app, skipn_all, Nat.sub_diag. reflexivity.
Qed.
Lemma ztake_app {A} (a b : list A) : ztake (zlen a) (a ++ b) = a.
Proof.
  unfold ztake, zlen. rewrite Nat2Z.id, firstn_app, firstn_all, Nat.sub_diag.
  cbn. apply app_nil_r.
Qed.
Lemma slice_from_app {A} (a b : list A) : slice_from (zlen a) (a ++ b) = Ok b.
Proof.
  unfold slice_from. rewrite zskip_app, zlen_app.
  pose proof (zlen_nonneg a). pose proof (zlen_nonneg b).
  destruct ((0 <=? zlen a) && (zlen a <=? zlen a + zlen b)) eqn:E; [reflexivity|lia].
Qed.
Lemma slice_to_app {A} (a b : list A) : slice_to (zlen a) (a ++ b) = Ok a.
Proof.
  unfold slice_to. rewrite ztake_app, zlen_app.
  pose proof (zlen_nonneg a). pose proof (zlen_nonneg b).
  destruct ((0 <=? zlen a) && (zlen a <=? zlen a + zlen b)) eqn:E; [reflexivity|lia].
Qed.
Lemma split_at {A} (n : Z) (l : list A) : 0 <= n <= zlen l ->
  exists a b, l = a ++ b /\ zlen a = n.
Proof.
  intros H. exists (firstn (Z.to_nat n) l), (skipn (Z.to_nat n) l).
  rewrite firstn_skipn. split; [reflexivity|].
  unfold zlen in *. rewrite firstn_length. lia.
Qed.
Lemma is_bytes_app a b : is_bytes (a ++ b) <-> is_bytes a /\ is_bytes b.
Proof. apply Forall_app. Qed.
Lemma u64_small x : 0 <= x < 2^64 -> u64 x = x.
Proof. intros. unfold u64. apply Z.mod_small. lia. Qed.
Lemma u8_small x : 0 <= x < 256 -> u8 x = x.
Proof. intros. unfold u8. apply Z.mod_small. lia. Qed.
Lemma u32_small x : 0 <= x < 2^32 -> u32 x = x.
Proof. intros. unfold u32. apply Z.mod_small. lia. Qed.
Lemma i64_small x : - 2^63 <= x < 2^63 -> i64 x = x.
Proof.
  intros. unfold i64, sgn. change (2^(64-1)) with (2^63).
  destruct (Z_lt_ge_dec x 0).
  - assert (E: x mod 2^64 = x + 2^64).
    { symmetry. apply Z.mod_unique with (-1); lia. }
    rewrite E. destruct (x + 2^64 <? 2^63) eqn:F; lia.
  - rewrite Z.mod_small by lia. destruct (x <? 2^63) eqn:F; lia.
Qed.
Lemma i32_small x : - 2^31 <= x < 2^31 -> i32 x = x.
Proof.
  intros. unfold i32, sgn. change (2^(32-1)) with (2^31).
  destruct (Z_lt_ge_dec x 0).
  - assert (E: x mod 2^32 = x + 2^32).
    { symmetry. apply Z.mod_unique with (-1); lia. }
    rewrite E. destruct (x + 2^32 <? 2^31) eqn:F; lia.
  - rewrite Z.mod_small by lia. destruct (x <? 2^31) eqn:F; lia.
Qed.
Lemma i8_small x : - 128 <= x < 128 -> i8 x = x.
Proof.
  intros. unfold i8, sgn. cbv zeta. change (2^(8-1)) with 128. change (2^8) with 256.
  destruct (Z.ltb_spec (x mod 256) 128); lia.
Qed.

(** Disjoint bitwise or is addition. *)
Lemma testbit_high a k i : 0 <= k <= i -> 0 <= a < 2^k -> Z.testbit a i = false.
Proof.
  intros Hk Ha. destruct (Z.eq_dec a 0); [subst; apply Z.bits_0|].
  apply Z.bits_above_log2; [lia|].
  apply Z.log2_lt_pow2; [lia|].
  apply Z.lt_le_trans with (2^k); [lia|]. apply Z.pow_le_mono_r; lia.
Qed.
Lemma lor_add a b k : 0 <= k -> 0 <= a < 2^k -> Z.lor a (b * 2^k) = a + b * 2^k.
Proof.
  intros Hk Ha.
  assert (D : Z.land a (b * 2^k) = 0).
  { apply Z.bits_inj'. intros i Hi. rewrite Z.land_spec, Z.bits_0.
    destruct (Z_lt_ge_dec i k).
    - rewrite Z.mul_pow2_bits_low by lia. apply andb_false_r.
    - rewrite (testbit_high a k i); [reflexivity|lia|lia]. }
  rewrite <- Z.lxor_lor by exact D. symmetry. apply Z.add_nocarry_lxor. exact D.
Qed.
Lemma lor_add' a b k : 0 <= k -> 0 <= a < 2^k -> Z.lor (b * 2^k) a = a + b * 2^k.
Proof. intros. rewrite Z.lor_comm. apply lor_add; assumption. Qed.
Lemma land_ones' a k : 0 <= k -> Z.land a (2^k - 1) = a mod 2^k.
Proof. intros. rewrite <- Z.land_ones by lia. rewrite Z.ones_equiv. reflexivity. Qed.
