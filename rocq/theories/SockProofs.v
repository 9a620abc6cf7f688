(** Proofs about websocket frames and event streams. *)
From Verif Require Import GoBase BaseLemmas SockModel SockSpec.

Lemma read_n_app n a s : length a = n -> read_n n (a ++ s) = Some (a, s).
Proof.
  intros <-. unfold read_n. rewrite app_length.
  replace (Nat.leb _ _) with true by (symmetry; apply Nat.leb_le; lia).
  rewrite firstn_app, firstn_all, Nat.sub_diag. cbn. rewrite app_nil_r.
  rewrite skipn_app, skipn_all, Nat.sub_diag. reflexivity.
Qed.
Lemma read_n_inv n s a r : read_n n s = Some (a, r) -> s = a ++ r /\ length a = n.
Proof.
  unfold read_n. destruct (Nat.leb n (length s)) eqn:E; [|discriminate].
  intro H. injection H as <- <-. apply Nat.leb_le in E. split.
  - symmetry; apply firstn_skipn.
  - apply firstn_length_le, E.
Qed.

Lemma mask_from_length i key b : length (mask_from i key b) = length b.
Proof. revert i. induction b; intro i; cbn; auto. Qed.
Lemma mask_from_nth key b : forall i j x, nth_error b j = Some x ->
  nth_error (mask_from i key b) j = Some (Z.lxor x (nth (Nat.modulo (i + j) 4) key 0)).
Proof.
  induction b as [|y b IH]; intros i j x H; destruct j; try discriminate.
  - injection H as ->. cbn. now rewrite Nat.add_0_r.
  - cbn in H |- *. rewrite (IH (S i) j x H). now rewrite Nat.add_succ_r.
Qed.
Lemma mask_from_xored key b : xored key b (mask_from 0 key b).
Proof. split; [apply mask_from_length|]. intros i x H. now rewrite (mask_from_nth _ _ 0 i x H). Qed.

Lemma nth_error_ext' {A} : forall (l l' : list A), (forall i, nth_error l i = nth_error l' i) -> l = l'.
Proof.
  induction l as [|x l IH]; intros [|y l'] H; [reflexivity|specialize (H O)..|]; try discriminate.
  pose proof (H O) as H0. injection H0 as ->. f_equal. apply IH. intro i. exact (H (S i)).
Qed.
Lemma xored_fun key p q q' : xored key p q -> xored key p q' -> q = q'.
Proof.
  intros [L H] [L' H']. apply nth_error_ext'. intro i.
  destruct (nth_error p i) as [x|] eqn:E.
  - now rewrite (H i x E), (H' i x E).
  - apply nth_error_None in E. transitivity (@None Z); [|symmetry]; apply nth_error_None; lia.
Qed.
Lemma xored_mask key p q : xored key p q -> q = mask_from 0 key p.
Proof. intro H. exact (xored_fun _ _ _ _ H (mask_from_xored key p)). Qed.

Lemma is_byte_shift a b n : 0 <= n -> is_byte b -> u8 (Z.shiftr (a * 256 + b) (8 * (n + 1))) = u8 (Z.shiftr a (8 * n)).
Proof.
  intros Hn Hb. unfold is_byte in Hb. replace (8 * (n + 1)) with (8 + 8 * n) by lia.
  rewrite <- Z.shiftr_shiftr by lia. f_equal. f_equal.
  rewrite Z.shiftr_div_pow2 by lia. change (2^8) with 256.
  rewrite Z.div_add_l by lia. rewrite Z.div_small by lia. lia.
Qed.
Lemma is_byte_low a b : is_byte b -> u8 (a * 256 + b) = b.
Proof.
  intro Hb. unfold u8. change (2^8) with 256. rewrite Z.add_comm, Z.mod_add by lia.
  apply Z.mod_small. exact Hb.
Qed.

Lemma key_byte k0 k1 k2 k3 : is_bytes [k0; k1; k2; k3] -> forall j, (j < 4)%nat ->
  u8 (Z.shiftr (big_endian [k0; k1; k2; k3]) (8 * Z.of_nat j)) = nth j [k3; k2; k1; k0] 0.
Proof.
  intros H j Hj. unfold is_bytes in H.
  inversion H as [|? ? B0 H0]; subst. inversion H0 as [|? ? B1 H1]; subst.
  inversion H1 as [|? ? B2 H2]; subst. inversion H2 as [|? ? B3 H3]; subst.
  cbn [big_endian fold_left].
  destruct j as [|[|[|[|j]]]]; [| | | |lia]; cbn [nth].
  - change (8 * Z.of_nat 0) with 0. rewrite Z.shiftr_0_r. now apply is_byte_low.
  - change (8 * Z.of_nat 1) with (8 * (0 + 1)). rewrite is_byte_shift by (auto; lia).
    change (8 * 0) with 0. rewrite Z.shiftr_0_r. now apply is_byte_low.
  - change (8 * Z.of_nat 2) with (8 * (0 + 1 + 1)). rewrite !is_byte_shift by (auto; lia).
    change (8 * 0) with 0. rewrite Z.shiftr_0_r. now apply is_byte_low.
  - change (8 * Z.of_nat 3) with (8 * (0 + 1 + 1 + 1)). rewrite !is_byte_shift by (auto; lia).
    change (8 * 0) with 0. rewrite Z.shiftr_0_r. change (0 * 256 + k0) with k0.
    apply u8_small. exact B0.
Qed.

Lemma unmask_is_mask_rev key b : is_bytes key -> length key = 4%nat ->
  forall i, unmask_from i (big_endian key) b = mask_from i (rev key) b.
Proof.
  intros K L. destruct key as [|k0 [|k1 [|k2 [|k3 [|? ?]]]]]; try discriminate.
  induction b as [|x b IH]; intro i; [reflexivity|]. cbn [unmask_from mask_from rev app].
  f_equal; [f_equal|apply IH]. apply key_byte; [exact K|]. apply Nat.mod_upper_bound. lia.
Qed.
Lemma unmask_zero b : forall i, unmask_from i 0 b = b.
Proof.
  induction b as [|x b IH]; intro i; [reflexivity|]. cbn [unmask_from].
  rewrite Z.shiftr_0_l, IH. change (u8 0) with 0. now rewrite Z.lxor_0_r.
Qed.

Lemma be_length k : forall n, length (be k n) = k.
Proof. induction k; intro n; cbn [be]; [reflexivity|]. rewrite app_length, IHk. cbn. lia. Qed.
Lemma be_value k : forall n, 0 <= n < 256 ^ Z.of_nat k -> big_endian (be k n) = n.
Proof.
  unfold big_endian. induction k as [|k IH]; intros n H.
  - cbn in *. lia.
  - cbn [be]. rewrite fold_left_app. cbn [fold_left]. rewrite IH.
    + rewrite Z.mul_comm. symmetry. apply Z.div_mod. lia.
    + rewrite Nat2Z.inj_succ, Z.pow_succ_r in H by lia.
      split; [apply Z.div_pos; lia|]. apply Z.div_lt_upper_bound; lia.
Qed.

(** Reading any conforming header. *)
Lemma land127 l m : 0 <= l <= 127 -> (m = 0 \/ m = 128) -> Z.land (m + l) 127 = l.
Proof.
  intros H Hm. change 127 with (2^7 - 1). rewrite land_ones' by lia. change (2^7) with 128.
  destruct Hm as [->| ->]; [apply Z.mod_small; lia|].
  replace (128 + l) with (l + 1 * 128) by lia. rewrite Z.mod_add by lia. apply Z.mod_small; lia.
Qed.
Lemma land128 l : 0 <= l <= 127 -> Z.land l 128 = 0 /\ Z.land (128 + l) 128 = 128.
Proof.
  intros H. split.
  - apply Z.bits_inj'. intros i Hi. rewrite Z.land_spec, Z.bits_0.
    destruct (Z_lt_ge_dec i 7) as [C|C].
    + change 128 with (2^7). rewrite Z.pow2_bits_false by lia. apply andb_false_r.
    + rewrite (testbit_high l 7 i); [reflexivity|lia|change (2^7) with 128; lia].
  - apply Z.bits_inj'. intros i Hi. rewrite Z.land_spec.
    replace (128 + l) with (l + 1 * 2^7) by (change (2^7) with 128; lia).
    rewrite <- lor_add by (change (2^7) with 128; lia). rewrite Z.lor_spec.
    change (1 * 2^7) with (2^7). change 128 with (2^7).
    destruct (Z.eq_dec i 7) as [->|N].
    + rewrite Z.pow2_bits_true by lia. now rewrite orb_true_r.
    + rewrite Z.pow2_bits_false by lia. apply andb_false_r.
Qed.

Lemma rfc_len_range n l ext : rfc_len n l ext -> 0 <= l <= 127 /\ 0 <= n < 2^63.
Proof.
  destruct 1 as [n H|n H|n H]; split; try lia.
  all: try (split; [lia|]; apply Z.le_lt_trans with 125; [lia|reflexivity]).
Qed.

Lemma read_header_unmasked op l ext n s : 0 <= op < 16 -> rfc_len n l ext ->
  read_header ([128 + op; l] ++ ext ++ s) = Some (op, n, 0, s).
Proof.
  intros Ho Hl. unfold read_header.
  rewrite (read_n_app 2 [128 + op; l] (ext ++ s)) by reflexivity.
  destruct (rfc_len_range _ _ _ Hl) as [Rl Rn].
  assert (L7' : Z.land l 127 = l) by (apply (land127 l 0); auto). rewrite L7'.
  destruct (land128 l Rl) as [M _]. rewrite M. cbn [Z.eqb].
  assert (Hop : Z.land (128 + op) 15 = op).
  { change 15 with (2^4 - 1). rewrite land_ones' by lia. change (2^4) with 16.
    replace (128 + op) with (op + 8 * 16) by lia. rewrite Z.mod_add by lia. apply Z.mod_small. lia. }
  rewrite Hop.
  destruct Hl as [n H|n H|n H].
  - replace (n =? 126) with false by (symmetry; apply Z.eqb_neq; lia).
    replace (n =? 127) with false by (symmetry; apply Z.eqb_neq; lia). reflexivity.
  - cbn [Z.eqb Pos.eqb]. rewrite read_n_app by apply be_length. rewrite be_value; [reflexivity|].
    change (256 ^ Z.of_nat 2) with (2^16). lia.
  - cbn [Z.eqb Pos.eqb]. rewrite read_n_app by apply be_length. rewrite be_value; [reflexivity|].
    change (256 ^ Z.of_nat 8) with (2^64).
    assert (0 <= 2^16) by (cbv; discriminate). split; [lia|].
    apply Z.lt_trans with (2^63); [lia|reflexivity].
Qed.

Lemma read_header_masked op l ext n key s : 0 <= op < 16 -> rfc_len n l ext -> length key = 4%nat ->
  read_header ([128 + op; 128 + l] ++ ext ++ key ++ s) = Some (op, n, big_endian key, s).
Proof.
  intros Ho Hl Hk. unfold read_header.
  rewrite (read_n_app 2 [128 + op; 128 + l] (ext ++ key ++ s)) by reflexivity.
  destruct (rfc_len_range _ _ _ Hl) as [Rl Rn].
  rewrite (land127 l 128) by auto.
  destruct (land128 l Rl) as [_ M]. rewrite M. cbn [Z.eqb].
  assert (Hop : Z.land (128 + op) 15 = op).
  { change 15 with (2^4 - 1). rewrite land_ones' by lia. change (2^4) with 16.
    replace (128 + op) with (op + 8 * 16) by lia. rewrite Z.mod_add by lia. apply Z.mod_small. lia. }
  rewrite Hop.
  destruct Hl as [n H|n H|n H].
  - replace (n =? 126) with false by (symmetry; apply Z.eqb_neq; lia).
    replace (n =? 127) with false by (symmetry; apply Z.eqb_neq; lia).
    cbn [app]. now rewrite read_n_app.
  - cbn [Z.eqb Pos.eqb]. rewrite read_n_app by apply be_length. rewrite be_value.
    + now rewrite read_n_app.
    + change (256 ^ Z.of_nat 2) with (2^16). lia.
  - cbn [Z.eqb Pos.eqb]. rewrite read_n_app by apply be_length. rewrite be_value.
    + now rewrite read_n_app.
    + change (256 ^ Z.of_nat 8) with (2^64).
      assert (0 <= 2^16) by (cbv; discriminate). split; [lia|].
      apply Z.lt_trans with (2^63); [lia|reflexivity].
Qed.

Lemma zlen_nat {A} (l : list A) : Z.to_nat (zlen l) = length l.
Proof. unfold zlen. lia. Qed.

(** ** Text frames, read *)
Lemma client_reads_unmasked p bs rest : rfc_frame 1 None p bs -> zlen p <= max_alloc ->
  client_read true (bs ++ rest) = (GText p, rest).
Proof.
  intros F M. inversion F as [p' l ext Hl|]; subst. unfold client_read.
  rewrite <- !app_assoc. rewrite (read_header_unmasked 1 l ext (zlen p)) by (auto; lia).
  cbn [Z.eqb sockPing sockText Pos.eqb andb].
  replace (max_alloc <? zlen p) with false by (symmetry; apply Z.ltb_ge; exact M).
  rewrite zlen_nat, read_n_app by reflexivity. now rewrite unmask_zero.
Qed.

Lemma server_reads_masked recv key p bs rest : rfc_frame 1 (Some key) p bs -> zlen p <= max_alloc ->
  server_read recv (bs ++ rest) =
    (if recv then GText (mask_from 0 (rev key) (mask_from 0 key p)) else GCrash, rest).
Proof.
  intros F M. inversion F as [|key' p' q l ext Hl K L X]; subst. unfold server_read.
  rewrite <- !app_assoc. rewrite (read_header_masked 1 l ext (zlen p)) by (auto; lia).
  cbn [Z.eqb sockPing sockText Pos.eqb andb].
  replace (max_alloc <? zlen p) with false by (symmetry; apply Z.ltb_ge; exact M).
  destruct X as [LX X]. rewrite zlen_nat, read_n_app by exact LX.
  rewrite (xored_mask key p q) by (split; assumption).
  rewrite unmask_is_mask_rev by assumption. now destruct recv.
Qed.

Lemma server_reads_unmasked recv p bs rest : rfc_frame 1 None p bs -> zlen p <= max_alloc ->
  server_read recv (bs ++ rest) = (if recv then GText p else GCrash, rest).
Proof.
  intros F M. inversion F as [p' l ext Hl|]; subst. unfold server_read.
  rewrite <- !app_assoc. rewrite (read_header_unmasked 1 l ext (zlen p)) by (auto; lia).
  cbn [Z.eqb sockPing sockText Pos.eqb andb].
  replace (max_alloc <? zlen p) with false by (symmetry; apply Z.ltb_ge; exact M).
  rewrite zlen_nat, read_n_app by reflexivity. rewrite unmask_zero. now destruct recv.
Qed.

Lemma twice_masked k0 k1 k2 k3 p : forall i,
  mask_from i (rev [k0; k1; k2; k3]) (mask_from i [k0; k1; k2; k3] p) =
  mask_from i [Z.lxor k0 k3; Z.lxor k1 k2; Z.lxor k2 k1; Z.lxor k3 k0] p.
Proof.
  induction p as [|x p IH]; intro i; [reflexivity|]. cbn [mask_from].
  rewrite IH. f_equal. rewrite Z.lxor_assoc. f_equal.
  pose proof (Nat.mod_upper_bound i 4 ltac:(lia)) as B.
  destruct (Nat.modulo i 4) as [|[|[|[|j]]]]; [reflexivity..|lia].
Qed.
Lemma mask_zero p : forall i, mask_from i [0; 0; 0; 0] p = p.
Proof.
  induction p as [|x p IH]; intro i; [reflexivity|]. cbn [mask_from]. rewrite IH. f_equal.
  replace (nth (Nat.modulo i 4) [0;0;0;0] 0) with 0; [apply Z.lxor_0_r|].
  pose proof (Nat.mod_upper_bound i 4 ltac:(lia)) as B.
  destruct (Nat.modulo i 4) as [|[|[|[|j]]]]; [reflexivity..|lia].
Qed.

Lemma masked_symmetric k0 k1 p bs rest : rfc_frame 1 (Some [k0; k1; k1; k0]) p bs ->
  zlen p <= max_alloc -> server_read true (bs ++ rest) = (GText p, rest).
Proof.
  intros F M. rewrite (server_reads_masked true _ _ _ _ F M). rewrite twice_masked.
  rewrite !Z.lxor_nilpotent. now rewrite mask_zero.
Qed.
Lemma lxor_same_inv x y : Z.lxor x y = x -> y = 0.
Proof.
  intro H. rewrite <- (Z.lxor_0_l y), <- (Z.lxor_nilpotent x), Z.lxor_assoc, H. reflexivity.
Qed.
Lemma masked_asymmetric k0 k1 k2 k3 p bs rest : rfc_frame 1 (Some [k0; k1; k2; k3]) p bs ->
  zlen p <= max_alloc -> (k0 <> k3 /\ p <> []) \/ (k1 <> k2 /\ (2 <= length p)%nat) ->
  forall got rest', server_read true (bs ++ rest) = (GText got, rest') -> got <> p.
Proof.
  intros F M C got rest'. rewrite (server_reads_masked true _ _ _ _ F M). rewrite twice_masked.
  intro H. injection H as <- _. intro E. destruct C as [[N P]|[N P]].
  - destruct p as [|x p]; [now apply P|]. injection E as E _. apply lxor_same_inv in E.
    apply N. now apply Z.lxor_eq.
  - destruct p as [|x [|y p]]; cbn [length] in P; [lia|lia|]. injection E as _ E _.
    apply lxor_same_inv in E. apply N. now apply Z.lxor_eq.
Qed.

(** ** Frames, written *)
Lemma short_server_frame b : zlen b < 126 -> rfc_frame 1 None b (server_write (WText b)).
Proof.
  intro H. pose proof (zlen_nonneg b). unfold server_write, len_byte. cbn [wake_bytes opcode_byte].
  replace (zlen b <? 126) with true by (symmetry; apply Z.ltb_lt; lia).
  rewrite u8_small by lia. change (Z.lor fin sockText) with (128 + 1).
  assert (R : 0 <= zlen b <= 125) by lia. exact (Unmasked 1 b (zlen b) [] (L7 _ R)).
Qed.
Lemma lor_mask n : 0 <= n < 128 -> Z.lor n mask = 128 + n.
Proof.
  intro H. unfold mask. change 128 with (1 * 2^7) at 1. rewrite lor_add by (change (2^7) with 128; lia).
  change (1 * 2^7) with 128. lia.
Qed.
Lemma short_client_frame key b : is_bytes key -> length key = 4%nat -> zlen b < 126 ->
  rfc_frame 1 (Some key) b (client_write key (WText b)).
Proof.
  intros K L H. pose proof (zlen_nonneg b). unfold client_write, len_byte. cbn [wake_bytes opcode_byte].
  replace (zlen b <? 126) with true by (symmetry; apply Z.ltb_lt; lia).
  rewrite u8_small by lia. rewrite lor_mask by lia. change (Z.lor fin sockText) with (128 + 1).
  assert (R : 0 <= zlen b <= 125) by lia. exact (Masked 1 key b _ (zlen b) [] (L7 _ R) K L (mask_from_xored key b)).
Qed.

Lemma rfc_frame_length op key p bs : rfc_frame op key p bs ->
  zlen bs = 2 + zlen p + (if zlen p <? 126 then 0 else if zlen p <? 65536 then 2 else 8)
              + match key with None => 0 | Some _ => 4 end.
Proof.
  intro F. assert (G : forall l ext, rfc_len (zlen p) l ext ->
    zlen ext = if zlen p <? 126 then 0 else if zlen p <? 65536 then 2 else 8).
  { intros l ext H. inversion H as [n R|n R|n R]; subst.
    - replace (zlen p <? 126) with true by (symmetry; apply Z.ltb_lt; lia). reflexivity.
    - replace (zlen p <? 126) with false by (symmetry; apply Z.ltb_ge; lia).
      replace (zlen p <? 65536) with true by (symmetry; apply Z.ltb_lt; change 65536 with (2^16); lia).
      unfold zlen at 1. now rewrite be_length.
    - change (2^16) with 65536 in R.
      replace (zlen p <? 126) with false by (symmetry; apply Z.ltb_ge; lia).
      replace (zlen p <? 65536) with false by (symmetry; apply Z.ltb_ge; lia).
      unfold zlen at 1. now rewrite be_length. }
  inversion F as [p' l ext Hl|key' p' q l ext Hl K L [LX X]]; subst; rewrite ?zlen_app, ?zlen_cons.
  - rewrite (G _ _ Hl), zlen_nil. lia.
  - rewrite (G _ _ Hl), zlen_nil. unfold zlen. rewrite LX, L. lia.
Qed.

Lemma long_server_frame b : 126 <= zlen b ->
  forall op key p bs rest, server_write (WText b) = bs ++ rest -> rfc_frame op key p bs -> p <> b.
Proof.
  intros H op key p bs rest E F ->. apply rfc_frame_length in F.
  assert (zlen (server_write (WText b)) = 2 + zlen b).
  { unfold server_write. cbn [wake_bytes]. rewrite zlen_app, !zlen_cons, zlen_nil. lia. }
  rewrite E, zlen_app in H0. pose proof (zlen_nonneg rest).
  replace (zlen b <? 126) with false in F by (symmetry; apply Z.ltb_ge; lia).
  destruct (zlen b <? 65536); destruct key; lia.
Qed.
Lemma long_client_frame k b : length k = 4%nat -> 126 <= zlen b ->
  forall op key p bs rest, client_write k (WText b) = bs ++ rest ->
  rfc_frame op (Some key) p bs -> p <> b.
Proof.
  intros L H op key p bs rest E F ->. apply rfc_frame_length in F.
  assert (zlen (client_write k (WText b)) = 6 + zlen b).
  { unfold client_write. cbn [wake_bytes]. rewrite !zlen_app, !zlen_cons, zlen_nil.
    unfold zlen. rewrite mask_from_length, L. lia. }
  rewrite E, zlen_app in H0. pose proof (zlen_nonneg rest).
  replace (zlen b <? 126) with false in F by (symmetry; apply Z.ltb_ge; lia).
  destruct (zlen b <? 65536); lia.
Qed.

(** ** Whole conversations *)
Lemma read_header_shrinks s op size key r : read_header s = Some (op, size, key, r) ->
  (length r + 2 <= length s)%nat.
Proof.
  unfold read_header. destruct (read_n 2 s) as [[c s1]|] eqn:E1; [|discriminate].
  apply read_n_inv in E1 as [-> L1]. destruct c as [|c0 [|c1 [|? ?]]]; try discriminate.
  set (e2 := if Z.land c1 127 =? 126 then _ else _).
  destruct e2 as [[sz s2]|] eqn:E2; [|discriminate].
  assert (length s2 <= length s1)%nat.
  { subst e2. destruct (Z.land c1 127 =? 126).
    - destruct (read_n 2 s1) as [[l r']|] eqn:E; [|discriminate]. apply read_n_inv in E as [-> _].
      injection E2 as _ <-. rewrite app_length. lia.
    - destruct (Z.land c1 127 =? 127).
      + destruct (read_n 8 s1) as [[l r']|] eqn:E; [|discriminate]. apply read_n_inv in E as [-> _].
        injection E2 as _ <-. rewrite app_length. lia.
      + injection E2 as _ <-. lia. }
  destruct (Z.land c1 128 =? 0).
  - intro H'. injection H' as _ _ _ <-. rewrite app_length. cbn [length]. lia.
  - destruct (read_n 4 s2) as [[k s3]|] eqn:E3; [|discriminate]. apply read_n_inv in E3 as [-> _].
    intro H'. injection H' as _ _ _ <-. rewrite app_length in *. cbn [length]. lia.
Qed.
Lemma discard_shrinks size s : (length (discard size s) <= length s)%nat.
Proof. unfold discard. destruct (i64 size <? 0); [lia|]. rewrite skipn_length. lia. Qed.

Definition shrinking (rd : bytes -> got * bytes) : Prop :=
  forall s g r, rd s = (g, r) -> g = GEnd \/ (length r + 2 <= length s)%nat.
Lemma server_read_shrinks recv : shrinking (server_read recv).
Proof.
  intros s g r. unfold server_read. destruct (read_header s) as [[[[op size] key] s1]|] eqn:E.
  2:{ intro H. injection H as <- <-. now left. }
  apply read_header_shrinks in E. pose proof (discard_shrinks size s1).
  destruct (op =? sockPing); [intro H'; injection H' as <- <-; right; destruct (0 <? size); lia|].
  destruct (op =? sockText).
  - destruct (max_alloc <? size); [intro H'; injection H' as <- <-; right; lia|].
    destruct (read_n _ s1) as [[buf s2]|] eqn:E2.
    + apply read_n_inv in E2 as [-> _]. rewrite app_length in E.
      destruct recv; intro H'; injection H' as <- <-; right; lia.
    + intro H'. injection H' as <- <-. now left.
  - intro H'; injection H' as <- <-; right; destruct (0 <? size); lia.
Qed.
Lemma client_read_shrinks recv : shrinking (client_read recv).
Proof.
  intros s g r. unfold client_read. destruct (read_header s) as [[[[op size] key] s1]|] eqn:E.
  2:{ intro H. injection H as <- <-. now left. }
  apply read_header_shrinks in E. pose proof (discard_shrinks size s1).
  destruct (op =? sockPing); [intro H'; injection H' as <- <-; right; destruct (0 <? size); lia|].
  destruct ((op =? sockText) && recv).
  - destruct (max_alloc <? size); [intro H'; injection H' as <- <-; right; lia|].
    destruct (read_n _ s1) as [[buf s2]|] eqn:E2.
    + apply read_n_inv in E2 as [-> _]. rewrite app_length in E.
      intro H'; injection H' as <- <-; right; lia.
    + intro H'. injection H' as <- <-. now left.
  - intro H'; injection H' as <- <-; right; destruct (0 <? size); lia.
Qed.

Lemma reads_fuel rd : shrinking rd -> forall f f' s, (length s < f)%nat -> (length s < f')%nat ->
  reads rd f s = reads rd f' s.
Proof.
  intros Sh. induction f as [|f IH]; intros f' s H H'; [lia|]. destruct f' as [|f']; [lia|].
  cbn [reads]. destruct (rd s) as [g r] eqn:E. destruct (Sh _ _ _ E) as [->|L]; [reflexivity|].
  destruct g; try reflexivity; try (apply IH; lia).
  rewrite (IH f' r) by lia. reflexivity.
Qed.
Lemma read_all_step rd s : shrinking rd ->
  read_all rd s = match rd s with
    | (GText b, s') => let '(bs, c) := read_all rd s' in (b :: bs, c)
    | (GPong, s') | (GSkip, s') => read_all rd s'
    | (GEnd, _) => ([], false)
    | (GCrash, _) => ([], true)
    end.
Proof.
  intro Sh. unfold read_all at 1. cbn [reads]. destruct (rd s) as [g r] eqn:E.
  destruct (Sh _ _ _ E) as [->|L]; [reflexivity|].
  destruct g; try reflexivity; unfold read_all.
  - apply reads_fuel; auto; lia.
  - rewrite (reads_fuel rd Sh (length s) (S (length r))) by lia. reflexivity.
  - apply reads_fuel; auto; lia.
Qed.

Fixpoint texts (ws : list wake) : list bytes :=
  match ws with [] => [] | WText b :: r => b :: texts r | _ :: r => texts r end.

Lemma client_skips w rest : match w with WText _ => False | _ => True end ->
  client_read true (server_write w ++ rest) = (GSkip, rest).
Proof. destruct w; [contradiction|reflexivity|reflexivity]. Qed.

Lemma conversation ws : Forall (fun w => zlen (wake_bytes w) < 126) ws ->
  read_all (client_read true) (concat (map server_write ws)) = (texts ws, false).
Proof.
  induction 1 as [|w ws H F IH]; [reflexivity|].
  cbn [map concat]. rewrite read_all_step by apply client_read_shrinks.
  destruct w as [b| |].
  - rewrite (client_reads_unmasked b).
    + rewrite IH. reflexivity.
    + now apply short_server_frame.
    + cbn in H. unfold max_alloc. apply Z.le_trans with 126; [lia|cbv; discriminate].
  - rewrite client_skips by exact I. exact IH.
  - rewrite client_skips by exact I. exact IH.
Qed.

Lemma text_crashes_host key p bs rest : rfc_frame 1 key p bs -> zlen p <= max_alloc ->
  read_all host_read (bs ++ rest) = ([], true).
Proof.
  intros F M. rewrite read_all_step by apply server_read_shrinks. unfold host_read.
  destruct key as [key|].
  - now rewrite (server_reads_masked false _ _ _ _ F M).
  - now rewrite (server_reads_unmasked false _ _ _ F M).
Qed.

(** ** Control frames *)
Lemma discard_app p s : zlen p < 2^63 -> (if 0 <? zlen p then discard (zlen p) (p ++ s) else p ++ s) = s.
Proof.
  intro H. pose proof (zlen_nonneg p). destruct (Z.ltb_spec 0 (zlen p)) as [P|P].
  - unfold discard. rewrite i64_small by lia. replace (zlen p <? 0) with false by (symmetry; apply Z.ltb_ge; lia).
    rewrite zlen_app, Z.min_l by (pose proof (zlen_nonneg s); lia). rewrite zlen_nat.
    rewrite skipn_app, skipn_all, Nat.sub_diag. reflexivity.
  - destruct p; [reflexivity|]. rewrite zlen_cons in P. pose proof (zlen_nonneg p). lia.
Qed.
Lemma header_of op key p bs rest : 0 <= op < 16 -> rfc_frame op key p bs ->
  exists k q, read_header (bs ++ rest) = Some (op, zlen p, k, q ++ rest) /\ zlen q = zlen p /\ zlen p < 2^63.
Proof.
  intros Ho F. inversion F as [p' l ext Hl|key' p' q l ext Hl K L [LX X]]; subst.
  - exists 0, p. rewrite <- !app_assoc. rewrite (read_header_unmasked op l ext (zlen p)) by assumption.
    split; [reflexivity|]. split; [reflexivity|]. apply rfc_len_range in Hl. apply Hl.
  - exists (big_endian key'), q. rewrite <- !app_assoc. rewrite (read_header_masked op l ext (zlen p)) by assumption.
    split; [reflexivity|]. split; [unfold zlen; now rewrite LX|]. apply rfc_len_range in Hl. apply Hl.
Qed.
Lemma ping_read key p bs rest recv : rfc_frame 9 key p bs ->
  client_read recv (bs ++ rest) = (GPong, rest) /\ server_read recv (bs ++ rest) = (GPong, rest).
Proof.
  intro F. destruct (header_of 9 key p bs rest ltac:(lia) F) as (k & q & E & L & B).
  unfold client_read, server_read. rewrite E. rewrite <- L in *.
  change (9 =? sockPing) with true. cbv iota. rewrite discard_app by exact B. split; reflexivity.
Qed.
Lemma other_skipped op key p bs rest recv : 0 <= op < 16 -> op <> 1 -> op <> 9 -> rfc_frame op key p bs ->
  client_read recv (bs ++ rest) = (GSkip, rest) /\ server_read recv (bs ++ rest) = (GSkip, rest).
Proof.
  intros Ho N1 N9 F. destruct (header_of op key p bs rest Ho F) as (k & q & E & L & B).
  unfold client_read, server_read. rewrite E. rewrite <- L in *.
  replace (op =? sockPing) with false by (symmetry; apply Z.eqb_neq; exact N9).
  replace (op =? sockText) with false by (symmetry; apply Z.eqb_neq; exact N1).
  cbn [andb]. rewrite discard_app by exact B. split; reflexivity.
Qed.
Lemma close_ignored key p bs rest recv : rfc_frame 8 key p bs ->
  read_all (client_read recv) (bs ++ rest) = read_all (client_read recv) rest /\
  read_all (server_read recv) (bs ++ rest) = read_all (server_read recv) rest.
Proof.
  intro F. destruct (other_skipped 8 key p bs rest recv ltac:(lia) ltac:(lia) ltac:(lia) F) as [A B].
  rewrite (read_all_step _ (bs ++ rest) (client_read_shrinks recv)), A.
  rewrite (read_all_step _ (bs ++ rest) (server_read_shrinks recv)), B. split; reflexivity.
Qed.
Lemma control_frames :
  rfc_frame 10 None [] (server_write WPong) /\ rfc_frame 8 None [] (server_write WClosed) /\
  forall key, is_bytes key -> length key = 4%nat ->
  rfc_frame 10 (Some key) [] (client_write key WPong) /\ rfc_frame 8 (Some key) [] (client_write key WClosed).
Proof.
  assert (R : rfc_len (zlen (@nil Z)) 0 []) by (apply (L7 0); lia).
  split; [exact (Unmasked 10 [] 0 [] R)|]. split; [exact (Unmasked 8 [] 0 [] R)|].
  intros key K L. split; [exact (Masked 10 key [] [] 0 [] R K L (mask_from_xored key []))|].
  exact (Masked 8 key [] [] 0 [] R K L (mask_from_xored key [])).
Qed.
Lemma pong_empty p : p <> [] -> ~ rfc_frame 10 None p (server_write WPong).
Proof.
  intros N F. apply rfc_frame_length in F. change (zlen (server_write WPong)) with 2 in F.
  destruct p as [|x p]; [now apply N|]. rewrite zlen_cons in F. pose proof (zlen_nonneg p).
  destruct (1 + zlen p <? 126); [lia|]. destruct (1 + zlen p <? 65536); lia.
Qed.

(** ** Event streams *)
Lemma one_line_scan d : ~ In 10 d -> forall s cur,
  scan_lines (d ++ s) cur = scan_lines s (rev d ++ cur).
Proof.
  induction d as [|x d IH]; intros N s cur; [reflexivity|]. cbn [app scan_lines rev].
  assert (x <> 10) by (intro; apply N; now left).
  rewrite <- app_assoc. cbn [app]. rewrite <- IH by (intro; apply N; now right).
  destruct x as [|p|p]; try reflexivity. 
  repeat (destruct p as [p|p|]; try reflexivity). exfalso; now apply H.
Qed.
Lemma drop_cr_id d : ~ In 13 d -> drop_cr d = d.
Proof.
  intro N. unfold drop_cr. destruct (rev d) as [|x r] eqn:E; [reflexivity|].
  assert (x <> 13). { intros ->. apply N. apply in_rev. rewrite E. now left. }
  destruct x as [|p|p]; try reflexivity.
  repeat (destruct p as [p|p|]; try reflexivity). exfalso; now apply H.
Qed.
Lemma one_line_parse d : ~ In 10 d -> forall s cur buf,
  sse_parse (d ++ s) cur buf = sse_parse s (rev d ++ cur) buf.
Proof.
  induction d as [|x d IH]; intros N s cur buf; [reflexivity|]. cbn [app sse_parse rev].
  assert (x <> 10) by (intro; apply N; now left).
  rewrite <- app_assoc. cbn [app]. rewrite <- IH by (intro; apply N; now right).
  now replace (x =? 10) with false by (symmetry; apply Z.eqb_neq; auto).
Qed.
Lemma prefix_one_line d : one_line d -> ~ In 10 (data_prefix ++ d) /\ ~ In 13 (data_prefix ++ d).
Proof.
  intros [A B]. split; intro H; apply in_app_or in H as [H|H]; auto;
    cbn in H; repeat (destruct H as [H|H]; [discriminate|]); exact H.
Qed.
Lemma parse_event d s : one_line d -> sse_parse (sse_event d ++ s) [] [] = d :: sse_parse s [] [].
Proof.
  intro O. destruct (prefix_one_line d O) as [A _]. unfold sse_event.
  replace ((data_prefix ++ d ++ [10; 10]) ++ s) with ((data_prefix ++ d) ++ 10 :: 10 :: s)
    by (rewrite <- !app_assoc; reflexivity).
  rewrite one_line_parse by exact A. rewrite app_nil_r. cbn [sse_parse Z.eqb Pos.eqb].
  destruct (rev (data_prefix ++ d)) as [|y r] eqn:E.
  - apply (f_equal (@rev Z)) in E. rewrite rev_involutive in E. discriminate.
  - rewrite <- E, rev_involutive. reflexivity.
Qed.
Lemma scan_event d s : one_line d ->
  scan_lines (sse_event d ++ s) [] = (data_prefix ++ d) :: [] :: scan_lines s [].
Proof.
  intro O. destruct (prefix_one_line d O) as [A B]. unfold sse_event.
  replace ((data_prefix ++ d ++ [10; 10]) ++ s) with ((data_prefix ++ d) ++ 10 :: 10 :: s)
    by (rewrite <- !app_assoc; reflexivity).
  rewrite one_line_scan by exact A. rewrite app_nil_r. cbn [scan_lines].
  rewrite rev_involutive, drop_cr_id by exact B. reflexivity.
Qed.

Section Streams.
Context {A : Type}.
Variable marshal : A -> option bytes.

Lemma sse_iterate_all items ds : Forall2 (fun x d => marshal x = Some d) items ds ->
  forall i out, sse_iterate marshal None i items out = (out ++ concat (map sse_event ds), false).
Proof.
  induction 1 as [|x d items ds H F IH]; intros i out; cbn [sse_iterate done_at map concat].
  - now rewrite app_nil_r.
  - rewrite H, IH. now rewrite app_assoc.
Qed.
Lemma sse_parse_all ds : Forall one_line ds ->
  sse_parse (concat (map sse_event ds)) [] [] = ds.
Proof.
  induction 1 as [|d ds O F IH]; [reflexivity|]. cbn [map concat]. rewrite parse_event by exact O.
  now rewrite IH.
Qed.
Lemma sse_response_all items ds : Forall2 (fun x d => marshal x = Some d) items ds ->
  Forall one_line ds ->
  snd (sse_response marshal None items) = false /\
  sse_parse (fst (sse_response marshal None items)) [] [] = ds.
Proof.
  intros F O. unfold sse_response. rewrite (sse_iterate_all _ _ F). cbn [fst snd app].
  split; [reflexivity|]. now apply sse_parse_all.
Qed.
(** Cancelled before the k-th item, or failing at it: exactly the items before. *)
Lemma sse_iterate_stop items ds c rest : Forall2 (fun x d => marshal x = Some d) items ds ->
  (rest = [] \/ exists x r, rest = x :: r /\ (c = Some (length items) \/ marshal x = None)) ->
  (match c with None => True | Some k => (length items <= k)%nat end) ->
  fst (sse_response marshal c (items ++ rest)) = concat (map sse_event ds).
Proof.
  intros F R C. unfold sse_response.
  assert (G : forall i out, (match c with None => True | Some k => i + length items <= k end)%nat ->
    (rest = [] \/ exists x r, rest = x :: r /\ (c = Some (i + length items)%nat \/ marshal x = None)) ->
    fst (sse_iterate marshal c i (items ++ rest) out) = out ++ concat (map sse_event ds)).
  { clear R C. induction F as [|x d items ds H F IH]; intros i out C R; cbn [app map concat length] in *.
    - rewrite app_nil_r. destruct R as [->|(x & r & -> & [->|E])]; [reflexivity| |].
      + cbn [sse_iterate done_at]. rewrite Nat.add_0_r, Nat.leb_refl. reflexivity.
      + cbn [sse_iterate]. destruct (done_at c i); [reflexivity|]. now rewrite E.
    - cbn [sse_iterate]. replace (done_at c i) with false.
      + rewrite H. rewrite IH; [now rewrite <- app_assoc| |].
        * destruct c; [lia|exact I].
        * destruct R as [->|(y & r & -> & [->|E])]; [now left| |]; right; exists y, r; split; auto.
          left. f_equal. lia.
      + destruct c as [k|]; [|reflexivity]. cbn. symmetry. apply Nat.leb_gt. lia. }
  rewrite G; [reflexivity|destruct c; [lia|exact I]|exact R].
Qed.

Variable unmarshal : bytes -> option A.
Lemma client_lines ds :
  Forall one_line ds -> Forall (fun d => d <> [] /\ zlen d + 6 < max_token) ds ->
  sse_lines unmarshal SendDir (until_too_long (scan_lines (concat (map sse_event ds)) [])) =
  Ok (flat_map (fun d => match unmarshal d with Some v => [v] | None => [] end) ds).
Proof.
  clear marshal. induction ds as [|d ds IH]; intros O N; [reflexivity|].
  inversion O; inversion N as [|? ? [N1 N2] N3]; subst. cbn [map concat flat_map].
  rewrite scan_event by assumption. cbn [until_too_long].
  replace (zlen (data_prefix ++ d) <? max_token) with true
    by (symmetry; apply Z.ltb_lt; rewrite zlen_app; change (zlen data_prefix) with 6; lia).
  change (zlen (@nil Z) <? max_token) with true.
  cbn [sse_lines]. change (has_prefix data_prefix (data_prefix ++ d)) with true.
  change (skipn 6 (data_prefix ++ d)) with d. change (has_prefix data_prefix []) with false.
  destruct d as [|z d]; [now destruct N1|].
  rewrite IH by assumption. destruct (unmarshal (z :: d)); reflexivity.
Qed.
Lemma client_panics d x : unmarshal d = Some x -> d <> [] -> one_line d -> zlen d + 6 < max_token ->
  forall s, sse_client unmarshal (Some RecvDir) (sse_event d ++ s) = Panic.
Proof.
  clear marshal. intros H N O L s. cbn [sse_client]. rewrite scan_event by assumption. cbn [until_too_long].
  replace (zlen (data_prefix ++ d) <? max_token) with true
    by (symmetry; apply Z.ltb_lt; rewrite zlen_app; change (zlen data_prefix) with 6; lia).
  cbn [sse_lines]. change (has_prefix data_prefix (data_prefix ++ d)) with true.
  change (skipn 6 (data_prefix ++ d)) with d. 
  destruct d as [|z d]; [now destruct N|]. rewrite H. reflexivity.
Qed.

Lemma json_iterate_all (items acc : list A) : forall i, json_iterate None i items acc = acc ++ items.
Proof.
  clear. revert acc. induction items as [|x r IH]; intros acc i; cbn [json_iterate done_at].
  - now rewrite app_nil_r.
  - rewrite IH, <- app_assoc. reflexivity.
Qed.
Lemma json_response_all (items : list A) :
  json_response None items = match items with [] => None | _ => Some items end.
Proof. clear. unfold json_response. rewrite json_iterate_all. now destruct items. Qed.
Lemma channel_post_last (items : list A) : forall i d,
  channel_post None i items d = match rev items with [] => d | x :: _ => Some x end.
Proof.
  clear. induction items as [|x r IH]; intros i d; cbn [channel_post done_at rev]; [reflexivity|].
  rewrite IH. destruct (rev r); reflexivity.
Qed.
Lemma json_iterate_prefix (items : list A) k : forall acc i, (i <= k)%nat ->
  json_iterate (Some k) i items acc = acc ++ firstn (k - i) items.
Proof.
  clear. induction items as [|x r IH]; intros acc i L; cbn [json_iterate done_at].
  - rewrite firstn_nil. now rewrite app_nil_r.
  - destruct (Nat.leb_spec k i) as [H|H].
    + replace (k - i)%nat with O by lia. now rewrite app_nil_r.
    + rewrite IH by lia. replace (k - i)%nat with (S (k - S i)) by lia. cbn [firstn].
      now rewrite <- app_assoc.
Qed.
Lemma json_response_prefix (items : list A) k :
  json_response (Some k) items = match firstn k items with [] => None | l => Some l end.
Proof. clear. unfold json_response. rewrite json_iterate_prefix by lia. now rewrite Nat.sub_0_r. Qed.
Lemma channel_post_prefix (items : list A) k : forall i d, (i <= k)%nat ->
  channel_post (Some k) i items d = match rev (firstn (k - i) items) with [] => d | x :: _ => Some x end.
Proof.
  clear. induction items as [|x r IH]; intros i d L; cbn [channel_post done_at].
  - rewrite firstn_nil. now destruct (Nat.leb k i).
  - destruct (Nat.leb_spec k i) as [H|H].
    + now replace (k - i)%nat with O by lia.
    + rewrite IH by lia. replace (k - i)%nat with (S (k - S i)) by lia. cbn [firstn rev].
      destruct (rev (firstn (k - S i) r)); reflexivity.
Qed.
Lemma channel_prefix (items : list A) k :
  channel_get (Some k) items = match firstn k items with [] => None | x :: _ => Some x end /\
  channel_post (Some k) 0 items None = match rev (firstn k items) with [] => None | x :: _ => Some x end.
Proof.
  clear. split.
  - unfold channel_get, done_at. destruct k; [reflexivity|]. cbn [Nat.leb firstn]. now destruct items.
  - rewrite channel_post_prefix by lia. now rewrite Nat.sub_0_r.
Qed.
End Streams.

Lemma link_never_channels outs : Exists (fun o => o <> None) outs ->
  forall h, link_channels outs h = CallError \/ link_channels outs h = CallPanic.
Proof.
  induction 1 as [[d|] outs H|[d|] outs H IH]; intro h; cbn [link_channels]; auto;
    try (now destruct H); destruct d; auto.
Qed.
