(** Properties C94 and C95: bit patterns as immediates, and errors of Compile. *)
From Verif Require Import GoBase BaseLemmas ArmModel ArmSpec ArmProofs ArmBits ArmProps.

(** What encode finds. *)
Lemma encode_inv v n r s : 0 <= v < 2 ^ 64 -> encode v = Some (n, r, s) -> v <> 0 /\ v <> 2 ^ 64 - 1 /\
  ((n = 1 /\ 0 <= r < 64 /\ 0 <= s < 64 /\ rrun 64 s r v) \/
   exists e, small e /\ n = 0 /\ 0 <= r < e /\ 0 <= s < e /\ rep e v /\ run e s r v).
Proof.
  intros V. unfold encode. destruct (v =? 0) eqn:Z0; [discriminate|]. destruct (v =? 2 ^ 64 - 1) eqn:Z1; [discriminate|].
  apply Z.eqb_neq in Z0. apply Z.eqb_neq in Z1. cbn [orb]. intros Q. split; [exact Z0|]. split; [exact Z1|].
  apply first_some in Q. destruct Q as (e & I & Q). cbn [In] in I.
  assert (C : e = 64 \/ small e) by (unfold small; lia). destruct C as [->|Sm].
  - left. rewrite Z.eqb_refl in Q. apply wide_sound in Q. exact Q.
  - right. replace (e =? 64) with false in Q by (symmetry; apply Z.eqb_neq; unfold small in Sm; lia). exists e. split; [exact Sm|].
    exact (small_sound v e n r s Sm V Q).
Qed.
Lemma all_ones v : 0 <= v < 2 ^ 64 -> (forall i, 0 <= i < 64 -> Z.testbit v i = true) -> v = 2 ^ 64 - 1.
Proof. intros V H. change (2 ^ 64 - 1) with (Z.ones 64). apply (bits_eq 64); [exact V|split; reflexivity||discriminate|lia|]. intros i I. rewrite H, ones_bit by lia. symmetry. apply Z.ltb_lt. lia. Qed.
Lemma not_full (e s r v : Z) (f : Z -> Z) : 0 < e -> 0 <= v < 2 ^ 64 -> v <> 2 ^ 64 - 1 -> 0 <= s < e ->
  (forall i, 0 <= i < 64 -> Z.testbit v i = (f i mod e <=? s)) -> s <> e - 1.
Proof.
  intros E V N S' H ->. apply N. apply all_ones; [exact V|]. intros i I. rewrite H by exact I. apply Z.leb_le. pose proof (Z.mod_pos_bound (f i) e ltac:(lia)). lia.
Qed.
(** The prefix that tells the element size. *)
Definition prefix (e : Z) : Z := if e =? 32 then 0 else if e =? 16 then 32 else if e =? 8 then 48 else if e =? 4 then 56 else 60.
Lemma run_encodable e s r v : small e -> 0 <= v < 2 ^ 64 -> v <> 2 ^ 64 - 1 -> 0 <= r < e -> 0 <= s < e -> run e s r v -> encodable v.
Proof.
  intros Sm V N R S' H. assert (F : s <> e - 1) by (apply (not_full e s r v (fun i => i - r)); try assumption; unfold small in Sm; lia).
  exists 0, ((e - r) mod e), (prefix e + s). assert (E : 0 < e <= 32) by (unfold small in Sm; lia).
  pose proof (Z.mod_pos_bound (e - r) e ltac:(lia)) as M.
  split; [lia|]. split; [lia|].
  assert (X : 0 <= prefix e + s < 64 /\ element 0 (prefix e + s) = Some e /\ (prefix e + s) mod e = s).
  { unfold small in Sm. destruct Sm as [->|[->|[->|[->| ->]]]]; cbn [prefix Z.eqb Pos.eqb]; (split; [lia|]); unfold element; cbn [Z.eqb];
      (split; [repeat match goal with |- context [?a <? ?b] => let H := fresh "Q" in destruct (a <? b) eqn:H; [apply Z.ltb_lt in H|apply Z.ltb_ge in H] end; (exfalso; lia) || reflexivity|]).
    - replace (60 + s) with (s + 30 * 2) by lia. rewrite Z.mod_add, Z.mod_small by lia. reflexivity.
    - replace (56 + s) with (s + 14 * 4) by lia. rewrite Z.mod_add, Z.mod_small by lia. reflexivity.
    - replace (48 + s) with (s + 6 * 8) by lia. rewrite Z.mod_add, Z.mod_small by lia. reflexivity.
    - replace (32 + s) with (s + 2 * 16) by lia. rewrite Z.mod_add, Z.mod_small by lia. reflexivity.
    - apply Z.mod_small. lia. }
  destruct X as (X1 & X2 & X3). split; [exact X1|]. exists e. split; [exact X2|]. cbv zeta. rewrite X3. split; [exact F|]. split; [exact V|].
  intros i I. rewrite H by exact I. unfold mask_bit. rewrite Z.mod_mod by lia. rewrite Zplus_mod_idemp_r.
  replace (i + (e - r)) with (i - r + 1 * e) by lia. rewrite Z.mod_add by lia. reflexivity.
Qed.
Lemma rrun_immediate v r s : 0 <= v < 2 ^ 64 -> v <> 2 ^ 64 - 1 -> 0 <= r < 64 -> 0 <= s < 64 -> rrun 64 s r v -> immediate_is 1 r s v.
Proof.
  intros V N R S' H. exists 64. split; [reflexivity|]. cbv zeta. rewrite (Z.mod_small r), (Z.mod_small s) by lia.
  split; [apply (not_full 64 s r v (fun i => i + r)); assumption || lia|]. split; [exact V|]. intros i I. apply H. exact I.
Qed.

Lemma mask_not_ones v e s r : 2 <= e <= 64 -> 0 <= s < e -> 0 <= r < e -> s <> e - 1 ->
  (forall i, 0 <= i < 64 -> Z.testbit v i = mask_bit e s r i) -> v <> Z.ones 64.
Proof.
  intros E0 BS BR F H ->. pose proof (Z.mod_pos_bound (e - 1 - r) e ltac:(lia)) as BI. specialize (H ((e - 1 - r) mod e) ltac:(lia)).
  rewrite ones_bit in H by lia. unfold mask_bit in H. rewrite Zplus_mod_idemp_l in H.
  replace (e - 1 - r + r) with (e - 1) in H by lia. rewrite (Z.mod_small (e - 1)) in H by lia.
  replace (e - 1 <=? s) with false in H by (symmetry; apply Z.leb_gt; lia). apply Z.ltb_ge in H. lia.
Qed.
Lemma mask_not_zero v e s r : 2 <= e <= 64 -> 0 <= s < e -> 0 <= r < e ->
  (forall i, 0 <= i < 64 -> Z.testbit v i = mask_bit e s r i) -> v <> 0.
Proof.
  intros E0 BS BR H ->. pose proof (Z.mod_pos_bound (- r) e ltac:(lia)) as BI. specialize (H ((- r) mod e) ltac:(lia)).
  rewrite Z.bits_0 in H. unfold mask_bit in H. rewrite Zplus_mod_idemp_l in H.
  replace (- r + r) with 0 in H by lia. rewrite Z.mod_0_l in H by lia. symmetry in H. apply Z.leb_gt in H. lia.
Qed.
Lemma first_has {A B} (f : A -> option B) l x : In x l -> f x <> None -> first f l <> None.
Proof. intros I N Q. apply N. exact (first_none f l x Q I). Qed.
Lemma mask_found v e s r : e = 64 \/ small e -> 0 <= v < 2 ^ 64 -> 0 <= s < e -> 0 <= r < e -> s <> e - 1 ->
  (forall i, 0 <= i < 64 -> Z.testbit v i = mask_bit e s r i) -> encode v <> None.
Proof.
  intros EE V BS BR F H. assert (E0 : 2 <= e <= 64) by (unfold small in EE; lia).
  pose proof (mask_not_ones v e s r E0 BS BR F H) as Z1. pose proof (mask_not_zero v e s r E0 BS BR H) as Z0.
  assert (Z1' : (v =? 2 ^ 64 - 1) = false) by (apply Z.eqb_neq; exact Z1). apply Z.eqb_neq in Z0.
  unfold encode. rewrite Z0, Z1'. cbn [orb]. apply (first_has _ _ e); [unfold small in EE; cbn [In]; lia|].
  destruct EE as [->|Sm].
  - rewrite Z.eqb_refl. apply (wide_complete v s r V BS BR). exact H.
  - replace (e =? 64) with false by (symmetry; apply Z.eqb_neq; unfold small in Sm; lia).
    apply (small_complete v e s ((e - r) mod e)); [exact Sm|exact V|apply Z.mod_pos_bound; lia|lia|].
    intros i Hi. rewrite H by exact Hi. unfold mask_bit. rewrite Zminus_mod_idemp_r. replace (i - (e - r)) with (i + r + (-1) * e) by lia. rewrite Z.mod_add by lia. reflexivity.
Qed.

(** ** C94 *)
(** A pattern is accepted exactly when it is a logical immediate of the architecture. *)
Theorem C94_accepts v : 0 <= v < 2 ^ 64 -> encode v <> None <-> encodable v.
Proof.
  intros V. split.
  - intros N. destruct (encode v) as [[[n r] s]|] eqn:Q; [|congruence]. apply encode_inv in Q; [|exact V].
    destruct Q as (Z0 & Z1 & [(-> & R & S' & H)|(e & Sm & -> & R & S' & _ & H)]).
    + exists 1, r, s. split; [lia|]. split; [lia|]. split; [lia|]. apply rrun_immediate; assumption.
    + exact (run_encodable e s r v Sm V Z1 R S' H).
  - intros (N & immr & imms & NN & NR & NS & e & E & F & _ & H) Q. cbv zeta in *.
    assert (EE : e = 64 \/ small e).
    { unfold element in E. unfold small. destruct (N =? 1); [injection E as <-; auto|].
      repeat (match type of E with (if ?c then _ else _) = _ => destruct c end; [injection E as <-; auto 6|]). discriminate. }
    assert (E0 : 2 <= e <= 64) by (unfold small in EE; lia).
    exact (mask_found v e (imms mod e) (immr mod e) EE V (Z.mod_pos_bound imms e ltac:(lia)) (Z.mod_pos_bound immr e ltac:(lia)) F H Q).
Qed.
(** Patterns that do not repeat after 32 bits are encoded right. *)
Theorem C94_wide_partial v n r s : 0 <= v < 2 ^ 64 -> ~ repeats 32 v -> encode v = Some (n, r, s) -> immediate_is n r s v.
Proof.
  intros V NR Q. apply encode_inv in Q; [|exact V]. destruct Q as (Z0 & Z1 & [(-> & R & S' & H)|(e & Sm & -> & R & S' & X & H)]).
  - apply rrun_immediate; assumption.
  - exfalso. apply NR. apply rep_repeats; [lia|]. intros i I.
    pose proof (Z.mod_pos_bound i 32 ltac:(lia)). rewrite X by exact I. rewrite (X (i mod 32)) by lia. f_equal.
    rewrite (Z.mod_eq i 32) by lia. unfold small in Sm. destruct Sm as [->|[->|[->|[->| ->]]]].
    + replace (i - 32 * (i / 32)) with (i + - (16 * (i / 32)) * 2) by lia. rewrite Z.mod_add by lia. reflexivity.
    + replace (i - 32 * (i / 32)) with (i + - (8 * (i / 32)) * 4) by lia. rewrite Z.mod_add by lia. reflexivity.
    + replace (i - 32 * (i / 32)) with (i + - (4 * (i / 32)) * 8) by lia. rewrite Z.mod_add by lia. reflexivity.
    + replace (i - 32 * (i / 32)) with (i + - (2 * (i / 32)) * 16) by lia. rewrite Z.mod_add by lia. reflexivity.
    + replace (i - 32 * (i / 32)) with (i + - (i / 32) * 32) by lia. rewrite Z.mod_add by lia. reflexivity.
Qed.
Lemma small_rep16 e v : small e -> e <> 32 -> rep e v -> rep 16 v.
Proof.
  intros Sm N X i I. pose proof (Z.mod_pos_bound i 16 ltac:(lia)). rewrite X by exact I. rewrite (X (i mod 16)) by lia. f_equal.
  rewrite (Z.mod_eq i 16) by lia. unfold small in Sm. destruct Sm as [->|[->|[->|[->| ->]]]]; [| | | |congruence].
  + replace (i - 16 * (i / 16)) with (i + - (8 * (i / 16)) * 2) by lia. rewrite Z.mod_add by lia. reflexivity.
  + replace (i - 16 * (i / 16)) with (i + - (4 * (i / 16)) * 4) by lia. rewrite Z.mod_add by lia. reflexivity.
  + replace (i - 16 * (i / 16)) with (i + - (2 * (i / 16)) * 8) by lia. rewrite Z.mod_add by lia. reflexivity.
  + replace (i - 16 * (i / 16)) with (i + - (i / 16) * 16) by lia. rewrite Z.mod_add by lia. reflexivity.
Qed.
Lemma rep32_not_wide v s r : rep 32 v -> 0 <= r < 64 -> 0 <= s < 64 -> s <> 63 -> ~ rrun 64 s r v.
Proof.
  intros X R S' N H. apply rep_repeats in X; [|lia].
  pose (i := (- r) mod 64). pose proof (Z.mod_pos_bound (- r) 64 ltac:(lia)) as BI. fold i in BI.
  assert (Q : (i + r) mod 64 = 0). { unfold i. rewrite Zplus_mod_idemp_l. replace (- r + r) with 0 by lia. reflexivity. }
  (* the run starts at i; the bit 32 further must be in the run, and the last bit before i must not be *)
  pose (j := (- r - 1) mod 64). pose proof (Z.mod_pos_bound (- r - 1) 64 ltac:(lia)) as BJ. fold j in BJ.
  assert (QJ : (j + r) mod 64 = 63). { unfold j. rewrite Zplus_mod_idemp_l. replace (- r - 1 + r) with (-1) by lia. reflexivity. }
  assert (SW : forall k, 0 <= k < 64 -> Z.testbit v k = Z.testbit v ((k + 32) mod 64)).
  { intros k K. destruct (Z_lt_ge_dec k 32) as [L|G].
    - rewrite (Z.mod_small (k + 32)) by lia. symmetry. apply X; lia.
    - rewrite <- (Z.mod_unique (k + 32) 64 1 (k - 32)) by lia. replace k with (k - 32 + 32) at 1 by lia. apply X; lia. }
  pose proof (SW i BI) as T1. pose proof (SW j BJ) as T2.
  rewrite (H i BI), (H _ (Z.mod_pos_bound _ 64 ltac:(lia))) in T1. rewrite (H j BJ), (H _ (Z.mod_pos_bound _ 64 ltac:(lia))) in T2.
  rewrite Q, Zplus_mod_idemp_l in T1. rewrite QJ, Zplus_mod_idemp_l in T2.
  replace ((i + 32 + r) mod 64) with 32 in T1. 2:{ replace (i + 32 + r) with (i + r + 32) by lia. rewrite Z.add_mod, Q by lia. reflexivity. }
  replace ((j + 32 + r) mod 64) with 31 in T2. 2:{ replace (j + 32 + r) with (j + r + 32) by lia. rewrite Z.add_mod, QJ by lia. reflexivity. }
  replace (0 <=? s) with true in T1 by (symmetry; apply Z.leb_le; lia). symmetry in T1. apply Z.leb_le in T1.
  replace (63 <=? s) with false in T2 by (symmetry; apply Z.leb_gt; lia). symmetry in T2. apply Z.leb_gt in T2. lia.
Qed.
(** Of those that repeat after 32 bits but not after 16, only those whose run of ones starts at bit
    0 or 16 are encoded right: the rotation goes the wrong way. *)
Theorem C94_half_partial v n r s : 0 <= v < 2 ^ 64 -> repeats 32 v -> ~ repeats 16 v -> encode v = Some (n, r, s) ->
  (immediate_is n r s v <-> r = 0 \/ r = 16) /\ forall i, 0 <= i < 64 -> Z.testbit v i = ((i - r) mod 32 <=? s).
Proof.
  intros V R32 NR16 Q. apply rep_repeats in R32; [|lia]. apply encode_inv in Q; [|exact V].
  destruct Q as (Z0 & Z1 & [(-> & R & S' & H)|(e & Sm & -> & R & S' & X & H)]).
  { exfalso. refine (rep32_not_wide v s r R32 R S' _ H). apply (not_full 64 s r v (fun i => i + r)); assumption || lia. }
  assert (e = 32). { destruct (Z.eq_dec e 32) as [Y|Y]; [assumption|]. exfalso. apply NR16. apply rep_repeats; [lia|]. exact (small_rep16 e v Sm Y X). }
  subst e. split; [|exact H]. assert (F : s <> 31) by (apply (not_full 32 s r v (fun i => i - r)); assumption || lia).
  assert (EL : element 0 s = Some 32). { unfold element. cbn [Z.eqb]. replace (s <? 32) with true by (symmetry; apply Z.ltb_lt; lia). reflexivity. }
  split.
  - intros (e & E & _ & _ & B). rewrite EL in E. injection E as <-. cbv zeta in B. rewrite (Z.mod_small s), (Z.mod_small r) in B by lia. unfold mask_bit in B.
    assert (T : forall i, 0 <= i < 64 -> ((i - r) mod 32 <=? s) = ((i + r) mod 32 <=? s)). { intros i I. rewrite <- H, <- B by exact I. reflexivity. }
    pose proof (T r ltac:(lia)) as T1. rewrite Z.sub_diag in T1. change (0 mod 32) with 0 in T1. replace (0 <=? s) with true in T1 by (symmetry; apply Z.leb_le; lia). symmetry in T1. apply Z.leb_le in T1.
    pose proof (T (r + 31) ltac:(lia)) as T2. replace (r + 31 - r) with 31 in T2 by lia. change (31 mod 32) with 31 in T2. replace (31 <=? s) with false in T2 by (symmetry; apply Z.leb_gt; lia).
    symmetry in T2. apply Z.leb_gt in T2. pose proof (Z.div_mod (r + r) 32 ltac:(lia)) as D. pose proof (Z.mod_pos_bound (r + r) 32 ltac:(lia)) as M.
    destruct (Z.eq_dec ((r + r) mod 32) 0) as [E0|N0]; [lia|].
    replace ((r + 31 + r) mod 32) with ((r + r) mod 32 - 1) in T2; [lia|]. apply (Z.mod_unique _ _ ((r + r) / 32 + 1)); lia.
  - intros C. exists 32. split; [exact EL|]. cbv zeta. rewrite (Z.mod_small s), (Z.mod_small r) by lia. split; [exact F|]. split; [exact V|].
    intros i I. rewrite H by exact I. unfold mask_bit. f_equal. destruct C as [->| ->]; [f_equal; lia|].
    replace (i + 16) with (i - 16 + 1 * 32) by lia. rewrite Z.mod_add by lia. reflexivity.
Qed.
(** Those that repeat after 16 bits (or fewer) are never encoded right: the element size is missing. *)
Theorem C94_narrow_refuted v n r s : 0 <= v < 2 ^ 64 -> repeats 16 v -> encode v = Some (n, r, s) -> ~ immediate_is n r s v.
Proof.
  intros V R16 Q. apply rep_repeats in R16; [|lia]. apply encode_inv in Q; [|exact V].
  assert (R32 : rep 32 v).
  { intros i I. pose proof (Z.mod_pos_bound i 32 ltac:(lia)). rewrite R16 by exact I. rewrite (R16 (i mod 32)) by lia. f_equal.
    rewrite (Z.mod_eq i 32) by lia. replace (i - 32 * (i / 32)) with (i + - (2 * (i / 32)) * 16) by lia. rewrite Z.mod_add by lia. reflexivity. }
  destruct Q as (Z0 & Z1 & [(-> & R & S' & H)|(e & Sm & -> & R & S' & X & H)]).
  { exfalso. refine (rep32_not_wide v s r R32 R S' _ H). apply (not_full 64 s r v (fun i => i + r)); assumption || lia. }
  assert (L : 0 <= s < 32) by (unfold small in Sm; lia).
  assert (F : s <> e - 1) by (apply (not_full e s r v (fun i => i - r)); assumption || (unfold small in Sm; lia)).
  intros (e' & E & _ & _ & B). assert (EL : element 0 s = Some 32). { unfold element. cbn [Z.eqb]. replace (s <? 32) with true by (symmetry; apply Z.ltb_lt; lia). reflexivity. }
  rewrite EL in E. injection E as <-. cbv zeta in B. rewrite (Z.mod_small s), (Z.mod_small r) in B by (unfold small in Sm; lia). unfold mask_bit in B.
  assert (T : forall i, 0 <= i -> i + 16 < 64 -> ((i + 16 + r) mod 32 <=? s) = ((i + r) mod 32 <=? s)).
  { intros i I J. rewrite <- !B by lia. apply rep_repeats in R16; [|lia]. apply R16; lia. }
  assert (I32 : 0 <= (- r) mod 32 < 32) by (apply Z.mod_pos_bound; lia). pose proof (T ((- r) mod 32) ltac:(lia) ltac:(lia)) as T1.
  replace (((- r) mod 32 + r) mod 32) with 0 in T1. 2:{ rewrite Zplus_mod_idemp_l. replace (- r + r) with 0 by lia. reflexivity. }
  replace (((- r) mod 32 + 16 + r) mod 32) with 16 in T1. 2:{ replace ((- r) mod 32 + 16 + r) with ((- r) mod 32 + (16 + r)) by lia. rewrite Zplus_mod_idemp_l. replace (- r + (16 + r)) with 16 by lia. reflexivity. }
  replace (0 <=? s) with true in T1 by (symmetry; apply Z.leb_le; lia). apply Z.leb_le in T1.
  assert (J31 : 0 <= (- r - 1) mod 32 < 32) by (apply Z.mod_pos_bound; lia). pose proof (T ((- r - 1) mod 32) ltac:(lia) ltac:(lia)) as T2.
  replace (((- r - 1) mod 32 + r) mod 32) with 31 in T2. 2:{ rewrite Zplus_mod_idemp_l. replace (- r - 1 + r) with (-1) by lia. reflexivity. }
  replace (((- r - 1) mod 32 + 16 + r) mod 32) with 15 in T2. 2:{ replace ((- r - 1) mod 32 + 16 + r) with ((- r - 1) mod 32 + (16 + r)) by lia. rewrite Zplus_mod_idemp_l. replace (- r - 1 + (16 + r)) with 15 by lia. reflexivity. }
  replace (15 <=? s) with true in T2 by (symmetry; apply Z.leb_le; lia). symmetry in T2. apply Z.leb_le in T2. unfold small in Sm. lia.
Qed.
Example C94_case_wide : encode 0xFF00000000000000 = Some (1, 8, 7) /\ ~ repeats 32 0xFF00000000000000.
Proof. split; [vm_compute; reflexivity|]. intros H. specialize (H 24 ltac:(lia) ltac:(lia)). vm_compute in H. discriminate. Qed.
Example C94_case_half : encode 0x0000FF000000FF00 = Some (0, 8, 7) /\ encode 0x5555555555555555 = Some (0, 0, 0) /\ encode 0xFF00FF000000FF00 = None.
Proof. vm_compute. auto. Qed.

(** The instructions. *)
Lemma immediate_word opc v n r m d s : (opc = 0 \/ opc = 3) -> reg d -> reg s -> 0 <= v < 2 ^ 64 -> encode v = Some (n, r, m) ->
  let w := (if opc =? 0 then 0x92000000 else 0xF2000000) |. rd d |. rn s |. (n << 22) |. (r << 16) |. (m << 10) in
  0 <= w < 2 ^ 32 /\ decode w = Some (LogicalImmediate 1 opc d s n r m).
Proof.
  intros O D S' V Q. apply encode_inv in Q; [|exact V].
  assert (B : 0 <= n < 2 /\ 0 <= r < 64 /\ 0 <= m < 64).
  { destruct Q as (_ & _ & [(-> & R & M & _)|(e & Sm & -> & R & M & _)]); [lia|unfold small in Sm; lia]. }
  destruct B as (BN & BR & BM). clear Q V. change 2 with (2 ^ 1) in BN. change 64 with (2 ^ 6) in BR, BM. cbv zeta. parts.
  destruct O as [->| ->]; cbn [Z.eqb]; (split; [word_bound|]).
  - dec.
  - dec.
Qed.
(** AND and ANDS with a pattern that does not repeat after 32 bits; any other value that is not a
    logical immediate gives an error and no instruction. *)
Theorem C94_and_partial d s v c : c = AND_imm d s v \/ c = ANDS_imm d s v -> fits c -> ~ repeats 32 v -> encodable v ->
  exists i, says c (Some i) /\ asks c i.
Proof.
  intros C F N E. assert (B : reg d /\ reg s /\ 0 <= v < 2 ^ 64) by (destruct C as [->| ->]; exact F). destruct B as (D & S' & V).
  apply C94_accepts in E; [|exact V]. destruct (encode v) as [[[n r] m]|] eqn:Q; [|congruence].
  pose proof (C94_wide_partial v n r m V N Q) as I. destruct C as [->| ->].
  - exists (LogicalImmediate 1 0 d s n r m). split; [|exists n, r, m; split; [exact I|reflexivity]].
    destruct (immediate_word 0 v n r m d s (or_introl eq_refl) D S' V Q) as (W & X). unfold says. cbn [word]. rewrite Q. eexists. split; [reflexivity|]. split; [exact W|exact X].
  - exists (LogicalImmediate 1 3 d s n r m). split; [|exists n, r, m; split; [exact I|reflexivity]].
    destruct (immediate_word 3 v n r m d s (or_intror eq_refl) D S' V Q) as (W & X). unfold says. cbn [word]. rewrite Q. eexists. split; [reflexivity|]. split; [exact W|exact X].
Qed.
Theorem C94_rejects d s v c : c = AND_imm d s v \/ c = ANDS_imm d s v -> fits c -> ~ encodable v -> word c = None.
Proof.
  intros C F N. assert (V : 0 <= v < 2 ^ 64) by (destruct C as [->| ->]; exact (proj2 (proj2 F))).
  destruct (encode v) as [[[n r] m]|] eqn:Q.
  - exfalso. apply N. apply C94_accepts; [exact V|congruence].
  - destruct C as [->| ->]; cbn [word]; rewrite Q; reflexivity.
Qed.
(** AND with a narrower pattern is an AND with another value. *)
Theorem C94_and_refuted d s v : fits (AND_imm d s v) -> repeats 16 v -> encodable v ->
  exists n r m, says (AND_imm d s v) (Some (LogicalImmediate 1 0 d s n r m)) /\ ~ immediate_is n r m v.
Proof.
  intros (D & S' & V) R E. change (0 <= v < 2 ^ 64) in V. apply C94_accepts in E; [|exact V]. destruct (encode v) as [[[n r] m]|] eqn:Q; [|congruence].
  exists n, r, m. split; [|exact (C94_narrow_refuted v n r m V R Q)].
  destruct (immediate_word 0 v n r m d s (or_introl eq_refl) D S' V Q) as (W & X). unfold says. cbn [word]. rewrite Q. eexists. split; [reflexivity|]. split; [exact W|exact X].
Qed.

(** ** C95: errors *)
(** Compile drops the error of the function it is given: the code is made without the instructions
    that could not be encoded. *)
Theorem C95_error_dropped_refuted stops c cs ws : word c = None -> Forall2 (fun c w => word c = Some w /\ 0 <= w < 2 ^ 32) cs ws ->
  snd (run_calls stops [] (c :: cs)) = true /\
  exists code, compile stops (c :: cs) = Some code /\ reads code (if stops then [] else ws).
Proof.
  intros N F. unfold compile. cbn [run_calls]. unfold run_call. rewrite N. destruct (run_calls_words stops cs ws F []) as (code & R & D & L).
  destruct stops; cbn [fst snd]; (split; [reflexivity|]).
  - exists []. split; [reflexivity|constructor].
  - rewrite R. cbn [fst app]. exists code. rewrite L, Z.mul_comm, Z.mod_mul by lia. split; [reflexivity|exact D].
Qed.
Example C95_case : word (AND_imm 0 0 5) = None /\ exists code, compile false [AND_imm 0 0 5; RET 30] = Some code /\ compile false [RET 30] = Some code.
Proof. split; [vm_compute; reflexivity|]. eexists. split; vm_compute; reflexivity. Qed.
(** When no call fails nothing is lost. *)
Theorem C95_no_error_partial stops cs ws : Forall2 (fun c w => word c = Some w /\ 0 <= w < 2 ^ 32) cs ws ->
  snd (run_calls stops [] cs) = false /\ exists code, compile stops cs = Some code /\ reads code ws.
Proof.
  intros F. destruct (run_calls_words stops cs ws F []) as (code & R & D & L). unfold compile. rewrite R. split; [reflexivity|].
  exists code. cbn [app]. rewrite L, Z.mul_comm, Z.mod_mul by lia. split; [reflexivity|exact D].
Qed.
Print Assumptions C94_accepts.
Print Assumptions C94_wide_partial.
Print Assumptions C94_half_partial.
Print Assumptions C94_narrow_refuted.
Print Assumptions C94_and_partial.
Print Assumptions C94_rejects.
Print Assumptions C94_and_refuted.
Print Assumptions C95_error_dropped_refuted.
Print Assumptions C95_no_error_partial.
