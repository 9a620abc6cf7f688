(** Properties C93 to C95: the ARM64 assembler. *)
From Verif Require Import GoBase BaseLemmas ArmModel ArmSpec ArmProofs.

(** ** C93: instructions *)
(** The calls that are encoded as the manual says. *)
Definition exact_call (c : call) : Prop :=
  match c with
  | ABS _ _ | ADDG _ _ _ _ | ADDPT _ _ _ _ | AUTDZA _ | AUTDZB _ | AUTIZA _ | AUTIA1716 | AUTIBZ | AUTIB1716 | AUTIBSP
  | AUTIASPPC _ | AUTIBSPPC _ | CMPs _ _ _ _ => False
  | AND_imm _ _ _ | ANDS_imm _ _ _ => False      (* see C94 *)
  | AT _ s l k => (exists op1 crm op2, translation s l k op1 crm op2) /\ (s, l, k) <> (1, 1, 2)
  | _ => True
  end.
Ltac easy_call := eexists; split; [says_tac|reflexivity].
Lemma lor_last a p b c d : a |. p |. b |. c |. d = a |. b |. c |. d |. p.
Proof. apply Z.bits_inj'. intros i _. rewrite !Z.lor_spec. destruct (Z.testbit a i), (Z.testbit p i), (Z.testbit b i), (Z.testbit c i), (Z.testbit d i); reflexivity. Qed.
Ltac at_tac p := eexists; split; [reflexivity|]; rewrite lor_last, rd_fit by assumption;
  match goal with |- context [?k |. (p << 0)] => let v := eval vm_compute in k in change k with v end; split; [word_bound|dec].
Lemma adr_encodes op d o : op = 0 \/ op = 1 -> reg d -> - 2 ^ 20 <= o < 2 ^ 20 ->
  let w := (if op =? 0 then 0x10000000 else 0x90000000) |. rd d |. immlo o |. immhi o in
  0 <= w < 2 ^ 32 /\ decode w = Some (Address op d o).
Proof.
  intros P D O. cbv zeta. rewrite immlo_fit, immhi_fit, rd_fit by (assumption || lia).
  assert (B : Some (Address op d o) = Some (Address op d (sgn21 (o mod 2 ^ 21 / 4 * 4 + o mod 4)))) by (rewrite sgn21_back by exact O; reflexivity).
  rewrite B. clear B. 
  assert (H1 : 0 <= o mod 4 < 4) by (apply Z.mod_pos_bound; lia).
  assert (H2 : 0 <= o mod 2 ^ 21 / 4 < 2 ^ 19).
  { pose proof (Z.mod_pos_bound o (2 ^ 21) ltac:(lia)). split; [apply Z.div_pos; lia|apply Z.div_lt_upper_bound; lia]. }
  revert H1 H2. generalize (o mod 4) as lo. generalize (o mod 2 ^ 21 / 4) as hi. clear O. intros hi lo L H.
  destruct P as [->| ->]; cbn [Z.eqb]; (split; [word_bound|dec]).
Qed.
Theorem C93_encoding_partial c : fits c -> exact_call c -> exists i, says c (Some i) /\ asks c i.
Proof.
  intros F G. destruct c; cbn [fits exact_call] in F, G; try (destruct G; fail);
    repeat match goal with H : _ /\ _ |- _ => destruct H end; cbn [asks].
  all: lazymatch goal with |- context [says (AT _ _ _ _) _] => idtac | |- context [says (ADR _ _) _] => idtac | |- context [says (ADRP _ _) _] => idtac | _ => easy_call end.
  - destruct (adr_encodes 0 dst offset) as (B & Q); [auto|assumption|lia|]. eexists. split; [|reflexivity]. eexists. split; [reflexivity|]. split; [exact B|exact Q].
  - destruct (adr_encodes 1 dst offset) as (B & Q); [auto|assumption|lia|]. eexists. split; [|reflexivity]. eexists. split; [reflexivity|]. split; [exact B|exact Q].
  - match goal with H : exists _, _ |- _ => destruct H as (op1 & crm & op2 & T) end.
    exists (System op1 7 crm op2 ptr). split; [|exists op1, crm, op2; split; [exact T|reflexivity]].
    unfold says, translation in *. cbn [In] in T. cbn [word].
    repeat (destruct T as [T|T]; [injection T as <- <- <- <- <- <-; try (exfalso; match goal with N : _ <> _ |- _ => apply N; reflexivity end); cbn -[Z.lor Z.shiftl decode rd]; at_tac ptr|]).
    destruct T.
Qed.
Example C93_case : fits (ADD_ext 0 5 31 4 2) /\ exact_call (ADD_ext 0 5 31 4 2) /\ word (ADD_ext 0 5 31 4 2) = Some 0x8B3F88A0.
Proof. cbn. unfold reg, within. repeat split; lia. Qed.

(** The others. ABS works on 32 bit registers. *)
Theorem C93_abs_refuted d s : reg d -> reg s -> says (ABS d s) (Some (Absolute 0 d s)).
Proof. intros D S'. says_tac. Qed.
(** ADDG is no ADDG, whatever its operands. *)
Theorem C93_addg_refuted d s o t : fits (ADDG d s o t) -> says (ADDG d s o t) None.
Proof. 
  cbn [fits]. intros (D & S' & O & T). eexists. split; [cbn [word]; reflexivity|]. parts. split; [word_bound; apply (shl_bound t 10 4 32); range|].
  apply no_class. left. fields. reflexivity.
Qed.
(** ADDPT without a shift is ADC; with a shift it is not allocated. *)
Theorem C93_addpt_refuted d s o n : fits (ADDPT d s o n) ->
  says (ADDPT d s o n) (if n =? 0 then Some (WithCarry 1 0 d s o) else None).
Proof.
  cbn [fits]. intros (D & S' & O & N). destruct (n =? 0) eqn:E; [apply Z.eqb_eq in E; subst n; says_tac|].
  eexists. split; [cbn [word]; reflexivity|]. parts. split; [word_bound|]. unfold decode; cbv zeta.
  do 8 step. match goal with |- (if ?c then _ else _) = _ => assert (H : c = false) by (fields; rewrite E; reflexivity); rewrite H; clear H end.
  do 4 step.
  match goal with |- context [field ?w 16 16] => assert (T : field w 21 11 = 1232) by (fields; reflexivity);
    assert (NN : forall lo n c j, 0 <= lo -> 0 <= j -> j + 11 <= n -> lo + j = 21 -> field c j 11 <> 1232 -> (field w lo n =? c) = false) end.
  { intros lo k c j A B C G F. apply Z.eqb_neq. intros Q. rewrite <- Q in F. rewrite <- field_sub in F by lia. rewrite G in F. congruence. }
  rewrite !(NN 16 16 56001 5), !(NN 12 20 872498 9), !(NN 12 20 872452 9), (NN 19 13 6817 2), (NN 10 22 3512256 11) by (cbn; lia). cbn [andb].
  repeat step. reflexivity.
Qed.
(** Three of the four forms with a zero modifier are not allocated. *)
Theorem C93_zero_modifier_refuted d : reg d -> says (AUTDZA d) None /\ says (AUTDZB d) None /\ says (AUTIZA d) None.
Proof. intros D. split; [|split]; says_tac. Qed.
(** Four hints are those of other instructions. *)
Theorem C93_hints_refuted : exists i j k l,
  (says AUTIA1716 (Some i) /\ asks AUTIAZ i) /\ (says AUTIBZ (Some j) /\ asks AUTIB1716 j) /\
  (says AUTIB1716 (Some k) /\ asks AUTIBSP k) /\ (says AUTIBSP (Some l) /\ asks AUTIBZ l).
Proof.
  exists (Hint 3 4), (Hint 1 6), (Hint 3 7), (Hint 3 6).
  split; [|split; [|split]]; (split; [eexists; split; [reflexivity|split; [split; [discriminate|reflexivity]|reflexivity]]|reflexivity]).
Qed.
(** The forms with a label are other instructions, for all offsets. *)
Theorem C93_label_refuted o : fits (AUTIASPPC o) -> says (AUTIASPPC o) None /\ says (AUTIBSPPC o) None.
Proof.
  intros _. assert (R : 0 <= imm16 o < 2 ^ 16) by (unfold imm16, u16; apply Z.mod_pos_bound; lia).
  split; (eexists; split; [cbn [word]; reflexivity|]); revert R; generalize (imm16 o) as v; intros v R; (split; [word_bound|apply no_class; right; fields; reflexivity]).
Qed.
(** CMP writes the difference to X0. *)
Theorem C93_cmp_refuted a b s n : fits (CMPs a b s n) -> says (CMPs a b s n) (Some (Shifted 1 1 1 0 a b s n)).
Proof. cbn [fits]. intros (A & B & S' & N). says_tac. Qed.
(** Combinations that AT does not know are encoded as AT S1E1R, and so is a stage 1 write check
    with authentication. *)
Theorem C93_at_refuted p s l k : reg p -> at_ops s l k = (0, 0, 0) -> says (AT p s l k) (Some (System 0 7 8 0 p)).
Proof. intros P Q. unfold says. cbn [word]. rewrite Q. at_tac p. Qed.
Example C93_at_case : at_ops 1 1 2 = (0, 0, 0) /\ at_ops 2 1 1 = (0, 0, 0) /\ translation 1 1 2 0 9 1.
Proof. split; [reflexivity|]. split; [reflexivity|]. unfold translation. cbn. auto 9. Qed.
(** A negative immediate (the type Imm12 is signed) adds something else: its low 12 bits, shifted
    left by 12. *)
Theorem C93_negative_refuted d a v : reg d -> reg a -> - 4096 <= v < 0 ->
  says (ADD_imm d a v) (Some (Immediate 1 0 0 d a 1 (v + 4096))).
Proof.
  intros D A V. eexists. split; [cbn [word]; reflexivity|].
  assert (Q : imm 12 v << 10 = ((v + 4096) << 10) |. (1 << 22)).
  { unfold imm. destruct (v <? 0) eqn:E; [|apply Z.ltb_ge in E; lia]. rewrite Z.shiftl_lor, Z.shiftl_shiftl by lia. f_equal. f_equal.
    rewrite Z.land_ones by lia. symmetry. apply (Z.mod_unique _ _ (-1)); lia. }
  rewrite Q, Z.lor_assoc. parts. assert (0 <= v + 4096 < 2 ^ 12) by lia. generalize dependent (v + 4096). intros u _ U.
  split; [word_bound|]. change (1 << 22) with 4194304. dec.
Qed.
(** A program: the bytes given to the CPU are the words of the calls, in order. *)
Lemma reads_app bs ws cs vs : reads bs ws -> reads cs vs -> reads (bs ++ cs) (ws ++ vs).
Proof. intros R C. induction R as [|b0 b1 b2 b3 rest ws B R IH]; [exact C|]. cbn [app]. constructor; assumption. Qed.
Lemma reads_put32 w : 0 <= w < 2 ^ 32 -> reads (put32 w) [w].
Proof.
  intros W. unfold put32.
  assert (B : forall x, 0 <= u8 x < 256) by (intros x; unfold u8; apply Z.mod_pos_bound; lia).
  replace [w] with [u8 w + 256 * u8 (Z.shiftr w 8) + 65536 * u8 (Z.shiftr w 16) + 16777216 * u8 (Z.shiftr w 24)].
  - constructor; [|constructor]. repeat apply Forall_cons; [..|apply Forall_nil]; apply B.
  - f_equal. unfold u8. rewrite !Z.shiftr_div_pow2 by lia. change (2 ^ 8) with 256. change (2 ^ 16) with (256 * 256). change (2 ^ 24) with (256 * 256 * 256).
    rewrite <- !Z.div_div by lia. change (2 ^ 32) with 4294967296 in W.
    pose proof (Z.div_mod w 256 ltac:(lia)). pose proof (Z.div_mod (w / 256) 256 ltac:(lia)).
    pose proof (Z.div_mod (w / 256 / 256) 256 ltac:(lia)).
    pose proof (Z.div_pos w 256 ltac:(lia) ltac:(lia)). pose proof (Z.div_lt_upper_bound w 256 (256*256*256) ltac:(lia) ltac:(lia)).
    pose proof (Z.div_pos (w / 256) 256 ltac:(lia) ltac:(lia)). pose proof (Z.div_lt_upper_bound (w / 256) 256 (256*256) ltac:(lia) ltac:(lia)).
    pose proof (Z.div_pos (w / 256 / 256) 256 ltac:(lia) ltac:(lia)). pose proof (Z.div_lt_upper_bound (w / 256 / 256) 256 256 ltac:(lia) ltac:(lia)).
    rewrite (Z.mod_small (w / 256 / 256 / 256) 256) by lia. lia.
Qed.
Lemma run_calls_words stops cs ws : Forall2 (fun c w => word c = Some w /\ 0 <= w < 2 ^ 32) cs ws -> forall buf,
  exists code, run_calls stops buf cs = (buf ++ code, false) /\ reads code ws /\ zlen code = 4 * zlen ws.
Proof.
  intros F. induction F as [|c w cs ws [Q W] F IH]; intros buf; cbn [run_calls].
  - exists []. rewrite app_nil_r. split; [reflexivity|]. split; [constructor|reflexivity].
  - unfold run_call. rewrite Q. destruct (IH (buf ++ put32 w)) as (code & R & D & L). exists (put32 w ++ code).
    rewrite R, app_assoc. split; [reflexivity|]. split; [exact (reads_app _ [w] _ _ (reads_put32 w W) D)|].
    unfold zlen in *. rewrite app_length. cbn [put32 length]. lia.
Qed.
Theorem C93_program_partial stops cs : Forall (fun c => fits c /\ exact_call c) cs ->
  exists code ws, compile stops cs = Some code /\ reads code ws /\
    Forall2 (fun c w => exists i, decode w = Some i /\ asks c i) cs ws.
Proof.
  intros F.
  assert (G : exists ws, Forall2 (fun c w => word c = Some w /\ 0 <= w < 2 ^ 32) cs ws /\ Forall2 (fun c w => exists i, decode w = Some i /\ asks c i) cs ws).
  { induction F as [|c cs [A B] F (ws & X & Y)]; [exists []; split; constructor|].
    destruct (C93_encoding_partial c A B) as (i & (w & Q & W & D) & K). exists (w :: ws). split; constructor; eauto. }
  destruct G as (ws & X & Y). destruct (run_calls_words stops cs ws X []) as (code & R & D & L).
  exists code, ws. unfold compile. rewrite R. cbn [app]. rewrite L, Z.mul_comm, Z.mod_mul by lia. cbn. auto.
Qed.
Print Assumptions C93_encoding_partial.
Print Assumptions C93_abs_refuted.
Print Assumptions C93_addg_refuted.
Print Assumptions C93_addpt_refuted.
Print Assumptions C93_zero_modifier_refuted.
Print Assumptions C93_hints_refuted.
Print Assumptions C93_label_refuted.
Print Assumptions C93_cmp_refuted.
Print Assumptions C93_at_refuted.
Print Assumptions C93_negative_refuted.
Print Assumptions C93_program_partial.
