(** Properties C91 and C92: the AMD64 assembler. *)
From Verif Require Import GoBase BaseLemmas AsmModel AsmSpec.

Lemma u8_small v : 0 <= v < 256 -> u8 v = v.
Proof. intros H. unfold u8. apply Z.mod_small. lia. Qed.
Lemma u8_div v k : 0 <= k -> u8 (Z.shiftr v k) = v / 2 ^ k mod 256.
Proof. intros K. unfold u8. rewrite Z.shiftr_div_pow2 by lia. reflexivity. Qed.
Lemma little16 v : 0 <= v < 2 ^ 16 -> little [u8 v; u8 (Z.shiftr v 8)] = v.
Proof.
  intros H. rewrite u8_div by lia. unfold u8. cbn [little].
  change (2 ^ 8) with 256. change (2 ^ 16) with 65536 in H.
  pose proof (Z.div_mod v 256 ltac:(lia)). pose proof (Z.div_lt_upper_bound v 256 256 ltac:(lia) ltac:(lia)).
  pose proof (Z.div_pos v 256 ltac:(lia) ltac:(lia)). rewrite (Z.mod_small (v / 256) 256) by lia. lia.
Qed.
Lemma little32 v : 0 <= v < 2 ^ 32 -> little [u8 v; u8 (Z.shiftr v 8); u8 (Z.shiftr v 16); u8 (Z.shiftr v 24)] = v.
Proof.
  intros H. rewrite !u8_div by lia. unfold u8. cbn [little].
  change (2 ^ 8) with 256. change (2 ^ 16) with (256 * 256). change (2 ^ 24) with (256 * 256 * 256).
  change (2 ^ 32) with 4294967296 in H.
  rewrite <- !Z.div_div by lia.
  pose proof (Z.div_mod v 256 ltac:(lia)). pose proof (Z.div_mod (v / 256) 256 ltac:(lia)).
  pose proof (Z.div_mod (v / 256 / 256) 256 ltac:(lia)).
  pose proof (Z.div_pos v 256 ltac:(lia) ltac:(lia)). pose proof (Z.div_lt_upper_bound v 256 (256*256*256) ltac:(lia) ltac:(lia)).
  pose proof (Z.div_pos (v / 256) 256 ltac:(lia) ltac:(lia)). pose proof (Z.div_lt_upper_bound (v / 256) 256 (256*256) ltac:(lia) ltac:(lia)).
  pose proof (Z.div_pos (v / 256 / 256) 256 ltac:(lia) ltac:(lia)). pose proof (Z.div_lt_upper_bound (v / 256 / 256) 256 256 ltac:(lia) ltac:(lia)).
  rewrite (Z.mod_small (v / 256 / 256 / 256) 256) by lia. lia.
Qed.
Lemma little8 v : little [v] = v.
Proof. cbn [little]. lia. Qed.

Ltac enum n H := assert (n = 0 \/ n = 1 \/ n = 2 \/ n = 3 \/ n = 4 \/ n = 5 \/ n = 6 \/ n = 7) as E by (unfold a_register, a_base in H; lia);
  repeat (destruct E as [E|E]; [subst n|]); try subst n.
Ltac enum_base n H := assert (n = 0 \/ n = 1 \/ n = 2 \/ n = 3 \/ n = 6 \/ n = 7) as E by (unfold a_register, a_base in H; lia);
  repeat (destruct E as [E|E]; [subst n|]); try subst n.
Ltac cpu := let rest := fresh "rest" in intros rest; cbv -[u8 Z.shiftr little]; first [reflexivity | rewrite ?little8, ?little16, ?little32 by assumption; reflexivity].

(** [encodes a i bs]: AppendAMD64 adds exactly bs, and the CPU reads from them the instruction i,
    whatever comes next. *)
Definition encodes (a : appender) (i : insn) (bs : bytes) : Prop :=
  (forall b, append_amd64 b a = Ok (b ++ bs)) /\ forall rest, decode (bs ++ rest) = Some (i, rest).
Ltac found := eexists; eexists; split; [eexists; split; reflexivity|]; split; [intros b; reflexivity|cpu].

Lemma sound_encodes a : sound a -> exists i bs, intends a i /\ encodes a i bs.
Proof.
  assert (RR : forall o, (o = Add \/ o = BitwiseAnd \/ o = BitwiseOr \/ o = BitwiseXor) -> forall d s, registers d s ->
    exists i bs, intends (o d s) i /\ encodes (o d s) i bs).
  { intros o O d s (w & x & y & -> & -> & X & Y). destruct O as [->|[->|[->| ->]]]; destruct w; enum x X; enum y Y; found. }
  assert (RV : forall o, (o = Add \/ o = BitwiseAnd \/ o = BitwiseOr \/ o = BitwiseXor) -> forall d s, reg_value d s ->
    exists i bs, intends (o d s) i /\ encodes (o d s) i bs).
  { intros o O d s (w & x & v & N & -> & -> & X & V). unfold a_value in V.
    destruct O as [->|[->|[->| ->]]]; destruct w; try congruence; cbn [bits] in V; enum x X; found. }
  assert (MV : forall o, (o = MemoryBitwiseAnd \/ o = MemoryBitwiseOr \/ o = MemoryBitwiseXor) -> forall d s, memory_value d s ->
    exists i bs, intends (o d s) i /\ encodes (o d s) i bs).
  { intros o O d s (w & x & v & N & -> & -> & X & V). unfold a_value in V.
    destruct O as [->|[->| ->]]; destruct w; try congruence; cbn [bits] in V; enum_base x X; found. }
  destruct a as [d s|d s|d s|d s|d s|d s|d s|d s|d s|]; cbn [sound]; intros H.
  - destruct H as [H|H]; [exact (RR _ (or_introl eq_refl) _ _ H)|exact (RV _ (or_introl eq_refl) _ _ H)].
  - destruct H as [[(w & x & v & N & -> & -> & X & V) NE]|(w & x & y & -> & -> & X & Y)].
    + unfold a_value in V. destruct w; try congruence; cbn [bits] in V; enum x X; try (exfalso; exact (NE v eq_refl)); found.
    + destruct w; enum x X; enum_base y Y; found.
  - destruct H as [(w & x & y & -> & -> & X & Y)|[(w & x & v & N & -> & -> & X & V) (n & v' & Q)]].
    + destruct w; enum_base x X; enum y Y; found.
    + inversion Q; subst. clear Q. rename n into x, v' into v. unfold a_value in V. cbn [bits] in V. enum_base x X; found.
  - destruct H as [H|H]; [refine (RR _ _ _ _ H); auto|refine (RV _ _ _ _ H); auto].
  - destruct H as [H|H]; [refine (RR _ _ _ _ H); auto|refine (RV _ _ _ _ H); auto].
  - destruct H as [H|H]; [refine (RR _ _ _ _ H); auto|refine (RV _ _ _ _ H); auto].
  - refine (MV _ _ _ _ H); auto.
  - refine (MV _ _ _ _ H); auto.
  - refine (MV _ _ _ _ H); auto.
  - exists Ret, [195]. repeat split. 
Qed.

(** C91 (partial): a program of the sound instructions, of any length, is read by the CPU as
    exactly the instructions that were asked for, in that order. *)
Theorem C91_program_partial prog : Forall sound prog ->
  exists bs is, assemble prog = Ok bs /\ decodes bs is /\ Forall2 intends prog is.
Proof.
  intros F. unfold assemble.
  assert (G : forall b, exists bs is, assemble_from b prog = Ok (b ++ bs) /\ decodes bs is /\ Forall2 intends prog is).
  { induction F as [|a rest A _ IH]; intros b; cbn [assemble_from].
    - exists [], []. rewrite app_nil_r. split; [reflexivity|]. split; constructor.
    - destruct (sound_encodes a A) as (i & bs & I & E & D). destruct (IH (b ++ bs)) as (bs' & is & Q & Ds & Fs).
      exists (bs ++ bs'), (i :: is). rewrite E. cbn [obind]. rewrite Q, app_assoc. split; [reflexivity|]. split.
      + exact (decodes_cons _ _ _ _ (D bs') Ds).
      + constructor; assumption. }
  destruct (G []) as (bs & is & Q & D & Fi). exists bs, is. auto.
Qed.
Example C91_case : exists bs is, assemble [Add (Reg W32 0) (Reg W32 3); BitwiseAnd (Reg W16 1) (Imm W16 300); Return] = Ok bs /\
  bs = [1; 216; 102; 129; 225; 44; 1; 195] /\ decodes bs is /\
  is = [Op ADD (General W32 0) (From (General W32 3)); Op AND (General W16 1) (Value W16 300); Ret].
Proof.
  exists [1; 216; 102; 129; 225; 44; 1; 195], [Op ADD (General W32 0) (From (General W32 3)); Op AND (General W16 1) (Value W16 300); Ret].
  split; [reflexivity|]. split; [reflexivity|]. split; [|reflexivity].
  repeat (eapply decodes_cons; [reflexivity|]). constructor.
Qed.
Example C91_case_sound : Forall sound [Add (Reg W32 0) (Reg W32 3); BitwiseAnd (Reg W16 1) (Imm W16 300); Return].
Proof.
  constructor; [|constructor; [|constructor; [exact I|constructor]]]; cbn [sound].
  - left. exists W32, 0, 3. unfold a_register. repeat split; lia.
  - right. exists W16, 1, 300. unfold a_register, a_value. cbn [bits]. repeat split; (lia || discriminate).
Qed.

(** ** The rest of what the constructors accept *)
(** Add with carry between two registers adds the destination to the source: the operands are
    swapped, so it is right only when they are the same register. *)
Theorem C91_adc_registers_refuted w d s : a_register d -> a_register s ->
  exists bs, encodes (AddWithCarry (Reg w d) (Reg w s)) (Op ADC (named w s) (From (named w d))) bs.
Proof. intros D S. destruct w; enum d D; enum s S; eexists; (split; [intros b; reflexivity|cpu]). Qed.
(** Add with carry of a value to EAX does not add the carry: it is encoded as ADD. *)
Theorem C91_adc_eax_refuted v : a_value W32 v ->
  exists bs, encodes (AddWithCarry (Reg W32 0) (Imm W32 v)) (Op ADD (General W32 0) (Value W32 v)) bs.
Proof. intros V. unfold a_value in V. cbn [bits] in V. eexists; (split; [intros b; reflexivity|cpu]). Qed.
(** Adding memory to a register writes to the memory at the destination register instead, adding
    the source register to it. *)
Theorem C91_add_memory_refuted w d s : a_base d -> a_register s -> 
  exists bs, encodes (Add (Reg w d) (Ptr w s)) (Op ADD (Memory w d) (From (named w s))) bs.
Proof. intros D S. destruct w; enum_base d D; enum s S; eexists; (split; [intros b; reflexivity|cpu]). Qed.
(** AND, OR and XOR of a register with memory panic. *)
Theorem C91_bitwise_memory_panics_refuted b a d s : reg_memory d s -> a = BitwiseAnd \/ a = BitwiseOr \/ a = BitwiseXor ->
  append_amd64 b (a d s) = Panic.
Proof. intros (w & x & y & -> & -> & _) [->|[->| ->]]; destruct w; reflexivity. Qed.
(** AND, OR and XOR of memory with a register swap the two registers: they write to the memory at
    the source register. *)
Theorem C91_memory_bitwise_refuted w d s : a_register d -> a_base s ->
  (exists bs, encodes (MemoryBitwiseAnd (Ptr w d) (Reg w s)) (Op AND (Memory w s) (From (named w d))) bs) /\
  (exists bs, encodes (MemoryBitwiseOr (Ptr w d) (Reg w s)) (Op OR (Memory w s) (From (named w d))) bs) /\
  (exists bs, encodes (MemoryBitwiseXor (Ptr w d) (Reg w s)) (Op XOR (Memory w s) (From (named w d))) bs).
Proof. intros D S. destruct w; enum d D; enum_base s S; (split; [|split]); eexists; (split; [intros b; reflexivity|cpu]). Qed.
(** Add with carry of a value to 16 bits of memory panics. *)
Theorem C91_adc_memory16_panics_refuted b d v : append_amd64 b (MemoryAddWithCarry (Ptr W16 d) (Imm W16 v)) = Panic.
Proof. reflexivity. Qed.
(** Add with carry of a value to 32 bits of memory changes 64 bits of memory. *)
Theorem C91_adc_memory32_refuted d v : a_base d -> a_value W32 v ->
  exists bs, encodes (MemoryAddWithCarry (Ptr W32 d) (Imm W32 v)) (Op ADC (Memory W64 d) (Value W64 (u64 (i32 v)))) bs.
Proof.
  intros D V. unfold a_value in V. cbn [bits] in V.
  enum_base d D; eexists; (split; [intros b; reflexivity|intros rest; cbv -[u8 u64 i32 Z.shiftr little]; rewrite little32 by assumption; reflexivity]).
Qed.
(** [RSP] as a pointer swallows the first byte of the next instruction, and [RBP] the next four. *)
Theorem C91_rsp_refuted b w d sib rest : a_register d -> sib mod 8 <> 5 -> exists bs,
  append_amd64 b (AddWithCarry (Reg w d) (Ptr w 4)) = Ok (b ++ bs) /\
  decode (bs ++ sib :: rest) = Some (Op ADC (named w d) (From (Indexed w sib)), rest).
Proof.
  intros D N. apply Z.eqb_neq in N.
  change (sib_disp sib = false) in N.
  destruct w; enum d D; eexists; (split; [reflexivity|]); cbv -[sib_disp]; rewrite N; reflexivity.
Qed.
Theorem C91_rbp_refuted b w d x1 x2 x3 x4 rest : a_register d -> exists bs,
  append_amd64 b (AddWithCarry (Reg w d) (Ptr w 5)) = Ok (b ++ bs) /\
  decode (bs ++ x1 :: x2 :: x3 :: x4 :: rest) = Some (Op ADC (named w d) (From (Relative w [x1; x2; x3; x4])), rest).
Proof. intros D. destruct w; enum d D; eexists; (split; [reflexivity|]); reflexivity. Qed.
(** Of what the type constraints accept with named registers (and pointers other than RSP and RBP)
    exactly the forms above and those of C91_program_partial exist. *)
Theorem C91_complete a : allowed a -> sound a \/
  (exists w d s, a = AddWithCarry (Reg w d) (Reg w s)) \/ (exists v, a = AddWithCarry (Reg W32 0) (Imm W32 v)) \/
  (exists w d s, a = Add (Reg w d) (Ptr w s)) \/
  (exists c d s, reg_memory d s /\ a = c d s /\ (c = BitwiseAnd \/ c = BitwiseOr \/ c = BitwiseXor)) \/
  (exists c w d s, a = c (Ptr w d) (Reg w s) /\ (c = MemoryBitwiseAnd \/ c = MemoryBitwiseOr \/ c = MemoryBitwiseXor)) \/
  (exists d v, a = MemoryAddWithCarry (Ptr W16 d) (Imm W16 v)) \/ (exists d v, a = MemoryAddWithCarry (Ptr W32 d) (Imm W32 v)).
Proof.
  destruct a as [d s|d s|d s|d s|d s|d s|d s|d s|d s|]; cbn [allowed sound]; intros H.
  - destruct H as [H|[H|(w & x & y & -> & -> & _)]]; eauto 9.
  - destruct H as [(w & x & y & -> & -> & _)|[H|H]]; [eauto 9| |auto].
    destruct H as (w & x & v & N & -> & -> & X & V). destruct (Z.eq_dec x 0) as [->|NX].
    + destruct w; try congruence; [left|left|eauto 9]; left; (split; [unfold reg_value; eauto 12|intros v'; discriminate]).
    + left. left. split; [unfold reg_value; eauto 12|]. intros v' Q. injection Q as -> -> _. congruence.
  - destruct H as [H|H]; [auto|]. destruct H as (w & x & v & N & -> & -> & X & V).
    destruct w; try congruence; [|eauto 12|eauto 12]. left. right. split; [unfold memory_value; eauto 12|eauto].
  - destruct H as [H|[H|H]]; [auto|auto|]. right. right. right. right. left. eauto 9.
  - destruct H as [H|[H|H]]; [auto|auto|]. right. right. right. right. left. eauto 9.
  - destruct H as [H|[H|H]]; [auto|auto|]. right. right. right. right. left. eauto 9.
  - destruct H as [(w & x & y & -> & -> & _)|H]; [|auto]. right. right. right. right. right. left. eauto 9.
  - destruct H as [(w & x & y & -> & -> & _)|H]; [|auto]. right. right. right. right. right. left. eauto 9.
  - destruct H as [(w & x & y & -> & -> & _)|H]; [|auto]. right. right. right. right. right. left. eauto 9.
  - auto.
Qed.

(** ** C92: the extended registers R8 to R15 *)
(** They can only be made by conversion. The 64 bit forms look at them, but the two bits of the
    REX prefix are swapped: with a destination of 8 or more and a source below 8, ADD (and AND, OR,
    XOR) works on two other registers than those asked for. *)
Theorem C92_extended_refuted d s : 0 <= d < 16 -> 0 <= s < 16 ->
  let swap a b := if 8 <=? b then a mod 8 + 8 else a mod 8 in exists bs,
  encodes (Add (Reg W64 d) (Reg W64 s)) (Op ADD (General W64 (swap d s)) (From (General W64 (swap s d)))) bs.
Proof.
  intros D S.
  assert (D' : d < 8 /\ 0 <= d \/ 8 <= d /\ 0 <= d - 8 < 8) by lia. assert (S' : s < 8 /\ 0 <= s \/ 8 <= s /\ 0 <= s - 8 < 8) by lia.
  remember (d mod 8) as x. remember (s mod 8) as y.
  assert (X : a_register x) by (subst x; unfold a_register; lia || (apply Z.mod_pos_bound; lia)).
  assert (Y : a_register y) by (subst y; unfold a_register; lia || (apply Z.mod_pos_bound; lia)).
  assert (QD : d = x \/ d = x + 8). { pose proof (Z.div_mod d 8 ltac:(lia)). rewrite <- Heqx in H. unfold a_register in X. lia. }
  assert (QS : s = y \/ s = y + 8). { pose proof (Z.div_mod s 8 ltac:(lia)). rewrite <- Heqy in H. unfold a_register in Y. lia. }
  clear D S D' S' Heqx Heqy.
  destruct QD as [->| ->], QS as [->| ->]; enum x X; enum y Y; eexists; (split; [intros b; reflexivity|cpu]).
Qed.
(** It is right when both or neither are extended. *)
Theorem C92_both_partial d s : 0 <= d < 16 -> 0 <= s < 16 -> (8 <=? d) = (8 <=? s) -> exists bs,
  encodes (Add (Reg W64 d) (Reg W64 s)) (Op ADD (General W64 d) (From (General W64 s))) bs.
Proof.
  intros D S Q. destruct (C92_extended_refuted d s D S) as (bs & E). exists bs. cbv zeta in E.
  assert (G : forall a, 0 <= a < 16 -> (if 8 <=? a then a mod 8 + 8 else a mod 8) = a).
  { intros a A. pose proof (Z.div_mod a 8 ltac:(lia)). pose proof (Z.mod_pos_bound a 8 ltac:(lia)).
    destruct (8 <=? a) eqn:K; [apply Z.leb_le in K|apply Z.leb_gt in K]; [|apply Z.mod_small; lia].
    rewrite (Z.mod_eq a 8) by lia. assert (a / 8 = 1) by lia. lia. }
  rewrite <- Q in E. replace (if 8 <=? d then s mod 8 + 8 else s mod 8) with s in E by (rewrite Q; symmetry; exact (G s S)).
  rewrite (G d D) in E. exact E.
Qed.
(** With carry, memory operands use the right bits. *)
Theorem C92_adc_memory_partial d s : 0 <= d < 16 -> 0 <= s < 16 -> s mod 8 <> 4 -> s mod 8 <> 5 ->
  (exists bs, encodes (AddWithCarry (Reg W64 d) (Ptr W64 s)) (Op ADC (General W64 d) (From (Memory W64 s))) bs) /\
  (exists bs, encodes (MemoryAddWithCarry (Ptr W64 s) (Reg W64 d)) (Op ADC (Memory W64 s) (From (General W64 d))) bs).
Proof.
  intros D S N4 N5. remember (d mod 8) as x. remember (s mod 8) as y.
  assert (X : a_register x) by (subst x; unfold a_register; apply Z.mod_pos_bound; lia).
  assert (Y : a_base y) by (unfold a_base; split; [subst y; apply Z.mod_pos_bound; lia|split; assumption]).
  assert (QD : d = x \/ d = x + 8). { pose proof (Z.div_mod d 8 ltac:(lia)). rewrite <- Heqx in H. unfold a_register in X. lia. }
  assert (QS : s = y \/ s = y + 8). { pose proof (Z.div_mod s 8 ltac:(lia)). rewrite <- Heqy in H. unfold a_base in Y. lia. }
  clear D S Heqx Heqy.
  destruct QD as [->| ->], QS as [->| ->]; enum x X; enum_base y Y; split; eexists; (split; [intros b; reflexivity|cpu]).
Qed.
(** The bitwise operations on memory with a value use the right bit for 8 and 32 bits; for 16 bits
    the REX prefix comes before the operand size prefix, so the CPU ignores it and the pointer is
    another register. *)
Theorem C92_memory_value_partial p v : 8 <= p < 16 -> p mod 8 <> 4 -> p mod 8 <> 5 -> forall w, w = W8 \/ w = W32 -> a_value w v ->
  (exists bs, encodes (MemoryBitwiseAnd (Ptr w p) (Imm w v)) (Op AND (Memory w p) (Value w v)) bs) /\
  (exists bs, encodes (MemoryBitwiseOr (Ptr w p) (Imm w v)) (Op OR (Memory w p) (Value w v)) bs) /\
  (exists bs, encodes (MemoryBitwiseXor (Ptr w p) (Imm w v)) (Op XOR (Memory w p) (Value w v)) bs).
Proof.
  intros P N4 N5 w W V. unfold a_value in V.
  assert (E : p = 8 \/ p = 9 \/ p = 10 \/ p = 11 \/ p = 14 \/ p = 15).
  { assert (p = 12 \/ p = 13 \/ p = 8 \/ p = 9 \/ p = 10 \/ p = 11 \/ p = 14 \/ p = 15) as [->|[->|?]] by lia; [exfalso; apply N4; reflexivity|exfalso; apply N5; reflexivity|assumption]. }
  destruct W as [->| ->]; cbn [bits] in V; destruct E as [->|[->|[->|[->|[->| ->]]]]];
    (split; [|split]; eexists; (split; [intros b; reflexivity|cpu])).
Qed.
Theorem C92_memory_value16_refuted p v : 8 <= p < 16 -> p mod 8 <> 4 -> p mod 8 <> 5 -> a_value W16 v ->
  exists bs, encodes (MemoryBitwiseAnd (Ptr W16 p) (Imm W16 v)) (Op AND (Memory W16 (p - 8)) (Value W16 v)) bs.
Proof.
  intros P N4 N5 V. unfold a_value in V.
  assert (E : p = 8 \/ p = 9 \/ p = 10 \/ p = 11 \/ p = 14 \/ p = 15).
  { assert (p = 12 \/ p = 13 \/ p = 8 \/ p = 9 \/ p = 10 \/ p = 11 \/ p = 14 \/ p = 15) as [->|[->|?]] by lia; [exfalso; apply N4; reflexivity|exfalso; apply N5; reflexivity|assumption]. }
  cbn [bits] in V; destruct E as [->|[->|[->|[->|[->| ->]]]]]; (eexists; (split; [intros b; reflexivity|cpu])).
Qed.
(** The bitwise operations on a 64 bit register with a value extend the wrong field of the
    instruction: they work on the register 8 below the one asked for; below R8 they are right. *)
Theorem C92_register_value_refuted d v : 0 <= d < 16 -> a_value W32 v ->
  (exists bs, encodes (BitwiseAnd (Reg W64 d) (Imm W32 v)) (Op AND (General W64 (d mod 8)) (Value W64 (u64 (i32 v)))) bs) /\
  (exists bs, encodes (BitwiseOr (Reg W64 d) (Imm W32 v)) (Op OR (General W64 (d mod 8)) (Value W64 (u64 (i32 v)))) bs) /\
  (exists bs, encodes (BitwiseXor (Reg W64 d) (Imm W32 v)) (Op XOR (General W64 (d mod 8)) (Value W64 (u64 (i32 v)))) bs).
Proof.
  intros D V. unfold a_value in V. cbn [bits] in V. remember (d mod 8) as x.
  assert (X : a_register x) by (subst x; unfold a_register; apply Z.mod_pos_bound; lia).
  assert (QD : d = x \/ d = x + 8). { pose proof (Z.div_mod d 8 ltac:(lia)). rewrite <- Heqx in H. unfold a_register in X. lia. }
  clear D Heqx.
  destruct QD as [->| ->]; enum x X; (split; [|split]); eexists;
    (split; [intros b; reflexivity|intros rest; cbv -[u8 Z.shiftr little u64 i32]; rewrite ?little32 by assumption; reflexivity]).
Qed.
Example C92_case : exists bs, encodes (Add (Reg W64 9) (Reg W64 3)) (Op ADD (General W64 1) (From (General W64 11))) bs /\ bs = [76; 1; 217].
Proof. exists [76; 1; 217]. split; [split; [intros b; reflexivity|intros r; reflexivity]|reflexivity]. Qed.

Print Assumptions C91_program_partial.
Print Assumptions C91_adc_registers_refuted.
Print Assumptions C91_adc_eax_refuted.
Print Assumptions C91_add_memory_refuted.
Print Assumptions C91_bitwise_memory_panics_refuted.
Print Assumptions C91_memory_bitwise_refuted.
Print Assumptions C91_adc_memory16_panics_refuted.
Print Assumptions C91_adc_memory32_refuted.
Print Assumptions C91_rsp_refuted.
Print Assumptions C91_rbp_refuted.
Print Assumptions C91_complete.
Print Assumptions C92_extended_refuted.
Print Assumptions C92_both_partial.
Print Assumptions C92_adc_memory_partial.
Print Assumptions C92_memory_value_partial.
Print Assumptions C92_memory_value16_refuted.
