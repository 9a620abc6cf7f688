(** Proofs about JSON strings, numbers and base64. *)
From Verif Require Import GoBase BaseLemmas JrpcModel JrpcSpec JrpcProofs.

(** ** UTF-8 *)
Lemma decode_rune_char c bs r : char c bs -> decode_rune (bs ++ r) = (c, length bs).
Proof.
  intros H; inversion H as [c' B|c' B|c' B N|c' B]; subst; cbn [app decode_rune length].
  - destruct (c <? 128) eqn:E; [reflexivity|lia].
  - destruct (192 + c / 64 <? 128) eqn:E1; [lia|]. destruct (192 + c / 64 <? 194) eqn:E2; [lia|].
    destruct (192 + c / 64 <? 224) eqn:E3; [|lia].
    unfold in_range. destruct ((128 <=? 128 + c mod 64) && (128 + c mod 64 <=? 191)) eqn:E4; [|lia].
    f_equal. lia.
  - set (b0 := 224 + c / 4096). assert (B0 : 224 <= b0 < 240) by lia.
    destruct (b0 <? 128) eqn:E1; [lia|]. destruct (b0 <? 194) eqn:E2; [lia|].
    destruct (b0 <? 224) eqn:E3; [lia|]. destruct (b0 <? 240) eqn:E4; [|lia].
    unfold in_range.
    set (b1 := 128 + c / 64 mod 64). set (b2 := 128 + c mod 64).
    assert (B1 : 128 <= b1 < 192) by lia. assert (B2 : 128 <= b2 < 192) by lia.
    assert (V : b0 mod 16 * 4096 + b1 mod 64 * 64 + b2 mod 64 = c) by lia.
    assert (G1 : b0 = 224 -> 160 <= b1) by lia. assert (G2 : b0 = 237 -> b1 < 160) by lia.
    clearbody b0 b1 b2.
    destruct (_ && _ && _) eqn:E5; [f_equal; exact V|].
    destruct (b0 =? 224) eqn:E6; destruct (b0 =? 237) eqn:E7; lia.
  - set (b0 := 240 + c / 262144). assert (B0 : 240 <= b0 < 245) by lia.
    destruct (b0 <? 128) eqn:E1; [lia|]. destruct (b0 <? 194) eqn:E2; [lia|].
    destruct (b0 <? 224) eqn:E3; [lia|]. destruct (b0 <? 240) eqn:E4; [lia|]. destruct (b0 <? 245) eqn:E5; [|lia].
    unfold in_range.
    set (b1 := 128 + c / 4096 mod 64). set (b2 := 128 + c / 64 mod 64). set (b3 := 128 + c mod 64).
    assert (B1 : 128 <= b1 < 192) by lia. assert (B2 : 128 <= b2 < 192) by lia. assert (B3 : 128 <= b3 < 192) by lia.
    assert (V : b0 mod 8 * 262144 + b1 mod 64 * 4096 + b2 mod 64 * 64 + b3 mod 64 = c) by lia.
    assert (G1 : b0 = 240 -> 144 <= b1) by lia. assert (G2 : b0 = 244 -> b1 < 144) by lia.
    clearbody b0 b1 b2 b3.
    destruct (_ && _ && _ && _) eqn:E6; [f_equal; exact V|].
    destruct (b0 =? 240) eqn:E7; destruct (b0 =? 244) eqn:E8; lia.
Qed.

Lemma decode_rune_sound s c n : is_bytes s -> s <> [] -> decode_rune s = (c, n) ->
  (c = rune_error /\ n = 1%nat /\ (forall c' bs r, s = bs ++ r -> ~ char c' bs)) \/
  (exists bs r, s = bs ++ r /\ char c bs /\ n = length bs).
Proof.
  intros F N E.
  assert (BAD : decode_rune s = (rune_error, 1%nat) -> (match s with b :: _ => 128 <= b | [] => True end) ->
    (rune_error = rune_error /\ 1%nat = 1%nat /\ (forall c' bs r, s = bs ++ r -> ~ char c' bs))).
  { intros E1 G. repeat split. intros c' bs r -> H. rewrite (decode_rune_char _ _ _ H) in E1.
    injection E1 as -> L. inversion H; subst; cbn in L; try discriminate. cbn in G. unfold rune_error in *. lia. }
  destruct s as [|b0 s]; [congruence|]. clear N.
  inversion F as [|? ? F0 F1]; subst. unfold is_byte in F0.
  pose proof E as E'. unfold decode_rune in E.
  destruct (b0 <? 128) eqn:E1.
  { injection E as <- <-. right. exists [b0], s. repeat split. constructor. lia. }
  destruct (b0 <? 194) eqn:E2.
  { injection E as <- <-. left. apply BAD; [assumption|lia]. }
  destruct (b0 <? 224) eqn:E3.
  { destruct s as [|b1 s]. { injection E as <- <-. left. apply BAD; [assumption|lia]. }
    destruct (in_range 128 191 b1) eqn:R.
    - injection E as <- <-. right. unfold in_range in R. exists [b0; b1], s. repeat split.
      set (c := b0 mod 32 * 64 + b1 mod 64).
      replace b0 with (192 + c / 64) at 1 by (subst c; lia). replace b1 with (128 + c mod 64) at 1 by (subst c; lia).
      constructor. subst c; lia.
    - injection E as <- <-. left. apply BAD; [assumption|lia]. }
  destruct (b0 <? 240) eqn:E4.
  { destruct s as [|b1 [|b2 s]]; try (injection E as <- <-; left; apply BAD; [assumption|lia]).
    destruct (_ && _) eqn:R.
    - injection E as <- <-. right. unfold in_range in R. exists [b0; b1; b2], s. repeat split.
      assert (128 <= b1 <= 191 /\ 128 <= b2 <= 191 /\ (b0 = 224 -> 160 <= b1) /\ (b0 = 237 -> b1 <= 159)) as (R1 & R2 & R3 & R4).
      { destruct (b0 =? 224) eqn:Q1; destruct (b0 =? 237) eqn:Q2; lia. }
      clear R BAD E' F F1.
      set (c := b0 mod 16 * 4096 + b1 mod 64 * 64 + b2 mod 64).
      replace b0 with (224 + c / 4096) at 1 by (subst c; lia). replace b1 with (128 + c / 64 mod 64) at 1 by (subst c; lia).
      replace b2 with (128 + c mod 64) at 1 by (subst c; lia).
      constructor; subst c; lia.
    - injection E as <- <-. left. apply BAD; [assumption|lia]. }
  destruct (b0 <? 245) eqn:E5.
  { destruct s as [|b1 [|b2 [|b3 s]]]; try (injection E as <- <-; left; apply BAD; [assumption|lia]).
    destruct (_ && _) eqn:R.
    - injection E as <- <-. right. unfold in_range in R. exists [b0; b1; b2; b3], s. repeat split.
      assert (128 <= b1 <= 191 /\ 128 <= b2 <= 191 /\ 128 <= b3 <= 191 /\ (b0 = 240 -> 144 <= b1) /\ (b0 = 244 -> b1 <= 143)) as (R1 & R2 & R5 & R3 & R4).
      { destruct (b0 =? 240) eqn:Q1; destruct (b0 =? 244) eqn:Q2; lia. }
      clear R BAD E' F F1.
      set (c := b0 mod 8 * 262144 + b1 mod 64 * 4096 + b2 mod 64 * 64 + b3 mod 64).
      replace b0 with (240 + c / 262144) at 1 by (subst c; lia). replace b1 with (128 + c / 4096 mod 64) at 1 by (subst c; lia).
      replace b2 with (128 + c / 64 mod 64) at 1 by (subst c; lia). replace b3 with (128 + c mod 64) at 1 by (subst c; lia).
      constructor; subst c; lia.
    - injection E as <- <-. left. apply BAD; [assumption|lia]. }
  injection E as <- <-. left. apply BAD; [assumption|lia].
Qed.

Lemma char_rune_text c bs : char c bs -> rune_text c = bs.
Proof.
  intros H; inversion H as [c' B|c' B|c' B N|c' B]; subst; unfold rune_text, in_range.
  - destruct (c <? 128) eqn:E; [reflexivity|lia].
  - destruct (c <? 128) eqn:E; [lia|]. destruct (c <? 2048) eqn:E2; [reflexivity|lia].
  - destruct (c <? 128) eqn:E; [lia|]. destruct (c <? 2048) eqn:E2; [lia|].
    destruct (_ || _) eqn:E3; [lia|]. destruct (c <? 65536) eqn:E4; [reflexivity|lia].
  - destruct (c <? 128) eqn:E; [lia|]. destruct (c <? 2048) eqn:E2; [lia|].
    destruct (_ || _) eqn:E3; [lia|]. destruct (c <? 65536) eqn:E4; [lia|reflexivity].
Qed.
Lemma char_plain c bs : char c bs -> c <> 34 -> c <> 92 -> Forall (fun b => b <> 34 /\ b <> 92) bs.
Proof.
  intros H N1 N2; inversion H; subst; repeat constructor; lia.
Qed.
Lemma char_nonempty c bs : char c bs -> bs <> [].
Proof. intros H; inversion H; discriminate. Qed.
Lemma char_det c bs r c' bs' r' : char c bs -> char c' bs' -> bs ++ r = bs' ++ r' -> c = c' /\ bs = bs' /\ r = r'.
Proof.
  intros H H' E. pose proof (decode_rune_char c bs r H) as A. pose proof (decode_rune_char c' bs' r' H') as B.
  rewrite E, B in A. injection A as -> L. split; [reflexivity|].
  pose proof (char_rune_text _ _ H). pose proof (char_rune_text _ _ H'). subst.
  split; [reflexivity|]. eapply app_inv_head; eassumption.
Qed.

Lemma utf8_sanitized s s' : utf8 s -> sanitized s s' -> s' = s.
Proof.
  intros U. revert s'. induction U as [|c bs s C U IH]; intros s' H.
  - inversion H as [|c bs s0 s1 C H1 E1 E2|]; subst; [reflexivity|]. destruct bs; [|discriminate]. inversion C.
  - remember (bs ++ s) as x eqn:X. destruct H as [|c' bs' s0 s1 C' H1|b s0 s1 NB H1].
    + destruct bs; [inversion C|discriminate].
    + destruct (char_det _ _ _ _ _ _ C C' (eq_sym X)) as (_ & <- & <-). f_equal. apply IH. exact H1.
    + exfalso. exact (NB _ _ _ X C).
Qed.
Lemma sanitized_utf8 s s' : sanitized s s' -> utf8 s'.
Proof.
  induction 1 as [|c bs s s' C _ IH|b s s' _ _ IH]; [constructor|econstructor; eassumption|].
  change (239 :: 191 :: 189 :: s') with ([239; 191; 189] ++ s'). apply (Utf8Cons 65533); [|assumption].
  change ([239; 191; 189]) with [224 + 65533 / 4096; 128 + 65533 / 64 mod 64; 128 + 65533 mod 64]. constructor; lia.
Qed.

(** ** Strings *)
Lemma unhex_digit c n : hex_digit c n -> unhex c = Some n.
Proof.
  intros H; inversion H; subst; unfold unhex, in_range.
  - destruct (_ && _) eqn:E; [f_equal; lia|lia].
  - destruct ((48 <=? _) && _) eqn:E; [lia|]. destruct ((97 <=? _) && _) eqn:E2; [f_equal; lia|lia].
  - destruct ((48 <=? _) && _) eqn:E; [lia|]. destruct ((97 <=? _) && _) eqn:E2; [lia|].
    destruct ((65 <=? _) && _) eqn:E3; [f_equal; lia|lia].
Qed.
Lemma go_unicode p h c s : hex4 h c -> go scan_unicode p (h ++ s) (rune_text c) (p + zlen h) s.
Proof.
  intros H; inversion H as [a b c' d x y z w Ha Hb Hc Hd]; subst. cbn [app]. unfold scan_unicode.
  eapply go_bind; [apply go_scan|]. eapply go_bind; [apply go_scan|].
  eapply go_bind; [apply go_scan|]. eapply go_bind; [apply go_scan|].
  rewrite (unhex_digit _ _ Ha), (unhex_digit _ _ Hb), (unhex_digit _ _ Hc), (unhex_digit _ _ Hd).
  replace (p + zlen [a; b; c'; d]) with (p + 1 + 1 + 1 + 1) by (unfold zlen; cbn; lia). apply go_ret.
Qed.
Lemma go_plain l : Forall (fun b => b <> 34 /\ b <> 92) l -> forall n buf p s a p' s',
  (forall n', (n - length l <= n')%nat -> go (string_loop n' (buf ++ l)) (p + zlen l) s a p' s') ->
  (length l <= n)%nat -> go (string_loop n buf) p (l ++ s) a p' s'.
Proof.
  induction 1 as [|b l (N1 & N2) F IH]; intros n buf p s a p' s' H L.
  - cbn [app] in *. specialize (H n). rewrite zlen_nil, Z.add_0_r, app_nil_r in H. apply H. cbn. lia.
  - cbn [length] in L. destruct n as [|n]; [lia|]. cbn [app string_loop].
    eapply go_bind; [apply go_scan|].
    destruct (b =? 34) eqn:E1; [lia|]. destruct (b =? 92) eqn:E2; [lia|].
    apply IH; [|lia]. intros n' Ln. rewrite <- app_assoc. cbn [app].
    replace (p + 1 + zlen l) with (p + zlen (b :: l)) by (rewrite zlen_cons; lia). apply H. cbn. lia.
Qed.
Lemma go_body x s : body x s -> forall n buf p rest, (length x < n)%nat ->
  go (string_loop n buf) p (x ++ 34 :: rest) (buf ++ s) (p + zlen x + 1) rest.
Proof.
  induction 1 as [|c bs x s C G1 G2 G3 B IH|e c x s E B IH|h c bs x s H C B IH]; intros n buf p rest L.
  - destruct n as [|n]; [cbn in L; lia|]. cbn [app string_loop]. eapply go_bind; [apply go_scan|].
    change (34 =? 34) with true. rewrite zlen_nil, Z.add_0_r, app_nil_r. apply go_ret.
  - rewrite <- app_assoc. rewrite app_length in L. apply go_plain.
    + eapply char_plain; eassumption.
    + intros n' Ln. rewrite app_assoc. rewrite zlen_app. replace (p + (zlen bs + zlen x) + 1) with (p + zlen bs + zlen x + 1) by lia.
      apply IH. lia.
    + lia.
  - cbn [length] in L. destruct n as [|n]; [lia|]. cbn [app string_loop]. eapply go_bind; [apply go_scan|].
    change (92 =? 34) with false. change (92 =? 92) with true. cbv iota.
    eapply go_bind; [apply go_scan|].
    replace (p + zlen (92 :: e :: x) + 1) with (p + 1 + 1 + zlen x + 1) by (rewrite !zlen_cons; lia).
    assert (L' : (length x < n)%nat) by lia.
    replace (buf ++ c :: s) with ((buf ++ [c]) ++ s) by (rewrite <- app_assoc; reflexivity).
    destruct E; cbn -[string_loop zlen]; apply IH; exact L'.
  - replace (p + zlen (92 :: 117 :: h ++ x) + 1) with (p + 1 + 1 + zlen h + zlen x + 1) by (rewrite !zlen_cons, zlen_app; lia).
    destruct n as [|n]; [cbn in L; lia|]. cbn [app string_loop]. eapply go_bind; [apply go_scan|].
    change (92 =? 34) with false. change (92 =? 92) with true. cbv iota.
    eapply go_bind; [apply go_scan|]. cbn -[string_loop scan_unicode zlen].
    rewrite <- app_assoc. eapply go_bind; [apply go_unicode; exact H|].
    rewrite (char_rune_text _ _ C).
    rewrite app_assoc. apply IH. cbn [length] in L. rewrite app_length in L. lia.
Qed.
Lemma go_string n x s p rest : json_string x s -> (length x < n)%nat ->
  go (decode_string n) p (x ++ rest) s (p + zlen x) rest.
Proof.
  intros H L; inversion H as [x' s' B]; subst. cbn [app]. rewrite <- app_assoc. cbn [app]. unfold decode_string.
  eapply go_bind; [apply go_scan|]. change (34 =? 34) with true. cbv iota.
  replace (p + zlen (34 :: x' ++ [34])) with (p + 1 + zlen x' + 1) by (rewrite zlen_cons, zlen_app, zlen_cons, zlen_nil; lia).
  apply (go_body _ _ B n []). cbn [length] in L. rewrite app_length in L. lia.
Qed.

(** ** The encoder writes JSON strings *)
Lemma hex_hex_digit n : 0 <= n < 16 -> hex_digit (hex n) n.
Proof. intros. unfold hex. destruct (n <? 10) eqn:E; constructor; lia. Qed.
Lemma body_ascii b x s : 0 <= b < 128 -> body x s -> body (escape_ascii b ++ x) (b :: s).
Proof.
  intros R B. unfold escape_ascii.
  destruct ((b <=? 31) || (b =? 34) || (b =? 92)) eqn:E; cbn [negb].
  - destruct ((b =? 92) || (b =? 34)) eqn:E1.
    { cbn [app]. apply BShort; [|assumption]. assert (b = 92 \/ b = 34) as [-> | ->] by lia; constructor. }
    destruct (b =? 10) eqn:E2. { cbn [app]. apply BShort; [|assumption]. replace b with 10 by lia. constructor. }
    destruct (b =? 13) eqn:E3. { cbn [app]. apply BShort; [|assumption]. replace b with 13 by lia. constructor. }
    destruct (b =? 9) eqn:E4. { cbn [app]. apply BShort; [|assumption]. replace b with 9 by lia. constructor. }
    cbn [app]. apply (BHex [48; 48; hex (b / 16); hex (b mod 16)] b [b] x s); [|constructor; lia|assumption].
    replace b with (((0 * 16 + 0) * 16 + b / 16) * 16 + b mod 16) at 3 by lia.
    constructor; try (change 48 with (48 + 0); constructor; lia); apply hex_hex_digit; lia.
  - apply (BPlain b [b] x s); try lia; [constructor; lia|assumption].
Qed.
Lemma escape_body n : forall s, (length s <= n)%nat -> is_bytes s ->
  exists s', sanitized s s' /\ body (escape s) s'.
Proof.
  induction n as [|n IH]; intros s L F.
  { destruct s; [|cbn in L; lia]. exists []. split; constructor. }
  destruct s as [|b r]; [exists []; split; constructor|].
  inversion F as [|? ? Fb Fr]; subst. unfold is_byte in Fb. cbn [length] in L.
  cbn [escape]. destruct (b <? 128) eqn:E.
  { destruct (IH r ltac:(lia) Fr) as (s' & S1 & B). exists (b :: s'). split.
    - apply (SanChar b [b]); [constructor; lia|assumption].
    - apply body_ascii; [lia|assumption]. }
  destruct (decode_rune (b :: r)) as [c k] eqn:D.
  destruct (decode_rune_sound _ _ _ F ltac:(discriminate) D) as [(-> & -> & NB)|(bs & r' & X & C & ->)].
  { rewrite Z.eqb_refl. cbn [Nat.eqb andb].
    destruct (IH r ltac:(lia) Fr) as (s' & S1 & B). exists (239 :: 191 :: 189 :: s'). split.
    - apply SanBad; assumption.
    - apply (BHex [102; 102; 102; 100] 65533 [239; 191; 189]); [|constructor; lia|assumption].
      change 65533 with (((15 * 16 + 15) * 16 + 15) * 16 + 13).
      constructor; try (change 102 with (87 + 15); constructor; lia). change 100 with (87 + 13). constructor; lia. }
  assert (K : Nat.eqb (length bs) 1 = false).
  { apply Nat.eqb_neq. intro Q. inversion C; subst; cbn in Q; try discriminate. injection X as -> _. lia. }
  rewrite K, andb_false_r.
  assert (Fr' : is_bytes r'). { rewrite X in F. apply Forall_app in F. tauto. }
  assert (Lr : (length r' <= n)%nat).
  { apply (f_equal (@length _)) in X. rewrite app_length in X. cbn [length] in X. apply char_nonempty in C. destruct bs; [congruence|cbn in X; lia]. }
  destruct (IH r' Lr Fr') as (s' & S1 & B). exists (bs ++ s'). split; [rewrite X; apply (SanChar c); assumption|].
  assert (O : body ((if (c =? 8232) || (c =? 8233) then [92; 117; 50; 48; 50; hex (c mod 16)] else firstn (length bs) (b :: r)) ++ escape r') (bs ++ s')).
  { destruct ((c =? 8232) || (c =? 8233)) eqn:Q.
    - apply (BHex [50; 48; 50; hex (c mod 16)] c bs); [|assumption|assumption].
      replace c with (((2 * 16 + 0) * 16 + 2) * 16 + c mod 16) at 2 by lia.
      constructor; try (change 50 with (48 + 2); constructor; lia); [change 48 with (48 + 0); constructor; lia|].
      apply hex_hex_digit. lia.
    - rewrite X, firstn_app, firstn_all, Nat.sub_diag, firstn_O, app_nil_r.
      assert (c >= 128). { inversion C; subst; try lia. cbn in K. discriminate. }
      apply (BPlain c); try lia; assumption. }
  remember (if (c =? 8232) || (c =? 8233) then _ else _) as out. clear Heqout.
  inversion C; subst; cbn [app length] in *; try discriminate; injection X as -> ->; exact O.
Qed.
Lemma quote_json s : is_bytes s -> exists s', sanitized s s' /\ json_string (quote s) s'.
Proof.
  intros F. destruct (escape_body (length s) s ltac:(lia) F) as (s' & A & B). exists s'. split; [assumption|].
  constructor. exact B.
Qed.
Lemma utf8_bytes s : utf8 s -> is_bytes s.
Proof.
  induction 1 as [|c bs s C U IH]; [constructor|]. apply Forall_app. split; [|assumption].
  inversion C; subst; repeat constructor; lia.
Qed.
Lemma quote_utf8 s : utf8 s -> json_string (quote s) s.
Proof.
  intros U. destruct (quote_json s (utf8_bytes s U)) as (s' & A & B).
  rewrite (utf8_sanitized _ _ U A) in B. exact B.
Qed.

(** ** Numbers *)
Lemma i64_i64_add a b c : i64 (i64 a * b + c) = i64 (a * b + c).
Proof.
  unfold i64, sgn. change (2 ^ (64 - 1)) with (2^63).
  assert (E : (if a mod 2^64 <? 2^63 then a mod 2^64 else a mod 2^64 - 2^64) mod 2^64 = a mod 2^64).
  { destruct (a mod 2^64 <? 2^63).
    - apply Z.mod_mod. lia.
    - rewrite <- Zminus_mod_idemp_r, Z_mod_same_full, Z.sub_0_r. apply Z.mod_mod. lia. }
  set (x := if a mod 2^64 <? 2^63 then _ else _) in *. clearbody x.
  replace ((x * b + c) mod 2 ^ 64) with ((a * b + c) mod 2^64); [reflexivity|].
  rewrite <- (Zplus_mod_idemp_l (x * b)), <- (Zmult_mod_idemp_l x), E, Zmult_mod_idemp_l, Zplus_mod_idemp_l. reflexivity.
Qed.
Lemma i64_opp a : i64 (- i64 a) = i64 (- a).
Proof. replace (- i64 a) with (i64 a * (-1) + 0) by lia. rewrite i64_i64_add. f_equal. lia. Qed.
Lemma i64_idem a : i64 (i64 a) = i64 a.
Proof. replace (i64 a) with (i64 a * 1 + 0) at 1 by lia. rewrite i64_i64_add. f_equal. lia. Qed.
Lemma u64_u64_add a b c : u64 (u64 a * b + c) = u64 (a * b + c).
Proof.
  unfold u64. rewrite <- (Zplus_mod_idemp_l (a mod 2^64 * b)), Zmult_mod_idemp_l, Zplus_mod_idemp_l. reflexivity.
Qed.
Lemma digits_value_i64 ds : forall a, i64 (digits_value (i64 a) ds) = i64 (digits_value a ds).
Proof.
  induction ds as [|c ds IH]; intros a; cbn [digits_value]; [apply i64_idem|].
  rewrite <- IH, i64_i64_add, IH. reflexivity.
Qed.
Lemma digits_value_u64 ds : forall a, u64 (digits_value (u64 a) ds) = u64 (digits_value a ds).
Proof.
  induction ds as [|c ds IH]; intros a; cbn [digits_value].
  - unfold u64. apply Z.mod_mod. lia.
  - rewrite <- IH, u64_u64_add, IH. reflexivity.
Qed.
Lemma sgn_small w z : width w -> fits_int w z -> sgn w z = z.
Proof.
  intros W F. unfold width in W. cbn [In] in W. unfold fits_int in F. unfold sgn.
  destruct W as [<-|[<-|[<-|[<-|[]]]]]; cbn -[Z.modulo] in *; destruct (_ <? _) eqn:E; lia.
Qed.

Lemma is_digit_digit c : is_digit c = true <-> digit c.
Proof. unfold is_digit, digit. lia. Qed.
Lemma digit_not_closes c : digit c -> (c =? 45) = false /\ closes c || is_space c = false /\ is_digit c = true.
Proof. unfold digit, closes, is_space, is_digit. lia. Qed.

Lemma ended_cons c s : ended (c :: s) -> (c =? 45) = false /\ closes c || is_space c = true.
Proof. unfold ended, delimiter, blank, closes, is_space. cbn [In]. lia. Qed.

Lemma goq_int_end n reg neg p rest : ended rest ->
  goq (int_loop (S n) reg neg) p rest (if neg then i64 (- reg) else reg) (after_number p rest).
Proof.
  intros E. destruct rest as [|c s].
  - cbn [int_loop]. eapply goq_bind; [apply go_eof|]. cbv iota. intros d X. exists d. split; [reflexivity|].
    split; [auto|congruence].
  - destruct (ended_cons _ _ E) as (N & C). intros d X.
    destruct (goq_unread p c s _ (if neg then i64 (- reg) else reg) d X) as (d' & G & A). exists d'. split; [|assumption].
    cbn [int_loop]. unfold dbind at 1. unfold dbind at 1 in G.
    destruct (go_scan_or_eof p c s d X) as (d1 & G1 & _). rewrite G1 in *. rewrite N, C. exact G.
Qed.
Lemma goq_int_digits ds : Forall digit ds -> forall n reg neg p rest, ended rest -> (length ds < n)%nat ->
  -2^63 <= reg < 2^63 ->
  goq (int_loop n reg neg) p (ds ++ rest)
    (let r := i64 (digits_value reg ds) in if neg then i64 (- r) else r) (after_number (p + zlen ds) rest).
Proof.
  induction 1 as [|c ds D F IH]; intros n reg neg p rest E L R.
  - destruct n as [|n]; [cbn in L; lia|]. cbn [app digits_value]. cbv zeta. rewrite zlen_nil, Z.add_0_r.
    rewrite (i64_small reg) by lia. apply goq_int_end; assumption.
  - cbn [length] in L. destruct n as [|n]; [lia|]. cbn [app int_loop digits_value].
    eapply goq_bind; [apply go_scan_or_eof|]. destruct (digit_not_closes _ D) as (N1 & N2 & N3).
    rewrite N1, N2, N3. cbn [negb]. rewrite zlen_cons, Z.add_assoc. rewrite <- digits_value_i64. apply IH; [assumption|lia|].
    unfold i64, sgn. pose proof (Z.mod_pos_bound (reg * 10 + (c - 48)) (2^64) ltac:(lia)).
    change (2^(64-1)) with (2^63). destruct (_ <? _) eqn:Q; lia.
Qed.
Lemma goq_int x z n p rest : json_int x z -> - 2^63 <= z < 2^63 -> ended rest -> (length x < n)%nat ->
  goq (int_loop n 0 false) p (x ++ rest) z (after_number (p + zlen x) rest).
Proof.
  intros J R E L. destruct J as [|c ds C F|c ds C F].
  - pose proof (goq_int_digits [48] ltac:(repeat constructor; unfold digit; lia) n 0 false p rest E L ltac:(lia)) as G. exact G.
  - assert (F' : Forall digit (c :: ds)) by (constructor; [unfold digit; lia|assumption]).
    pose proof (goq_int_digits _ F' n 0 false p rest E L ltac:(lia)) as G. cbv zeta iota in G.
    rewrite i64_small in G by lia. exact G.
  - assert (F' : Forall digit (c :: ds)) by (constructor; [unfold digit; lia|assumption]).
    destruct n as [|n]; [cbn in L; lia|]. cbn [length] in L.
    pose proof (goq_int_digits _ F' n 0 true (p + 1) rest E ltac:(cbn [length]; lia) ltac:(lia)) as G. cbv zeta iota in G.
    rewrite i64_opp, i64_small in G by lia. cbn [app int_loop]. eapply goq_bind; [apply go_scan_or_eof|].
    change (45 =? 45) with true. cbv iota. rewrite zlen_cons, Z.add_assoc. exact G.
Qed.

Lemma goq_uint_end n reg p rest : ended rest -> goq (uint_loop (S n) reg) p rest reg (after_number p rest).
Proof.
  intros E. destruct rest as [|c s].
  - cbn [uint_loop]. eapply goq_bind; [apply go_eof|]. cbv iota. intros d X. exists d. split; [reflexivity|].
    split; [auto|congruence].
  - destruct (ended_cons _ _ E) as (N & C). intros d X.
    destruct (goq_unread p c s _ reg d X) as (d' & G & A). exists d'. split; [|assumption].
    cbn [uint_loop]. unfold dbind at 1. unfold dbind at 1 in G.
    destruct (go_scan_or_eof p c s d X) as (d1 & G1 & _). rewrite G1 in *. rewrite C. exact G.
Qed.
Lemma goq_uint_digits ds : Forall digit ds -> forall n reg p rest, ended rest -> (length ds < n)%nat ->
  0 <= reg < 2^64 ->
  goq (uint_loop n reg) p (ds ++ rest) (u64 (digits_value reg ds)) (after_number (p + zlen ds) rest).
Proof.
  induction 1 as [|c ds D F IH]; intros n reg p rest E L R.
  - destruct n as [|n]; [cbn in L; lia|]. cbn [app digits_value]. rewrite zlen_nil, Z.add_0_r.
    rewrite u64_small by lia. apply goq_uint_end; assumption.
  - cbn [length] in L. destruct n as [|n]; [lia|]. cbn [app uint_loop digits_value].
    eapply goq_bind; [apply go_scan_or_eof|]. destruct (digit_not_closes _ D) as (N1 & N2 & N3).
    rewrite N2, N3. cbn [negb]. rewrite zlen_cons, Z.add_assoc. rewrite <- digits_value_u64. apply IH; [assumption|lia|].
    unfold u64. apply Z.mod_pos_bound. lia.
Qed.
Lemma goq_uint x z n p rest : json_int x z -> 0 <= z < 2^64 -> ended rest -> (length x < n)%nat ->
  goq (uint_loop n 0) p (x ++ rest) z (after_number (p + zlen x) rest).
Proof.
  intros J R E L. destruct J as [|c ds C F|c ds C F].
  - pose proof (goq_uint_digits [48] ltac:(repeat constructor; unfold digit; lia) n 0 p rest E L ltac:(lia)) as G. exact G.
  - assert (F' : Forall digit (c :: ds)) by (constructor; [unfold digit; lia|assumption]).
    pose proof (goq_uint_digits _ F' n 0 p rest E L ltac:(lia)) as G.
    rewrite u64_small in G by lia. exact G.
  - exfalso. assert (0 < digits_value 0 (c :: ds)); [|lia].
    cbn [digits_value]. assert (0 < 0 * 10 + (c - 48)) as P by lia. revert P. generalize (0 * 10 + (c - 48)).
    clear -F. induction F as [|d ds D F IH]; intros a P; cbn [digits_value]; [lia|]. apply IH. unfold digit in D. lia.
Qed.

Lemma digits_value_snoc ds c : forall a, digits_value a (ds ++ [c]) = digits_value a ds * 10 + (c - 48).
Proof. induction ds as [|d ds IH]; intros a; cbn [app digits_value]; [reflexivity|apply IH]. Qed.
Lemma digits_n_spec f : forall n acc, 0 <= n < 10 ^ Z.of_nat f -> (0 < f)%nat ->
  exists ds, digits_n f n acc = ds ++ acc /\ Forall digit ds /\ digits_value 0 ds = n /\
    ((n = 0 /\ ds = [48]) \/ (0 < n /\ exists c r, ds = c :: r /\ 49 <= c <= 57)).
Proof.
  induction f as [|f IH]; intros n acc R P; [lia|]. cbn [digits_n]. destruct (n <? 10) eqn:E.
  - exists [48 + n]. rewrite Z.mod_small by lia. cbn [app digits_value]. repeat split.
    + repeat constructor; lia.
    + lia.
    + destruct (Z.eq_dec n 0) as [->|]; [left; auto|]. right. split; [lia|]. exists (48 + n), []. split; [reflexivity|lia].
  - destruct f as [|f]; [cbn in R; lia|].
    destruct (IH (n / 10) ((48 + n mod 10) :: acc)) as (ds & E1 & F & V & H); [|lia|].
    { rewrite Nat2Z.inj_succ, Z.pow_succ_r in R by lia. split; [lia|]. apply Z.div_lt_upper_bound; lia. }
    exists (ds ++ [48 + n mod 10]). rewrite <- app_assoc. split; [exact E1|]. split; [|split].
    + apply Forall_app. split; [assumption|]. repeat constructor; lia.
    + rewrite digits_value_snoc, V. lia.
    + right. split; [lia|]. destruct H as [(Q & _)|(_ & c & r & -> & C)]; [lia|]. exists c, (r ++ [48 + n mod 10]). split; [reflexivity|assumption].
Qed.
Lemma uint_text_json n : 0 <= n < 2^64 -> json_int (uint_text n) n.
Proof.
  intros R. destruct (digits_n_spec 20 n []) as (ds & E & F & V & H); [lia|lia|].
  unfold uint_text. rewrite E, app_nil_r. destruct H as [(-> & ->)|(P & c & r & -> & C)]; [constructor|].
  rewrite <- V. constructor; [assumption|]. inversion F; assumption.
Qed.
Lemma int_text_json n : - 2^63 <= n < 2^63 -> json_int (int_text n) n.
Proof.
  intros R. unfold int_text. destruct (n <? 0) eqn:E; [|apply uint_text_json; lia].
  destruct (digits_n_spec 20 (- n) []) as (ds & E1 & F & V & H); [lia|lia|].
  unfold uint_text. rewrite E1, app_nil_r. destruct H as [(Q & _)|(P & c & r & -> & C)]; [lia|].
  replace n with (- digits_value 0 (c :: r)) at 1 by lia. constructor; [assumption|]. inversion F; assumption.
Qed.

(** ** Base64 *)
Lemma sym_sextet i : 0 <= i < 64 -> sextet (sym i) = Some i.
Proof.
  intros R. assert (H : forall n, (n < 64)%nat -> sextet (sym (Z.of_nat n)) = Some (Z.of_nat n)).
  { intros n L. do 64 (destruct n as [|n]; [reflexivity|]). lia. }
  specialize (H (Z.to_nat i) ltac:(lia)). rewrite Z2Nat.id in H by lia. exact H.
Qed.
Lemma land63 x : Z.land x 63 = x mod 64.
Proof. change 63 with (Z.ones 6). apply Z.land_ones. lia. Qed.
Lemma lor_shift a b n k : 0 <= n -> k = 2^n -> 0 <= a -> 0 <= b < k -> Z.lor (Z.shiftl a n) b = a * k + b.
Proof.
  intros N -> A B. rewrite Z.shiftl_mul_pow2 by lia.
  rewrite <- Z.lxor_lor; [rewrite <- Z.add_nocarry_lxor; [reflexivity|]|];
  (apply Z.bits_inj'; intros m M; rewrite Z.land_spec, Z.bits_0;
   destruct (Z_lt_ge_dec m n) as [L|G];
   [rewrite Z.mul_pow2_bits_low by lia; reflexivity|];
   replace (Z.testbit b m) with false; [apply andb_false_r|];
   symmetry; destruct (Z.eq_dec b 0) as [->|]; [apply Z.bits_0|];
   apply Z.bits_above_log2; [lia|]; apply Z.log2_lt_pow2; [lia|]; apply Z.lt_le_trans with (2^n); [lia|apply Z.pow_le_mono_r; lia]).
Qed.
Lemma base64_b64 n : forall b, (length b <= n)%nat -> is_bytes b -> b64 (base64_quanta b) b.
Proof.
  induction n as [|n IH]; intros b L F; [destruct b; [constructor|cbn in L; lia]|].
  destruct b as [|b0 [|b1 [|b2 r]]].
  - constructor.
  - inversion F as [|? ? F0 _]; subst. unfold is_byte in F0. cbn [base64_quanta].
    rewrite Z.shiftr_div_pow2, Z.shiftl_mul_pow2, land63 by lia. change (2^2) with 4. change (2^4) with 16.
    eapply B64One; [apply sym_sextet; lia|apply sym_sextet; lia|exact F0|lia].
  - inversion F as [|? ? F0 F']; subst. inversion F' as [|? ? F1 _]; subst. unfold is_byte in F0, F1. cbn [base64_quanta].
    cbv zeta. rewrite (lor_shift b0 b1 8 256) by lia.
    rewrite !Z.shiftr_div_pow2, Z.shiftl_mul_pow2, !land63 by lia.
    change (2^10) with 1024. change (2^4) with 16. change (2^2) with 4.
    eapply B64Two; [apply sym_sextet; lia|apply sym_sextet; lia|apply sym_sextet; lia|exact F|lia].
  - inversion F as [|? ? F0 F']; subst. inversion F' as [|? ? F1 F'']; subst. inversion F'' as [|? ? F2 F3]; subst.
    unfold is_byte in F0, F1, F2. cbn [base64_quanta]. cbv zeta.
    replace (Z.lor (Z.lor (Z.shiftl b0 16) (Z.shiftl b1 8)) b2) with (b0 * 65536 + b1 * 256 + b2).
    2:{ rewrite Z.shiftl_mul_pow2 with (a := b1) by lia. change (2^8) with 256.
        rewrite (lor_shift b0 (b1 * 256) 16 65536) by lia.
        replace (b0 * 65536 + b1 * 256) with (Z.shiftl (b0 * 256 + b1) 8) by (rewrite Z.shiftl_mul_pow2; lia).
        rewrite (lor_shift _ b2 8 256) by lia. rewrite Z.shiftl_mul_pow2 by lia. lia. }
    set (x := b0 * 65536 + b1 * 256 + b2). assert (X : 0 <= x < 16777216) by lia.
    rewrite !Z.shiftr_div_pow2, !land63 by lia.
    change (2^18) with 262144. change (2^12) with 4096. change (2^6) with 64.
    eapply B64Three; [apply sym_sextet; lia|apply sym_sextet; lia|apply sym_sextet; lia|apply sym_sextet; lia|
      repeat constructor; unfold is_byte; lia|fold x; clearbody x; lia|].
    apply IH; [cbn [length] in L; lia|assumption].
Qed.
