(** Proofs about booleans, null, floats, and the cases that do not round trip. *)
From Verif Require Import GoBase BaseLemmas JrpcModel JrpcSpec JrpcProofs JrpcText JrpcSim JrpcRound.

Lemma from_go n x t init v p' s' : x <> [] -> go (decode n t init) 0 x v p' s' ->
  decode_from n [x] t init = Ok (Good v).
Proof.
  intros N G. unfold decode_from. pose proof (at_new x) as A. destruct x as [|c x]; [congruence|].
  destruct (G _ A) as (d' & E & _). rewrite E. reflexivity.
Qed.
Lemma from_goq n x t init v Q : x <> [] -> goq (decode n t init) 0 x v Q ->
  decode_from n [x] t init = Ok (Good v).
Proof.
  intros N G. unfold decode_from. pose proof (at_new x) as A. destruct x as [|c x]; [congruence|].
  destruct (G _ A) as (d' & E & _). rewrite E. reflexivity.
Qed.
Lemma from_fails n x t init : x <> [] -> fails (decode n t init) 0 x ->
  exists e, decode_from n [x] t init = Ok (Fail e) /\ e <> EFuel.
Proof.
  intros N G. unfold decode_from. pose proof (at_new x) as A. destruct x as [|c x]; [congruence|].
  destruct (G _ A) as (e & d' & E & F). exists e. rewrite E. auto.
Qed.

Lemma go_blanks n p ws x rest : (length ws < n)%nat -> Forall blank ws -> starts x ->
  go (skip_space n) p (ws ++ x ++ rest) tt (p + zlen ws) (x ++ rest).
Proof.
  intros L F S0. destruct (starts_at _ rest S0) as (c & r & -> & B & _). apply go_space; assumption.
Qed.

Lemma decode_slice n t init : decode n (TSlice t) init =
  (_ <- skip_space n ;; c <- scan ;; if negb (c =? 91) then dfail EBad else
   _ <- skip_space n ;; c <- peek ;; if c =? 93 then dret (VSlice (Some [])) else
   vs <- elems_loop n (decode n t) (fun _ => true) (fun _ => zero t) n [] ;; dret (VSlice (Some vs))).
Proof. reflexivity. Qed.

(** ** Integers *)
Lemma sgn_i64 w z : sgn w (i64 z) = sgn w (i64 (i64 z)).
Proof. rewrite i64_idem. reflexivity. Qed.
Lemma dec_int n ws x z w init rest p : json_int x z -> - 2^63 <= z < 2^63 -> Forall blank ws -> ended rest ->
  (length (ws ++ x ++ rest) < n)%nat ->
  goq (decode n (TInt w) init) p (ws ++ x ++ rest) (VInt (sgn w z)) (after_number (p + zlen ws + zlen x) rest).
Proof.
  intros J R B E L. rewrite !app_length in L. cbn [decode].
  eapply goq_bind; [apply go_blanks; [lia|assumption|eapply json_int_starts; exact J]|].
  apply (goq_map _ (fun z => VInt (sgn w z))). apply goq_int; auto. lia.
Qed.
Lemma dec_uint n ws x z w init rest p : json_int x z -> 0 <= z < 2^64 -> Forall blank ws -> ended rest ->
  (length (ws ++ x ++ rest) < n)%nat ->
  goq (decode n (TUint w) init) p (ws ++ x ++ rest) (VInt (z mod 2^w)) (after_number (p + zlen ws + zlen x) rest).
Proof.
  intros J R B E L. rewrite !app_length in L. cbn [decode].
  eapply goq_bind; [apply go_blanks; [lia|assumption|eapply json_int_starts; exact J]|].
  apply (goq_map _ (fun z => VInt (z mod 2^w))). apply goq_uint; auto. lia.
Qed.
Lemma app_nonempty (a b c : bytes) : b <> [] -> a ++ b ++ c <> [].
Proof. intros N E. apply app_eq_nil in E. destruct E as (_ & E). apply app_eq_nil in E. tauto. Qed.
Lemma starts_nonempty x : starts x -> x <> [].
Proof. intros (c & r & -> & _). discriminate. Qed.

(** an integer whose delimiter is the last byte of a buffer *)
Lemma int_panic n ws x z w rest : json_int x z -> - 2^63 <= z < 2^63 -> Forall blank ws -> 
  (length (91%Z :: ws ++ x ++ 93%Z :: rest) < n)%nat -> (1 + zlen ws + zlen x) mod 256 = 255 -> forall init,
  decode_from n [91 :: ws ++ x ++ 93 :: rest] (TSlice (TInt w)) init = Panic.
Proof.
  intros J R B L M init. pose proof (json_int_starts _ _ J) as SX.
  pose proof L as L'. cbn [length] in L'. rewrite !app_length in L'. cbn [length] in L'.
  unfold decode_from. pose proof (at_new (91 :: ws ++ x ++ 93 :: rest)) as A. cbv iota in A. rewrite decode_slice.
  assert (exists d, (_ <- skip_space n;; c <- scan;; (if negb (c =? 91) then dfail EBad else _ <- skip_space n;; peek)) (new_decoder [91 :: ws ++ x ++ 93 :: rest]) = Ok (Good (hd 0 x), d) /\
     at_ d (1 + zlen ws) (x ++ 93 :: rest)) as (d & E & A1).
  { assert (G : go (_ <- skip_space n;; c <- scan;; (if negb (c =? 91) then dfail EBad else _ <- skip_space n;; peek)) 0 (91 :: ws ++ x ++ 93 :: rest) (hd 0 x) (1 + zlen ws) (x ++ 93 :: rest)).
    { eapply go_bind; [apply go_nospace; [lia|unfold blank; cbn; lia]|]. eapply go_bind; [apply go_scan|].
      change (91 =? 91) with true. cbn [negb]. eapply go_bind; [apply go_blanks; [lia|assumption|assumption]|].
      destruct SX as (c & r & -> & _). cbn [app hd]. apply go_peek. }
    apply G in A. exact A. }
  assert (HX : (hd 0 x =? 93) = false). { destruct SX as (c & r & -> & _ & _ & Q). cbn. lia. }
  assert (P : elems_loop n (decode n (TInt w)) (fun _ => true) (fun _ => zero (TInt w)) n [] d = Panic).
  { destruct n as [|n']; [lia|]. set (n := S n') in *.
    change (elems_loop n (decode n (TInt w)) (fun _ => true) (fun _ => zero (TInt w)) n [] d) with
      ((v <- decode n (TInt w) (zero (TInt w)) ;; _ <- skip_space n ;; c <- scan ;;
        if c =? 93 then dret ([] ++ [v]) else if negb (c =? 44) then dfail EBad
        else elems_loop n (decode n (TInt w)) (fun _ => true) (fun _ => zero (TInt w)) n' ([] ++ [v])) d).
    pose proof (dec_int n [] x z w (zero (TInt w)) (93 :: rest) (1 + zlen ws) J R ltac:(constructor) ltac:(cbn; unfold delimiter; cbn; auto)) as D.
    cbn [app] in D. rewrite zlen_nil, Z.add_0_r in D. rewrite app_length in D. cbn [length] in D. specialize (D ltac:(lia) d A1).
    destruct D as (d' & E' & _ & Q). destruct (Q ltac:(discriminate) M) as (Q1 & Q2).
    unfold dbind at 1. rewrite E'. unfold dbind at 1. subst n. cbn [skip_space]. unfold dbind at 1. rewrite Q2. reflexivity. }
  unfold dbind in *. destruct (skip_space n _) as [[[u|e] d1]|]; try discriminate.
    destruct (scan d1) as [[[c|e] d2]|]; try discriminate. destruct (negb (c =? 91)); [discriminate|].
    destruct (skip_space n d2) as [[[u'|e] d3]|]; try discriminate. rewrite E. rewrite HX, P. reflexivity.
Qed.

(** ** Booleans *)
Lemma bool_four n ws a b c init rest :
  In a [102; 116] -> In b [97; 114] -> In c [108; 117] -> Forall blank ws -> (length ws < n)%nat ->
  decode_from n [ws ++ [a; b; c; 101] ++ rest] TBool init = Ok (Good (VBool true)).
Proof.
  intros A B C F L.
  eapply from_go; [apply app_nonempty; discriminate|]. cbn [decode].
  eapply go_bind.
  { apply go_blanks; [exact L|exact F|]. exists a, [b; c; 101]. split; [reflexivity|]. unfold blank. cbn [In] in *. lia. }
  eapply go_bind; [|apply go_ret]. unfold decode_bool. cbn [bool_loop app].
  eapply go_bind; [apply go_scan|]. replace (negb (a =? 102) && negb (a =? 116)) with false by (cbn [In] in A; lia).
  change (Nat.eqb 0 3) with false. cbn [andb].
  eapply go_bind; [apply go_scan|]. replace (negb (b =? 97) && negb (b =? 114)) with false by (cbn [In] in B; lia).
  change (Nat.eqb 1 3) with false. cbn [andb].
  eapply go_bind; [apply go_scan|]. replace (negb (c =? 108) && negb (c =? 117)) with false by (cbn [In] in C; lia).
  change (Nat.eqb 2 3) with false. cbn [andb].
  eapply go_bind; [apply go_scan|]. cbn -[dret]. apply go_ret.
Qed.
Lemma bool_five n ws a b c e init rest :
  In a [102; 116] -> In b [97; 114] -> In c [108; 117] -> Forall blank ws -> (length ws < n)%nat ->
  decode_from n [ws ++ [a; b; c; 115; e] ++ rest] TBool (VBool init) = Ok (Good (VBool init)).
Proof.
  intros A B C F L.
  eapply from_go; [apply app_nonempty; discriminate|]. cbn [decode].
  eapply go_bind.
  { apply go_blanks; [exact L|exact F|]. exists a, [b; c; 115; e]. split; [reflexivity|]. unfold blank. cbn [In] in *. lia. }
  eapply go_bind; [|apply go_ret]. unfold decode_bool. cbn [bool_loop app].
  eapply go_bind; [apply go_scan|]. replace (negb (a =? 102) && negb (a =? 116)) with false by (cbn [In] in A; lia).
  change (Nat.eqb 0 3) with false. cbn [andb].
  eapply go_bind; [apply go_scan|]. replace (negb (b =? 97) && negb (b =? 114)) with false by (cbn [In] in B; lia).
  change (Nat.eqb 1 3) with false. cbn [andb].
  eapply go_bind; [apply go_scan|]. replace (negb (c =? 108) && negb (c =? 117)) with false by (cbn [In] in C; lia).
  change (Nat.eqb 2 3) with false. cbn [andb].
  eapply go_bind; [apply go_scan|]. change (negb (115 =? 115) && negb (115 =? 101)) with false. change (115 =? 101) with false.
  rewrite andb_false_r. eapply go_bind; [apply go_scan|]. rewrite andb_false_r. change (Nat.eqb 4 3) with false. cbn [andb]. apply go_ret.
Qed.

(** ** Floats *)
Lemma digit_not_closes' c : digit c -> (c =? 45) = false /\ (c =? 46) = false /\ closes c = false /\ is_digit c = true.
Proof. unfold digit, closes, is_digit. lia. Qed.
Lemma closed_cons c s : closed (c :: s) -> (c =? 45) = false /\ (c =? 46) = false /\ closes c = true.
Proof. unfold closed, delimiter, closes. cbn [In]. lia. Qed.
Lemma goq_float_end n w f e g p rest : closed rest ->
  goq (float_loop (S n) w f e g) p rest (float_of w f e g) (fun _ => True).
Proof.
  intros E. destruct rest as [|c s].
  - cbn [float_loop]. eapply goq_bind; [apply go_eof|]. cbv iota. intros d X. exists d. split; [reflexivity|exact I].
  - destruct (closed_cons _ _ E) as (N & N' & C). intros d X.
    destruct (goq_unread p c s _ (float_of w f e g) d X) as (d' & G & A). exists d'. split; [|exact I].
    cbn [float_loop]. unfold dbind at 1. unfold dbind at 1 in G.
    destruct (go_scan_or_eof p c s d X) as (d1 & G1 & _). rewrite G1 in *. rewrite N, N', C. exact G.
Qed.
Lemma goq_whole ds : Forall digit ds -> forall n w f g p rest a Q, 0 <= w -> digits_value w ds < 2^63 ->
  (forall n', (n - length ds <= n')%nat -> goq (float_loop n' (digits_value w ds) f 0 g) (p + zlen ds) rest a Q) ->
  (length ds <= n)%nat -> goq (float_loop n w f 0 g) p (ds ++ rest) a Q.
Proof.
  induction 1 as [|c ds D F IH]; intros n w f g p rest a Q W V H L.
  - cbn [app digits_value] in *. specialize (H n ltac:(cbn; lia)). change (p + zlen (@nil Z)) with (p + 0) in H. rewrite Z.add_0_r in H. exact H.
  - cbn [length] in L. destruct n as [|n]; [lia|]. cbn [app float_loop].
    eapply goq_bind; [apply go_scan_or_eof|]. destruct (digit_not_closes' _ D) as (N1 & N2 & N3 & N4).
    rewrite N1, N2, N3, N4. cbn [negb]. change (0 =? 0) with true. cbv iota.
    cbn [digits_value] in *. unfold digit in D.
    assert (V' : w * 10 + (c - 48) <= digits_value (w * 10 + (c - 48)) ds).
    { assert (P : 0 <= w * 10 + (c - 48)) by lia. revert P. generalize (w * 10 + (c - 48)). clear -F.
      induction F as [|d ds D F IH]; intros x P; cbn [digits_value]; [lia|]. unfold digit in D. specialize (IH (x * 10 + (d - 48)) ltac:(lia)). lia. }
    rewrite i64_small by lia. apply IH; try lia.
    intros n' Ln. replace (p + 1 + zlen ds) with (p + zlen (c :: ds)) by (rewrite zlen_cons; lia). apply H. cbn [length]. lia.
Qed.
Lemma digits_bound ds : Forall digit ds -> forall a, 0 <= a -> 0 <= digits_value a ds < (a + 1) * 10 ^ zlen ds.
Proof.
  induction 1 as [|c ds D F IH]; intros a A; cbn [digits_value]; [change (zlen (@nil Z)) with 0; change (10 ^ 0) with 1; lia|].
  unfold digit in D. specialize (IH (a * 10 + (c - 48)) ltac:(lia)). rewrite zlen_cons, Z.pow_add_r by (try lia; apply zlen_nonneg).
  assert (0 < 10 ^ zlen ds) by (apply Z.pow_pos_nonneg; [lia|apply zlen_nonneg]). change (10 ^ 1) with 10. nia.
Qed.
Lemma goq_fract es : Forall digit es -> forall n w f k g p rest, 0 <= f -> 0 <= k -> k + zlen es <= 19 -> f < 10 ^ k -> closed rest ->
  (length es < n)%nat ->
  goq (float_loop n w f (10 ^ k) g) p (es ++ rest) (float_of w (digits_value f es) (10 ^ (k + zlen es)) g) (fun _ => True).
Proof.
  induction 1 as [|c es D F IH]; intros n w f k g p rest F0 K0 KL FK C L.
  - destruct n as [|n]; [cbn in L; lia|]. cbn [app digits_value]. change (zlen (@nil Z)) with 0. rewrite Z.add_0_r. apply goq_float_end. assumption.
  - cbn [length] in L. destruct n as [|n]; [lia|]. cbn [app float_loop].
    eapply goq_bind; [apply go_scan_or_eof|]. destruct (digit_not_closes' _ D) as (N1 & N2 & N3 & N4).
    rewrite N1, N2, N3, N4. cbn [negb]. rewrite zlen_cons in *. pose proof (zlen_nonneg es).
    assert (P : 0 < 10 ^ k) by (apply Z.pow_pos_nonneg; lia).
    assert (P1 : 10 ^ (k + 1) = 10 ^ k * 10) by (rewrite Z.pow_add_r by lia; reflexivity).
    assert (P2 : 10 ^ (k + 1) <= 10 ^ 19) by (apply Z.pow_le_mono_r; lia). change (10 ^ 19) with 10000000000000000000 in P2.
    destruct (10 ^ k =? 0) eqn:Z0; [lia|]. unfold digit in D. cbn [digits_value].
    rewrite !u64_small by lia. rewrite <- P1. replace (k + (1 + zlen es)) with (k + 1 + zlen es) by lia.
    apply IH; try lia; assumption.
Qed.
Lemma goq_decimal n neg ds es p rest : Forall digit ds -> Forall digit es -> zlen es <= 19 -> digits_value 0 ds < 2^63 -> closed rest ->
  (length ds + length es + 1 < n)%nat ->
  goq (float_loop n 0 0 0 neg) p (ds ++ 46 :: es ++ rest)
    (float_of (digits_value 0 ds) (digits_value 0 es) (10 ^ zlen es) neg) (fun _ => True).
Proof.
  intros F1 F2 L1 V C L. apply goq_whole; auto; try lia. intros n' Ln. destruct n' as [|n']; [lia|]. cbn [float_loop].
  eapply goq_bind; [apply go_scan_or_eof|]. change (46 =? 45) with false. change (46 =? 46) with true. cbv iota.
  pose proof (goq_fract es F2 n' (digits_value 0 ds) 0 0 neg (p + zlen ds + 1) rest ltac:(lia) ltac:(lia) ltac:(lia) ltac:(cbn; lia) C ltac:(lia)) as G.
  exact G.
Qed.
Lemma float_decimal n ws ds es rest init : Forall blank ws -> ds <> [] -> Forall digit ds -> Forall digit es -> zlen es <= 19 -> digits_value 0 ds < 2^63 ->
  closed rest -> (length (ws ++ ds ++ 46%Z :: es ++ rest) < n)%nat ->
  decode_from n [ws ++ ds ++ 46 :: es ++ rest] TFloat init =
    Ok (Good (VFloat (FRat (digits_value 0 ds * 10 ^ zlen es + digits_value 0 es) (10 ^ zlen es)))).
Proof.
  intros B N F1 F2 L1 V C L. eapply from_goq; [apply app_nonempty; exact N|]. cbn [decode].
  rewrite !app_length in L. cbn [length] in L. rewrite app_length in L.
  eapply goq_bind.
  { apply go_blanks; [lia|exact B|]. destruct ds as [|c ds]; [congruence|]. inversion F1 as [|? ? D _]; subst. unfold digit in D.
    exists c, ds. split; [reflexivity|]. unfold blank. cbn [In]. lia. }
  pose proof (goq_decimal n false ds es (0 + zlen ws) rest F1 F2 L1 V C ltac:(lia)) as G.
  unfold float_of in G. pose proof (Z.pow_pos_nonneg 10 (zlen es) ltac:(lia) (zlen_nonneg es)) as P.
  destruct (10 ^ zlen es =? 0) eqn:Z0; [lia|]. exact (goq_map _ VFloat _ _ _ _ G).
Qed.
Lemma float_negative n ds es rest init : ds <> [] -> Forall digit ds -> Forall digit es -> zlen es <= 19 -> digits_value 0 ds < 2^63 ->
  closed rest -> (length (45%Z :: ds ++ 46%Z :: es ++ rest) < n)%nat ->
  decode_from n [45 :: ds ++ 46 :: es ++ rest] TFloat init =
    Ok (Good (VFloat (FRat (- digits_value 0 ds * 10 ^ zlen es + digits_value 0 es) (10 ^ zlen es)))).
Proof.
  intros N F1 F2 L1 V C L. eapply from_goq; [discriminate|]. cbn [decode].
  cbn [length] in L. rewrite !app_length in L. cbn [length] in L. rewrite app_length in L.
  eapply goq_bind; [apply go_nospace; [lia|unfold blank; cbn; lia]|].
  destruct n as [|n]; [lia|].
  pose proof (goq_decimal n true ds es (0 + 1) rest F1 F2 L1 V C ltac:(lia)) as G.
  unfold float_of in G. pose proof (Z.pow_pos_nonneg 10 (zlen es) ltac:(lia) (zlen_nonneg es)) as P.
  destruct (10 ^ zlen es =? 0) eqn:Z0; [lia|]. pose proof (digits_bound ds F1 0 ltac:(lia)) as DB. rewrite i64_small in G by lia.
  apply (goq_map _ VFloat). cbn [float_loop]. eapply goq_bind; [apply go_scan_or_eof|]. exact G.
Qed.
Lemma float_whole n ds rest init : ds <> [] -> Forall digit ds -> digits_value 0 ds < 2^63 ->
  closed rest -> (length (ds ++ rest) < n)%nat ->
  decode_from n [ds ++ rest] TFloat init = Ok (Good (VFloat FNaN)).
Proof.
  intros N F1 V C L. assert (X : ds ++ rest <> []) by (destruct ds; [congruence|discriminate]).
  eapply from_goq; [exact X|]. cbn [decode]. rewrite app_length in L.
  eapply goq_bind.
  { apply go_start; [lia|]. destruct ds as [|c ds]; [congruence|]. inversion F1 as [|? ? D _]; subst. unfold digit in D.
    exists c, ds. split; [reflexivity|]. unfold blank. cbn [In]. lia. }
  apply (goq_map _ VFloat). apply goq_whole; auto; try lia. intros n' Ln. destruct n' as [|n']; [lia|].
  apply (goq_float_end n' (digits_value 0 ds) 0 0 false). assumption.
Qed.

(** ** Surrogate pairs *)
Lemma rune_surrogate c : 55296 <= c < 57344 -> rune_text c = [239; 191; 189].
Proof.
  intros R. unfold rune_text, in_range. destruct (c <? 128) eqn:E1; [lia|]. destruct (c <? 2048) eqn:E2; [lia|].
  destruct (_ || _) eqn:E3; [reflexivity|lia].
Qed.
Lemma pair_decodes n x bs rest init : pair_escape x bs -> (5 < n)%nat ->
  decode_from n [34 :: x ++ 34 :: rest] TString init = Ok (Good (VStr [239; 191; 189; 239; 191; 189])).
Proof.
  intros P L. destruct P as [h l hi lo bs H1 H2 R1 R2 C].
  eapply from_go; [discriminate|]. cbn [decode]. eapply go_bind; [apply go_nospace; [lia|unfold blank; cbn; lia]|].
  eapply go_bind; [|apply go_ret]. unfold decode_string. eapply go_bind; [apply go_scan|]. change (34 =? 34) with true. cbv iota.
  destruct n as [|[|[|n]]]; try lia. cbn [app]. rewrite <- app_assoc. cbn [string_loop app].
  eapply go_bind; [apply go_scan|]. change (92 =? 34) with false. change (92 =? 92) with true. cbv iota.
  eapply go_bind; [apply go_scan|]. cbn -[string_loop scan_unicode zlen dbind scan].
  eapply go_bind; [apply go_unicode; exact H1|]. rewrite rune_surrogate by lia.
  cbn [app]. cbn [string_loop].
  eapply go_bind; [apply go_scan|]. change (92 =? 34) with false. change (92 =? 92) with true. cbv iota.
  eapply go_bind; [apply go_scan|]. cbn -[string_loop scan_unicode zlen dbind scan].
  eapply go_bind; [apply go_unicode; exact H2|]. rewrite rune_surrogate by lia.
  cbn [app string_loop].
  eapply go_bind; [apply go_scan|]. change (34 =? 34) with true. cbv iota. apply go_ret.
Qed.

(** ** null *)
Definition adv (d : dec) : dec := {| seg := seg d; head := head d + 1; size := size d; rd := rd d |}.
Lemma full_scan d p c c2 s : full d p (c :: c2 :: s) -> p mod 256 < 255 ->
  scan d = Ok (Good c, adv d) /\ full (adv d) (p + 1) (c2 :: s).
Proof.
  intros U Q. pose proof (full_byte _ _ _ _ U) as (_ & I). destruct U as (P & H & L & S0 & X).
  destruct X as [(HL & HR & E)|(H0 & _)]; [|lia].
  pose proof (Z.mod_pos_bound p 256 ltac:(lia)) as B.
  apply skipn_tail in E; [|rewrite firstn_length; lia]. destruct E as (_ & E).
  assert (HS : head d + 1 < size d).
  { destruct (Z.eq_dec (head d + 1) (size d)) as [Y|Y]; [|lia]. rewrite (HR ltac:(lia)) in E.
    rewrite skipn_all2 in E by (rewrite firstn_length; lia). discriminate. }
  split.
  - unfold scan, dbind, fill. destruct (head d =? size d) eqn:F; [lia|]. rewrite I. cbn [obind].
    destruct (head d + 1 =? 256) eqn:G; [lia|]. reflexivity.
  - unfold full, adv. cbn [head seg rd size]. repeat match goal with |- _ /\ _ => split end; auto; try lia.
    left. repeat match goal with |- _ /\ _ => split end; auto; try lia. rewrite E. f_equal. f_equal. lia.
Qed.
Lemma null_not d c r : full d 0 (110 :: 117 :: 108 :: 108 :: c :: r) -> c <> 0 -> is_null d = Ok (Good false, d).
Proof.
  intros U N. pose proof U as (_ & H0 & _). change (0 mod 256) with 0 in H0.
  destruct (full_scan _ _ _ _ _ U ltac:(cbn; lia)) as (E1 & U1).
  destruct (full_scan _ _ _ _ _ U1 ltac:(cbn; lia)) as (E2 & U2).
  destruct (full_scan _ _ _ _ _ U2 ltac:(cbn; lia)) as (E3 & U3).
  destruct (full_scan _ _ _ _ _ U3 ltac:(cbn; lia)) as (E4 & U4).
  apply full_at in U4. destruct (scan_full _ _ _ _ U4) as (d5 & f & F & _ & E5 & _ & S1 & S2 & _ & Q).
  destruct (Q ltac:(cbn; lia)) as (_ & Q2).
  assert (f = adv (adv (adv (adv d)))) as ->.
  { destruct U3 as (_ & H3 & _ & _ & X). unfold fill in F. pose proof (full_byte _ _ _ _ U) as _.
    destruct U as (_ & _ & _ & _ & [(HL & HR & E)|(H255 & _)]); [|lia].
    assert (4 < size d).
    { apply (f_equal (@length _)) in E. rewrite app_length, skipn_length, firstn_length in E. cbn [length] in E.
      destruct (Z_lt_ge_dec (size d) 256) as [SL|SG]; [rewrite (HR SL) in E; cbn [concat length] in E; lia|lia]. }
    cbn [adv head size] in F. destruct (_ =? _) eqn:EQ in F; [lia|]. injection F as <-. reflexivity. }
  unfold is_null, dbind, get_head. rewrite E1. change (110 =? 110) with true. cbn [null_loop]. unfold dbind.
  rewrite E2. change (117 =? 117) with true. cbn [null_loop]. unfold dbind. rewrite E3. change (108 =? 108) with true. cbn [null_loop]. unfold dbind.
  rewrite E4. change (108 =? 108) with true. cbn [null_loop]. unfold dbind. rewrite E5. destruct (c =? 0) eqn:Z0; [lia|].
  unfold dret, set_head. rewrite S1, S2, Q2. destruct d; reflexivity.
Qed.
Lemma null_eof d : full d 0 [110; 117; 108; 108] -> exists d', is_null d = Ok (Fail EEOF, d').
Proof.
  intros U. pose proof (full_at _ _ _ U) as A.
  assert (G : fails is_null 0 [110; 117; 108; 108]).
  { unfold is_null. intros d0 A0. unfold dbind at 1, get_head.
    assert (K : fails (c <- scan ;; n <- (if c =? 110 then null_loop [117; 108; 108; 0] else dret false) ;;
              if n : bool then dret true else (_ <- set_head (head d0) ;; dret false)) 0 [110; 117; 108; 108]).
    { eapply fails_then; [apply go_scan|]. change (110 =? 110) with true. cbv iota. apply fails_bind. cbn [null_loop].
      eapply fails_then; [apply go_scan|]. change (117 =? 117) with true. cbv iota.
      eapply fails_then; [apply go_scan|]. change (108 =? 108) with true. cbv iota.
      eapply fails_then; [apply go_scan|]. change (108 =? 108) with true. cbv iota.
      apply fails_bind. apply fails_scan. }
    exact (K d0 A0). }
  destruct (full_scan _ _ _ _ _ U ltac:(cbn; lia)) as (E1 & U1).
  destruct (full_scan _ _ _ _ _ U1 ltac:(cbn; lia)) as (E2 & U2).
  destruct (full_scan _ _ _ _ _ U2 ltac:(cbn; lia)) as (E3 & U3).
  apply full_at in U3. destruct (scan_ok _ _ _ _ U3) as (d4 & E4 & A4). pose proof (scan_eof _ _ A4) as E5.
  exists d4. unfold is_null, dbind, get_head. rewrite E1. change (110 =? 110) with true. cbn [null_loop]. unfold dbind.
  rewrite E2. change (117 =? 117) with true. cbn [null_loop]. unfold dbind. rewrite E3. change (108 =? 108) with true. cbn [null_loop]. unfold dbind.
  rewrite E4. change (108 =? 108) with true. cbn [null_loop]. unfold dbind. rewrite E5. reflexivity.
Qed.
Lemma skip_full n d p c s : full d p (c :: s) -> ~ blank c -> skip_space (S n) d = Ok (Good tt, d).
Proof.
  intros U B. pose proof (full_byte _ _ _ _ U) as (_ & I). destruct U as (P & H & L & S0 & X).
  pose proof (Z.mod_pos_bound p 256 ltac:(lia)) as BB.
  cbn [skip_space]. unfold dbind at 1, peek. unfold dbind at 1, fill.
  destruct (head d =? size d) eqn:F; [destruct X as [(HL & _)|(H0 & Z0 & _)]; lia|]. rewrite I. cbn [obind].
  destruct (is_space c) eqn:Q; [apply is_space_blank in Q; contradiction|]. reflexivity.
Qed.
Lemma null_fails n rest : (0 < n)%nat -> hd 1 rest <> 0 -> forall t d, full d 0 (110 :: 117 :: 108 :: 108 :: rest) ->
  exists e d', decode n t (zero t) d = Ok (Fail e, d') /\ e <> EFuel.
Proof.
  intros N0 Z0. destruct n as [|n]; [lia|]. set (m := S n).
  assert (SK : forall d, full d 0 (110 :: 117 :: 108 :: 108 :: rest) -> skip_space m d = Ok (Good tt, d)).
  { intros d U. eapply skip_full; [exact U|unfold blank; cbn; lia]. }
  assert (SC : forall d, full d 0 (110 :: 117 :: 108 :: 108 :: rest) -> scan d = Ok (Good 110, adv d)).
  { intros d U. apply (full_scan _ _ _ _ _ U). cbn; lia. }
  assert (ISN : forall d, full d 0 (110 :: 117 :: 108 :: 108 :: rest) ->
     is_null d = Ok (Good false, d) \/ exists d', is_null d = Ok (Fail EEOF, d')).
  { intros d U. destruct rest as [|c r]; [right; apply null_eof; exact U|left]. eapply null_not; [exact U|exact Z0]. }
  induction t; intros d U; cbn [decode zero]; unfold dbind at 1; rewrite (SK d U).
  - unfold decode_bool. cbn [bool_loop]. unfold dbind. rewrite (SC d U). cbn. eexists _, _. split; [reflexivity|discriminate].
  - subst m. cbn [int_loop]. unfold dbind, scan_or_eof. rewrite (SC d U). cbn. eexists _, _. split; [reflexivity|discriminate].
  - subst m. cbn [uint_loop]. unfold dbind, scan_or_eof. rewrite (SC d U). cbn. eexists _, _. split; [reflexivity|discriminate].
  - subst m. cbn [float_loop]. unfold dbind, scan_or_eof. rewrite (SC d U). cbn. eexists _, _. split; [reflexivity|discriminate].
  - unfold decode_string, dbind. rewrite (SC d U). cbn. eexists _, _. split; [reflexivity|discriminate].
  - unfold dbind. rewrite (SC d U). cbn. eexists _, _. split; [reflexivity|discriminate].
  - unfold dbind. rewrite (SC d U). cbn. eexists _, _. split; [reflexivity|discriminate].
  - unfold dbind. rewrite (SC d U). cbn. eexists _, _. split; [reflexivity|discriminate].
  - unfold dbind. rewrite (SC d U). cbn. eexists _, _. split; [reflexivity|discriminate].
  - unfold dbind. rewrite (SC d U). cbn. eexists _, _. split; [reflexivity|discriminate].
  - destruct (ISN d U) as [E|(d' & E)]; unfold dbind; rewrite E; [|eexists _, _; split; [reflexivity|discriminate]].
    destruct (IHt d U) as (e & d' & E' & NE). rewrite E'. eexists _, _. split; [reflexivity|assumption].
  - destruct (ISN d U) as [E|(d' & E)]; unfold dbind; rewrite E; eexists _, _; (split; [reflexivity|discriminate]).
  - eexists _, _. split; [reflexivity|discriminate].
Qed.
Lemma full_new x : x <> [] -> exists d, fill (new_decoder [x]) = Ok (Good tt, d) /\ full d 0 x.
Proof. intros N. destruct x as [|c x]; [congruence|]. apply fill_ok. exact (at_new (c :: x)). Qed.
Lemma skip_new n c x : ~ blank c -> exists d, skip_space (S n) (new_decoder [c :: x]) = Ok (Good tt, d) /\ full d 0 (c :: x).
Proof.
  intros B. destruct (full_new (c :: x) ltac:(discriminate)) as (d & F & U). exists d. split; [|exact U].
  pose proof (full_byte _ _ _ _ U) as (_ & I). cbn [skip_space]. unfold dbind at 1, peek. unfold dbind at 1. rewrite F, I. cbn [obind].
  destruct (is_space c) eqn:Q; [apply is_space_blank in Q; contradiction|]. reflexivity.
Qed.
Lemma decode_after_skip n t init d d1 : skip_space n d = Ok (Good tt, d1) -> skip_space n d1 = Ok (Good tt, d1) ->
  decode n t init d = decode n t init d1.
Proof.
  intros E1 E2. assert (G : forall A (k : unit -> D A), dbind (skip_space n) k d = dbind (skip_space n) k d1).
  { intros A k. unfold dbind. rewrite E1, E2. reflexivity. }
  destruct t; cbn [decode]; apply G.
Qed.
Lemma null_no_type n rest t : (0 < n)%nat -> hd 1 rest <> 0 ->
  exists e, decode_from n [110 :: 117 :: 108 :: 108 :: rest] t (zero t) = Ok (Fail e) /\ e <> EFuel.
Proof.
  intros N0 Z0. destruct n as [|n]; [lia|]. assert (B : ~ blank 110) by (unfold blank; cbn; lia).
  destruct (skip_new n 110 (117 :: 108 :: 108 :: rest) B) as (d & E & U).
  destruct (null_fails (S n) rest ltac:(lia) Z0 t d U) as (e & d' & E' & NE). exists e. split; [|exact NE].
  unfold decode_from. rewrite (decode_after_skip _ _ _ _ _ E (skip_full n d 0 110 _ U B)), E'. reflexivity.
Qed.

(** ** A string cut in two is read wrong (C48) *)
Lemma scan_in d c : 0 <= head d -> head d < size d -> head d + 1 < 256 -> nth_error (seg d) (Z.to_nat (head d)) = Some c ->
  scan d = Ok (Good c, adv d).
Proof.
  intros H0 HS H1 N. unfold scan, dbind, fill. destruct (head d =? size d) eqn:F; [lia|].
  rewrite (index_at _ _ _ H0 N). cbn [obind]. destruct (head d + 1 =? 256) eqn:G; [lia|]. reflexivity.
Qed.
Lemma string_wraps x : forall n acc pre d c, seg d = 34 :: pre ++ x ++ repeat 0 (255 - length pre - length x) ->
  head d = 1 + zlen pre -> size d = 1 + zlen pre + zlen x -> size d < 256 -> rd d = [c] -> (length x < n)%nat ->
  Forall (fun b => b <> 34 /\ b <> 92) x ->
  exists d', string_loop n acc d = Ok (Good (acc ++ x), d').
Proof.
  induction x as [|b x IH]; intros n acc pre d c SG HD SZ LT RD L F; cbn [length] in L; destruct n as [|n]; try lia.
  - rewrite app_nil_r. cbn [string_loop]. unfold dbind at 1.
    change (zlen (@nil Z)) with 0 in SZ. pose proof (zlen_nonneg pre) as ZP.
    assert (E : exists d', scan d = Ok (Good 34, d')).
    { unfold scan, dbind, fill. destruct (head d =? size d) eqn:Q; [|lia].
      destruct ((0 <=? head d) && (head d <=? 256)) eqn:Q2; [|lia]. rewrite RD.
      destruct (read_chunk (256 - Z.to_nat (head d)) [c]) as [[c' r]|] eqn:RC.
      2:{ unfold read_chunk in RC. destruct (Nat.leb _ _); discriminate. }
      cbn [head seg size rd]. rewrite SG. rewrite (index_at _ 0 34); [|lia|].
      - cbn [obind]. change (0 + 1 =? 256) with false. cbv iota. eexists. reflexivity.
      - destruct (Z.to_nat (head d)) as [|h] eqn:HH; [lia|]. reflexivity. }
    destruct E as (d' & E). rewrite E. change (34 =? 34) with true. exists d'. reflexivity.
  - inversion F as [|? ? (N1 & N2) F']; subst. cbn [string_loop]. unfold dbind at 1. rewrite zlen_cons in SZ.
    pose proof (zlen_nonneg pre) as ZP. pose proof (zlen_nonneg x) as ZX.
    rewrite (scan_in d b); [|lia|lia|lia|].
    2:{ rewrite SG, HD. replace (Z.to_nat (1 + zlen pre)) with (S (length pre)) by (unfold zlen; lia). cbn [nth_error].
        rewrite nth_error_app2 by lia. rewrite Nat.sub_diag. reflexivity. }
    destruct (b =? 34) eqn:Q1; [lia|]. destruct (b =? 92) eqn:Q2; [lia|].
    destruct (IH n (acc ++ [b]) (pre ++ [b]) (adv d) c) as (d' & E); cbn [adv seg head size rd]; auto; try lia.
    + rewrite SG. cbn [length]. rewrite app_length. cbn [length]. rewrite <- app_assoc. cbn [app].
      replace (255 - (length pre + 1) - length x)%nat with (255 - length pre - S (length x))%nat by lia. reflexivity.
    + rewrite zlen_app, zlen_cons. change (zlen (@nil Z)) with 0. lia.
    + rewrite zlen_app, zlen_cons. change (zlen (@nil Z)) with 0. lia.
    + exists d'. rewrite E. rewrite <- app_assoc. reflexivity.
Qed.
Lemma string_cut n x c init : Forall (fun b => b <> 34 /\ b <> 92) x -> (length x + 2 < n)%nat -> (length x < 255)%nat ->
  decode_from n [34 :: x; c] TString init = Ok (Good (VStr x)).
Proof.
  intros F L Lx. unfold decode_from. cbn [decode].
  set (d := {| seg := 34 :: [] ++ x ++ repeat 0 (255 - length (@nil Z) - length x); head := 0; size := 1 + zlen x; rd := [c] |}).
  assert (FL : fill (new_decoder [34 :: x; c]) = Ok (Good tt, d)).
  { unfold fill, new_decoder. cbn [head size rd seg]. change (0 =? 0) with true. change ((0 <=? 0) && (0 <=? 256)) with true. cbv iota.
    change (Z.to_nat 0) with 0%nat. change (256 - 0)%nat with 256%nat. unfold read_chunk. cbn [length].
    destruct (Nat.leb (S (length x)) 256) eqn:Q; [|apply Nat.leb_gt in Q; lia]. rewrite zlen_cons, Z.add_0_l.
    assert (SG : firstn 0 (repeat 0 256) ++ (34 :: x) ++ skipn (0 + S (length x)) (repeat 0 256)
      = 34 :: [] ++ x ++ repeat 0 (255 - length (@nil Z) - length x)).
    { rewrite firstn_O. cbn [app length Nat.add]. f_equal. f_equal. rewrite Nat.sub_0_r.
      replace 256%nat with (S (length x) + (255 - length x))%nat by lia. rewrite repeat_app, skipn_app, repeat_length, Nat.sub_diag, skipn_O.
      rewrite skipn_all2 by (rewrite repeat_length; lia). reflexivity. }
    unfold d. rewrite <- SG. reflexivity. }
  assert (N : nth_error (seg d) 0 = Some 34) by reflexivity.
  assert (PK : peek (new_decoder [34 :: x; c]) = Ok (Good 34, d)).
  { unfold peek, dbind. rewrite FL. rewrite (index_at (seg d) (head d) 34); [reflexivity|cbn; lia|exact N]. }
  destruct n as [|n]; [lia|].
  assert (SK : skip_space (S n) (new_decoder [34 :: x; c]) = Ok (Good tt, d)).
  { cbn [skip_space]. unfold dbind at 1. rewrite PK. reflexivity. }
  unfold dbind at 1. rewrite SK. unfold dbind at 1, decode_string. unfold dbind at 1.
  pose proof (zlen_nonneg x) as ZX.
  rewrite (scan_in d 34); [|cbn; lia|cbn [d head size]; lia|cbn; lia|exact N].
  change (34 =? 34) with true. cbv iota.
  destruct (string_wraps x (S n) [] [] (adv d) c) as (d' & E); try reflexivity; auto.
  - cbn [adv d size]. unfold zlen in *. lia.
  - lia.
  - rewrite E. reflexivity.
Qed.

(** ** What does not round trip (C46) *)
Lemma empty_inner ft e vs x n init : (0 < n)%nat -> e <> TUint 8 ->
  encode ft (VSlice (Some (VSlice (Some []) :: vs))) (TSlice (TSlice e)) = Ok x ->
  decode_from n [x] (TSlice (TSlice e)) init = Ok (Good (VSlice (Some [VSlice (Some [])]))).
Proof.
  intros L N E. rewrite enc_slice in E by discriminate. cbn [enc_elems] in E. rewrite enc_slice in E by exact N.
  cbn [enc_elems obind app] in E. destruct (enc_elems (encode ft) (TSlice e) vs) as [b|]; [|discriminate]. cbn [obind] in E.
  assert (X : exists r, x = 91 :: 91 :: 93 :: r).
  { injection E as <-. eexists. reflexivity. }
  destruct X as (r & ->). clear E.
  eapply from_go; [discriminate|]. rewrite decode_slice.
  eapply go_bind; [apply go_nospace; [lia|unfold blank; cbn; lia]|]. eapply go_bind; [apply go_scan|].
  change (91 =? 91) with true. cbn [negb].
  eapply go_bind; [apply go_nospace; [lia|unfold blank; cbn; lia]|]. eapply go_bind; [apply go_peek|]. change (91 =? 93) with false. cbv iota.
  eapply go_bind; [|apply go_ret]. 
  assert (G : forall k, (0 < k)%nat -> go (elems_loop n (decode n (TSlice e)) (fun _ => true) (fun _ => zero (TSlice e)) k []) (0 + 1) (91 :: 93 :: r) [VSlice (Some [])] (0 + 1 + 1 + 1) r).
  { intros k K. destruct k as [|k]; [lia|]. cbn [elems_loop negb].
    eapply go_bind.
    { rewrite decode_slice.
      eapply go_bind; [apply go_nospace; [lia|unfold blank; cbn; lia]|]. eapply go_bind; [apply go_scan|].
      change (91 =? 91) with true. cbn [negb].
      eapply go_bind; [apply go_nospace; [lia|unfold blank; cbn; lia]|]. eapply go_bind; [apply go_peek|]. change (93 =? 93) with true. cbv iota. apply go_ret. }
    eapply go_bind; [apply go_nospace; [lia|unfold blank; cbn; lia]|]. eapply go_bind; [apply go_scan|].
    change (93 =? 93) with true. cbv iota. apply go_ret. }
  apply G. exact L.
Qed.
Lemma empty_map n e init rest : (0 < n)%nat ->
  exists er, decode_from n [123 :: 125 :: rest] (TMap TString e) init = Ok (Fail er) /\ er <> EFuel.
Proof.
  intros L. apply from_fails; [discriminate|]. cbn [decode].
  eapply fails_then; [apply go_nospace; [lia|unfold blank; cbn; lia]|]. eapply fails_then; [apply go_scan|].
  change (123 =? 123) with true. cbn [negb].
  eapply fails_then; [apply go_nospace; [lia|unfold blank; cbn; lia]|]. change (123 =? 125) with false. cbv iota.
  apply fails_bind. destruct n as [|n]; [lia|]. cbn [map_loop]. apply fails_bind.
  eapply fails_then; [apply go_nospace; [lia|unfold blank; cbn; lia]|]. apply fails_bind. unfold decode_string.
  eapply fails_then; [apply go_scan|]. change (125 =? 34) with false. cbv iota. apply fails_bad.
Qed.
Lemma two_fields ft n n1 t1 n2 t2 s1 s2 x : plain_field n1 t1 -> plain_field n2 t2 -> utf8 s1 ->
  encode ft (VStruct [VStr s1; VStr s2]) (TStruct [(n1, t1, TString); (n2, t2, TString)]) = Ok x -> (length x < n)%nat ->
  exists er, decode_from n [x] (TStruct [(n1, t1, TString); (n2, t2, TString)])
    (zero (TStruct [(n1, t1, TString); (n2, t2, TString)])) = Ok (Fail er) /\ er <> EFuel.
Proof.
  intros P1 P2 U E L. destruct (plain_field_name n1 t1 TString P1) as (m1 & M1 & E1 & D1 & O1).
  destruct (plain_field_name n2 t2 TString P2) as (m2 & M2 & E2 & D2 & O2).
  cbn [encode enc_fields] in E. cbn [obind] in E. rewrite O1, O2, E1, E2 in E. cbn [snd] in E.
  change (encode ft (VStr s1) TString) with (@Ok bytes (quote s1)) in E. change (encode ft (VStr s2) TString) with (@Ok bytes (quote s2)) in E.
  pose proof (quote_utf8 s1 U) as J1. set (q1 := quote s1) in *. set (q2 := quote s2) in *. clearbody q1 q2. cbn [obind app] in E.
  assert (X : exists r, x = 123 :: 34 :: (m1 ++ 34 :: 58 :: (q1 ++ 34 :: r))).
  { injection E as <-. eexists. rewrite <- !app_assoc. cbn [app]. rewrite <- !app_assoc. reflexivity. }
  destruct X as (r & ->). clear E. apply from_fails; [discriminate|].
  assert (LN : (length m1 + 2 + length q1 + 2 < n)%nat).
  { clear -L. repeat (rewrite ?app_length in L; cbn [length app] in L). lia. }
  assert (G : forall k vs, (0 < k)%nat -> (exists a b, vs = [a; b]) -> fails (fields_loop n (_ <- skip_space n;; decode_string n)
     (upd_field (decode n) [(n1, t1, TString); (n2, t2, TString)]) (decode_nil_iface n) [(n1, t1, TString); (n2, t2, TString)] k vs) (0 + 1)
     (34 :: (m1 ++ 34 :: 58 :: (q1 ++ 34 :: r)))).
  { intros k vs K (a & b & ->). destruct k as [|k]; [lia|]. cbn [fields_loop].
    eapply fails_then.
    { eapply go_bind; [apply go_nospace; [lia|unfold blank; cbn; lia]|]. apply (go_name n m1 (0 + 1)); [exact M1|lia]. }
    eapply fails_then; [apply go_nospace; [lia|unfold blank; cbn; lia]|]. eapply fails_then; [apply go_scan|].
    change (58 =? 58) with true. cbn [negb].
    pose proof (json_string_starts _ _ J1) as SQ.
    eapply fails_then; [apply go_start; [lia|exact SQ]|].
    assert (FI : exists i, field_index 0 m1 [(n1, t1, TString); (n2, t2, TString)] = Some i /\ (i < 2)%nat).
    { cbn [field_index]. rewrite D1, D2. destruct (bytes_eqb m2 m1); [eauto|].
      replace (bytes_eqb m1 m1) with true by (symmetry; apply bytes_eqb_eq; reflexivity). eauto. }
    destruct FI as (i & -> & I2).
    assert (DV : forall v p, go (decode n TString v) p (q1 ++ 34 :: r) (VStr s1) (p + zlen q1) (34 :: r)).
    { intros v p. cbn [decode]. eapply go_bind; [apply go_start; [lia|exact SQ]|]. eapply go_bind; [apply go_string; [exact J1|lia]|]. apply go_ret. }
    assert (UV : exists vs', forall p, go (upd_field (decode n) [(n1, t1, TString); (n2, t2, TString)] i [a; b]) p (q1 ++ 34 :: r) vs' (p + zlen q1) (34 :: r)).
    { destruct i as [|[|i]]; [| |lia]; cbn [upd_field].
      - eexists. intros p. eapply go_bind; [apply DV|apply go_ret].
      - eexists. intros p. eapply go_bind; [eapply go_bind; [apply DV|apply go_ret]|apply go_ret]. }
    destruct UV as (vs' & UV). eapply fails_then; [apply UV|].
    eapply fails_then; [apply go_nospace; [lia|unfold blank; cbn; lia]|]. eapply fails_then; [apply go_scan|].
    change (34 =? 125) with false. change (34 =? 44) with false. cbn [negb]. apply fails_bad. }
  cbn [decode]. eapply fails_then; [apply go_nospace; [lia|unfold blank; cbn; lia]|]. eapply fails_then; [apply go_scan|].
  change (123 =? 123) with true. cbn [negb].
  eapply fails_then; [apply go_nospace; [lia|unfold blank; cbn; lia]|]. eapply fails_then; [apply go_peek|].
  change (34 =? 125) with false. cbv iota. apply fails_bind. apply G; [lia|]. cbn. eauto.
Qed.

(** ** Encoding succeeds *)
Lemma enc_total_size ft m0 : forall t v, (tsize t < m0)%nat -> plain t v -> exists x, encode ft v t = Ok x.
Proof.
  induction m0 as [|m0 IH]; intros t v L P; [lia|].
  destruct t; cbn [plain] in P; try contradiction; destruct v; cbn [plain] in P; try contradiction;
    try (destruct fs as [|[[fa fb] fe] [|]]; contradiction); try (destruct t1; contradiction).
  - destruct b; eexists; reflexivity.
  - eexists; reflexivity.
  - eexists; reflexivity.
  - eexists; reflexivity.
  - destruct l as [l|]; [|contradiction]. destruct P as (N & _ & F). rewrite enc_slice by exact N.
    assert (exists b, enc_elems (encode ft) t l = Ok b) as (b & ->); [|eexists; reflexivity].
    cbn [tsize] in L. induction F as [|v l Fv F IHl]; [eexists; reflexivity|]. cbn [enc_elems].
    destruct (IH t v ltac:(lia) Fv) as (x & ->). destruct IHl as (y & ->). eexists; reflexivity.
  - destruct t1; try contradiction. destruct m as [m|]; [|contradiction]. destruct P as (_ & (FK & _) & F). cbn [encode].
    assert (exists b, enc_pairs (encode ft) TString t2 m = Ok b) as (b & ->); [|eexists; reflexivity].
    cbn [tsize] in L. induction m as [|[k v] m IHm]; [eexists; reflexivity|]. inversion F as [|? ? Fv Fl]; subst.
    inversion FK as [|? ? Fk FKl]; subst. cbn [fst snd] in *. destruct Fk as (s & -> & _). cbn [enc_pairs].
    destruct (IH t2 v ltac:(lia) Fv) as (x & ->). destruct (IHm FKl Fl) as (y & ->). eexists; reflexivity.
  - destruct fs as [|[[nm tg] e] [|]]; try contradiction. destruct l as [|v [|]]; try contradiction. destruct P as (PF & P).
    destruct (plain_field_name nm tg e PF) as (name & PN & EN & DN & OM). cbn [encode enc_fields obind]. rewrite OM. cbn [snd].
    cbn [tsize fold_right snd] in L. destruct (IH e v ltac:(lia) P) as (x & ->). eexists; reflexivity.
  - destruct v as [v|]; [|contradiction]. cbn [encode tsize] in *. apply IH; [lia|assumption].
Qed.
