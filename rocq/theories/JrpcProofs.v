(** Proofs about the JSON decoder's buffer, and about strings and numbers. *)
From Verif Require Import GoBase BaseLemmas JrpcModel JrpcSpec.

(** ** The decoder as a stream *)
Definition src (r : list bytes) : Prop := r = [] \/ exists c, r = [c] /\ c <> [].
(** the decoder stands at position p of its input, s is what follows *)
Definition at_ (d : dec) (p : Z) (s : bytes) : Prop :=
  0 <= p /\ head d = p mod 256 /\ length (seg d) = 256%nat /\ src (rd d) /\
  ((size d = 0 /\ head d = 0 /\ s = concat (rd d)) \/
   (head d < size d <= 256 /\ (size d < 256 -> rd d = []) /\
    s = skipn (Z.to_nat (head d)) (firstn (Z.to_nat (size d)) (seg d)) ++ concat (rd d)) \/
   (0 < head d /\ head d = size d /\ rd d = [] /\ s = []) \/
   (head d = 255 /\ size d = 0 /\ s = skipn 255 (seg d) ++ concat (rd d))).

Lemma at_new x : at_ (new_decoder (match x with [] => [] | _ => [x] end)) 0 x.
Proof.
  unfold at_, new_decoder. cbn [head seg rd size].
  repeat match goal with |- _ /\ _ => split end; try reflexivity; try lia.
  - destruct x; [left; reflexivity|right; eexists; split; [reflexivity|discriminate]].
  - left. destruct x; cbn; rewrite ?app_nil_r; auto.
Qed.

Lemma src_concat_nil r : src r -> concat r = [] -> r = [].
Proof. intros [->|(c & -> & N)]; cbn; [auto|]. rewrite app_nil_r. congruence. Qed.

Lemma skipn_head (l : bytes) n b r : skipn n l = b :: r -> nth_error l n = Some b /\ skipn (S n) l = r.
Proof.
  revert l. induction n as [|n IH]; intros [|x l] E; cbn in *; try discriminate.
  - injection E as -> ->. auto.
  - apply IH in E. exact E.
Qed.
Lemma skipn_lt (l : bytes) n : (n < length l)%nat -> exists b, nth_error l n = Some b /\ skipn n l = b :: skipn (S n) l.
Proof.
  revert l. induction n as [|n IH]; intros [|x l] E; cbn [length] in *; try lia.
  - exists x. auto.
  - destruct (IH l) as (b & A & B); [lia|]. exists b. cbn [nth_error skipn]. rewrite B. auto.
Qed.

Lemma skipn_tail (l t : bytes) n c s : c :: s = skipn n l ++ t -> (n < length l)%nat ->
  nth_error l n = Some c /\ s = skipn (S n) l ++ t.
Proof.
  intros E L. destruct (skipn_lt l n L) as (b & N & K). rewrite K in E. cbn [app] in E.
  remember (skipn (S n) l) as r. injection E as -> ->. auto.
Qed.

Lemma index_at {A} (l : list A) i b : 0 <= i -> nth_error l (Z.to_nat i) = Some b -> index i l = Ok b.
Proof.
  intros H E. unfold index.
  assert (Z.to_nat i < length l)%nat by (apply nth_error_Some; congruence).
  destruct ((0 <=? i) && (i <? zlen l)) eqn:F; [rewrite E; reflexivity|unfold zlen in F; lia].
Qed.

(** states with a byte in the buffer *)
Definition full (d : dec) (p : Z) (s : bytes) : Prop :=
  0 <= p /\ head d = p mod 256 /\ length (seg d) = 256%nat /\ src (rd d) /\
  ((head d < size d <= 256 /\ (size d < 256 -> rd d = []) /\
    s = skipn (Z.to_nat (head d)) (firstn (Z.to_nat (size d)) (seg d)) ++ concat (rd d)) \/
   (head d = 255 /\ size d = 0 /\ s = skipn 255 (seg d) ++ concat (rd d))).
Lemma full_at d p s : full d p s -> at_ d p s.
Proof.
  intros (P & H & L & S0 & X). unfold at_. repeat match goal with |- _ /\ _ => split end; auto. destruct X; auto.
Qed.

Lemma fill_ok d p c s : at_ d p (c :: s) -> exists d', fill d = Ok (Good tt, d') /\ full d' p (c :: s).
Proof.
  intros (P & H & L & S0 & X). pose proof (Z.mod_pos_bound p 256 ltac:(lia)) as B.
  destruct X as [(Z0 & H0 & E)|[(HL & HR & E)|[(_ & _ & _ & E)|(H0 & Z0 & E)]]]; [| |discriminate|].
  - unfold fill. destruct (head d =? size d) eqn:F; [|lia].
    destruct ((0 <=? head d) && (head d <=? 256)) eqn:G; [|lia].
    rewrite H0. change (Z.to_nat 0) with 0%nat. rewrite Nat.sub_0_r.
    destruct S0 as [R|(x & R & N)]; rewrite R in *; [cbn in E; discriminate|].
    cbn [concat] in E. rewrite app_nil_r in E. subst x. unfold read_chunk.
    destruct (Nat.leb (length (c :: s)) 256) eqn:LE.
    + apply Nat.leb_le in LE. eexists. split; [reflexivity|].
      unfold full. cbn [head seg rd size]. rewrite Z0.
      repeat match goal with |- _ /\ _ => split end; try lia.
      * rewrite firstn_O. cbn [app]. rewrite app_comm_cons, app_length, skipn_length. lia.
      * left. reflexivity.
      * left. set (x := c :: s) in *. assert (0 < length x)%nat by (subst x; cbn; lia). clearbody x. unfold zlen. repeat match goal with |- _ /\ _ => split end; try reflexivity; try (intros _; reflexivity); try lia.
        rewrite firstn_O, app_nil_l, Z.add_0_l, Nat2Z.id. change (Z.to_nat 0) with 0%nat. cbn [concat]. rewrite app_nil_r.
        rewrite firstn_app, firstn_all, Nat.sub_diag, firstn_O, app_nil_r. reflexivity.
    + apply Nat.leb_gt in LE. set (x := c :: s) in *. eexists. split; [reflexivity|].
      assert (N' : x <> []) by assumption. clearbody x. assert (LX : length (firstn 256 x) = 256%nat) by (rewrite firstn_length; lia).
      unfold full. cbn [head seg rd size]. rewrite Z0. unfold zlen. rewrite LX.
      rewrite !Nat.add_0_l, firstn_O, skipn_all2 by lia. cbn [app]. rewrite app_nil_r.
      repeat match goal with |- _ /\ _ => split end; try lia.
      * right. eexists. split; [reflexivity|]. intro K. apply (f_equal (@length _)) in K. rewrite skipn_length in K. change (length (@nil Z)) with 0%nat in K. lia.
      * left. repeat match goal with |- _ /\ _ => split end; try lia.
        cbn [concat]. rewrite app_nil_r. change (Z.to_nat 0) with 0%nat. change (Z.to_nat (0 + Z.of_nat 256)) with 256%nat. cbn [skipn]. rewrite firstn_firstn. change (Nat.min 256 256) with 256%nat.
        rewrite firstn_skipn. reflexivity.
  - unfold fill. destruct (head d =? size d) eqn:F; [lia|]. exists d. split; [reflexivity|].
    unfold full. repeat match goal with |- _ /\ _ => split end; auto.
  - unfold fill. destruct (head d =? size d) eqn:F; [lia|]. exists d. split; [reflexivity|].
    unfold full. repeat match goal with |- _ /\ _ => split end; auto.
Qed.

Lemma full_byte d p c s : full d p (c :: s) ->
  nth_error (seg d) (Z.to_nat (head d)) = Some c /\ index (head d) (seg d) = Ok c.
Proof.
  intros (P & H & L & S0 & X). pose proof (Z.mod_pos_bound p 256 ltac:(lia)) as B.
  assert (nth_error (seg d) (Z.to_nat (head d)) = Some c).
  { destruct X as [(HL & HR & E)|(H0 & Z0 & E)].
    - apply skipn_tail in E; [|rewrite firstn_length; lia]. destruct E as (N & _).
      rewrite <- (firstn_skipn (Z.to_nat (size d)) (seg d)). rewrite nth_error_app1; [exact N|]. rewrite firstn_length. lia.
    - apply skipn_tail in E; [|lia]. rewrite H0. exact (proj1 E). }
  split; [assumption|]. apply index_at; [lia|assumption].
Qed.

Lemma peek_ok d p c s : at_ d p (c :: s) -> exists d', peek d = Ok (Good c, d') /\ at_ d' p (c :: s).
Proof.
  intros A. destruct (fill_ok _ _ _ _ A) as (d' & F & U). exists d'. split; [|apply full_at; exact U].
  unfold peek, dbind. rewrite F. destruct (full_byte _ _ _ _ U) as (_ & I). rewrite I. reflexivity.
Qed.

(** scanning, and what putting the byte back gives *)
Lemma scan_full d p c s : at_ d p (c :: s) -> exists d' f, fill d = Ok (Good tt, f) /\ full f p (c :: s) /\
  scan d = Ok (Good c, d') /\ at_ d' (p + 1) s /\ seg d' = seg f /\ rd d' = rd f /\
  (p mod 256 = 255 -> head d' = 0 /\ size d' = 0) /\
  (p mod 256 <> 255 -> head d' = head f + 1 /\ size d' = size f).
Proof.
  intros A. destruct (fill_ok _ _ _ _ A) as (f & F & U).
  destruct (full_byte _ _ _ _ U) as (N & I).
  assert (SC : scan d = (if head f + 1 =? 256 then Ok (Good c, {| seg := seg f; head := 0; size := 0; rd := rd f |})
                         else Ok (Good c, {| seg := seg f; head := head f + 1; size := size f; rd := rd f |}))).
  { unfold scan, dbind. rewrite F, I. reflexivity. }
  destruct U as (P & H & L & S0 & X). pose proof (Z.mod_pos_bound p 256 ltac:(lia)) as B.
  destruct (Z.eq_dec (p mod 256) 255) as [Q|Q].
  - destruct (head f + 1 =? 256) eqn:HE; [|lia].
    eexists _, f. split; [exact F|]. split; [split; auto|]. split; [exact SC|].
    cbn [seg rd head size]. repeat match goal with |- _ /\ _ => split end; try reflexivity; try tauto.
    unfold at_. cbn [head seg rd size]. repeat match goal with |- _ /\ _ => split end; try lia; auto.
    left. repeat match goal with |- _ /\ _ => split end; auto.
    destruct X as [(HL & HR & E)|(H0 & Z0 & E)].
    + assert (size f = 256) by lia.
      rewrite firstn_all2 in E by lia.
      apply skipn_tail in E; [|lia]. destruct E as (_ & E). rewrite skipn_all2 in E by lia. exact E.
    + apply skipn_tail in E; [|lia]. destruct E as (_ & E). rewrite skipn_all2 in E by lia. exact E.
  - destruct (head f + 1 =? 256) eqn:HE; [lia|].
    eexists _, f. split; [exact F|]. split; [split; auto|]. split; [exact SC|].
    cbn [seg rd head size]. repeat match goal with |- _ /\ _ => split end; try reflexivity; try tauto.
    unfold at_. cbn [head seg rd size].
    destruct X as [(HL & HR & E)|(H0 & Z0 & E)]; [|lia].
    assert (s = skipn (Z.to_nat (head f + 1)) (firstn (Z.to_nat (size f)) (seg f)) ++ concat (rd f)) as ->.
    { apply skipn_tail in E; [|rewrite firstn_length; lia]. destruct E as (_ & E).
      rewrite E. f_equal. f_equal. lia. }
    repeat match goal with |- _ /\ _ => split end; try lia; auto.
    destruct (Z.eq_dec (head f + 1) (size f)) as [Y|Y].
    + assert (size f < 256) as Z1 by lia. specialize (HR Z1).
      right; right; left. repeat match goal with |- _ /\ _ => split end; auto; try lia.
      rewrite HR. rewrite skipn_all2; [reflexivity|]. rewrite firstn_length. lia.
    + right; left. repeat match goal with |- _ /\ _ => split end; auto; lia.
Qed.
Lemma scan_ok d p c s : at_ d p (c :: s) -> exists d', scan d = Ok (Good c, d') /\ at_ d' (p + 1) s.
Proof. intros A. destruct (scan_full _ _ _ _ A) as (d' & f & _ & _ & E & B & _). eauto. Qed.

Lemma scan_eof d p : at_ d p [] -> scan d = Ok (Fail EEOF, d).
Proof.
  intros (P & H & L & S0 & X). pose proof (Z.mod_pos_bound p 256 ltac:(lia)) as B.
  unfold scan, dbind, fill.
  assert (head d = size d /\ rd d = []) as (E1 & E2).
  { destruct X as [(Z0 & H0 & E)|[(HL & HR & E)|[(_ & E1 & E2 & E)|(H0 & Z0 & E)]]].
    - split; [lia|]. apply src_concat_nil; auto.
    - exfalso. symmetry in E. apply app_eq_nil in E. destruct E as (E & _).
      destruct (skipn_lt (firstn (Z.to_nat (size d)) (seg d)) (Z.to_nat (head d))) as (b & _ & K).
      { rewrite firstn_length. lia. } congruence.
    - auto.
    - exfalso. symmetry in E. apply app_eq_nil in E. destruct E as (E & _).
      destruct (skipn_lt (seg d) 255) as (b & _ & K); [lia|]. congruence. }
  destruct (head d =? size d) eqn:F; [|lia].
  destruct ((0 <=? head d) && (head d <=? 256)) eqn:G; [|lia].
  rewrite E2. cbn. reflexivity.
Qed.

(** Byte c scanned and put back *)
Lemma unread_ok d p c s : at_ d p (c :: s) -> p mod 256 <> 255 ->
  exists d' d'', scan d = Ok (Good c, d') /\ unread d' = Ok (Good tt, d'') /\ at_ d'' p (c :: s).
Proof.
  intros A Q. destruct (scan_full _ _ _ _ A) as (d' & f & _ & U & E & _ & E1 & E2 & _ & E3).
  destruct (E3 Q) as (E4 & E5). eexists d', _. split; [exact E|]. split; [reflexivity|].
  apply full_at. unfold full in *. cbn [head seg rd size]. rewrite E1, E2, E4, E5.
  replace (head f + 1 - 1) with (head f) by lia. exact U.
Qed.
Lemma unread_bad d p c s : at_ d p (c :: s) -> p mod 256 = 255 ->
  exists d' d'', scan d = Ok (Good c, d') /\ unread d' = Ok (Good tt, d'') /\
    scan d'' = Panic /\ peek d'' = Panic.
Proof.
  intros A Q. destruct (scan_full _ _ _ _ A) as (d' & f & _ & U & E & _ & E1 & E2 & E3 & _).
  destruct (E3 Q) as (E4 & E5). eexists d', _. split; [exact E|]. split; [reflexivity|].
  unfold scan, peek, dbind, fill. cbn [head seg rd size]. rewrite E4, E5. cbn. auto.
Qed.

(** ** Running a decoder on a stream *)
Definition go {A} (m : D A) (p : Z) (s : bytes) (a : A) (p' : Z) (s' : bytes) : Prop :=
  forall d, at_ d p s -> exists d', m d = Ok (Good a, d') /\ at_ d' p' s'.
Definition fails {A} (m : D A) (p : Z) (s : bytes) : Prop :=
  forall d, at_ d p s -> exists e d', m d = Ok (Fail e, d') /\ e <> EFuel.

Lemma go_bind {A B} (m : D A) (f : A -> D B) p s a p1 s1 b p2 s2 :
  go m p s a p1 s1 -> go (f a) p1 s1 b p2 s2 -> go (dbind m f) p s b p2 s2.
Proof.
  intros H K d X. destruct (H d X) as (d1 & E1 & X1). destruct (K d1 X1) as (d2 & E2 & X2).
  exists d2. unfold dbind. rewrite E1. auto.
Qed.
Lemma go_ret {A} (a : A) p s : go (dret a) p s a p s.
Proof. intros d X. exists d. auto. Qed.
Lemma go_scan p c s : go scan p (c :: s) c (p + 1) s.
Proof. intros d X. apply scan_ok; assumption. Qed.
Lemma go_peek p c s : go peek p (c :: s) c p (c :: s).
Proof. intros d X. apply peek_ok; assumption. Qed.
Lemma go_scan_or_eof p c s : go scan_or_eof p (c :: s) (Some c) (p + 1) s.
Proof. intros d X. destruct (scan_ok _ _ _ _ X) as (d' & E & X'). exists d'. unfold scan_or_eof. rewrite E. auto. Qed.
Lemma go_eof p : go scan_or_eof p [] None p [].
Proof. intros d X. exists d. unfold scan_or_eof. rewrite (scan_eof _ _ X). auto. Qed.
(** the value, and a fact about the decoder afterwards *)
Definition goq {A} (m : D A) (p : Z) (s : bytes) (a : A) (Q : dec -> Prop) : Prop :=
  forall d, at_ d p s -> exists d', m d = Ok (Good a, d') /\ Q d'.
Lemma goq_bind {A B} (m : D A) (f : A -> D B) p s a p1 s1 b Q :
  go m p s a p1 s1 -> goq (f a) p1 s1 b Q -> goq (dbind m f) p s b Q.
Proof.
  intros H K d X. destruct (H d X) as (d1 & E1 & X1). destruct (K d1 X1) as (d2 & E2 & X2).
  exists d2. unfold dbind. rewrite E1. auto.
Qed.
Lemma goq_map {A B} (m : D A) (g : A -> B) p s a Q :
  goq m p s a Q -> goq (dbind m (fun x => dret (g x))) p s (g a) Q.
Proof. intros H d X. destruct (H d X) as (d1 & E1 & X1). exists d1. unfold dbind. rewrite E1. auto. Qed.
(** after a number that ends at position p *)
Definition after_number (p : Z) (rest : bytes) (d : dec) : Prop :=
  (rest = [] \/ p mod 256 <> 255 -> at_ d p rest) /\
  (rest <> [] -> p mod 256 = 255 -> scan d = Panic /\ peek d = Panic).
Lemma goq_unread p c s (A : Type) (a : A) :
  goq (_ <- scan_or_eof ;; _ <- unread ;; dret a) p (c :: s) a (after_number p (c :: s)).
Proof.
  intros d X. unfold after_number. destruct (Z.eq_dec (p mod 256) 255) as [E|E].
  - destruct (unread_bad _ _ _ _ X E) as (d1 & d2 & S1 & U & P1 & P2). exists d2.
    unfold dbind, scan_or_eof. rewrite S1, U. split; [reflexivity|]. split; [intros [?|?]; [discriminate|lia]|auto].
  - destruct (unread_ok _ _ _ _ X E) as (d1 & d2 & S1 & U & P1). exists d2.
    unfold dbind, scan_or_eof. rewrite S1, U. split; [reflexivity|]. split; [auto|lia].
Qed.
Lemma fails_bind {A B} (m : D A) (f : A -> D B) p s : fails m p s -> fails (dbind m f) p s.
Proof. intros H d X. destruct (H d X) as (e & d' & E & N). exists e, d'. unfold dbind. rewrite E. auto. Qed.
Lemma fails_then {A B} (m : D A) (f : A -> D B) p s a p1 s1 :
  go m p s a p1 s1 -> fails (f a) p1 s1 -> fails (dbind m f) p s.
Proof.
  intros H K d X. destruct (H d X) as (d1 & E1 & X1). destruct (K d1 X1) as (e & d' & E & N).
  exists e, d'. unfold dbind. rewrite E1. auto.
Qed.
Lemma fails_bad {A} p s : fails (A := A) (dfail EBad) p s.
Proof. intros d X. exists EBad, d. split; [reflexivity|discriminate]. Qed.
Lemma fails_scan p : fails scan p [].
Proof. intros d X. pose proof (scan_eof _ _ X) as E. exists EEOF, d. split; [assumption|discriminate]. Qed.
Lemma fails_peek p : fails peek p [].
Proof.
  intros d X. pose proof (scan_eof _ _ X) as E. exists EEOF, d. split; [|discriminate].
  unfold scan, peek, dbind in *. destruct (fill d) as [[[u|e] x]|]; try discriminate; [|exact E].
  exfalso. destruct (index (head x) (seg x)); cbn in E; [|discriminate].
  destruct (head x + 1 =? 256); discriminate.
Qed.

Lemma is_space_blank c : is_space c = true <-> blank c.
Proof. unfold is_space, blank. cbn [In]. lia. Qed.
Lemma closes_delim c : closes c = true <-> delimiter c.
Proof. unfold closes, delimiter. cbn [In]. lia. Qed.

Lemma go_space n p ws c s : (length ws < n)%nat -> Forall blank ws -> ~ blank c ->
  go (skip_space n) p (ws ++ c :: s) tt (p + zlen ws) (c :: s).
Proof.
  intros L F N. revert n p L. induction F as [|w ws W F IH]; intros n p L.
  - destruct n as [|n]; [lia|]. cbn [app skip_space]. rewrite zlen_nil, Z.add_0_r.
    eapply go_bind; [apply go_peek|]. destruct (is_space c) eqn:Q; [apply is_space_blank in Q; contradiction|].
    apply go_ret.
  - destruct n as [|n]; [lia|]. cbn [app skip_space length] in *.
    eapply go_bind; [apply go_peek|]. destruct (is_space w) eqn:Q.
    + eapply go_bind; [apply go_scan|]. rewrite zlen_cons, Z.add_assoc. apply IH. lia.
    + apply is_space_blank in W. congruence.
Qed.
Lemma go_nospace n p c s : (0 < n)%nat -> ~ blank c -> go (skip_space n) p (c :: s) tt p (c :: s).
Proof. intros. pose proof (go_space n p [] c s) as G. cbn [app] in G. rewrite zlen_nil, Z.add_0_r in G. apply G; auto. Qed.
