(** What the encoder writes, the decoder reads back (C46). *)
From Verif Require Import GoBase BaseLemmas JrpcModel JrpcSpec JrpcProofs JrpcText.

Definition okpos (p : Z) (s : bytes) : Prop :=
  forall i c, nth_error s i = Some c -> delimiter c -> (p + Z.of_nat i) mod 256 <> 255.
Lemma okpos_app p a b : okpos p (a ++ b) -> okpos (p + zlen a) b.
Proof.
  intros H i c N D. specialize (H (length a + i)%nat c). rewrite nth_error_app2 in H by lia.
  replace (length a + i - length a)%nat with i in H by lia. specialize (H N D).
  replace (p + zlen a + Z.of_nat i) with (p + Z.of_nat (length a + i)) by (unfold zlen; lia). exact H.
Qed.
Lemma okpos_cons p c s : okpos p (c :: s) -> okpos (p + 1) s.
Proof. intros H. apply (okpos_app p [c] s) in H. exact H. Qed.

Lemma go_not_null p c s : c <> 110 -> go is_null p (c :: s) false p (c :: s).
Proof.
  intros N d X. destruct (scan_full _ _ _ _ X) as (d' & f & F & U & E & _ & E1 & E2 & Q1 & Q2).
  exists {| seg := seg d'; head := head d; size := size d'; rd := rd d' |}. split.
  - unfold is_null, dbind, get_head. rewrite E. destruct (c =? 110) eqn:C; [lia|]. reflexivity.
  - apply full_at. unfold full in *. destruct U as (P & H & L & S0 & C). destruct X as (_ & H' & _).
    cbn [head seg rd size]. rewrite E1, E2. repeat match goal with |- _ /\ _ => split end; auto.
    destruct (Z.eq_dec (p mod 256) 255) as [Z1|Z1].
    + destruct (Q1 Z1) as (_ & ->). right. repeat split; [lia|]. destruct C as [(C1 & C2 & C3)|(C1 & C2 & C3)]; [|assumption].
      assert (size f = 256) by lia. rewrite firstn_all2 in C3 by lia. rewrite C3. f_equal. f_equal. lia.
    + destruct (Q2 Z1) as (_ & ->). replace (head d) with (head f) by lia. exact C.
Qed.

Definition starts (x : bytes) : Prop := exists c r, x = c :: r /\ ~ blank c /\ c <> 110 /\ c <> 93.
Lemma starts_at x rest : starts x -> exists c r, x ++ rest = c :: r /\ ~ blank c /\ c <> 110 /\ c <> 93.
Proof. intros (c & r & -> & H). exists c, (r ++ rest). auto. Qed.
Lemma go_start n p x rest : (0 < n)%nat -> starts x -> go (skip_space n) p (x ++ rest) tt p (x ++ rest).
Proof. intros L S1. destruct (starts_at _ rest S1) as (c & r & -> & B & _). apply go_nospace; assumption. Qed.

Lemma json_int_starts x z : json_int x z -> starts x.
Proof. intros J; inversion J; subst; eexists _, _; (split; [reflexivity|]); unfold blank; cbn [In]; lia. Qed.
Lemma json_string_starts x s : json_string x s -> starts x.
Proof. intros J; inversion J; subst; eexists _, _; (split; [reflexivity|]); unfold blank; cbn [In]; lia. Qed.

Lemma bytes_eqb_eq a : forall b, bytes_eqb a b = true <-> a = b.
Proof.
  induction a as [|x a IH]; intros [|y b]; cbn [bytes_eqb]; split; try congruence; try discriminate.
  - intros H. apply andb_prop in H. destruct H as (E & F). apply IH in F. f_equal; [lia|assumption].
  - intros H; injection H as -> ->. rewrite Z.eqb_refl. cbn. apply IH. reflexivity.
Qed.
Lemma map_set_fresh m k v : (exists s, k = VStr s) -> Forall (fun k => exists s, k = VStr s) (map fst m) -> ~ In k (map fst m) ->
  map_set key_eqb m k v = m ++ [(k, v)].
Proof.
  intros (s & ->). induction m as [|[k' v'] m IH]; intros F N; cbn [map_set app map fst] in *; [reflexivity|].
  inversion F as [|? ? (s' & ->) F']; subst. cbn [key_eqb]. destruct (bytes_eqb s s') eqn:E.
  - apply bytes_eqb_eq in E. subst. exfalso. apply N. left. reflexivity.
  - f_equal. apply IH; [assumption|]. intro I. apply N. right. exact I.
Qed.

Lemma enc_slice ft e vs : e <> TUint 8 ->
  encode ft (VSlice (Some vs)) (TSlice e) = (let! b := enc_elems (encode ft) e vs in Ok ([91] ++ b ++ [93])).
Proof.
  intros N. destruct e; try reflexivity. destruct w as [|q|q]; try reflexivity.
  do 4 (destruct q as [q|q|]; try reflexivity). congruence.
Qed.

Lemma cut_plain n : Forall (fun c => 32 <= c < 256 /\ c <> 34 /\ c <> 92 /\ c <> 44) n -> cut_comma n = (n, false).
Proof.
  induction 1 as [|c n (H1 & H2 & H3 & H4) F IH]; [reflexivity|]. cbn [cut_comma]. destruct (c =? 44) eqn:E; [lia|].
  rewrite IH. reflexivity.
Qed.
Lemma plain_field_name nm tg e : plain_field nm tg -> exists n, plain_name n /\
  enc_name (nm, tg, e) = n /\ dec_name (nm, tg, e) = Some n /\ forall z, omitted (nm, tg, e) z = false.
Proof.
  intros [(-> & P)|(P & N)].
  - exists nm. split; [exact P|]. auto.
  - exists tg. destruct P as (Q & F). pose proof (cut_plain tg F) as C.
    unfold enc_name, dec_name, omitted, omit_zero, omit_empty. cbn [fst snd]. rewrite C. cbn [fst snd andb orb].
    destruct tg as [|c r]; [congruence|].
    destruct (bytes_eqb (c :: r) [45]) eqn:B; [apply bytes_eqb_eq in B; congruence|]. split; [split; assumption|]. rewrite C. cbn [fst]. rewrite B. auto.
Qed.
Lemma go_name n nm p rest : plain_name nm -> (length nm + 2 < n)%nat ->
  go (decode_string n) p ([34] ++ nm ++ 34 :: rest) nm (p + zlen nm + 2) rest.
Proof.
  intros (_ & F) L. cbn [app]. unfold decode_string. eapply go_bind; [apply go_scan|]. change (34 =? 34) with true. cbv iota.
  apply go_plain; [|intros n' Ln|lia].
  - eapply Forall_impl; [|exact F]. cbn. tauto.
  - destruct n' as [|n']; [lia|]. cbn [app string_loop]. eapply go_bind; [apply go_scan|]. change (34 =? 34) with true. cbv iota.
    replace (p + 1 + zlen nm + 1) with (p + zlen nm + 2) by lia. apply go_ret.
Qed.

Lemma starts_enc ft t : forall v x, plain t v -> encode ft v t = Ok x -> starts x.
Proof.
  assert (K : forall c (r x : bytes), Ok (c :: r) = Ok x -> ~ blank c -> c <> 110 /\ c <> 93 -> starts x).
  { intros c r x E B N. injection E as <-. exists c, r. auto. }
  revert t. fix IH 1. intros t v x P E.
  destruct t; cbn [plain] in P; try contradiction; destruct v; cbn [plain] in P; try contradiction;
    try (destruct fs as [|[[fa fb] fe] [|]]; contradiction); try (destruct t1; contradiction).
  - cbn [encode obind] in E. destruct b; injection E as <-; eexists _, _; (split; [reflexivity|]); unfold blank; cbn [In]; lia.
  - cbn [encode obind] in E. injection E as <-. eapply json_int_starts, int_text_json.
    destruct P as (W & F). unfold width in W. cbn [In] in W. unfold fits_int in F. destruct W as [<-|[<-|[<-|[<-|[]]]]]; cbn in F; lia.
  - cbn [encode obind] in E. injection E as <-. eapply json_int_starts, uint_text_json.
    destruct P as (W & F). unfold width in W. cbn [In] in W. unfold fits_uint in F. destruct W as [<-|[<-|[<-|[<-|[]]]]]; cbn in F; lia.
  - cbn [encode obind] in E. injection E as <-. eapply json_string_starts, quote_utf8. exact P.
  - destruct l as [l|]; [|contradiction]. destruct P as (N & _). rewrite (enc_slice _ _ _ N) in E.
    destruct (enc_elems _ _ _); [|discriminate]. cbn [encode obind] in E. eapply K; [exact E|unfold blank; cbn; lia|lia].
  - destruct t1; try contradiction. destruct m as [m|]; [|contradiction]. cbn [encode obind] in E.
    destruct (enc_pairs _ _ _ _); [|discriminate]. cbn [encode obind] in E. eapply K; [exact E|unfold blank; cbn; lia|lia].
  - destruct fs as [|[[fa fb] fe] [|]]; try contradiction. cbn [encode obind] in E.
    destruct (enc_fields _ _ _ _); [|discriminate]. cbn [encode obind] in E. eapply K; [exact E|unfold blank; cbn; lia|lia].
  - destruct v as [v|]; [|contradiction]. cbn [encode] in E. exact (IH _ _ _ P E).
Qed.

Section Round.
Variable ft : fval -> bytes.
Variable n : nat.
(** round trip of one type *)
Definition rt (t : ty) : Prop := forall v x, plain t v -> encode ft v t = Ok x ->
  forall p rest, closed rest -> (length (x ++ rest) < n)%nat -> no_ints t \/ okpos p (x ++ rest) ->
  go (decode n t (zero t)) p (x ++ rest) v (p + zlen x) rest.

Lemma after_go {A} (m : D A) p p1 s a rest : goq m p s a (after_number p1 rest) -> closed rest -> okpos p1 rest ->
  go m p s a p1 rest.
Proof.
  intros H C O d X. destruct (H d X) as (d' & E & A1 & A2). exists d'. split; [assumption|]. apply A1.
  destruct rest as [|c r]; [left; reflexivity|right]. specialize (O 0%nat c eq_refl C). rewrite Z.add_0_r in O. exact O.
Qed.
Lemma closed_ended s : closed s -> ended s.
Proof. destruct s; cbn; auto. Qed.
Lemma delim_not_blank c : delimiter c -> ~ blank c.
Proof. unfold delimiter, blank. cbn [In]. lia. Qed.
Lemma okpos_or t p a b : no_ints t \/ okpos p (a ++ b) -> no_ints t \/ okpos (p + zlen a) b.
Proof. intros [H|H]; [left; assumption|right; apply okpos_app; assumption]. Qed.

Lemma go_elems e : rt e -> forall l b, l <> [] -> Forall (plain e) l -> enc_elems (encode ft) e l = Ok b ->
  forall k acc p rest, (length l < k)%nat -> (length (b ++ 93%Z :: rest) < n)%nat -> no_ints e \/ okpos p (b ++ 93 :: rest) ->
  go (elems_loop n (decode n e) (fun _ => true) (fun _ => zero e) k acc) p (b ++ 93 :: rest) (acc ++ l) (p + zlen b + 1) rest.
Proof.
  intros RT. induction l as [|v l IH]; intros b N F E k acc p rest Lk Ln O; [congruence|].
  inversion F as [|? ? Fv Fl]; subst. cbn [enc_elems] in E.
  destruct (encode ft v e) as [x|] eqn:Ex; [|discriminate]. cbn [obind] in E.
  destruct (enc_elems (encode ft) e l) as [y|] eqn:Ey; [|discriminate]. cbn [obind] in E. injection E as <-.
  cbn [length] in Lk. destruct k as [|k]; [lia|]. cbn [elems_loop negb].
  destruct l as [|v2 l].
  - cbn [enc_elems] in Ey. injection Ey as <-. cbn [app] in *. rewrite app_nil_r in *.
    eapply go_bind; [apply (RT v x Fv Ex p (93 :: rest)); [unfold closed, delimiter; cbn; auto|exact Ln|exact O]|].
    rewrite app_length in Ln. cbn [length] in Ln.
    eapply go_bind; [apply go_nospace; [lia|unfold blank; cbn; lia]|]. eapply go_bind; [apply go_scan|].
    change (93 =? 93) with true. cbv iota. apply go_ret.
  - set (l' := v2 :: l) in *. replace ((x ++ [44] ++ y) ++ 93 :: rest) with (x ++ 44 :: (y ++ 93 :: rest)) in * by (rewrite <- !app_assoc; reflexivity).
    eapply go_bind; [apply (RT v x Fv Ex p _); [unfold closed, delimiter; cbn; auto|exact Ln|exact O]|].
    rewrite app_length in Ln. cbn [length] in Ln.
    eapply go_bind; [apply go_nospace; [lia|unfold blank; cbn; lia]|]. eapply go_bind; [apply go_scan|].
    change (44 =? 93) with false. change (44 =? 44) with true. cbn [negb].
    replace (acc ++ v :: l') with ((acc ++ [v]) ++ l') by (rewrite <- app_assoc; reflexivity).
    replace (p + zlen (x ++ [44] ++ y) + 1) with (p + zlen x + 1 + zlen y + 1) by (rewrite !zlen_app, zlen_cons, zlen_nil; lia).
    apply IH; auto.
    + discriminate.
    + lia.
    + lia.
    + apply okpos_or in O. destruct O as [O|O]; [left; assumption|right]. apply okpos_cons in O. exact O.
Qed.

Lemma go_pairs e : rt e -> forall m b, m <> [] -> Forall (fun kv => plain e (snd kv)) m ->
  Forall (fun k => exists s, k = VStr s /\ utf8 s) (map fst m) ->
  enc_pairs (encode ft) TString e m = Ok b ->
  forall k acc p rest, NoDup (map fst (acc ++ m)) -> Forall (fun k => exists s, k = VStr s) (map fst acc) ->
  (length m < k)%nat -> (length (b ++ 125%Z :: rest) < n)%nat -> no_ints e \/ okpos p (b ++ 125 :: rest) ->
  go (map_loop n (decode n TString (zero TString)) (decode n e (zero e)) k acc) p (b ++ 125 :: rest) (acc ++ m) (p + zlen b + 1) rest.
Proof.
  intros RT. induction m as [|[kk v] m IH]; intros b N F FK E k acc p rest ND FA Lk Ln O; [congruence|].
  inversion F as [|? ? Fv Fl]; subst. inversion FK as [|? ? Fk FKl]; subst. cbn [fst snd] in *. destruct Fk as (s & -> & U).
  cbn [enc_pairs] in E. change (encode ft (VStr s) TString) with (@Ok bytes (quote s)) in E. cbn [obind] in E.
  pose proof (quote_utf8 s U) as JQ. set (q := quote s) in *. clearbody q.
  destruct (encode ft v e) as [x|] eqn:Ex; [|discriminate]. cbn [obind] in E.
  destruct (enc_pairs (encode ft) TString e m) as [y|] eqn:Ey; [|discriminate]. cbn [obind] in E. injection E as <-.
  cbn [length] in Lk. destruct k as [|k]; [lia|]. cbn [map_loop].
  pose proof (starts_enc _ _ _ _ Fv Ex) as SX.
  assert (FR : map_set key_eqb acc (VStr s) v = acc ++ [(VStr s, v)]).
  { apply map_set_fresh; [eauto|assumption|]. rewrite map_app in ND. cbn [map fst] in ND. apply NoDup_remove_2 in ND.
    intro I. apply ND. apply in_or_app. left. exact I. }
  set (z := match m with [] => [] | _ => [44] end ++ y) in *. assert (Z0 : z = match m with [] => [] | _ => [44] end ++ y) by reflexivity. clearbody z.
  cbn [app] in *. replace ((q ++ 58 :: x ++ z) ++ 125 :: rest) with (q ++ 58 :: (x ++ (z ++ 125 :: rest))) in * by (rewrite <- !app_assoc; cbn [app]; rewrite <- ?app_assoc; reflexivity).
  pose proof Ln as Ln'. rewrite !app_length in Ln'. cbn [length] in Ln'. rewrite !app_length in Ln'. cbn [length] in Ln'.
  eapply go_bind.
  { change (decode n TString (zero TString)) with (_ <- skip_space n ;; (s <- decode_string n ;; dret (VStr s))).
    eapply go_bind; [apply go_start; [lia|eapply json_string_starts; exact JQ]|].
    eapply go_bind; [apply go_string; [exact JQ|lia]|]. apply go_ret. }
  eapply go_bind; [apply go_nospace; [lia|unfold blank; cbn; lia]|]. eapply go_bind; [apply go_scan|].
  change (58 =? 58) with true. cbn [negb].
  eapply go_bind; [apply go_start; [lia|assumption]|].
  assert (O' : no_ints e \/ okpos (p + zlen q + 1) (x ++ z ++ 125 :: rest)).
  { apply okpos_or in O. destruct O as [O|O]; [left; assumption|right]. apply okpos_cons in O. exact O. }
  eapply go_bind.
  { apply (RT v x Fv Ex _ (z ++ 125 :: rest)); [|rewrite !app_length; cbn [length]; lia|exact O'].
    subst z. destruct m; [|cbn; unfold delimiter; cbn; auto]. cbn in Ey. injection Ey as <-. cbn. unfold delimiter; cbn; auto. }
  apply okpos_or in O'. rewrite FR. clear FR. destruct m as [|kv2 m].
  - cbn in Ey. injection Ey as <-. subst z. cbn [app].
    eapply go_bind; [apply go_nospace; [lia|unfold blank; cbn; lia]|]. eapply go_bind; [apply go_scan|].
    change (125 =? 125) with true. cbv iota.
    replace (p + zlen (q ++ 58 :: x ++ []) + 1) with (p + zlen q + 1 + zlen x + 1) by (rewrite zlen_app, zlen_cons, zlen_app, zlen_nil; lia).
    apply go_ret.
  - set (m' := kv2 :: m) in *. subst z. cbn [app] in *.
    eapply go_bind; [apply go_nospace; [lia|unfold blank; cbn; lia]|]. eapply go_bind; [apply go_scan|].
    change (44 =? 125) with false. change (44 =? 44) with true. cbn [negb].
    assert (SY : starts y).
    { subst m'. destruct kv2 as [k2 v2]. cbn [map fst snd] in FKl. inversion FKl as [|? ? (s2 & -> & U2) _]; subst.
      cbn [enc_pairs] in Ey. change (encode ft (VStr s2) TString) with (@Ok bytes (quote s2)) in Ey. cbn [obind] in Ey.
      destruct (json_string_starts _ _ (quote_utf8 s2 U2)) as (c & r & E2 & B). rewrite E2 in Ey.
      destruct (encode ft v2 e); [|discriminate]. cbn [obind] in Ey. destruct (enc_pairs _ _ _ _); [|discriminate]. cbn [obind] in Ey.
      injection Ey as <-. eexists c, _. split; [reflexivity|exact B]. }
    eapply go_bind; [apply go_start; [lia|assumption]|].
    replace (acc ++ (VStr s, v) :: m') with ((acc ++ [(VStr s, v)]) ++ m') by (rewrite <- app_assoc; reflexivity).
    replace (p + zlen (q ++ 58 :: x ++ 44 :: y) + 1) with (p + zlen q + 1 + zlen x + 1 + zlen y + 1) by (rewrite !zlen_app, !zlen_cons, zlen_app, zlen_cons; lia).
    apply IH; auto.
    + discriminate.
    + rewrite <- app_assoc. exact ND.
    + rewrite map_app. apply Forall_app. split; [assumption|]. repeat constructor. exists s. reflexivity.
    + lia.
    + rewrite app_length. cbn [length] in *. lia.
    + destruct O' as [O'|O']; [left; assumption|right]. apply okpos_cons in O'. exact O'.
Qed.

Lemma width_int w z : width w -> fits_int w z -> - 2^63 <= z < 2^63.
Proof.
  intros W F. unfold width in W. cbn [In] in W. unfold fits_int in F. destruct W as [<-|[<-|[<-|[<-|[]]]]]; cbn in F; lia.
Qed.
Lemma width_uint w z : width w -> fits_uint w z -> 0 <= z < 2^64 /\ z mod 2^w = z.
Proof.
  intros W F. unfold width in W. cbn [In] in W. unfold fits_uint in F.
  split; [destruct W as [<-|[<-|[<-|[<-|[]]]]]; cbn in F; lia|]. apply Z.mod_small. exact F.
Qed.
Lemma elems_length e l : forall b, Forall (plain e) l -> enc_elems (encode ft) e l = Ok b -> (length l <= length b)%nat.
Proof.
  induction l as [|v l IH]; intros b F E; [cbn; lia|]. inversion F as [|? ? Fv Fl]; subst. cbn [enc_elems] in E.
  destruct (encode ft v e) as [y|] eqn:Ey; [|discriminate]. cbn [obind] in E.
  destruct (enc_elems _ _ _) as [z|]; [|discriminate]. cbn [obind] in E. injection E as <-.
  destruct (starts_enc _ _ _ _ Fv Ey) as (c & r & -> & _). specialize (IH z Fl eq_refl). rewrite !app_length. cbn [length]. lia.
Qed.
Lemma pairs_length e m : forall b, Forall (fun kv => plain e (snd kv)) m ->
  Forall (fun k => exists s, k = VStr s /\ utf8 s) (map fst m) -> enc_pairs (encode ft) TString e m = Ok b ->
  (m <> [] -> starts b) /\ (length m <= length b)%nat.
Proof.
  induction m as [|[k v] m IH]; intros b F FK E; [split; [congruence|cbn; lia]|].
  inversion F as [|? ? Fv Fl]; subst. inversion FK as [|? ? Fk FKl]; subst. cbn [fst] in Fk. destruct Fk as (s & -> & U).
  cbn [enc_pairs] in E. change (encode ft (VStr s) TString) with (@Ok bytes (quote s)) in E. cbn [obind] in E.
  destruct (json_string_starts _ _ (quote_utf8 s U)) as (c & r & E2 & B). rewrite E2 in E.
  destruct (encode ft v e) as [y|] eqn:Ey; [|discriminate]. cbn [obind] in E.
  destruct (enc_pairs _ _ _ _) as [z|]; [|discriminate]. cbn [obind] in E. injection E as <-.
  destruct (IH z Fl FKl eq_refl) as (_ & L).
  split; [intros _; eexists c, _; split; [reflexivity|exact B]|]. cbn [length app]. rewrite !app_length. cbn [length]. rewrite ?app_length. lia.
Qed.

Lemma go_field e : rt e -> forall nm tg name v y, plain e v -> encode ft v e = Ok y -> plain_name name ->
  dec_name (nm, tg, e) = Some name -> forall k p rest, (0 < k)%nat ->
  (length (34%Z :: (name ++ 34%Z :: 58%Z :: (y ++ 125%Z :: rest))) < n)%nat ->
  no_ints e \/ okpos p (34 :: (name ++ 34 :: 58 :: (y ++ 125 :: rest))) ->
  go (fields_loop n (_ <- skip_space n;; decode_string n) (upd_field (decode n) [(nm, tg, e)]) (decode_nil_iface n) [(nm, tg, e)] k
        (map (fun f : bytes * bytes * ty => zero (snd f)) [(nm, tg, e)])) p
     (34 :: (name ++ 34 :: 58 :: (y ++ 125 :: rest))) [v] (p + zlen name + 3 + zlen y + 1) rest.
Proof.
  intros RT nm tg name v y P Ey PN DN k p rest K Ln O.
  pose proof (starts_enc _ _ _ _ P Ey) as SY.
  assert (LN : (length name + 2 + length y + 2 + length rest < n)%nat).
  { clear -Ln. repeat (rewrite ?app_length in Ln; cbn [length app] in Ln). lia. }
  destruct k as [|k]; [lia|]. cbn [fields_loop].
  eapply go_bind.
  { eapply go_bind; [apply go_nospace; [lia|unfold blank; cbn; lia]|]. apply (go_name n name p); [exact PN|lia]. }
  eapply go_bind; [apply go_nospace; [lia|unfold blank; cbn; lia]|]. eapply go_bind; [apply go_scan|].
  change (58 =? 58) with true. cbn [negb].
  eapply go_bind; [apply go_start; [lia|assumption]|].
  cbn [field_index]. rewrite DN. replace (bytes_eqb name name) with true by (symmetry; apply bytes_eqb_eq; reflexivity).
  cbn [upd_field map snd].
  assert (O' : no_ints e \/ okpos (p + zlen name + 2 + 1) (y ++ 125 :: rest)).
  { destruct O as [O|O]; [left; assumption|right]. apply okpos_cons in O. apply okpos_app in O. apply okpos_cons, okpos_cons in O.
    replace (p + zlen name + 2 + 1) with (p + 1 + zlen name + 1 + 1) by lia. exact O. }
  eapply go_bind.
  { eapply go_bind; [apply (RT v y P Ey _ (125 :: rest)); [cbn; unfold delimiter; cbn; auto|rewrite app_length; cbn [length]; lia|exact O']|]. apply go_ret. }
  eapply go_bind; [apply go_nospace; [lia|unfold blank; cbn; lia]|]. eapply go_bind; [apply go_scan|].
  change (125 =? 125) with true. cbv iota.
  replace (p + zlen name + 3 + zlen y + 1) with (p + zlen name + 2 + 1 + zlen y + 1) by lia. apply go_ret.
Qed.

Fixpoint tsize (t : ty) : nat :=
  match t with
  | TSlice e | TMap _ e | TPtr e => S (tsize e)
  | TStruct fs => S (fold_right (fun f a => (tsize (snd f) + a)%nat) 0%nat fs)
  | _ => 1%nat
  end.
Lemma round_trip_size m0 : forall t, (tsize t < m0)%nat -> rt t.
Proof.
  induction m0 as [|m0 IH0]; intros t TS; [lia|].
  assert (IH : forall e, (tsize e < tsize t)%nat -> rt e) by (intros e L; apply IH0; lia). clear IH0 TS m0.
  intros v x P E p rest C Ln O.
  pose proof (starts_enc _ _ _ _ P E) as SX.
  assert (Ln' : (length x + length rest < n)%nat) by (rewrite app_length in Ln; exact Ln).
  assert (N0 : (0 < n)%nat) by lia.
  destruct t; cbn [plain] in P; try contradiction; destruct v; cbn [plain] in P; try contradiction;
    try (destruct fs as [|[[fa fb] fe] [|]]; contradiction); try (destruct t1; contradiction).
  - cbn [encode] in E. cbn [decode zero]. eapply go_bind; [apply go_start; assumption|].
    destruct b; injection E as <-; cbn [app];
    (eapply go_bind; [|apply go_ret]); unfold decode_bool; cbn [bool_loop];
    repeat (eapply go_bind; [apply go_scan|]; cbn -[dbind scan zlen]).
    + replace (p + zlen [116; 114; 117; 101]) with (p + 1 + 1 + 1 + 1) by (unfold zlen; cbn; lia). apply go_ret.
    + replace (p + zlen [102; 97; 108; 115; 101]) with (p + 1 + 1 + 1 + 1 + 1) by (unfold zlen; cbn; lia). apply go_ret.
  - cbn [encode] in E. injection E as <-. cbn [no_ints] in O. cbn [decode zero]. destruct O as [[]|O].
    destruct P as (W & F). pose proof (width_int w z W F) as R.
    eapply go_bind; [apply go_start; assumption|].
    eapply go_bind.
    { apply after_go; [apply goq_int; [apply int_text_json; exact R|exact R|apply closed_ended; assumption|lia]|assumption|apply okpos_app; exact O]. }
    rewrite (sgn_small w z W F). apply go_ret.
  - cbn [encode] in E. injection E as <-. cbn [no_ints] in O. cbn [decode zero]. destruct O as [[]|O].
    destruct P as (W & F). destruct (width_uint w z W F) as (R & M).
    eapply go_bind; [apply go_start; assumption|].
    eapply go_bind.
    { apply after_go; [apply goq_uint; [apply uint_text_json; exact R|exact R|apply closed_ended; assumption|lia]|assumption|apply okpos_app; exact O]. }
    rewrite M. apply go_ret.
  - cbn [encode] in E. injection E as <-. cbn [decode zero]. eapply go_bind; [apply go_start; assumption|].
    eapply go_bind; [apply go_string; [apply quote_utf8; exact P|lia]|]. apply go_ret.
  - destruct l as [l|]; [|contradiction]. destruct P as (N & NE & F). rewrite (enc_slice _ _ _ N) in E.
    destruct (enc_elems (encode ft) t l) as [b|] eqn:Eb; [|discriminate]. cbn [obind] in E. injection E as <-.
    cbn [no_ints] in O. cbn [app] in *. cbn [decode zero]. replace ((b ++ [93]) ++ rest) with (b ++ 93 :: rest) in * by (rewrite <- app_assoc; reflexivity).
    eapply go_bind; [apply go_nospace; [exact N0|unfold blank; cbn; lia]|].
    eapply go_bind; [apply go_scan|]. change (91 =? 91) with true. cbn [negb].
    assert (SB : starts b).
    { destruct l as [|v l]; [congruence|]. inversion F as [|? ? Fv _]; subst. cbn [enc_elems] in Eb.
      destruct (encode ft v t) as [y|] eqn:Ey; [|discriminate]. cbn [obind] in Eb. destruct (enc_elems _ _ _); [|discriminate]. cbn [obind] in Eb.
      injection Eb as <-. destruct (starts_enc _ _ _ _ Fv Ey) as (c & r & -> & B). eexists c, _. split; [reflexivity|exact B]. }
    eapply go_bind; [apply go_start; assumption|].
    assert (FB : exists c r, b ++ 93 :: rest = c :: r /\ (c =? 93) = false).
    { destruct SB as (c & r & -> & _ & _ & Q). exists c, (r ++ 93 :: rest). split; [reflexivity|lia]. }
    destruct FB as (c & r & EB & NC). rewrite EB. eapply go_bind; [apply go_peek|]. rewrite NC. rewrite <- EB.
    cbn [app length] in Ln'. rewrite app_length in Ln'. cbn [length] in Ln'.
    pose proof (elems_length t l b F Eb) as LL.
    eapply go_bind.
    { apply (go_elems t (IH t ltac:(cbn; lia)) l b NE F Eb n []); [lia|rewrite app_length; cbn [length]; lia|].
      destruct O as [O|O]; [left; assumption|right; apply okpos_cons in O; exact O]. }
    cbn [app]. replace (p + zlen (91 :: b ++ [93])) with (p + 1 + zlen b + 1) by (rewrite zlen_cons, zlen_app, zlen_cons, zlen_nil; lia).
    apply go_ret.
  - destruct t1; try contradiction. destruct m as [m|]; [|contradiction]. destruct P as (NE & (FK & ND) & F). cbn [encode] in E.
    destruct (enc_pairs (encode ft) TString t2 m) as [b|] eqn:Eb; [|discriminate]. cbn [obind] in E. injection E as <-.
    cbn [no_ints] in O. cbn [app] in *. cbn [decode zero]. replace ((b ++ [125]) ++ rest) with (b ++ 125 :: rest) in * by (rewrite <- app_assoc; reflexivity).
    eapply go_bind; [apply go_nospace; [exact N0|unfold blank; cbn; lia]|].
    eapply go_bind; [apply go_scan|]. change (123 =? 123) with true. cbn [negb].
    destruct (pairs_length t2 m b F FK Eb) as (SB & LL). specialize (SB NE).
    eapply go_bind; [apply go_start; assumption|]. change (123 =? 125) with false. cbv iota.
    cbn [app length] in Ln'. rewrite app_length in Ln'. cbn [length] in Ln'.
    eapply go_bind.
    { apply (go_pairs t2 (IH t2 ltac:(cbn; lia)) m b NE F FK Eb n []); [exact ND|constructor|lia|rewrite app_length; cbn [length]; lia|].
      destruct O as [O|O]; [left; assumption|right; apply okpos_cons in O; exact O]. }
    cbn [app]. replace (p + zlen (123 :: b ++ [125])) with (p + 1 + zlen b + 1) by (rewrite zlen_cons, zlen_app, zlen_cons, zlen_nil; lia).
    apply go_ret.
  - destruct fs as [|[[nm tg] e] [|]]; try contradiction. destruct l as [|v [|]]; try contradiction. destruct P as (PF & P).
    destruct (plain_field_name nm tg e PF) as (name & PN & EN & DN & OM).
    cbn [encode] in E. cbn [enc_fields obind] in E. rewrite OM in E. cbn [snd] in E.
    destruct (encode ft v e) as [y|] eqn:Ey; [|discriminate]. cbn [obind] in E. rewrite EN in E.
    assert (EX : x = [123] ++ ([34] ++ name ++ [34; 58] ++ y ++ []) ++ [125]) by congruence. clear E. subst x.
    cbn [no_ints] in O. cbn [decode zero].
    replace ((([123] ++ ([34] ++ name ++ [34; 58] ++ y ++ []) ++ [125]) ++ rest)) with (123 :: 34 :: (name ++ 34 :: 58 :: (y ++ 125 :: rest))) in *
      by (cbn [app]; rewrite <- !app_assoc; cbn [app]; rewrite <- !app_assoc; reflexivity).
    eapply go_bind; [apply go_nospace; [lia|unfold blank; cbn; lia]|].
    eapply go_bind; [apply go_scan|]. change (123 =? 123) with true. cbn [negb].
    eapply go_bind; [apply go_nospace; [lia|unfold blank; cbn; lia]|].
    eapply go_bind; [apply go_peek|]. change (34 =? 125) with false. cbv iota.
    eapply go_bind.
    { apply (go_field e (IH e ltac:(cbn; lia)) nm tg name v y P Ey PN DN n (p + 1) rest); [lia| |].
      - clear -Ln. cbn [length] in *. lia.
      - destruct O as [O|O]; [left; assumption|right]. apply okpos_cons in O. exact O. }
    replace (p + zlen _) with (p + 1 + zlen name + 3 + zlen y + 1); [apply go_ret|].
    cbn [app]. rewrite app_nil_r. repeat (rewrite ?zlen_cons, ?zlen_app, ?zlen_nil). lia.
  - destruct v as [v|]; [|contradiction]. cbn [encode] in E. cbn [no_ints] in O. cbn [decode zero].
    eapply go_bind; [apply go_start; assumption|].
    assert (GN : go is_null p (x ++ rest) false p (x ++ rest)).
    { destruct (starts_at _ rest SX) as (c & r & Q & B & NN & _). rewrite Q. apply go_not_null. exact NN. }
    eapply go_bind; [exact GN|]. cbv iota. eapply go_bind; [apply (IH t ltac:(cbn; lia) v x P E); assumption|]. apply go_ret.
Qed.
Lemma round_trip t : rt t.
Proof. apply (round_trip_size (S (tsize t))). lia. Qed.
End Round.
