(** The decoder stores what a text denotes. *)
From Verif Require Import GoBase BaseLemmas JrpcModel JrpcSpec JrpcProofs JrpcText JrpcRound JrpcMore JrpcReadSpec.

Definition okp (p : Z) (s : bytes) : Prop :=
  forall i c, nth_error s i = Some c -> delimiter c \/ blank c -> (p + Z.of_nat i) mod 256 <> 255.
Lemma okp_app p a b : okp p (a ++ b) -> okp (p + zlen a) b.
Proof.
  intros H i c N D. specialize (H (length a + i)%nat c). rewrite nth_error_app2 in H by lia.
  replace (length a + i - length a)%nat with i in H by lia. specialize (H N D).
  replace (p + zlen a + Z.of_nat i) with (p + Z.of_nat (length a + i)) by (unfold zlen; lia). exact H.
Qed.
Lemma okp_cons p c s : okp p (c :: s) -> okp (p + 1) s.
Proof. intros H. apply (okp_app p [c] s) in H. exact H. Qed.
Lemma after_go2 {A} (m : D A) p p1 s a rest : goq m p s a (after_number p1 rest) -> ended rest -> okp p1 rest -> go m p s a p1 rest.
Proof.
  intros H C O d X. destruct (H d X) as (d' & E & A1 & A2). exists d'. split; [assumption|]. apply A1.
  destruct rest as [|c r]; [left; reflexivity|right]. specialize (O 0%nat c eq_refl C). rewrite Z.add_0_r in O. exact O.
Qed.
Lemma go_pos {A} (m : D A) p s a p1 p2 s' : go m p s a p1 s' -> p1 = p2 -> go m p s a p2 s'.
Proof. intros H <-. exact H. Qed.
Lemma ended_delim c s : delimiter c -> ended (c :: s).
Proof. intros D. left. exact D. Qed.
Lemma ended_spaces ws c s : spaces ws -> delimiter c -> ended (ws ++ c :: s).
Proof. intros W D. destruct ws as [|w ws]; [left; exact D|]. inversion W; subst. right. assumption. Qed.
Lemma nd44 : delimiter 44. Proof. unfold delimiter. cbn. auto. Qed.
Lemma nd93 : delimiter 93. Proof. unfold delimiter. cbn. auto. Qed.
Lemma nd125 : delimiter 125. Proof. unfold delimiter. cbn. auto. Qed.

(** keys *)
Lemma cut_no_comma n opts : Forall (fun c => c <> 44) n -> opts = [] \/ hd 0 opts = 44 -> fst (cut_comma (n ++ opts)) = n.
Proof.
  intros F O. induction F as [|c n C F IH]; cbn [app].
  - destruct opts as [|o opts]; [reflexivity|]. destruct O as [O|O]; [discriminate|]. cbn [hd] in O. subst o. reflexivity.
  - cbn [cut_comma]. apply Z.eqb_neq in C. rewrite C. destruct (cut_comma (n ++ opts)). cbn [fst] in *. congruence.
Qed.
Lemma cut_comma_app s : exists opts, s = fst (cut_comma s) ++ opts /\ Forall (fun c => c <> 44) (fst (cut_comma s)) /\ (opts = [] \/ hd 0 opts = 44).
Proof.
  induction s as [|c s IH]; [exists []; split; [reflexivity|]; split; [constructor|left; reflexivity]|]. destruct IH as (opts & E & F & O). cbn [cut_comma]. destruct (c =? 44) eqn:C.
  - exists (c :: s). cbn [fst app]. split; [reflexivity|]. split; [constructor|]. right. cbn [hd]. lia.
  - destruct (cut_comma s) as [x b]. cbn [fst] in *. exists opts. split; [cbn [app]; congruence|]. split; [constructor; [lia|exact F]|exact O].
Qed.
Lemma key_dec_name f n : key_of f n <-> dec_name f = Some n.
Proof.
  destruct f as [[name tag] t]. unfold dec_name. cbn [fst snd]. split.
  - intros K. inversion K as [|? ? ? ? opts T E F O N]; subst; [reflexivity|]. destruct (n ++ opts) as [|c r] eqn:Q; [congruence|]. rewrite <- Q, (cut_no_comma n opts F O).
    destruct (bytes_eqb n [45]) eqn:B; [apply bytes_eqb_eq in B; congruence|reflexivity].
  - destruct tag as [|c r]; [intros E; injection E as <-; constructor|]. set (tag := c :: r). destruct (cut_comma_app tag) as (opts & E & F & O).
    destruct (bytes_eqb (fst (cut_comma tag)) [45]) eqn:B; [discriminate|]. intros Q. injection Q as <-. apply (key_tag _ _ _ _ opts); auto.
    + discriminate.
    + intros X. cbn [cut_comma] in *. unfold tag in X, B. cbn [cut_comma] in X, B. rewrite X in B. discriminate.
Qed.
Lemma field_index_at fs : forall s i f key, nth_error fs i = Some f -> key_of f key -> (forall j g, nth_error fs j = Some g -> key_of g key -> j = i) ->
  field_index s key fs = Some (s + i)%nat.
Proof.
  assert (NO : forall gs s key, (forall j g, nth_error gs j = Some g -> ~ key_of g key) -> field_index s key gs = None).
  { induction gs as [|g gs IH]; intros s key H; [reflexivity|]. cbn [field_index]. rewrite IH by (intros j g' N; apply (H (S j)); exact N).
    destruct (dec_name g) as [n|] eqn:D; [|reflexivity]. destruct (bytes_eqb n key) eqn:B; [|reflexivity]. apply bytes_eqb_eq in B. subst n.
    apply key_dec_name in D. exfalso. exact (H 0%nat g eq_refl D). }
  induction fs as [|g fs IH]; intros s i f key N K U; [destruct i; discriminate|]. cbn [field_index]. destruct i as [|i].
  - cbn [nth_error] in N. injection N as ->. rewrite NO by (intros j g' N X; specialize (U (S j) g' N X); discriminate).
    apply key_dec_name in K. rewrite K. replace (bytes_eqb key key) with true by (symmetry; apply bytes_eqb_eq; reflexivity). f_equal. lia.
  - rewrite (IH (S s) i f key N K); [f_equal; lia|]. intros j g' N' X. specialize (U (S j) g' N' X). lia.
Qed.
Lemma entered_map_set k v m m' : entered k v m m' -> map_set key_eqb m (VStr k) v = m'.
Proof.
  induction 1 as [k v|k v w m|k k' v w m m' N E IH]; cbn [map_set key_eqb]; [reflexivity| |].
  - replace (bytes_eqb k k) with true by (symmetry; apply bytes_eqb_eq; reflexivity). reflexivity.
  - destruct (bytes_eqb k k') eqn:B; [apply bytes_eqb_eq in B; congruence|]. rewrite IH. reflexivity.
Qed.

(** blanks before something that is not one *)
Lemma strip ws s u y : spaces ws -> spaces u -> (exists c r, s = c :: r /\ ~ blank c) -> ws ++ s = u ++ y -> exists u', ws = u ++ u' /\ y = u' ++ s.
Proof.
  revert u. induction ws as [|w ws IH]; intros u W U H E.
  - destruct u as [|b u]; [exists []; auto|]. destruct H as (c & r & -> & B). cbn [app] in E. injection E as -> _. inversion U; subst. contradiction.
  - destruct u as [|b u]; [exists (w :: ws); auto|]. cbn [app] in E. injection E as -> E. inversion W; inversion U; subst.
    destruct (IH u) as (u' & -> & ->); auto. exists u'. auto.
Qed.
Lemma starts_nb x y : starts x -> exists c r, x ++ y = c :: r /\ ~ blank c.
Proof. intros (c & r & -> & B & _). exists c, (r ++ y). auto. Qed.

Section Read.
Variable n : nat.
Definition P1 t old x v := starts x /\ forall p ws rest, spaces ws -> ended rest -> (length (ws ++ x ++ rest) < n)%nat -> okp p (ws ++ x ++ rest) ->
  go (decode n t old) p (ws ++ x ++ rest) v (p + zlen ws + zlen x) rest.
(** the text begins, after blanks, with something that does not end a list or an object *)
Definition begins (x : bytes) : Prop := exists ws c r, x = ws ++ c :: r /\ spaces ws /\ ~ blank c /\ c <> 93 /\ c <> 125.
Definition P2 e olds x vs := begins x /\ forall u y, x = u ++ y -> spaces u -> forall room old k acc p rest, (forall j, (length acc <= j < length acc + length vs)%nat -> room j = true) ->
  (forall j, old (length acc + j)%nat = nth j olds (zero e)) -> (length y < k)%nat -> (length (y ++ 93%Z :: rest) < n)%nat -> okp p (y ++ 93 :: rest) ->
  go (elems_loop n (decode n e) room old k acc) p (y ++ 93 :: rest) (acc ++ vs) (p + zlen y + 1) rest.
Definition P3 e m x m' := begins x /\ forall u y, x = u ++ y -> spaces u -> forall k p rest, (length y < k)%nat -> (length (y ++ 125%Z :: rest) < n)%nat -> okp p (y ++ 125 :: rest) ->
  go (map_loop n (decode n TString (VStr [])) (decode n e (zero e)) k m) p (y ++ 125 :: rest) m' (p + zlen y + 1) rest.
Definition P4 (fs : list (bytes * bytes * ty)) vs x vs' := begins x /\ forall u y, x = u ++ y -> spaces u -> forall k p rest, (length y < k)%nat -> (length (y ++ 125%Z :: rest) < n)%nat -> okp p (y ++ 125 :: rest) ->
  go (fields_loop n (_ <- skip_space n;; decode_string n) (upd_field (decode n) fs) (decode_nil_iface n) fs k vs) p (y ++ 125 :: rest) vs' (p + zlen y + 1) rest.

Lemma go_spaces p ws c s : spaces ws -> (length ws < n)%nat -> ~ blank c -> go (skip_space n) p (ws ++ c :: s) tt (p + zlen ws) (c :: s).
Proof. intros F L B. apply go_space; assumption. Qed.
Lemma go_begin p x rest : begins x -> (length x < n)%nat -> exists ws c r, x = ws ++ c :: r /\ c <> 93 /\ c <> 125 /\
  go (skip_space n) p (x ++ rest) tt (p + zlen ws) ((c :: r) ++ rest) /\ spaces ws.
Proof.
  intros (ws & c & r & -> & W & B & N1 & N2) L. exists ws, c, r. split; [reflexivity|]. split; [exact N1|]. split; [exact N2|]. split; [|exact W].
  rewrite <- app_assoc. cbn [app]. rewrite app_length in L. apply go_spaces; [exact W|lia|exact B].
Qed.
Lemma starts_begins ws x y : spaces ws -> starts x -> (forall c r, x = c :: r -> c <> 125) -> begins (ws ++ x ++ y).
Proof.
  intros W (c & r & E & B & _ & N) M. subst x. exists ws, c, (r ++ y). split; [reflexivity|]. repeat split; auto. exact (M c r eq_refl).
Qed.
Ltac zl := repeat (rewrite ?zlen_app, ?zlen_cons, ?zlen_nil); lia.
Ltac nb := unfold blank; cbn [In]; lia.
Ltac lens H := repeat (rewrite ?app_length in H; cbn [length app] in H).
Lemma den_not_125 t old x v : denotes t old x v -> forall c r, x = c :: r -> c <> 125.
Proof.
  intros D. induction D; intros c0 r0 Q; try (injection Q as <- _; lia); eauto.
  - match goal with J : json_int _ _ |- _ => rewrite Q in J; inversion J; subst; lia end.
  - match goal with J : json_int _ _ |- _ => rewrite Q in J; inversion J; subst; lia end.
  - match goal with J : json_string _ _ |- _ => rewrite Q in J; inversion J; subst; lia end.
Qed.
Lemma str_not_125 x s : json_string x s -> forall c r, x = c :: r -> c <> 125.
Proof. intros J c r ->. inversion J; subst; lia. Qed.
(** update of a field *)
Lemma go_upd fs : forall i f vs vs1 old v p s p' s', nth_error fs i = Some f -> nth_error vs i = Some old -> replaced i v vs vs1 ->
  go (decode n (snd f) old) p s v p' s' -> go (upd_field (decode n) fs i vs) p s vs1 p' s'.
Proof.
  induction fs as [|[[a b] t] fs IH]; intros i f vs vs1 old v p s p' s' N O R G; [destruct i; discriminate|].
  destruct R as [v a0 l|i v a0 l l' R]; cbn [upd_field].
  - cbn [nth_error] in N, O. injection N as <-. injection O as ->. cbn [snd] in G. eapply go_bind; [exact G|apply go_ret].
  - cbn [nth_error] in N, O. eapply go_bind; [eapply IH; eassumption|apply go_ret].
Qed.
(** key, colon and value *)
Lemma go_key u k key ws1 s p : spaces u -> spaces ws1 -> json_string k key -> (length (u ++ k ++ ws1 ++ 58%Z :: s) < n)%nat ->
  go (_ <- skip_space n;; decode_string n) p (u ++ k ++ ws1 ++ 58 :: s) key (p + zlen u + zlen k) (ws1 ++ 58 :: s).
Proof.
  intros U W1 J L. lens L. eapply go_bind; [apply go_blanks; [lia|exact U|eapply json_string_starts; exact J]|]. apply go_string; [exact J|lia].
Qed.

Lemma all_read : (forall t old x v, denotes t old x v -> P1 t old x v) /\ (forall e olds x vs, elements e olds x vs -> P2 e olds x vs) /\
  (forall e m x m', entries e m x m' -> P3 e m x m') /\ (forall fs vs x vs', members fs vs x vs' -> P4 fs vs x vs').
Proof.
  apply denotes_all; unfold P1, P2, P3, P4.
  - intros old. split; [eexists _, _; split; [reflexivity|unfold blank; cbn; lia]|]. intros p ws rest W E L O. rewrite !app_length in L. cbn [decode].
    eapply go_bind; [cbn [app]; apply go_spaces; [exact W|lia|nb]|]. (eapply go_bind; [|apply go_ret]); unfold decode_bool; cbn [bool_loop].
    repeat (eapply go_bind; [apply go_scan|]; cbn -[dbind scan zlen]). eapply go_pos; [apply go_ret|]. zl.
  - split; [eexists _, _; split; [reflexivity|unfold blank; cbn; lia]|]. intros p ws rest W E L O. rewrite !app_length in L. cbn [decode].
    eapply go_bind; [cbn [app]; apply go_spaces; [exact W|lia|nb]|]. (eapply go_bind; [|apply go_ret]); unfold decode_bool; cbn [bool_loop].
    repeat (eapply go_bind; [apply go_scan|]; cbn -[dbind scan zlen]). eapply go_pos; [apply go_ret|]. zl.
  - intros w old x z W F J. split; [eapply json_int_starts; exact J|]. intros p ws rest WS E L O.
    pose proof (dec_int n ws x z w old rest p J (width_int w z W F) WS E L) as G. rewrite (sgn_small w z W F) in G.
    apply after_go2; [exact G|exact E|]. apply okp_app, okp_app in O. exact O.
  - intros w old x z W F J. split; [eapply json_int_starts; exact J|]. intros p ws rest WS E L O. destruct (width_uint w z W F) as (R & M).
    pose proof (dec_uint n ws x z w old rest p J R WS E L) as G. rewrite M in G.
    apply after_go2; [exact G|exact E|]. apply okp_app, okp_app in O. exact O.
  - intros old x s J. split; [eapply json_string_starts; exact J|]. intros p ws rest WS E L O. rewrite !app_length in L. cbn [decode].
    eapply go_bind; [apply go_blanks; [lia|exact WS|eapply json_string_starts; exact J]|].
    eapply go_bind; [apply go_string; [exact J|lia]|]. apply go_ret.
  - intros e old x vs D (BX & IH). split; [eexists _, _; split; [reflexivity|unfold blank; cbn; lia]|]. intros p ws rest WS E L O.
    replace (ws ++ (91 :: x ++ [93]) ++ rest) with (ws ++ 91 :: (x ++ 93 :: rest)) in * by (cbn [app]; rewrite <- app_assoc; reflexivity).
    lens L.
    cbn [decode]. eapply go_bind; [apply go_spaces; [exact WS|lia|nb]|]. eapply go_bind; [apply go_scan|]. change (91 =? 91) with true. cbn [negb].
    destruct (go_begin (p + zlen ws + 1) x (93 :: rest) BX ltac:(lia)) as (ws0 & c & r & EX & N1 & N2 & G & W0).
    eapply go_bind; [exact G|]. eapply go_bind; [cbn [app]; apply go_peek|]. replace (c =? 93) with false by lia.
    apply okp_app, okp_cons in O. rewrite EX, <- app_assoc in O. apply okp_app in O. rewrite EX in L. lens L.
    eapply go_bind.
    { apply (IH ws0 (c :: r) EX W0 (fun _ => true) (fun _ => zero e) n [] (p + zlen ws + 1 + zlen ws0) rest); auto.
      - intros j. destruct j; reflexivity.
      - cbn [length]. lia.
      - cbn [length app]. rewrite app_length. cbn [length]. lia. }
    eapply go_pos; [apply go_ret|]. rewrite EX. zl.
  - intros m e olds x vs LO D (BX & IH) LV. split; [eexists _, _; split; [reflexivity|unfold blank; cbn; lia]|]. intros p ws rest WS E L O.
    replace (ws ++ (91 :: x ++ [93]) ++ rest) with (ws ++ 91 :: (x ++ 93 :: rest)) in * by (cbn [app]; rewrite <- app_assoc; reflexivity).
    lens L.
    cbn [decode]. eapply go_bind; [apply go_spaces; [exact WS|lia|nb]|]. eapply go_bind; [apply go_scan|]. change (91 =? 91) with true. cbn [negb].
    destruct (go_begin (p + zlen ws + 1) x (93 :: rest) BX ltac:(lia)) as (ws0 & c & r & EX & N1 & N2 & G & W0).
    eapply go_bind; [exact G|]. eapply go_bind; [cbn [app]; apply go_peek|]. replace (c =? 93) with false by lia.
    apply okp_app, okp_cons in O. rewrite EX, <- app_assoc in O. apply okp_app in O. rewrite EX in L. lens L.
    eapply go_bind.
    { apply (IH ws0 (c :: r) EX W0 (fun i => Nat.ltb i m) (fun i => nth i olds (zero e)) n [] (p + zlen ws + 1 + zlen ws0) rest); auto.
      - cbn [length]. intros j J. apply Nat.ltb_lt. lia.
      - cbn [length]. lia.
      - cbn [length app]. rewrite app_length. cbn [length]. lia. }
    eapply go_pos; [apply go_ret|]. rewrite EX. zl.
  - intros e x v D (SX & IH). split; [exact SX|]. intros p ws rest WS E L O. cbn [decode]. pose proof L as L'. lens L'.
    eapply go_bind; [apply go_blanks; [lia|exact WS|exact SX]|].
    assert (GN : go is_null (p + zlen ws) (x ++ rest) false (p + zlen ws) (x ++ rest)).
    { destruct (starts_at _ rest SX) as (c & r & Q & B & NN & _). rewrite Q. apply go_not_null. exact NN. }
    eapply go_bind; [exact GN|]. cbv iota. apply okp_app in O. eapply go_bind; [apply (IH (p + zlen ws) [] rest); auto; [constructor|cbn [app]; rewrite app_length; lia]|].
    eapply go_pos; [apply go_ret|]. zl.
  - intros e old x v D (SX & IH). split; [exact SX|]. intros p ws rest WS E L O. cbn [decode]. pose proof L as L'. lens L'.
    eapply go_bind; [apply go_blanks; [lia|exact WS|exact SX]|].
    assert (GN : go is_null (p + zlen ws) (x ++ rest) false (p + zlen ws) (x ++ rest)).
    { destruct (starts_at _ rest SX) as (c & r & Q & B & NN & _). rewrite Q. apply go_not_null. exact NN. }
    eapply go_bind; [exact GN|]. cbv iota. apply okp_app in O. eapply go_bind; [apply (IH (p + zlen ws) [] rest); auto; [constructor|cbn [app]; rewrite app_length; lia]|].
    eapply go_pos; [apply go_ret|]. zl.
  - intros e x m D (BX & IH). split; [eexists _, _; split; [reflexivity|unfold blank; cbn; lia]|]. intros p ws rest WS E L O.
    replace (ws ++ (123 :: x ++ [125]) ++ rest) with (ws ++ 123 :: (x ++ 125 :: rest)) in * by (cbn [app]; rewrite <- app_assoc; reflexivity).
    lens L.
    cbn [decode]. eapply go_bind; [apply go_spaces; [exact WS|lia|nb]|]. eapply go_bind; [apply go_scan|]. change (123 =? 123) with true. cbn [negb].
    destruct (go_begin (p + zlen ws + 1) x (125 :: rest) BX ltac:(lia)) as (ws0 & c & r & EX & N1 & N2 & G & W0).
    eapply go_bind; [exact G|]. change (123 =? 125) with false. cbv iota.
    apply okp_app, okp_cons in O. rewrite EX, <- app_assoc in O. apply okp_app in O. rewrite EX in L. lens L.
    eapply go_bind.
    { apply (IH ws0 (c :: r) EX W0 n (p + zlen ws + 1 + zlen ws0) rest); auto.
      - cbn [length]. lia.
      - cbn [length app]. rewrite app_length. cbn [length]. lia. }
    eapply go_pos; [apply go_ret|]. rewrite EX. zl.
  - intros e old x m D (BX & IH). split; [eexists _, _; split; [reflexivity|unfold blank; cbn; lia]|]. intros p ws rest WS E L O.
    replace (ws ++ (123 :: x ++ [125]) ++ rest) with (ws ++ 123 :: (x ++ 125 :: rest)) in * by (cbn [app]; rewrite <- app_assoc; reflexivity).
    lens L.
    cbn [decode]. eapply go_bind; [apply go_spaces; [exact WS|lia|nb]|]. eapply go_bind; [apply go_scan|]. change (123 =? 123) with true. cbn [negb].
    destruct (go_begin (p + zlen ws + 1) x (125 :: rest) BX ltac:(lia)) as (ws0 & c & r & EX & N1 & N2 & G & W0).
    eapply go_bind; [exact G|]. change (123 =? 125) with false. cbv iota.
    apply okp_app, okp_cons in O. rewrite EX, <- app_assoc in O. apply okp_app in O. rewrite EX in L. lens L.
    eapply go_bind.
    { apply (IH ws0 (c :: r) EX W0 n (p + zlen ws + 1 + zlen ws0) rest); auto.
      - cbn [length]. lia.
      - cbn [length app]. rewrite app_length. cbn [length]. lia. }
    eapply go_pos; [apply go_ret|]. rewrite EX. zl.
  - intros fs olds x vs D (BX & IH). split; [eexists _, _; split; [reflexivity|unfold blank; cbn; lia]|]. intros p ws rest WS E L O.
    replace (ws ++ (123 :: x ++ [125]) ++ rest) with (ws ++ 123 :: (x ++ 125 :: rest)) in * by (cbn [app]; rewrite <- app_assoc; reflexivity).
    lens L.
    cbn [decode]. eapply go_bind; [apply go_spaces; [exact WS|lia|nb]|]. eapply go_bind; [apply go_scan|]. change (123 =? 123) with true. cbn [negb].
    destruct (go_begin (p + zlen ws + 1) x (125 :: rest) BX ltac:(lia)) as (ws0 & c & r & EX & N1 & N2 & G & W0).
    eapply go_bind; [exact G|]. eapply go_bind; [cbn [app]; apply go_peek|]. replace (c =? 125) with false by lia.
    apply okp_app, okp_cons in O. rewrite EX, <- app_assoc in O. apply okp_app in O. rewrite EX in L. lens L.
    eapply go_bind.
    { apply (IH ws0 (c :: r) EX W0 n (p + zlen ws + 1 + zlen ws0) rest); auto.
      - cbn [length]. lia.
      - cbn [length app]. rewrite app_length. cbn [length]. lia. }
    eapply go_pos; [apply go_ret|]. rewrite EX. zl.
  (* elements *)
  - intros e olds ws x ws' v WS WS' D (SX & IH). split; [apply starts_begins; [exact WS|exact SX|exact (den_not_125 _ _ _ _ D)]|].
    intros u y EY U room old k acc p rest R OLD K L O. destruct (strip ws (x ++ ws') u y WS U (starts_nb _ _ SX) EY) as (u' & -> & ->).
    destruct k as [|k]; [lia|]. cbn [elems_loop]. rewrite R by (cbn [length]; lia). cbn [negb].
    replace (old (length acc)) with (hd (zero e) olds) by (rewrite <- (Nat.add_0_r (length acc)), OLD; destruct olds; reflexivity).
    assert (U' : spaces u') by (apply Forall_app in WS; tauto).
    replace ((u' ++ x ++ ws') ++ 93 :: rest) with (u' ++ x ++ (ws' ++ 93 :: rest)) in * by (rewrite <- !app_assoc; reflexivity).
    eapply go_bind; [apply IH; [exact U'|apply ended_spaces; [exact WS'|exact nd93]|exact L|exact O]|]. lens L.
    eapply go_bind; [apply go_spaces; [exact WS'|lia|nb]|]. eapply go_bind; [apply go_scan|]. change (93 =? 93) with true. cbv iota.
    eapply go_pos; [apply go_ret|]. zl.
  - intros e olds ws x ws' v y0 vs WS WS' D (SX & IH) DE (BY & IHE). split; [apply starts_begins; [exact WS|exact SX|exact (den_not_125 _ _ _ _ D)]|].
    intros u y EY U room old k acc p rest R OLD K L O. destruct (strip ws (x ++ ws' ++ 44 :: y0) u y WS U (starts_nb _ _ SX) EY) as (u' & -> & ->).
    destruct k as [|k]; [lia|]. cbn [elems_loop]. rewrite R by (cbn [length]; lia). cbn [negb].
    replace (old (length acc)) with (hd (zero e) olds) by (rewrite <- (Nat.add_0_r (length acc)), OLD; destruct olds; reflexivity).
    assert (U' : spaces u') by (apply Forall_app in WS; tauto).
    replace ((u' ++ x ++ ws' ++ 44 :: y0) ++ 93 :: rest) with (u' ++ x ++ (ws' ++ 44 :: (y0 ++ 93 :: rest))) in * by (rewrite <- !app_assoc; cbn [app]; reflexivity).
    eapply go_bind; [apply IH; [exact U'|apply ended_spaces; [exact WS'|exact nd44]|exact L|exact O]|]. lens L. lens K.
    eapply go_bind; [apply go_spaces; [exact WS'|lia|nb]|]. eapply go_bind; [apply go_scan|]. change (44 =? 93) with false. change (44 =? 44) with true. cbn [negb].
    replace (acc ++ v :: vs) with ((acc ++ [v]) ++ vs) by (rewrite <- app_assoc; reflexivity).
    eapply go_pos; [apply (IHE [] y0 eq_refl ltac:(constructor))|].
    + intros j. rewrite app_length. cbn [length]. intros J. apply R. cbn [length]. lia.
    + intros j. rewrite app_length. cbn [length]. rewrite <- Nat.add_assoc. rewrite OLD. destruct olds; [destruct j; reflexivity|reflexivity].
    + lia.
    + rewrite app_length. cbn [length]. lia.
    + apply okp_app, okp_app, okp_app, okp_cons in O. exact O.
    + zl.
  (* entries *)
  - intros e m m1 k0 key ws ws1 ws2 x ws3 v W W1 W2 W3 J D (SX & IH) EN.
    split; [apply starts_begins; [exact W|eapply json_string_starts; exact J|exact (str_not_125 _ _ J)]|].
    intros u y EY U k p rest K L O. destruct (strip ws _ u y W U (starts_nb _ _ (json_string_starts _ _ J)) EY) as (u' & -> & ->).
    assert (U' : spaces u') by (apply Forall_app in W; tauto).
    destruct k as [|k]; [lia|]. cbn [map_loop].
    replace ((u' ++ k0 ++ ws1 ++ 58 :: ws2 ++ x ++ ws3) ++ 125 :: rest) with (u' ++ k0 ++ (ws1 ++ 58 :: (ws2 ++ x ++ (ws3 ++ 125 :: rest)))) in *
      by (repeat (rewrite <- !app_assoc; cbn [app]); reflexivity).
    eapply go_bind.
    { cbn [decode]. eapply go_bind; [apply go_blanks; [lens L; lia|exact U'|eapply json_string_starts; exact J]|]. eapply go_bind; [apply go_string; [exact J|lens L; lia]|]. apply go_ret. }
    pose proof L as L'. lens L'. eapply go_bind; [apply go_spaces; [exact W1|lia|nb]|]. eapply go_bind; [apply go_scan|]. change (58 =? 58) with true. cbn [negb].
    apply okp_app, okp_app, okp_app, okp_cons, okp_app in O.
    eapply go_bind; [apply go_blanks; [lia|exact W2|exact SX]|].
    eapply go_bind; [apply (IH _ [] (ws3 ++ 125 :: rest)); [constructor|apply ended_spaces; [exact W3|exact nd125]|cbn [app]; rewrite !app_length; cbn [length]; lia|exact O]|].
    cbv zeta. rewrite (entered_map_set _ _ _ _ EN).
    eapply go_bind; [apply go_spaces; [exact W3|lia|nb]|]. eapply go_bind; [apply go_scan|]. change (125 =? 125) with true. cbv iota.
    eapply go_pos; [apply go_ret|]. zl.
  - intros e m m1 m2 k0 key ws ws1 ws2 x ws3 v y0 W W1 W2 W3 J D (SX & IH) EN DE (BY & IHE).
    split; [apply starts_begins; [exact W|eapply json_string_starts; exact J|exact (str_not_125 _ _ J)]|].
    intros u y EY U k p rest K L O. destruct (strip ws _ u y W U (starts_nb _ _ (json_string_starts _ _ J)) EY) as (u' & -> & ->).
    assert (U' : spaces u') by (apply Forall_app in W; tauto).
    destruct k as [|k]; [lia|]. cbn [map_loop].
    replace ((u' ++ k0 ++ ws1 ++ 58 :: ws2 ++ x ++ ws3 ++ 44 :: y0) ++ 125 :: rest) with (u' ++ k0 ++ (ws1 ++ 58 :: (ws2 ++ x ++ (ws3 ++ 44 :: (y0 ++ 125 :: rest))))) in *
      by (repeat (rewrite <- !app_assoc; cbn [app]); reflexivity).
    eapply go_bind.
    { cbn [decode]. eapply go_bind; [apply go_blanks; [lens L; lia|exact U'|eapply json_string_starts; exact J]|]. eapply go_bind; [apply go_string; [exact J|lens L; lia]|]. apply go_ret. }
    pose proof L as L'. lens L'. lens K. eapply go_bind; [apply go_spaces; [exact W1|lia|nb]|]. eapply go_bind; [apply go_scan|]. change (58 =? 58) with true. cbn [negb].
    apply okp_app, okp_app, okp_app, okp_cons, okp_app in O.
    eapply go_bind; [apply go_blanks; [lia|exact W2|exact SX]|].
    eapply go_bind; [apply (IH _ [] (ws3 ++ 44 :: (y0 ++ 125 :: rest))); [constructor|apply ended_spaces; [exact W3|exact nd44]|cbn [app]; rewrite !app_length; cbn [length]; rewrite app_length; cbn [length]; lia|exact O]|].
    cbv zeta. rewrite (entered_map_set _ _ _ _ EN).
    eapply go_bind; [apply go_spaces; [exact W3|lia|nb]|]. eapply go_bind; [apply go_scan|]. change (44 =? 125) with false. change (44 =? 44) with true. cbn [negb].
    apply okp_app, okp_app, okp_cons in O.
    match goal with |- go _ ?q _ _ _ _ => set (p1 := q) end.
    destruct (go_begin p1 y0 (125 :: rest) BY ltac:(lia)) as (ws0 & c & r & EX & N1 & N2 & G & W0). eapply go_bind; [exact G|].
    rewrite EX, <- app_assoc in O. apply okp_app in O. rewrite EX in L', K. lens L'. lens K.
    eapply go_pos; [apply (IHE ws0 (c :: r) EX W0 k (p1 + zlen ws0) rest)|].
    + cbn [length]. lia.
    + cbn [length app]. rewrite app_length. cbn [length]. lia.
    + intros i c1 Q1 Q2. specialize (O i c1 Q1 Q2). subst p1. intros Z0. apply O. rewrite <- Z0. f_equal. zl.
    + subst p1. rewrite EX. zl.
  (* members *)
  - intros fs vs vs1 k0 key i f ws ws1 ws2 x ws3 old v W W1 W2 W3 J NF KF UF LV NO D (SX & IH) RE.
    split; [apply starts_begins; [exact W|eapply json_string_starts; exact J|exact (str_not_125 _ _ J)]|].
    intros u y EY U k p rest K L O. destruct (strip ws _ u y W U (starts_nb _ _ (json_string_starts _ _ J)) EY) as (u' & -> & ->).
    assert (U' : spaces u') by (apply Forall_app in W; tauto).
    destruct k as [|k]; [lia|]. cbn [fields_loop].
    replace ((u' ++ k0 ++ ws1 ++ 58 :: ws2 ++ x ++ ws3) ++ 125 :: rest) with (u' ++ k0 ++ (ws1 ++ 58 :: (ws2 ++ x ++ (ws3 ++ 125 :: rest)))) in *
      by (repeat (rewrite <- !app_assoc; cbn [app]); reflexivity).
    eapply go_bind; [apply (go_key u' k0 key ws1 _ p U' W1 J L)|].
    pose proof L as L'. lens L'. eapply go_bind; [apply go_spaces; [exact W1|lia|nb]|]. eapply go_bind; [apply go_scan|]. change (58 =? 58) with true. cbn [negb].
    apply okp_app, okp_app, okp_app, okp_cons, okp_app in O.
    eapply go_bind; [apply go_blanks; [lia|exact W2|exact SX]|]. rewrite (field_index_at fs 0 i f key NF KF UF). cbn [Nat.add].
    eapply go_bind.
    { eapply go_upd; [exact NF|exact NO|exact RE|].
      apply (IH _ [] (ws3 ++ 125 :: rest)); [constructor|apply ended_spaces; [exact W3|exact nd125]|cbn [app]; rewrite !app_length; cbn [length]; lia|exact O]. }
    eapply go_bind; [apply go_spaces; [exact W3|lia|nb]|]. eapply go_bind; [apply go_scan|]. change (125 =? 125) with true. cbv iota.
    eapply go_pos; [apply go_ret|]. zl.
  - intros fs vs vs1 vs2 k0 key i f ws ws1 ws2 x ws3 old v y0 W W1 W2 W3 J NF KF UF LV NO D (SX & IH) RE DE (BY & IHE).
    split; [apply starts_begins; [exact W|eapply json_string_starts; exact J|exact (str_not_125 _ _ J)]|].
    intros u y EY U k p rest K L O. destruct (strip ws _ u y W U (starts_nb _ _ (json_string_starts _ _ J)) EY) as (u' & -> & ->).
    assert (U' : spaces u') by (apply Forall_app in W; tauto).
    destruct k as [|k]; [lia|]. cbn [fields_loop].
    replace ((u' ++ k0 ++ ws1 ++ 58 :: ws2 ++ x ++ ws3 ++ 44 :: y0) ++ 125 :: rest) with (u' ++ k0 ++ (ws1 ++ 58 :: (ws2 ++ x ++ (ws3 ++ 44 :: (y0 ++ 125 :: rest))))) in *
      by (repeat (rewrite <- !app_assoc; cbn [app]); reflexivity).
    eapply go_bind; [apply (go_key u' k0 key ws1 _ p U' W1 J L)|].
    pose proof L as L'. lens L'. lens K. eapply go_bind; [apply go_spaces; [exact W1|lia|nb]|]. eapply go_bind; [apply go_scan|]. change (58 =? 58) with true. cbn [negb].
    apply okp_app, okp_app, okp_app, okp_cons, okp_app in O.
    eapply go_bind; [apply go_blanks; [lia|exact W2|exact SX]|]. rewrite (field_index_at fs 0 i f key NF KF UF). cbn [Nat.add].
    eapply go_bind.
    { eapply go_upd; [exact NF|exact NO|exact RE|].
      apply (IH _ [] (ws3 ++ 44 :: (y0 ++ 125 :: rest))); [constructor|apply ended_spaces; [exact W3|exact nd44]|cbn [app]; rewrite !app_length; cbn [length]; rewrite app_length; cbn [length]; lia|exact O]. }
    eapply go_bind; [apply go_spaces; [exact W3|lia|nb]|]. eapply go_bind; [apply go_scan|]. change (44 =? 125) with false. change (44 =? 44) with true. cbn [negb].
    apply okp_app, okp_app, okp_cons in O.
    eapply go_pos; [apply (IHE [] y0 eq_refl ltac:(constructor) k _ rest)|].
    + lia.
    + rewrite app_length. cbn [length]. lia.
    + intros j c1 Q1 Q2. specialize (O j c1 Q1 Q2). intros Z0. apply O. rewrite <- Z0. f_equal. zl.
    + zl.
Qed.
End Read.
