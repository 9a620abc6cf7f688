(** Proofs about the Go implementation of the ffi API. *)
From Verif Require Import GoBase BaseLemmas FfiModel FfiSpec FfiProofs.

Section Api.
Variable fsem : nat -> list result.
Variable other_string : rv -> bytes.
Notation run := (run fsem other_string).
Notation after := (after fsem other_string).

Definition simple_value (v : rv) : Prop := match v with RScalar _ _ | RString _ => True | _ => False end.
(** objects that refer to no variable and no decoder *)
Definition harmless (o : object) : Prop :=
  match o with
  | OValue v => match v with RString _ | RScalar _ _ | RFunc _ _ _ => True | RValues vs => vs = [] | _ => False end
  | _ => True
  end.
Record wf (s : state) : Prop := {
  w_n : 0 <= hn (tab s);
  w_range : forall id o, hm (tab s) (HUint64 id) = Some o -> 1 <= id <= hn (tab s);
  w_var : forall id l, hm (tab s) (HUint64 id) = Some (OValue (RVar l)) -> (l < length (vars s))%nat;
  w_dec : forall id l, hm (tab s) (HUint64 id) = Some (OValue (RDecoder l)) -> (l < length (decs s))%nat;
  w_vals : forall id vs, hm (tab s) (HUint64 id) = Some (OValue (RValues vs)) -> vs = [];
  w_uvar : forall i j l, hm (tab s) (HUint64 i) = Some (OValue (RVar l)) -> hm (tab s) (HUint64 j) = Some (OValue (RVar l)) -> i = j;
  w_udec : forall i j l, hm (tab s) (HUint64 i) = Some (OValue (RDecoder l)) -> hm (tab s) (HUint64 j) = Some (OValue (RDecoder l)) -> i = j;
  w_targets : forall l vs i, nth_error (decs s) l = Some (RValues vs, i) -> Forall simple_value vs }.
Lemma wf0 : wf state0.
Proof. constructor; cbn; try discriminate. intros [|l]; discriminate. Qed.

Definition same_cell (a b : cell) : Prop :=
  match a, b with CScalar k _, CScalar k' _ => k = k' | CString _, CString _ => True | CFunc, CFunc => True | _, _ => False end.
Definition writes (o : op) (h : Z) : Prop := match o with Encode _ h' _ | EncodeString h' _ => h' = h | _ => False end.
Definition reads (o : op) (h : Z) : Prop := match o with Decode _ h' | DecodeString h' => h' = h | _ => False end.
(** what an operation can do to the state *)
Inductive effect (s : state) (o : op) : state -> Prop :=
| eff_none : effect s o s
| eff_end id : effect s o (set_tab s (h_end (tab s) id))
| eff_new x : harmless x -> effect s o (snd (new s x))
| eff_var c : effect s o (snd (new (set_vars s (vars s ++ [c])) (OValue (RVar (length (vars s))))))
| eff_dec v : (forall vs, v = RValues vs -> Forall simple_value vs) -> effect s o (snd (new (set_decs s (decs s ++ [(v, O)])) (OValue (RDecoder (length (decs s))))))
| eff_set h l c c' : value s h = Ok (RVar l) -> nth_error (vars s) l = Some c -> same_cell c c' -> writes o h ->
    effect s o (set_vars s (upd_nth l c' (vars s)))
| eff_next h l v i : value s h = Ok (RDecoder l) -> nth_error (decs s) l = Some (v, i) -> reads o h ->
    effect s o (set_decs s (upd_nth l (v, S i) (decs s)))
| eff_next_new h l v i x : value s h = Ok (RDecoder l) -> nth_error (decs s) l = Some (v, i) -> reads o h -> harmless x ->
    effect s o (snd (new (set_decs s (upd_nth l (v, S i) (decs s))) x)).
Lemma value_some s h v : value s h = Ok v <-> hm (tab s) (HUint64 h) = Some (OValue v).
Proof.
  unfold value, h_get. destruct (hm (tab s) (HUint64 h)) as [[w|t|]|]; cbn [obind]; split; intros E; try discriminate; congruence.
Qed.
Lemma content_other s v : (forall l, v <> RVar l) -> content s v = v.
Proof. intros N. destruct v; try reflexivity. specialize (N l). congruence. Qed.
Lemma decode_other_effect s o k h v : value s h = Ok v -> reads o h -> effect s o (snd (decode_other s k v)).
Proof.
  intros E R. destruct v; try apply eff_none. cbn [decode_other]. destruct (nth_error (decs s) l) as [[target i]|] eqn:N; [|apply eff_none].
  pose proof (eff_next s o h l target i E N R) as X. cbv zeta. destruct (content _ target); try exact X.
  destruct (nth_error s0 i); [|exact X]. destruct (kind_dec k KUint8); exact X.
Qed.
Lemma decode_ref_effect s o h v : wf s -> value s h = Ok v -> reads o h -> effect s o (snd (decode_ref s v)).
Proof.
  intros W E R. destruct v; try apply eff_none. cbn [decode_ref]. destruct (nth_error (decs s) l) as [[target i]|] eqn:N; [|apply eff_none].
  pose proof (eff_next s o h l target i E N R) as X. cbv zeta. destruct target; try exact X.
  destruct (nth_error vs i) as [w|] eqn:M; [|exact X]. pose proof (w_targets s W _ _ _ N) as F. rewrite Forall_forall in F.
  specialize (F w (nth_error_In _ _ M)). destruct w; try contradiction; cbn [new_ref content]; eapply eff_next_new; try eassumption; exact I.
Qed.
Lemma run_effect s o : wf s -> effect s o (snd (run s o)).
Proof.
  intros W. destruct o; cbn [FfiModel.run]; try apply eff_end; try (apply eff_new; exact I).
  - destruct (value s s0) as [v|]; [|apply eff_none]. destruct (content s v); apply eff_none.
  - destruct (value s s0) as [v|] eqn:E; [|apply eff_none]. apply eff_dec. intros vs ->. apply value_some in E. rewrite (w_vals s W _ _ E). constructor.
  - destruct (h_get (tab s) t) as [[v|t'|]|]; try apply eff_none. apply eff_var.
  - destruct (value s p) as [v|]; [|apply eff_none]. destruct v; try apply eff_none. destruct (nth_error (vars s) l) as [[]|]; apply eff_none.
  - destruct (value s f) as [v|]; [|apply eff_none]. destruct v; try apply eff_none.
    + destruct (nth_error (vars s) l) as [[]|]; try apply eff_none. apply eff_new. reflexivity.
    + apply eff_new. reflexivity.
  - destruct (value s f) as [v|]; [|apply eff_none]. destruct v; try apply eff_none.
    destruct (Nat.eqb ins 0 && Nat.eqb outs 0); [apply eff_none|]. destruct (value s args) as [w|]; [|apply eff_none].
    destruct w; try apply eff_none. destruct (Nat.eqb (length vs) ins); [|apply eff_none]. apply eff_dec.
    intros vs' E. injection E as <-. apply Forall_forall. intros x X. apply in_map_iff in X. destruct X as ([k z|b] & <- & _); exact I.
  - destruct (value s s0) as [v|]; [|apply eff_none]. destruct v; try apply eff_none. apply eff_end.
  - destruct (value s s0) as [v|] eqn:E; [|apply eff_none]. destruct v; try apply eff_none.
    destruct (nth_error (vars s) l) as [[k' z'| |]|] eqn:N; try apply eff_none. destruct (kind_dec k k') as [->|]; [|apply eff_none].
    eapply eff_set; [exact E|exact N|reflexivity|reflexivity].
  - destruct (value s s0) as [v|] eqn:E; [|apply eff_none].
    pose proof (decode_other_effect s (Decode k s0) k s0 v E eq_refl) as X.
    destruct (content s v); try exact X. destruct (kind_dec k k0); apply eff_none.
  - destruct (value s s0) as [v|] eqn:E; [|apply eff_none]. destruct v; try apply eff_none.
    destruct (nth_error (vars s) l) as [[k' z'| |]|] eqn:N; try apply eff_none. destruct (value s str) as [w|]; [|apply eff_none].
    cbv zeta. eapply eff_set; [exact E|exact N|exact I|reflexivity].
  - destruct (value s s0) as [v|] eqn:E; [|apply eff_none].
    pose proof (decode_ref_effect s (DecodeString s0) s0 v W E eq_refl) as X.
    destruct (content s v); try exact X. apply eff_new. exact I.
Qed.

Lemma new_eq s o : 0 <= hn (tab s) -> hn (tab s) + 1 < 2 ^ 64 ->
  new s o = (Ok (RHandle (hn (tab s) + 1)), set_tab s {| hn := hn (tab s) + 1; hm := upd_key (hm (tab s)) (HUint64 (hn (tab s) + 1)) (Some o) |}).
Proof.
  intros N B. unfold new, h_new, h_add, h_store. cbn [hn hm]. replace (u64 (hn (tab s) + 1)) with (hn (tab s) + 1); [reflexivity|].
  unfold u64. rewrite Z.mod_small; lia.
Qed.
Lemma length_upd A i (a : A) l : length (upd_nth i a l) = length l.
Proof.
  unfold upd_nth. rewrite app_length, firstn_length. pose proof (skipn_length i l) as L.
  destruct (skipn i l) as [|b r]; cbn [length] in *; lia.
Qed.
Lemma nth_upd_same A i (a : A) l : (i < length l)%nat -> nth_error (upd_nth i a l) i = Some a.
Proof.
  intros L. unfold upd_nth. rewrite nth_error_app2; rewrite firstn_length; [|lia]. replace (i - Nat.min i (length l))%nat with 0%nat by lia.
  pose proof (skipn_length i l) as S0. destruct (skipn i l); [cbn in S0; lia|reflexivity].
Qed.
Lemma nth_upd_other A i j (a : A) l : i <> j -> nth_error (upd_nth i a l) j = nth_error l j.
Proof.
  intros N. rewrite <- (firstn_skipn i l) at 2. unfold upd_nth.
  destruct (Nat.lt_ge_cases j (length (firstn i l))) as [L|L].
  - rewrite !nth_error_app1 by exact L. reflexivity.
  - rewrite !nth_error_app2 by exact L. rewrite firstn_length in *. destruct (skipn i l) as [|b r] eqn:E; [reflexivity|].
    assert (i < length l)%nat by (pose proof (skipn_length i l) as S0; rewrite E in S0; cbn in S0; lia).
    destruct (j - Nat.min i (length l))%nat as [|m] eqn:Q; [lia|]. reflexivity.
Qed.

(** handles keep their meaning; there is at most one more *)
Record grows (s s' : state) : Prop := {
  g_n : hn (tab s) <= hn (tab s') <= hn (tab s) + 1;
  g_keep : forall id, id <= hn (tab s) -> hm (tab s') (HUint64 id) = hm (tab s) (HUint64 id) }.
Lemma grows_new s s1 o : tab s1 = tab s -> 0 <= hn (tab s) -> hn (tab s) + 1 < 2 ^ 64 -> grows s (snd (new s1 o)).
Proof.
  intros T N B. rewrite new_eq by (rewrite T; lia). cbn [snd set_tab tab]. rewrite T. constructor; cbn [tab set_tab hn hm]; [lia|].
  intros id L. apply upd_key_other. intros X. injection X as X. lia.
Qed.
Lemma effect_grows s o s' : wf s -> hn (tab s) + 1 < 2 ^ 64 -> effect s o s' -> grows s s'.
Proof.
  intros W B E. pose proof (w_n s W) as N. destruct E; try (apply grows_new; [reflexivity|exact N|exact B]);
    try (constructor; [cbn; lia|reflexivity]).
Qed.
(** a new object in a well-formed state *)
Lemma wf_new s x : wf s -> hn (tab s) + 1 < 2 ^ 64 ->
  (forall l, x = OValue (RVar l) -> (l < length (vars s))%nat /\ forall id, hm (tab s) (HUint64 id) <> Some x) ->
  (forall l, x = OValue (RDecoder l) -> (l < length (decs s))%nat /\ forall id, hm (tab s) (HUint64 id) <> Some x) ->
  (forall vs, x = OValue (RValues vs) -> vs = []) -> wf (snd (new s x)).
Proof.
  intros W B H1 H2 H3. pose proof (w_n s W) as N. rewrite new_eq by lia. cbn [snd].
  set (n := hn (tab s) + 1) in *.
  assert (K : forall id o, upd_key (hm (tab s)) (HUint64 n) (Some x) (HUint64 id) = Some o -> (id = n /\ o = x) \/ (id <> n /\ hm (tab s) (HUint64 id) = Some o)).
  { intros id o. destruct (Z.eq_dec id n) as [->|D]; [rewrite upd_key_same; intros X; injection X as <-; auto|].
    rewrite upd_key_other by congruence. auto. }
  constructor; cbn [tab set_tab hn hm vars decs]; [lia| | | | | | | apply (w_targets s W)].
  - intros id o X. destruct (K _ _ X) as [(-> & _)|(_ & Y)]; [lia|]. apply (w_range s W) in Y. lia.
  - intros id l X. destruct (K _ _ X) as [(_ & Y)|(_ & Y)]; [apply H1; congruence|apply (w_var s W _ _ Y)].
  - intros id l X. destruct (K _ _ X) as [(_ & Y)|(_ & Y)]; [apply H2; congruence|apply (w_dec s W _ _ Y)].
  - intros id l X. destruct (K _ _ X) as [(_ & Y)|(_ & Y)]; [apply H3; congruence|apply (w_vals s W _ _ Y)].
  - intros i j l X Y. destruct (K _ _ X) as [(X1 & X2)|(X1 & X2)], (K _ _ Y) as [(Y1 & Y2)|(Y1 & Y2)]; try congruence.
    + destruct (H1 l ltac:(congruence)) as (_ & Q). exfalso. apply (Q j). congruence.
    + destruct (H1 l ltac:(congruence)) as (_ & Q). exfalso. apply (Q i). congruence.
    + apply (w_uvar s W i j l X2 Y2).
  - intros i j l X Y. destruct (K _ _ X) as [(X1 & X2)|(X1 & X2)], (K _ _ Y) as [(Y1 & Y2)|(Y1 & Y2)]; try congruence.
    + destruct (H2 l ltac:(congruence)) as (_ & Q). exfalso. apply (Q j). congruence.
    + destruct (H2 l ltac:(congruence)) as (_ & Q). exfalso. apply (Q i). congruence.
    + apply (w_udec s W i j l X2 Y2).
Qed.
Lemma wf_harmless s x : wf s -> hn (tab s) + 1 < 2 ^ 64 -> harmless x -> wf (snd (new s x)).
Proof. intros W B Hx. apply wf_new; [exact W|exact B| | |]; intros q ->; cbn in Hx; try contradiction. exact Hx. Qed.
Lemma wf_decs s l v i : wf s -> nth_error (decs s) l = Some (v, i) -> wf (set_decs s (upd_nth l (v, S i) (decs s))).
Proof.
  intros W N. destruct W. constructor; cbn [tab set_decs vars decs]; try assumption; [intros; rewrite length_upd; eauto|].
  intros m vs j X. destruct (Nat.eq_dec m l) as [->|D].
  - rewrite nth_upd_same in X by (apply nth_error_Some; congruence). injection X as -> _. eauto.
  - rewrite nth_upd_other in X by congruence. eauto.
Qed.
Lemma effect_wf s o s' : wf s -> hn (tab s) + 1 < 2 ^ 64 -> effect s o s' -> wf s'.
Proof.
  intros W B E. destruct E.
  - exact W.
  - destruct W. constructor; cbn [tab set_tab h_end hn hm vars decs]; try assumption; intros; repeat rewrite upd_key_other in * by discriminate; eauto.
  - apply wf_harmless; assumption.
  - apply wf_new.
    + destruct W. constructor; cbn [tab set_vars vars decs]; try assumption. intros id l X. rewrite app_length. pose proof (w_var0 _ _ X). lia.
    + exact B.
    + intros l X. injection X as <-. cbn [tab set_vars vars]. rewrite app_length. cbn [length]. split; [lia|]. intros id Y. apply (w_var s W) in Y. lia.
    + discriminate.
    + discriminate.
  - apply wf_new.
    + destruct W. constructor; cbn [tab set_decs vars decs]; try assumption; [intros id l X; rewrite app_length; pose proof (w_dec0 _ _ X); lia|].
      intros l vs i X. destruct (Nat.lt_ge_cases l (length (decs s))) as [L|L]; [rewrite nth_error_app1 in X by exact L; eauto|].
      rewrite nth_error_app2 in X by exact L. destruct (l - length (decs s))%nat as [|m]; [injection X as -> _; auto|destruct m; discriminate].
    + exact B.
    + discriminate.
    + intros l X. injection X as <-. cbn [tab set_decs decs]. rewrite app_length. cbn [length]. split; [lia|]. intros id Y. apply (w_dec s W) in Y. lia.
    + discriminate.
  - destruct W. constructor; cbn [tab set_vars vars decs]; try assumption. intros id m X. rewrite length_upd. eauto.
  - apply wf_decs; assumption.
  - apply wf_harmless; [apply wf_decs; assumption|exact B|assumption].
Qed.
Lemma after_snoc s ops o : after s (ops ++ [o]) = snd (run (after s ops) o).
Proof. unfold FfiModel.after. rewrite fold_left_app. reflexivity. Qed.
Lemma after_app s a b : after s (a ++ b) = after (after s a) b.
Proof. unfold FfiModel.after. apply fold_left_app. Qed.
(** many operations *)
Lemma after_wf s ops : wf s -> hn (tab s) + Z.of_nat (length ops) < 2 ^ 64 ->
  wf (after s ops) /\ hn (tab s) <= hn (tab (after s ops)) <= hn (tab s) + Z.of_nat (length ops) /\
  forall id, id <= hn (tab s) -> hm (tab (after s ops)) (HUint64 id) = hm (tab s) (HUint64 id).
Proof.
  intros W B. induction ops as [|o ops IH] using rev_ind; [cbn; split; [exact W|split; [lia|reflexivity]]|].
  rewrite app_length in *. cbn [length] in *. destruct IH as (W1 & N1 & K1); [lia|]. rewrite after_snoc.
  pose proof (run_effect _ o W1) as E. pose proof (effect_grows _ _ _ W1 ltac:(lia) E) as [G1 G2].
  split; [apply (effect_wf _ _ _ W1 ltac:(lia) E)|]. split; [lia|]. intros id L. rewrite G2 by lia. apply K1. exact L.
Qed.
Lemma after0 ops : enough_handles ops -> wf (after state0 ops) /\ 0 <= hn (tab (after state0 ops)) <= Z.of_nat (length ops).
Proof. intros B. destruct (after_wf state0 ops wf0) as (W & N & _); [exact B|]. split; [exact W|exact N]. Qed.

(** ** Variables *)
Lemma vars_new s x : vars (snd (new s x)) = vars s.
Proof. unfold new. destruct (h_new (tab s) x). reflexivity. Qed.
Lemma decs_new s x : decs (snd (new s x)) = decs s.
Proof. unfold new. destruct (h_new (tab s) x). reflexivity. Qed.
Lemma effect_var s o s' p l : wf s -> effect s o s' -> value s p = Ok (RVar l) -> ~ writes o p -> nth_error (vars s') l = nth_error (vars s) l.
Proof.
  intros W E V NW. destruct E; rewrite ?vars_new; cbn [vars set_tab set_vars set_decs]; try reflexivity.
  - apply nth_error_app1. apply value_some in V. apply (w_var s W _ _ V).
  - apply nth_upd_other. intros ->. apply NW. replace p with h; [assumption|].
    apply value_some in V. match goal with X : value s h = _ |- _ => apply value_some in X; apply (w_uvar s W h p l X V) end.
Qed.
Lemma number_step s o p l k z : wf s -> value s p = Ok (RVar l) -> nth_error (vars s) l = Some (CScalar k z) ->
  nth_error (vars (snd (run s o))) l =
    Some (CScalar k (match o with Encode k' h x => if kind_dec k k' then if h =? p then x else z else z | _ => z end)).
Proof.
  intros W V N. assert (L : (l < length (vars s))%nat) by (apply nth_error_Some; congruence).
  assert (D : writes o p \/ ~ writes o p) by (destruct o; cbn; try tauto; match goal with |- ?a = ?b \/ _ => destruct (Z.eq_dec a b); auto end).
  destruct D as [D|D].
  - destruct o; cbn [writes] in D; try contradiction; subst; cbn [FfiModel.run]; rewrite V, N.
    + rewrite Z.eqb_refl. destruct (kind_dec k0 k) as [->|Q].
      * cbn [snd vars set_vars]. rewrite nth_upd_same by exact L. destruct (kind_dec k k); [reflexivity|congruence].
      * cbn [snd fail]. rewrite N. destruct (kind_dec k k0); [congruence|reflexivity].
    + cbn [snd fail]. exact N.
  - rewrite (effect_var s o _ p l W (run_effect s o W) V D), N. f_equal. destruct o; try reflexivity. cbn [writes] in D.
    destruct (kind_dec k k0); [|reflexivity]. replace (s0 =? p) with false by lia. reflexivity.
Qed.
Lemma string_step s o p l b : wf s -> value s p = Ok (RVar l) -> nth_error (vars s) l = Some (CString b) ->
  (forall str, o <> EncodeString p str) -> nth_error (vars (snd (run s o))) l = Some (CString b).
Proof.
  intros W V N O. assert (D : writes o p \/ ~ writes o p) by (destruct o; cbn; try tauto; match goal with |- ?a = ?b \/ _ => destruct (Z.eq_dec a b); auto end).
  destruct D as [D|D].
  - destruct o; cbn [writes] in D; try contradiction; subst; [|specialize (O str); congruence].
    cbn [FfiModel.run]. rewrite V, N. exact N.
  - rewrite (effect_var s o _ p l W (run_effect s o W) V D). exact N.
Qed.
(** ** Decoders *)
Lemma effect_dec s o s' d l : wf s -> effect s o s' -> value s d = Ok (RDecoder l) -> ~ reads o d -> nth_error (decs s') l = nth_error (decs s) l.
Proof.
  intros W E V NW. destruct E; rewrite ?decs_new; cbn [decs set_tab set_vars set_decs]; try reflexivity.
  - apply nth_error_app1. apply value_some in V. apply (w_dec s W _ _ V).
  - apply nth_upd_other. intros ->. apply NW. replace d with h; [assumption|].
    apply value_some in V. match goal with X : value s h = _ |- _ => apply value_some in X; apply (w_udec s W h d l X V) end.
  - apply nth_upd_other. intros ->. apply NW. replace d with h; [assumption|].
    apply value_some in V. match goal with X : value s h = _ |- _ => apply value_some in X; apply (w_udec s W h d l X V) end.
Qed.
Lemma decoder_step s o d l v i : wf s -> value s d = Ok (RDecoder l) -> nth_error (decs s) l = Some (v, i) ->
  nth_error (decs (snd (run s o))) l = Some (v, (i + decodings d [o])%nat).
Proof.
  intros W V N. assert (L : (l < length (decs s))%nat) by (apply nth_error_Some; congruence).
  assert (D : reads o d \/ ~ reads o d) by (destruct o; cbn; try tauto; match goal with |- ?a = ?b \/ _ => destruct (Z.eq_dec a b); auto end).
  destruct D as [D|D].
  - assert (K : decodings d [o] = 1%nat) by (destruct o; cbn [reads] in D; try contradiction; subst; unfold decodings; cbn [filter]; rewrite Z.eqb_refl; reflexivity).
    rewrite K. replace (i + 1)%nat with (S i) by lia.
    destruct o; cbn [reads] in D; try contradiction; subst; cbn [FfiModel.run]; rewrite V; cbn [content].
    + cbn [decode_other]. rewrite N. cbv zeta.
      assert (X : nth_error (decs (set_decs s (upd_nth l (v, S i) (decs s)))) l = Some (v, S i)) by (cbn [decs set_decs]; apply nth_upd_same; exact L).
      destruct (content _ v); try exact X. destruct (nth_error s0 i); [|exact X]. destruct (kind_dec k KUint8); exact X.
    + cbn [decode_ref]. rewrite N. cbv zeta.
      assert (X : nth_error (decs (set_decs s (upd_nth l (v, S i) (decs s)))) l = Some (v, S i)) by (cbn [decs set_decs]; apply nth_upd_same; exact L).
      destruct v; try exact X. destruct (nth_error vs i) as [w|]; [|exact X]. unfold new_ref. destruct (content _ w); rewrite decs_new; exact X.
  - assert (K : decodings d [o] = 0%nat).
    { destruct o; try reflexivity; cbn [reads] in D; unfold decodings; cbn [filter]; replace (s0 =? d) with false by lia; reflexivity. }
    rewrite K, Nat.add_0_r, (effect_dec s o _ d l W (run_effect s o W) V D). exact N.
Qed.
Lemma decodings_app d a b : decodings d (a ++ b) = (decodings d a + decodings d b)%nat.
Proof. unfold decodings. rewrite filter_app, app_length. reflexivity. Qed.
Lemma value_after s ops h v : wf s -> hn (tab s) + Z.of_nat (length ops) < 2 ^ 64 -> value s h = Ok v -> value (after s ops) h = Ok v.
Proof.
  intros W B V. apply value_some in V. destruct (after_wf s ops W B) as (_ & _ & K). apply value_some. rewrite K; [exact V|].
  apply (w_range s W) in V. lia.
Qed.
Lemma decoder_after s ops d l v i : wf s -> hn (tab s) + Z.of_nat (length ops) < 2 ^ 64 -> value s d = Ok (RDecoder l) ->
  nth_error (decs s) l = Some (v, i) -> nth_error (decs (after s ops)) l = Some (v, (i + decodings d ops)%nat).
Proof.
  intros W B V N. induction ops as [|o ops IH] using rev_ind; [cbn; rewrite Nat.add_0_r; exact N|].
  rewrite app_length in B. cbn [length] in B. rewrite after_snoc, decodings_app, Nat.add_assoc.
  apply decoder_step; [apply after_wf; [exact W|lia]|apply value_after; [exact W|lia|exact V]|apply IH; lia].
Qed.
Lemma number_after s ops p l k : wf s -> hn (tab s) + Z.of_nat (length ops) < 2 ^ 64 -> value s p = Ok (RVar l) ->
  nth_error (vars s) l = Some (CScalar k 0) -> nth_error (vars (after s ops)) l = Some (CScalar k (last_number k p ops)).
Proof.
  intros W B V N. induction ops as [|o ops IH] using rev_ind; [exact N|].
  rewrite app_length in B. cbn [length] in B. rewrite after_snoc. unfold last_number. rewrite fold_left_app. cbn [fold_left].
  fold (last_number k p ops).
  apply number_step; [apply after_wf; [exact W|lia]|apply value_after; [exact W|lia|exact V]|apply IH; lia].
Qed.
Lemma string_after s ops p l b : wf s -> hn (tab s) + Z.of_nat (length ops) < 2 ^ 64 -> value s p = Ok (RVar l) ->
  nth_error (vars s) l = Some (CString b) -> (forall str, ~ In (EncodeString p str) ops) -> nth_error (vars (after s ops)) l = Some (CString b).
Proof.
  intros W B V N O. induction ops as [|o ops IH] using rev_ind; [exact N|].
  rewrite app_length in B. cbn [length] in B. rewrite after_snoc.
  apply (string_step _ _ p); [apply after_wf; [exact W|lia]|apply value_after; [exact W|lia|exact V]|apply IH; [lia|]|].
  - intros str X. apply (O str). apply in_or_app. left. exact X.
  - intros str ->. apply (O str). apply in_or_app. right. left. reflexivity.
Qed.
(** new gives the handle its object *)
Lemma new_value s o id s' : new s o = (Ok (RHandle id), s') -> 0 <= hn (tab s) -> hn (tab s) + 1 < 2 ^ 64 -> hm (tab s') (HUint64 id) = Some o.
Proof. intros E N B. rewrite new_eq in E by lia. injection E as <- <-. cbn [tab set_tab hm]. apply upd_key_same. Qed.
Lemma h_get_some (s : state) h o : h_get (tab s) h = Ok o <-> hm (tab s) (HUint64 h) = Some o.
Proof. unfold h_get. destruct (hm (tab s) (HUint64 h)); split; congruence. Qed.
(** Reading a decoder of a string *)
Lemma read_one s d l b i : wf s -> value s d = Ok (RDecoder l) -> nth_error (decs s) l = Some (RString b, i) ->
  fst (run s (Decode KUint8 d)) = match nth_error b i with Some c => Ok (RNum c) | None => Panic end.
Proof.
  intros W V N. cbn [FfiModel.run]. rewrite V. cbn [content decode_other]. rewrite N. cbv zeta. cbn [content].
  destruct (nth_error b i); [|reflexivity]. destruct (kind_dec KUint8 KUint8); [reflexivity|congruence].
Qed.
Lemma read_all : forall n s d l b i, wf s -> hn (tab s) + Z.of_nat n < 2 ^ 64 -> value s d = Ok (RDecoder l) ->
  nth_error (decs s) l = Some (RString b, i) -> length b = (i + n)%nat ->
  fst (read_bytes fsem other_string n s d) = Ok (skipn i b).
Proof.
  induction n as [|n IH]; intros s d l b i W B V N L.
  - cbn. rewrite skipn_all2 by lia. reflexivity.
  - cbn [read_bytes]. pose proof (read_one s d l b i W V N) as R.
    assert (X : exists c, nth_error b i = Some c).
    { destruct (nth_error b i) eqn:E; [eauto|]. apply nth_error_None in E. lia. }
    destruct X as (c & X). rewrite X in R. destruct (run s (Decode KUint8 d)) as [r s1] eqn:E. cbn [fst] in R. subst r.
    assert (S1 : s1 = after s [Decode KUint8 d]) by (unfold FfiModel.after; cbn [fold_left]; rewrite E; reflexivity).
    assert (W1 : wf s1 /\ hn (tab s1) <= hn (tab s) + 1) by (rewrite S1; destruct (after_wf s [Decode KUint8 d] W) as (A & C & _); [cbn [length]; lia|]; split; [exact A|cbn [length] in C; lia]).
    destruct W1 as (W1 & N1).
    assert (HN : hn (tab s1) = hn (tab s)).
    { cbn [FfiModel.run] in E. rewrite V in E. cbn [content decode_other] in E. rewrite N in E. cbv zeta in E. cbn [content] in E. rewrite X in E.
      apply (f_equal snd) in E. destruct (kind_dec KUint8 KUint8); cbn [snd fail] in E; rewrite <- E; reflexivity. }
    assert (I1 : fst (read_bytes fsem other_string n s1 d) = Ok (skipn (S i) b)).
    { apply (IH s1 d l b (S i) W1); [lia| | |lia].
      - rewrite S1. apply value_after; [exact W|cbn [length]; lia|exact V].
      - rewrite S1. rewrite (decoder_after s [Decode KUint8 d] d l (RString b) i W ltac:(cbn [length]; lia) V N). unfold decodings. cbn [filter]. rewrite Z.eqb_refl.
        cbn [length]. do 2 f_equal. lia. }
    destruct (read_bytes fsem other_string n s1 d) as [r s2]. cbn [fst] in *. rewrite I1. cbn [omap]. f_equal.
    clear -X. revert b X. induction i as [|i IHi]; intros [|a b] X; try discriminate; [injection X as ->; reflexivity|]. cbn [skipn]. apply IHi. exact X.
Qed.
Lemma run_after s o ops : after s (o :: ops) = after (snd (run s o)) ops.
Proof. reflexivity. Qed.
(** Decode of a Go string from anything that holds a string *)
Lemma decode_string_all s v h b : wf s -> hn (tab s) + zlen b + 5 < 2 ^ 64 -> zlen b < 2 ^ 32 -> value s h = Ok v -> content s v = RString b ->
  fst (decode_go_string fsem other_string s h) = Ok b.
Proof.
  intros W B L V C. pose proof (w_n s W) as N0. assert (LB : 0 <= zlen b) by (unfold zlen; lia).
  unfold decode_go_string. cbn [FfiModel.run]. rewrite V, C. rewrite new_eq by lia. cbv beta iota.
  set (s1 := set_tab s _).
  assert (W1 : wf s1) by (pose proof (wf_harmless s (OValue (RString b)) W ltac:(lia) I) as X; rewrite new_eq in X by lia; exact X).
  assert (N1 : hn (tab s1) = hn (tab s) + 1) by reflexivity.
  assert (V1 : value s1 (hn (tab s) + 1) = Ok (RString b)) by (apply value_some; cbn [s1 tab set_tab hm]; apply upd_key_same).
  rewrite V1. assert (E2 : new (set_decs s1 (decs s1 ++ [(RString b, 0%nat)])) (OValue (RDecoder (length (decs s1)))) =
     run s1 (StringData (hn (tab s) + 1))) by (cbn [FfiModel.run]; rewrite V1; reflexivity).
  destruct (new (set_decs s1 (decs s1 ++ [(RString b, 0%nat)])) (OValue (RDecoder (length (decs s1))))) as [r s2] eqn:E3.
  assert (Q : r = Ok (RHandle (hn (tab s1) + 1)) /\ hm (tab s2) (HUint64 (hn (tab s1) + 1)) = Some (OValue (RDecoder (length (decs s1)))) /\
     nth_error (decs s2) (length (decs s1)) = Some (RString b, 0%nat) /\ hn (tab s2) = hn (tab s1) + 1).
  { rewrite new_eq in E3 by (cbn [tab set_decs]; lia). injection E3 as <- <-. cbn [tab set_tab set_decs decs hn hm].
    split; [reflexivity|]. split; [apply upd_key_same|]. split; [|reflexivity].
    change (decs s1) with (decs s). rewrite nth_error_app2 by lia. rewrite Nat.sub_diag. reflexivity. }
  destruct Q as (-> & Q1 & Q2 & Q3). cbv beta iota.
  assert (S2 : s2 = after s1 [StringData (hn (tab s) + 1)]) by (unfold FfiModel.after; cbn [fold_left]; rewrite <- E2; reflexivity).
  assert (W2 : wf s2) by (rewrite S2; apply after_wf; [exact W1|cbn [length]; lia]).
  assert (V2 : value s2 (hn (tab s) + 1) = Ok (RString b)) by (rewrite S2; apply value_after; [exact W1|cbn [length]; lia|exact V1]).
  rewrite V2. cbn [content].
  assert (U : u32 (zlen b) = zlen b) by (unfold u32; apply Z.mod_small; lia). rewrite U.
  pose proof (read_all (Z.to_nat (zlen b)) s2 (hn (tab s1) + 1) (length (decs s1)) b 0 W2 ltac:(lia)) as R.
  specialize (R (proj2 (value_some _ _ _) Q1) Q2 ltac:(unfold zlen; lia)).
  destruct (read_bytes fsem other_string (Z.to_nat (zlen b)) s2 (hn (tab s1) + 1)) as [r s3]. cbn [fst skipn] in *. exact R.
Qed.
End Api.
