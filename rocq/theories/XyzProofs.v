(** Lemmas about package xyz. *)
From Verif Require Import GoBase BaseLemmas XyzModel XyzSpec.
From Verif Require JrpcSpec JrpcText.

(** ** Strings *)
Lemma str_eqb_eq a b : str_eqb a b = true <-> a = b.
Proof.
  revert b. induction a as [|x a IH]; intros [|y b]; cbn [str_eqb]; try (split; congruence).
  rewrite andb_true_iff, IH, Z.eqb_eq. split; [intros (-> & ->); reflexivity|intros E; injection E as -> ->; auto].
Qed.
Lemma str_eqb_refl a : str_eqb a a = true. Proof. apply str_eqb_eq. reflexivity. Qed.
Lemma str_eqb_neq a b : a <> b -> str_eqb a b = false.
Proof. intros N. destruct (str_eqb a b) eqn:E; [apply str_eqb_eq in E; contradiction|reflexivity]. Qed.

(** ** Duplex *)
Section Duplex.
Context {T : Type}.
Variable add sub : T -> T -> T.
Lemma branch_app d a vs : branch add sub d a vs = vs ++ branch add sub d a [].
Proof.
  revert a vs. induction d as [|x d IH]; intros a vs; cbn [branch]; [reflexivity|].
  rewrite IH. rewrite (IH _ vs). rewrite (IH (sub a x) (branch add sub d (add a x) [])). rewrite app_assoc. reflexivity.
Qed.
Lemma branch_length d a : length (branch add sub d a []) = (2 ^ length d)%nat.
Proof.
  revert a. induction d as [|x d IH]; intros a; cbn [branch length Nat.pow]; [reflexivity|].
  rewrite branch_app, app_length, !IH. lia.
Qed.
Lemma position_lt s : (position s < 2 ^ length s)%nat.
Proof. induction s as [|b s IH]; cbn [position length Nat.pow]; [lia|]. destruct b; lia. Qed.
Lemma branch_nth d a s : length s = length d ->
  nth_error (branch add sub d a []) (position s) = Some (signed_sum add sub a s d).
Proof.
  revert a s. induction d as [|x d IH]; intros a [|b s] L; cbn [length] in L; try discriminate; [reflexivity|].
  injection L as L. cbn [branch position signed_sum]. rewrite branch_app. destruct b.
  - rewrite nth_error_app2; rewrite branch_length, <- L; [|lia].
    replace (2 ^ length s + position s - 2 ^ length s)%nat with (position s) by lia. apply IH. exact L.
  - rewrite nth_error_app1; [apply IH; exact L|]. rewrite branch_length, <- L. cbn [Nat.add]. apply position_lt.
Qed.
Lemma position_onto n k : (k < 2 ^ n)%nat -> exists s, length s = n /\ position s = k.
Proof.
  revert k. induction n as [|n IH]; intros k L; cbn [Nat.pow] in L.
  - exists []. split; [reflexivity|]. cbn. lia.
  - destruct (Nat.ltb k (2 ^ n)) eqn:E.
    + apply Nat.ltb_lt in E. destruct (IH k E) as (s & A & B). exists (false :: s). cbn [length position]. split; [lia|]. rewrite B. reflexivity.
    + apply Nat.ltb_ge in E. destruct (IH (k - 2 ^ n)%nat ltac:(lia)) as (s & A & B). exists (true :: s). cbn [length position].
      rewrite A, B. lia.
Qed.
End Duplex.
Lemma signed_sum_mod w a s d : 0 < w ->
  signed_sum (fun x y => sgn w (x + y)) (fun x y => sgn w (x - y)) a s d mod 2 ^ w = (a + signed_total s d) mod 2 ^ w.
Proof.
  intros W. assert (SM : forall z, sgn w z mod 2 ^ w = z mod 2 ^ w).
  { intros z. unfold sgn. assert (0 < 2 ^ w) by (apply Z.pow_pos_nonneg; lia). cbv zeta. destruct (_ <? _).
    - apply Z.mod_mod. lia.
    - replace (z mod 2 ^ w - 2 ^ w) with (z mod 2 ^ w + (-1) * 2 ^ w) by lia. rewrite Z.mod_add by lia. apply Z.mod_mod. lia. }
  assert (0 < 2 ^ w) by (apply Z.pow_pos_nonneg; lia).
  revert a d. induction s as [|b s IH]; intros a [|x d]; cbn [signed_sum signed_total]; try (f_equal; lia).
  rewrite IH. destruct b.
  - rewrite <- Z.add_mod_idemp_l, SM, Z.add_mod_idemp_l by lia. f_equal. lia.
  - rewrite <- Z.add_mod_idemp_l, SM, Z.add_mod_idemp_l by lia. f_equal. lia.
Qed.

(** ** Switch types *)
Lemma sname_field f : sname f = field_name f. Proof. destruct f as [n [t|]]; reflexivity. Qed.
Lemma svalues_nth k fs : forall n i f, nth_error fs i = Some f ->
  nth_error (svalues_from k n fs) i = Some (match k with SString => SVStr (field_name f) | _ => store_index k (n + i) (szero k) end).
Proof.
  induction fs as [|g fs IH]; intros n [|i] f E; cbn [nth_error svalues_from] in *; try discriminate.
  - injection E as ->. rewrite Nat.add_0_r, sname_field. reflexivity.
  - rewrite (IH (S n) i f E). replace (S n + i)%nat with (n + S i)%nat by lia. reflexivity.
Qed.
Lemma find_name_nth fs : forall n i f, nth_error fs i = Some f -> NoDup (map field_name fs) ->
  find_name (field_name f) n fs = Some (n + i)%nat.
Proof.
  induction fs as [|g fs IH]; intros n [|i] f E D; cbn [nth_error find_name map] in *; try discriminate; inversion D as [|a l NI ND]; subst.
  - injection E as ->. rewrite sname_field, str_eqb_refl. f_equal. lia.
  - rewrite str_eqb_neq.
    + rewrite (IH (S n) i f E ND). f_equal. lia.
    + rewrite sname_field. intros Q. apply NI. rewrite <- Q. apply in_map. eapply nth_error_In. exact E.
Qed.
Lemma find_name_none fs s : forall n, ~ In s (map field_name fs) -> find_name s n fs = None.
Proof.
  induction fs as [|g fs IH]; intros n N; cbn [find_name map] in *; [reflexivity|].
  rewrite str_eqb_neq; [apply IH; intros Q; apply N; right; exact Q|]. rewrite sname_field. intros ->. apply N. left. reflexivity.
Qed.
Section Sw.
Variable ft : sval -> str.
Lemma marshal_from_nth k fs : forall v n i f, nth_error fs i = Some f ->
  (forall j g, (j < i)%nat -> nth_error fs j = Some g -> matches k v (n + j) (field_name g) = false) ->
  matches k v (n + i) (field_name f) = true -> marshal_text_from ft k v n fs = field_name f.
Proof.
  induction fs as [|g fs IH]; intros v n [|i] f E B M; cbn [nth_error marshal_text_from] in *; try discriminate.
  - injection E as ->. rewrite Nat.add_0_r in M. rewrite sname_field, M. reflexivity.
  - pose proof (B 0%nat g ltac:(lia) eq_refl) as B0. rewrite Nat.add_0_r in B0. rewrite sname_field, B0.
    apply (IH v (S n) i f E).
    + intros j h L N. replace (S n + j)%nat with (n + S j)%nat by lia. apply (B (S j) h); [lia|exact N].
    + replace (S n + i)%nat with (n + S i)%nat by lia. exact M.
Qed.
Lemma marshal_from_none k fs : forall v n, (forall j g, nth_error fs j = Some g -> matches k v (n + j) (field_name g) = false) ->
  marshal_text_from ft k v n fs = sprint ft v.
Proof.
  induction fs as [|g fs IH]; intros v n B; cbn [marshal_text_from]; [reflexivity|].
  pose proof (B 0%nat g eq_refl) as B0. rewrite Nat.add_0_r in B0. rewrite sname_field, B0.
  apply IH. intros j h N. replace (S n + j)%nat with (n + S j)%nat by lia. apply (B (S j) h N).
Qed.
End Sw.
Lemma sgn_id w z : switch_width w -> - 2 ^ (w - 1) <= z < 2 ^ (w - 1) -> sgn w z = z.
Proof.
  intros W R. unfold switch_width in W. cbn [In] in W. unfold sgn.
  destruct W as [<-|[<-|[<-|[<-|[]]]]]; cbn -[Z.modulo] in *; destruct (_ <? _) eqn:E; lia.
Qed.
Lemma mod_id w z : 0 <= z < 2 ^ w -> z mod 2 ^ w = z.
Proof. intros. apply Z.mod_small. assumption. Qed.
Lemma declared ft k fs i f : nth_error fs i = Some f -> NoDup (map field_name fs) -> room k (length fs) ->
  exists v, nth_error (svalues k fs) i = Some v /\ marshal_text ft k fs v = field_name f.
Proof.
  intros E D R. assert (L : (i < length fs)%nat) by (apply nth_error_Some; congruence).
  eexists. split; [unfold svalues; apply svalues_nth; exact E|]. cbn [Nat.add]. unfold marshal_text. apply marshal_from_nth with (i := i); [exact E| |].
  - intros j g J N. cbn [Nat.add]. destruct k; cbn [room] in R; cbn [store_index szero matches].
    + destruct j, i; try lia; try reflexivity.
    + rewrite sgn_id; [apply Z.eqb_neq; lia|tauto|lia].
    + rewrite mod_id by lia. apply Z.eqb_neq. lia.
    + contradiction.
    + apply str_eqb_neq. intros Q. rewrite NoDup_nth_error in D.
      assert (i = j); [|lia]. apply D; [rewrite map_length; exact L|].
      rewrite (map_nth_error _ _ _ E), (map_nth_error _ _ _ N). congruence.
    + apply Z.eqb_neq. lia.
  - cbn [Nat.add]. destruct k; cbn [room] in R; cbn [store_index szero matches].
    + destruct i; reflexivity.
    + rewrite sgn_id; [apply Z.eqb_eq; lia|tauto|lia].
    + rewrite mod_id by lia. apply Z.eqb_eq. lia.
    + contradiction.
    + apply str_eqb_refl.
    + apply Z.eqb_eq. lia.
Qed.
(** decimals *)
Lemma decimal_int z : - 2 ^ 63 <= z < 2 ^ 64 -> JrpcSpec.json_int (decimal z) z.
Proof.
  intros R. unfold decimal. destruct (z <? 0) eqn:E.
  - pose proof (JrpcText.uint_text_json (- z) ltac:(lia)) as J. change (ddigits 20 (- z) []) with (JrpcModel.uint_text (- z)).
    inversion J as [Q|c ds C D Q|c ds C D Q]; [lia| |].
    + assert (K : z = - JrpcSpec.digits_value 0 (c :: ds)) by (change (JrpcSpec.digits_value 0 (c :: ds)) with (JrpcSpec.digits_value (c - 48) ds); lia).
      rewrite K. constructor; assumption.
    + exfalso.
      assert (P : forall l a, 0 <= a -> Forall JrpcSpec.digit l -> 0 <= JrpcSpec.digits_value a l).
      { clear. induction l as [|x l IH]; intros a A F; cbn [JrpcSpec.digits_value]; [exact A|]. inversion F; subst. apply IH; [unfold JrpcSpec.digit in *; lia|assumption]. }
      specialize (P ds (c - 48) ltac:(lia) D). lia.
  - exact (JrpcText.uint_text_json z ltac:(lia)).
Qed.
Lemma forallb_digit ds : Forall JrpcSpec.digit ds -> forallb isdig ds = true.
Proof. intros F. apply forallb_forall. intros x I. rewrite Forall_forall in F. specialize (F x I). unfold JrpcSpec.digit, isdig in *. lia. Qed.
Lemma dvalue_same ds : forall a, dvalue a ds = JrpcSpec.digits_value a ds.
Proof. induction ds as [|c ds IH]; intros a; cbn [dvalue JrpcSpec.digits_value]; [reflexivity|apply IH]. Qed.
Lemma plain_nat_pos c ds : 49 <= c <= 57 -> Forall JrpcSpec.digit ds -> plain_nat (c :: ds) = Some (JrpcSpec.digits_value 0 (c :: ds)).
Proof.
  intros C F. assert (E : (if negb (c =? 48) && forallb isdig (c :: ds) then Some (dvalue 0 (c :: ds)) else None) = Some (JrpcSpec.digits_value 0 (c :: ds))).
  { rewrite dvalue_same. cbn [forallb]. rewrite (forallb_digit ds F).
    assert (isdig c = true) as -> by (unfold isdig; lia). assert (c =? 48 = false) as -> by lia. reflexivity. }
  destruct ds as [|d ds]; [|].
  - revert E. unfold plain_nat. destruct (Z.eq_dec c 48) as [->|N]; [lia|]. destruct c as [|p|p]; try lia; intros E; cbv iota beta.
    repeat (destruct p as [p|p|]; try lia; try exact E).
  - revert E. unfold plain_nat. destruct c as [|p|p]; try lia; intros E; cbv iota beta.
    repeat (destruct p as [p|p|]; try lia; try exact E).
Qed.
Lemma plain_nat_json x z : JrpcSpec.json_int x z -> 0 <= z -> plain_nat x = Some z.
Proof.
  intros J R. inversion J as [Q|c ds C D Q|c ds C D Q]; subst; [reflexivity|apply plain_nat_pos; assumption|].
  exfalso. assert (P : forall l a, 0 < a -> Forall JrpcSpec.digit l -> 0 < JrpcSpec.digits_value a l).
  { clear. induction l as [|x l IH]; intros a A F; cbn [JrpcSpec.digits_value]; [exact A|]. inversion F; subst. apply IH; [unfold JrpcSpec.digit in *; lia|assumption]. }
  cbn [JrpcSpec.digits_value] in R. specialize (P ds (0 * 10 + (c - 48)) ltac:(lia) D). lia.
Qed.
Lemma plain_int_json x z : JrpcSpec.json_int x z -> plain_int x = Some z.
Proof.
  intros J. inversion J as [Q|c ds C D Q|c ds C D Q]; subst; [reflexivity| |].
  - unfold plain_int. assert (P := plain_nat_pos c ds C D). destruct c as [|p|p]; try lia; cbv iota beta.
    repeat (destruct p as [p|p|]; try lia; try exact P).
  - change (plain_int (45 :: c :: ds)) with (match plain_nat (c :: ds) with Some n => Some (- n) | None => None end).
    rewrite (plain_nat_pos c ds C D). reflexivity.
Qed.
Lemma word_whole s : Forall (fun c => 33 <= c <= 126) s -> word s = s.
Proof.
  induction 1 as [|c s C F IH]; cbn [word]; [reflexivity|]. assert (fmt_space c = false) as -> by (unfold fmt_space; lia). rewrite IH. reflexivity.
Qed.
Lemma drop_word s : a_word s -> word (drop_space s) = s /\ s <> [].
Proof.
  intros (N & F). split; [|exact N]. destruct s as [|c s]; [congruence|]. inversion F; subst. cbn [drop_space].
  assert (fmt_space c = false) as -> by (unfold fmt_space; lia). apply word_whole. assumption.
Qed.
Lemma unmarshal_text_name os k fs old i f : nth_error fs i = Some f -> NoDup (map field_name fs) ->
  match k with SUintptr => False | SString => a_word (field_name f) | _ => True end ->
  exists v, nth_error (svalues k fs) i = Some v /\ unmarshal_text os k fs old (field_name f) = Some v.
Proof.
  intros E D K. eexists. split; [unfold svalues; apply svalues_nth; exact E|]. cbn [Nat.add].
  unfold unmarshal_text. rewrite (find_name_nth fs 0 i f E D). cbn [Nat.add].
  destruct k; try reflexivity; try contradiction.
  destruct (drop_word _ K) as (W & N). cbn [sscan]. rewrite W. destruct (field_name f); [congruence|reflexivity].
Qed.

(** ** Tuples *)
Lemma push_leaves {V} (t : tuple V) : forall l, push l t = l ++ leaves t.
Proof.
  induction t as [v|x IX y IY|x IX y IY z IZ|x IX y IY z IZ w IW]; intros l; cbn [push leaves];
    rewrite ?IW, ?IZ, ?IY, ?IX, <- ?app_assoc; reflexivity.
Qed.

(** ** Maybe *)
Section MaybeP.
Context {T : Type}.
Variable ut : json -> option T.
(** references are below mnext and not shared *)
Definition separate (h : mheap T) : Prop :=
  (forall x r, mvars h x = Some r -> (r < mnext h)%nat) /\
  (forall x y r, mvars h x = Some r -> mvars h y = Some r -> x = y).
Lemma upd_same {A} (f : nat -> A) i a : upd f i a i = a.
Proof. unfold upd. rewrite Nat.eqb_refl. reflexivity. Qed.
Lemma upd_other {A} (f : nat -> A) i a j : j <> i -> upd f i a j = f j.
Proof. intros N. unfold upd. apply Nat.eqb_neq in N. rewrite N. reflexivity. Qed.
Lemma new_separate h x v : separate h -> separate (maybe_new h x v) /\
  (forall y, maybe_get (maybe_new h x v) y = if Nat.eqb y x then Some v else maybe_get h y).
Proof.
  intros (A & B). unfold maybe_new, maybe_get. cbn [mvars mcells mnext]. split; [split|].
  - intros z r. cbn [mvars mnext]. unfold upd. destruct (Nat.eqb z x); intros Q; [injection Q as <-; lia|]. specialize (A _ _ Q). lia.
  - intros z w r. cbn [mvars]. unfold upd. destruct (Nat.eqb z x) eqn:Ez, (Nat.eqb w x) eqn:Ew; intros Q1 Q2;
      try apply Nat.eqb_eq in Ez; try apply Nat.eqb_eq in Ew; subst; auto; try (injection Q1 as <-); try (injection Q2 as <-).
    + specialize (A _ _ Q2). lia.
    + specialize (A _ _ Q1). lia.
    + eapply B; eassumption.
  - intros y. unfold upd at 1. destruct (Nat.eqb y x) eqn:E.
    + rewrite upd_same. reflexivity.
    + destruct (mvars h y) as [r|] eqn:V; [|reflexivity]. rewrite upd_other; [reflexivity|]. specialize (A _ _ V). lia.
Qed.
Lemma clear_separate h x : separate h -> separate (maybe_clear h x) /\
  (forall y, maybe_get (maybe_clear h x) y = if Nat.eqb y x then None else maybe_get h y).
Proof.
  intros (A & B). unfold maybe_clear. destruct (mvars h x) as [r|] eqn:V.
  - split; [split; cbn [mvars mnext]; assumption|]. intros y. unfold maybe_get. cbn [mvars mcells].
    destruct (Nat.eqb y x) eqn:E.
    + apply Nat.eqb_eq in E. subst. rewrite V, upd_same. reflexivity.
    + destruct (mvars h y) as [q|] eqn:W; [|reflexivity]. rewrite upd_other; [reflexivity|]. intros ->.
      apply Nat.eqb_neq in E. apply E. eapply B; eassumption.
  - split; [split; assumption|]. intros y. destruct (Nat.eqb y x) eqn:E; [|reflexivity].
    apply Nat.eqb_eq in E. subst. unfold maybe_get. rewrite V. reflexivity.
Qed.
Lemma clear_vars (h : mheap T) x : mvars (maybe_clear h x) = mvars h /\ mnext (maybe_clear h x) = mnext h.
Proof. unfold maybe_clear. destruct (mvars h x); auto. Qed.
Lemma run_separate h o : separate h -> no_copy o -> separate (run_maybe ut h o) /\
  forall y, maybe_get (run_maybe ut h o) y = spec_maybe ut (maybe_get h) o y.
Proof.
  intros S0 N. destruct o as [x v|x d|x|x y]; cbn [run_maybe spec_maybe] in *; [apply new_separate; assumption| |apply clear_separate; assumption|contradiction].
  assert (G : separate (fst (match ut d with
    | None => (h, false)
    | Some v => let h := maybe_clear h x in match mvars h x with
      | None => (maybe_new h x v, true)
      | Some r => ({| mvars := mvars h; mcells := upd (mcells h) r (Some v); mnext := mnext h |}, true) end end)) /\
    forall y, maybe_get (fst (match ut d with
    | None => (h, false)
    | Some v => let h := maybe_clear h x in match mvars h x with
      | None => (maybe_new h x v, true)
      | Some r => ({| mvars := mvars h; mcells := upd (mcells h) r (Some v); mnext := mnext h |}, true) end end)) y =
     match ut d with Some v => if Nat.eqb y x then Some v else maybe_get h y | None => maybe_get h y end).
  { destruct (ut d) as [v|]; [|split; auto]. cbv zeta.
    destruct (clear_separate h x S0) as (S1 & G1). destruct (clear_vars h x) as (V & NX).
    destruct (mvars (maybe_clear h x) x) as [r|] eqn:E; cbn [fst].
    - destruct S1 as (A & B). split; [split; cbn [mvars mnext]; assumption|]. intros y. specialize (G1 y).
      unfold maybe_get in *. cbn [mvars mcells] in *. rewrite <- V in *. destruct (Nat.eqb y x) eqn:Y.
      + apply Nat.eqb_eq in Y. subst. rewrite E, upd_same. reflexivity.
      + destruct (mvars (maybe_clear h x) y) as [q|] eqn:W; [|reflexivity]. rewrite upd_other; [exact G1|].
        intros ->. apply Nat.eqb_neq in Y. apply Y. eapply B; eassumption.
    - destruct (new_separate _ x v S1) as (S2 & G2). split; [exact S2|]. intros y. rewrite G2, G1. destruct (Nat.eqb y x); reflexivity. }
  destruct d; cbn [maybe_unmarshal]; try (destruct G as (G1 & G2); split; [exact G1|intros y; rewrite G2; destruct (ut _); reflexivity]).
  cbn [fst]. apply clear_separate. exact S0.
Qed.
Lemma spec_ext (s1 s2 : nat -> option T) o : (forall x, s1 x = s2 x) -> forall x, spec_maybe ut s1 o x = spec_maybe ut s2 o x.
Proof.
  intros E x. destruct o as [a v|a d|a|a b]; cbn [spec_maybe]; try (destruct (Nat.eqb x a); rewrite ?E; reflexivity).
  destruct d; try (destruct (ut _); [destruct (Nat.eqb x a); rewrite ?E; reflexivity|apply E]). destruct (Nat.eqb x a); rewrite ?E; reflexivity.
Qed.
Lemma runs_separate ops : forall h s, separate h -> Forall no_copy ops -> (forall x, maybe_get h x = s x) ->
  separate (fold_left (run_maybe ut) ops h) /\
  forall x, maybe_get (fold_left (run_maybe ut) ops h) x = fold_left (spec_maybe ut) ops s x.
Proof.
  induction ops as [|o ops IH]; intros h s S0 F E; cbn [fold_left]; [auto|]. inversion F; subst.
  destruct (run_separate h o S0 ltac:(assumption)) as (S1 & G). apply IH; [exact S1|assumption|].
  intros x. rewrite G. apply spec_ext. exact E.
Qed.
Lemma separate0 : separate (@mheap0 T).
Proof. split; cbn [mheap0 mvars]; discriminate. Qed.
End MaybeP.
