(** * C135, C136: traces of errors, registered errors. *)
From Coq Require Import String.
From Verif Require Import GoBase GoText ZigLitModel ZigLit MimeModel MimeText XerrModel.
Open Scope list_scope.
Open Scope Z_scope.

(** ** C135: the specification *)

(** [located e l]: [e] was wrapped at the places [l], the first of them first. Other
    wrappers in between do not matter. *)
Inductive located : err -> list src -> Prop :=
| at_base m c : located (EBase m c) []
| at_join es : located (EJoin es) []
| at_trace e s l : located e l -> located (ETrace e s) (l ++ [s])
| at_wrapf a e b l : located e l -> located (EWrapf a e b) l.
(** a place: function, file and line *)
Definition place (s : src) : bytes := s_fn s ++ text "()" ++ [10] ++ [9] ++ s_file s ++ text ":" ++ int_text (s_line s) ++ [10].
Definition known (l : list src) : list src := filter s_ok l.

Lemma frame_place s : frame s = if s_ok s then place s else [].
Proof. reflexivity. Qed.
Lemma frames_known l : flat_map frame l = flat_map place (known l).
Proof.
  induction l as [|s l IH]; [reflexivity|]. cbn [flat_map known filter]. rewrite frame_place. destruct (s_ok s); cbn [flat_map].
  - rewrite IH. reflexivity.
  - exact IH.
Qed.
Lemma chain_located e l : located e l -> flat_map frame_of (rev (chain e)) = flat_map frame l.
Proof.
  induction 1 as [m c|es|e s l L IH|a e b l L IH]; try reflexivity.
  - cbn [chain rev]. rewrite flat_map_app, IH, flat_map_app. reflexivity.
  - cbn [chain rev]. rewrite flat_map_app, IH. cbn. apply app_nil_r.
Qed.

(** What is printed for an error: its message, and every place it was wrapped at, the
    first one first. *)
Theorem C135_trace e s l : located (ETrace e s) l ->
  printed (ETrace e s) = text "Error: " ++ message e ++ [10; 10] ++ flat_map place (known l).
Proof.
  intros L. inversion L as [| |? ? l' L'|]; subst. cbn [printed]. rewrite (chain_located _ _ L'), <- frames_known, flat_map_app.
  cbn [flat_map]. rewrite app_nil_r. reflexivity.
Qed.
Theorem C135_located_total e : exists l, located e l.
Proof.
  induction e as [m c|e [l L] s|a e [l L] b|es]; eexists; constructor; eassumption.
Qed.
(** Wrapping, any number of times, keeps the message; nil stays nil. *)
Theorem C135_message e (ss : list src) : message (fold_left ETrace ss e) = message e.
Proof. revert e. induction ss as [|s ss IH]; intros e; [reflexivity|]. cbn [fold_left]. rewrite IH. reflexivity. Qed.
Theorem C135_nil s e : (new None s = None) /\ new (Some e) s = Some (ETrace e s) /\ unwrap (ETrace e s) = Some e.
Proof. repeat split. Qed.

(** Nothing about the places is lost in print. *)
Definition tidy (s : src) : Prop := ~ In 10 (s_fn s) /\ ~ In 10 (s_file s) /\ 0 <= s_line s /\ s_ok s = true.
Lemma cut_eq (k : Z) a b x y : ~ In k a -> ~ In k b -> a ++ k :: x = b ++ k :: y -> a = b /\ x = y.
Proof.
  revert b. induction a as [|c a IH]; intros b A B E; destruct b as [|d b]; cbn [app] in E.
  - inversion E. split; reflexivity.
  - inversion E; subst. contradiction B. left. reflexivity.
  - inversion E; subst. contradiction A. left. reflexivity.
  - inversion E as [[E1 E2]]; subst. destruct (IH b) as [-> ->].
    + intros I. apply A. right. exact I.
    + intros I. apply B. right. exact I.
    + exact E2.
    + split; reflexivity.
Qed.
Lemma cut_last (k : Z) a b x y : ~ In k x -> ~ In k y -> a ++ k :: x = b ++ k :: y -> a = b /\ x = y.
Proof.
  intros X Y E. apply (f_equal (@rev Z)) in E. rewrite !rev_app_distr in E. cbn [rev] in E. rewrite <- !app_assoc in E.
  destruct (cut_eq k (rev x) (rev y) (rev a) (rev b)) as [E1 E2].
  - rewrite <- in_rev. exact X.
  - rewrite <- in_rev. exact Y.
  - exact E.
  - split; [rewrite <- (rev_involutive a), E2; apply rev_involutive|rewrite <- (rev_involutive x), E1; apply rev_involutive].
Qed.
Lemma digits_no k n : 0 <= n -> is_dig k = false -> ~ In k (int_text n).
Proof.
  intros N K I. unfold int_text in I. destruct (n <? 0) eqn:X; [lia|]. destruct (num_text_spec n N) as (D & _).
  unfold digits_only in D. rewrite Forall_forall in D. specialize (D _ I). congruence.
Qed.
Lemma int_text_inj n m : 0 <= n -> 0 <= m -> int_text n = int_text m -> n = m.
Proof.
  intros N M E. unfold int_text in E. destruct (n <? 0) eqn:X; [lia|]. destruct (m <? 0) eqn:Y; [lia|].
  destruct (num_text_spec n N) as (_ & A & _). destruct (num_text_spec m M) as (_ & B & _). congruence.
Qed.
Lemma place_inj s t x y : tidy s -> tidy t -> place s ++ x = place t ++ y -> s = t /\ x = y.
Proof.
  intros (F1 & G1 & L1 & O1) (F2 & G2 & L2 & O2) E. unfold place in E. rewrite <- !app_assoc in E.
  change ([10] ++ [9] ++ ?z) with (10 :: 9 :: z) in E.
  rewrite !(app_assoc (s_fn _) (text "()")) in E.
  assert (P : forall r, ~ In 10 (s_fn r) -> ~ In 10 (s_fn r ++ text "()")).
  { intros r N I. apply in_app_or in I. destruct I as [I|I]; [exact (N I)|]. cbn in I. intuition discriminate. }
  cbn [app] in E. apply cut_eq in E; [|apply P; exact F1|apply P; exact F2]. destruct E as [E1 E2].
  apply app_inv_tail in E1. inversion E2 as [E3]. clear E2.
  assert (R : forall r z, s_file r ++ 58 :: int_text (s_line r) ++ 10 :: z = ((s_file r ++ text ":") ++ int_text (s_line r)) ++ 10 :: z).
  { intros r z. rewrite <- !app_assoc. reflexivity. }
  rewrite !R in E3.
  assert (Q : forall r, 0 <= s_line r -> ~ In 10 (s_file r) -> ~ In 10 ((s_file r ++ text ":") ++ int_text (s_line r))).
  { intros r L N I. apply in_app_or in I. destruct I as [I|I].
    - apply in_app_or in I. destruct I as [I|I]; [exact (N I)|]. cbn in I. intuition discriminate.
    - revert I. apply digits_no; [exact L|reflexivity]. }
  apply cut_eq in E3; [|apply Q; assumption|apply Q; assumption]. destruct E3 as [E3 E4].
  rewrite <- !app_assoc in E3. change (text ":" ++ ?z) with (58 :: z) in E3.
  apply cut_last in E3; [|apply digits_no; [exact L1|reflexivity]|apply digits_no; [exact L2|reflexivity]].
  destruct E3 as [E5 E6]. apply int_text_inj in E6; [|assumption|assumption].
  split; [|exact E4]. destruct s, t. cbn in *. congruence.
Qed.
Lemma place_ne s x : place s ++ x <> [].
Proof. unfold place. destruct (s_fn s); discriminate. Qed.
Theorem C135_distinct e s l f t m : located (ETrace e s) l -> located (ETrace f t) m -> message e = message f ->
  Forall tidy l -> Forall tidy m -> printed (ETrace e s) = printed (ETrace f t) -> l = m.
Proof.
  intros L M Q TL TM E. rewrite (C135_trace e s l L), (C135_trace f t m M), Q in E.
  apply app_inv_head in E. apply app_inv_head in E. apply app_inv_head in E.
  assert (K : forall r, Forall tidy r -> known r = r).
  { clear. intros r T. induction T as [|x r (_ & _ & _ & O) T IH]; [reflexivity|]. cbn. rewrite O. unfold known in IH. rewrite IH. reflexivity. }
  rewrite !K in E by assumption. clear - TL TM E. revert m TM E. induction TL as [|x l X TL IH]; intros m TM E.
  - destruct m as [|y m]; [reflexivity|]. cbn in E. symmetry in E. apply place_ne in E. destruct E.
  - destruct m as [|y m]; [cbn in E; apply place_ne in E; destruct E|]. inversion TM; subst. cbn [flat_map] in E.
    apply place_inj in E; [|assumption|assumption]. destruct E as [-> E]. f_equal. apply IH; assumption.
Qed.
Definition at_line (f : string) (n : Z) : src := {| s_fn := text f; s_file := text "/a.go"; s_line := n; s_ok := true |}.
Theorem C135_example :
  let e := ETrace (ETrace (EBase (text "oops") None) (at_line "a.F" 7)) (at_line "a.G" 12) in
  message e = text "oops" /\ Forall tidy [at_line "a.F" 7; at_line "a.G" 12] /\ located e [at_line "a.F" 7; at_line "a.G" 12] /\
  printed e = text "Error: oops" ++ [10; 10] ++ text "a.F()" ++ [10; 9] ++ text "/a.go:7" ++ [10] ++ text "a.G()" ++ [10; 9] ++ text "/a.go:12" ++ [10].
Proof.
  cbv zeta. split; [reflexivity|]. split.
  { repeat constructor; cbn; try (intuition discriminate). }
  split; [|vm_compute; reflexivity].
  apply (at_trace _ _ [at_line "a.F" 7]). apply (at_trace _ _ []). constructor.
Qed.

(** An error that wraps a traced one with fmt.Errorf has the trace in its message. *)
Theorem C135_errorf_refuted a e s b : s_ok s = true -> message (EWrapf a (ETrace e s) b) <> a ++ message e ++ b.
Proof.
  intros O E. apply (f_equal (@List.length Z)) in E. cbn [message printed] in E. rewrite !app_length in E. cbn in E. lia.
Qed.
Theorem C135_errorf_says a e s l b : located (ETrace e s) l ->
  message (EWrapf a (ETrace e s) b) = a ++ (text "Error: " ++ message e ++ [10; 10] ++ flat_map place (known l)) ++ b.
Proof. intros L. cbn [message]. rewrite (C135_trace e s l L). reflexivity. Qed.
(** The places errors were wrapped at before errors.Join are not printed. *)
Theorem C135_join_refuted es s : s_ok s = true ->
  printed (ETrace (EJoin es) s) = text "Error: " ++ message (EJoin es) ++ [10; 10] ++ place s.
Proof. intros O. rewrite (C135_trace _ _ [s]); [|apply (at_trace _ _ []); constructor]. cbn [known filter]. rewrite O. cbn [flat_map]. rewrite app_nil_r. reflexivity. Qed.

(** ** C136: registered errors *)

(** [carries e t i]: [e] is, or wraps, the case [i] of the type [t]. *)
Inductive carries : err -> Z -> nat -> Prop :=
| carry_base m t i : carries (EBase m (Some (t, i))) t i
| carry_trace e s t i : carries e t i -> carries (ETrace e s) t i
| carry_wrapf a e b t i : carries e t i -> carries (EWrapf a e b) t i.

Lemma existsb_chain t i e : existsb (is_case t i) (chain e) = true <-> carries e t i.
Proof.
  induction e as [m c|e IH s|a e IH b|es]; cbn [chain existsb is_case orb].
  - destruct c as [[t' i']|]; cbn.
    + rewrite orb_false_r, andb_true_iff, Z.eqb_eq, Nat.eqb_eq. split; [intros [-> ->]; constructor|intros C; inversion C; split; reflexivity].
    + split; [discriminate|intros C; inversion C].
  - rewrite IH. split; [intros C; constructor; exact C|intros C; inversion C; assumption].
  - rewrite IH. split; [intros C; constructor; exact C|intros C; inversion C; assumption].
  - split; [discriminate|intros C; inversion C].
Qed.
Theorem C136_test s e : test s e = true <-> carries e (n_type s) (n_case s).
Proof. apply existsb_chain. Qed.
Lemma carries_fun e t i t' i' : carries e t i -> carries e t' i' -> t = t' /\ i = i'.
Proof. induction 1; intros C; inversion C; subst; auto. Qed.

Definition scen_of (field : bytes) (t : Z) (i : nat) (c : ecase) : scen :=
  {| n_name := c_name c; n_kind := field; n_text := c_text c; n_http := c_http c; n_type := t; n_case := i |}.
(** Every case is a scenario, of its name, field, text and tag. *)
Theorem C136_scenarios regs s : In s (scenarios regs) <->
  exists field t cs i c, In (field, t, cs) regs /\ nth_error cs i = Some c /\ s = scen_of field t i c.
Proof.
  assert (F : forall field t cs k, In s (scenarios_from field t k cs) <-> exists i c, nth_error cs i = Some c /\ s = scen_of field t (k + i)%nat c).
  { intros field t cs. induction cs as [|c cs IH]; intros k; cbn [scenarios_from].
    - split; [intros []|intros (i & c & E & _); destruct i; discriminate].
    - cbn [In]. rewrite IH. split.
      + intros [<- | (i & d & E & ->)].
        * exists O, c. split; [reflexivity|]. rewrite Nat.add_0_r. reflexivity.
        * exists (S i), d. split; [exact E|]. f_equal. lia.
      + intros (i & d & E & ->). destruct i as [|i].
        * left. inversion E; subst. rewrite Nat.add_0_r. reflexivity.
        * right. exists i, d. split; [exact E|]. f_equal. lia. }
  unfold scenarios. rewrite in_flat_map. split.
  - intros ([[field t] cs] & I & J). apply F in J. destruct J as (i & c & E & ->). exists field, t, cs, i, c. split; [exact I|split; [exact E|reflexivity]].
  - intros (field & t & cs & i & c & I & E & ->). exists (field, t, cs). split; [exact I|]. apply F. exists i, c. split; [exact E|reflexivity].
Qed.

(** An error that is or wraps a registered one is answered as its case says, however often
    it was wrapped; one that does not is left alone. *)
Theorem C136_found regs e field t cs i c :
  In (field, t, cs) regs -> nth_error cs i = Some c -> NoDup (map (fun r => snd (fst r)) regs) -> carries e t i ->
  found regs e = Some (scen_of field t i c).
Proof.
  intros I N D C. unfold found. destruct (List.find (fun s => test s e) (scenarios regs)) as [s|] eqn:F.
  - apply find_some in F. destruct F as [F1 F2]. apply C136_test in F2. apply C136_scenarios in F1.
    destruct F1 as (field' & t' & cs' & i' & c' & I' & N' & ->). cbn [n_type n_case scen_of] in F2.
    destruct (carries_fun _ _ _ _ _ C F2) as [<- <-].
    assert (Q : (field, t, cs) = (field', t, cs')).
    { clear - I I' D. induction regs as [|r regs IH]; [destruct I|]. cbn [map] in D. inversion D as [|? ? D1 D2]; subst.
      destruct I as [-> | I], I' as [I' | I'].
      - exact I'.
      - exfalso. apply D1. apply in_map_iff. exists (field', t, cs'). split; [reflexivity|exact I'].
      - subst r. exfalso. apply D1. apply in_map_iff. exists (field, t, cs). split; [reflexivity|exact I].
      - apply IH; assumption. }
    inversion Q; subst. rewrite N in N'. inversion N'; subst. reflexivity.
  - exfalso. assert (S : In (scen_of field t i c) (scenarios regs)).
    { apply C136_scenarios. exists field, t, cs, i, c. split; [exact I|split; [exact N|reflexivity]]. }
    apply (find_none _ _ F) in S. assert (T : test (scen_of field t i c) e = true) by (apply C136_test; exact C). congruence.
Qed.
Theorem C136_other regs e : (forall field t cs i c, In (field, t, cs) regs -> nth_error cs i = Some c -> ~ carries e t i) -> found regs e = None /\ forall before, status before regs e = before.
Proof.
  intros N. assert (F : found regs e = None); [|split; [exact F|intros before; unfold status; rewrite F; reflexivity]]. unfold found. destruct (List.find (fun s => test s e) (scenarios regs)) as [s|] eqn:F; [|reflexivity]. exfalso.
  apply find_some in F. destruct F as [F1 F2]. apply C136_test in F2. apply C136_scenarios in F1.
  destruct F1 as (field & t & cs & i & c & I & E & ->). exact (N _ _ _ _ _ I E F2).
Qed.
(** The status of a tag: its number, and 500 for a tag that is not one. *)
Lemma atoi_num n : 0 <= n < 2 ^ 63 -> atoi (num_text n) = Some n.
Proof.
  intros R. destruct (num_text_spec n ltac:(lia)) as (D & V & _). destruct (num_text_hd n ltac:(lia)) as (c & r & Q & K).
  unfold atoi. rewrite Q in *. unfold is_dig in K.
  assert (S : sign (c :: r) = (false, c :: r)).
  { destruct c as [|p|p]; try reflexivity. do 6 (destruct p as [p|p|]; try reflexivity); cbn in K; discriminate. }
  rewrite S. cbv zeta. assert (B : forallb is_dig (c :: r) = true) by (rewrite forallb_forall; apply Forall_forall; exact D).
  rewrite B, V. rewrite (proj2 (Z.leb_le _ _)), (proj2 (Z.ltb_lt _ _)) by lia. reflexivity.
Qed.
Theorem C136_status regs e field t cs i c n before :
  In (field, t, cs) regs -> nth_error cs i = Some c -> NoDup (map (fun r => snd (fst r)) regs) -> carries e t i ->
  c_http c = Some (num_text n) -> 0 < n < 2 ^ 63 ->
  status before regs e = n /\ status_http (c_http c) = n.
Proof.
  intros I N D C H R. unfold status. rewrite (C136_found _ _ _ _ _ _ _ I N D C). cbn [n_http scen_of]. unfold status_http.
  rewrite H, atoi_num by lia. rewrite (proj2 (Z.eqb_neq n 0)) by lia. split; reflexivity.
Qed.
Theorem C136_untagged : status_http None = 500 /\ forall t, atoi t = None -> status_http (Some t) = 500.
Proof. split; [reflexivity|]. intros t T. unfold status_http. rewrite T. reflexivity. Qed.
(** Registered errors that are joined are not recognised. *)
Theorem C136_join_refuted regs es ss : found regs (fold_left ETrace ss (EJoin es)) = None.
Proof.
  apply C136_other. intros field t cs i c _ _. assert (J : forall x, ~ carries x t i -> ~ carries (fold_left ETrace ss x) t i).
  { induction ss as [|s ss IH]; intros x N; [exact N|]. cbn [fold_left]. apply IH. intros C. inversion C; subst. contradiction. }
  apply J. intros C. inversion C.
Qed.
Definition toy : list (bytes * Z * list ecase) :=
  [(text "Errors", 1, [{| c_name := text "Missing"; c_http := Some (text "404"); c_text := text "not there" |};
                       {| c_name := text "Busy"; c_http := Some (text "503"); c_text := [] |}])].
Theorem C136_example : NoDup (map (fun r => snd (fst r)) toy) /\
  let e := EWrapf (text "x: ") (ETrace (EBase (text "busy") (Some (1, 1%nat))) (at_line "a.F" 7)) [] in
  carries e 1 1 /\ status 500 toy e = 503 /\ status 500 toy (EBase (text "other") None) = 500.
Proof.
  split; [repeat constructor; cbn; intuition discriminate|]. cbv zeta. split; [repeat constructor|]. split; vm_compute; reflexivity.
Qed.
