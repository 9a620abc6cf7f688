(** * C132: names of the Zig target. *)
From Coq Require Import String.
From Verif Require Import GoBase GoText ZigLitModel ZigLit ZigNameModel.
Open Scope list_scope.
Open Scope Z_scope.

(** ** The programs *)
Definition go_keywords : list bytes := map text
  ["break"; "case"; "chan"; "const"; "continue"; "default"; "defer"; "else"; "fallthrough"; "for"; "func"; "go"; "goto";
   "if"; "import"; "interface"; "map"; "package"; "range"; "return"; "select"; "struct"; "switch"; "type"; "var"]%string.
(** An identifier of Go in ASCII that Zig does not reserve; the names Go predeclares
    may be reserved. *)
Definition good_name (u : list bytes) (n : bytes) : Prop :=
  ident n = true /\ ~ In n go_keywords /\ (zig_reserved n = true -> In n u).
(** every declaration of the function, at any depth; functions and types are declared in
    the package *)
Fixpoint good_body (u : list bytes) (l : items) : Prop :=
  match l with
  | Done => True
  | Decl raw n _ r => good_name u n /\ raw = false /\ good_body u r
  | Use _ r => good_body u r
  | Block b r => good_body u b /\ good_body u r
  end.
Definition good_package (p : package) : Prop :=
  NoDup (map fst (globals p)) /\
  (forall n, In n (imports p) -> ident n = true /\ ~ In n (map fst (globals p))) /\
  (forall n raw d, In (n, (raw, d)) (globals p) -> good_name (universe p) n /\ (raw = true -> zig_reserved n = false)) /\
  good_body (universe p) (body p).

(** ** Names *)
Definition zname (raw : bool) (n : bytes) (sh : Z) : bytes :=
  if negb raw && (0 <? sh) then n ++ [46] ++ dec_text sh else n.

Lemma dec_text_spec k : 0 <= k -> digits_only (dec_text k) /\ num 0 (dec_text k) = k.
Proof.
  intros P. unfold dec_text.
  destruct (decimal_spec (Z.to_nat k) k []) as (ds & D1 & D2 & D3 & _).
  - split; [exact P|]. replace (Z.of_nat (S (Z.to_nat k))) with (k + 1) by lia.
    assert (k + 1 < 10 ^ (k + 1)) by (apply Z.pow_gt_lin_r; lia). lia.
  - rewrite D1, app_nil_r. split; assumption.
Qed.

Definition idchar (c : Z) : bool := letter c || is_dig c.
Lemma ident_chars n : ident n = true -> Forall (fun c => idchar c = true) n.
Proof.
  destruct n as [|c r]; [discriminate|]. cbn [ident]. intros H. apply andb_prop in H. destruct H as [H1 H2].
  constructor; [unfold idchar; rewrite H1; reflexivity|]. apply forallb_forall in H2 || rewrite forallb_forall in H2.
  apply Forall_forall. exact H2.
Qed.
Lemma no_dot n : ident n = true -> ~ In 46 n.
Proof.
  intros H I. apply ident_chars in H. rewrite Forall_forall in H. specialize (H _ I). discriminate.
Qed.

Lemma zig_ident_plain n : ident n = true -> zig_reserved n = false -> zig_ident n = Some n.
Proof.
  intros H R. destruct n as [|c r]; [discriminate|].
  assert (N : c <> 64) by (intros ->; discriminate).
  assert (E : zig_ident (c :: r) = if ident (c :: r) && negb (zig_reserved (c :: r)) then Some (c :: r) else None).
  { unfold zig_ident. destruct c as [|p|p]; try reflexivity.
    do 7 (destruct p as [p|p|]; try reflexivity). contradiction N. reflexivity. }
  rewrite E, H, R. reflexivity.
Qed.
Lemma zig_ident_quoted q : forallb (fun c => negb (c =? 34) && negb (c =? 92) && (32 <=? c)) q = true ->
  zig_ident (text "@""" ++ q ++ [34]) = Some q.
Proof.
  intros H. change (text "@""") with [64; 34]. cbn [app]. unfold zig_ident. rewrite rev_app_distr. cbn [rev app].
  assert (H' : forallb (fun c => negb (c =? 34) && negb (c =? 92) && (32 <=? c)) (rev q) = true).
  { rewrite forallb_forall in *. intros x I. apply H. apply in_rev. exact I. }
  rewrite H', rev_involutive. reflexivity.
Qed.
Lemma zig_ident_print raw n sh : ident n = true -> (raw = true \/ sh <= 0 -> zig_reserved n = false) ->
  zig_ident (print_name raw n sh) = Some (zname raw n sh).
Proof.
  intros H R. unfold print_name, zname. destruct (negb raw && (0 <? sh)) eqn:E.
  - assert (P : 0 < sh) by lia. destruct (dec_text_spec sh ltac:(lia)) as [D _].
    replace (text "@""" ++ n ++ [46] ++ dec_text sh ++ [34]) with (text "@""" ++ (n ++ [46] ++ dec_text sh) ++ [34]).
    2:{ rewrite <- !app_assoc. reflexivity. }
    apply zig_ident_quoted. apply forallb_forall. intros c I. apply in_app_or in I. destruct I as [I|I].
    + apply ident_chars in H. rewrite Forall_forall in H. specialize (H _ I). unfold idchar, letter, is_dig in H. lia.
    + apply in_app_or in I. destruct I as [[<- | []] | I]; [reflexivity|].
      unfold digits_only in D. rewrite Forall_forall in D. specialize (D _ I). unfold is_dig in D. lia.
  - apply zig_ident_plain; [exact H|]. apply R. destruct raw; [tauto|]. right. cbn [negb andb] in E. lia.
Qed.

Lemma dot_split a b x y : ~ In 46 a -> ~ In 46 b -> a ++ 46 :: x = b ++ 46 :: y -> a = b /\ x = y.
Proof.
  revert b. induction a as [|c a IH]; intros b A B E; destruct b as [|d b]; cbn [app] in E.
  - inversion E. split; reflexivity.
  - inversion E; subst. contradiction B. left. reflexivity.
  - inversion E; subst. contradiction A. left. reflexivity.
  - inversion E as [[E1 E2]]; subst. destruct (IH b) as [-> ->].
    + intros I. apply A. right. exact I.
    + intros I. apply B. right. exact I.
    + exact E2.
    + split; reflexivity.
Qed.
Definition eff (raw : bool) (sh : Z) : Z := if negb raw && (0 <? sh) then sh else 0.
Lemma zname_inj r1 n1 s1 r2 n2 s2 : ident n1 = true -> ident n2 = true ->
  zname r1 n1 s1 = zname r2 n2 s2 -> n1 = n2 /\ eff r1 s1 = eff r2 s2.
Proof.
  intros I1 I2 E. pose proof (no_dot _ I1) as D1. pose proof (no_dot _ I2) as D2. unfold zname in E. unfold eff.
  destruct (negb r1 && (0 <? s1)) eqn:E1, (negb r2 && (0 <? s2)) eqn:E2.
  - cbn [app] in E. destruct (dot_split _ _ _ _ D1 D2 E) as [-> X]. split; [reflexivity|].
    destruct (dec_text_spec s1 ltac:(lia)) as [_ N1]. destruct (dec_text_spec s2 ltac:(lia)) as [_ N2].
    rewrite <- N1, <- N2, X. reflexivity.
  - contradiction D2. rewrite <- E. apply in_or_app. right. left. reflexivity.
  - contradiction D1. rewrite E. apply in_or_app. right. left. reflexivity.
  - split; [exact E|reflexivity].
Qed.

(** ** Shadows *)
Definition count (chain : list (list bytes)) (n : bytes) : Z :=
  fold_left (fun a s => if has_name n s then a + 1 else a) chain 0.
Lemma fold_count chain n : forall a, fold_left (fun a s => if has_name n s then a + 1 else a) chain a = a + count chain n.
Proof.
  unfold count. induction chain as [|s r IH]; intros a; cbn [fold_left]; [lia|].
  rewrite IH, (IH (if has_name n s then 0 + 1 else 0)). destruct (has_name n s); lia.
Qed.
Lemma count_cons s r n : count (s :: r) n = (if has_name n s then 1 else 0) + count r n.
Proof. unfold count at 1. cbn [fold_left]. rewrite fold_count. destruct (has_name n s); lia. Qed.
Lemma shadow_count c n : shadow c n = count c n - 1.
Proof. unfold shadow. rewrite fold_count. lia. Qed.
Lemma count_nonneg c n : 0 <= count c n.
Proof. induction c as [|s r IH]; [cbn; lia|]. rewrite count_cons. destruct (has_name n s); lia. Qed.
Lemma has_name_in n s : has_name n s = true <-> In n s.
Proof.
  unfold has_name. rewrite existsb_exists. split.
  - intros (x & I & E). apply beq_true in E. subst. exact I.
  - intros I. exists n. split; [exact I|apply beq_refl].
Qed.
Lemma count_skip c n : forall i, count (skipn i c) n <= count c n.
Proof.
  induction c as [|s r IH]; intros [|i]; cbn [skipn]; try lia. rewrite count_cons. specialize (IH i).
  destruct (has_name n s); lia.
Qed.
(** a scope further in that has the name counts more *)
Lemma count_in c n i s : nth_error c i = Some s -> In n s -> forall j, (i < j)%nat -> count (skipn j c) n < count (skipn i c) n.
Proof.
  revert i. induction c as [|t r IH]; intros i E I j L; [destruct i; discriminate|].
  destruct i as [|i].
  - cbn in E. inversion E; subst t. destruct j as [|j]; [lia|]. cbn [skipn]. rewrite count_cons.
    rewrite (proj2 (has_name_in _ _) I). pose proof (count_skip r n j). lia.
  - destruct j as [|j]; [lia|]. cbn [skipn]. apply IH; [exact E|exact I|lia].
Qed.
Lemma count_pos c n i s : nth_error c i = Some s -> In n s -> 1 <= count (skipn i c) n.
Proof.
  intros E I. pose proof (count_in _ _ _ _ E I (S i) ltac:(lia)). pose proof (count_nonneg (skipn (S i) c) n). lia.
Qed.

(** ** The invariant *)
Definition key (chain : list (list bytes)) (i : nat) (raw : bool) (n : bytes) : bytes := zname raw n (shadow (skipn i chain) n).
Definition in_frame (env : list frame) (i : nat) (n : bytes) (raw : bool) (d : nat) : Prop :=
  exists f, nth_error env i = Some f /\ In (n, (raw, d)) f.

Record inv (u : list bytes) (others : list bytes) (chain : list (list bytes)) (env : list frame) (zenv : list zframe) : Prop := {
  i_ne : env <> [] /\ zenv <> [];
  i_len : List.length chain = S (List.length env);
  i_last : nth_error chain (List.length env) = Some u;
  i_static : forall i n raw d, in_frame env i n raw d -> exists s, nth_error chain i = Some s /\ In n s;
  i_raw : forall i n d, in_frame env i n true d -> S i = List.length env /\ zig_reserved n = false;
  i_good : forall i n raw d, in_frame env i n raw d -> good_name u n;
  i_there : forall i n raw d, in_frame env i n raw d -> zlookup zenv (key chain i raw n) = Some d;
  i_only : forall s d, zlookup zenv s = Some d -> In s others \/ exists i n raw d', in_frame env i n raw d' /\ s = key chain i raw n;
}.

Lemma find_in_some n f o : find_in n f = Some o -> In (n, o) f.
Proof.
  unfold find_in. destruct (List.find _ f) as [[m o']|] eqn:E; [|discriminate]. cbn. intros H. inversion H; subst.
  apply find_some in E. destruct E as [I E]. cbn in E. apply beq_true in E. subst. exact I.
Qed.
Lemma find_in_none n f : find_in n f = None -> forall o, ~ In (n, o) f.
Proof.
  unfold find_in. destruct (List.find _ f) eqn:E; [discriminate|]. intros _ o I.
  apply (find_none _ _ E) in I. cbn in I. rewrite beq_refl in I. discriminate.
Qed.
Lemma lookup_in env n i raw d : lookup env n = Some (i, (raw, d)) -> in_frame env i n raw d.
Proof.
  revert i. induction env as [|f r IH]; intros i H; [discriminate|]. cbn [lookup] in H.
  destruct (find_in n f) as [o|] eqn:E.
  - inversion H; subst. exists f. split; [reflexivity|]. apply find_in_some. exact E.
  - destruct (lookup r n) as [[j o]|] eqn:E2; [|discriminate]. cbn in H. inversion H; subst.
    destruct (IH j eq_refl) as (g & G1 & G2). exists g. split; assumption.
Qed.

Lemma key_ident u others chain env zenv i raw n d : inv u others chain env zenv -> in_frame env i n raw d ->
  zig_ident (print_name raw n (shadow (skipn i chain) n)) = Some (key chain i raw n).
Proof.
  intros V F. destruct (i_good _ _ _ _ _ V _ _ _ _ F) as (G1 & G2 & G3).
  apply zig_ident_print; [exact G1|]. intros C.
  destruct raw; [apply (i_raw _ _ _ _ _ V _ _ _ F)|].
  destruct C as [C|C]; [discriminate|]. destruct (zig_reserved n) eqn:R; [|reflexivity]. specialize (G3 eq_refl).
  destruct (i_static _ _ _ _ _ V _ _ _ _ F) as (s & S1 & S2).
  assert (L : (i < List.length env)%nat).
  { destruct F as (f & F1 & _). apply nth_error_Some. congruence. }
  pose proof (count_in _ _ _ _ S1 S2 _ L) as K1.
  pose proof (count_pos _ _ _ _ (i_last _ _ _ _ _ V) G3) as K2. rewrite shadow_count in C. lia.
Qed.

Lemma zfind_cons s t d f : zfind s ((t, d) :: f) = if beq t s then Some d else zfind s f.
Proof. unfold zfind. cbn [List.find fst]. destruct (beq t s); reflexivity. Qed.
Lemma zlookup_declare s t d zenv : zenv <> [] ->
  zlookup (zdeclare t d zenv) s = if beq t s then Some d else zlookup zenv s.
Proof.
  destruct zenv as [|f r]; [congruence|]. intros _. cbn [zdeclare zlookup]. rewrite zfind_cons. destruct (beq t s); reflexivity.
Qed.

Lemma in_declare n o env i m raw d : env <> [] -> in_frame (declare n o env) i m raw d <->
  (i = O /\ m = n /\ (raw, d) = o) \/ in_frame env i m raw d.
Proof.
  destruct env as [|f r]; [congruence|]. intros _. unfold in_frame. cbn [declare]. destruct i as [|i]; cbn [nth_error].
  - split.
    + intros (g & G1 & G2). inversion G1; subst g. destruct G2 as [G2|G2]; [left; inversion G2; auto|right; eauto].
    + intros [(_ & -> & <-) | (g & G1 & G2)]; [eexists; split; [reflexivity|left; reflexivity]|].
      inversion G1; subst g. eexists. split; [reflexivity|right; exact G2].
  - split; [intros G; right; exact G|intros [(X & _) | G]; [discriminate|exact G]].
Qed.

Lemma inv_declare u others chain f env zenv n d : inv u others chain (f :: env) zenv ->
  good_name u n -> (forall s, In s others -> ident s = true) ->
  (In n others -> exists j s, (0 < j)%nat /\ nth_error chain j = Some s /\ In n s) ->
  (exists s, nth_error chain 0 = Some s /\ In n s) -> find_in n f = None ->
  let t := print_name false n (shadow chain n) in
  zig_ident t = Some (key chain 0 false n) /\ zlookup zenv (key chain 0 false n) = None /\
  inv u others chain (declare n (false, d) (f :: env)) (zdeclare (key chain 0 false n) d zenv).
Proof.
  intros V G O1 O2 (s0 & S1 & S2) N. cbv zeta. destruct G as (G1 & G2 & G3).
  assert (R : zig_ident (print_name false n (shadow chain n)) = Some (key chain 0 false n)).
  { apply zig_ident_print; [exact G1|]. intros [C|C]; [discriminate|].
    destruct (zig_reserved n) eqn:R; [|reflexivity]. specialize (G3 eq_refl).
    pose proof (count_in _ _ _ _ S1 S2 (List.length (f :: env)) ltac:(cbn; lia)) as K1.
    pose proof (count_pos _ _ _ _ (i_last _ _ _ _ _ V) G3) as K2. cbn [skipn] in K1. rewrite shadow_count in C. lia. }
  assert (FR : forall i m raw d', in_frame (f :: env) i m raw d' -> key chain 0 false n <> key chain i raw m).
  { intros i m raw d' F E. destruct (i_good _ _ _ _ _ V _ _ _ _ F) as (M1 & _).
    unfold key in E. apply zname_inj in E; [|assumption|assumption]. destruct E as [-> E].
    destruct i as [|i].
    - destruct F as (g & F1 & F2). cbn in F1. inversion F1; subst g. exact (find_in_none _ _ N _ F2).
    - pose proof (count_in _ _ _ _ S1 S2 (S i) ltac:(lia)) as K1.
      destruct (i_static _ _ _ _ _ V _ _ _ _ F) as (s & T1 & T2). pose proof (count_pos _ _ _ _ T1 T2) as K2.
      unfold eff in E. rewrite !shadow_count in E. cbn [negb andb] in E.
      assert (X : 0 < count (skipn 0 chain) m - 1) by lia. rewrite (proj2 (Z.ltb_lt _ _) X) in E.
      destruct raw; cbn [negb andb] in E; [lia|]. destruct (0 <? count (skipn (S i) chain) m - 1); lia. }
  assert (Z0 : zlookup zenv (key chain 0 false n) = None).
  { destruct (zlookup zenv (key chain 0 false n)) as [d'|] eqn:E; [|reflexivity]. exfalso.
    apply (i_only _ _ _ _ _ V) in E. destruct E as [E | (i & m & raw & d'' & F & E)].
    - unfold key, zname in E. destruct (negb false && (0 <? shadow (skipn 0 chain) n)) eqn:Q.
      + apply O1, no_dot in E. apply E. apply in_or_app. right. left. reflexivity.
      + destruct (O2 E) as (j & s & J & T1 & T2). pose proof (count_in _ _ _ _ S1 S2 j J) as K1.
        pose proof (count_pos _ _ _ _ T1 T2) as K2. rewrite shadow_count in Q. cbn [negb andb] in Q. lia.
    - exact (FR _ _ _ _ F E). }
  split; [exact R|]. split; [exact Z0|].
  pose proof (i_ne _ _ _ _ _ V) as [NE1 NE2].
  assert (L : List.length (declare n (false, d) (f :: env)) = List.length (f :: env)) by reflexivity.
  constructor.
  - split; [discriminate|]. destruct zenv; [congruence|discriminate].
  - rewrite L. apply (i_len _ _ _ _ _ V).
  - rewrite L. apply (i_last _ _ _ _ _ V).
  - intros i m raw d' F. apply in_declare in F; [|exact NE1].
    destruct F as [(-> & -> & _) | F]; [exists s0; split; assumption|eapply i_static; eassumption].
  - intros i m d' F. rewrite L. apply in_declare in F; [|exact NE1].
    destruct F as [(_ & _ & X) | F]; [discriminate|eapply i_raw; eassumption].
  - intros i m raw d' F. apply in_declare in F; [|exact NE1].
    destruct F as [(_ & -> & _) | F]; [split; [exact G1|split; assumption]|eapply i_good; eassumption].
  - intros i m raw d' F. apply in_declare in F; [|exact NE1]. rewrite zlookup_declare by exact NE2.
    destruct F as [(-> & -> & X) | F].
    + inversion X; subst. rewrite beq_refl. reflexivity.
    + rewrite beq_false by (eapply FR; exact F). eapply i_there; eassumption.
  - intros s d' E. rewrite zlookup_declare in E by exact NE2.
    destruct (beq (key chain 0 false n) s) eqn:B.
    + apply beq_true in B. subst s. right. exists O, n, false, d. split; [|reflexivity].
      apply in_declare; [exact NE1|]. left. auto.
    + apply (i_only _ _ _ _ _ V) in E. destruct E as [E | (i & m & raw & d'' & F & E)]; [left; exact E|].
      right. exists i, m, raw, d''. split; [|exact E]. apply in_declare; [exact NE1|]. right. exact F.
Qed.

Lemma inv_block u others chain env zenv ns : inv u others chain env zenv ->
  inv u others (ns :: chain) ([] :: env) ([] :: zenv).
Proof.
  intros V.
  assert (IF : forall i n raw d, in_frame ([] :: env) i n raw d -> exists j, i = S j /\ in_frame env j n raw d).
  { intros i n raw d (f & F1 & F2). destruct i as [|j]; [cbn in F1; inversion F1; subst; destruct F2|].
    exists j. split; [reflexivity|]. exists f. split; assumption. }
  constructor.
  - split; discriminate.
  - cbn [List.length]. rewrite (i_len _ _ _ _ _ V). reflexivity.
  - cbn [List.length nth_error]. apply (i_last _ _ _ _ _ V).
  - intros i n raw d F. destruct (IF _ _ _ _ F) as (j & -> & F'). eapply (i_static _ _ _ _ _ V). exact F'.
  - intros i n d F. destruct (IF _ _ _ _ F) as (j & -> & F'). destruct (i_raw _ _ _ _ _ V _ _ _ F') as [A B].
    split; [cbn [List.length]; lia|exact B].
  - intros i n raw d F. destruct (IF _ _ _ _ F) as (j & -> & F'). eapply (i_good _ _ _ _ _ V). exact F'.
  - intros i n raw d F. destruct (IF _ _ _ _ F) as (j & -> & F'). cbn [zlookup]. change (zfind (key (ns :: chain) (S j) raw n) []) with (@None nat).
    cbv iota. eapply (i_there _ _ _ _ _ V). exact F'.
  - intros s d E. cbn [zlookup] in E. change (zfind s []) with (@None nat) in E. cbv iota in E.
    apply (i_only _ _ _ _ _ V) in E. destruct E as [E | (i & m & raw & d'' & F & E)]; [left; exact E|].
    right. exists (S i), m, raw, d''. split; [|exact E]. destruct F as (f & F1 & F2). exists f. split; assumption.
Qed.

Lemma translate_uses u others : (forall s, In s others -> ident s = true) -> forall l chain env zenv ids,
  inv u others chain env zenv -> good_body u l ->
  (exists s, nth_error chain 0 = Some s /\ incl (names l) s) ->
  (forall n, good_name u n -> In n others -> exists j s, (0 < j)%nat /\ nth_error chain j = Some s /\ In n s) ->
  go_uses env l = Some ids -> zig_uses zenv (translate chain env l) = Some ids.
Proof.
  intros OI. induction l as [|raw n d r IH|n r IH|b IHb r IHr]; intros chain env zenv ids V G (s0 & S1 & S2) O H.
  - exact H.
  - cbn [go_uses] in H. destruct env as [|f env]; [discriminate|].
    destruct (find_in n f) eqn:N; [discriminate|]. cbn [good_body] in G. destruct G as (G1 & -> & G2).
    destruct (inv_declare u others chain f env zenv n d V G1 OI) as (A1 & A2 & A3).
    + apply O. exact G1.
    + exists s0. split; [exact S1|]. apply S2. left. reflexivity.
    + exact N.
    + cbn [translate zig_uses]. rewrite A1, A2. eapply IH; [exact A3|exact G2| |exact O|exact H].
      exists s0. split; [exact S1|]. intros x X. apply S2. right. exact X.
  - cbn [go_uses] in H. destruct (lookup env n) as [[i [raw d]]|] eqn:L; [|discriminate].
    cbn [translate zig_uses]. rewrite L. apply lookup_in in L.
    rewrite (key_ident _ _ _ _ _ _ _ _ _ V L), (i_there _ _ _ _ _ V _ _ _ _ L).
    destruct (go_uses env r) as [ids'|] eqn:E; [|discriminate].
    rewrite (IH chain env zenv ids' V G (ex_intro _ s0 (conj S1 S2)) O E). exact H.
  - cbn [go_uses] in H. destruct (go_uses ([] :: env) b) as [x|] eqn:Eb; [|discriminate].
    destruct (go_uses env r) as [y|] eqn:Er; [|discriminate]. cbn [good_body] in G. destruct G as [Gb Gr].
    cbn [translate zig_uses].
    rewrite (IHb (names b :: chain) ([] :: env) ([] :: zenv) x (inv_block _ _ _ _ _ _ V) Gb).
    + rewrite (IHr chain env zenv y V Gr (ex_intro _ s0 (conj S1 S2)) O Er). exact H.
    + exists (names b). split; [reflexivity|apply incl_refl].
    + intros m M1 M2. destruct (O m M1 M2) as (j & s & J & T1 & T2). exists (S j), s. split; [lia|]. split; assumption.
    + exact Eb.
Qed.

(** ** Packages *)
Lemma zig_globals_ok u imps all : forall g, incl (map fst g) all -> NoDup (map fst g) ->
  (forall n, In n imps -> ident n = true /\ ~ In n (map fst g)) ->
  (forall n raw d, In (n, (raw, d)) g -> good_name u n /\ (raw = true -> zig_reserved n = false)) ->
  exists f, zig_globals u imps all g = Some f /\
    (forall n raw d, In (n, (raw, d)) g -> zfind (zname raw n (shadow [all; u] n)) f = Some d) /\
    (forall s d, zfind s f = Some d -> In s (text "go" :: imps) \/
        exists n raw d', In (n, (raw, d')) g /\ s = zname raw n (shadow [all; u] n)).
Proof.
  induction g as [|[n [raw d]] g IH]; intros A N I G.
  - eexists. split; [reflexivity|]. split; [intros n raw d []|]. intros s d H. left.
    unfold zfind in H. destruct (List.find _ _) as [[m e]|] eqn:E; [|discriminate]. apply find_some in E.
    destruct E as [E1 E2]. cbn [fst] in E2. apply beq_true in E2. subst m. apply in_map_iff in E1.
    destruct E1 as (x & X1 & X2). inversion X1; subst. exact X2.
  - cbn [map fst] in A, N, I. inversion N as [|? ? N1 N2]; subst.
    destruct IH as (f & F0 & F1 & F2).
    { intros x X. apply A. right. exact X. }
    { exact N2. }
    { intros x X. destruct (I x X) as [I1 I2]. split; [exact I1|]. intros Y. apply I2. right. exact Y. }
    { intros x r e X. apply (G x r e). right. exact X. }
    destruct (G n raw d (or_introl eq_refl)) as [(G1 & G2 & G3) G4].
    cbn [zig_globals]. rewrite F0.
    assert (P : In n all) by (apply A; left; reflexivity).
    rewrite zig_ident_print; [|exact G1|].
    2:{ intros [-> | C]; [apply G4; reflexivity|]. destruct (zig_reserved n) eqn:R; [|reflexivity].
        specialize (G3 eq_refl). rewrite shadow_count, !count_cons in C.
        rewrite (proj2 (has_name_in _ _) P), (proj2 (has_name_in _ _) G3) in C. cbn in C. lia. }
    assert (DF : forall m r e, In (m, (r, e)) g -> zname raw n (shadow [all; u] n) <> zname r m (shadow [all; u] m)).
    { intros m r e X E. apply zname_inj in E; [|exact G1|apply (G m r e); right; exact X].
      destruct E as [-> _]. apply N1. apply (in_map fst) in X. exact X. }
    destruct (zfind (zname raw n (shadow [all; u] n)) f) as [d'|] eqn:Z0.
    { exfalso. apply F2 in Z0. destruct Z0 as [Z0 | (m & r & e & X1 & X2)].
      - unfold zname in Z0. destruct (negb raw && (0 <? shadow [all; u] n)).
        + assert (Q : ident (n ++ [46] ++ dec_text (shadow [all; u] n)) = true).
          { destruct Z0 as [Z0|Z0]; [rewrite <- Z0; reflexivity|apply I; exact Z0]. }
          apply no_dot in Q. apply Q. apply in_or_app. right. left. reflexivity.
        + destruct Z0 as [Z0|Z0]; [|apply (I n Z0); left; reflexivity].
          apply G2. rewrite <- Z0. unfold go_keywords. apply in_map. cbn. tauto.
      - exact (DF m r e X1 X2). }
    eexists. split; [reflexivity|]. split.
    + intros m r e X. rewrite zfind_cons. destruct X as [X|X].
      * inversion X; subst. rewrite beq_refl. reflexivity.
      * rewrite beq_false by (eapply DF; exact X). apply F1. exact X.
    + intros s e E. rewrite zfind_cons in E. destruct (beq (zname raw n (shadow [all; u] n)) s) eqn:B.
      * apply beq_true in B. subst s. right. exists n, raw, d. split; [left; reflexivity|reflexivity].
      * apply F2 in E. destruct E as [E | (m & r & e' & X1 & X2)]; [left; exact E|].
        right. exists m, r, e'. split; [right; exact X1|exact X2].
Qed.

(** In a Go program (its names are declared, no scope declares a name twice) every name
    refers in Zig to the declaration it refers to in Go, and Zig refuses none of the
    declarations. *)
Theorem C132_names_partial p ids : good_package p -> go_package p = Some ids -> zig_package p = Some ids.
Proof.
  intros (N & I & G & B) H. unfold zig_package.
  destruct (zig_globals_ok (universe p) (imports p) (map fst (globals p)) (globals p) (incl_refl _) N I G) as (f & F0 & F1 & F2).
  rewrite F0. unfold zig_text_body. unfold go_package in H.
  set (others := [text "default"; text "chan"; text "goto"] ++ text "go" :: imports p).
  assert (OI : forall s, In s others -> ident s = true).
  { intros s S. unfold others in S. cbn [app] in S.
    destruct S as [<- | [<- | [<- | [<- | S]]]]; try reflexivity. apply I. exact S. }
  assert (OW : forall s d, zfind s (map (fun n => (n, own)) [text "default"; text "chan"; text "goto"]) = Some d -> In s others).
  { intros s d E. unfold others. apply in_or_app. left.
    unfold zfind in E. destruct (List.find _ _) as [[m e]|] eqn:Q; [|discriminate]. apply find_some in Q.
    destruct Q as [E1 E2]. cbn [fst] in E2. apply beq_true in E2. subst m. apply in_map_iff in E1.
    destruct E1 as (x & X1 & X2). inversion X1; subst. exact X2. }
  assert (IF : forall i n raw d, in_frame [[]; []; globals p] i n raw d -> i = 2%nat /\ In (n, (raw, d)) (globals p)).
  { intros i n raw d (g & G1 & G2). destruct i as [|[|[|i]]]; cbn in G1; try (inversion G1; subst; destruct G2; fail).
    - inversion G1; subst. split; [reflexivity|exact G2].
    - destruct i; discriminate. }
  eapply translate_uses with (u := universe p) (others := others); [exact OI| |exact B| | |exact H].
  - constructor.
    + split; discriminate.
    + reflexivity.
    + reflexivity.
    + intros i n raw d X. destruct (IF _ _ _ _ X) as [-> Y]. exists (map fst (globals p)). split; [reflexivity|].
      apply (in_map fst) in Y. exact Y.
    + intros i n d X. destruct (IF _ _ _ _ X) as [-> Y]. split; [reflexivity|]. apply (G n true d Y). reflexivity.
    + intros i n raw d X. destruct (IF _ _ _ _ X) as [-> Y]. apply (G n raw d Y).
    + intros i n raw d X. destruct (IF _ _ _ _ X) as [-> Y]. unfold key, chain_of. cbn [skipn].
      cbn [zlookup]. rewrite (F1 n raw d Y).
      destruct (zfind (zname raw n (shadow [map fst (globals p); universe p] n))
                 (map (fun n0 => (n0, own)) [text "default"; text "chan"; text "goto"])) as [d'|] eqn:E; [|reflexivity].
      exfalso. unfold zfind in E. destruct (List.find _ _) as [[m e]|] eqn:Q; [|discriminate]. apply find_some in Q.
      destruct Q as [E1 E2]. cbn [fst] in E2. apply beq_true in E2. apply in_map_iff in E1.
      destruct E1 as (x & X1 & X2). inversion X1; subst x e. clear X1. rewrite E2 in X2. clear E2 E.
      destruct (G n raw d Y) as [(G1 & G2 & _) _].
      unfold zname in X2. destruct (negb raw && (0 <? shadow [map fst (globals p); universe p] n)).
      * assert (Q : ident (n ++ [46] ++ dec_text (shadow [map fst (globals p); universe p] n)) = true).
        { destruct X2 as [<- | [<- | [<- | []]]]; reflexivity. }
        apply no_dot in Q. apply Q. apply in_or_app. right. left. reflexivity.
      * apply G2. unfold go_keywords. destruct X2 as [<- | [<- | [<- | []]]]; apply in_map; cbn; tauto.
    + intros s d E. cbn [zlookup] in E.
      destruct (zfind s (map (fun n0 => (n0, own)) [text "default"; text "chan"; text "goto"])) as [d'|] eqn:Q.
      { left. eapply OW. exact Q. }
      destruct (zfind s f) as [d'|] eqn:Q2; [|discriminate]. apply F2 in Q2.
      destruct Q2 as [Q2 | (n & raw & d'' & X1 & X2)]; [left; unfold others; apply in_or_app; right; exact Q2|].
      right. exists 2%nat, n, raw, d''. split; [|exact X2]. exists (globals p). split; [reflexivity|exact X1].
  - exists (names (body p)). split; [reflexivity|apply incl_refl].
  - intros n (G1 & G2 & _) O. exists 1%nat, (imports p). split; [lia|]. split; [reflexivity|].
    unfold others in O. apply in_app_or in O. destruct O as [O | [O | O]]; [| |exact O].
    + exfalso. apply G2. unfold go_keywords. destruct O as [<- | [<- | [<- | []]]]; apply in_map; cbn; tauto.
    + exfalso. apply G2. rewrite <- O. unfold go_keywords. apply in_map. cbn. tauto.
Qed.

(** ** Examples *)
Definition predeclared : list bytes := map text
  ["any"; "append"; "bool"; "byte"; "cap"; "clear"; "close"; "complex"; "complex128"; "complex64"; "copy"; "delete"; "error";
   "false"; "float32"; "float64"; "imag"; "int"; "int16"; "int32"; "int64"; "int8"; "iota"; "len"; "make"; "max"; "min"; "new";
   "nil"; "panic"; "print"; "println"; "real"; "recover"; "rune"; "string"; "true"; "uint"; "uint16"; "uint32"; "uint64";
   "uint8"; "uintptr"]%string.
(** var x; func f; import "fmt"
    func(len) { x; { x; var x; x; { var x; x; len }; x }; var error; error; f; var fmt; fmt } *)
Definition sample : package :=
  {| universe := predeclared; globals := [(text "x", (false, 1%nat)); (text "f", (true, 2%nat))]; imports := [text "fmt"];
     body := Decl false (text "len") 3 (Use (text "x")
       (Block (Use (text "x") (Decl false (text "x") 4 (Use (text "x")
                (Block (Decl false (text "x") 5 (Use (text "x") (Use (text "len") Done))) (Use (text "x") Done)))))
       (Decl false (text "error") 6 (Use (text "error") (Use (text "f") (Decl false (text "fmt") 7 (Use (text "fmt") Done))))))) |}.
Definition good_nameb (u : list bytes) (n : bytes) : bool :=
  ident n && negb (has_name n go_keywords) && (negb (zig_reserved n) || has_name n u).
Lemma good_nameb_ok u n : good_nameb u n = true -> good_name u n.
Proof.
  unfold good_nameb, good_name. intros H. apply andb_prop in H. destruct H as [H H3]. apply andb_prop in H. destruct H as [H1 H2].
  split; [exact H1|]. split.
  - intros I. apply has_name_in in I. rewrite I in H2. discriminate.
  - intros R. rewrite R in H3. apply has_name_in. exact H3.
Qed.
Theorem C132_example : good_package sample /\
  go_package sample = Some [1; 1; 4; 5; 3; 4; 6; 2; 7]%nat /\ zig_package sample = Some [1; 1; 4; 5; 3; 4; 6; 2; 7]%nat /\
  zig_text_body sample =
    ZDecl (text "@""len.1""") 3 (ZUse (text "x")
      (ZBlock (ZUse (text "x") (ZDecl (text "@""x.1""") 4 (ZUse (text "@""x.1""")
                (ZBlock (ZDecl (text "@""x.2""") 5 (ZUse (text "@""x.2""") (ZUse (text "@""len.1""") ZDone)))
                        (ZUse (text "@""x.1""") ZDone)))))
      (ZDecl (text "@""error.1""") 6 (ZUse (text "@""error.1""") (ZUse (text "f")
        (ZDecl (text "@""fmt.1""") 7 (ZUse (text "@""fmt.1""") ZDone))))))).
Proof.
  split; [|vm_compute; auto]. split.
  { repeat (constructor; [cbn; intuition discriminate|]). constructor. }
  split.
  { intros n [<- | []]. split; [reflexivity|]. cbn. intuition discriminate. }
  split.
  { intros n raw d [X | [X | []]]; inversion X; subst; (split; [apply good_nameb_ok; reflexivity|intros _; reflexivity]). }
  cbn [sample body good_body]. repeat match goal with |- good_name _ _ => apply good_nameb_ok; reflexivity | |- _ = _ => reflexivity | |- True => exact I | |- _ /\ _ => split end.
Qed.

(** ** What Zig refuses *)
Definition in_main (g : frame) (l : items) : package := {| universe := predeclared; globals := g; imports := []; body := l |}.
(** names that Zig reserves *)
Theorem C132_keyword_refused :
  Forall (fun n => forall r, go_package (in_main [] (Decl false n 1 (Use n Done))) = Some [1%nat] /\
                             zig_package (in_main [] (Decl false n 1 r)) = None)
         [text "and"; text "or"; text "fn"; text "pub"; text "test"; text "try"; text "union"; text "while"; text "u8"; text "i2"; text "null"; text "void"].
Proof. repeat (constructor; [intros r; split; reflexivity|]). constructor. Qed.
(** a type declared in a function under the name of one outside it *)
Theorem C132_local_type_refused :
  let p := in_main [(text "T", (true, 1%nat))] (Block (Decl true (text "T") 2 (Use (text "T") Done)) (Use (text "T") Done)) in
  go_package p = Some [2; 1]%nat /\ zig_package p = None.
Proof. vm_compute. auto. Qed.
(** The target mentions parameters by their own name after the parameters (function.go:96-117)
    and so does a receiver throughout the signature (function.go:51-60): the text of the
    mention, unlike that of the declaration, is not renamed. *)
Definition mention (n : bytes) (z : zitems) : zitems :=
  match z with ZDecl t d r => ZDecl t d (ZUse n r) | _ => z end.
(** a parameter with the name of something predeclared *)
Theorem C132_parameter_refused : forall r,
  go_package (in_main [] (Decl false (text "len") 1 (Use (text "len") Done))) = Some [1%nat] /\
  zig_uses [[]; []] (mention (text "len") (translate [[text "len"]; []; []; predeclared] [[]; []; []] (Decl false (text "len") 1 r))) = None.
Proof. intros r. split; reflexivity. Qed.
(** a parameter with the name of a variable of the package: the variable is mentioned *)
Theorem C132_parameter_mentions_refuted :
  zig_uses [[]; [(text "x", 1%nat)]] (mention (text "x") (translate [[text "x"]; []; [text "x"]; predeclared] [[]; []; [(text "x", (false, 1%nat))]] (Decl false (text "x") 2 Done)))
  = Some [1%nat].
Proof. reflexivity. Qed.
