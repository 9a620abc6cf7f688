(** * zgo: compiled statements do what they do in Go (C130). *)
From Coq Require Import ZArith List Bool Lia.
From Verif Require Import ZigModel ZigParse ZigExpr ZigStmtModel ZigStmtParse ZigStmtFuel.
Import ListNotations.
Open Scope Z_scope.

(** ** Equations of the Zig semantics *)
Lemma z_seq_cons : forall n s l st, z_seq n (s :: l) st = xbind (z_stmt n s st) (z_seq n l).
Proof. reflexivity. Qed.
Lemma z_seq_one : forall n s st, z_seq n [s] st = z_stmt n s st.
Proof. intros. rewrite z_seq_cons. destruct (z_stmt n s st) as [[] ?| | |]; reflexivity. Qed.
Lemma z_seq_app : forall n a b st, z_seq n (a ++ b) st = xbind (z_seq n a st) (z_seq n b).
Proof.
  induction a as [|s a IH]; intros b st; [reflexivity |].
  cbn [app]. rewrite !z_seq_cons. destruct (z_stmt n s st) as [[] st'| | |]; try reflexivity.
  cbn [xbind]. apply IH.
Qed.
Lemma z_block_eq : forall n lab l st, z_stmt n (ZBlock lab l) st = leave_block lab (z_seq n l st).
Proof. reflexivity. Qed.
Lemma z_if_eq : forall n c l els st, z_stmt n (ZIf c l els) st =
  with_val (as_bool (ze st c)) st (fun b =>
    if b then z_seq n l st else match els with Some s => z_stmt n s st | None => XOk ONorm st end).
Proof. reflexivity. Qed.
Lemma z_while_eq : forall n lab c post l st, z_stmt n (ZWhile lab c post l) st =
  loop n lab (fun st => as_bool (ze st c))
    (fun st => match post with Some (x, o, e) => z_assign st x o e | None => XOk ONorm st end)
    (fun st => z_seq n l st) st.
Proof. reflexivity. Qed.
Lemma z_for_eq : forall n k e key lab l st, z_stmt n (ZFor k e key lab l) st =
  with_val (bind (ze st e) (for_bound k)) st (fun z =>
  count (Z.to_nat z) None 0
    (fun i st => leave_block lab (z_seq n l (match key with Some y => set st y (VInt k_uint i) | None => st end))) st).
Proof. reflexivity. Qed.
Lemma z_switch_eq : forall n e ps st, z_stmt n (ZSwitch e ps) st =
  with_val (ze st e) st (fun v =>
  match switch_ok v ps with
  | None => XRefused
  | Some z => z_pick n z ps (fun st => XOk ONorm st) st
  end).
Proof. reflexivity. Qed.

(** ** The store *)
Lemma look_upd : forall m x v y, look (upd m x v) y = if (y =? x)%nat then Some v else look m y.
Proof.
  unfold look. intros m x v. revert m. induction x as [|x IH]; intros m y.
  - destruct m as [|o m]; destruct y as [|y]; cbn; try reflexivity. destruct y; reflexivity.
  - destruct m as [|o m]; destruct y as [|y]; cbn [upd nth Nat.eqb]; try reflexivity.
    + rewrite IH. destruct (y =? x)%nat; [reflexivity |]. destruct y; reflexivity.
    + apply IH.
Qed.
Lemma upd_same : forall m x v, look m x = Some v -> upd m x v = m.
Proof.
  unfold look. induction m as [|o m IH]; intros x v H.
  - destruct x; discriminate.
  - destruct x as [|x]; cbn [upd nth] in *; [congruence |]. f_equal. apply IH, H.
Qed.

Definition good_st (st : state) : Prop := go_env (st_env st).
Lemma set_good : forall st x v, good_st st -> good v -> go_val v -> good_st (set st x v).
Proof.
  intros st x v G Gv Rv y w H. unfold st_env, set in H. cbn [st_mem] in H. rewrite look_upd in H.
  destruct (y =? x)%nat; [injection H as <-; split; assumption | exact (G _ _ H)].
Qed.
Lemma emit_good : forall st ps, good_st st -> good_st (emit st ps).
Proof. intros st ps G. exact G. Qed.

Lemma conv_good : forall t v w, good v -> conv t v = Val w -> good w /\ go_val w.
Proof.
  intros t v w G H. destruct t as [k| |]; cbn [conv] in H.
  - apply bind_val in H as (z & E & H). injection H as <-. split; [| exact I].
    exact (as_kind_good k v _ G E).
  - destruct v; try discriminate. injection H as <-. split; exact I.
  - destruct v; try discriminate. injection H as <-. split; exact I.
Qed.
Lemma conv_like_good : forall old v w, good v -> conv_like old v = Val w -> good w /\ go_val w.
Proof. intros old v w G H. destruct old; try discriminate; exact (conv_good _ _ _ G H). Qed.

(** ** The relation: the same, unless a compiler refuses *)
Definition rel (z g : xres) : Prop :=
  z = XRefused \/ g = XRefused \/ (z = g /\ forall o st, g = XOk o st -> good_st st).

Lemma rel_same : forall r, (forall o st, r = XOk o st -> good_st st) -> rel r r.
Proof. intros r H. right; right. split; [reflexivity | exact H]. Qed.
Lemma rel_ok : forall o st, good_st st -> rel (XOk o st) (XOk o st).
Proof. intros o st G. apply rel_same. intros o' st' H. injection H as <- <-. exact G. Qed.
Lemma rel_bind : forall z g f h, rel z g -> (forall st, good_st st -> rel (f st) (h st)) ->
  rel (xbind z f) (xbind g h).
Proof.
  intros z g f h R F. destruct R as [-> | [-> | [-> G]]]; [left; reflexivity | right; left; reflexivity |].
  destruct g as [o st| | |]; try (apply rel_same; intros; discriminate).
  destruct o; try (apply rel_ok, (G _ _ eq_refl)). cbn [xbind]. apply F, (G _ _ eq_refl).
Qed.
Lemma rel_val : forall A (z g : res A) st f h, agree z g -> (forall v, g = Val v -> rel (f v) (h v)) ->
  rel (with_val z st f) (with_val g st h).
Proof.
  intros A z g st f h R F. destruct R as [-> | [-> | ->]]; [left; reflexivity | right; left; reflexivity |].
  destruct g as [v| |]; cbn [with_val]; [apply F; reflexivity | | left; reflexivity].
  apply rel_same. intros; discriminate.
Qed.

Lemma assign_rel : forall st x v, good_st st -> good v -> rel (assign st x v) (assign st x v).
Proof.
  intros st x v G Gv. unfold assign. destruct (st_env st x) as [old|]; [| left; reflexivity].
  apply rel_val; [apply agree_refl |]. intros w E. destruct (conv_like_good _ _ _ Gv E).
  apply rel_ok, set_good; assumption.
Qed.

Lemma loop_rel : forall lab zc gc zp gp zb gb,
  (forall st, good_st st -> agree (zc st) (gc st)) ->
  (forall st, good_st st -> rel (zp st) (gp st)) ->
  (forall st, good_st st -> rel (zb st) (gb st)) ->
  forall k st, good_st st -> rel (loop k lab zc zp zb st) (loop k lab gc gp gb st).
Proof.
  intros lab zc gc zp gp zb gb C P B. induction k as [|k IH]; intros st G; cbn [loop].
  { apply rel_same. intros; discriminate. }
  apply rel_val; [apply C, G |]. intros b _. destruct b; [| apply rel_ok, G].
  destruct (B st G) as [-> | [-> | [-> G']]]; [left; reflexivity | right; left; reflexivity |].
  destruct (gb st) as [o st'| | |]; try (apply rel_same; intros; discriminate).
  specialize (G' _ _ eq_refl).
  assert (N : rel (xbind (zp st') (loop k lab zc zp zb)) (xbind (gp st') (loop k lab gc gp gb))).
  { apply rel_bind; [apply P, G' | exact IH]. }
  destruct o as [|[l|]|[l|]|vs]; try exact N; try (apply rel_ok, G').
  - destruct (lab_eqb lab l); apply rel_ok, G'.
  - destruct (lab_eqb lab l); [exact N | apply rel_ok, G'].
Qed.

Lemma count_rel : forall lab zb gb, (forall i st, good_st st -> rel (zb i st) (gb i st)) ->
  forall k i st, good_st st -> rel (count k lab i zb st) (count k lab i gb st).
Proof.
  intros lab zb gb B. induction k as [|k IH]; intros i st G; cbn [count]; [apply rel_ok, G |].
  destruct (B i st G) as [-> | [-> | [-> G']]]; [left; reflexivity | right; left; reflexivity |].
  destruct (gb i st) as [o st'| | |]; try (apply rel_same; intros; discriminate).
  specialize (G' _ _ eq_refl).
  destruct o as [|[l|]|[l|]|vs]; try (apply IH, G'); try (apply rel_ok, G').
  - destruct (lab_eqb lab l); apply rel_ok, G'.
  - destruct (lab_eqb lab l); [apply IH, G' | apply rel_ok, G'].
Qed.

(** ** Expressions in statements *)
Section Sim.
  Variable ty : expr -> gty.
  Notation zt := (ztree ty).
  Notation fe := (fine_e ty).
  Notation gt := (ge trapping).

  Lemma ze_sim : forall st e, good_st st -> fe e -> agree (ze st (zt e)) (gt st e).
  Proof. intros st e G [P _]. apply eval_sim; assumption. Qed.
  Lemma ge_good : forall st e v, good_st st -> gt st e = Val v -> good v /\ go_val v.
  Proof. intros st e v G H. exact (go_eval_good _ _ _ G H). Qed.
  Lemma bool_sim : forall st e, good_st st -> fe e -> agree (as_bool (ze st (zt e))) (as_bool (gt st e)).
  Proof.
    intros st e G F. apply agree_bind; [apply ze_sim; assumption |].
    intros v _. apply agree_refl.
  Qed.
  Lemma eval_all_sim : forall st es, good_st st -> Forall fe es ->
    agree (eval_all (ze st) (map zt es)) (eval_all (gt st) es).
  Proof.
    intros st es G F. induction F as [|e es Fe Fes IH]; cbn [map eval_all]; [apply agree_refl |].
    apply agree_bind; [apply ze_sim; assumption |]. intros v _.
    apply agree_bind; [exact IH |]. intros vs _. apply agree_refl.
  Qed.
  Lemma opasg_sim : forall st x o e e', good_st st -> agree (ze st e') (gt st e) ->
    agree (ze st (EBin o (EVar x) (EParen e'))) (gt st (EBin o (EVar x) (EParen e))).
  Proof.
    intros st x o e e' G A. unfold ze, ge in *. rewrite zig_eval_bin, go_eval_bin.
    apply agree_bind; [apply agree_refl |]. intros va E.
    destruct (go_eval_good _ _ _ G E) as [Ga Ra].
    apply oper_agree; [exact Ga | exact Ra | | exact A].
    intros v Hv. exact (go_eval_good _ _ _ G Hv).
  Qed.

  Lemma zassign_sim : forall st x o e, good_st st -> fe e ->
    rel (z_assign st x o (zt e)) (g_stmt trapping 0 (GAssign [x] o [e]) st).
  Proof.
    intros st x o e G F. destruct o as [o|].
    - cbn [z_assign g_stmt]. apply rel_val; [apply opasg_sim; [exact G | apply ze_sim; assumption] |].
      intros v E. apply assign_rel; [exact G | apply (ge_good _ _ _ G E)].
    - cbn [z_assign g_stmt eval_all bind].
      assert (A := ze_sim st e G F). destruct A as [A | [A | A]].
      + left. rewrite A. reflexivity.
      + right; left. rewrite A. reflexivity.
      + rewrite A. destruct (gt st e) as [v| |] eqn:E; cbn [bind with_val].
        * cbn [assign_all]. destruct (assign_rel st x v G (proj1 (ge_good _ _ _ G E))) as [B | [B | [_ B]]].
          -- left; exact B.
          -- left; exact B.
          -- destruct (assign st x v) as [[] st'| | |]; try (apply rel_same; exact B).
        * apply rel_same. intros; discriminate.
        * left; reflexivity.
  Qed.
  Lemma inc_sim : forall st x o, good_st st ->
    rel (z_assign st x (Some o) (EInt 1)) (with_val (gt st (EBin o (EVar x) (EInt 1))) st (assign st x)).
  Proof.
    intros st x o G. cbn [z_assign].
    assert (A : agree (ze st (EBin o (EVar x) (EParen (EInt 1)))) (gt st (EBin o (EVar x) (EInt 1)))).
    { apply (opasg_sim st x o (EInt 1) (EInt 1) G). apply agree_refl. }
    apply rel_val; [exact A |]. intros v E. apply assign_rel; [exact G | apply (ge_good _ _ _ G E)].
  Qed.
  Lemma define_sim : forall n st x t e, good_st st -> fe e ->
    rel (z_seq n [ZDecl x t (zt e); ZSet x None (EVar x)] st) (g_stmt trapping n (GDefine [(x, t)] [e]) st).
  Proof.
    intros n st x t e G F. rewrite z_seq_cons. cbn [z_stmt g_stmt eval_all].
    destruct (ze_sim st e G F) as [A | [A | A]].
    - left. rewrite A. reflexivity.
    - right; left. rewrite A. reflexivity.
    - rewrite A. destruct (gt st e) as [v| |] eqn:E; cbn [bind with_val];
        [| apply rel_same; intros; discriminate | left; reflexivity].
      destruct (ge_good _ _ _ G E) as [Gv Rv]. cbn [define_all].
      destruct (conv t v) as [w| |] eqn:C; cbn [with_val xbind];
        [| apply rel_same; intros; discriminate | left; reflexivity].
      destruct (conv_good _ _ _ Gv C) as [Gw Rw].
      rewrite z_seq_one. cbn [z_stmt z_assign].
      assert (L : st_env (set st x w) x = Some w).
      { unfold st_env, set. cbn [st_mem]. rewrite look_upd, Nat.eqb_refl. reflexivity. }
      unfold ze. cbn [zig_eval]. rewrite L. cbn [with_val]. unfold assign. rewrite L.
      assert (CL : conv_like w w = Val w).
      { destruct t as [k| |]; cbn [conv] in C.
        - apply bind_val in C as (z & _ & C). injection C as <-. cbn [conv_like conv as_kind].
          replace (ik_eqb k k) with true; [reflexivity |].
          destruct k as [a b]; unfold ik_eqb; cbn. rewrite eqb_reflx, Z.eqb_refl. reflexivity.
        - destruct v; try discriminate. injection C as <-. reflexivity.
        - destruct v; try discriminate. injection C as <-. reflexivity. }
      rewrite CL. cbn [with_val].
      replace (set (set st x w) x w) with (set st x w); [apply rel_ok, set_good; assumption |].
      unfold set at 1 2. f_equal. cbn [st_mem]. symmetry. apply upd_same.
      rewrite look_upd, Nat.eqb_refl. reflexivity.
  Qed.
End Sim.

(** ** Equations of the Go semantics *)
Section GEq.
  Variable pol : policy.
  Variable n : nat.
  Lemma g_block_eq : forall l st, g_stmt pol n (GBlock l) st = g_list pol n l st.
  Proof. reflexivity. Qed.
  Lemma g_if_eq : forall init c body els st, g_stmt pol n (GIf init c body els) st =
    xbind (g_list pol n init st) (fun st =>
    with_val (as_bool (ge pol st c)) st (fun b => if b then g_list pol n body st else g_list pol n els st)).
  Proof. reflexivity. Qed.
  Lemma g_for_eq : forall lab init c post body st, g_stmt pol n (GFor lab init c post body) st =
    xbind (g_list pol n init st) (fun st =>
    loop n lab
      (fun st => match c with Some c => as_bool (ge pol st c) | None => Val true end)
      (fun st => g_list pol n post st) (fun st => g_list pol n body st) st).
  Proof. reflexivity. Qed.
  Lemma g_range_eq : forall lab key k x body st, g_stmt pol n (GRange lab key k x body) st =
    with_val (bind (ge pol st x) (as_kind k)) st (fun z =>
    count (Z.to_nat z) lab 0
      (fun i st => g_list pol n body (match key with Some y => set st y (VInt k i) | None => st end)) st).
  Proof. reflexivity. Qed.
  Lemma g_switch_eq : forall init tag cls st, g_stmt pol n (GSwitch init tag cls) st =
    xbind (g_list pol n init st) (fun st =>
    with_val (match tag with Some e => ge pol st e | None => Val (VBool true) end) st (fun v =>
    leave_switch (g_match pol n v cls (fun st => g_default pol n cls st) st))).
  Proof. reflexivity. Qed.
  Lemma g_cons_eq : forall s l st, g_list pol n (GCons s l) st = xbind (g_stmt pol n s st) (fun st => g_list pol n l st).
  Proof. reflexivity. Qed.
  Lemma g_match_eq : forall tag es body falls rest none st, g_match pol n tag (CCons es body falls rest) none st =
    with_val (case_hit pol st tag es) st (fun b =>
    if b then xbind (g_list pol n body st) (fun st => if falls then g_from pol n rest st else XOk ONorm st)
    else g_match pol n tag rest none st).
  Proof. reflexivity. Qed.
  Lemma g_default_eq : forall body falls rest st, g_default pol n (CCons [] body falls rest) st =
    xbind (g_list pol n body st) (fun st => if falls then g_from pol n rest st else XOk ONorm st).
  Proof. reflexivity. Qed.
  Lemma g_default_skip : forall e es body falls rest st, g_default pol n (CCons (e :: es) body falls rest) st =
    g_default pol n rest st.
  Proof. reflexivity. Qed.
  Lemma g_from_eq : forall es body falls rest st, g_from pol n (CCons es body falls rest) st =
    xbind (g_list pol n body st) (fun st => if falls then g_from pol n rest st else XOk ONorm st).
  Proof. reflexivity. Qed.
End GEq.
Lemma xbind_ret : forall r, xbind r (fun st => XOk ONorm st) = r.
Proof. intros [[] st| | |]; reflexivity. Qed.

(** ** No unlabelled break leaves a body without one *)
Definition nb (r : xres) : Prop := forall st, r <> XOk (OBrk None) st.
Lemma nb_bind : forall r f, nb r -> (forall st, nb (f st)) -> nb (xbind r f).
Proof. intros r f H F. destruct r as [[] st| | |]; try exact H. apply F. Qed.
Lemma nb_val : forall A (r : res A) st f, (forall v, nb (f v)) -> nb (with_val r st f).
Proof. intros A [v| |] st f F; [apply F | |]; intros st'; discriminate. Qed.
Lemma nb_loop : forall lab c p b, (forall st, nb (p st)) -> forall k st, nb (loop k lab c p b st).
Proof.
  intros lab c p b P. induction k as [|k IH]; intros st; cbn [loop]; [intros st'; discriminate |].
  apply nb_val. intros v. destruct v; [| intros st'; discriminate].
  destruct (b st) as [o st'| | |]; try (intros st''; discriminate).
  destruct o as [|[l|]|[l|]|vs]; try (intros st''; discriminate); try (apply nb_bind; [apply P | exact IH]).
  - destruct (lab_eqb lab l); intros st''; discriminate.
  - destruct (lab_eqb lab l); [apply nb_bind; [apply P | exact IH] | intros st''; discriminate].
Qed.
Lemma nb_count : forall lab b k i st, nb (count k lab i b st).
Proof.
  intros lab b. induction k as [|k IH]; intros i st; cbn [count]; [intros st'; discriminate |].
  destruct (b i st) as [o st'| | |]; try (intros st''; discriminate).
  destruct o as [|[l|]|[l|]|vs]; try (intros st''; discriminate); try apply IH.
  - destruct (lab_eqb lab l); intros st''; discriminate.
  - destruct (lab_eqb lab l); [apply IH | intros st''; discriminate].
Qed.
Lemma nb_assign : forall st x v, nb (assign st x v).
Proof.
  intros st x v. unfold assign. destruct (st_env st x); [| intros st'; discriminate].
  apply nb_val. intros w st'. discriminate.
Qed.
Lemma nb_assigns : forall xs st vs, nb (assign_all st xs vs).
Proof.
  induction xs as [|x xs IH]; intros st [|v vs]; cbn [assign_all]; try (intros st'; discriminate).
  apply nb_bind; [apply nb_assign |]. intros st'. apply IH.
Qed.
Lemma nb_defines : forall xs st vs, nb (define_all st xs vs).
Proof.
  induction xs as [|[x t] xs IH]; intros st [|v vs]; cbn [define_all]; try (intros st'; discriminate).
  apply nb_val. intros w. apply IH.
Qed.
Lemma nb_init : forall ty pol n l, fine_init ty l -> forall st, nb (g_list pol n l st).
Proof.
  intros ty pol n l F st. destruct l as [|s l]; [intros st'; discriminate |].
  pose proof (fine_init_one _ _ _ F) as ->. rewrite g_cons_eq.
  apply nb_bind; [| intros st' st''; discriminate].
  destruct s as [es | xs o es | xs es | x | x | | | | | | | |]; try contradiction; cbn [g_stmt].
  - destruct o as [o|]; [| apply nb_val; intros vs; apply nb_assigns].
    destruct xs as [|x [|]]; try (intros st'; discriminate).
    destruct es as [|e [|]]; try (intros st'; discriminate).
    apply nb_val. intros v. apply nb_assign.
  - apply nb_val. intros vs. apply nb_defines.
  - apply nb_val. intros vs. apply nb_assign.
  - apply nb_val. intros vs. apply nb_assign.
Qed.
Lemma fine_post_init : forall ty l, fine_post ty l -> fine_init ty l.
Proof.
  intros ty l H. destruct l as [|s l]; [exact I |]. destruct s; try exact H. contradiction.
Qed.

Section NoBreak.
  Variable ty : expr -> gty.
  Variable pol : policy.
  Variable n : nat.
  Definition N_s (s : gstmt) : Prop := fine ty s -> no_break s = true -> forall st, nb (g_stmt pol n s st).
  Definition N_l (l : gstmts) : Prop := fine_l ty l -> no_breaks l = true -> forall st, nb (g_list pol n l st).
  Definition N_c (cls : gclauses) : Prop := fine_c ty cls -> no_break_cls cls = true ->
    (forall tag none st, (forall st, nb (none st)) -> nb (g_match pol n tag cls none st)) /\
    (forall st, nb (g_default pol n cls st)).

  Lemma all_nb : (forall s, N_s s) /\ (forall l, N_l l) /\ (forall c, N_c c).
  Proof.
    apply g_mutind.
    - intros es _ _ st. cbn [g_stmt]. apply nb_val. intros vs. apply nb_val. intros ps st'. discriminate.
    - intros xs o es _ _ st. cbn [g_stmt].
      destruct o as [o|]; [| apply nb_val; intros vs; apply nb_assigns].
      destruct xs as [|x [|]]; try (intros st'; discriminate).
      destruct es as [|e [|]]; try (intros st'; discriminate).
      apply nb_val. intros v. apply nb_assign.
    - intros xs es _ _ st. cbn [g_stmt]. apply nb_val. intros vs. apply nb_defines.
    - intros x _ _ st. cbn [g_stmt]. apply nb_val. intros v. apply nb_assign.
    - intros x _ _ st. cbn [g_stmt]. apply nb_val. intros v. apply nb_assign.
    - intros l IH F N st. rewrite g_block_eq. apply IH; assumption.
    - intros init _ c body IHb els IHe F N st. cbn [fine] in F. destruct F as (-> & _ & FB & FE & _).
      cbn [no_break] in N. apply andb_prop in N as [NB NE]. rewrite g_if_eq.
      apply nb_bind; [intros st'; discriminate |]. intros st'. apply nb_val. intros [|];
        [apply IHb; assumption | apply IHe; assumption].
    - intros lab init _ c post _ body _ F _ st. cbn [fine] in F. destruct F as (FI & _ & FP & _).
      rewrite g_for_eq. apply nb_bind; [exact (nb_init ty pol n init FI st) |]. intros st'.
      apply nb_loop. intros st''. exact (nb_init ty pol n post (fine_post_init _ _ FP) st'').
    - intros lab key k x body _ _ _ st. rewrite g_range_eq. apply nb_val. intros z. apply nb_count.
    - intros init _ tag cls IHc F N st. cbn [fine] in F. destruct F as (FI & _ & FC & NB).
      rewrite g_switch_eq. apply nb_bind; [exact (nb_init ty pol n init FI st) |]. intros st'.
      apply nb_val. intros v. intros st''. unfold leave_switch.
      destruct (g_match pol n v cls (fun st0 => g_default pol n cls st0) st') as [[|[]| |] ?| | |]; discriminate.
    - intros [l|] _ N st st'; [discriminate | discriminate N].
    - intros lab _ _ st st'. discriminate.
    - intros es _ _ st. cbn [g_stmt]. apply nb_val. intros vs st'. discriminate.
    - intros _ _ st st'. discriminate.
    - intros s IHs l IHl F N st. cbn [fine_l] in F. destruct F as [FS FL].
      cbn [no_breaks] in N. apply andb_prop in N as [NS NL]. rewrite g_cons_eq.
      apply nb_bind; [apply IHs; assumption |]. intros st'. apply IHl; assumption.
    - intros _ _. split; [intros tag none st H; apply H | intros st st'; discriminate].
    - intros es body IHb falls rest IHr F N. cbn [fine_c] in F. destruct F as (_ & FB & -> & FR).
      cbn [no_break_cls] in N. apply andb_prop in N as [NB NR].
      destruct (IHr FR NR) as [M D]. split.
      + intros tag none st H. rewrite g_match_eq. apply nb_val. intros [|]; [| apply M, H].
        rewrite xbind_ret. apply IHb; assumption.
      + intros st. destruct es as [|e es]; [| rewrite g_default_skip; apply D].
        rewrite g_default_eq, xbind_ret. apply IHb; assumption.
  Qed.
End NoBreak.

Lemma leave_switch_nb : forall r, nb r -> leave_switch r = r.
Proof.
  intros r H. destruct r as [[|[]| |] st| | |]; try reflexivity. exfalso. exact (H st eq_refl).
Qed.

(** ** Switches *)
(** a constant is what it is in every environment *)
Lemma const_env : forall s e v, zig_eval no_env e = Val v -> zig_eval s e = Val v.
Proof.
  intros s. induction e as [m | z | b | t | | e IH | u e IH | o a IHa b IHb | x IHx i IHi
                 | m x IHx i IHi | x IHx | a IHa b IHb]; intros v H; try exact H; try discriminate.
  - apply IH, H.
  - cbn [zig_eval] in *. destruct (zig_eval no_env e) as [w| |] eqn:E; try discriminate.
    rewrite (IH _ eq_refl). exact H.
  - rewrite zig_eval_bin in *. destruct (zig_eval no_env a) as [w| |] eqn:E; try discriminate.
    rewrite (IHa _ eq_refl). cbn [bind] in *.
    destruct (zig_eval no_env b) as [w'| |] eqn:E'; [rewrite (IHb _ eq_refl); exact H | |].
    + destruct o; try discriminate; destruct w as [| |[]| | | | | |]; try discriminate; exact H.
    + destruct o; try discriminate; destruct w as [| |[]| | | | | |]; try discriminate; exact H.
  - cbn [zig_eval] in *. destruct (zig_eval no_env x) as [w| |] eqn:E; try discriminate.
    rewrite (IHx _ eq_refl). cbn [bind] in *. destruct (zig_eval no_env i) as [w'| |] eqn:E'; try discriminate.
    rewrite (IHi _ eq_refl). exact H.
  - cbn [zig_eval] in *. destruct (zig_eval no_env x) as [w| |] eqn:E; try discriminate.
    rewrite (IHx _ eq_refl). cbn [bind] in *. destruct (zig_eval no_env i) as [w'| |] eqn:E'; try discriminate.
    rewrite (IHi _ eq_refl). exact H.
  - cbn [zig_eval] in *. destruct (zig_eval no_env x) as [w| |] eqn:E; try discriminate.
    rewrite (IHx _ eq_refl). exact H.
  - cbn [zig_eval] in *. destruct (zig_eval no_env a) as [w| |] eqn:E; try discriminate.
    rewrite (IHa _ eq_refl). cbn [bind] in *. destruct (zig_eval no_env b) as [w'| |] eqn:E'; try discriminate.
    rewrite (IHb _ eq_refl). exact H.
Qed.

Section Switch.
  Variable ty : expr -> gty.
  Variable n : nat.
  Notation zt := (ztree ty).
  Notation fe := (fine_e ty).

  Lemma item_cons : forall e es zs, item_vals (e :: es) = Val zs ->
    exists a r, zig_eval no_env e = Val (VLit a) /\ item_vals es = Val r /\ zs = a :: r.
  Proof.
    intros e es zs H. cbn [item_vals] in H. apply bind_val in H as (v & E & H).
    destruct v; try discriminate. apply bind_val in H as (r & E' & H). injection H as <-.
    eexists; eexists. split; [exact E | split; [exact E' | reflexivity]].
  Qed.

  Lemma case_sim : forall k z st es zs, good_st st -> Forall fe es ->
    item_vals (map zt es) = Val zs -> forallb (in_range k) zs = true ->
    agree (Val (memZ z zs)) (case_hit trapping st (VInt k z) es).
  Proof.
    intros k z st es zs G F. revert zs. induction F as [|e es Fe Fes IH]; intros zs H R.
    - injection H as <-. apply agree_refl.
    - cbn [map] in H. apply item_cons in H as (a & r & E & H & ->).
      cbn [forallb] in R. apply andb_prop in R as [Ra Rr]. specialize (IH r H Rr).
      pose proof (const_env (st_env st) _ _ E) as E'.
      destruct (ze_sim ty st e G Fe) as [A | [A | A]]; unfold ze in A.
      + rewrite E' in A. discriminate.
      + right; left. cbn [case_hit]. rewrite A. reflexivity.
      + rewrite E' in A. cbn [case_hit]. rewrite <- A. cbn [bind].
        assert (B : go_bin trapping OEq (VInt k z) (VLit a) = Val (VBool (z =? a))).
        { cbn [go_bin as_kind]. rewrite Ra. reflexivity. }
        rewrite B. cbn [bind memZ]. destruct (z =? a); [apply agree_refl | exact IH].
  Qed.

  (** every body is simulated *)
  Definition bodies (cls : gclauses) : Prop :=
    (fix all (cls : gclauses) : Prop :=
       match cls with
       | CNil => True
       | CCons _ body _ rest =>
           (forall st, good_st st -> rel (z_seq n (ztr_l ty body) st) (g_list trapping n body st)) /\ all rest
       end) cls.

  Lemma prong_cons : forall es (b : list zstmt) ps zs, prong_items ((Some es, b) :: ps) = Val zs ->
    exists a r, item_vals es = Val a /\ prong_items ps = Val r /\ zs = a ++ r.
  Proof.
    intros es b ps zs H. cbn [prong_items] in H. apply bind_val in H as (a & E & H).
    apply bind_val in H as (r & E' & H). injection H as <-.
    eexists; eexists. split; [exact E | split; [exact E' | reflexivity]].
  Qed.

  Lemma pick_sim : forall k z cls, fine_c ty cls -> bodies cls ->
    forall zs st, good_st st -> prong_items (ztr_c ty cls) = Val zs -> forallb (in_range k) zs = true ->
    forall other none,
      (count_else (ztr_c ty cls) = 0%nat -> rel (other st) (none st)) ->
      (count_else (ztr_c ty cls) = 1%nat -> none st = g_default trapping n cls st) ->
      (count_else (ztr_c ty cls) <= 1)%nat ->
      rel (z_pick n z (ztr_c ty cls) other st) (g_match trapping n (VInt k z) cls none st).
  Proof.
    intros k z. induction cls as [|es body falls rest IH]; intros F B zs st G P R other none H0 H1 L.
    - apply H0. reflexivity.
    - cbn [fine_c] in F. destruct F as (FE & FB & -> & FR). destruct B as [BB BR].
      destruct es as [|e es].
      + cbn [ztr_c count_else prong_items] in *. rewrite g_match_eq. cbn [case_hit with_val].
        change (z_pick n z ((None, ztr_l ty body) :: ztr_c ty rest) other st)
          with (z_pick n z (ztr_c ty rest) (fun st => z_seq n (ztr_l ty body) st) st).
        apply (IH FR BR zs st G P R); [| lia | lia].
        intros C. rewrite H1 by (rewrite C; reflexivity). rewrite g_default_eq, xbind_ret. apply BB, G.
      + assert (ZC : ztr_c ty (CCons (e :: es) body false rest) = (Some (map zt (e :: es)), ztr_l ty body) :: ztr_c ty rest)
          by reflexivity.
        rewrite ZC in *. cbn [count_else] in *.
        apply prong_cons in P as (a & r & E & P & ->). rewrite forallb_app in R.
        apply andb_prop in R as [Ra Rr]. rewrite g_match_eq.
        change (z_pick n z ((Some (map zt (e :: es)), ztr_l ty body) :: ztr_c ty rest) other st)
          with (if hits z (map zt (e :: es)) then z_seq n (ztr_l ty body) st
                else z_pick n z (ztr_c ty rest) other st).
        unfold hits. rewrite E.
        destruct (case_sim k z st (e :: es) a G FE E Ra) as [C | [C | C]]; [discriminate | |].
        * right; left. rewrite C. reflexivity.
        * rewrite <- C. cbn [with_val]. destruct (memZ z a).
          -- rewrite xbind_ret. apply BB, G.
          -- apply (IH FR BR r st G P Rr); [exact H0 | exact H1 | exact L].
  Qed.
End Switch.

(** ** Every statement of the fragment *)
Section Main.
  Variable ty : expr -> gty.
  Variable n : nat.
  Notation zt := (ztree ty).
  Notation fe := (fine_e ty).

  Definition S_s (s : gstmt) : Prop := fine ty s ->
    forall st, good_st st -> rel (z_seq n (ztr ty s) st) (g_stmt trapping n s st).
  Definition S_l (l : gstmts) : Prop := fine_l ty l ->
    forall st, good_st st -> rel (z_seq n (ztr_l ty l) st) (g_list trapping n l st).
  Definition S_c (cls : gclauses) : Prop := fine_c ty cls -> bodies ty n cls.

  Lemma simple_sim : forall s, fine_init ty (GCons s GNil) -> S_s s.
  Proof.
    intros s F _ st G. destruct s as [es | xs o es | xs es | x | x | | | | | | | |]; try contradiction.
    - assert (H : exists x e, xs = [x] /\ es = [e] /\ fe e).
      { destruct xs as [|x [|]]; try (destruct o; contradiction).
        destruct es as [|e [|]]; try (destruct o; contradiction).
        exists x, e. split; [reflexivity |]. split; [reflexivity |]. destruct o; [exact (proj2 F) | exact F]. }
      destruct H as (x & e & -> & -> & Fe).
      replace (ztr ty (GAssign [x] o [e])) with [ZSet x o (zt e)] by (destruct o; reflexivity).
      rewrite z_seq_one.
      replace (g_stmt trapping n (GAssign [x] o [e]) st) with (g_stmt trapping 0 (GAssign [x] o [e]) st)
        by (destruct o; reflexivity).
      apply zassign_sim; assumption.
    - destruct xs as [|[x t] [|]]; try contradiction.
      destruct es as [|e [|]]; try contradiction. apply define_sim; assumption.
    - cbn [ztr]. rewrite z_seq_one. apply inc_sim, G.
    - cbn [ztr]. rewrite z_seq_one. apply inc_sim, G.
  Qed.

  Lemma init_sim : forall l, fine_init ty l -> forall st, good_st st ->
    rel (z_seq n (match l with GNil => [] | GCons s _ => ztr ty s end) st) (g_list trapping n l st).
  Proof.
    intros l F st G. destruct l as [|s l]; [apply rel_ok, G |].
    pose proof (fine_init_one _ _ _ F) as ->. rewrite g_cons_eq.
    change (fun st0 => g_list trapping n GNil st0) with (fun st0 => XOk ONorm st0). rewrite xbind_ret.
    apply simple_sim; [exact F | | exact G].
    destruct s as [es | xs o es | xs es | x | x | | | | | | | |]; try contradiction; try exact I.
    - destruct xs as [|x [|]], es as [|e [|]], o; try exact F; contradiction.
    - destruct xs as [|[x t] [|]], es as [|e [|]]; try exact F; contradiction.
  Qed.

  Lemma post_sim : forall l, fine_post ty l -> forall st, good_st st ->
    rel (match zpost ty l with Some (x, o, e) => z_assign st x o e | None => XOk ONorm st end)
        (g_list trapping n l st).
  Proof.
    intros l F st G. destruct l as [|s l]; [apply rel_ok, G |].
    pose proof (fine_init_one _ _ _ (fine_post_init _ _ F)) as ->.
    pose proof (init_sim _ (fine_post_init _ _ F) st G) as R.
    destruct s as [es | xs o es | xs es | x | x | | | | | | | |]; try contradiction.
    - destruct xs as [|x [|]]; try (destruct o; contradiction).
      destruct es as [|e [|]]; try (destruct o; contradiction).
      replace (ztr ty (GAssign [x] o [e])) with [ZSet x o (zt e)] in R by (destruct o; reflexivity).
      rewrite z_seq_one in R. exact R.
    - cbn [ztr] in R. rewrite z_seq_one in R. exact R.
    - cbn [ztr] in R. rewrite z_seq_one in R. exact R.
  Qed.

  Lemma leave_none : forall r, leave_block None r = r.
  Proof. intros [[|[]|[]|] st| | |]; reflexivity. Qed.

  Lemma bound_sim : forall k v, for_bound k v = Refused \/ for_bound k v = as_kind k v.
  Proof.
    intros k v. destruct v as [z|k' z| | | | | | |]; try (left; reflexivity); cbn [for_bound as_kind].
    - destruct (in_range k z); cbn [andb]; [| left; reflexivity].
      destruct (0 <=? z); [right | left]; reflexivity.
    - destruct (ik_eqb k k_uint) eqn:E; cbn [andb]; [| left; reflexivity].
      destruct (ik_eqb k' k_uint) eqn:E'; [| left; reflexivity]. right.
      replace (ik_eqb k k') with true; [reflexivity |].
      unfold ik_eqb in *. apply andb_prop in E as [E1 E2]. apply andb_prop in E' as [E3 E4].
      apply eqb_prop in E1. apply eqb_prop in E3. apply Z.eqb_eq in E2. apply Z.eqb_eq in E4.
      rewrite E1, E3, E2, E4. rewrite eqb_reflx, Z.eqb_refl. reflexivity.
  Qed.
  Lemma ik_eqb_eq : forall a b, ik_eqb a b = true -> a = b.
  Proof.
    intros [sa ba] [sb bb] E. unfold ik_eqb in E. cbn in E. apply andb_prop in E as [E1 E2].
    apply eqb_prop in E1. apply Z.eqb_eq in E2. congruence.
  Qed.
  Lemma switch_ok_inv : forall v (ps : list (option (list expr) * list zstmt)) z, switch_ok v ps = Some z ->
    exists k zs, v = VInt k z /\ prong_items ps = Val zs /\ forallb (in_range k) zs = true /\ count_else ps = 1%nat.
  Proof.
    intros v ps z H. destruct v as [|k z'| | | | | | |]; try discriminate. cbn [switch_ok] in H.
    destruct (prong_items ps) as [zs| |] eqn:E; try discriminate.
    destruct (distinct zs); [| discriminate]. destruct (forallb (in_range k) zs) eqn:R; [| discriminate].
    destruct (count_else ps =? 1)%nat eqn:C; [| discriminate]. injection H as <-.
    apply Nat.eqb_eq in C. exists k, zs. split; [reflexivity | split; [reflexivity | split; assumption]].
  Qed.

  (** the counter of a range is one of its type *)
  Lemma count_rel_range : forall zb gb k m, (forall i st, 0 <= i < m -> good_st st -> rel (zb i st) (gb i st)) ->
    forall i st, 0 <= i -> i + Z.of_nat k <= m -> good_st st ->
    rel (count k None i zb st) (count k None i gb st).
  Proof.
    intros zb gb k m B. induction k as [|k IH]; intros i st I0 I1 G; cbn [count]; [apply rel_ok, G |].
    destruct (B i st) as [-> | [-> | [-> G']]]; [lia | exact G | left; reflexivity | right; left; reflexivity |].
    destruct (gb i st) as [o st'| | |]; try (apply rel_same; intros; discriminate).
    specialize (G' _ _ eq_refl).
    destruct o as [|[l|]|[l|]|vs]; try (apply IH; [lia | lia | exact G']); apply rel_ok, G'.
  Qed.

  Lemma all_sim : (forall s, S_s s) /\ (forall l, S_l l) /\ (forall c, S_c c).
  Proof.
    apply g_mutind.
    - intros es F st G. cbn [fine] in F. cbn [ztr]. rewrite z_seq_one. cbn [z_stmt g_stmt].
      apply rel_val; [apply eval_all_sim; assumption |]. intros vs _.
      apply rel_val; [apply agree_refl |]. intros ps _. apply rel_ok, emit_good, G.
    - intros xs o es F. apply simple_sim; [| exact F].
      destruct xs as [|x [|]], es as [|e [|]], o; try exact F; contradiction.
    - intros xs es F. apply simple_sim; [| exact F].
      destruct xs as [|[x t] [|]], es as [|e [|]]; try exact F; contradiction.
    - intros x F. apply simple_sim; [exact I | exact F].
    - intros x F. apply simple_sim; [exact I | exact F].
    - intros l IH F st G. cbn [fine] in F. cbn [ztr].
      rewrite z_seq_one, z_block_eq, leave_none, g_block_eq. apply IH; assumption.
    - intros init _ c body IHb els IHe F st G. cbn [fine] in F. destruct F as (-> & FC & FB & FE & SH).
      cbn [ztr]. rewrite z_seq_one, z_if_eq, g_if_eq. cbn [g_list xbind].
      apply rel_val; [apply bool_sim; assumption |]. intros b _. destruct b; [apply IHb; assumption |].
      specialize (IHe FE st G).
      destruct els as [|s els]; [apply rel_ok, G |].
      assert (HE : els = GNil /\ exists z, ztr ty s = [z]).
      { destruct s; try contradiction; destruct els; try contradiction; (split; [reflexivity |]);
          eexists; reflexivity. }
      destruct HE as [-> [z Z]].
      change (ztr_l ty (GCons s GNil)) with (ztr ty s ++ []) in IHe. rewrite app_nil_r, Z, z_seq_one in IHe.
      rewrite Z. exact IHe.
    - intros lab init _ c post _ body IHb F st G. cbn [fine] in F. destruct F as (FI & FC & FP & FB).
      rewrite g_for_eq.
      set (w := ZWhile lab (match c with Some c => zt c | None => EBool true end) (zpost ty post) (ztr_l ty body)).
      assert (W : forall st, good_st st -> rel (z_stmt n w st)
        (loop n lab (fun st => match c with Some c => as_bool (ge trapping st c) | None => Val true end)
          (fun st => g_list trapping n post st) (fun st => g_list trapping n body st) st)).
      { intros st' G'. unfold w. rewrite z_while_eq. apply loop_rel; [| | | exact G'].
        - intros st'' G''. destruct c as [c|]; [apply bool_sim; assumption | apply agree_refl].
        - intros st'' G''. apply post_sim; assumption.
        - intros st'' G''. apply IHb; assumption. }
      assert (E : rel (z_seq n (match init with GNil => [] | GCons s _ => ztr ty s end ++ [w]) st)
                      (xbind (g_list trapping n init st) (fun st =>
                       loop n lab (fun st => match c with Some c => as_bool (ge trapping st c) | None => Val true end)
                       (fun st => g_list trapping n post st) (fun st => g_list trapping n body st) st))).
      { rewrite z_seq_app. apply rel_bind; [apply init_sim; assumption |].
        intros st' G'. rewrite z_seq_one. apply W, G'. }
      cbn [ztr]. fold w. destruct init as [|s l]; [exact E |].
      rewrite z_seq_one, z_block_eq, leave_none. exact E.
    - intros lab key k x body IHb F st G. cbn [fine] in F. destruct F as (-> & FK & FX & FB).
      cbn [ztr]. rewrite z_seq_one, z_for_eq, g_range_eq.
      apply rel_val.
      { apply agree_bind; [apply ze_sim; assumption |]. intros v _. apply agree_or, bound_sim. }
      intros z Z. apply bind_val in Z as (v & Ev & Z). destruct (ge_good _ _ _ G Ev) as [Gv _].
      pose proof (as_kind_good k v _ Gv Z) as Rz. apply in_range_spec in Rz.
      apply (count_rel_range _ _ (Z.to_nat z) (Z.max 0 z)); [| lia | lia | exact G].
      intros i st' Hi G'. rewrite leave_none.
      destruct key as [y|]; [| apply IHb; assumption].
      destruct FK as [FK | FK]; [discriminate |]. apply ik_eqb_eq in FK as ->.
      apply IHb; [exact FB |]. apply set_good; [exact G' | | exact I].
      cbn [good]. apply in_range_spec. unfold k_min in *. cbn in *. lia.
    - intros init _ tag cls IHc F st G. cbn [fine] in F. destruct F as (FI & FX & FC & NB).
      destruct tag as [e|]; [| contradiction]. specialize (IHc FC).
      rewrite g_switch_eq.
      change (ztr ty (GSwitch init (Some e) cls)) with
        [ZBlock None (match init with GNil => [] | GCons s _ => ztr ty s end ++ [ZSwitch (zt e) (ztr_c ty cls)])].
      rewrite z_seq_one, z_block_eq, leave_none, z_seq_app.
      apply rel_bind; [apply init_sim; assumption |]. intros st' G'. rewrite z_seq_one, z_switch_eq.
      apply rel_val; [apply ze_sim; assumption |]. intros v Ev.
      destruct (all_nb ty trapping n) as (_ & _ & NC). destruct (NC cls FC NB) as [NM ND].
      rewrite leave_switch_nb by (apply NM; exact ND).
      destruct (switch_ok v (ztr_c ty cls)) as [z|] eqn:SO; [| left; reflexivity].
      destruct (switch_ok_inv _ _ _ SO) as (k & zs & -> & PI & RZ & CE).
      apply (pick_sim ty n k z cls FC IHc zs st' G' PI RZ); [| | lia].
      + intros C. rewrite C in CE. discriminate.
      + intros _. reflexivity.
    - intros lab _ st G. cbn [ztr]. rewrite z_seq_one. apply rel_ok, G.
    - intros lab _ st G. cbn [ztr]. rewrite z_seq_one. apply rel_ok, G.
    - intros es F st G. cbn [fine] in F. destruct es as [|e [|]]; [| | contradiction].
      + cbn [ztr]. rewrite z_seq_one. apply rel_ok, G.
      + cbn [ztr]. rewrite z_seq_one. cbn [z_stmt g_stmt eval_all].
        destruct (ze_sim ty st e G F) as [A | [A | A]].
        * left. rewrite A. reflexivity.
        * right; left. rewrite A. reflexivity.
        * rewrite A. destruct (ge trapping st e) as [v| |]; cbn [bind with_val];
            [apply rel_ok, G | apply rel_same; intros; discriminate | left; reflexivity].
    - intros _ st G. apply rel_ok, G.
    - intros s IHs l IHl F st G. cbn [fine_l] in F. destruct F as [FS FL].
      cbn [ztr_l]. rewrite z_seq_app, g_cons_eq. apply rel_bind; [apply IHs; assumption |].
      intros st' G'. apply IHl; assumption.
    - intros _. exact I.
    - intros es body IHb falls rest IHr F. cbn [fine_c] in F. destruct F as (_ & FB & _ & FR).
      split; [intros st G; apply IHb; assumption | apply IHr, FR].
  Qed.
End Main.
