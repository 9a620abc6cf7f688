(** C128: when what the zig target puts on the stack is safe there, and when it is not. *)
From Verif Require Import GoBase EscModel EscGraph EscSpec.
From Coq Require Import Relations.
Local Open Scope nat_scope.
Open Scope list_scope.

Section Sound.
Variable global param : nat -> bool.

(** ** The programs of the theorem *)
(** No reference and no call in it. *)
Fixpoint silent (e : expr) : Prop :=
  match e with
  | EConst _ => True
  | EBinary _ a b | ESelect _ a b => silent a /\ silent b
  | EParen _ a | EUnary _ a => silent a
  | _ => False
  end.
Fixpoint silents (l : exprs) : Prop := match l with ENil => True | ECons e l => silent e /\ silents l end.
(** Where its value comes from there are local variables only, no closures, and neither calls nor receives of references. *)
Fixpoint tame (e : expr) : Prop :=
  match e with
  | EConst _ => True
  | EVar _ x _ => global x = false /\ param x = false
  | EBinary _ a b | ESelect _ a b => tame a /\ tame b
  | EIndex _ _ a _ | EIndices _ a _ | ESlice _ a _ | EParen _ a | EStar _ a | EAssert _ a | EUnary _ a | EExpand _ a => tame a
  | EKeyValue _ map_key k v => map_key = false /\ tame v
  | EComposite _ l => tames l
  | EFunc _ _ => False
  | EAwait _ refs _ | ECall _ refs _ _ => refs = false
  end
with tames (l : exprs) : Prop := match l with ENil => True | ECons e l => tame e /\ tames l end.
Definition tame_atom (a : atom) : Prop :=
  match a with
  | AAssign x v => tame v /\ stored_key x = None /\ (tame x \/ exists id y, x = EVar id y true /\ global y = true)
  | ADefine _ v => silents v
  | ARange l _ => l = []
  | ASend ch v => tame ch /\ tame v
  | ACall f l => silent f /\ tames l
  | ANew _ l => tames l
  | AReturn byref refs e => refs = true -> byref = true /\ tame e
  end.
Definition tame_program (p : stmts) : Prop := Forall tame_atom (atoms_stmts p).

(** ** Atoms and the walk *)
(** What the walk does where an atom is. *)
Fixpoint listed (e : exprs) (P : expr -> Prop) : Prop := match e with ENil => True | ECons e l => P e /\ listed l P end.
Definition covered (h : list op) (a : atom) : Prop :=
  match a with
  | AAssign x v => incl (walk x) h /\ incl (walk v) h /\ In (with_ x v) h /\ In (ORoute (node v) {| f_block := is_outer_scope; f_function := is_function_defined; f_goroutine := false; f_containment := is_global x |}) h
  | ADefine _ _ | ARange _ _ => True
  | ASend ch v => incl (walk ch) h /\ incl (walk v) h /\ In (with_ ch v) h
  | ACall f l => listed l (fun e => incl (walk e) h /\ In (ORoute (node e) all_flags) h)
  | ANew id l => listed l (fun e => incl (walk e) h /\ In (OLink (KNode id) (node e)) h)
  | AReturn byref _ e => incl (walk e) h /\ (byref = true -> In (ORoute (node e) function_flag) h)
  end.
Lemma silent_atoms e : silent e -> atoms e = []
with silents_atoms l : silents l -> atoms_list l = [].
Proof.
  - destruct e; cbn; try tauto; try (intros [A B]; rewrite !silent_atoms by auto; reflexivity); try (intro A; rewrite !silent_atoms by auto; reflexivity).
  - destruct l; cbn; [auto | intros [A B]; rewrite silent_atoms, silents_atoms by auto; reflexivity].
Qed.
Lemma incl_appl' {A} (a b h : list A) : incl (a ++ b) h -> incl a h. Proof. intros I x H. apply I, in_or_app. auto. Qed.
Lemma incl_appr' {A} (a b h : list A) : incl (a ++ b) h -> incl b h. Proof. intros I x H. apply I, in_or_app. auto. Qed.
Lemma incl_cons' {A} (a : A) (b h : list A) : incl (a :: b) h -> In a h /\ incl b h. Proof. intro I. split; [apply I; now left | intros x H; apply I; now right]. Qed.
Ltac parts := repeat match goal with
  | H : incl (_ ++ _) _ |- _ => let A := fresh in let B := fresh in pose proof (incl_appl' _ _ _ H) as A; pose proof (incl_appr' _ _ _ H) as B; clear H
  | H : incl (_ :: _) _ |- _ => apply incl_cons' in H as [? H]
  | H : incl [] _ |- _ => clear H
  end.
Ltac atoms_in := repeat match goal with H : In _ (_ ++ _) |- _ => apply in_app_or in H as [H | H] | H : In _ (_ :: _) |- _ => destruct H as [H | H]; [try subst | ] | H : In _ [] |- _ => destruct H end.
(** All atoms of tame programs are covered by the walk. *)
Lemma walk_args_listed h l : incl (walk_args l) h -> listed l (fun e => incl (walk e) h /\ In (ORoute (node e) all_flags) h).
Proof. induction l as [|e l IH]; cbn; auto. intro I. parts. auto. Qed.
Lemma walk_elements_listed h c l : incl (walk_elements c l) h -> listed l (fun e => incl (walk e) h /\ In (OLink (node c) (node e)) h).
Proof. induction l as [|e l IH]; cbn; auto. intro I. parts. auto. Qed.
Ltac tparts := repeat match goal with H : Forall _ (_ ++ _) |- _ => apply Forall_app in H as [? H] | H : Forall _ (_ :: _) |- _ => apply Forall_cons_iff in H as [? H] end.
Ltac goals := repeat first [apply Forall_nil | apply Forall_app; split | apply Forall_cons]; cbn [covered];
  try match goal with
  | |- listed _ (fun e => _ /\ In (ORoute _ _) _) => now apply walk_args_listed
  | H : incl (walk_elements ?c _) _ |- listed _ _ => exact (walk_elements_listed _ c _ H)
  | H : tame_atom (ADefine _ ?v) |- Forall _ (atoms_list ?v) => cbn [tame_atom] in H; rewrite (silents_atoms _ H); apply Forall_nil
  end; eauto.
Lemma atoms_covered e h : incl (walk e) h -> Forall tame_atom (atoms e) -> Forall (covered h) (atoms e)
with atoms_list_covered l h : incl (walks l) h -> Forall tame_atom (atoms_list l) -> Forall (covered h) (atoms_list l)
with atoms_args_covered l h : incl (walk_args l) h -> Forall tame_atom (atoms_list l) -> Forall (covered h) (atoms_list l)
with atoms_elements_covered c l h : incl (walk_elements c l) h -> Forall tame_atom (atoms_list l) -> Forall (covered h) (atoms_list l)
with atoms_pairs_covered l h : incl (walk_vars l) h -> incl (walk_values l) h -> Forall tame_atom (atoms_pairs l) -> Forall (covered h) (atoms_pairs l)
with atoms_stmt_covered s h : incl (walk_stmt s) h -> Forall tame_atom (atoms_stmt s) -> Forall (covered h) (atoms_stmt s)
with atoms_stmts_covered l h : incl (walk_stmts l) h -> Forall tame_atom (atoms_stmts l) -> Forall (covered h) (atoms_stmts l)
with atoms_results_covered l h : incl (walk_results l) h -> Forall tame_atom (atoms_results l) -> Forall (covered h) (atoms_results l)
with atoms_clauses_covered l h : incl (walk_clauses l) h -> Forall tame_atom (atoms_clauses l) -> Forall (covered h) (atoms_clauses l).
Proof.
  - intros W T. destruct e; cbn [walk atoms] in *; parts; tparts; goals.
  - intros W T. destruct l; cbn [walks atoms_list] in *; parts; tparts; goals.
  - intros W T. destruct l; cbn [walk_args atoms_list] in *; parts; tparts; goals.
  - intros W T. destruct l; cbn [walk_elements atoms_list] in *; parts; tparts; goals.
  - intros V W T. destruct l; cbn [walk_vars walk_values atoms_pairs] in *; parts; tparts; goals.
  - intros W T. destruct s; cbn [walk_stmt atoms_stmt] in *; parts; tparts; goals.
  - intros W T. destruct l; cbn [walk_stmts atoms_stmts] in *; parts; tparts; goals.
  - intros W T. destruct l; cbn [walk_results atoms_results] in *; parts; tparts; goals. split; [auto | intros ->; parts; auto].
  - intros W T. destruct l; cbn [walk_clauses atoms_clauses] in *; parts; tparts; goals.
Qed.

(** ** What memory has to do with the graph *)
Section Graph.
Variable h : list op.
Definition key_of (m : place) : option key := match m with PVar x => if global x then None else Some (KVar x) | PNew id _ => Some (KNode id) | POutside => None end.
Definition esc (a : key) : Prop := exists q, escapes h a q.
Definition esc_at (m : place) : Prop := match key_of m with Some a => esc a | None => True end.
(** m goes with a: they are connected, or both are known to escape. *)
Definition goes (a : key) (m : place) : Prop := (exists b, key_of m = Some b /\ connected h a b) \/ (esc a /\ esc_at m).
Definition together_at (k m : place) : Prop := (exists a b, key_of k = Some a /\ key_of m = Some b /\ connected h a b) \/ (esc_at k /\ esc_at m).
Lemma esc_connected a b : connected h a b -> esc b -> esc a. Proof. intros C (q & E). exists q. eapply escapes_connected; eauto. Qed.
Lemma esc_connected' a b : connected h a b -> esc a -> esc b. Proof. intros C. apply esc_connected. now apply connected_sym. Qed.
Lemma goes_esc a m : goes a m -> esc a -> esc_at m.
Proof. intros [(b & K & C) | [_ E]] A; auto. unfold esc_at. rewrite K. eapply esc_connected'; eauto. Qed.
Lemma goes_connected a b m : connected h a b -> goes b m -> goes a m.
Proof. intros C [(c & K & D) | [E F]]; [left; exists c; split; auto; eapply connected_trans; eauto | right; split; auto; eapply esc_connected; eauto]. Qed.
Lemma goes_link a b m : In (OLink a b) h -> goes b m -> goes a m. Proof. intro I. apply goes_connected, rt_step. now left. Qed.
Lemma goes_link' a b m : In (OLink b a) h -> goes b m -> goes a m. Proof. intro I. apply goes_connected, rt_step. now right. Qed.
Lemma goes_both a k m : goes a k -> goes a m -> together_at k m.
Proof.
  intros [(b & K & C) | [E F]] [(c & K' & C') | [E' F']].
  - left. exists b, c. split; [|split]; auto. eapply connected_trans; [apply connected_sym|]; eauto.
  - right. split; auto. unfold esc_at. rewrite K. eapply esc_connected'; eauto.
  - right. split; auto. unfold esc_at. rewrite K'. eapply esc_connected'; eauto.
  - right. auto.
Qed.
Lemma goes_next a k m : goes a k -> together_at k m -> goes a m.
Proof.
  intros [(b & K & C) | [E F]] [(c & d & K1 & K2 & C') | [E' F']].
  - left. exists d. split; auto. replace c with b in * by congruence. eapply connected_trans; eauto.
  - right. split; auto. unfold esc_at in E'. rewrite K in E'. eapply esc_connected; eauto.
  - right. split; auto. unfold esc_at in *. rewrite K1 in F. rewrite K2. eapply esc_connected'; eauto.
  - right. auto.
Qed.
Lemma esc_next k m : esc_at k -> together_at k m -> esc_at m.
Proof. intros E [(a & b & K & K' & C) | [_ F]]; auto. unfold esc_at in *. rewrite K in E. rewrite K'. eapply esc_connected'; eauto. Qed.
Lemma outer_esc m : outer global m -> esc_at m.
Proof. intros [-> | (x & -> & G)]; unfold esc_at; cbn; [auto | now rewrite G]. Qed.

(** The invariant: what refers to what goes together, but for what parameters refer to; nothing refers to parameters. *)
Definition is_param (k : place) : Prop := exists x, k = PVar x /\ param x = true /\ global x = false.
Definition inv (s : memory) : Prop := forall k m, s k m -> ~ is_param m /\ (is_param k \/ together_at k m).
Definition fine (a : key) (m : place) : Prop := goes a m /\ ~ is_param m.
Lemma fine_next s a k m : inv s -> fine a k -> s k m -> fine a m.
Proof. intros I [G N] E. apply I in E as [N' [P | T]]; [contradiction|]. split; auto. eapply goes_next; eauto. Qed.
Lemma fine_link a b m : In (OLink a b) h -> fine b m -> fine a m. Proof. intros I [G N]. split; auto. eapply goes_link; eauto. Qed.
Lemma fine_new id n : fine (KNode id) (PNew id n).
Proof. split; [left; exists (KNode id); split; [reflexivity | apply connected_refl] | intros (x & E & _); discriminate]. Qed.
Lemma fine_var id x : In (OLink (KVar x) (KNode id)) h -> global x = false -> param x = false -> fine (KNode id) (PVar x).
Proof.
  intros I G P. split.
  - left. exists (KVar x). cbn. rewrite G. split; auto. apply rt_step. now right.
  - intros (y & E & P' & _). injection E as <-. congruence.
Qed.
Lemma with_link (e a : expr) (m : place) : In (with_ e a) h -> fine (node a) m -> fine (node e) m. Proof. apply fine_link. Qed.

Section State.
Variable s : memory.
Hypothesis I : inv s.
Lemma value_fine e : tame e -> incl (walk e) h -> (forall m, value s e m -> fine (node e) m) /\ (forall m, storage s e m -> fine (node e) m)
with values_fine id l : tames l -> listed l (fun e => incl (walk e) h /\ In (OLink (KNode id) (node e)) h) -> forall m, values s l m -> fine (KNode id) m.
Proof.
  - intros T W. destruct e; cbn [tame walk value storage] in *.
    + split; intros m [].
    + parts. destruct T as [G P]. match goal with H : In _ h |- _ => pose proof (fine_var id x H G P) as F end. split.
      * intros m V. eapply fine_next; eauto.
      * intros m ->. exact F.
    + parts. destruct T as [T1 T2]. destruct (value_fine e1 T1) as [V1 S1]; auto. destruct (value_fine e2 T2) as [V2 S2]; auto. split; [|intros m []].
      intros m [V | V]; [apply with_link with e1 | apply with_link with e2]; auto.
    + parts. destruct (value_fine e1 T) as [V1 S1]; auto. split.
      * intros m [V | (k & V & E)]; apply with_link with e1; auto. eapply fine_next; eauto.
      * intros m [V | V]; apply with_link with e1; auto.
    + parts. destruct (value_fine e T) as [V1 S1]; auto. split; [|intros m []]. intros m V. apply with_link with e; auto.
    + parts. destruct T as [M T]. destruct (value_fine e2 T) as [V1 S1]; auto. split; [|intros m []].
      intros m [V | [E _]]; [apply with_link with e2; auto | congruence].
    + parts. destruct (value_fine e T) as [V1 S1]; auto. split; intros m V; apply with_link with e; auto.
    + parts. destruct T as [T1 T2]. destruct (value_fine e1 T1) as [V1 S1]; auto. destruct (value_fine e2 T2) as [V2 S2]; auto. split.
      * intros m [V | [(k & V & E) | [V | V]]]; [apply with_link with e1 | apply with_link with e1 | apply with_link with e1 | apply with_link with e2]; auto. eapply fine_next; eauto.
      * intros m [V | [V | V]]; [apply with_link with e1 | apply with_link with e1 | apply with_link with e2]; auto.
    + parts. destruct (value_fine e T) as [V1 S1]; auto. split; [|intros m []]. intros m [V | V]; apply with_link with e; auto.
    + parts. destruct (value_fine e T) as [V1 S1]; auto. split.
      * intros m (k & V & E). apply with_link with e; auto. eapply fine_next; eauto.
      * intros m V. apply with_link with e; auto.
    + parts. destruct (value_fine e T) as [V1 S1]; auto. split; [|intros m []]. intros m V. apply with_link with e; auto.
    + parts. destruct (value_fine e T) as [V1 S1]; auto. split; [|intros m []]. intros m [V | V]; apply with_link with e; auto.
    + parts. destruct (value_fine e T) as [V1 S1]; auto. split; [|intros m []]. intros m V. apply with_link with e; auto.
    + split.
      * intros m [(n & ->) | V]; [apply fine_new|]. eapply values_fine; eauto. exact (walk_elements_listed h (EComposite id l) l W).
      * intros m (n & ->). apply fine_new.
    + destruct T.
    + split; [|intros m []]. intros m [E _]. congruence.
    + split; [|intros m []]. intros m [E _]. congruence.
  - intros T L. destruct l as [|e l]; cbn [tames listed values] in *; [intros m []|]. destruct T as [T1 T2], L as [[W K] L].
    destruct (value_fine e T1 W) as [V1 _]. intros m [V | V]; [eapply fine_link; eauto | eapply values_fine; eauto].
Qed.
Lemma silent_value e m : silent e -> ~ value s e m /\ ~ storage s e m.
Proof.
  revert m. induction e; cbn [silent value storage]; intros m T; try contradiction; try tauto.
  - destruct T as [A B]. specialize (IHe1 m A). specialize (IHe2 m B). tauto.
  - destruct (IHe m T). tauto.
  - destruct T as [A B]. pose proof (IHe1 m A). specialize (IHe2 m B). split; [|tauto].
    intros [V | [(k & V & E) | [V | V]]]; try tauto. destruct (IHe1 k A) as [X _]. exact (X V).
  - destruct (IHe m T). tauto.
Qed.
(** What a call is given. *)
Lemma given_esc f l m : silent f -> tames l -> listed l (fun e => incl (walk e) h /\ In (ORoute (node e) all_flags) h) -> given global s f l m -> esc_at m /\ ~ is_param m.
Proof.
  intros Sf T L (k & V & R).
  assert (K : esc_at k /\ ~ is_param k).
  { destruct V as [O | [V | V]].
    - split; [now apply outer_esc|]. intros (x & -> & P & G). destruct O as [O | (y & O & Gy)]; [discriminate | injection O as ->; congruence].
    - exfalso. destruct (silent_value f k Sf) as [X _]. exact (X V).
    - clear R. induction l as [|e l IH]; cbn [values tames listed] in *; [destruct V|]. destruct T as [T1 T2], L as [[W Ro] L]. destruct V as [V | V]; [|auto].
      destruct (value_fine e T1 W) as [F _]. destruct (F k V) as [G N]. split; auto. eapply goes_esc; eauto.
      exists Function. exists (node e), all_flags. split; [apply connected_refl | split; [exact Ro | reflexivity]]. }
  clear V. induction R as [|a b c R IH E]; [exact K|]. destruct (IH K) as [Eb Nb]. apply I in E as [N' [P | TT]]; [contradiction|]. split; auto. eapply esc_next; eauto.
Qed.
Lemma adds_fine a : tame_atom a -> covered h a -> forall k m, adds global s a k m -> ~ is_param m /\ together_at k m.
Proof.
  destruct a as [x v | x v | l e | ch v | f l | id l | byref refs e]; cbn [tame_atom covered adds].
  - intros (Tv & SK & Tx) (Wx & Wv & Lk & Ro) k m (Sx & [V | (i & E & _)]); [|congruence].
    destruct (value_fine v Tv Wv) as [Fv _]. destruct (Fv m V) as [Gm Nm]. split; auto.
    destruct Tx as [Tx | (id & y & -> & Gy)].
    + destruct (value_fine x Tx Wx) as [_ Fx]. destruct (Fx k Sx) as [Gk Nk]. apply goes_both with (node x); auto.
      apply goes_link with (node v); auto.
    + cbn [storage] in Sx. subst k. right. split; [unfold esc_at; cbn; now rewrite Gy|].
      eapply goes_esc; eauto. exists Containment. eexists (node v), _. split; [apply connected_refl | split; [exact Ro | reflexivity]].
  - intros Sv _ k m [_ V]. exfalso. induction v as [|e v IH]; cbn [silents values] in *; [exact V|]. destruct Sv as [Se Sv], V as [V | V]; [destruct (silent_value e m Se) as [X _]; exact (X V) | auto].
  - intros -> _ k m [(x & [] & _) _].
  - intros (Tc & Tv) (Wc & Wv & Lk) k m (Vc & Vv).
    destruct (value_fine ch Tc Wc) as [Fc _], (value_fine v Tv Wv) as [Fv _]. destruct (Fc k Vc) as [Gk Nk], (Fv m Vv) as [Gm Nm].
    split; auto. apply goes_both with (node ch); auto. apply goes_link with (node v); auto.
  - intros (Sf & T) L k m (Gk & Gm). pose proof (given_esc f l k Sf T L Gk) as [Ek Nk]. pose proof (given_esc f l m Sf T L Gm) as [Em Nm]. split; auto. now right.
  - intros T L k m [(n & ->) V]. destruct (values_fine id l T L m V) as [G N]. split; auto. apply goes_both with (KNode id); auto. apply fine_new.
  - intros _ _ k m [].
Qed.
End State.
End Graph.

Lemma reachable_inv p s : tame_program p -> reachable global param p s -> inv (walk_stmts p) s.
Proof.
  intros T R. assert (C : Forall (covered (walk_stmts p)) (atoms_stmts p)) by (apply atoms_stmts_covered; [apply incl_refl | exact T]).
  induction R as [s S0 | s s' a R IH A Hs].
  - intros k m E. apply S0 in E as (-> & x & -> & [G | P]).
    + split; [intros (y & E & _); discriminate|]. right. right. split; [unfold esc_at; cbn; now rewrite G | exact I].
    + split; [intros (y & E & _); discriminate|]. destruct (global x) eqn:G.
      * right. right. split; [unfold esc_at; cbn; now rewrite G | exact I].
      * left. exists x. auto.
  - intros k m E. apply Hs in E as [E | E]; [now apply IH|].
    assert (TA : tame_atom a) by (eapply Forall_forall in T; eauto). assert (CA : covered (walk_stmts p) a) by (eapply Forall_forall in C; eauto).
    destruct (adds_fine (walk_stmts p) s IH a TA CA k m E). auto.
Qed.
Lemma leaked_esc p s x : tame_program p -> reachable global param p s -> leaked global p s x -> global x = false -> esc (walk_stmts p) (KVar x).
Proof.
  intros T R L G. pose proof (reachable_inv p s T R) as J.
  assert (C : Forall (covered (walk_stmts p)) (atoms_stmts p)) by (apply atoms_stmts_covered; [apply incl_refl | exact T]).
  assert (go : forall k m, esc_at (walk_stmts p) k -> ~ is_param k -> reach s k m -> esc_at (walk_stmts p) m /\ ~ is_param m).
  { intros k m E N Rk. induction Rk as [|a b c Rk IH Ed]; [auto|]. destruct (IH E N) as [Eb Nb]. apply J in Ed as [N' [P | TT]]; [contradiction|]. split; auto. eapply esc_next; eauto. }
  assert (fin : esc_at (walk_stmts p) (PVar x) -> esc (walk_stmts p) (KVar x)) by (unfold esc_at; cbn; now rewrite G).
  apply fin. destruct L as [(k & O & Rk) | [(f & l & A & Gv) | (byref & e & k & A & V & Rk)]].
  - apply go with k; auto; [now apply outer_esc|]. intros (y & -> & P & Gy). destruct O as [O | (z & O & Gz)]; [discriminate | injection O as ->; congruence].
  - eapply Forall_forall in T; eauto. eapply Forall_forall in C; eauto. destruct T as [Sf Tl]. now destruct (given_esc _ s J f l (PVar x) Sf Tl C Gv).
  - eapply Forall_forall in T; eauto. eapply Forall_forall in C; eauto. destruct (T eq_refl) as [-> Te], C as [W Ro].
    destruct (value_fine _ s J e Te W) as [F _]. destruct (F k V) as [Gk Nk]. apply go with k; auto. eapply goes_esc; eauto.
    exists Function, (node e), function_flag. split; [apply connected_refl | split; [now apply Ro | reflexivity]].
Qed.
End Sound.

(** In a tame program, in whatever order and however often its atoms take place, a local variable that the zig target puts on
    the stack is never referred to from outside, never handed to a function and never returned. *)
Theorem C128_stack_is_safe_partial : forall global param p s x g', tame_program global param p -> global x = false ->
  stack_allocated (analysis p) x = Some (true, g') -> reachable global param p s -> ~ leaked global p s x.
Proof.
  intros global param p s x g' T G A R L. destruct (C127_stack_allocated p x) as (b & g & E & H). rewrite A in E. injection E as <- <-.
  destruct (leaked_esc global param p s x T R L G) as (q & Q). destruct H as [H _]. now apply (H eq_refl q).
Qed.
Print Assumptions C128_stack_is_safe_partial.
