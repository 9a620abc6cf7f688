(** * Deferred calls of compiled programs (C155) *)
From Coq Require Import List ZArith Bool Lia.
From Verif Require Import ZigDeferModel ZigDeferSpec.
Import ListNotations.
Open Scope Z_scope.

(** The property: a function that compiles does what Go says, whatever it calls does. *)
Definition C155_full : Prop := forall functions fuel body l g, compiles body = true -> zig functions fuel body l g = go functions fuel body l g.

Arguments local {P} _. Arguments global {P} _. Arguments out {P} _. Arguments pending {P} _.
Scheme stmt_both := Induction for stmt Sort Prop with stmts_both := Induction for stmts Sort Prop.
Combined Scheme stmt_stmts from stmt_both, stmts_both.

Lemma run_cons : forall P keep functions fuel c l s, run_all P keep functions fuel (SCons c l) s =
  let '(s', e) := run P keep functions fuel c s in match e with Ends => run_all P keep functions fuel l s' | _ => (s', e) end.
Proof. reflexivity. Qed.
Lemma run_if : forall P keep functions fuel e yes no s, run P keep functions fuel (SIf e yes no) s =
  if value e (local s) (global s) =? 0 then run_all P keep functions fuel no s else run_all P keep functions fuel yes s.
Proof. reflexivity. Qed.
Lemma run_for : forall P keep functions fuel e post body s, run P keep functions fuel (SFor e post body) s =
  iterate P fuel (fun s => negb (value e (local s) (global s) =? 0)) (run_all P keep functions fuel body) (run_all P keep functions fuel post) s.
Proof. reflexivity. Qed.

(** Statements without defer do the same whatever is kept of deferred calls. *)
Definition agree {P Q} (s : state P) (t : state Q) : Prop := local s = local t /\ global s = global t /\ out s = out t.
Section Both.
Variables (P Q : Type) (kp : list expr -> vars -> vars -> P) (kq : list expr -> vars -> vars -> Q).
Variable functions : nat -> call.
Variable fuel : nat.
Definition same_run (r : state P * ending) (s : state P) (r' : state Q * ending) (t : state Q) : Prop :=
  agree (fst r) (fst r') /\ snd r = snd r' /\ pending (fst r) = pending s /\ pending (fst r') = pending t.
Lemma plain_both : (forall c s t, no_defer c = true -> agree s t ->
    same_run (run P kp functions fuel c s) s (run Q kq functions fuel c t) t /\
    (forall x, ~ assigned_in x c -> local (fst (run P kp functions fuel c s)) x = local s x)) /\
  (forall l s t, no_defers l = true -> agree s t ->
    same_run (run_all P kp functions fuel l s) s (run_all Q kq functions fuel l t) t /\
    (forall x, ~ assigned x l -> local (fst (run_all P kp functions fuel l s)) x = local s x)).
Proof.
  apply stmt_stmts; cbn [no_defer no_defers assigned_in assigned]; try discriminate.
  - intros x e s t _ (L & G & O). unfold same_run, agree. cbn. rewrite L, G, O.
    split; [split; [split; [reflexivity|split; reflexivity]|]; split; [reflexivity|split; reflexivity]|]. intros y N. unfold bind. destruct (Nat.eqb y x) eqn:E; [|reflexivity].
    apply Nat.eqb_eq in E. congruence.
  - intros x e s t _ (L & G & O). unfold same_run, agree. cbn. rewrite L, G, O.
    split; [|intros; reflexivity]. split; [split; [reflexivity|split; reflexivity]|]. split; [reflexivity|]. split; reflexivity.
  - intros f args s t _ (L & G & O). cbn [run]. unfold invoke. rewrite L, G. destruct (functions f _ _) as [[g o] p].
    unfold same_run, agree. cbn. rewrite ?L, ?O. split; [|intros; reflexivity]. split; [split; [reflexivity|split; reflexivity]|]. split; [reflexivity|]. split; reflexivity.
  - intros e yes IY no IN s t D A. apply andb_true_iff in D. destruct D as [DY DN]. rewrite !run_if. pose proof A as (L & G & O). rewrite L, G.
    destruct (value e (local t) (global t) =? 0).
    + destruct (IN s t DN A) as [S0 F]. split; [exact S0|]. intros x N. rewrite F by tauto. now rewrite L.
    + destruct (IY s t DY A) as [S0 F]. split; [exact S0|]. intros x N. rewrite F by tauto. now rewrite L.
  - intros e post IP body IB s t D A. apply andb_true_iff in D. destruct D as [DP DB]. rewrite !run_for.
    assert (X : forall n s t, agree s t -> forall f1 f2, f1 = (fun s : state P => negb (value e (local s) (global s) =? 0)) ->
      f2 = (fun s : state Q => negb (value e (local s) (global s) =? 0)) ->
      same_run (iterate P n f1 (run_all P kp functions fuel body) (run_all P kp functions fuel post) s) s
        (iterate Q n f2 (run_all Q kq functions fuel body) (run_all Q kq functions fuel post) t) t /\
      forall x, ~ (assigned x post \/ assigned x body) -> local (fst (iterate P n f1 (run_all P kp functions fuel body) (run_all P kp functions fuel post) s)) x = local s x).
    { clear s t A. induction n as [|n IH]; intros s t A f1 f2 E1 E2; cbn [iterate].
      - split; [|reflexivity]. split; [exact A|]. split; [reflexivity|]. split; reflexivity.
      - pose proof A as (L & G & O).
        assert (C : f1 s = f2 t) by (subst f1 f2; cbv beta; now rewrite L, G). rewrite C. destruct (f2 t).
        2:{ split; [|reflexivity]. split; [exact A|]. split; [reflexivity|]. split; reflexivity. }
        destruct (IB s t DB A) as [(A1 & V1 & P1 & P2) F1].
        destruct (run_all P kp functions fuel body s) as [s1 e1]. destruct (run_all Q kq functions fuel body t) as [t1 e1']. cbn [fst snd] in *. subst e1'.
        destruct (IP s1 t1 DP A1) as [(A2 & V2 & P3 & P4) F2].
        destruct (run_all P kp functions fuel post s1) as [s2 e2]. destruct (run_all Q kq functions fuel post t1) as [t2 e2']. cbn [fst snd] in *. subst e2'.
        destruct (IH s2 t2 A2 f1 f2 E1 E2) as [(A3 & V3 & P5 & P6) F3].
        destruct e1; try (split; [split; [exact A1|split; [reflexivity|split; assumption]]|intros x N; cbn [fst]; rewrite F1 by tauto; reflexivity]).
        all: destruct e2; try (split; [split; [exact A2|split; [reflexivity|split; cbn [fst]; congruence]]|intros x N; cbn [fst]; rewrite F2, F1 by tauto; reflexivity]).
        all: split; [split; [exact A3|split; [exact V3|split; congruence]]|intros x N; rewrite F3, F2, F1 by tauto; reflexivity]. }
    apply X; [exact A|reflexivity|reflexivity].
  - intros s t _ (L & G & O). cbn [run]. unfold same_run, agree. cbn. rewrite L, G, O.
    split; [|intros; reflexivity]. split; [split; [reflexivity|split; reflexivity]|]. split; [reflexivity|]. split; reflexivity.
  - intros s t _ (L & G & O). cbn [run]. unfold same_run, agree. cbn. rewrite L, G, O.
    split; [|intros; reflexivity]. split; [split; [reflexivity|split; reflexivity]|]. split; [reflexivity|]. split; reflexivity.
  - intros e s t _ (L & G & O). cbn [run]. unfold same_run, agree. cbn. rewrite L, G, O.
    split; [|intros; reflexivity]. split; [split; [reflexivity|split; reflexivity]|]. split; [reflexivity|]. split; reflexivity.
  - intros s t _ (L & G & O). cbn [run]. unfold same_run, agree. cbn. rewrite L, G, O.
    split; [|intros; reflexivity]. split; [split; [reflexivity|split; reflexivity]|]. split; [reflexivity|]. split; reflexivity.
  - intros s t _ (L & G & O). cbn [run_all]. unfold same_run, agree. cbn. rewrite L, G, O.
    split; [|intros; reflexivity]. split; [split; [reflexivity|split; reflexivity]|]. split; [reflexivity|]. split; reflexivity.
  - intros c IC l IL s t D A. apply andb_true_iff in D. destruct D as [DC DL]. rewrite !run_cons.
    destruct (IC s t DC A) as [(A1 & E1 & P1 & P2) F1].
    destruct (run P kp functions fuel c s) as [s1 e1]. destruct (run Q kq functions fuel c t) as [t1 e1']. cbn [fst snd] in *. subst e1'.
    destruct e1; try (split; [|intros x N; apply F1; tauto]; split; [exact A1|]; split; [reflexivity|]; split; assumption).
    destruct (IL s1 t1 DL A1) as [(A2 & E2 & P3 & P4) F2]. split.
    * split; [exact A2|]. split; [exact E2|]. split; congruence.
    * intros x N. rewrite F2 by tauto. apply F1. tauto.
Qed.
End Both.

Lemma Forall2_imp : forall A B (R S : A -> B -> Prop) l m, (forall a b, R a b -> S a b) -> Forall2 R l m -> Forall2 S l m.
Proof. intros A B R S l m I H. induction H; constructor; auto. Qed.

(** ** When what deferred calls are given is settled *)
Lemma value_same : forall e l l' g g', ~ reads_global e -> (forall x, reads x e -> l x = l' x) -> value e l g = value e l' g'.
Proof.
  induction e as [z|x|x|a IA b IB]; intros l l' g g' N E; cbn [value reads reads_global] in *.
  - reflexivity.
  - now apply E.
  - now elim N.
  - rewrite (IA l l' g g'), (IB l l' g g'); auto; tauto.
Qed.
Definition kept (l : vars) (a : nat * list Z) (b : nat * list expr) : Prop :=
  fst a = fst b /\ forall g, snd a = map (fun e => value e l g) (snd b).
Definition kept_for (rest : stmts) (l : vars) (a : nat * list Z) (b : nat * list expr) : Prop :=
  kept l a b /\ settled_args (snd b) rest.
Lemma kept_later : forall c r l l' a b, (forall x, ~ assigned_in x c -> l' x = l x) -> kept_for (SCons c r) l a b -> kept_for r l' a b.
Proof.
  intros c r l l' a b F [[N K] S0]. split.
  - split; [assumption|]. intro g. rewrite (K g). apply map_ext_in. intros e I. destruct (S0 e I) as [NG NA].
    apply value_same; [assumption|]. intros x R. symmetry. apply F. intro X. apply (NA x R). now left.
  - intros e I. destruct (S0 e I) as [NG NA]. split; [assumption|]. intros x R X. apply (NA x R). now right.
Qed.
Lemma run_both : forall functions fuel body s t, compiles body = true -> settled body -> agree s t ->
  Forall2 (kept_for body (local t)) (pending s) (pending t) ->
  let r := run_all (list Z) go_keep functions fuel body s in let r' := run_all (list expr) zig_keep functions fuel body t in
  agree (fst r) (fst r') /\ snd r = snd r' /\ Forall2 (kept (local (fst r'))) (pending (fst r)) (pending (fst r')).
Proof.
  intros functions fuel body. apply (stmts_both (fun _ => True) (fun body => forall s t, compiles body = true -> settled body -> agree s t ->
    Forall2 (kept_for body (local t)) (pending s) (pending t) ->
    let r := run_all (list Z) go_keep functions fuel body s in let r' := run_all (list expr) zig_keep functions fuel body t in
    agree (fst r) (fst r') /\ snd r = snd r' /\ Forall2 (kept (local (fst r'))) (pending (fst r)) (pending (fst r')))); auto.
  - intros s t _ _ A K. cbn [run_all fst snd]. split; [assumption|]. split; [reflexivity|].
    eapply Forall2_imp; [|exact K]. now intros a b [H _].
  - intros c _ r IH s t D S0 A K. cbv zeta. rewrite !run_cons.
    destruct (no_defer c) eqn:N.
    + assert (DR : compiles r = true /\ settled r).
      { destruct c; cbn [compiles settled no_defer] in *; try discriminate; try (apply andb_true_iff in D; tauto); tauto. }
      destruct DR as [DR SR].
      destruct (plain_both _ _ go_keep zig_keep functions fuel) as [PB _].
      destruct (PB c s t N A) as [(A1 & E1 & P1 & P2) _].
      destruct (plain_both _ _ zig_keep zig_keep functions fuel) as [PZ _].
      destruct (PZ c t t N) as [_ FZ]; [unfold agree; auto|].
      destruct (run (list Z) go_keep functions fuel c s) as [s1 e1]. destruct (run (list expr) zig_keep functions fuel c t) as [t1 e1'].
      cbn [fst snd] in *. subst e1'.
      assert (K1 : Forall2 (kept_for r (local t1)) (pending s1) (pending t1)).
      { rewrite P1, P2. eapply Forall2_imp; [|exact K]. intros a b. now apply kept_later. }
      destruct e1; [exact (IH s1 t1 DR SR A1 K1)|..].
      all: cbn [fst snd]; split; [assumption|]; split; [reflexivity|]; eapply Forall2_imp; [|exact K1]; now intros a b [H _].
    + assert (C : exists f args, c = SDefer f args).
      { destruct c; cbn [no_defer] in N; try discriminate; [eauto|..]; cbn [compiles no_defer] in D; rewrite N in D; discriminate. }
      destruct C as (f & args & ->). cbn [run]. cbn [compiles settled] in D, S0. destruct S0 as [SA SR]. destruct A as (L & G & O).
      apply IH; [assumption|assumption| |].
      * unfold agree. cbn. auto.
      * cbn [pending local]. constructor.
        -- split; [|exact SA]. split; [reflexivity|]. intro g. cbn [snd]. unfold go_keep, zig_keep. apply map_ext_in. intros e I.
           destruct (SA e I) as [NG _]. rewrite L. now apply value_same.
        -- eapply Forall2_imp; [|exact K]. intros a b. apply kept_later. reflexivity.
Qed.

Lemma go_deferred_grows : forall functions p g o b, exists more, fst (fst (go_deferred functions p g o b)) = o ++ more.
Proof.
  induction p as [|[f vs] p IH]; intros g o b; cbn [go_deferred]; [exists []; now rewrite app_nil_r|].
  destruct (functions f vs g) as [[g' o'] q]. destruct (IH g' (o ++ o') (b || q)) as [m E]. rewrite E. exists (o' ++ m). now rewrite app_assoc.
Qed.
Lemma go_deferred_panics : forall functions p g o, snd (go_deferred functions p g o true) = true.
Proof.
  induction p as [|[f vs] p IH]; intros g o; cbn [go_deferred]; [reflexivity|]. destruct (functions f vs g) as [[g' o'] q]. apply IH.
Qed.
Lemma deferred_both : forall functions l pg pz g o, Forall2 (kept l) pg pz ->
  let z := zig_deferred functions pz l g o in let y := go_deferred functions pg g o false in
  snd z = snd y /\ (snd y = false -> z = y) /\ exists more, fst (fst y) = fst (fst z) ++ more.
Proof.
  intros functions l pg pz g o K. revert g o. induction K as [|[f vs] [f' args] pg pz [N V] K IH]; intros g o; cbv zeta.
  - cbn. split; [reflexivity|]. split; [reflexivity|]. exists []. now rewrite app_nil_r.
  - cbn [fst snd] in N, V. subst f'. cbn [go_deferred zig_deferred]. rewrite <- (V g). destruct (functions f vs g) as [[g' o'] q]. destruct q.
    + cbn [orb fst snd]. rewrite go_deferred_panics. split; [reflexivity|]. split; [discriminate|]. apply go_deferred_grows.
    + cbn [orb]. apply IH.
Qed.
(** If what deferred calls are given does not change after the defer statement, the compiled
    function panics when it does in Go; when it does not, everything is as in Go; when it
    does, nothing is printed that is not printed first in Go. *)
Theorem C155_settled_partial : forall functions fuel body l g, compiles body = true -> settled body ->
  panicked (zig functions fuel body l g) = panicked (go functions fuel body l g) /\
  (panicked (go functions fuel body l g) = false -> zig functions fuel body l g = go functions fuel body l g) /\
  exists more, lines (go functions fuel body l g) = lines (zig functions fuel body l g) ++ more.
Proof.
  intros functions fuel body l g D S0. unfold zig, go.
  destruct (run_both functions fuel body {| local := l; global := g; out := []; pending := [] |} {| local := l; global := g; out := []; pending := [] |} D S0) as (A & E & K).
  { unfold agree. auto. } { constructor. }
  destruct (run_all (list Z) go_keep functions fuel body _) as [s e]. destruct (run_all (list expr) zig_keep functions fuel body _) as [t e'].
  cbn [fst snd] in A, E, K. subst e'. destruct A as (L & G & O). rewrite G, O.
  pose proof (deferred_both functions (local t) (pending s) (pending t) (global t) (out t) K) as H. cbv zeta in H. destruct H as (H1 & H2 & H3).
  pose proof (go_deferred_panics functions (pending s) (global t) (out t)) as P.
  destruct (go_deferred_grows functions (pending s) (global t) (out t) true) as [m M].
  destruct e as [|v| | | |].
  3:{ destruct (go_deferred functions (pending s) (global t) (out t) true) as [[oy gy] y]. cbn [fst snd panicked lines] in *. subst y.
      split; [reflexivity|]. split; [discriminate|]. exists m. assumption. }
  5:{ cbn [panicked lines]. split; [reflexivity|]. split; [reflexivity|]. exists []. now rewrite app_nil_r. }
  all: destruct (zig_deferred _ _ _ _ _) as [[oz gz] z]; destruct (go_deferred functions (pending s) (global t) (out t) false) as [[oy gy] y]; cbn [fst snd panicked lines] in *;
    (split; [assumption|]); (split; [|assumption]); intro Y; specialize (H2 Y); inversion H2; subst; reflexivity.
Qed.

(** The rounds are no bound: what has come to an end is the same with more of them. *)
Section More.
Variable P : Type.
Variable keep : list expr -> vars -> vars -> P.
Variable functions : nat -> call.
Variables n m : nat.
Hypothesis le : (n <= m)%nat.
Definition stays (r r' : state P * ending) : Prop := snd r <> Runs -> r' = r.
Lemma iterate_more : forall (test : state P -> bool) b b' p p', (forall s, stays (b s) (b' s)) -> (forall s, stays (p s) (p' s)) ->
  forall i j s, (i <= j)%nat -> stays (iterate P i test b p s) (iterate P j test b' p' s).
Proof.
  intros test b b' p p' B R i. induction i as [|i IH]; intros j s L; unfold stays; cbn [iterate]; [intros X; now elim X|].
  destruct j as [|j]; [lia|]. cbn [iterate]. destruct (test s); [|reflexivity].
  specialize (B s). unfold stays in B. destruct (b s) as [s1 e1]. cbn [snd] in B.
  destruct e1; try (rewrite B by discriminate; reflexivity); try (intros X; now elim X).
  all: rewrite B by discriminate; specialize (R s1); unfold stays in R; destruct (p s1) as [s2 e2]; cbn [snd] in R;
    destruct e2; try (rewrite R by discriminate; reflexivity); try (intros X; now elim X).
  all: rewrite R by discriminate; apply IH; lia.
Qed.
Lemma run_more : (forall c s, stays (run P keep functions n c s) (run P keep functions m c s)) /\
  (forall l s, stays (run_all P keep functions n l s) (run_all P keep functions m l s)).
Proof.
  apply stmt_stmts; try (intros; intros _; reflexivity).
  - intros e yes IY no IN s. unfold stays. rewrite !run_if. destruct (value _ _ _ =? 0); [apply IN|apply IY].
  - intros e post IP body IB s. rewrite !run_for. apply iterate_more; assumption.
  - intros c IC l IL s. unfold stays. rewrite !run_cons. specialize (IC s). unfold stays in IC.
    destruct (run P keep functions n c s) as [s1 e1]. cbn [snd] in IC.
    destruct e1; try (rewrite IC by discriminate; reflexivity); try (intros X; now elim X).
    rewrite IC by discriminate. apply IL.
Qed.
End More.
Theorem C155_rounds : forall functions n m body l g, (n <= m)%nat ->
  (running (go functions n body l g) = false -> go functions m body l g = go functions n body l g) /\
  (running (zig functions n body l g) = false -> zig functions m body l g = zig functions n body l g).
Proof.
  intros functions n m body l g L. unfold go, zig. split.
  - destruct (run_more _ go_keep functions n m L) as [_ M]. specialize (M body {| local := l; global := g; out := []; pending := [] |}). unfold stays in M.
    destruct (run_all _ _ _ n _ _) as [s e]. cbn [snd] in M. destruct e; try (rewrite M by discriminate; reflexivity). intros X; discriminate.
  - destruct (run_more _ zig_keep functions n m L) as [_ M]. specialize (M body {| local := l; global := g; out := []; pending := [] |}). unfold stays in M.
    destruct (run_all _ _ _ n _ _) as [s e]. cbn [snd] in M. destruct e; try (rewrite M by discriminate; reflexivity). intros X; discriminate.
Qed.

(** ** Where it differs *)
(** The arguments are those at the end: defer f(x); x = b calls f(b). *)
Theorem C155_late_refuted : forall functions fuel f x b l g,
  lines (go functions fuel (SCons (SDefer f [ELocal x]) (SCons (SSet x (EInt b)) SNil)) l g) = snd (fst (functions f [l x] g)) /\
  lines (zig functions fuel (SCons (SDefer f [ELocal x]) (SCons (SSet x (EInt b)) SNil)) l g) = snd (fst (functions f [b] g)).
Proof.
  intros functions fuel f x b l g. unfold go, zig. cbn. unfold bind. rewrite Nat.eqb_refl.
  destruct (functions f [l x] g) as [[g1 o1] q1]. destruct (functions f [b] g) as [[g2 o2] q2]. cbn. split; [reflexivity|]. destruct q2; reflexivity.
Qed.
(** So is what is read of the package, which another deferred call may have changed. *)
Theorem C155_late_global_refuted : forall functions fuel f h x l g, 
  lines (go functions fuel (SCons (SDefer f [EGlobal x]) (SCons (SDefer h []) SNil)) l g) =
    snd (fst (functions h [] g)) ++ snd (fst (functions f [g x] (fst (fst (functions h [] g))))) /\
  (snd (functions h [] g) = false ->
   lines (zig functions fuel (SCons (SDefer f [EGlobal x]) (SCons (SDefer h []) SNil)) l g) =
    snd (fst (functions h [] g)) ++ snd (fst (functions f [fst (fst (functions h [] g)) x] (fst (fst (functions h [] g)))))).
Proof.
  intros functions fuel f h x l g. unfold go, zig. cbn. destruct (functions h [] g) as [[g1 o1] q1]. cbn.
  destruct (functions f [g x] g1) as [[g2 o2] q2]. cbn. split; [reflexivity|]. intros ->.
  destruct (functions f [g1 x] g1) as [[g3 o3] q3]. destruct q3; reflexivity.
Qed.
(** A panic leaves the deferred calls out. *)
Theorem C155_panic_refuted : forall functions fuel f z l g,
  lines (go functions fuel (SCons (SDefer f [EInt z]) (SCons SPanic SNil)) l g) = snd (fst (functions f [z] g)) /\
  lines (zig functions fuel (SCons (SDefer f [EInt z]) (SCons SPanic SNil)) l g) = [].
Proof. intros functions fuel f z l g. unfold go, zig. cbn. destruct (functions f [z] g) as [[g1 o1] q1]. split; reflexivity. Qed.
Definition echo : nat -> call := fun _ vs g => (g, vs, false).
Theorem C155_full_refuted : ~ C155_full.
Proof.
  intro F. specialize (F echo O (SCons (SDefer 0 [ELocal 0]) (SCons (SSet 0 (EInt 1)) SNil)) (fun _ => 0) (fun _ => 0) eq_refl).
  apply (f_equal lines) in F. vm_compute in F. discriminate.
Qed.
(** A defer in a block does not compile. *)
Theorem C155_block_refused : forall e f args r l, compiles (SCons (SIf e (SCons (SDefer f args) r) l) SNil) = false.
Proof. reflexivity. Qed.
(** Nor does one in a loop. *)
Theorem C155_loop_refused : forall e post f args r rest, compiles (SCons (SFor e post (SCons (SDefer f args) r)) rest) = false.
Proof. intros e post f args r rest. cbn. now rewrite andb_false_r. Qed.

(** A call that panics ends the function, in both: nothing after it is done. *)
Theorem C155_call_panics : forall functions fuel f args rest l g,
  let c := functions f (map (fun e => value e l g) args) g in
  snd c = true ->
  go functions fuel (SCons (SCall f args) rest) l g = {| lines := snd (fst c); after := fst (fst c); returned := None; panicked := true; running := false |} /\
  zig functions fuel (SCons (SCall f args) rest) l g = {| lines := snd (fst c); after := fst (fst c); returned := None; panicked := true; running := false |}.
Proof.
  intros functions fuel f args rest l g c P. unfold c in *. unfold go, zig. cbn. unfold invoke. cbn.
  destruct (functions f (map (fun e => value e l g) args) g) as [[g1 o1] q1]. cbn in P. subst q1. cbn. split; reflexivity.
Qed.
(** What panics returns nothing, whichever of its calls it was, in both. *)
Theorem C155_no_value : forall functions fuel body l g,
  (panicked (go functions fuel body l g) = true -> returned (go functions fuel body l g) = None) /\
  (panicked (zig functions fuel body l g) = true -> returned (zig functions fuel body l g) = None).
Proof.
  intros functions fuel body l g. unfold go, zig. split.
  - destruct (run_all _ _ _ _ _ _) as [s e]. destruct (go_deferred _ _ _ _ _) as [[o g'] p]. destruct e; cbn; intros H; try rewrite H; reflexivity.
  - destruct (run_all _ _ _ _ _ _) as [s e]. destruct (zig_deferred _ _ _ _ _) as [[o g'] p].
    destruct e; cbn; intros H; try rewrite H; reflexivity.
Qed.
(** A function with two deferred calls, and a return between them and the end. *)
Definition example : stmts :=
  SCons (SSet 0 (EInt 4)) (SCons (SDefer 0 [ELocal 0; EInt 7]) (SCons (SSet 1 (EAdd (ELocal 0) (EInt 1)))
  (SCons (SDefer 0 [ELocal 1]) (SCons (SIf (ELocal 2) (SCons (SReturn (ELocal 1)) SNil) (SCons (SCall 0 [EInt 9]) SNil)) SNil)))).
Theorem C155_example : compiles example = true /\ settled example /\
  zig echo 0 example (fun _ => 0) (fun _ => 0) = go echo 0 example (fun _ => 0) (fun _ => 0) /\
  lines (zig echo 0 example (fun _ => 0) (fun _ => 0)) = [9; 5; 4; 7] /\
  lines (zig echo 0 example (fun _ => 1) (fun _ => 0)) = [5; 4; 7] /\ returned (zig echo 0 example (fun _ => 1) (fun _ => 0)) = Some 5.
Proof.
  assert (S0 : settled example).
  { cbn. split; [|split; [|exact I]].
    - intros e [<-|[<-|[]]]; (split; [intros []|]); cbn; [intros x <-; intuition discriminate|intros x []].
    - intros e [<-|[]]. split; [intros []|]. cbn. intros x <-. tauto. }
  split; [reflexivity|]. split; [exact S0|]. split; [|split; [reflexivity|split; reflexivity]].
  destruct (C155_settled_partial echo 0 example (fun _ => 0) (fun _ => 0) eq_refl S0) as (_ & H & _). apply H. reflexivity.
Qed.
(** A loop: [for ; x0 != 0; x0-- { if x0 == 2 { continue }; f(x0) }] between the defer
    statement and the end; and one that is left by break, and one that goes on forever. *)
Definition looping : stmts :=
  SCons (SDefer 0 [EInt 7]) (SCons (SSet 0 (EInt 3))
  (SCons (SFor (ELocal 0) (SCons (SSet 0 (EAdd (ELocal 0) (EInt (-1)))) SNil)
     (SCons (SIf (EAdd (ELocal 0) (EInt (-2))) SNil (SCons SContinue SNil)) (SCons (SCall 0 [ELocal 0]) SNil)))
  (SCons (SReturn (ELocal 0)) SNil))).
Definition leaving : stmts :=
  SCons (SDefer 0 [EInt 7]) (SCons (SFor (EInt 1) (SCons (SCall 0 [EInt 5]) SNil) (SCons (SCall 0 [EInt 4]) (SCons SBreak SNil))) SNil).
(** a loop in a loop that is left by break: the other goes on *)
Definition inside : stmts :=
  SCons (SSet 0 (EInt 3)) (SCons (SFor (ELocal 0) (SCons (SSet 0 (EAdd (ELocal 0) (EInt (-1)))) SNil)
    (SCons (SFor (EInt 1) SNil (SCons SBreak SNil)) (SCons (SCall 0 [ELocal 0]) SNil))) SNil).
Definition forever : stmts := SCons (SDefer 0 [EInt 7]) (SCons (SFor (EInt 1) SNil SNil) SNil).
Theorem C155_example_loop : compiles looping = true /\ settled looping /\
  (forall n, (4 <= n)%nat ->
    lines (zig echo n looping (fun _ => 0) (fun _ => 0)) = [3; 1; 7] /\ returned (zig echo n looping (fun _ => 0) (fun _ => 0)) = Some 0 /\
    lines (go echo n leaving (fun _ => 0) (fun _ => 0)) = [4; 7] /\ lines (go echo n inside (fun _ => 0) (fun _ => 0)) = [3; 2; 1]) /\
  running (go echo 3 looping (fun _ => 0) (fun _ => 0)) = true /\
  (forall n, running (go echo n forever (fun _ => 0) (fun _ => 0)) = true /\ lines (go echo n forever (fun _ => 0) (fun _ => 0)) = []).
Proof.
  split; [reflexivity|]. split.
  { cbn. split; [|exact I]. intros e [<-|[]]. split; [intros []|intros x []]. }
  split; [|split; [reflexivity|]].
  - intros n L.
    destruct (C155_rounds echo 4 n looping (fun _ => 0) (fun _ => 0) L) as [_ R]. rewrite R by reflexivity.
    destruct (C155_rounds echo 4 n leaving (fun _ => 0) (fun _ => 0) L) as [R' _]. rewrite R' by reflexivity.
    destruct (C155_rounds echo 4 n inside (fun _ => 0) (fun _ => 0) L) as [R'' _]. rewrite R'' by reflexivity.
    split; [reflexivity|]. split; [reflexivity|]. split; reflexivity.
  - intros n. unfold go, forever. rewrite run_cons. cbn [run]. rewrite run_cons, run_for.
    assert (X : forall s : state (list Z), iterate (list Z) n (fun s => negb (value (EInt 1) (local s) (global s) =? 0))
      (run_all (list Z) go_keep echo n SNil) (run_all (list Z) go_keep echo n SNil) s = (s, Runs)).
    { generalize n at 2 3. intros m. induction n as [|n IH]; intros s; [reflexivity|]. cbn [iterate value negb]. exact (IH s). }
    rewrite X. split; reflexivity.
Qed.
