(** Searching a database through sql.Map: what a search tells of the failure of its job. *)
From Coq Require Import List Arith Lia Bool.
Import ListNotations.
From Verif Require Import SqlSearchModel SqlSearchSpec.

Section Proofs.
Variables (R A E : Type).
Variable zero : A.
Variable full : E.

(** A database as sodium/sql.go documents it sends no nil row. *)
Definition documented (m : move E) : Prop :=
  match m with CompleteNil | FailNil _ => False | _ => True end.

Section Any.
Variable dec : R -> A + E.
Variable more : list A -> bool.
Notation stp := (step dec zero full more).

Definition inv1 (rows : list R) (s : st R A E) : Prop :=
  waiting s = false /\
  exists taken rest b, rows = taken ++ rest /\ map inl (seen s) = map dec taken /\
    buf s = map Some b /\ (over s = false -> rest = b ++ todo s /\ issue s = None).

Lemma inv1_step : forall rows s m, documented m -> inv1 rows s -> inv1 rows (stp s m).
Proof.
  intros rows s m D Inv0. pose proof Inv0 as (W & taken & rest & b & Er & Es & Eb & Ho).
  destruct m; cbn [documented] in D; try contradiction; cbn [step].
  - destruct (state s) eqn:J; try exact Inv0.
    destruct (todo s) as [|r t] eqn:T; try exact Inv0.
    destruct (length (buf s) <? room).
    + split; [exact W|]. exists taken, rest, (b ++ [r]). cbn.
      split; [exact Er|]. split; [exact Es|].
      split; [rewrite Eb, map_app; reflexivity|].
      intros O. destruct (Ho O) as [E1 E2]. split; [|exact E2].
      rewrite E1, <- app_assoc; reflexivity.
    + split; [exact W|]. exists taken, rest, b. unfold stop; cbn.
      rewrite app_nil_r, T. tauto.
  - destruct (state s) eqn:J; try exact Inv0.
    destruct (todo s) as [|r t] eqn:T; try exact Inv0.
    split; [exact W|]. exists taken, rest, b. unfold stop; cbn. rewrite app_nil_r, T. tauto.
  - destruct (state s) eqn:J; try exact Inv0.
    split; [exact W|]. exists taken, rest, b. unfold stop; cbn. rewrite app_nil_r. tauto.
  - unfold go. destruct (over s) eqn:O.
    { split; [exact W|]. exists taken, rest, b.
      split; [exact Er|]. split; [exact Es|]. split; [exact Eb|]. intros H; congruence. }
    rewrite W. destruct (Ho eq_refl) as [E1 E2].
    destruct b as [|r b']; cbn in Eb; rewrite Eb.
    + destruct (closed s).
      * split; [reflexivity|]. exists taken, rest, []. unfold ended; cbn.
        split; [exact Er|]. split; [exact Es|]. split; [reflexivity|]. intros H; discriminate.
      * split; [exact W|]. exists taken, rest, [].
        split; [exact Er|]. split; [exact Es|]. split; [exact Eb|]. intros _. split; assumption.
    + destruct (dec r) as [a|e] eqn:D2.
      * split; [reflexivity|]. exists (taken ++ [r]), (b' ++ todo s), b'. unfold yielded; cbn.
        split; [rewrite Er, E1, <- app_assoc; reflexivity|].
        split; [rewrite !map_app, Es; cbn; rewrite D2; reflexivity|].
        split; [reflexivity|]. intros _. split; [reflexivity|exact E2].
      * split; [reflexivity|]. exists taken, rest, b'. unfold ended; cbn.
        split; [exact Er|]. split; [exact Es|]. split; [reflexivity|]. intros H; discriminate.
Qed.

Lemma run_snoc : forall rows ms m, run dec zero full more rows (ms ++ [m]) =
  stp (run dec zero full more rows ms) m.
Proof. intros. unfold run. rewrite fold_left_app. reflexivity. Qed.

Lemma inv1_run : forall rows ms, Forall documented ms ->
  inv1 rows (run dec zero full more rows ms).
Proof.
  intros rows ms. induction ms as [|m ms IH] using rev_ind; intros F.
  - split; [reflexivity|]. exists [], rows, []. unfold run, begin; cbn. tauto.
  - apply Forall_app in F. destruct F as [F1 F2]. rewrite run_snoc.
    apply inv1_step; [inversion F2; assumption|]. apply IH; exact F1.
Qed.

(** In every schedule, whether the database fails, the context is cancelled, a row does
    not decode or the caller stops, what the loop saw is the beginning of what matches. *)
Theorem C156_beginning : forall rows ms, Forall documented ms ->
  beginning dec rows (seen (run dec zero full more rows ms)).
Proof.
  intros rows ms F.
  destruct (inv1_run rows ms F) as (_ & taken & rest & b & Er & Es & _).
  exists (length taken). split.
  - replace (firstn (length taken) rows) with taken; [exact Es|].
    rewrite Er, firstn_app, firstn_all, Nat.sub_diag. cbn. rewrite app_nil_r. reflexivity.
  - rewrite Er, app_length. lia.
Qed.

(** A caller that stopped is given nothing more, in every schedule and by every database. *)
Theorem C156_stopped : forall rows ms l1 l2,
  seen (run dec zero full more rows ms) = l1 ++ l2 -> l1 <> [] -> l2 <> [] -> more l1 = true.
Proof.
  intros rows ms.
  enough (H : let s := run dec zero full more rows ms in
    (forall l1 l2, seen s = l1 ++ l2 -> l1 <> [] -> l2 <> [] -> more l1 = true) /\
    (over s = false -> seen s = [] \/ more (seen s) = true)) by exact (proj1 H).
  induction ms as [|m ms IH] using rev_ind.
  - split; [intros l1 l2 Ee N1 N2; destruct l1; [congruence|discriminate]|left; reflexivity].
  - cbn zeta. rewrite run_snoc. set (s := run dec zero full more rows ms) in *. clearbody s.
    destruct IH as [P O].
    assert (Y : forall b a, over s = false ->
      (forall l1 l2, seen (yielded R A E more s b a) = l1 ++ l2 -> l1 <> [] -> l2 <> [] -> more l1 = true) /\
      (over (yielded R A E more s b a) = false -> seen (yielded R A E more s b a) = [] \/ more (seen (yielded R A E more s b a)) = true)).
    { intros b a Ov. unfold yielded; cbn. split.
      - intros l1 l2 Eq N1 N2. destruct (exists_last N2) as (l2' & x & ->).
        rewrite app_assoc in Eq. apply app_inj_tail in Eq. destruct Eq as [Eq _].
        destruct l2' as [|y l2'].
        + rewrite app_nil_r in Eq. subst l1. destruct (O Ov) as [Z|Z]; [congruence|exact Z].
        + apply (P l1 (y :: l2') Eq N1). discriminate.
      - intros H. right. destruct (more (seen s ++ [a])); [reflexivity|discriminate]. }
    destruct m; cbn [step].
    + destruct (state s); [destruct (todo s); [split; assumption|destruct (length (buf s) <? room); split; assumption]|split; assumption|split; assumption].
    + destruct (state s); [destruct (todo s); split; assumption|split; assumption|split; assumption].
    + destruct (state s); split; assumption.
    + destruct (state s); [destruct (todo s); split; assumption|split; assumption|split; assumption].
    + destruct (state s); split; assumption.
    + unfold go. destruct (over s) eqn:Ov; [split; [assumption|rewrite Ov; discriminate]|].
      destruct (waiting s).
      * destruct (state s); [split; [assumption|intros _; apply O; reflexivity]|apply Y; reflexivity|].
        split; [assumption|discriminate].
      * destruct (buf s) as [|[r|] b].
        { destruct (closed s); [split; [assumption|discriminate]|split; [assumption|intros _; apply O; reflexivity]]. }
        { destruct (dec r); [apply Y; reflexivity|split; [assumption|discriminate]]. }
        { split; [assumption|intros _; apply O; reflexivity]. }
Qed.

(** ** The loop ends once the channel is closed. *)
Definition closed_ok (s : st R A E) : Prop :=
  (closed s = true <-> state s <> Running) /\ (waiting s = true -> closed s = true) /\
  (In None (buf s) -> closed s = true).

Lemma closed_ok_step : forall s m, closed_ok s -> closed_ok (stp s m).
Proof.
  intros s m (H & W & N).
  assert (St : forall j rest, j <> Running -> closed_ok (stop R A E s j rest)).
  { intros j rest Hj. unfold closed_ok, stop; cbn. split; [split; auto|].
    split; intros; reflexivity. }
  destruct m; cbn [step].
  - destruct (state s) eqn:J; try (split; [rewrite J; exact H|split; assumption]).
    destruct (todo s) as [|r t]; try (split; [rewrite J; exact H|split; assumption]).
    destruct (length (buf s) <? room).
    + split; [exact H|]. split; [exact W|]. cbn. intros I. apply in_app_or in I.
      destruct I as [I|[I|[]]]; [auto|discriminate].
    + apply St; discriminate.
  - destruct (state s) eqn:J; try (split; [rewrite J; exact H|split; assumption]).
    destruct (todo s); try (split; [rewrite J; exact H|split; assumption]).
    apply St; discriminate.
  - destruct (state s) eqn:J; try (split; [rewrite J; exact H|split; assumption]).
    apply St; discriminate.
  - destruct (state s) eqn:J; try (split; [rewrite J; exact H|split; assumption]).
    destruct (todo s); try (split; [rewrite J; exact H|split; assumption]).
    apply St; discriminate.
  - destruct (state s) eqn:J; try (split; [rewrite J; exact H|split; assumption]).
    apply St; discriminate.
  - unfold go. destruct (over s); [split; [exact H|split; assumption]|].
    destruct (waiting s) eqn:Wt.
    + destruct (state s) eqn:J.
      * split; [rewrite J; exact H|rewrite Wt; split; assumption].
      * unfold closed_ok, yielded; cbn. rewrite J. split; [exact H|]. split; [discriminate|exact N].
      * unfold closed_ok, ended; cbn. rewrite J. split; [exact H|]. split; [discriminate|exact N].
    + destruct (buf s) as [|[r|] b] eqn:B.
      * destruct (closed s) eqn:C.
        { unfold closed_ok, ended; cbn. rewrite C. split; [exact H|]. split; auto. }
        { unfold closed_ok. rewrite C, Wt, B. split; [exact H|]. split; assumption. }
      * assert (N' : In None b -> closed s = true) by (intros; apply N; right; assumption).
        destruct (dec r).
        { unfold closed_ok, yielded; cbn. split; [exact H|]. split; [discriminate|exact N']. }
        { unfold closed_ok, ended; cbn. split; [exact H|]. split; [discriminate|exact N']. }
      * unfold closed_ok; cbn.
        split; [exact H|]. split; [intros _; apply N; left; reflexivity|].
        intros I; apply N; right; exact I.
Qed.

Lemma closed_ok_run : forall rows ms, closed_ok (run dec zero full more rows ms).
Proof.
  intros rows ms. induction ms as [|m ms IH] using rev_ind.
  - unfold closed_ok, run, begin; cbn. split; [split; congruence|]. split; [discriminate|tauto].
  - rewrite run_snoc. apply closed_ok_step, IH.
Qed.

Fixpoint goes (n : nat) (s : st R A E) : st R A E :=
  match n with O => s | S n' => goes n' (stp s Go) end.

Definition left (s : st R A E) : nat :=
  if over s then 0
  else 1 + (if waiting s then 1 else 0) + 2 * length (buf s).

Lemma go_left : forall s, closed_ok s -> closed s = true -> left s <> 0 ->
  left (go dec zero more s) < left s.
Proof.
  intros s (H & W & N) C. intros Z. unfold go. assert (O : over s = false) by (unfold left in Z; destruct (over s); [congruence|reflexivity]).
  rewrite O. clear Z. unfold left at 2. rewrite O. destruct (waiting s) eqn:Wt.
  - destruct (state s) eqn:J.
    + exfalso. apply H in C. apply C. reflexivity.
    + unfold left, yielded; cbn. destruct (negb _); lia.
    + unfold left, ended; cbn. lia.
  - destruct (buf s) as [|[r|] b] eqn:B.
    + rewrite C. unfold left, ended; cbn. lia.
    + destruct (dec r); unfold left, yielded, ended; cbn; [destruct (negb _)|]; lia.
    + unfold left; cbn. lia.
Qed.

Lemma go_closed : forall s, closed (go dec zero more s) = closed s.
Proof.
  intros s. unfold go. destruct (over s); [reflexivity|].
  destruct (waiting s); [destruct (state s); reflexivity|].
  destruct (buf s) as [|[r|] b]; [destruct (closed s) eqn:C; cbn; auto| |reflexivity].
  destruct (dec r); reflexivity.
Qed.

(** Whatever the database sent and however it ended, the loop ends: at the latest after
    twice as many steps as the channel holds, and two. *)
Theorem C156_ends : forall rows ms,
  let s := run dec zero full more rows ms in
  closed s = true -> over (goes (2 * length (buf s) + 2) s) = true.
Proof.
  intros rows ms s C. pose proof (closed_ok_run rows ms) as K. fold s in K.
  assert (L : left s <= 2 * length (buf s) + 2).
  { unfold left. destruct (over s), (waiting s); lia. }
  revert K C L. generalize (2 * length (buf s) + 2) as n. clearbody s. intros n. revert s.
  induction n as [|n IH]; intros s K C L; cbn [goes].
  - unfold left in L. destruct (over s) eqn:O; [reflexivity|lia].
  - apply IH.
    + apply closed_ok_step; exact K.
    + cbn [step]. rewrite go_closed. exact C.
    + cbn [step]. destruct (Nat.eq_dec (left s) 0) as [Z|Z].
      * unfold left in Z. destruct (over s) eqn:O; [|lia].
        unfold go. rewrite O. unfold left. rewrite O. lia.
      * pose proof (go_left s K C Z). lia.
Qed.
End Any.

(** ** Every row decodes *)
Section Total.
Variable f : R -> A.
Notation dec := (fun r => inl (f r) : A + E).

Section Breaking.
Variable more : list A -> bool.
Lemma quiet_step : forall s m, documented m -> waiting s = false -> (forall o, In o (buf s) -> o <> None) ->
  let s' := step dec zero full more s m in
  waiting s' = false /\ issue s' = issue s /\ (forall o, In o (buf s') -> o <> None).
Proof.
  intros s m D W B.
  assert (Same : waiting s = false /\ issue s = issue s /\ (forall o, In o (buf s) -> o <> None))
    by tauto.
  destruct m; cbn [documented] in D; try contradiction; cbn [step].
  - destruct (state s); try exact Same. destruct (todo s) as [|r t]; try exact Same.
    destruct (length (buf s) <? room).
    + cbn. split; [exact W|]. split; [reflexivity|]. intros o I. apply in_app_or in I.
      destruct I as [I|[I|[]]]; [auto|subst; discriminate].
    + unfold stop; cbn. rewrite app_nil_r. exact Same.
  - destruct (state s); try exact Same. destruct (todo s); try exact Same.
    unfold stop; cbn. rewrite app_nil_r. exact Same.
  - destruct (state s); try exact Same. unfold stop; cbn. rewrite app_nil_r. exact Same.
  - unfold go. destruct (over s); [exact Same|]. rewrite W.
    destruct (buf s) as [|[r|] b] eqn:Eb.
    + destruct (closed s); [|rewrite Eb; exact Same]. unfold ended; cbn.
      split; [reflexivity|]. split; [reflexivity|]. intros o [].
    + unfold yielded; cbn. split; [reflexivity|]. split; [reflexivity|].
      intros o I. apply B. right; exact I.
    + exfalso. apply (B None); [left; reflexivity|reflexivity].
Qed.

(** With a database that keeps to the documented contract no failure is ever reported:
    whatever the job's error and whoever cancelled it, a search whose rows decode leaves
    its issue nil. *)
Theorem C156_never_told : forall rows ms, Forall documented ms ->
  issue (run dec zero full more rows ms) = None.
Proof.
  intros rows ms F.
  assert (H : let s := run dec zero full more rows ms in
    waiting s = false /\ issue s = None /\ (forall o, In o (buf s) -> o <> None)).
  { revert F. induction ms as [|m ms IH] using rev_ind; intros F.
    - unfold run, begin; cbn. split; [reflexivity|]. split; [reflexivity|]. intros o [].
    - apply Forall_app in F. destruct F as [F1 F2]. inversion F2 as [|x l D _]; subst.
      destruct (IH F1) as (W & I & B). rewrite run_snoc.
      destruct (quiet_step _ m D W B) as (W' & I' & B').
      split; [exact W'|]. split; [rewrite I'; exact I|exact B']. }
  destruct H as (_ & I & _). exact I.
Qed.
End Breaking.

(** The caller does not stop by itself. *)
Notation all := (fun _ : list A => true).

Definition fresh (s : st R A E) : Prop :=
  closed s = false /\ state s = Running /\ waiting s = false /\ issue s = None /\ over s = false.

Inductive phase (b : list R) (s : st R A E) : bool -> list (option R) -> list A -> Prop :=
| open_ : forall n, fresh s -> phase b s n [] []
| plain : closed s = true -> state s <> Running -> waiting s = false -> issue s = None ->
    (over s = true -> b = []) -> phase b s false [] []
| nil_in : closed s = true -> state s <> Running -> waiting s = false -> issue s = None ->
    over s = false -> phase b s true [None] []
| nil_out : closed s = true -> state s <> Running -> waiting s = true -> issue s = None ->
    over s = false -> b = [] -> phase b s true [] []
| nil_zero : closed s = true -> state s = Finished -> waiting s = false -> issue s = None ->
    b = [] -> phase b s true [] [zero]
| nil_told : forall e, closed s = true -> state s = Failed e -> waiting s = false ->
    issue s = Some e -> over s = true -> b = [] -> phase b s true [] [].

(** [n]: the database sends a nil row before it closes the channel *)
Definition inv2 (rows : list R) (n : bool) (s : st R A E) : Prop :=
  exists taken b tl zs, rows = taken ++ b ++ todo s /\ seen s = map f taken ++ zs /\
    buf s = map Some b ++ tl /\ phase b s n tl zs /\ (state s = Finished -> todo s = []).

(** whether this move is one of a database that does, or does not, send a nil row *)
Definition of_kind (n : bool) (m : move E) : Prop :=
  match m with
  | Send | Go => True
  | Complete | Fail _ => n = false
  | CompleteNil | FailNil _ => n = true
  end.

Lemma stop_phase : forall b tl zs s n j rest, state s = Running -> phase b s n tl zs ->
  j <> Running -> rest = (if n then [None] else []) ->
  tl = [] /\ zs = [] /\ phase b (stop R A E s j rest) n rest [].
Proof.
  intros b tl zs s n j rest J P Hj Er.
  inversion P as [n' F | C S | C S | C S | C S | e C S]; subst; try congruence.
  destruct F as (C & S & W & I & O).
  split; [reflexivity|]. split; [reflexivity|].
  destruct n.
  - apply nil_in; auto.
  - apply plain; auto. unfold stop; cbn. congruence.
Qed.

Lemma inv2_step : forall rows n s m, of_kind n m -> (n = true -> length rows < room) ->
  inv2 rows n s -> inv2 rows n (step dec zero full all s m).
Proof.
  intros rows n s m K L Inv. pose proof Inv as Inv0.
  destruct Inv as (taken & b & tl & zs & Er & Es & Eb & P & Ft).
  assert (Rm : n = true -> state s = Running -> nil_row R A E s = [None]).
  { intros Hn J. specialize (L Hn). unfold nil_row.
    assert (tl = []) as -> by (inversion P; auto; congruence).
    rewrite Eb, app_nil_r, map_length.
    rewrite Er, !app_length in L. destruct (Nat.ltb_spec (length b) room); [reflexivity|lia]. }
  assert (Stop : forall j rest, state s = Running -> j <> Running ->
     rest = (if n then [None] else []) -> (j = Finished -> todo s = []) ->
     inv2 rows n (stop R A E s j rest)).
  { intros j rest J Hj Hr Hf. destruct (stop_phase b tl zs s n j rest J P Hj Hr) as (-> & -> & P').
    exists taken, b, rest, []. cbn [stop todo seen buf state].
    split; [exact Er|]. split; [exact Es|].
    split; [unfold stop; cbn; rewrite Eb, app_nil_r; reflexivity|]. split; [exact P'|exact Hf]. }
  destruct m; cbn [of_kind] in K; cbn [step].
  - destruct (state s) eqn:J; try exact Inv0.
    destruct (todo s) as [|r t] eqn:T; try exact Inv0.
    destruct (length (buf s) <? room) eqn:Rmm.
    + inversion P as [n' F | C S | C S | C S | C S | e C S]; subst; try congruence.
      exists taken, (b ++ [r]), [], []. cbn [todo seen buf state].
      split; [rewrite <- !app_assoc; reflexivity|]. split; [exact Es|].
      split; [rewrite Eb, !app_nil_r, map_app; reflexivity|].
      split; [|intros H; discriminate]. apply open_.
      destruct F as (C & S & W & I & O). unfold fresh; cbn. tauto.
    + destruct n.
      * exfalso. specialize (L eq_refl). apply Nat.ltb_ge in Rmm.
        assert (tl = []) as -> by (inversion P; auto; congruence).
        rewrite Eb, app_nil_r, map_length in Rmm. rewrite Er, !app_length in L. lia.
      * apply Stop; [reflexivity|discriminate|reflexivity|discriminate].
  - destruct (state s) eqn:J; try exact Inv0. destruct (todo s) eqn:T; try exact Inv0.
    subst n. apply Stop; [reflexivity|discriminate|reflexivity|reflexivity].
  - destruct (state s) eqn:J; try exact Inv0.
    subst n. apply Stop; [reflexivity|discriminate|reflexivity|discriminate].
  - destruct (state s) eqn:J; try exact Inv0. destruct (todo s) eqn:T; try exact Inv0.
    rewrite (Rm K eq_refl). subst n.
    apply Stop; [reflexivity|discriminate|reflexivity|reflexivity].
  - destruct (state s) eqn:J; try exact Inv0.
    rewrite (Rm K eq_refl). subst n.
    apply Stop; [reflexivity|discriminate|reflexivity|discriminate].
  - unfold go. destruct (over s) eqn:O; [exact Inv0|].
    destruct (waiting s) eqn:W.
    + assert (n = true /\ b = [] /\ tl = [] /\ zs = [] /\ closed s = true /\ state s <> Running /\ issue s = None)
        as (-> & -> & -> & -> & C & S & I).
      { inversion P as [n' F | | | | | ]; subst; try congruence; [destruct F as (_ & _ & F & _); congruence|tauto]. }
      destruct (state s) as [| |e] eqn:J; [congruence| |].
      * exists taken, [], [], [zero]. unfold yielded; cbn [todo seen buf state].
        split; [exact Er|]. split; [rewrite Es, app_nil_r; reflexivity|].
        split; [exact Eb|]. split; [|exact (fun _ => Ft eq_refl)].
        apply nil_zero; cbn; auto.
      * exists taken, [], [], []. unfold ended; cbn [todo seen buf state].
        split; [exact Er|]. split; [exact Es|]. split; [exact Eb|].
        split; [|intros H; congruence]. apply nil_told with (e := e); cbn; auto.
    + destruct b as [|r b']; cbn [map app] in Eb; rewrite Eb.
      * inversion P as [n' F | C S W1 I1 O1 | C S W1 I1 O1 | C S W1 I1 O1 B1 | C S W1 I1 B1 | e C S W1 I1 O1 B1]; subst tl zs; try subst n; try congruence.
        { destruct F as (C & S & W' & I' & O'). rewrite C. exact Inv0. }
        { rewrite C. exists taken, [], [], []. unfold ended; cbn [todo seen buf state].
          split; [exact Er|]. split; [exact Es|]. split; [reflexivity|].
          split; [|exact Ft]. apply plain; cbn; auto. }
        { exists taken, [], [], []. cbn [todo seen buf state].
          split; [exact Er|]. split; [exact Es|]. split; [reflexivity|].
          split; [|exact Ft]. apply nil_out; cbn; auto. }
        { rewrite C. exists taken, [], [], [zero]. unfold ended; cbn [todo seen buf state].
          split; [exact Er|]. split; [exact Es|]. split; [reflexivity|].
          split; [|exact Ft]. apply nil_zero; cbn; auto. }
      * exists (taken ++ [r]), b', tl, zs. unfold yielded; cbn [todo seen buf state].
        assert (zs = []) as -> by (inversion P; auto; congruence).
        split; [rewrite Er, <- app_assoc; reflexivity|].
        split; [rewrite Es, map_app, !app_nil_r; reflexivity|].
        split; [reflexivity|]. split; [|exact Ft].
        inversion P as [n' F | C S W1 I1 O1 | C S W1 I1 O1 | C S W1 I1 O1 B1 | C S W1 I1 B1 | e C S W1 I1 O1 B1]; subst; try congruence.
        { apply open_. destruct F as (C & S & W' & I' & O'). unfold fresh; cbn. tauto. }
        { apply plain; cbn; auto. intros; discriminate. }
        { apply nil_in; cbn; auto. }
Qed.

Lemma inv2_run : forall rows n ms, Forall (of_kind n) ms -> (n = true -> length rows < room) ->
  inv2 rows n (run dec zero full all rows ms).
Proof.
  intros rows n ms F L. revert F. induction ms as [|m ms IH] using rev_ind; intros F.
  - exists [], [], [], []. unfold run, begin; cbn.
    split; [reflexivity|]. split; [reflexivity|]. split; [reflexivity|].
    split; [|intros H; discriminate]. apply open_. unfold fresh; cbn. tauto.
  - apply Forall_app in F. destruct F as [F1 F2]. inversion F2 as [|x l D _]; subst.
    rewrite run_snoc. apply inv2_step; [exact D|exact L|]. apply IH; exact F1.
Qed.

Lemma documented_kind : forall m : move E, documented m -> of_kind false m.
Proof. destruct m; cbn; tauto. Qed.

(** A search whose job succeeded tells everything, in every schedule. *)
Theorem C156_success_told : forall rows ms, Forall documented ms ->
  let s := run dec zero full all rows ms in
  over s = true -> state s = Finished -> seen s = map f rows /\ issue s = None.
Proof.
  intros rows ms F s O J.
  assert (F' : Forall (of_kind false) ms).
  { eapply Forall_impl; [|exact F]. intros; apply documented_kind; assumption. }
  destruct (inv2_run rows false ms F') as (taken & b & tl & zs & Er & Es & Eb & P & Ft);
    [discriminate|]. fold s in Er, Es, Eb, P, Ft.
  inversion P as [n' Fr | C S W1 I1 O1 | | | | ]; subst tl zs; try congruence.
  - destruct Fr as (_ & _ & _ & _ & O'). congruence.
  - split; [|exact I1]. rewrite Es, app_nil_r. rewrite Er, (O1 O), (Ft J), app_nil_r. reflexivity.
Qed.

(** The full claim, for at most as many rows as the channel has room for and a database
    that does not fail by itself: a loop that ends has seen everything, in every
    schedule of the database and the caller. *)
Theorem C156_short_told_partial : forall rows ms, Forall documented ms ->
  (forall e, ~ In (Fail e) ms) -> length rows <= room ->
  let s := run dec zero full all rows ms in
  over s = true -> told f rows (seen s) (issue s) /\ seen s = map f rows.
Proof.
  intros rows ms F NF L s O.
  assert (F' : Forall (of_kind false) ms).
  { eapply Forall_impl; [|exact F]. intros; apply documented_kind; assumption. }
  assert (J : forall e, state (run dec zero full all rows ms) <> Failed e).
  { clear s O. revert F NF F'. induction ms as [|m ms IH] using rev_ind; intros F NF F'.
    - unfold run, begin; cbn. discriminate.
    - rewrite run_snoc. apply Forall_app in F. destruct F as [F1 F2].
      pose proof F' as F0. apply Forall_app in F'. destruct F' as [F1' _].
      assert (IH' : forall e, state (run dec zero full all rows ms) <> Failed e).
      { apply IH; [exact F1| |exact F1']. intros e I. apply (NF e). apply in_or_app; tauto. }
      destruct (inv2_run rows false ms F1') as (taken & b & tl & zs & Er & Es & Eb & P & Ft);
        [discriminate|].
      set (s := run dec zero full all rows ms) in *.
      inversion F2 as [|x l D _]; subst x l.
      destruct m; cbn [documented] in D; try contradiction; cbn [step].
      + destruct (state s) eqn:Js; try exact IH'; try (rewrite Js; exact IH').
        destruct (todo s) as [|r t] eqn:T; [rewrite Js; exact IH'|].
        destruct (Nat.ltb_spec (length (buf s)) room) as [|G]; [discriminate|].
        exfalso. assert (tl = []) as -> by (inversion P; auto; congruence).
        rewrite Eb, app_nil_r, map_length in G. rewrite Er, !app_length in L. cbn in L. lia.
      + destruct (state s) eqn:Js; try (rewrite Js; exact IH').
        destruct (todo s); [unfold stop; cbn; discriminate|rewrite Js; exact IH'].
      + exfalso. apply (NF e). apply in_or_app. right. left. reflexivity.
      + intros e. unfold go. destruct (over s); [apply IH'|].
        destruct (waiting s); [destruct (state s) eqn:Js; cbn; rewrite ?Js; apply IH'|].
        destruct (buf s) as [|[r|] b0]; [destruct (closed s)| |]; apply IH'. }
  change (forall e, state s <> Failed e) in J.
  destruct (state s) as [| |e] eqn:Js; [| |exfalso; apply (J e); reflexivity].
  - exfalso. destruct (inv2_run rows false ms F') as (taken & b & tl & zs & Er & Es & Eb & P & Ft);
      [discriminate|]. fold s in P.
    inversion P as [n' Fr | C S | | | | ]; subst tl zs; try congruence.
    destruct Fr as (_ & _ & _ & _ & O'). congruence.
  - destruct (C156_success_told rows ms F O Js) as [A1 A2].
    split; [intros _|]; exact A1.
Qed.

(** A database that sends a nil row after it failed is heard: with room for it, the loop
    ends with the error. *)
Theorem C156_nil_row_tells : forall rows ms e, Forall (of_kind true) ms ->
  length rows < room ->
  let s := run dec zero full all rows ms in
  over s = true -> state s = Failed e -> issue s = Some e.
Proof.
  intros rows ms e F L s O J.
  destruct (inv2_run rows true ms F (fun _ => L)) as (taken & b & tl & zs & Er & Es & Eb & P & Ft).
  fold s in P.
  inversion P as [n' Fr | | C S W I O' | C S W I O' B | C S W I B | e' C S W I O' B]; subst tl zs; try congruence.
  destruct Fr as (_ & _ & _ & _ & O'). congruence.
Qed.

(** But one that sends a nil row when it is complete gives its caller an entry that is
    not in the table. *)
Theorem C156_nil_row_is_an_entry_refuted : forall rows ms, Forall (of_kind true) ms ->
  length rows < room ->
  let s := run dec zero full all rows ms in
  over s = true -> state s = Finished -> seen s = map f rows ++ [zero] /\ issue s = None.
Proof.
  intros rows ms F L s O J.
  destruct (inv2_run rows true ms F (fun _ => L)) as (taken & b & tl & zs & Er & Es & Eb & P & Ft).
  fold s in Er, Es, Eb, P, Ft.
  inversion P as [n' Fr | | C S W I O' | C S W I O' B | C S W I B | e' C S W I O' B]; subst tl zs; try congruence.
  - destruct Fr as (_ & _ & _ & _ & O'). congruence.
  - split; [|exact I]. rewrite Es, Er, (Ft J), B, !app_nil_r. reflexivity.
Qed.

(** ** More rows than there is room for *)
Lemma sends : forall l t b, length b + length l <= room ->
  fold_left (step dec zero full all) (repeat Send (length l))
    {| todo := l ++ t; buf := map Some b; closed := false; state := Running;
       waiting := false; seen := []; issue := None; over := false |} =
  {| todo := t; buf := map Some (b ++ l); closed := false; state := Running;
     waiting := false; seen := []; issue := None; over := false |}.
Proof.
  induction l as [|r l IH]; intros t b L; cbn [length repeat fold_left app].
  - rewrite app_nil_r. reflexivity.
  - cbn [step state todo buf]. rewrite map_length.
    cbn [length] in L. destruct (Nat.ltb_spec (length b) room) as [_|G]; [|lia].
    cbn [closed waiting seen issue over].
    replace (map Some b ++ [Some r]) with (map Some (b ++ [r])) by apply map_app.
    rewrite IH by (rewrite app_length; cbn [length]; lia).
    rewrite <- app_assoc. reflexivity.
Qed.

Lemma takes : forall b t sn j, 
  fold_left (step dec zero full all) (repeat Go (length b))
    {| todo := t; buf := map Some b; closed := true; state := j;
       waiting := false; seen := sn; issue := None; over := false |} =
  {| todo := t; buf := []; closed := true; state := j;
     waiting := false; seen := sn ++ map f b; issue := None; over := false |}.
Proof.
  induction b as [|r b IH]; intros t sn j; cbn [length repeat fold_left map].
  - rewrite app_nil_r. reflexivity.
  - cbn [step go over waiting buf]. unfold yielded. cbn [todo closed state seen issue negb].
    rewrite IH, <- app_assoc. reflexivity.
Qed.

Definition slow : list (move E) := repeat Send room ++ [Send] ++ repeat Go room ++ [Go].

(** Whenever more rows match than the channel has room for, there is a schedule, that of a
    caller slower than the database, in which the loop ends after the first of them and
    says that nothing was wrong. *)
Theorem C156_long_refuted : forall rows, room < length rows ->
  Forall documented slow /\
  let s := run dec zero full all rows slow in
  over s = true /\ issue s = None /\ seen s = map f (firstn room rows) /\
  state s = Failed full /\ ~ told f rows (seen s) (issue s).
Proof.
  intros rows L. split.
  { unfold slow. apply Forall_app; split; [apply Forall_forall; intros x I; apply repeat_spec in I; subst; exact Logic.I|].
    constructor; [exact I|]. apply Forall_app; split; [apply Forall_forall; intros x J; apply repeat_spec in J; subst; exact I|].
    constructor; [exact I|constructor]. }
  set (h := firstn room rows). set (t := skipn room rows).
  assert (Hl : length h = room) by (apply firstn_length_le; lia).
  assert (Ht : exists x t', t = x :: t').
  { unfold t. destruct (skipn room rows) as [|x t'] eqn:E0; [|eauto].
    pose proof (skipn_length room rows) as K. rewrite E0 in K. cbn [length] in K. lia. }
  destruct Ht as (x & t' & Ht).
  assert (E1 : run dec zero full all rows slow =
    {| todo := t; buf := []; closed := true; state := Failed full; waiting := false;
       seen := map f h; issue := None; over := true |}).
  { unfold run, slow. rewrite !fold_left_app. unfold begin.
    replace rows with (h ++ t) at 1 by (apply firstn_skipn).
    pose proof (sends h t [] ltac:(cbn [length]; lia)) as Sd.
    rewrite Hl in Sd. cbn [map] in Sd. rewrite Sd. clear Sd. cbn [app].
    cbn [fold_left]. rewrite Ht. cbn [step state todo buf]. rewrite map_length, Hl, Nat.ltb_irrefl.
    unfold stop. cbn [todo buf closed waiting seen issue over]. rewrite app_nil_r.
    pose proof (takes h (x :: t') [] (Failed full)) as Tk. rewrite Hl in Tk. rewrite Tk.
    cbn [app step go over waiting buf closed]. unfold ended. reflexivity. }
  cbn zeta. rewrite E1. cbn [over issue seen state].
  split; [reflexivity|]. split; [reflexivity|]. split; [reflexivity|]. split; [reflexivity|].
  intros H. specialize (H eq_refl). apply (f_equal (@length A)) in H.
  rewrite !map_length, Hl in H. lia.
Qed.

(** A failed lookup says that the key is not there, and that nothing was wrong; so does
    First.  The row is there. *)
Theorem C156_lookup_refuted : forall r e,
  let s := run dec zero full all [r] [Fail e; Go] in
  Forall documented [Fail e; Go] /\ over s = true /\ state s = Failed e /\
  lookup s = (None, None) /\ first s = (None, None) /\
  ~ told f [r] (seen s) (issue s).
Proof.
  intros r e. cbn.
  split; [constructor; [exact I|constructor; [exact I|constructor]]|].
  split; [reflexivity|]. split; [reflexivity|]. split; [reflexivity|]. split; [reflexivity|].
  intros H. specialize (H eq_refl). discriminate.
Qed.

(** If the job succeeds, Lookup and First answer the first entry that matches, or that
    there is none. *)
Theorem C156_lookup : forall rows ms, Forall documented ms ->
  let s := run dec zero full all rows ms in
  over s = true -> state s = Finished ->
  lookup s = (match rows with r :: _ => Some (f r) | [] => None end, None) /\
  first s = lookup s.
Proof.
  intros rows ms F s O J. destruct (C156_success_told rows ms F O J) as [S I].
  fold s in S, I. unfold lookup, first. rewrite S, I. destruct rows; split; reflexivity.
Qed.
(** With a database that sends a nil row when it failed, a lookup that found nothing says
    why. *)
Theorem C156_lookup_nil_row : forall rows ms e, Forall (of_kind true) ms ->
  length rows < room ->
  let s := run dec zero full all rows ms in
  over s = true -> state s = Failed e -> seen s = [] ->
  lookup s = (None, Some e) /\ first s = (None, Some e).
Proof.
  intros rows ms e F L s O J Z. pose proof (C156_nil_row_tells rows ms e F L O J) as T.
  fold s in T. unfold lookup, first. rewrite Z, T. split; reflexivity.
Qed.
End Total.

(** A row that does not decode is reported, and nothing after it is seen. *)
Theorem C156_bad_row_told : forall (dec : R -> A + E) more rows ms, Forall documented ms ->
  let s := run dec zero full more rows ms in
  over s = false -> forall r b e, buf s = Some r :: b -> dec r = inr e ->
  let s' := step dec zero full more s Go in
  over s' = true /\ issue s' = Some e /\ seen s' = seen s.
Proof.
  intros dec more rows ms F s O r b e B D s'.
  destruct (inv1_run dec more rows ms F) as (W & _). fold s in W.
  unfold s'. cbn [step]. unfold go. rewrite O, W, B, D. cbn. tauto.
Qed.

(** After the loop has ended, or its caller has stopped, nothing it left changes. *)
Theorem C156_over_is_over : forall (dec : R -> A + E) (more : list A -> bool) (rows : list R) ms ms',
  let s := run dec zero full more rows ms in
  over s = true ->
  let s' := fold_left (step dec zero full more) ms' s in
  seen s' = seen s /\ issue s' = issue s /\ over s' = true.
Proof.
  intros dec more rows ms ms' s. clearbody s. revert s.
  induction ms' as [|m ms' IH]; intros s O; cbn [fold_left].
  - split; [reflexivity|]. split; [reflexivity|exact O].
  - assert (K : seen (step dec zero full more s m) = seen s /\
                issue (step dec zero full more s m) = issue s /\
                over (step dec zero full more s m) = true).
    { destruct m; cbn [step]; unfold go; rewrite ?O;
        destruct (state s); try destruct (todo s); try destruct (length (buf s) <? room);
        cbn; tauto. }
    destruct K as (K1 & K2 & K3). destruct (IH _ K3) as (H1 & H2 & H3).
    split; [congruence|]. split; [congruence|exact H3].
Qed.
End Proofs.

(** ** The beginning of a search, and Count *)

(** A search that could not begin says so. *)
Theorem C156_start_told : forall E (w : start E),
  (let '(go, i, _) := search_start w in go = false -> exists e, i = Some e) /\
  (let '(go, i, _) := output_start w in go = false -> exists e, i = Some e).
Proof. intros E w. destruct w; cbn; split; intros; try discriminate; eauto. Qed.

(** Whoever made a transaction for an operation closes it: not so a search that was
    cancelled before its job was taken. *)
Theorem C156_cancelled_left_open_refuted : forall E (e : E),
  search_start (Cancelled e) = (false, Some e, Some false) /\
  output_start (Cancelled e) = (false, Some e, Some true).
Proof. intros; split; reflexivity. Qed.

(** Unlike a search, Count and Output report the failure of their job, whatever the
    channel holds. *)
Theorem C156_output_told : forall V E asked (e : E) (g : got V) done pick,
  output_end asked (Some e) g done pick = Error e.
Proof. reflexivity. Qed.

(** With one value for each statistic asked for and no cancellation, they are what is
    answered. *)
Theorem C156_output_values : forall V E asked (l : list V) pick, asked <= length l ->
  output_end asked (@None E) (Values l) None pick = Stats (firstn asked l).
Proof.
  intros V E asked l pick L. unfold output_end, update.
  destruct (Nat.ltb_spec (length l) asked); [lia|reflexivity].
Qed.

(** Without one, Count does not answer an error: it panics, or waits for ever. *)
Theorem C156_output_none_refuted : forall V E asked pick, 0 < asked ->
  output_end asked (@None E) (@ClosedEmpty V) None pick = Panics /\
  output_end asked (@None E) (@Nothing V) None pick = Blocks.
Proof.
  intros V E asked pick L. unfold output_end, update. cbn [length].
  destruct (Nat.ltb_spec 0 asked); [split; reflexivity|lia].
Qed.

(** When the context is done the answer may be the values or its error: select takes
    either. *)
Theorem C156_output_cancelled : forall V E asked (l : list V) (e : E) pick, asked <= length l ->
  output_end asked None (Values l) (Some e) pick = if pick then Stats (firstn asked l) else Error e.
Proof.
  intros V E asked l e pick L. unfold output_end, update.
  destruct (Nat.ltb_spec (length l) asked); [lia|destruct pick; reflexivity].
Qed.

(** When there are no values, the context's error is what ends the wait for them. *)
Theorem C156_output_cancelled_told : forall V E asked (e : E) pick,
  output_end asked None (@Nothing V) (Some e) pick = Error e.
Proof. reflexivity. Qed.

(** Examples: three rows, the last of which is never sent; the same with a nil row. *)
Theorem C156_example :
  let dec := fun r : nat => inl (r * 10) : nat + nat in
  let s := run dec 0 99 (fun _ => true) [1; 2; 3] [Send; Go; Send; Fail 7; Go; Go] in
  let s' := run dec 0 99 (fun _ => true) [1; 2; 3] [Send; Go; Send; FailNil 7; Go; Go; Go] in
  let s'' := run dec 0 99 (fun _ => true) [1; 2; 3] [Send; Send; Go; Send; Complete; Go; Go; Go] in
  (seen s, issue s, over s) = ([10; 20], None, true) /\
  (seen s', issue s', over s') = ([10; 20], Some 7, true) /\
  (seen s'', issue s'', over s'') = ([10; 20; 30], None, true) /\
  lookup (run dec 0 99 (fun _ => true) [1; 2; 3] [FailNil 7; Go; Go]) = (None, Some 7).
Proof. vm_compute. split; [reflexivity|]. split; [reflexivity|]. split; reflexivity. Qed.
