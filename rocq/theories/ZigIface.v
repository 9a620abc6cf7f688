(** * Interfaces of compiled programs (C161) *)
From Coq Require Import List Arith ZArith Bool Lia.
From Verif Require Import ZigIfaceModel ZigIfaceSpec.
Import ListNotations.

(** The property in full. *)
Definition C161_full : Prop := forall body g types init p,
  (forall x, shaped (init x) (vtype g x)) -> well_typed g types [] p ->
  zig_run body g types init p = Some (go_run body g init p).

Lemma declares_iff : forall t m, declares t m = true <-> declared t m.
Proof.
  intros t m. unfold declares, declared. rewrite existsb_exists. split; intros (d & H & E); exists d; [apply Nat.eqb_eq in E; auto|].
  split; [assumption|now apply Nat.eqb_eq].
Qed.
Lemma simple_iff : forall t, readable t = true <-> simple t.
Proof.
  intro t. unfold readable, simple. rewrite forallb_forall. split; intros H d I; specialize (H d I).
  - apply andb_prop in H as [A B]. now apply Nat.eqb_eq in B.
  - destruct H as [-> ->]. reflexivity.
Qed.
Lemma readable_all : forall types, forallb readable types = true <-> Forall simple types.
Proof.
  intro types. rewrite forallb_forall, Forall_forall. split; intros H t I; [apply simple_iff|apply simple_iff]; auto.
Qed.
Lemma find_own : forall t m v, declared t m -> find t m v = Some (t, v).
Proof. intros [id sh ms u] m v D. apply declares_iff in D. cbn [find]. now rewrite D. Qed.
Lemma find_has : forall t m v, has t m -> shaped v t -> exists u w, find t m v = Some (u, w) /\ declared u m.
Proof.
  intros t m v H. revert v. induction H as [t m D|id sh ms u m H IH]; intros v S.
  - rewrite find_own by assumption. eauto.
  - destruct (declares (Ty id sh ms (Some u)) m) eqn:D.
    + rewrite find_own by now apply declares_iff. eexists _, _. split; [reflexivity|now apply declares_iff].
    + inversion S as [|own w ? n ? ? L S']; subst. cbn [find]. rewrite D. auto.
Qed.

Definition tab_of (t : ty) (ms : list nat) : list (nat * fn) := map (fun m => (m, (t, m))) ms.
Lemma table_own : forall t ms, empty_struct t -> (forall m, In m ms -> declared t m) -> table t ms = Some (tab_of t ms).
Proof.
  intros t ms E D. induction ms as [|m ms IH]; [reflexivity|]. cbn [table tab_of map].
  assert (W : wrapper t m = Some (t, m)).
  { unfold wrapper. rewrite (proj2 (declares_iff t m)) by (apply D; now left). destruct E as (id & l & ->). reflexivity. }
  rewrite W, IH by (intros; apply D; now right). reflexivity.
Qed.
Lemma table_inv : forall t ms tab, table t ms = Some tab -> tab = tab_of t ms /\ (ms <> [] -> empty_struct t) /\ forall m, In m ms -> declared t m.
Proof.
  intros t ms. induction ms as [|m ms IH]; intros tab E; cbn [table] in E.
  - injection E as <-. split; [reflexivity|]. split; [congruence|intros m []].
  - destruct (wrapper t m) as [f|] eqn:W; [|discriminate]. destruct (table t ms) as [l|] eqn:T; [|discriminate]. injection E as <-.
    unfold wrapper in W. destruct (declares t m) eqn:D; [|discriminate]. destruct (described t) eqn:S; [|discriminate]. injection W as <-.
    destruct (IH _ eq_refl) as (-> & _ & A). split; [reflexivity|]. split.
    + intros _. destruct t as [id [|[|n]] l [u|]]; try discriminate. now exists id, l.
    + intros m' [<-|I]; [now apply declares_iff|auto].
Qed.
Lemma entry_own : forall t ms m, In m ms -> entry m (tab_of t ms) = Some (t, m).
Proof.
  intros t ms m. induction ms as [|n ms IH]; [intros []|]. intro I. cbn [tab_of map entry].
  destruct (Nat.eqb_spec n m) as [->|N]; [reflexivity|]. destruct I as [->|I]; [congruence|now apply IH].
Qed.

(** What Zig has is what Go has: an address for each copy. *)
Definition holds (h : list val) (ms : list nat) (a : option (ty * val)) (b : option (nat * list (nat * fn))) : Prop :=
  match a, b with
  | Some (t, v), Some (k, tab) => nth_error h k = Some v /\ tab = tab_of t ms /\ forall m, In m ms -> declared t m
  | None, None => True
  | _, _ => False
  end.
Record like (g : env) (s : gstate) (z : zstate) : Prop := {
  like_vars : forall x, gvars s x = zvars z x;
  like_ifaces : forall i, holds (heap z) (iface g i) (gifaces s i) (zifaces z i);
  like_out : gout s = zout z }.
Lemma holds_more : forall h w ms a b, holds h ms a b -> holds (h ++ [w]) ms a b.
Proof.
  intros h w ms [[t v]|] [[k tab]|] H; try exact H. destruct H as (A & B & C). split; [|auto].
  rewrite nth_error_app1; [assumption|]. apply nth_error_Some. congruence.
Qed.

Definition same_result (g : env) (a : option gstate) (b : option zstate) : Prop :=
  match a, b with Some s, Some z => like g s z | None, None => True | _, _ => False end.
Lemma do_like : forall body g c d s z, zig_cmd g c = Some d -> like g s z -> same_result g (go_do body g c s) (zig_do body d z).
Proof.
  intros body g c d s z E [V I O]. destruct c as [x v|i x|i x|i|i j|i m|x m]; cbn [zig_cmd] in E; try discriminate.
  - injection E as <-. cbn [go_do zig_do same_result]. constructor; cbn; auto. intro y. unfold change. destruct (y =? x); auto.
  - destruct (iface g i) as [|m0 ms0] eqn:M; [discriminate|]. rewrite <- M in E.
    destruct (table (vtype g x) (iface g i)) as [tab|] eqn:T; [|discriminate]. injection E as <-. apply table_inv in T as (-> & _ & D).
    cbn [go_do zig_do same_result]. constructor; cbn [gvars zvars gifaces zifaces heap gout zout]; auto.
    intro j. unfold change. destruct (Nat.eqb_spec j i) as [->|N].
    + cbn [holds]. rewrite nth_error_app2, Nat.sub_diag by apply le_n. cbn. rewrite V. auto.
    + now apply holds_more.
  - destruct (Nat.eqb_spec (itype g i) (itype g j)) as [Q|]; [|discriminate]. injection E as <-.
    cbn [go_do zig_do same_result]. constructor; cbn [gvars zvars gifaces zifaces heap gout zout]; auto.
    intro k. unfold change. destruct (Nat.eqb_spec k i) as [->|N]; [|auto]. unfold iface. rewrite Q. apply I.
  - destruct (existsb (Nat.eqb m) (iface g i)) eqn:X; [|discriminate]. injection E as <-.
    apply existsb_exists in X as (m' & X & Y). apply Nat.eqb_eq in Y as <-.
    cbn [go_do zig_do]. specialize (I i) as K. unfold holds in K. destruct (gifaces s i) as [[t v]|], (zifaces z i) as [[k tab]|]; try contradiction; [|exact Logic.I].
    destruct K as (N & -> & D). rewrite (entry_own _ _ _ X), N. unfold gcall. rewrite find_own by auto.
    cbn [same_result]. constructor; cbn; auto. now rewrite O.
  - destruct (declares (vtype g x) m) eqn:D; [|discriminate]. injection E as <-. apply declares_iff in D.
    cbn [go_do zig_do]. unfold gcall. rewrite find_own by assumption. cbn [same_result]. constructor; cbn; auto. now rewrite O, V.
Qed.
(** What compiles does what it does in Go, whatever it is. *)
Theorem C161_compiled : forall body g types init p r, zig_run body g types init p = Some r -> r = go_run body g init p.
Proof.
  intros body g types init p r E. unfold zig_run, compile in E. destruct (forallb readable types); [|discriminate].
  destruct (cmds g p) as [cs|] eqn:C; [|discriminate]. injection E as <-. unfold go_run.
  assert (L : like g (go_start init) (zig_start init)) by (constructor; cbn; auto).
  revert cs C L. generalize (go_start init), (zig_start init). induction p as [|c p IH]; intros s z cs C L; cbn [cmds] in C.
  - injection C as <-. cbn. now rewrite (like_out _ _ _ L).
  - destruct (zig_cmd g c) as [d|] eqn:D; [|discriminate]. destruct (cmds g p) as [ds|] eqn:Q; [|discriminate]. injection C as <-.
    cbn [go_all zig_all]. pose proof (do_like body g c d s z D L) as S. unfold same_result in S.
    destruct (go_do body g c s) as [s'|], (zig_do body d z) as [z'|]; try contradiction; [|reflexivity]. now apply IH.
Qed.
Lemma cmd_plain : forall g types defined c, typed g types defined c -> plain g c -> exists d, zig_cmd g c = Some d.
Proof.
  intros g types defined c T P. destruct c as [x v|i x|i x|i|i j|i m|x m]; cbn [typed plain zig_cmd] in *; try contradiction; eauto.
  - destruct P as (N & E & D). pose proof (table_own _ _ E D) as X. destruct (iface g i) as [|m ms]; [congruence|]. rewrite X. eauto.
  - rewrite P, Nat.eqb_refl. eauto.
  - destruct T as [_ M]. rewrite (proj2 (existsb_exists _ _)); [eauto|]. exists m. now rewrite Nat.eqb_refl.
  - rewrite (proj2 (declares_iff _ _)) by assumption. eauto.
Qed.
Theorem C161_interfaces_partial : forall body g types init p,
  (forall x, shaped (init x) (vtype g x)) -> well_typed g types [] p -> Forall simple types -> Forall (plain g) p ->
  zig_run body g types init p = Some (go_run body g init p).
Proof.
  intros body g types init p S W R P.
  assert (C : exists cs, cmds g p = Some cs).
  { clear S. revert W. generalize (@nil nat). induction P as [|c p P1 P2 IH]; intros defined W; [now exists []|]. destruct W as [T W].
    destruct (cmd_plain _ _ _ _ T P1) as (d & D). destruct (IH _ W) as (ds & E). exists (d :: ds). cbn [cmds]. now rewrite D, E. }
  destruct C as (cs & C). assert (E : zig_run body g types init p = Some (option_map zout (zig_all body cs (zig_start init)))).
  { unfold zig_run, compile. now rewrite (proj2 (readable_all types)), C by assumption. }
  rewrite E. f_equal. apply (C161_compiled body g types init p). exact E.
Qed.
(** And nothing else compiles. *)
Theorem C161_exactly : forall body g types init p, well_typed g types [] p ->
  ((exists r, zig_run body g types init p = Some r) <-> Forall simple types /\ Forall (plain g) p).
Proof.
  intros body g types init p W. split.
  - intros [r E]. unfold zig_run, compile in E. destruct (forallb readable types) eqn:R; [|discriminate]. apply readable_all in R.
    split; [assumption|]. destruct (cmds g p) as [cs|] eqn:C; [|discriminate]. clear E W R. revert cs C.
    induction p as [|c p IH]; intros cs C; [constructor|]. cbn [cmds] in C.
    destruct (zig_cmd g c) as [d|] eqn:D; [|discriminate]. destruct (cmds g p) as [ds|]; [|discriminate]. constructor; [|eauto].
    destruct c as [x v|i x|i x|i|i j|i m|x m]; cbn [zig_cmd plain] in *; try discriminate; auto.
    + destruct (iface g i) as [|m ms] eqn:M; [discriminate|]. destruct (table (vtype g x) (m :: ms)) as [tab|] eqn:T; [|discriminate].
      apply table_inv in T as (_ & A & B). split; [discriminate|]. split; [now apply A|assumption].
    + now destruct (Nat.eqb_spec (itype g i) (itype g j)).
    + destruct (declares (vtype g x) m) eqn:D'; [|discriminate]. now apply declares_iff.
  - intros [R P]. assert (C : exists cs, cmds g p = Some cs).
    { revert W. generalize (@nil nat). induction P as [|c p P1 P2 IH]; intros defined W; [now exists []|]. destruct W as [T W].
      destruct (cmd_plain _ _ _ _ T P1) as (d & D). destruct (IH _ W) as (ds & E). exists (d :: ds). cbn [cmds]. now rewrite D, E. }
    destruct C as (cs & C). unfold zig_run, compile. rewrite (proj2 (readable_all types)), C by assumption. cbn. eauto.
Qed.

(** ** Go: an interface keeps what was put into it, and its methods are those of its type. *)
Definition writes_iface (i : nat) (c : stmt) : bool := existsb (Nat.eqb i) (defines c).
Lemma go_keeps : forall body g p s s' i, Forall (fun c => writes_iface i c = false) p -> go_all body g p s = Some s' -> gifaces s' i = gifaces s i.
Proof.
  intros body g p. induction p as [|c p IH]; intros s s' i F E; cbn [go_all] in E; [now injection E as <-|].
  inversion F as [|c0 p0 F1 F2]; subst. destruct (go_do body g c s) as [s1|] eqn:D; [|discriminate].
  rewrite (IH _ _ _ F2 E). unfold writes_iface in F1.
  destruct c as [x v|j x|j x|j|j k|j m|x m]; cbn [go_do defines existsb] in *; unfold gcall in D;
    repeat match type of D with context [match ?t with _ => _ end] => destruct t; try discriminate end;
    injection D as <-; cbn [gifaces]; try reflexivity; unfold change; destruct (i =? j); try discriminate; reflexivity.
Qed.
Theorem C161_go_keeps : forall body g s i x m p s', declared (vtype g x) m -> Forall (fun c => writes_iface i c = false) p ->
  go_all body g (Conv i x :: p) s = Some s' ->
  exists s'', go_all body g (Conv i x :: p ++ [Call i m]) s = Some s'' /\ gout s'' = gout s' ++ body (vtype g x) m (gvars s x).
Proof.
  intros body g s i x m p s' D F E. cbn [go_all go_do] in *.
  set (s1 := {| gvars := gvars s; gifaces := change i (Some (vtype g x, gvars s x)) (gifaces s); gout := gout s |}) in *.
  pose proof (go_keeps _ _ _ _ _ _ F E) as K. cbn [gifaces s1] in K. unfold change in K. rewrite Nat.eqb_refl in K.
  clearbody s1. clear F. revert s1 E. induction p as [|c p IH]; intros s1 E.
  - cbn in E. injection E as ->. cbn [app go_all go_do]. rewrite K. unfold gcall. rewrite find_own by assumption. eexists. split; reflexivity.
  - cbn [go_all app] in *. destruct (go_do body g c s1); [now apply IH|discriminate].
Qed.

(** ** What does not compile. *)
(** A method with parameters, or whose receiver has no name, called or not. *)
Theorem C161_parameters_refuted : forall body g types init p t d, In t types -> In d (methods_of t) -> (named d = false \/ params d <> 0) ->
  zig_run body g types init p = None.
Proof.
  intros body g types init p t d T D H. unfold zig_run, compile. destruct (forallb readable types) eqn:R; [|reflexivity].
  apply readable_all in R. rewrite Forall_forall in R. destruct (R t T d D) as [A B]. destruct H; congruence.
Qed.
Lemma refuses : forall g p c, In c p -> zig_cmd g c = None -> cmds g p = None.
Proof.
  intros g p c. induction p as [|c0 p IH]; [intros []|]. intros [->|I] E; cbn [cmds]; [now rewrite E|].
  rewrite (IH I E). destruct (zig_cmd g c0); reflexivity.
Qed.
Lemma run_refuses : forall body g types init p c, In c p -> zig_cmd g c = None -> zig_run body g types init p = None.
Proof. intros. unfold zig_run, compile. rewrite (refuses g p c) by assumption. now destruct (forallb readable types). Qed.
(** A value with fields, or of a type that is no struct, in an interface. *)
Theorem C161_fields_refuted : forall body g types init p i x, In (Conv i x) p -> ~ empty_struct (vtype g x) -> zig_run body g types init p = None.
Proof.
  intros body g types init p i x I N. apply (run_refuses _ _ _ _ _ (Conv i x) I). cbn [zig_cmd].
  destruct (iface g i) as [|m ms] eqn:M; [reflexivity|]. destruct (table (vtype g x) (m :: ms)) as [tab|] eqn:T; [|reflexivity].
  apply table_inv in T as (_ & A & _). exfalso. apply N, A. discriminate.
Qed.
(** A method of an embedded struct, and values assigned to interfaces without a conversion. *)
Theorem C161_promoted_refuted : forall body g types init p x m, In (On x m) p -> ~ declared (vtype g x) m -> zig_run body g types init p = None.
Proof.
  intros body g types init p x m I N. apply (run_refuses _ _ _ _ _ (On x m) I). cbn [zig_cmd].
  destruct (declares (vtype g x) m) eqn:D; [|reflexivity]. apply declares_iff in D. contradiction.
Qed.
Theorem C161_assigned_refuted : forall body g types init p i x, In (Assign i x) p \/ In (Zero i) p -> zig_run body g types init p = None.
Proof. intros body g types init p i x [I|I]; eapply run_refuses; try exact I; reflexivity. Qed.

(** [type Dog struct{}; func (d Dog) Speak(); type Animal struct { n int }; func (a Animal) Name();
    type Cat struct { Animal }]: a Cat has a Name. *)
Definition speak : method := {| name := 1; named := true; params := 0 |}.
Definition walk : method := {| name := 2; named := true; params := 0 |}.
Definition dog : ty := Ty 0 (Struct 0) [speak; walk] None.
Definition robot : ty := Ty 1 (Struct 0) [walk; speak] None.
Definition animal : ty := Ty 2 (Struct 1) [speak] None.
Definition cat : ty := Ty 3 (Struct 0) [] (Some animal).
Definition farm : env :=
  {| vtype := fun x => match x with 0 => dog | 1 => robot | 2 => animal | _ => cat end; itype := fun i => i mod 2; imethods := fun k => match k with 0 => [1; 2] | _ => [1] end |}.
Definition at_first (x : nat) : val := match x with 0 | 1 => Val [] None | 2 => Val [0%Z] None | _ => Val [] (Some (Val [7%Z] None)) end.
Definition says (t : ty) (m : nat) (v : val) : list Z := match t, v with Ty id _ _ _, Val own _ => [Z.of_nat id; Z.of_nat m] ++ own end.
Definition example : list stmt := [Conv 0 0; Copy 2 0; Conv 0 1; Set_ 2 (Val [5%Z] None); Call 0 2; Call 2 1; On 2 1; Set_ 2 (Val [6%Z] None); On 2 1].
Lemma at_first_shaped : forall x, shaped (at_first x) (vtype farm x).
Proof. intros [|[|[|x]]]; cbn; constructor; try reflexivity. now constructor. Qed.
Theorem C161_example : (forall x, shaped (at_first x) (vtype farm x)) /\ well_typed farm [dog; robot; animal] [] example /\
  Forall simple [dog; robot; animal] /\ Forall (plain farm) example /\
  zig_run says farm [dog; robot; animal] at_first example = Some (Some [1; 2; 0; 1; 2; 1; 5; 2; 1; 6]%Z).
Proof.
  assert (D1 : declared dog 1) by (exists speak; cbn; auto). assert (D2 : declared dog 2) by (exists walk; cbn; auto).
  assert (R1 : declared robot 1) by (exists speak; cbn; auto). assert (R2 : declared robot 2) by (exists walk; cbn; auto).
  assert (A1 : declared animal 1) by (exists speak; cbn; auto).
  split; [exact at_first_shaped|]. split; [|split; [|split; [|reflexivity]]].
  - cbn. unfold implements, iface. cbn.
    assert (X : forall m, 1 = m \/ 2 = m \/ False -> has dog m) by (intros m [<-|[<-|[]]]; now constructor).
    assert (Y : forall m, 1 = m \/ 2 = m \/ False -> has robot m) by (intros m [<-|[<-|[]]]; now constructor).
    assert (Z : has animal 1) by now constructor.
    assert (S : forall z, shaped (Val [z] None) animal) by (intro z; now constructor).
    intuition auto.
  - repeat constructor; cbn in *; intuition (subst; reflexivity).
  - assert (Ed : empty_struct dog) by (now exists 0, [speak; walk]). assert (Er : empty_struct robot) by (now exists 1, [walk; speak]).
    constructor; [cbn; unfold iface; cbn; split; [discriminate|split; [exact Ed|intros m [<-|[<-|[]]]; assumption]]|].
    constructor; [reflexivity|]. constructor; [cbn; unfold iface; cbn; split; [discriminate|split; [exact Er|intros m [<-|[<-|[]]]; assumption]]|].
    constructor; [exact I|]. constructor; [exact I|]. constructor; [exact I|]. constructor; [exact A1|]. constructor; [exact I|]. constructor; [exact A1|]. constructor.
Qed.
(** Go runs a program with a promoted method and a value with fields in an interface. *)
Theorem C161_full_refuted : ~ C161_full.
Proof.
  intro F. assert (E : zig_run says farm [cat] at_first [Conv 1 3; Call 1 1] = Some (Some [2; 1; 7]%Z)).
  { rewrite F; [reflexivity|exact at_first_shaped|]. cbn. unfold implements, iface. cbn.
    split; [split; [|auto]|split; [split; auto|exact I]].
    intros m [<-|[]]. apply Promoted. apply Own. exists speak. cbn. auto. }
  discriminate E.
Qed.
