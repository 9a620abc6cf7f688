(** * Fields of structs of compiled programs (C160) *)
From Coq Require Import List Arith ZArith Bool Lia.
From Verif Require Import ZigSelModel ZigSelSpec.
Import ListNotations.

(** The property: every program is compiled, and does what it does in Go. *)
Definition C160_full : Prop := forall g p, (forall x, proper (g x)) -> Forall (typed g) p -> zig_run g p = Some (go_run g p).

Lemma position_nth : forall fs i n b u, NoDup (map (fun f => fst (fst f)) fs) -> nth_error fs i = Some (n, b, u) -> position n fs = Some i.
Proof.
  induction fs as [|[[m c] w] fs IH]; intros [|i] n b u D E; cbn in *; try discriminate.
  - injection E as -> -> ->. now rewrite Nat.eqb_refl.
  - inversion D as [|? ? D1 D2]; subst. rewrite (IH i n b u D2 E). destruct (m =? n) eqn:K; [|reflexivity].
    apply Nat.eqb_eq in K. subst m. exfalso. apply D1. apply nth_error_In in E. apply (in_map (fun f => fst (fst f))) in E. exact E.
Qed.
Lemma proper_fields : forall t, proper t -> NoDup (map (fun f => fst (fst f)) (fields_of t)).
Proof. intros t P. inversion P; subst; cbn; [constructor|assumption]. Qed.
Lemma proper_in : forall t i n b u, proper t -> nth_error (fields_of t) i = Some (n, b, u) -> proper u.
Proof.
  intros t i n b u P E. inversion P as [|fs D A]; subst; cbn in E; [destruct i; discriminate|]. apply nth_error_In in E. exact (A _ E).
Qed.
Lemma proper_at : forall idx t u, proper t -> type_at t idx = Some u -> proper u.
Proof.
  induction idx as [|i idx IH]; cbn; intros t u P E; [congruence|].
  destruct (nth_error (fields_of t) i) as [[[n b] w]|] eqn:N; [|discriminate]. apply (IH w u); [|assumption]. eapply proper_in; eassumption.
Qed.
Lemma zig_step : forall t i n b u r, proper t -> nth_error (fields_of t) i = Some (n, b, u) ->
  zig_path t (n :: r) = match zig_path u r with Some (l, w) => Some (i :: l, w) | None => None end.
Proof. intros t i n b u r P E. cbn. rewrite (position_nth _ i n b u (proper_fields t P) E). now rewrite E. Qed.
Lemma zig_app : forall l t a u m b w, zig_path t l = Some (a, u) -> zig_path u m = Some (b, w) -> zig_path t (l ++ m) = Some (a ++ b, w).
Proof.
  induction l as [|n l IH]; intros t a u m b w E M.
  - cbn in E. injection E as <- <-. exact M.
  - cbn in E |- *. destruct (position n (fields_of t)) as [i|]; [|discriminate].
    destruct (nth_error (fields_of t) i) as [[[n' b'] v]|]; [|discriminate].
    destruct (zig_path v l) as [[a' u']|] eqn:Z; [|discriminate]. injection E as <- <-.
    rewrite (IH v a' u' m b w Z M). reflexivity.
Qed.
Lemma zig_app_inv : forall l t m c w, zig_path t (l ++ m) = Some (c, w) -> exists a u b, zig_path t l = Some (a, u) /\ zig_path u m = Some (b, w) /\ c = a ++ b.
Proof.
  induction l as [|n l IH]; intros t m c w E.
  - exists [], t, c. cbn in *. auto.
  - cbn in E |- *. destruct (position n (fields_of t)) as [i|]; [|discriminate].
    destruct (nth_error (fields_of t) i) as [[[n' b'] v]|]; [|discriminate].
    destruct (zig_path v (l ++ m)) as [[c' w']|] eqn:Z; [|discriminate]. injection E as <- <-.
    destruct (IH v m c' w' Z) as (a & u & b & E1 & E2 & E3). rewrite E1. exists (i :: a), u, b. subst c'. auto.
Qed.
Lemma zig_length : forall l t a u, zig_path t l = Some (a, u) -> length a = length l.
Proof.
  induction l as [|n l IH]; cbn; intros t a u E.
  - injection E as <- <-. reflexivity.
  - destruct (position n (fields_of t)) as [i|]; [|discriminate].
    destruct (nth_error (fields_of t) i) as [[[n' b'] v]|]; [|discriminate].
    destruct (zig_path v l) as [[a' u']|] eqn:Z; [|discriminate]. injection E as <- <-. cbn. f_equal. eapply IH. eassumption.
Qed.
(** The names of fields one in the other lead to them. *)
Lemma path_zig : forall ps t ms, proper t -> path t ps = Some ms -> exists u, zig_path t ms = Some (ps, u) /\ type_at t ps = Some u.
Proof.
  induction ps as [|i ps IH]; cbn; intros t ms P E.
  - injection E as <-. exists t. auto.
  - destruct (nth_error (fields_of t) i) as [[[n b] u]|] eqn:N; [|discriminate].
    destruct (path u ps) as [l|] eqn:L; [|discriminate]. injection E as <-.
    destruct (IH u l (proper_in _ _ _ _ _ P N) L) as (w & W & T). exists w. rewrite (zig_step t i n b u l P N), W. auto.
Qed.
Lemma reaches_path : forall t f idx, reaches t f idx -> proper t -> forall u, type_at t idx = Some u ->
  exists ms, path t (firstn (length idx - 1) idx) = Some ms /\ zig_path t (ms ++ [f]) = Some (idx, u).
Proof.
  intros t f idx R. induction R as [t f i b v N|t f i n v idx N R IH]; intros P u T.
  - exists []. split; [reflexivity|]. cbn [app]. rewrite (zig_step t i f b v [] P N). cbn in T. rewrite N in T. injection T as <-. reflexivity.
  - cbn [type_at] in T. rewrite N in T. destruct (IH (proper_in _ _ _ _ _ P N) u T) as (ms & M & Z).
    exists (n :: ms). assert (K : length (i :: idx) - 1 = S (length idx - 1)) by (destruct R; cbn; lia).
    rewrite K. cbn [firstn path app]. rewrite N, M. split; [reflexivity|]. rewrite (zig_step t i n true v (ms ++ [f]) P N), Z. reflexivity.
Qed.

Lemma place_same : forall g p t, (forall x, proper (g x)) -> well_selected g p -> all_leading p -> type_of g p = Some t ->
  exists ns, names g p = Some ns /\ zig_path (g (root p)) ns = Some (go_place p, t).
Proof.
  intros g p. induction p as [x|p IH f idx]; intros t P W L T.
  - exists []. cbn in *. injection T as <-. auto.
  - cbn [well_selected all_leading type_of] in *. destruct W as (W & u & U & R & _). destruct L as [L1 L2]. rewrite U in T.
    destruct (IH u P W L1 U) as (ns & N & Z).
    assert (Pu : proper u).
    { clear - P U. revert u U. induction p as [x|p IH f idx]; cbn; intros u U; [injection U as <-; apply P|].
      destruct (type_of g p) as [v|]; [|discriminate]. apply proper_at with (idx := idx) (t := v); auto. }
    destruct (reaches_path u f idx R Pu t T) as (ms & M & Y).
    exists (ns ++ ms ++ [f]). cbn [names root go_place]. rewrite N, U. rewrite <- L2, M. split; [reflexivity|]. eapply zig_app; eassumption.
Qed.
Lemma loc_same : forall g p t, (forall x, proper (g x)) -> well_selected g p -> all_leading p -> type_of g p = Some t ->
  zig_loc g p = Some (go_loc p, t).
Proof.
  intros g p t P W L T. destruct (place_same g p t P W L T) as (ns & N & Z). unfold zig_loc, go_loc. now rewrite N, Z.
Qed.
Lemma same_type_refl : forall t, same_type t t = true.
Proof.
  fix IH 1. intros [|fs]; cbn [same_type]; [reflexivity|]. induction fs as [|[[n b] t] fs IHl]; [reflexivity|].
  rewrite Nat.eqb_refl, Bool.eqb_reflx, (IH t). exact IHl.
Qed.
(** Where every field that is promoted leads there by first, second, ... fields, what is
    compiled does what Go does. *)
Theorem C160_leading_partial : forall g p, (forall x, proper (g x)) -> Forall (typed g) p -> Forall leading_in p ->
  zig_run g p = Some (go_run g p).
Proof.
  intros g p P T L. unfold zig_run, go_run.
  assert (C : compile g p = Some (map go_cmd p)); [|now rewrite C].
  induction p as [|c p IH]; [reflexivity|]. inversion T; inversion L; subst. cbn [compile map].
  rewrite IH by assumption. assert (K : zig_cmd g c = Some (go_cmd c)); [|now rewrite K].
  destruct c as [p0 [z|q]|p0]; cbn [typed leading_in zig_cmd go_cmd] in *.
  - rewrite (loc_same g p0 TInt); [reflexivity|assumption|unfold an_int in *; tauto|assumption|unfold an_int in *; tauto].
  - destruct H1 as (W1 & W2 & t & T1 & T2). rewrite (loc_same g p0 t), (loc_same g q t); try assumption; try tauto. now rewrite same_type_refl.
  - rewrite (loc_same g p0 TInt); [reflexivity|assumption|unfold an_int in *; tauto|assumption|unfold an_int in *; tauto].
Qed.

(** ** Programs of Go do not get stuck, and an assignment changes what it is to. *)
Inductive shaped : val -> ty -> Prop :=
| SInt : forall z, shaped (VInt z) TInt
| SStruct : forall l fs, Forall2 (fun v f => shaped v (snd f)) l fs -> shaped (VStruct l) (TStruct fs).
Lemma zero_shaped : forall t, shaped (zero t) t.
Proof.
  fix IH 1. intros [|fs]; cbn [zero]; constructor. induction fs as [|f fs IHl]; cbn [map]; constructor; [apply IH|exact IHl].
Qed.
Lemma forall2_nth : forall A B (R : A -> B -> Prop) l m i y, Forall2 R l m -> nth_error m i = Some y -> exists x, nth_error l i = Some x /\ R x y.
Proof.
  intros A B R l m i y F. revert i. induction F; intros [|i] E; cbn in *; try discriminate; [injection E as <-; eauto|eauto].
Qed.
Lemma get_shaped : forall idx v t u, shaped v t -> type_at t idx = Some u -> exists w, get v idx = Some w /\ shaped w u.
Proof.
  induction idx as [|i idx IH]; cbn; intros v t u S T.
  - injection T as <-. eauto.
  - destruct (nth_error (fields_of t) i) as [[[n b] s]|] eqn:N; [|discriminate].
    inversion S as [|l fs F]; subst; cbn in N; [destruct i; discriminate|].
    destruct (forall2_nth _ _ _ l fs i _ F N) as (w & E & W). rewrite E. exact (IH w s u W T).
Qed.
Lemma put_shaped : forall idx v t u w, shaped v t -> type_at t idx = Some u -> shaped w u -> shaped (put idx w v) t.
Proof.
  induction idx as [|i idx IH]; cbn; intros v t u w S T W.
  - now injection T as <-.
  - destruct (nth_error (fields_of t) i) as [[[n b] s]|] eqn:N; [|discriminate].
    inversion S as [|l fs F]; subst; cbn in N; [destruct i; discriminate|]. constructor.
    revert i N. induction F as [|v0 f l fs R F IHF]; intros [|i] N; cbn in *; try discriminate.
    + injection N as ->. constructor; [exact (IH v0 s u w R T W)|assumption].
    + constructor; [assumption|]. apply IHF; [|exact N]. now constructor.
Qed.
Lemma get_put : forall idx v t u w, shaped v t -> type_at t idx = Some u -> get (put idx w v) idx = Some w.
Proof.
  induction idx as [|i idx IH]; cbn; intros v t u w S T; [reflexivity|].
  destruct (nth_error (fields_of t) i) as [[[n b] s]|] eqn:N; [|discriminate].
  inversion S as [|l fs F]; subst; cbn in N; [destruct i; discriminate|]. cbn.
  assert (X : exists v0, nth_error l i = Some v0 /\ nth_error (change i (put idx w) l) i = Some (put idx w v0) /\ shaped v0 s).
  { clear S. revert i N. induction F as [|v0 f l fs R F IHF]; intros [|i] N; cbn in *; try discriminate.
    - injection N as ->. eauto.
    - now apply IHF. }
  destruct X as (v0 & _ & E & W). rewrite E. eauto.
Qed.
Lemma type_place : forall g p, type_of g p = type_at (g (root p)) (go_place p).
Proof.
  intros g p. induction p as [x|p IH f idx]; [reflexivity|]. cbn [type_of root go_place]. rewrite IH. clear IH.
  generalize (g (root p)) as t. induction (go_place p) as [|i l IHl]; cbn; intro t; [reflexivity|].
  destruct (nth_error (fields_of t) i) as [[[n b] u]|]; [apply IHl|reflexivity].
Qed.
Definition all_shaped (g : env) (s : state) : Prop := forall x, shaped (vars s x) (g x).
Lemma write_shaped : forall g s x v, all_shaped g s -> shaped v (g x) -> all_shaped g (write x v s).
Proof. intros g s x v A S y. cbn. destruct (y =? x) eqn:E; [apply Nat.eqb_eq in E; now subst y|apply A]. Qed.
Lemma do_shaped : forall g c s, typed g c -> all_shaped g s -> exists s', do (go_cmd c) s = Some s' /\ all_shaped g s'.
Proof.
  intros g c s T A. destruct c as [p [z|q]|p]; cbn [typed go_cmd do] in *.
  - destruct T as [_ T]. rewrite type_place in T. eexists. split; [reflexivity|]. apply write_shaped; [assumption|]. apply put_shaped with (u := TInt); [apply A|assumption|constructor].
  - destruct T as (_ & _ & t & T & Tq). rewrite type_place in T, Tq. destruct (get_shaped _ _ _ _ (A (root q)) Tq) as (w & E & W).
    unfold fetch, go_loc. cbn [fst snd]. rewrite E. eexists. split; [reflexivity|]. apply write_shaped; [assumption|]. apply put_shaped with (u := t); [apply A|assumption|assumption].
  - destruct T as [_ T]. rewrite type_place in T. destruct (get_shaped _ _ _ _ (A (root p)) T) as (w & E & W).
    unfold fetch, go_loc. cbn [fst snd]. rewrite E. eexists. split; [reflexivity|exact A].
Qed.
Theorem C160_go_runs : forall g p, Forall (typed g) p -> exists s, go_run g p = Some s.
Proof.
  intros g p T. unfold go_run. assert (A : all_shaped g (start g)) by (intro; apply zero_shaped).
  revert A. generalize (start g). induction T as [|c p T1 T2 IH]; intros s A; [eexists; reflexivity|].
  cbn [map do_all]. destruct (do_shaped g c s T1 A) as (s' & E & A'). rewrite E. now apply IH.
Qed.
Theorem C160_go_assigned : forall g p q z s, Forall (typed g) p -> typed g (Set_ q (Int z)) -> go_run g p = Some s ->
  exists s', go_run g (p ++ [Set_ q (Int z); Print q]) = Some s' /\ out s' = out s ++ [VInt z].
Proof.
  intros g p q z s T [_ Tq] R. rewrite type_place in Tq. unfold go_run in *.
  assert (A : all_shaped g (start g)) by (intro; apply zero_shaped).
  revert A R. generalize (start g). induction T as [|c p T1 T2 IH]; intros s0 A R.
  - cbn in R. injection R as ->.
    exists {| vars := vars (write (root q) (put (go_place q) (VInt z) (vars s (root q))) s); out := out s ++ [VInt z] |}. split; [|reflexivity].
    cbn [app map go_cmd do_all do go_loc fst snd]. unfold fetch. cbn [fst snd write vars out].
    rewrite Nat.eqb_refl, (get_put _ _ _ _ _ (A (root q)) Tq). reflexivity.
  - cbn [map do_all app] in *. destruct (do_shaped g c s0 T1 A) as (s' & E & A'). rewrite E in *. now apply IH.
Qed.

(** ** Where the parser looks is where the field is exactly when the field leads there. *)
Theorem C160_exactly : forall g x f idx t, (forall x, proper (g x)) -> selects (g x) f idx -> type_at (g x) idx = Some t ->
  ((exists u, zig_loc g (Sel (Var x) f idx) = Some ((x, idx), u)) <-> leading idx).
Proof.
  intros g x f idx t P S T. split.
  - intros [w E]. revert E. unfold zig_loc. cbn [names type_of root app].
    destruct (path (g x) (seq 0 (length idx - 1))) as [m|] eqn:M; [|discriminate].
    destruct (zig_path (g x) (m ++ [f])) as [[l v]|] eqn:Z; intro E; try discriminate. injection E as -> ->.
    destruct (path_zig _ _ _ (P x) M) as (u & U & _).
    destruct (zig_app_inv _ _ _ _ _ Z) as (a & u' & b & E1 & E2 & E3). rewrite U in E1. injection E1 as <- <-.
    unfold leading. rewrite E3 at 2. rewrite firstn_app, seq_length, Nat.sub_diag. cbn [firstn]. rewrite app_nil_r.
    rewrite firstn_all2; [reflexivity|now rewrite seq_length].
  - intro L. exists t. rewrite (loc_same g (Sel (Var x) f idx) t P); [reflexivity| | |].
    + cbn. split; [exact I|eauto].
    + cbn. auto.
    + exact T.
Qed.

(** Where the first field is an int, no field of a struct in it is found; from the third
    depth on the parser panics. *)
Theorem C160_first_int_refuted : forall g x f idx n b fs, g x = TStruct ((n, b, TInt) :: fs) -> 2 <= length idx ->
  zig_loc g (Sel (Var x) f idx) = None /\ (3 <= length idx -> names g (Sel (Var x) f idx) = None).
Proof.
  intros g x f idx n b fs G L. destruct (length idx) as [|[|k]] eqn:K; [lia|lia|].
  unfold zig_loc. cbn [names type_of root app]. rewrite G, K. cbn [Nat.sub seq path fields_of nth_error].
  destruct k as [|k].
  - split; [|lia]. cbn [seq path app zig_path fields_of position nth_error]. rewrite Nat.eqb_refl. reflexivity.
  - cbn [seq path fields_of nth_error]. auto.
Qed.
(** A struct with a field that has the name of one that a later field promotes:
    [type T struct { a struct { f int }; e }], e a struct with a field f. x.f = z does not
    change x.e.f but x.a.f. *)
Definition shadowed (a e f : nat) : ty := TStruct [(a, false, TStruct [(f, false, TInt)]); (e, true, TStruct [(f, false, TInt)])].
Definition promoted (e f : nat) (z : Z) : list stmt := [Set_ (Sel (Var 0) f [1; 0]) (Int z); Print (Sel (Sel (Var 0) e [1]) f [0])].
Lemma reaches_shadowed : forall a e f idx, a <> e -> f <> a -> f <> e -> reaches (shadowed a e f) f idx -> idx = [1; 0].
Proof.
  intros a e f idx A B C R. inversion R as [t f0 i b u N|t f0 i n u l N R']; subst.
  - destruct i as [|[|i]]; cbn in N; [congruence|congruence|destruct i; discriminate].
  - destruct i as [|[|i]]; cbn in N; [discriminate| |destruct i; discriminate]. injection N as <- <-.
    inversion R' as [t f0 i b u N|t f0 i n u l' N R'']; subst; destruct i as [|i]; cbn in N; try reflexivity; try discriminate; destruct i; discriminate.
Qed.
Lemma promoted_typed : forall a e f z, a <> e -> f <> a -> f <> e -> Forall (typed (fun _ => shadowed a e f)) (promoted e f z) /\ proper (shadowed a e f).
Proof.
  intros a e f z A B C. split.
  - assert (S1 : selects (shadowed a e f) f [1; 0]).
    { split; [eapply Inside; [reflexivity|]; eapply Here; reflexivity|]. intros o R. right. now apply (reaches_shadowed a e f). }
    assert (S2 : selects (shadowed a e f) e [1]).
    { split; [eapply Here; reflexivity|]. intros o R. inversion R as [t f0 i b u N|t f0 i n u l N R']; subst.
      - destruct i as [|[|i]]; cbn in N; [congruence|auto|destruct i; discriminate].
      - left. destruct R'; cbn; lia. }
    assert (S3 : selects (TStruct [(f, false, TInt)]) f [0]).
    { split; [eapply Here; reflexivity|]. intros o R. inversion R as [t f0 i b u N|t f0 i n u l N R']; subst.
      - destruct i as [|i]; [auto|destruct i; discriminate].
      - left. destruct R'; cbn; lia. }
    unfold promoted. constructor; [|constructor; [|constructor]]; cbn [typed].
    + split; [|reflexivity]. cbn. split; [exact I|]. exists (shadowed a e f). auto.
    + split; [|reflexivity]. cbn. split; [split; [exact I|]; exists (shadowed a e f); auto|]. exists (TStruct [(f, false, TInt)]). auto.
  - assert (Q : proper (TStruct [(f, false, TInt)])).
    { constructor; [cbn; constructor; [tauto|constructor]|]. intros x [<-|[]]. constructor. }
    constructor; [cbn; constructor; [cbn; intuition congruence|constructor; [tauto|constructor]]|]. intros x [<-|[<-|[]]]; exact Q.
Qed.
Theorem C160_wrong_field_refuted : forall a e f z, a <> e -> f <> a -> f <> e ->
  option_map out (go_run (fun _ => shadowed a e f) (promoted e f z)) = Some [VInt z] /\
  exists s, zig_run (fun _ => shadowed a e f) (promoted e f z) = Some (Some s) /\ out s = [VInt 0] /\ vars s 0 = VStruct [VStruct [VInt z]; VStruct [VInt 0]].
Proof.
  intros a e f z A B C. split; [reflexivity|].
  apply Nat.eqb_neq in A. unfold zig_run, compile, promoted, zig_cmd, zig_loc.
  cbn [names type_of root app length Nat.sub seq path shadowed fields_of nth_error type_at zig_path position].
  rewrite !Nat.eqb_refl, A. cbn. rewrite !Nat.eqb_refl, ?A. cbn. eexists. split; [reflexivity|]. split; reflexivity.
Qed.
Theorem C160_full_refuted : ~ C160_full.
Proof.
  intro F. destruct (C160_wrong_field_refuted 1 2 3 7) as (G & s & R & O & _); [lia|lia|lia|].
  destruct (promoted_typed 1 2 3 7) as (T & P); [lia|lia|lia|].
  pose proof (F (fun _ => shadowed 1 2 3) (promoted 2 3 7) (fun _ => P) T) as E.
  assert (K : go_run (fun _ => shadowed 1 2 3) (promoted 2 3 7) = Some s) by congruence.
  rewrite K in G. cbn [option_map] in G. rewrite O in G. discriminate.
Qed.

(** [type In struct { n int }; type Mid struct { m int; In }; type Out struct { Mid; k int }]:
    n of an Out has the index 0, 1, 0. *)
Definition inner : ty := TStruct [(13, false, TInt)].
Definition middle : ty := TStruct [(12, false, TInt); (22, true, inner)].
Definition outer : ty := TStruct [(21, true, middle); (11, false, TInt)].
Definition example : list stmt :=
  [Set_ (Sel (Var 0) 13 [0; 1; 0]) (Int 5); Set_ (Var 1) (From (Var 0)); Set_ (Sel (Var 2) 21 [0]) (From (Sel (Var 1) 21 [0])); Set_ (Sel (Var 0) 12 [0; 0]) (From (Sel (Sel (Sel (Var 2) 21 [0]) 22 [1]) 13 [0])); Print (Sel (Var 1) 13 [0; 1; 0])].
Theorem C160_example : (forall x, proper ((fun _ : nat => outer) x)) /\ Forall (typed (fun _ : nat => outer)) example /\ Forall leading_in example /\
  exists s, zig_run (fun _ : nat => outer) example = Some (Some s) /\ out s = [VInt 5] /\
    vars s 0 = VStruct [VStruct [VInt 5; VStruct [VInt 5]]; VInt 0] /\ vars s 1 = VStruct [VStruct [VInt 0; VStruct [VInt 5]]; VInt 0].
Proof.
  assert (Pi : proper inner) by (constructor; [cbn; constructor; [tauto|constructor]|intros x [<-|[]]; constructor]).
  assert (Pm : proper middle).
  { constructor; [cbn; constructor; [cbn; intuition congruence|constructor; [tauto|constructor]]|intros x [<-|[<-|[]]]; [constructor|exact Pi]]. }
  assert (Po : proper outer).
  { constructor; [cbn; constructor; [cbn; intuition congruence|constructor; [tauto|constructor]]|intros x [<-|[<-|[]]]; [exact Pm|constructor]]. }
  assert (R1 : forall f idx, reaches inner f idx -> f = 13 /\ idx = [0]).
  { intros f idx R. inversion R as [t f0 i b u N|t f0 i n u l N R']; subst; destruct i as [|i]; cbn in N; try discriminate; try (destruct i; discriminate). now injection N as <-. }
  assert (R2 : forall f idx, reaches middle f idx -> (f = 12 /\ idx = [0]) \/ (f = 22 /\ idx = [1]) \/ (f = 13 /\ idx = [1; 0])).
  { intros f idx R. inversion R as [t f0 i b u N|t f0 i n u l N R']; subst; destruct i as [|[|i]]; cbn in N; try discriminate; try (destruct i; discriminate).
    - injection N as <-. auto.
    - injection N as <-. auto.
    - injection N as <- <-. destruct (R1 f l R') as [-> ->]. auto. }
  assert (R3 : forall f idx, reaches outer f idx -> (f = 21 /\ idx = [0]) \/ (f = 11 /\ idx = [1]) \/
    (f = 12 /\ idx = [0; 0]) \/ (f = 22 /\ idx = [0; 1]) \/ (f = 13 /\ idx = [0; 1; 0])).
  { intros f idx R. inversion R as [t f0 i b u N|t f0 i n u l N R']; subst; destruct i as [|[|i]]; cbn in N; try discriminate; try (destruct i; discriminate).
    - injection N as <-. auto.
    - injection N as <-. auto.
    - injection N as <- <-. destruct (R2 f l R') as [[-> ->]|[[-> ->]|[-> ->]]]; auto 10. }
  assert (S1 : selects outer 13 [0; 1; 0]).
  { split; [eapply Inside; [reflexivity|]; eapply Inside; [reflexivity|]; eapply Here; reflexivity|]. intros o R. destruct (R3 _ _ R) as [[Q ->]|[[Q ->]|[[Q ->]|[[Q ->]|[Q ->]]]]]; try discriminate. auto. }
  assert (S2 : selects outer 12 [0; 0]).
  { split; [eapply Inside; [reflexivity|]; eapply Here; reflexivity|]. intros o R. destruct (R3 _ _ R) as [[Q ->]|[[Q ->]|[[Q ->]|[[Q ->]|[Q ->]]]]]; try discriminate. auto. }
  assert (S3 : selects outer 21 [0]).
  { split; [eapply Here; reflexivity|]. intros o R. destruct (R3 _ _ R) as [[Q ->]|[[Q ->]|[[Q ->]|[[Q ->]|[Q ->]]]]]; try discriminate. auto. }
  assert (S4 : selects middle 22 [1]).
  { split; [eapply Here; reflexivity|]. intros o R. destruct (R2 _ _ R) as [[Q ->]|[[Q ->]|[Q ->]]]; try discriminate. auto. }
  assert (S5 : selects inner 13 [0]).
  { split; [eapply Here; reflexivity|]. intros o R. destruct (R1 _ _ R) as [_ ->]. auto. }
  split; [intros _; exact Po|]. split; [|split].
  - unfold example. repeat (apply Forall_cons || apply Forall_nil); cbn [typed].
    + split; [cbn; split; [exact I|eauto]|reflexivity].
    + split; [exact I|]. split; [exact I|]. exists outer. auto.
    + split; [cbn; split; [exact I|eauto]|]. split; [cbn; split; [exact I|eauto]|]. exists middle. auto.
    + split; [cbn; split; [exact I|eauto]|]. split; [cbn; split; [split; [split; [exact I|eauto]|eauto]|eauto]|]. exists TInt. auto.
    + split; [cbn; split; [exact I|eauto]|reflexivity].
  - unfold example. repeat (apply Forall_cons || apply Forall_nil); cbn; unfold leading; cbn; auto.
  - eexists. split; [vm_compute; reflexivity|]. split; [reflexivity|]. split; reflexivity.
Qed.
