From Verif Require Import GoBase BaseLemmas KvsModel KvsProofs SqlRamModel SqlRamSpec SqlRamProofs SqlConcModel.
From Coq Require Import Permutation.

Section Conc.
Context {K V : Type} (keq : forall a b : K, {a = b} + {a <> b}) (zk : K) (zv : V).
Context (key_of : Z -> K).
Local Notation op := (@op K V).
Local Notation res := (@res K V).
Local Notation table := (@KvsModel.table K V).
Local Notation conf := (conf K V).
Local Notation step := (step keq zk zv key_of).
Local Notation steps := (steps keq zk zv key_of).
Local Notation run := (do_ops keq zk zv (fun d => Some (key_of d))).

Lemma upd_same f t (s : tstate K V) : upd f t s t = s.
Proof. unfold upd. now rewrite Nat.eqb_refl. Qed.
Lemma upd_other f t (s : tstate K V) t' : t' <> t -> upd f t s t' = f t'.
Proof. intros N. unfold upd. destruct (Nat.eqb_spec t' t); congruence. Qed.

(** ** Mutual exclusion makes Mutate and Delete atomic *)
Definition locked_only (o : op) : Prop :=
  match o with ODelete _ _ | OMutate _ _ _ | OLookup _ => True | _ => False end.

Definition critical (s : tstate K V) : Prop :=
  match s with Locked _ | Loaded _ _ | Finished => True | _ => False end.

Definition seq_ok (m0 m : table) (lg : list (event K V)) : Prop :=
  run (Build_ram m0 0) (map e_op lg) = (Build_ram m 0, map e_res lg).

Lemma run_snoc os : forall r o r1 xs r2 x,
  run r os = (r1, xs) -> do_op keq zk zv (fun d => Some (key_of d)) r1 o = (r2, x) ->
  run r (os ++ [o]) = (r2, xs ++ [x]).
Proof.
  induction os as [|p os IH]; intros r o r1 xs r2 x H D; cbn [app do_ops] in *.
  - injection H as <- <-. now rewrite D.
  - destruct (do_op keq zk zv (fun d => Some (key_of d)) r p) as [ra xa].
    destruct (do_ops keq zk zv (fun d => Some (key_of d)) ra os) as [rb xb] eqn:E.
    injection H as <- <-. rewrite (IH ra o rb xb r2 x E D). reflexivity.
Qed.

Lemma seq_snoc m0 m lg t o x d m' :
  seq_ok m0 m lg -> do_op keq zk zv (fun d => Some (key_of d)) (Build_ram m 0) o = (Build_ram m' 0, x) ->
  seq_ok m0 m' (lg ++ [Build_event t o x d]).
Proof.
  unfold seq_ok. intros H D. rewrite !map_app. cbn [map e_op e_res]. eapply run_snoc; eassumption.
Qed.

Record inv (m0 : table) (c : conf) : Prop := {
  i_seq : seq_ok m0 (c_map c) (c_log c);
  i_lock : forall t, critical (c_threads c t) -> c_lock c = Some t;
  i_loaded : forall t o v, c_threads c t = Loaded o v -> load_ok keq zk (c_map c) o = Some v;
  i_locking : forall t o, c_threads c t = Locked o \/ (exists v, c_threads c t = Loaded o v) -> locking o;
  i_noadd : forall t d v, c_threads c t <> AddGot d v
}.

Lemma load_ok_fail m o : locking o -> load_ok keq zk m o = None ->
  do_op keq zk zv (fun d => Some (key_of d)) (Build_ram m 0) o = (Build_ram m 0, RBool false).
Proof.
  intros L H. unfold load_ok in H. destruct o as [| |k c|k c p| |]; try contradiction;
    cbn [op_key op_check do_op] in *; unfold delete, mutate; cbn [r_map];
    (destruct (load keq m k) as [v|]; [|reflexivity]);
    (destruct (match c with None => true | Some c => match_ (c v) end); [discriminate|reflexivity]).
Qed.
Lemma load_ok_mutate m k c p v : load_ok keq zk m (OMutate k c p) = Some v ->
  do_op keq zk zv (fun d => Some (key_of d)) (Build_ram m 0) (OMutate k c p)
  = (Build_ram (store keq m k (p v)) 0, RBool true).
Proof.
  intros H. unfold load_ok in H. cbn [op_key op_check do_op] in *. unfold mutate. cbn [r_map r_id].
  destruct (load keq m k) as [w|]; [|discriminate].
  destruct (match c with None => true | Some c => match_ (c w) end); [|discriminate].
  injection H as ->. reflexivity.
Qed.
Lemma load_ok_delete m k c v : load_ok keq zk m (ODelete k c) = Some v ->
  do_op keq zk zv (fun d => Some (key_of d)) (Build_ram m 0) (ODelete k c)
  = (Build_ram (remove keq m k) 0, RBool true).
Proof.
  intros H. unfold load_ok in H. cbn [op_key op_check do_op] in *. unfold delete. cbn [r_map r_id].
  destruct (load keq m k) as [w|]; [|discriminate].
  destruct (match c with None => true | Some c => match_ (c w) end); [|discriminate].
  reflexivity.
Qed.

Ltac upd_cases t' t :=
  destruct (Nat.eq_dec t' t) as [->|]; [rewrite upd_same in *|rewrite upd_other in * by assumption].

Lemma inv_step m0 c c' : inv m0 c -> step locked_only c c' -> inv m0 c'.
Proof.
  intros [I1 I2 I3 I4 I5] S. destruct S as [m i l th lg t v A T|m i l th lg t d v m' ex T LS
    |m i l th lg t o r' x A T O D|m i th lg t o A L T|m i l th lg t o T F|m i l th lg t o v T F
    |m i l th lg t k c p v T|m i l th lg t k c v T|m i l th lg t T];
    cbn [c_map c_log c_threads c_lock c_id] in *.
  - destruct A.
  - exfalso. exact (I5 _ _ _ T).
  - destruct o as [| | | | |k]; try contradiction. cbn [do_op] in D.
    destruct (lookup keq zv (Build_ram m i) k) as [w b] eqn:E. injection D as <- <-. cbn [r_map].
    constructor; cbn [c_map c_log c_threads c_lock]; auto.
    eapply seq_snoc; [exact I1|]. cbn [do_op]. unfold lookup in *. cbn [r_map] in *.
    destruct (load keq m k); injection E as <- <-; reflexivity.
  - constructor; cbn [c_map c_log c_threads c_lock].
    + exact I1.
    + intros t' C. upd_cases t' t; [reflexivity|]. apply I2 in C. discriminate.
    + intros t' o' v' C. upd_cases t' t; [discriminate|eauto].
    + intros t' o' C. upd_cases t' t; [|eauto]. destruct C as [C|[v' C]]; [|discriminate].
      injection C as <-. exact L.
    + intros t' d' v' C. upd_cases t' t; [discriminate|exact (I5 _ _ _ C)].
  - assert (LO : locking o) by (apply (I4 t); left; exact T).
    constructor; cbn [c_map c_log c_threads c_lock].
    + eapply seq_snoc; [exact I1|]. now apply load_ok_fail.
    + intros t' C. upd_cases t' t; [|auto]. apply I2. rewrite T. exact I.
    + intros t' o' v' C. upd_cases t' t; [discriminate|eauto].
    + intros t' o' C. upd_cases t' t; [destruct C as [C|[v' C]]; discriminate|eauto].
    + intros t' d' v' C. upd_cases t' t; [discriminate|exact (I5 _ _ _ C)].
  - assert (LO : locking o) by (apply (I4 t); left; exact T).
    constructor; cbn [c_map c_log c_threads c_lock].
    + exact I1.
    + intros t' C. upd_cases t' t; [|auto]. apply I2. rewrite T. exact I.
    + intros t' o' v' C. upd_cases t' t; [injection C as <- <-; exact F|eauto].
    + intros t' o' C. upd_cases t' t; [|eauto]. destruct C as [C|[v' C]]; [discriminate|].
      injection C as <- <-. exact LO.
    + intros t' d' v' C. upd_cases t' t; [discriminate|exact (I5 _ _ _ C)].
  - assert (LK : l = Some t) by (apply I2; rewrite T; exact I).
    constructor; cbn [c_map c_log c_threads c_lock].
    + eapply seq_snoc; [exact I1|]. apply load_ok_mutate. eauto.
    + intros t' C. upd_cases t' t; [exact LK|auto].
    + intros t' o' v' C. upd_cases t' t; [discriminate|].
      assert (l = Some t') by (apply I2; rewrite C; exact I). congruence.
    + intros t' o' C. upd_cases t' t; [destruct C as [C|[v' C]]; discriminate|eauto].
    + intros t' d' v' C. upd_cases t' t; [discriminate|exact (I5 _ _ _ C)].
  - assert (LK : l = Some t) by (apply I2; rewrite T; exact I).
    constructor; cbn [c_map c_log c_threads c_lock].
    + eapply seq_snoc; [exact I1|]. eapply load_ok_delete. eauto.
    + intros t' C. upd_cases t' t; [exact LK|auto].
    + intros t' o' v' C. upd_cases t' t; [discriminate|].
      assert (l = Some t') by (apply I2; rewrite C; exact I). congruence.
    + intros t' o' C. upd_cases t' t; [destruct C as [C|[v' C]]; discriminate|eauto].
    + intros t' d' v' C. upd_cases t' t; [discriminate|exact (I5 _ _ _ C)].
  - assert (LK : l = Some t) by (apply I2; rewrite T; exact I).
    constructor; cbn [c_map c_log c_threads c_lock].
    + exact I1.
    + intros t' C. upd_cases t' t; [destruct C|]. apply I2 in C. congruence.
    + intros t' o' v' C. upd_cases t' t; [discriminate|eauto].
    + intros t' o' C. upd_cases t' t; [destruct C as [C|[v' C]]; discriminate|eauto].
    + intros t' d' v' C. upd_cases t' t; [discriminate|exact (I5 _ _ _ C)].
Qed.

Lemma inv_steps m0 c : steps locked_only (start m0) c -> inv m0 c.
Proof.
  intros H. remember (start m0) as s eqn:E. induction H as [c|c c1 c2 H IH S]; subst.
  - constructor; cbn [start c_map c_log c_threads c_lock critical].
    + reflexivity.
    + intros t [].
    + discriminate.
    + intros t o [C|[v C]]; discriminate.
    + discriminate.
  - eapply inv_step; [apply IH; reflexivity|exact S].
Qed.

Lemma mutual_exclusion m0 c t t' : steps locked_only (start m0) c ->
  critical (c_threads c t) -> critical (c_threads c t') -> t = t'.
Proof.
  intros H C C'. destruct (inv_steps m0 c H) as [_ L _ _ _].
  apply L in C. apply L in C'. congruence.
Qed.

(** ** Keys drawn by Add *)
Lemma NoDup_app_snoc {A} (l : list A) x : NoDup l -> ~ In x l -> NoDup (l ++ [x]).
Proof.
  intros N H. apply NoDup_rev in N. rewrite <- (rev_involutive (l ++ [x])). apply NoDup_rev.
  rewrite rev_app_distr. cbn [rev app]. constructor; [|exact N]. now rewrite <- in_rev.
Qed.

Record dinv (n : Z) (c : conf) : Prop := {
  d_lk : forall t o, c_threads c t = Locked o -> locking o;
  d_n : 0 <= n;
  d_id : c_id c = u64 n;
  d_pend : forall t d v, c_threads c t = AddGot d v -> exists i, 1 <= i <= n /\ d = u64 i;
  d_pend_uniq : forall t t' d v v', c_threads c t = AddGot d v -> c_threads c t' = AddGot d v' -> t = t';
  d_log : forall e, In e (c_log c) -> (exists v, e_op e = OAdd v) ->
     exists i, 1 <= i <= n /\ e_draw e = u64 i;
  d_log_pend : forall t d v e, c_threads c t = AddGot d v -> In e (c_log c) ->
     (exists v, e_op e = OAdd v) -> e_draw e <> d;
  d_key : forall e v, In e (c_log c) -> e_op e = OAdd v -> exists er, e_res e = RKey (key_of (e_draw e)) er;
  d_nodup : NoDup (map e_draw (filter (fun e => match e_op e with OAdd _ => true | _ => false end) (c_log c)))
}.

(** number of draws so far *)
Inductive steps_n (allowed : op -> Prop) : conf -> Z -> conf -> Prop :=
| sn_refl c : steps_n allowed c 0 c
| sn_draw c n c1 c2 : steps_n allowed c n c1 -> step allowed c1 c2 -> c_id c2 <> c_id c1 ->
    steps_n allowed c (n + 1) c2
| sn_other c n c1 c2 : steps_n allowed c n c1 -> step allowed c1 c2 -> c_id c2 = c_id c1 ->
    steps_n allowed c n c2.

Lemma u64_succ n : u64 (u64 n + 1) = u64 (n + 1).
Proof. unfold u64. rewrite Zplus_mod_idemp_l. reflexivity. Qed.
Lemma u64_small i : 0 <= i < 2^64 -> u64 i = i.
Proof. intros. unfold u64. now apply Z.mod_small. Qed.
Lemma u64_ne n : u64 (u64 n + 1) <> u64 n.
Proof.
  unfold u64. rewrite Zplus_mod_idemp_l. intros H.
  pose proof (Z.mod_pos_bound n (2^64) ltac:(lia)).
  assert ((n + 1 - n) mod 2^64 = 0) by (rewrite Zminus_mod, H, Z.sub_diag; reflexivity).
  replace (n + 1 - n) with 1 in H1 by lia. discriminate.
Qed.

Lemma dinv_quiet n c th l m lg' :
  dinv n c ->
  (forall t d v, th t = AddGot d v -> c_threads c t = AddGot d v) ->
  (forall t o, th t = Locked o -> locking o) ->
  (lg' = [] \/ exists e, lg' = [e] /\ forall v, e_op e <> OAdd v) ->
  dinv n (Build_conf m (c_id c) l th (c_log c ++ lg')).
Proof.
  intros [DL D0 D1 D2 D3 D4 D5 D6 D7] HT HK HL.
  assert (IN : forall e, In e (c_log c ++ lg') -> (exists v, e_op e = OAdd v) -> In e (c_log c)).
  { intros e H (v & E). apply in_app_iff in H. destruct H as [H|H]; [exact H|].
    destruct HL as [->|(x & -> & N)]; [destruct H|]. destruct H as [<-|[]]. exfalso. exact (N v E). }
  constructor; cbn [c_id c_threads c_log]; auto.
  - intros. eauto.
  - intros t t' d v v' H H'. eauto.
  - intros. eapply D5; eauto.
  - intros e v H E. eapply D6; eauto.
  - rewrite filter_app. destruct HL as [->|(x & -> & N)]; cbn [filter].
    + now rewrite app_nil_r.
    + destruct (e_op x) eqn:E; try (now rewrite app_nil_r). exfalso. exact (N v eq_refl).
Qed.

Lemma dinv_step allowed n c c' : (c_id c' <> c_id c -> n < 2^64 - 1) -> dinv n c -> step allowed c c' ->
  dinv (if Z.eq_dec (c_id c') (c_id c) then n else n + 1) c'.
Proof.
  intros B D S. pose proof (d_lk _ _ D) as LK0.
  assert (Q : forall m l th lg', c' = Build_conf m (c_id c) l th (c_log c ++ lg') ->
    (forall t d v, th t = AddGot d v -> c_threads c t = AddGot d v) ->
    (forall t o, th t = Locked o -> locking o) ->
    (lg' = [] \/ exists e, lg' = [e] /\ forall v, e_op e <> OAdd v) ->
    dinv (if Z.eq_dec (c_id c') (c_id c) then n else n + 1) c').
  { intros m l th lg' -> HT HK HL. cbn [c_id]. destruct (Z.eq_dec (c_id c) (c_id c)); [|congruence].
    now apply dinv_quiet. }
  destruct S as [m i l th lg t v A T|m i l th lg t d v m' ex T LS
    |m i l th lg t o r' x A T O D'|m i th lg t o A L T|m i l th lg t o T F|m i l th lg t o v T F
    |m i l th lg t k c p v T|m i l th lg t k c v T|m i l th lg t T];
    cbn [c_map c_log c_threads c_lock c_id] in *.
  - (* draw *)
    destruct D as [DL D0 D1 D2 D3 D4 D5 D6 D7]; cbn [c_map c_log c_threads c_lock c_id] in *. subst i.
    destruct (Z.eq_dec (u64 (u64 n + 1)) (u64 n)) as [E|_]; [exfalso; exact (u64_ne n E)|].
    specialize (B (u64_ne n)).
    rewrite u64_succ.
    assert (FR : forall i, 1 <= i <= n -> u64 i <> u64 (n + 1))
      by (intros i Hi; rewrite !u64_small by lia; lia).
    constructor; cbn [c_map c_log c_threads c_lock c_id].
    + intros t' o' C. upd_cases t' t; [discriminate|eauto].
    + lia.
    + reflexivity.
    + intros t' d' v' C. upd_cases t' t.
      * injection C as <- <-. exists (n + 1). split; [lia|reflexivity].
      * destruct (D2 _ _ _ C) as (i & Hi & ->). exists i. split; [lia|reflexivity].
    + intros t1 t2 d' v1 v2 C1 C2.
      destruct (Nat.eq_dec t1 t) as [->|N1]; destruct (Nat.eq_dec t2 t) as [->|N2]; [reflexivity| | |].
      * rewrite upd_same in C1. rewrite upd_other in C2 by assumption. injection C1 as <- <-.
        destruct (D2 _ _ _ C2) as (i & Hi & E). exfalso. exact (FR i Hi (eq_sym E)).
      * rewrite upd_same in C2. rewrite upd_other in C1 by assumption. injection C2 as <- <-.
        destruct (D2 _ _ _ C1) as (i & Hi & E). exfalso. exact (FR i Hi (eq_sym E)).
      * rewrite upd_other in C1, C2 by assumption. eauto.
    + intros e H E. destruct (D4 e H E) as (i & Hi & ->). exists i. split; [lia|reflexivity].
    + intros t' d' v' e C H E. upd_cases t' t.
      * injection C as <- <-. destruct (D4 e H E) as (i & Hi & ->). now apply FR.
      * eauto.
    + exact D6.
    + exact D7.
  - (* store *)
    destruct (Z.eq_dec i i); [|congruence].
    destruct D as [DL D0 D1 D2 D3 D4 D5 D6 D7]; cbn [c_map c_log c_threads c_lock c_id] in *.
    constructor; cbn [c_map c_log c_threads c_lock c_id].
    + intros t' o' C. upd_cases t' t; [discriminate|eauto].
    + exact D0.
    + exact D1.
    + intros t' d' v' C. upd_cases t' t; [discriminate|eauto].
    + intros t1 t2 d' v1 v2 C1 C2.
      destruct (Nat.eq_dec t1 t) as [->|N1]; [rewrite upd_same in C1; discriminate|].
      destruct (Nat.eq_dec t2 t) as [->|N2]; [rewrite upd_same in C2; discriminate|].
      rewrite upd_other in C1, C2 by assumption. eauto.
    + intros e0 H E. apply in_app_iff in H. destruct H as [H|[<-|[]]]; [eauto|].
      cbn [e_draw]. eauto.
    + intros t' d' v' e0 C H E. upd_cases t' t; [discriminate|].
      apply in_app_iff in H. destruct H as [H|[<-|[]]]; [eauto|]. cbn [e_draw]. intros <-.
      assert (t' = t) by eauto. contradiction.
    + intros e0 v0 H E. apply in_app_iff in H. destruct H as [H|[<-|[]]]; [eauto|].
      cbn [e_res e_draw]. eauto.
    + rewrite filter_app, map_app. cbn [filter e_op map e_draw].
      apply NoDup_app_snoc; [exact D7|]. intros H. apply in_map_iff in H.
      destruct H as (e0 & E & H). apply filter_In in H. destruct H as [H1 H2].
      destruct (e_op e0) eqn:OE; try discriminate.
      exact (D5 t d v e0 T H1 (ex_intro _ _ OE) E).
  - eapply Q; [reflexivity|auto|auto|]. right. eexists. split; [reflexivity|].
    cbn [e_op]. intros v ->. destruct O.
  - eapply (Q _ _ _ []); [rewrite app_nil_r; reflexivity| | |now left].
    + intros t' d' v' C. upd_cases t' t; [discriminate|exact C].
    + intros t' o' C. upd_cases t' t; [injection C as <-; exact L|eauto].
  - eapply Q; [reflexivity| | |].
    + intros t' d' v' C. upd_cases t' t; [discriminate|exact C].
    + intros t' o' C. upd_cases t' t; [discriminate|eauto].
    + right. eexists. split; [reflexivity|]. cbn [e_op]. intros v ->. exact (LK0 _ _ T).
  - eapply (Q _ _ _ []); [rewrite app_nil_r; reflexivity| | |now left].
    + intros t' d' v' C. upd_cases t' t; [discriminate|exact C].
    + intros t' o' C. upd_cases t' t; [discriminate|eauto].
  - eapply Q; [reflexivity| | |].
    + intros t' d' v' C. upd_cases t' t; [discriminate|exact C].
    + intros t' o' C. upd_cases t' t; [discriminate|eauto].
    + right. eexists. split; [reflexivity|]. cbn [e_op]. discriminate.
  - eapply Q; [reflexivity| | |].
    + intros t' d' v' C. upd_cases t' t; [discriminate|exact C].
    + intros t' o' C. upd_cases t' t; [discriminate|eauto].
    + right. eexists. split; [reflexivity|]. cbn [e_op]. discriminate.
  - eapply (Q _ _ _ []); [rewrite app_nil_r; reflexivity| | |now left].
    + intros t' d' v' C. upd_cases t' t; [discriminate|exact C].
    + intros t' o' C. upd_cases t' t; [discriminate|eauto].
Qed.

Lemma dinv_steps allowed m0 n c : steps_n allowed (start m0) n c -> n < 2^64 -> dinv n c.
Proof.
  intros H. remember (start m0) as s eqn:E. induction H as [c|c n c1 c2 H IH S N|c n c1 c2 H IH S N];
    intros B; subst.
  - constructor; cbn [start c_map c_log c_threads c_lock c_id]; try discriminate; try lia;
      try (intros e []); try reflexivity; try (intros; contradiction). constructor.
  - pose proof (dinv_step allowed n c1 c2 (fun _ => ltac:(lia)) (IH eq_refl ltac:(lia)) S) as D.
    destruct (Z.eq_dec (c_id c2) (c_id c1)); [contradiction|exact D].
  - pose proof (dinv_step allowed n c1 c2 (fun H0 => False_ind _ (H0 N)) (IH eq_refl ltac:(lia)) S) as D.
    destruct (Z.eq_dec (c_id c2) (c_id c1)); [exact D|contradiction].
Qed.

Lemma steps_count allowed c c' : steps allowed c c' -> exists n, 0 <= n /\ steps_n allowed c n c'.
Proof.
  induction 1 as [c|c c1 c2 H (n & N & IH) S].
  - exists 0. split; [lia|constructor].
  - destruct (Z.eq_dec (c_id c2) (c_id c1)).
    + exists n. split; [lia|eapply sn_other; eassumption].
    + exists (n + 1). split; [lia|eapply sn_draw; eassumption].
Qed.

(** keys handed out without error *)
Definition add_key (e : event K V) : list K :=
  match e_op e, e_res e with OAdd _, RKey k None => [k] | _, _ => [] end.
Definition added (lg : list (event K V)) : list K := concat (map add_key lg).

Lemma added_distinct allowed m0 n c :
  steps_n allowed (start m0) n c -> n < 2^64 ->
  (forall i j, 1 <= i <= n -> 1 <= j <= n -> key_of (u64 i) = key_of (u64 j) -> i = j) ->
  NoDup (added (c_log c)).
Proof.
  intros H B INJ. destruct (dinv_steps allowed m0 n c H B) as [DL D0 D1 D2 D3 D4 D5 D6 D7].
  clear - D4 D6 D7 INJ.
  assert (X : forall e, In e (c_log c) -> forall k, In k (add_key e) ->
     (exists v, e_op e = OAdd v) /\ k = key_of (e_draw e) /\ add_key e = [k]).
  { intros e He k Hk. unfold add_key in *. destruct (e_op e) eqn:E; try (destruct Hk; fail).
    destruct (D6 e v He E) as (er & R). rewrite R in *. destruct er; [destruct Hk|].
    destruct Hk as [<-|[]]. split; [eauto|]. split; reflexivity. }
  induction (c_log c) as [|e l IH]; [constructor|].
  unfold added. cbn [map concat]. fold (added l).
  assert (IHl : NoDup (added l)).
  { apply IH.
    - intros; apply D4; [now right|assumption].
    - intros; eapply D6; [now right|eassumption].
    - cbn [filter] in D7. destruct (e_op e); try exact D7. cbn [map] in D7. now inversion D7.
    - intros. apply X; [now right|assumption]. }
  destruct (add_key e) as [|k r] eqn:AK; [exact IHl|].
  destruct (X e (or_introl eq_refl) k) as ((v & E) & K1 & K2); [rewrite AK; now left|].
  assert (r = []) by congruence. subst r. cbn [app]. constructor; [|exact IHl].
  intros IN. unfold added in IN. apply in_concat in IN. destruct IN as (ks & I1 & I2).
  apply in_map_iff in I1. destruct I1 as (e' & <- & I1).
  destruct (X e' (or_intror I1) k I2) as (E' & K1' & _).
  destruct (D4 e (or_introl eq_refl) (ex_intro _ _ E)) as (i & Hi & Ei).
  destruct (D4 e' (or_intror I1) E') as (j & Hj & Ej).
  assert (i = j) by (apply INJ; [assumption|assumption|congruence]). subst j.
  cbn [filter] in D7. rewrite E in D7. cbn [map] in D7. inversion D7 as [|? ? N1 N2]; subst.
  apply N1. apply in_map_iff. exists e'. split; [congruence|].
  apply filter_In. split; [assumption|]. destruct E' as (v' & ->). reflexivity.
Qed.

(** every Add that reports success found its key absent and stored the value *)
Lemma add_step_effect allowed c c' e v k :
  step allowed c c' -> c_log c' = c_log c ++ [e] -> e_op e = OAdd v -> e_res e = RKey k None ->
  load keq (c_map c) k = None /\ load keq (c_map c') k = Some v /\
  same_but k (load keq (c_map c)) (load keq (c_map c')).
Proof.
  intros S L E R.
  assert (AS : forall (l : list (event K V)) x y, l ++ [x] = l ++ [y] -> x = y)
    by (intros l x y H; apply app_inj_tail in H; tauto).
  assert (AN : forall (l : list (event K V)) x, l = l ++ [x] -> False)
    by (intros l x H; apply (f_equal (@length _)) in H; rewrite app_length in H; cbn in H; lia).
  destruct S as [m i l th lg t v0 A T|m i l th lg t d v0 m' ex T LS
    |m i l th lg t o r' x A T O D'|m i th lg t o A LK T|m i l th lg t o T F|m i l th lg t o v0 T F
    |m i l th lg t k0 c p v0 T|m i l th lg t k0 c v0 T|m i l th lg t T];
    cbn [c_map c_log c_threads c_lock c_id] in *;
    try (exfalso; eapply AN; eassumption); apply AS in L; subst e; cbn [e_op e_res] in *;
    try discriminate.
  - injection E as ->. unfold load_or_store in LS.
    destruct (load keq m (key_of d)) eqn:LD; injection LS as <- <-; [discriminate|].
    injection R as <-. split; [exact LD|]. split; [apply store_view|apply store_other].
  - subst o. destruct O.
Qed.

Lemma add_failure_harmless allowed c c' e v k er :
  step allowed c c' -> c_log c' = c_log c ++ [e] -> e_op e = OAdd v -> e_res e = RKey k (Some er) ->
  load keq (c_map c) k <> None /\ c_map c' = c_map c.
Proof.
  intros S L E R.
  assert (AS : forall (l : list (event K V)) x y, l ++ [x] = l ++ [y] -> x = y)
    by (intros l x y H; apply app_inj_tail in H; tauto).
  assert (AN : forall (l : list (event K V)) x, l = l ++ [x] -> False)
    by (intros l x H; apply (f_equal (@length _)) in H; rewrite app_length in H; cbn in H; lia).
  destruct S as [m i l th lg t v0 A T|m i l th lg t d v0 m' ex T LS
    |m i l th lg t o r' x A T O D'|m i th lg t o A LK T|m i l th lg t o T F|m i l th lg t o v0 T F
    |m i l th lg t k0 c p v0 T|m i l th lg t k0 c v0 T|m i l th lg t T];
    cbn [c_map c_log c_threads c_lock c_id] in *;
    try (exfalso; eapply AN; eassumption); apply AS in L; subst e; cbn [e_op e_res] in *;
    try discriminate.
  - injection E as ->. unfold load_or_store in LS.
    destruct (load keq m (key_of d)) eqn:LD; injection LS as <- <-; [|discriminate].
    injection R as <- <-. split; [congruence|reflexivity].
  - subst o. destruct O.
Qed.
End Conc.

Lemma key_uint_inj w n : 0 <= w <= 64 -> n <= 2^w -> forall i j,
  1 <= i <= n -> 1 <= j <= n -> u64 i mod 2^w = u64 j mod 2^w -> i = j.
Proof.
  intros W N i j Hi Hj H.
  assert (P : 0 < 2^w) by (apply Z.pow_pos_nonneg; lia).
  assert (DV : (2^w | 2^64)).
  { exists (2^(64 - w)). rewrite <- Z.pow_add_r by lia. f_equal. lia. }
  unfold u64 in H. rewrite <- !Znumtheory.Zmod_div_mod in H by (try lia; assumption).
  pose proof (Z.div_mod i (2^w) ltac:(lia)) as Ei. pose proof (Z.div_mod j (2^w) ltac:(lia)) as Ej.
  pose proof (Z.mod_pos_bound i (2^w) P). pose proof (Z.mod_pos_bound j (2^w) P).
  rewrite H in Ei.
  assert (i - j = 2^w * (i / 2^w - j / 2^w)) by lia.
  assert (- (2^w) < i - j < 2^w) by lia.
  assert (i / 2^w - j / 2^w = 0) by nia. lia.
Qed.

Lemma sgn_inj w i j : 0 < w -> sgn w i = sgn w j -> i mod 2^w = j mod 2^w.
Proof.
  intros W H. unfold sgn in H.
  assert (P : 0 < 2^w) by (apply Z.pow_pos_nonneg; lia).
  pose proof (Z.mod_pos_bound i (2^w) P). pose proof (Z.mod_pos_bound j (2^w) P).
  assert (2^w = 2 * 2^(w-1)) by (rewrite <- Z.pow_succ_r by lia; f_equal; lia).
  destruct (Z.ltb_spec (i mod 2^w) (2^(w-1))), (Z.ltb_spec (j mod 2^w) (2^(w-1))); lia.
Qed.
