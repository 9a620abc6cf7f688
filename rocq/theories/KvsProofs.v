From Verif Require Import GoBase BaseLemmas KvsModel KvsSpec.
From Coq Require Import Permutation.

Section Proofs.
Context {K V : Type} (keq : forall a b : K, {a = b} + {a <> b}) (is_nil : V -> bool).
Local Notation table := (@table K V).
Local Notation load := (load keq).
Local Notation remove := (remove keq).
Local Notation store := (store keq).

Lemma load_remove (t : table) k k' :
  load (remove t k) k' = if keq k' k then None else load t k'.
Proof.
  induction t as [|[a v] t IH]; cbn [KvsModel.remove KvsModel.load].
  - destruct (keq k' k); reflexivity.
  - destruct (keq k a); cbn [KvsModel.load]; rewrite IH;
      destruct (keq k' k); destruct (keq k' a); congruence.
Qed.

Lemma load_store (t : table) k v k' :
  load (store t k v) k' = if keq k' k then Some v else load t k'.
Proof.
  unfold KvsModel.store. cbn [KvsModel.load]. rewrite load_remove.
  destruct (keq k' k); reflexivity.
Qed.

Lemma load_removes del : forall (t : table) k,
  (In k del -> load (fold_left remove del t) k = None) /\
  (~ In k del -> load (fold_left remove del t) k = load t k).
Proof.
  induction del as [|d del IH]; intros t k; cbn [fold_left In]; [tauto|].
  destruct (IH (remove t d) k) as [I1 I2].
  destruct (in_dec keq k del) as [Hi|Hn].
  - split; [auto|]. tauto.
  - rewrite I2 by assumption. rewrite load_remove.
    destruct (keq k d); split; intros; try reflexivity; try tauto.
    + exfalso. apply H. left. congruence.
    + destruct H; [congruence|tauto].
Qed.

Lemma load_stores (ins : list (K * V)) : forall (t : table) k,
  NoDup (map fst ins) ->
  (forall v, In (k, v) ins ->
     load (fold_left (fun t kv => store t (fst kv) (snd kv)) ins t) k = Some v) /\
  (~ In k (map fst ins) ->
     load (fold_left (fun t kv => store t (fst kv) (snd kv)) ins t) k = load t k).
Proof.
  induction ins as [|[a b] ins IH]; intros t k N; cbn [fold_left In map fst snd]; [tauto|].
  inversion N as [|x l N1 N2]; subst.
  destruct (IH (store t a b) k N2) as [I1 I2].
  split.
  - intros v [E|E]; [|auto]. injection E as -> ->.
    rewrite I2 by assumption. rewrite load_store. destruct (keq k k); congruence.
  - intros H. rewrite I2 by tauto. rewrite load_store. destruct (keq k a) as [->|]; [|reflexivity].
    exfalso; apply H; now left.
Qed.

Lemma commit_effect (t : table) ins del :
  NoDup (map fst ins) -> aeffect ins del (load t) (load (new_commit keq t ins del)).
Proof.
  intros N k. unfold new_commit.
  set (t1 := fold_left _ ins t).
  destruct (load_removes del t1 k) as [D1 D2].
  destruct (load_stores ins t k N) as [S1 S2]. fold t1 in S1, S2.
  split; [exact D1|]. split.
  - intros H v Hv. rewrite D2 by assumption. auto.
  - intros H Hk. rewrite D2 by assumption. auto.
Qed.

Lemma do_op_effect (t : table) o : op_ok o -> aop o (load t) (load (do_op keq t o)).
Proof.
  destruct o as [k v|k|ins del]; cbn [op_ok aop do_op]; intros H.
  - unfold new_set, new_commit. cbn [fold_left fst snd]. split.
    + rewrite load_store. destruct (keq k k); congruence.
    + intros k' N. rewrite load_store. destruct (keq k' k); congruence.
  - unfold new_del, new_commit. cbn [fold_left]. split.
    + rewrite load_remove. destruct (keq k k); congruence.
    + intros k' N. rewrite load_remove. destruct (keq k' k); congruence.
  - now apply commit_effect.
Qed.

Lemma do_ops_from os : forall (t : table), Forall op_ok os ->
  ahist os (load t) (load (fold_left (do_op keq) os t)).
Proof.
  induction os as [|o os IH]; intros t F; cbn [fold_left].
  - constructor.
  - inversion F; subst. econstructor; [now apply do_op_effect|]. now apply IH.
Qed.

(** the abstract relation determines the map *)
Lemma aop_fun (o : @op K V) : op_ok o -> forall m m1 m2 n n1,
  (forall k, m k = n k) -> aop o m m1 -> aop o n n1 -> m2 = m1 -> forall k, m2 k = n1 k.
Proof.
  destruct o as [a v|a|ins del]; cbn [op_ok aop]; intros N m m1 m2 n n1 E H1 H2 -> k.
  - destruct H1 as [A1 B1], H2 as [A2 B2]. destruct (keq k a) as [->|X]; [congruence|].
    rewrite B1, B2 by assumption. apply E.
  - destruct H1 as [A1 B1], H2 as [A2 B2]. destruct (keq k a) as [->|X]; [congruence|].
    rewrite B1, B2 by assumption. apply E.
  - destruct (H1 k) as (A1 & B1 & C1), (H2 k) as (A2 & B2 & C2).
    destruct (in_dec keq k del) as [D|D].
    + rewrite A1, A2 by assumption. reflexivity.
    + destruct (in_dec keq k (map fst ins)) as [I|I].
      * apply in_map_iff in I. destruct I as ([k' v] & <- & I). cbn [fst] in *.
        rewrite (B1 D v I), (B2 D v I). reflexivity.
      * rewrite C1, C2 by assumption. apply E.
Qed.

Lemma ahist_fun (os : list (@op K V)) : Forall op_ok os -> forall m m1, ahist os m m1 -> forall n n1,
  (forall k, m k = n k) -> ahist os n n1 -> forall k, m1 k = n1 k.
Proof.
  intros F m m1 H. revert F. induction H as [m|o os m m1 m2 H H' IH]; intros F n n1 E G k.
  - inversion G; subst. apply E.
  - inversion G as [|? ? ? n' ? G1 G2]; subst. inversion F; subst.
    eapply IH; [assumption| |exact G2]. intros k'. eapply aop_fun; eauto.
Qed.

Lemma load_in (t : table) k v : load t k = Some v -> In (k, v) t.
Proof.
  induction t as [|[a b] t IH]; cbn [KvsModel.load]; [discriminate|].
  destruct (keq k a) as [->|]; intros H.
  - injection H as ->. now left.
  - right. auto.
Qed.

Lemma load_some_in (t : table) k : In k (map fst t) -> exists v, load t k = Some v.
Proof.
  induction t as [|[a b] t IH]; cbn [map fst In KvsModel.load]; [tauto|].
  destruct (keq k a); [eauto|]. intros [H|H]; [congruence|auto].
Qed.

Lemma remove_keys (t : table) k : forall x, In x (map fst (remove t k)) -> In x (map fst t) /\ x <> k.
Proof.
  induction t as [|[a b] t IH]; cbn [KvsModel.remove map fst In]; [tauto|]. intros x.
  destruct (keq k a) as [->|N]; cbn [map fst In]; intros H.
  - apply IH in H. tauto.
  - destruct H as [<-|H]; [split; [now left|congruence]|]. apply IH in H. tauto.
Qed.

Lemma remove_incl (t : table) k : forall e, In e (remove t k) -> In e t.
Proof.
  induction t as [|[a b] t IH]; cbn [KvsModel.remove In]; [tauto|]. intros e.
  destruct (keq k a); cbn [In]; intros H; [right; auto|]. destruct H; [now left|right; auto].
Qed.

Lemma remove_nodup (t : table) k : NoDup (map fst t) -> NoDup (map fst (remove t k)).
Proof.
  induction t as [|[a b] t IH]; cbn [KvsModel.remove map fst]; intros N; [constructor|].
  inversion N; subst. destruct (keq k a); [auto|]. cbn [map fst]. constructor; [|auto].
  intros H. apply remove_keys in H. tauto.
Qed.

Lemma store_nodup (t : table) k v : NoDup (map fst t) -> NoDup (map fst (store t k v)).
Proof.
  intros N. unfold KvsModel.store. cbn [map fst]. constructor.
  - intros H. apply remove_keys in H. tauto.
  - now apply remove_nodup.
Qed.

Lemma commit_nodup ins del : forall (t : table), NoDup (map fst t) ->
  NoDup (map fst (new_commit keq t ins del)).
Proof.
  unfold new_commit. induction ins as [|[a b] ins IH]; cbn [fold_left]; intros t N.
  - revert t N. induction del as [|d del IHd]; cbn [fold_left]; intros t N; [assumption|].
    apply IHd. now apply remove_nodup.
  - apply IH. now apply store_nodup.
Qed.

Lemma do_ops_nodup os : forall (t : table), NoDup (map fst t) ->
  NoDup (map fst (fold_left (do_op keq) os t)).
Proof.
  induction os as [|o os IH]; cbn [fold_left]; intros t N; [assumption|]. apply IH.
  destruct o; cbn [do_op]; apply commit_nodup; assumption.
Qed.

Lemma commit_vals ins del : forall (t : table) e, In e (new_commit keq t ins del) ->
  In e t \/ In (snd e) (map snd ins).
Proof.
  unfold new_commit. induction ins as [|[a b] ins IH]; cbn [fold_left map snd In]; intros t e H.
  - left. revert t H. induction del as [|d del IHd]; cbn [fold_left]; intros t H; [assumption|].
    apply IHd in H. eapply remove_incl; eassumption.
  - apply IH in H. destruct H as [H|H]; [|tauto]. unfold KvsModel.store in H. cbn [In fst snd] in H.
    destruct H as [<-|H]; [cbn; tauto|]. left. eapply remove_incl; eassumption.
Qed.

Lemma do_ops_vals os : forall (t : table) e, In e (fold_left (do_op keq) os t) ->
  In e t \/ exists o, In o os /\ In (snd e) (op_vals o).
Proof.
  induction os as [|o os IH]; cbn [fold_left In]; intros t e H; [tauto|].
  apply IH in H. destruct H as [H|(o' & H1 & H2)]; [|right; exists o'; tauto].
  destruct o as [k v|k|ins del]; cbn [do_op] in H; apply commit_vals in H;
    (destruct H as [H|H]; [tauto|right; eexists; split; [left; reflexivity|exact H]]).
Qed.

Definition no_nil (os : list (@op K V)) : Prop :=
  forall o v, In o os -> In v (op_vals o) -> is_nil v = false.

Lemma stored_not_nil os k v : no_nil os -> load (do_ops keq os) k = Some v -> is_nil v = false.
Proof.
  intros N H. apply load_in in H. apply do_ops_vals in H.
  destruct H as [[]|(o & H1 & H2)]. exact (N o v H1 H2).
Qed.

Lemma lookup_refines os m : no_nil os -> Forall op_ok os -> ahist os aempty m ->
  forall k v, m k = Some v -> new_lookup keq is_nil (do_ops keq os) k = Ok (v, true) /\
              new_get keq is_nil (do_ops keq os) k = Ok v.
Proof.
  intros N F A k v H.
  assert (L : load (do_ops keq os) k = Some v).
  { rewrite <- H. symmetry. eapply (ahist_fun os F aempty m A (load []));
      [reflexivity|apply do_ops_from; assumption]. }
  unfold new_get, new_lookup. rewrite L, (stored_not_nil os k v N L). tauto.
Qed.

Lemma new_values_collect (order : table) : forall acc,
  (forall e, In e order -> is_nil (snd e) = false) ->
  new_values is_nil order collect acc = Ok (acc ++ order).
Proof.
  induction order as [|[k v] l IH]; intros acc H; cbn [new_values].
  - now rewrite app_nil_r.
  - pose proof (H (k, v) (or_introl eq_refl)) as E0; cbn [snd] in E0; rewrite E0. cbn [collect]. rewrite IH.
    + now rewrite <- app_assoc.
    + intros e He. apply H. now right.
Qed.

Lemma values_refines os m : no_nil os -> Forall op_ok os -> ahist os aempty m ->
  forall order, Permutation (do_ops keq os) order ->
  exists got, new_values is_nil order collect [] = Ok got /\
    NoDup (map fst got) /\ forall k v, In (k, v) got <-> m k = Some v.
Proof.
  intros N F A order P. exists order. rewrite new_values_collect.
  2:{ intros [k v] He. apply Permutation_sym in P. apply (Permutation_in _ P) in He.
      apply do_ops_vals in He. destruct He as [[]|(o & H1 & H2)]. exact (N o _ H1 H2). }
  assert (ND : NoDup (map fst (do_ops keq os))) by (apply do_ops_nodup; constructor).
  split; [reflexivity|]. split.
  - eapply Permutation_NoDup; [|exact ND]. now apply Permutation_map.
  - intros k v.
    assert (L : load (do_ops keq os) k = m k).
    { symmetry. eapply (ahist_fun os F aempty m A (load []));
        [reflexivity|apply do_ops_from; assumption]. }
    rewrite <- L. split.
    + intros H. apply Permutation_sym in P. apply (Permutation_in _ P) in H.
      destruct (load_some_in (do_ops keq os) k) as [v' Hv'].
      { apply in_map_iff. exists (k, v). tauto. }
      rewrite Hv'. f_equal. apply load_in in Hv'.
      clear -ND H Hv'. induction (do_ops keq os) as [|[a b] t IH]; [destruct H|].
      cbn [map fst] in ND. inversion ND; subst.
      assert (X : forall w, In (k, w) t -> In k (map fst t))
        by (intros w Hw; apply in_map_iff; exists (k, w); tauto).
      destruct H as [H|H], Hv' as [G|G].
      * congruence.
      * injection H as -> ->. apply X in G. contradiction.
      * injection G as -> ->. apply X in H. contradiction.
      * auto.
    + intros H. apply load_in in H. now apply (Permutation_in _ P).
Qed.

Lemma ahist_exists (os : list (@op K V)) : Forall op_ok os -> exists m, ahist os aempty m.
Proof. intros F. exists (load (do_ops keq os)). apply (do_ops_from os []). assumption. Qed.

Lemma lookup_absent (t : table) k : load t k = None -> new_lookup keq is_nil t k = Panic.
Proof. intros H. unfold new_lookup. now rewrite H. Qed.

Lemma absent_panics os m : Forall op_ok os -> ahist os aempty m ->
  forall k, m k = None ->
  new_lookup keq is_nil (do_ops keq os) k = Panic /\ new_get keq is_nil (do_ops keq os) k = Panic.
Proof.
  intros F A k H.
  assert (L : load (do_ops keq os) k = None).
  { rewrite <- H. symmetry. eapply (ahist_fun os F aempty m A (load []));
      [reflexivity|apply do_ops_from; assumption]. }
  unfold new_get. rewrite lookup_absent by assumption. tauto.
Qed.

(** ** stopping early *)
Lemma new_values_n n (order : table) : forall acc,
  (length acc < n)%nat ->
  (forall e, In e order -> is_nil (snd e) = false) ->
  new_values is_nil order (collect_n n) acc = Ok (acc ++ firstn (n - length acc) order).
Proof.
  clear keq.
  induction order as [|[k v] l IH]; intros acc L H; cbn [new_values].
  - now rewrite firstn_nil, app_nil_r.
  - pose proof (H (k, v) (or_introl eq_refl)) as E0; cbn [snd] in E0; rewrite E0. unfold collect_n at 1.
    destruct (Nat.ltb_spec (length acc + 1) n).
    + rewrite IH.
      * rewrite app_length. cbn [length]. rewrite <- app_assoc. cbn [app]. do 2 f_equal.
        replace (n - length acc)%nat with (S (n - (length acc + 1))) by lia. reflexivity.
      * rewrite app_length. cbn [length]. lia.
      * intros e He. apply H. now right.
    + replace (n - length acc)%nat with 1%nat by lia. reflexivity.
Qed.

(** ** Commit on a database *)
Context (fails : list (@action K V) -> @action K V -> option error).
Local Notation lg := (logger fails).

Definition acts (ins : list (K * V)) (del : list K) : list action :=
  map (fun kv => AIns (fst kv) (snd kv)) ins ++ map (fun k => ADel k) del.

(** what running a list of actions until the first failure gives *)
Fixpoint run (s : list action) (l : list (@action K V)) : list action * option error :=
  match l with
  | [] => (s, None)
  | a :: l' => match fails s a with
               | Some e => (s ++ [a], Some e)
               | None => run (s ++ [a]) l'
               end
  end.

Lemma insert_all_run ins : forall s,
  insert_all lg s ins = run s (map (fun kv => AIns (fst kv) (snd kv)) ins).
Proof.
  induction ins as [|[k v] ins IH]; intros s; cbn [insert_all map run fst snd]; [reflexivity|].
  cbn [logger db_insert]. destruct (fails s (AIns k v)); [reflexivity|apply IH].
Qed.

Lemma delete_all_run dl : forall s,
  delete_all lg s dl = run s (map (fun k => ADel k) dl).
Proof.
  induction dl as [|k dl IH]; intros s; cbn [delete_all map run]; [reflexivity|].
  cbn [logger db_delete]. destruct (fails s (ADel k)); [reflexivity|apply IH].
Qed.

Lemma run_app l1 : forall s l2, run s (l1 ++ l2) =
  match run s l1 with (s', Some e) => (s', Some e) | (s', None) => run s' l2 end.
Proof.
  induction l1 as [|a l1 IH]; intros s l2; cbn [app run]; [reflexivity|].
  destruct (fails s a); [reflexivity|apply IH].
Qed.

Lemma commit_run s ins dl : commit lg s ins dl = run s (acts ins dl).
Proof.
  unfold commit, acts. rewrite insert_all_run, run_app.
  destruct (run s _) as [s' [e|]]; [reflexivity|]. apply delete_all_run.
Qed.

Definition all_ok (s : list action) (l : list (@action K V)) : Prop :=
  forall p a q, l = p ++ a :: q -> fails (s ++ p) a = None.

Lemma run_spec l : forall s, exists done,
  fst (run s l) = s ++ done /\
  match snd (run s l) with
  | None => done = l /\ all_ok s l
  | Some e => exists p a q, l = p ++ a :: q /\ done = p ++ [a] /\ all_ok s p /\ fails (s ++ p) a = Some e
  end.
Proof.
  induction l as [|a l IH]; intros s; cbn [run].
  - exists []. cbn [fst snd]. rewrite app_nil_r. split; [reflexivity|]. split; [reflexivity|].
    intros p b q E. destruct p; discriminate.
  - destruct (fails s a) as [e|] eqn:F; cbn [fst snd].
    + exists [a]. split; [reflexivity|]. exists [], a, l. cbn [app].
      split; [reflexivity|]. split; [reflexivity|]. split.
      * intros p b q E. destruct p; discriminate.
      * now rewrite app_nil_r.
    + destruct (IH (s ++ [a])) as (done & E & R). exists (a :: done).
      rewrite E, <- app_assoc. split; [reflexivity|].
      destruct (snd (run (s ++ [a]) l)) as [e|].
      * destruct R as (p & b & q & -> & -> & O & X). exists (a :: p), b, q.
        split; [reflexivity|]. split; [reflexivity|]. split.
        -- intros p' c q' E'. destruct p' as [|x p'].
           ++ injection E' as -> ->. now rewrite app_nil_r.
           ++ injection E' as -> E'. specialize (O _ _ _ E'). now rewrite <- app_assoc in O.
        -- now rewrite <- app_assoc in X.
      * destruct R as [-> O]. split; [reflexivity|]. intros p' c q' E'. destruct p' as [|x p'].
        -- injection E' as -> ->. now rewrite app_nil_r.
        -- injection E' as -> E'. specialize (O _ _ _ E'). now rewrite <- app_assoc in O.
Qed.
End Proofs.

Section Good.
Context {K V : Type} (keq : forall a b : K, {a = b} + {a <> b}).
Context {S : Type} (db : @database K V S) (view : S -> @amap K V) (G : good_db db view).

Lemma insert_all_good ins : forall s, NoDup (map fst ins) ->
  exists s', insert_all db s ins = (s', None) /\
    (forall k v, In (k, v) ins -> view s' k = Some v) /\
    (forall k, ~ In k (map fst ins) -> view s' k = view s k).
Proof.
  destruct G as [GI _].
  induction ins as [|[a b] ins IH]; intros s N; cbn [insert_all map fst In] in *.
  - exists s. split; [reflexivity|]. split; [tauto|reflexivity].
  - inversion N; subst. destruct (GI s a b) as (s1 & -> & V1 & O1).
    destruct (IH s1) as (s2 & -> & I2 & O2); [assumption|]. exists s2. split; [reflexivity|]. split.
    + intros k v [E|E]; [|auto]. injection E as -> ->. rewrite O2; assumption.
    + intros k H. rewrite O2 by tauto. apply O1. intros ->. tauto.
Qed.

Lemma delete_all_good dl : forall s,
  exists s', delete_all db s dl = (s', None) /\
    (forall k, In k dl -> view s' k = None) /\
    (forall k, ~ In k dl -> view s' k = view s k).
Proof.
  destruct G as [_ GD].
  induction dl as [|a dl IH]; intros s; cbn [delete_all In] in *.
  - exists s. split; [reflexivity|]. split; [tauto|reflexivity].
  - destruct (GD s a) as (s1 & -> & V1 & O1).
    destruct (IH s1) as (s2 & -> & I2 & O2). exists s2. split; [reflexivity|]. split.
    + intros k E. destruct (in_dec keq k dl) as [|N]; [auto|]. rewrite O2 by assumption.
      destruct E as [->|]; [assumption|contradiction].
    + intros k H. rewrite O2 by tauto. apply O1. intros ->. tauto.
Qed.

Lemma commit_good ins dl s : NoDup (map fst ins) ->
  exists s', commit db s ins dl = (s', None) /\ aeffect ins dl (view s) (view s').
Proof.
  intros N. unfold commit.
  destruct (insert_all_good ins s N) as (s1 & -> & I1 & O1).
  destruct (delete_all_good dl s1) as (s2 & -> & I2 & O2).
  exists s2. split; [reflexivity|]. intros k. split; [auto|]. split.
  - intros H v Hv. rewrite O2 by assumption. auto.
  - intros H Hk. rewrite O2 by assumption. auto.
Qed.
End Good.
