From Verif Require Import GoBase BaseLemmas KvsModel KvsProofs SqlRamModel SqlRamSpec.
From Coq Require Import Permutation Sorting.Sorted.

Section Proofs.
Context {K V : Type} (keq : forall a b : K, {a = b} + {a <> b}) (zk : K) (zv : V).
Local Notation table := (@KvsModel.table K V).
Local Notation expr := (expr K V).
Local Notation load := (load keq).
Local Notation remove := (remove keq).
Local Notation store := (store keq).

Lemma match_spec (es : list expr) : match_ es = true <-> satisfies es.
Proof. clear keq zk zv.
  unfold satisfies. induction es as [|e es IH]; cbn [match_ In]; [tauto|].
  destruct e as [[]|f u|l|e|l|l|]; rewrite ?IH; split; try tauto;
    intros H; try (intros [E|E]; [discriminate|tauto]); try discriminate.
Qed.
Lemma match_false (es : list expr) : match_ es = false <-> ~ satisfies es.
Proof. clear keq zk zv. rewrite <- match_spec. destruct (match_ es); split; congruence. Qed.

Lemma pass_spec (check : option (V -> list expr)) v :
  (match check with None => true | Some c => match_ (c v) end) = true <-> passes check v.
Proof. destruct check as [c|]; cbn [passes]; [apply match_spec|tauto]. Qed.

Lemma same_refl (m : @amap K V) : same m m.
Proof. intros k. reflexivity. Qed.

Lemma store_view (t : table) k v : load (store t k v) k = Some v.
Proof. rewrite load_store. destruct (keq k k); congruence. Qed.
Lemma store_other (t : table) k v : same_but k (load t) (load (store t k v)).
Proof. intros k' N. rewrite load_store. destruct (keq k' k); congruence. Qed.
Lemma remove_view (t : table) k : load (remove t k) k = None.
Proof. rewrite load_remove. destruct (keq k k); congruence. Qed.
Lemma remove_other (t : table) k : same_but k (load t) (load (remove t k)).
Proof. intros k' N. rewrite load_remove. destruct (keq k' k); congruence. Qed.

Lemma do_op_refines key_of (r : ram K V) o :
  astep zv (load (r_map r)) o (load (r_map (fst (do_op keq zk zv key_of r o))))
        (snd (do_op keq zk zv key_of r o)).
Proof.
  destruct o as [k f v|k v|k c|k c p|v|k]; cbn [do_op].
  - unfold insert, load_or_store. destruct f.
    + cbn [fst snd r_map astep]. split; [reflexivity|]. split; [apply store_view|apply store_other].
    + destruct (load (r_map r) k) as [w|] eqn:E; cbn [fst snd r_map astep].
      * left. split; [reflexivity|]. split; [congruence|apply same_refl].
      * right. split; [reflexivity|]. split; [assumption|]. split; [apply store_view|apply store_other].
  - unfold set, insert. cbn [fst snd r_map astep]. split; [reflexivity|].
    split; [apply store_view|apply store_other].
  - unfold delete. destruct (load (r_map r) k) as [w|] eqn:E.
    + pose proof (pass_spec c w) as P.
      destruct (match c with None => true | Some c => match_ (c w) end); cbn [fst snd r_map astep].
      * left. split; [reflexivity|]. split; [exists w; split; [assumption|apply P; reflexivity]|].
        split; [apply remove_view|apply remove_other].
      * right. split; [reflexivity|]. split; [|apply same_refl].
        intros v H. assert (v = w) by congruence. subst. intros Q. apply P in Q. discriminate.
    + cbn [fst snd r_map astep]. right. split; [reflexivity|]. split; [|apply same_refl].
      intros v H. congruence.
  - unfold mutate. destruct (load (r_map r) k) as [w|] eqn:E.
    + pose proof (pass_spec c w) as P.
      destruct (match c with None => true | Some c => match_ (c w) end); cbn [fst snd r_map astep].
      * left. split; [reflexivity|]. split; [|apply store_other].
        exists w. split; [assumption|]. split; [apply P; reflexivity|apply store_view].
      * right. split; [reflexivity|]. split; [|apply same_refl].
        intros v H. assert (v = w) by congruence. subst. intros Q. apply P in Q. discriminate.
    + cbn [fst snd r_map astep]. right. split; [reflexivity|]. split; [|apply same_refl].
      intros v H. congruence.
  - unfold add, load_or_store. destruct (key_of _) as [k|].
    + destruct (load (r_map r) k) as [w|] eqn:E; cbn [fst snd r_map astep].
      * right. left. split; [reflexivity|]. split; [congruence|apply same_refl].
      * left. split; [reflexivity|]. split; [assumption|]. split; [apply store_view|apply store_other].
    + cbn [fst snd r_map astep]. right. right. split; [reflexivity|apply same_refl].
  - unfold lookup. destruct (load (r_map r) k) as [w|] eqn:E; cbn [fst snd astep];
      (split; [apply same_refl|]); [left|right]; split; try reflexivity; auto.
Qed.

Lemma do_ops_refine key_of os : forall (r : ram K V),
  ahist zv (load (r_map r)) os (load (r_map (fst (do_ops keq zk zv key_of r os))))
        (snd (do_ops keq zk zv key_of r os)).
Proof.
  induction os as [|o os IH]; intros r; cbn [do_ops].
  - cbn [fst snd]. constructor. apply same_refl.
  - pose proof (do_op_refines key_of r o) as H.
    destruct (do_op keq zk zv key_of r o) as [r1 x]. cbn [fst snd] in H.
    specialize (IH r1). destruct (do_ops keq zk zv key_of r1 os) as [r2 xs]. cbn [fst snd] in *.
    econstructor; eassumption.
Qed.

(** the abstract relation pins down answers and maps (for non-Add operations, whose
    key is chosen by the code) *)
Definition no_add (o : @op K V) : Prop := match o with OAdd _ => False | _ => True end.
Lemma astep_fun o : no_add o -> forall m n m' n' r s,
  (forall k, m k = n k) -> astep zv m o m' r -> astep zv n o n' s ->
  r = s /\ forall k, m' k = n' k.
Proof.
  intros NA m n m' n' r s E H1 H2.
  assert (B : forall k (x y : amap), same_but k m x -> same_but k n y ->
              forall j, j <> k -> x j = y j)
    by (intros k x y X Y j N; rewrite X, Y by assumption; apply E).
  assert (S : forall (x y : amap), same m x -> same n y -> forall j, x j = y j)
    by (intros x y X Y j; rewrite X, Y; apply E).
  destruct o as [k f v|k v|k c|k c p|v|k]; try destruct f; cbn [astep no_add] in *; try contradiction;
    destruct r; try contradiction; destruct s; try contradiction.
  - destruct H1 as (-> & A1 & B1), H2 as (-> & A2 & B2). split; [reflexivity|].
    intros j. destruct (keq j k) as [->|N]; [congruence|eauto].
  - destruct H1 as [(-> & A1 & B1)|(-> & A1 & C1 & B1)], H2 as [(-> & A2 & B2)|(-> & A2 & C2 & B2)];
      rewrite E in A1; try contradiction; (split; [reflexivity|]); intros j; [eauto|].
    destruct (keq j k) as [->|N]; [congruence|eauto].
  - destruct H1 as (-> & A1 & B1), H2 as (-> & A2 & B2). split; [reflexivity|].
    intros j. destruct (keq j k) as [->|N]; [congruence|eauto].
  - destruct H1 as [(-> & (v1 & A1 & P1) & C1 & B1)|(-> & A1 & B1)],
             H2 as [(-> & (v2 & A2 & P2) & C2 & B2)|(-> & A2 & B2)].
    + split; [reflexivity|]. intros j. destruct (keq j k) as [->|N]; [congruence|eauto].
    + rewrite E in A1. exfalso. exact (A2 _ A1 P1).
    + rewrite <- E in A2. exfalso. exact (A1 _ A2 P2).
    + split; [reflexivity|eauto].
  - destruct H1 as [(-> & (v1 & A1 & P1 & C1) & B1)|(-> & A1 & B1)],
             H2 as [(-> & (v2 & A2 & P2 & C2) & B2)|(-> & A2 & B2)].
    + split; [reflexivity|]. rewrite E in A1. assert (v1 = v2) by congruence. subst.
      intros j. destruct (keq j k) as [->|N]; [congruence|eauto].
    + rewrite E in A1. exfalso. exact (A2 _ A1 P1).
    + rewrite <- E in A2. exfalso. exact (A1 _ A2 P2).
    + split; [reflexivity|eauto].
  - destruct H1 as (S1 & H1), H2 as (S2 & H2). split; [|eauto].
    destruct H1 as [(-> & A1)|(-> & A1 & ->)], H2 as [(-> & A2)|(-> & A2 & ->)];
      rewrite E in A1; congruence.
Qed.

(** ** Bulk operations *)
Definition wants (q : option (K -> V -> list expr)) (k : K) (v : V) : bool :=
  match q with None => true | Some q => match_ (q k v) end.
Lemma wants_spec q k v : wants q k v = true <-> wanted q k v.
Proof. clear keq zk zv. destruct q; cbn [wants wanted]; [apply match_spec|tauto]. Qed.

Fixpoint filter_q (q : option (K -> V -> list expr)) (l : table) : table :=
  match l with
  | [] => []
  | (k, v) :: l' => if wants q k v then (k, v) :: filter_q q l' else filter_q q l'
  end.

Lemma selects_filter q l : selects q l (filter_q q l).
Proof. clear keq zk zv.
  induction l as [|[k v] l IH]; cbn [filter_q]; [constructor|].
  destruct (wants q k v) eqn:E.
  - apply wants_spec in E. now constructor.
  - constructor; [|assumption]. rewrite <- wants_spec. congruence.
Qed.
Lemma selects_fun q l m : selects q l m -> m = filter_q q l.
Proof. clear keq zk zv.
  induction 1 as [|k v l m W S IH|k v l m W S IH]; cbn [filter_q]; [reflexivity| |].
  - apply wants_spec in W. now rewrite W, IH.
  - rewrite <- wants_spec in W. destruct (wants q k v); [congruence|assumption].
Qed.

Lemma filter_in q l k v : In (k, v) (filter_q q l) <-> In (k, v) l /\ wanted q k v.
Proof.
  induction l as [|[a b] l IH]; cbn [filter_q In]; [tauto|].
  destruct (wants q a b) eqn:E; cbn [In]; rewrite IH.
  - apply wants_spec in E. split; [intros [H|H]; [injection H as -> ->; tauto|tauto]|].
    tauto.
  - split; [tauto|]. intros [[H|H] W]; [|tauto].
    injection H as -> ->. apply wants_spec in W. congruence.
Qed.
Lemma filter_nodup q l : NoDup (map fst l) -> NoDup (map fst (filter_q q l)).
Proof.
  induction l as [|[a b] l IH]; cbn [filter_q map fst]; intros N; [constructor|].
  inversion N as [|? ? N1 N2]; subst. destruct (wants q a b); [|auto]. cbn [map fst].
  constructor; [|auto]. intros H. apply N1. apply in_map_iff in H. destruct H as ([x y] & <- & H).
  apply filter_in in H. apply in_map_iff. exists (x, y). tauto.
Qed.

(** the number of matching records visited *)
Definition seen (upto n : Z) : Z := Z.min n (Z.max 1 upto).

(** the records of [m] (numbered from [n]) that are touched *)
Fixpoint touched (from upto n : Z) (m : table) : table :=
  match m with
  | [] => []
  | kv :: m' => (if from <=? n then [kv] else []) ++
                (if n + 1 <? upto then touched from upto (n + 1) m' else [])
  end.

Definition del_all (l t : table) : table := fold_left (fun t kv => remove t (fst kv)) l t.
Definition put_all (f : V -> V) (l t : table) : table :=
  fold_left (fun t kv => store t (fst kv) (f (snd kv))) l t.

Lemma delete_loop_spec (q : K -> V -> list expr) from upto : forall order n t,
  delete_loop keq order q from upto n t =
  (del_all (touched from upto n (filter_q (Some q) order)) t,
   match filter_q (Some q) order with
   | [] => n
   | m => Z.min (n + zlen m) (Z.max (n + 1) upto)
   end).
Proof.
  induction order as [|[k v] order IH]; intros n t; cbn [delete_loop filter_q wants]; [reflexivity|].
  destruct (match_ (q k v)); cbn [negb].
  - cbn [touched]. rewrite IH. set (m := filter_q (Some q) order).
    assert (Z0 : 0 <= zlen m) by (unfold zlen; lia).
    assert (Z1 : zlen ((k, v) :: m) = 1 + zlen m) by (unfold zlen; cbn [length]; lia).
    unfold del_all, put_all. rewrite fold_left_app. destruct (Z.ltb_spec (n + 1) upto).
    + f_equal.
      * destruct (from <=? n); reflexivity.
      * rewrite Z1. destruct m as [|x m']; [unfold zlen; cbn [length]; lia|lia].
    + f_equal.
      * destruct (from <=? n); reflexivity.
      * rewrite Z1. lia.
  - apply IH.
Qed.

Lemma update_loop_spec (q : K -> V -> list expr) patch from upto : forall order n t,
  update_loop keq order q patch from upto n t =
  (put_all patch (touched from upto n (filter_q (Some q) order)) t,
   match filter_q (Some q) order with
   | [] => n
   | m => Z.min (n + zlen m) (Z.max (n + 1) upto)
   end).
Proof.
  induction order as [|[k v] order IH]; intros n t; cbn [update_loop filter_q wants]; [reflexivity|].
  destruct (match_ (q k v)); cbn [negb].
  - cbn [touched]. rewrite IH. set (m := filter_q (Some q) order).
    assert (Z0 : 0 <= zlen m) by (unfold zlen; lia).
    assert (Z1 : zlen ((k, v) :: m) = 1 + zlen m) by (unfold zlen; cbn [length]; lia).
    unfold del_all, put_all. rewrite fold_left_app. destruct (Z.ltb_spec (n + 1) upto).
    + f_equal.
      * destruct (from <=? n); reflexivity.
      * rewrite Z1. destruct m as [|x m']; [unfold zlen; cbn [length]; lia|lia].
    + f_equal.
      * destruct (from <=? n); reflexivity.
      * rewrite Z1. lia.
  - apply IH.
Qed.

Lemma touched_in from upto : forall m n x, n < upto ->
  In x (touched from upto n m) <->
  exists i, from <= n + Z.of_nat i < upto /\ nth_error m i = Some x.
Proof.
  induction m as [|y m IH]; intros n x H; cbn [touched].
  - split; [intros []|]. intros (i & _ & E). destruct i; discriminate.
  - rewrite in_app_iff. split.
    + intros [I|I].
      * destruct (Z.leb_spec from n); [|destruct I]. destruct I as [->|[]].
        exists 0%nat. split; [lia|reflexivity].
      * destruct (Z.ltb_spec (n + 1) upto); [|destruct I].
        apply IH in I; [|assumption]. destruct I as (i & B & E). exists (S i). split; [lia|exact E].
    + intros (i & B & E). destruct i as [|i].
      * left. destruct (Z.leb_spec from n); [|lia]. injection E as ->. now left.
      * right. destruct (Z.ltb_spec (n + 1) upto); [|lia].
        apply IH; [assumption|]. exists i. split; [lia|exact E].
Qed.

Lemma load_fold_remove (l : table) : forall (t : table) k,
  load (del_all l t) k =
  if in_dec keq k (map fst l) then None else load t k.
Proof.
  unfold del_all. induction l as [|[a b] l IH]; intros t k; cbn [fold_left map fst].
  - destruct (in_dec keq k []) as [[]|]; reflexivity.
  - rewrite IH, load_remove.
    destruct (in_dec keq k (map fst l)), (keq k a), (in_dec keq k (a :: map fst l)) as [i0|i0];
      cbn [In] in i0; try reflexivity; exfalso; intuition congruence.
Qed.

Lemma load_fold_store (f : V -> V) (l : table) : forall (t : table) k, NoDup (map fst l) ->
  (forall v, In (k, v) l ->
     load (put_all f l t) k = Some (f v)) /\
  (~ In k (map fst l) ->
     load (put_all f l t) k = load t k).
Proof.
  unfold put_all. induction l as [|[a b] l IH]; intros t k N; cbn [fold_left map fst snd In]; [tauto|].
  inversion N as [|? ? N1 N2]; subst. destruct (IH (store t a (f b)) k N2) as [I1 I2]. split.
  - intros v [E|E]; [|auto]. injection E as -> ->. rewrite I2 by assumption.
    rewrite load_store. destruct (keq k k); congruence.
  - intros H. rewrite I2 by tauto. rewrite load_store. destruct (keq k a) as [->|]; tauto.
Qed.

Lemma touched_nodup from upto : forall m n, NoDup (map fst m) ->
  NoDup (map fst (touched from upto n m)).
Proof.
  assert (I : forall m n x, In x (map fst (touched from upto n m)) -> In x (map fst m)).
  { induction m as [|y m IH]; intros n x H; cbn [touched] in H; [exact H|].
    rewrite map_app, in_app_iff in H. cbn [map In]. destruct H as [H|H].
    - destruct (from <=? n); [|destruct H]. cbn in H. tauto.
    - destruct (n + 1 <? upto); [|destruct H]. right. eauto. }
  induction m as [|[a b] m IH]; intros n N; cbn [touched]; [constructor|].
  cbn [map fst] in N. inversion N as [|? ? N1 N2]; subst.
  assert (T : NoDup (map fst (if n + 1 <? upto then touched from upto (n + 1) m else [])))
    by (destruct (n + 1 <? upto); [auto|constructor]).
  destruct (from <=? n); cbn [app map fst]; [|exact T].
  constructor; [|exact T]. intros H. apply N1.
  destruct (n + 1 <? upto); [eauto|destruct H].
Qed.

Lemma limit_of (q : K -> V -> list expr) f u : first_range (q zk zv) = (f, u) -> limit zk zv q = (f, u).
Proof. exact (fun H => H). Qed.

Lemma in_slice_in {A} f u (m : list A) x : in_slice f u m x -> In x m.
Proof. intros (i & _ & E). eapply nth_error_In; eassumption. Qed.

(** what UnsafeDelete does, for a query with a range *)
Lemma unsafe_delete_spec order (q : K -> V -> list expr) r f u m :
  Permutation (r_map r) order -> first_range (q zk zv) = (f, u) -> 1 <= u ->
  selects (Some q) order m ->
  exists r', unsafe_delete keq zk zv order (Some q) r = Ok (r', Z.min (zlen m) u) /\
    (forall k v, in_slice f u m (k, v) -> load (r_map r') k = None) /\
    (forall k, (forall v, ~ in_slice f u m (k, v)) -> load (r_map r') k = load (r_map r) k).
Proof.
  intros P L U S. apply selects_fun in S. subst m.
  unfold unsafe_delete. rewrite (limit_of q f u L). rewrite delete_loop_spec.
  eexists. split; [|split]; cbn [r_map].
  - f_equal. f_equal. set (m := filter_q (Some q) order).
    destruct m as [|x m0] eqn:E; [unfold zlen; cbn [length]; lia|]. rewrite Z.add_0_l.
    assert (1 <= zlen (x :: m0)) by (unfold zlen; cbn [length]; lia). lia.
  - intros k v I. cbn [r_map]. rewrite load_fold_remove.
    destruct (in_dec keq k _) as [|N]; [reflexivity|]. exfalso. apply N. apply in_map_iff.
    exists (k, v). split; [reflexivity|]. apply touched_in; [lia|].
    destruct I as (i & B & E). exists i. split; [lia|exact E].
  - intros k N. cbn [r_map]. rewrite load_fold_remove. destruct (in_dec keq k _) as [I|]; [|reflexivity].
    exfalso. apply in_map_iff in I. destruct I as ([k' v] & <- & I). apply touched_in in I; [|lia].
    destruct I as (i & B & E). apply (N v). exists i. split; [cbn in *; lia|exact E].
Qed.

Lemma update_spec order (q : K -> V -> list expr) patch r f u m :
  NoDup (map fst (r_map r)) -> Permutation (r_map r) order -> first_range (q zk zv) = (f, u) -> 1 <= u ->
  selects (Some q) order m ->
  exists r', update keq zk zv order (Some q) patch r = Ok (r', Z.min (zlen m) u) /\
    (forall k v, in_slice f u m (k, v) -> load (r_map r') k = Some (patch v)) /\
    (forall k, (forall v, ~ in_slice f u m (k, v)) -> load (r_map r') k = load (r_map r) k).
Proof.
  intros ND P L U S. apply selects_fun in S. subst m.
  assert (NO : NoDup (map fst order))
    by (eapply Permutation_NoDup; [apply Permutation_map; exact P|exact ND]).
  pose proof (touched_nodup f u (filter_q (Some q) order) 0 (filter_nodup (Some q) order NO)) as NT.
  unfold update. rewrite (limit_of q f u L). rewrite update_loop_spec.
  eexists. split; [|split]; cbn [r_map].
  - f_equal. f_equal. set (m := filter_q (Some q) order).
    destruct m as [|x m0] eqn:E; [unfold zlen; cbn [length]; lia|]. rewrite Z.add_0_l.
    assert (1 <= zlen (x :: m0)) by (unfold zlen; cbn [length]; lia). lia.
  - intros k v I. cbn [r_map]. apply load_fold_store; [exact NT|]. apply touched_in; [lia|].
    destruct I as (i & B & E). exists i. split; [lia|exact E].
  - intros k N. cbn [r_map]. apply load_fold_store; [exact NT|]. intros I.
    apply in_map_iff in I. destruct I as ([k' v] & <- & I). apply touched_in in I; [|lia].
    destruct I as (i & B & E). apply (N v). exists i. split; [cbn in *; lia|exact E].
Qed.

(** without any Range: one record, if there is one *)
Lemma unsafe_delete_no_range order (q : K -> V -> list expr) r k v m :
  first_range (q zk zv) = (0, 0) -> selects (Some q) order ((k, v) :: m) ->
  exists r', unsafe_delete keq zk zv order (Some q) r = Ok (r', 1) /\ load (r_map r') k = None.
Proof.
  intros L S. apply selects_fun in S. unfold unsafe_delete. rewrite (limit_of q 0 0 L), delete_loop_spec.
  rewrite <- S. eexists. split.
  - f_equal. f_equal. unfold zlen. cbn [length]. lia.
  - cbn [r_map]. rewrite load_fold_remove. destruct (in_dec keq k _) as [|N]; [reflexivity|].
    exfalso. apply N. cbn [touched]. change (0 <=? 0) with true. change (0 + 1 <? 0) with false.
    cbn. now left.
Qed.

Lemma nil_query_panics order patch r :
  unsafe_delete keq zk zv order None r = Panic /\ update keq zk zv order None patch r = Panic.
Proof. split; reflexivity. Qed.

(** ** Search *)
Lemma search_plain_collect q : forall order acc,
  search_plain order q collect acc = acc ++ filter_q q order.
Proof.
  induction order as [|[k v] order IH]; intros acc; cbn [search_plain filter_q].
  - now rewrite app_nil_r.
  - replace (match q with Some q => negb (match_ (q k v)) | None => false end)
      with (negb (wants q k v)) by (destruct q; reflexivity).
    destruct (wants q k v); cbn [negb].
    + unfold collect at 1. rewrite IH. now rewrite <- app_assoc.
    + apply IH.
Qed.

Lemma search_plain_n q n : forall order acc, (length acc < n)%nat ->
  search_plain order q (collect_n n) acc = acc ++ firstn (n - length acc) (filter_q q order).
Proof.
  induction order as [|[k v] order IH]; intros acc H; cbn [search_plain filter_q].
  - now rewrite firstn_nil, app_nil_r.
  - replace (match q with Some q => negb (match_ (q k v)) | None => false end)
      with (negb (wants q k v)) by (destruct q; reflexivity).
    destruct (wants q k v); cbn [negb]; [|now apply IH].
    unfold collect_n at 1. destruct (Nat.ltb_spec (length acc + 1) n).
    + rewrite IH by (rewrite app_length; cbn [length]; lia).
      rewrite app_length. cbn [length]. rewrite <- app_assoc. cbn [app]. f_equal.
      replace (n - length acc)%nat with (S (n - (length acc + 1))) by lia. reflexivity.
    + replace (n - length acc)%nat with 1%nat by lia. reflexivity.
Qed.

Lemma gather_filter order (q : K -> V -> list expr) : gather order q = filter_q (Some q) order.
Proof. induction order as [|[k v] l IH]; cbn [gather filter_q wants]; [reflexivity|]. now rewrite IH. Qed.

Definition pairs_of (t : table) (ks : list K) : table :=
  concat (map (fun k => match load t k with Some v => [(k, v)] | None => [] end) ks).

Lemma search_emit_collect t : forall ks acc,
  search_emit keq t ks collect acc = acc ++ pairs_of t ks.
Proof.
  induction ks as [|k ks IH]; intros acc; cbn [search_emit].
  - unfold pairs_of. cbn [map concat]. now rewrite app_nil_r.
  - unfold pairs_of. cbn [map concat]. fold (pairs_of t ks). destruct (load t k) as [v|].
    + unfold collect at 1. rewrite IH. now rewrite <- app_assoc.
    + apply IH.
Qed.

Lemma search_emit_n t n : forall ks acc, (length acc < n)%nat ->
  search_emit keq t ks (collect_n n) acc = acc ++ firstn (n - length acc) (pairs_of t ks).
Proof.
  induction ks as [|k ks IH]; intros acc H; cbn [search_emit].
  - unfold pairs_of. cbn [map concat]. now rewrite firstn_nil, app_nil_r.
  - unfold pairs_of. cbn [map concat]. fold (pairs_of t ks). destruct (load t k) as [v|]; [|now apply IH].
    unfold collect_n at 1. destruct (Nat.ltb_spec (length acc + 1) n).
    + rewrite IH by (rewrite app_length; cbn [length]; lia).
      rewrite app_length. cbn [length]. rewrite <- app_assoc. cbn [app]. f_equal.
      replace (n - length acc)%nat with (S (n - (length acc + 1))) by lia. reflexivity.
    + replace (n - length acc)%nat with 1%nat by lia. reflexivity.
Qed.

Lemma load_in_iff (t : table) k v : NoDup (map fst t) -> load t k = Some v <-> In (k, v) t.
Proof.
  intros N. split; [apply load_in|]. intros H.
  induction t as [|[a b] t IH]; [destruct H|]. cbn [map fst] in N. inversion N as [|? ? N1 N2]; subst.
  cbn [KvsModel.load]. destruct H as [H|H].
  - injection H as -> ->. destruct (keq k k); congruence.
  - destruct (keq k a) as [->|]; [|auto]. exfalso. apply N1. apply in_map_iff. exists (a, v). tauto.
Qed.

Lemma pairs_of_self t (l : table) : (forall k v, In (k, v) l -> load t k = Some v) ->
  pairs_of t (map fst l) = l.
Proof.
  unfold pairs_of. induction l as [|[k v] l IH]; intros H; cbn [map fst concat]; [reflexivity|].
  rewrite (H k v (or_introl eq_refl)). cbn [app]. f_equal. apply IH. intros. apply H. now right.
Qed.

Lemma pairs_of_perm t l l' : Permutation l l' -> Permutation (pairs_of t l) (pairs_of t l').
Proof.
  unfold pairs_of. induction 1; cbn [map concat].
  - constructor.
  - now apply Permutation_app_head.
  - rewrite !app_assoc. apply Permutation_app_tail. apply Permutation_app_comm.
  - etransitivity; eassumption.
Qed.

Section Search.
Context (s : @sorter K) (SC : sort_contract s).

Lemma search_exact order r (q : option (K -> V -> list expr)) m :
  NoDup (map fst (r_map r)) -> Permutation (r_map r) order -> selects q order m ->
  Permutation m (search keq zk zv s order r q collect []).
Proof.
  intros ND P S. apply selects_fun in S. subst m.
  assert (NO : NoDup (map fst order))
    by (eapply Permutation_NoDup; [apply Permutation_map; exact P|exact ND]).
  unfold search. destruct q as [q|].
  - destruct (ordered zk zv (Some q)).
    + rewrite gather_filter, search_emit_collect. cbn [app].
      rewrite <- (pairs_of_self (r_map r) (filter_q (Some q) order)) at 1.
      * apply pairs_of_perm. apply SC.
      * intros k v H. apply filter_in in H. apply load_in_iff; [assumption|].
        apply Permutation_sym in P. eapply Permutation_in; [exact P|tauto].
    + rewrite search_plain_collect. reflexivity.
  - rewrite search_plain_collect. reflexivity.
Qed.

Lemma search_prefix order r (q : option (K -> V -> list expr)) n : (0 < n)%nat ->
  search keq zk zv s order r q (collect_n n) [] =
  firstn n (search keq zk zv s order r q collect []).
Proof.
  intros H. unfold search.
  assert (E : forall l : table, [] ++ firstn (n - length (@nil (K * V))) l = firstn n l)
    by (intros; cbn [length app]; now rewrite Nat.sub_0_r).
  destruct q as [q|].
  - destruct (ordered zk zv (Some q)).
    + rewrite search_emit_collect, search_emit_n by exact H. apply E.
    + rewrite search_plain_collect, search_plain_n by exact H. apply E.
  - rewrite search_plain_collect, search_plain_n by exact H. apply E.
Qed.

(** a single ordering on the key *)
Lemma search_sorted order r (q : K -> V -> list expr) (klt : K -> K -> bool) :
  NoDup (map fst (r_map r)) -> Permutation (r_map r) order ->
  strict_weak klt ->
  orders_of (q zk zv) = [fun a b => klt (fst a) (fst b)] ->
  sorted_by (fun a b => klt (fst a) (fst b)) (search keq zk zv s order r (Some q) collect []).
Proof.
  intros ND P W O. unfold search, ordered. rewrite O.
  rewrite gather_filter, search_emit_collect. cbn [app].
  set (m := filter_q (Some q) order).
  set (less := search_less [fun a b => klt (fst a) (fst b)] (map snd m)).
  assert (S : sorted_by klt (s less (map fst m))).
  { apply SC; [exact W|]. intros l' i j a b Hi Hj PL. unfold less, search_less. rewrite Hi, Hj.
    assert (L : length l' = length (map snd m)).
    { rewrite map_length. rewrite <- (Permutation_length PL). apply map_length. }
    assert (Li : (i < length (map snd m))%nat) by (rewrite <- L; apply nth_error_Some; congruence).
    assert (Lj : (j < length (map snd m))%nat) by (rewrite <- L; apply nth_error_Some; congruence).
    apply nth_error_Some in Li, Lj.
    destruct (nth_error (map snd m) i); [|congruence].
    destruct (nth_error (map snd m) j); [|congruence].
    cbn [forallb fst]. now rewrite andb_true_r. }
  clear -S. induction S as [|a l S IH F]; unfold pairs_of; cbn [map concat].
  - constructor.
  - fold (pairs_of (r_map r) l). destruct (load (r_map r) a) as [v|]; [|exact IH]. cbn [app]. constructor; [exact IH|].
    apply Forall_forall. intros [k w] H. cbn [fst]. unfold pairs_of in H.
    apply in_concat in H. destruct H as (x & H1 & H2). apply in_map_iff in H1.
    destruct H1 as (k' & <- & H1). destruct (load (r_map r) k'); [|destruct H2].
    destruct H2 as [E|[]]. injection E as <- _. rewrite Forall_forall in F. auto.
Qed.

Lemma first_spec order r (q : option (K -> V -> list expr)) m :
  NoDup (map fst (r_map r)) -> Permutation (r_map r) order -> selects q order m ->
  match first keq zk zv s order r q with
  | Some (k, v) => In (k, v) m
  | None => m = []
  end.
Proof.
  intros ND P S.
  pose proof (search_exact order r q m ND P S) as E.
  assert (G : forall l, Permutation m l ->
    match hd_error l with Some (k, v) => In (k, v) m | None => m = [] end).
  { intros [|[k v] l] PL; cbn [hd_error].
    - apply Permutation_sym in PL. apply Permutation_nil in PL. assumption.
    - apply Permutation_sym in PL. eapply Permutation_in; [exact PL|now left]. }
  specialize (G _ E). clear E S P ND.
  assert (P1 : forall (order : table) q, search_plain order q (fun (_ : option (K * V)) (k : K) (v : V) => (Some (k, v), false)) None
               = hd_error (search_plain order q collect [])).
  { clear. intros order q. rewrite search_plain_collect. cbn [app].
    induction order as [|[k v] l IH]; cbn [search_plain filter_q]; [reflexivity|].
    replace (match q with Some q => negb (match_ (q k v)) | None => false end)
      with (negb (wants q k v)) by (destruct q; reflexivity).
    destruct (wants q k v); cbn [negb]; [reflexivity|exact IH]. }
  assert (P2 : forall (t : table) ks, search_emit keq t ks (fun (_ : option (K * V)) k v => (Some (k, v), false)) None
               = hd_error (search_emit keq t ks collect [])).
  { clear. intros t ks. rewrite search_emit_collect. cbn [app]. unfold pairs_of.
    induction ks as [|k ks IH]; cbn [search_emit map concat]; [reflexivity|].
    destruct (load t k); [reflexivity|exact IH]. }
  unfold first, search in *. destruct q as [q|]; [|rewrite P1; exact G].
  destruct (ordered zk zv (Some q)); [rewrite P2|rewrite P1]; exact G.
Qed.
End Search.

Lemma filter_perm q l l' : Permutation l l' -> Permutation (filter_q q l) (filter_q q l').
Proof. clear keq zk zv.
  induction 1 as [|[k v] l l' P IH|[k v] [a b] l|l l1 l2 P1 IH1 P2 IH2]; cbn [filter_q].
  - constructor.
  - destruct (wants q k v); [now constructor|assumption].
  - destruct (wants q k v), (wants q a b); try reflexivity. constructor.
  - etransitivity; eassumption.
Qed.

Lemma output_count q : forall order n,
  output_loop order q stat_count n = Ok (n + zlen (filter_q q order)).
Proof. clear keq zk zv.
  induction order as [|[k v] order IH]; intros n; cbn [output_loop filter_q].
  - f_equal. unfold zlen. cbn [length]. lia.
  - replace (match q with Some q => negb (match_ (q k v)) | None => false end)
      with (negb (wants q k v)) by (destruct q; reflexivity).
    destruct (wants q k v); cbn [negb]; [|apply IH].
    unfold stat_count at 1. rewrite IH. f_equal. unfold zlen. cbn [length]. lia.
Qed.

Lemma count_spec order (r : ram K V) q m :
  Permutation (r_map r) order -> selects q (r_map r) m -> count order q = Ok (zlen m).
Proof. clear keq zk zv.
  intros P S. apply selects_fun in S. subst m. unfold count. rewrite output_count. f_equal.
  unfold zlen. rewrite (Permutation_length (filter_perm q _ _ P)). lia.
Qed.

Lemma length_spec order (r : ram K V) : Permutation (r_map r) order ->
  length_ order = Ok (zlen (r_map r)).
Proof. clear keq zk zv.
  intros P. unfold length_. apply (count_spec order r None); [assumption|].
  clear P. induction (r_map r) as [|[k v] l IH]; [constructor|]. apply sel_yes; [exact I|exact IH].
Qed.

Lemma sum_panics (col : K -> V -> Z) q : forall (order : table) n, (exists k v, In (k, v) order /\ wanted q k v) ->
  output_loop order q (stat_sum col) n = Panic.
Proof. clear keq zk zv.
  induction order as [|[a b] order IH]; intros n (k & v & H & W); [destruct H|].
  cbn [output_loop].
  change (match q with Some q0 => negb (match_ (q0 a b)) | None => false end)
    with (match q with Some q0 => negb (match_ (q0 a b)) | None => false end).
  destruct (wants q a b) eqn:E;
    (assert (X : (match q with Some q0 => negb (match_ (q0 a b)) | None => false end) = negb (wants q a b))
       by (destruct q; reflexivity)); rewrite E in X; unfold query in *; rewrite X; cbn [negb]; [reflexivity|].
  apply IH. exists k, v. split; [|assumption]. destruct H as [H|H]; [|assumption].
  injection H as -> ->. apply wants_spec in W. congruence.
Qed.

(** reachable tables have distinct keys *)
Lemma do_ops_nodup key_of os : forall r, NoDup (map fst (r_map r)) ->
  NoDup (map fst (r_map (fst (do_ops keq zk zv key_of r os)))).
Proof.
  induction os as [|o os IH]; intros r N; cbn [do_ops]; [exact N|].
  assert (H : NoDup (map fst (r_map (fst (do_op keq zk zv key_of r o))))).
  { destruct o as [k f v|k v|k c|k c p|v|k]; cbn [do_op].
    - unfold insert, load_or_store. destruct f; [apply (store_nodup keq (fun _ => true)); exact N|].
      destruct (load (r_map r) k); [exact N|apply (store_nodup keq (fun _ => true)); exact N].
    - unfold set, insert. apply (store_nodup keq (fun _ => true)); exact N.
    - unfold delete. destruct (load (r_map r) k); [|exact N].
      destruct (match c with None => true | Some c => _ end); [apply (remove_nodup keq (fun _ => true)); exact N|exact N].
    - unfold mutate. destruct (load (r_map r) k); [|exact N].
      destruct (match c with None => true | Some c => _ end); [apply (store_nodup keq (fun _ => true)); exact N|exact N].
    - unfold add, load_or_store. destruct (key_of _) as [k|]; [|exact N].
      destruct (load (r_map r) k); [exact N|apply (store_nodup keq (fun _ => true)); exact N].
    - destruct (lookup keq zv r k). exact N. }
  destruct (do_op keq zk zv key_of r o) as [r1 x]. cbn [fst] in H. specialize (IH r1 H).
  destruct (do_ops keq zk zv key_of r1 os) as [r2 xs]. exact IH.
Qed.
End Proofs.

(** ** Conditions *)
Section Cond.
Context {K V : Type}.
Fixpoint cond_rect' (P : cond -> Prop) (HV : forall b, P (CVal b))
  (HA : forall l, Forall P l -> P (CAnd l)) (HO : forall l, Forall P l -> P (COr l))
  (HN : forall c, P c -> P (CNot c)) (c : cond) : P c :=
  let go := fix go (l : list cond) : Forall P l :=
    match l with [] => Forall_nil P | c :: l' => Forall_cons c (cond_rect' P HV HA HO HN c) (go l') end in
  match c with
  | CVal b => HV b
  | CAnd l => HA l (go l)
  | COr l => HO l (go l)
  | CNot c => HN c (cond_rect' P HV HA HO HN c)
  end.

Definition all_ := fix all (l : list cond) : bool :=
  match l with [] => true | c :: l' => holds c && all l' end.
Definition any_ := fix any (l : list cond) : bool :=
  match l with [] => false | c :: l' => holds c || any l' end.

Lemma merge_loop_vals (a : list (expr K V)) (l : list cond) :
  Forall (fun c => @build K V c = EValue (holds c)) l ->
  merge_loop a (map build l) = EValue (all_ l).
Proof.
  induction 1 as [|c l H F IH]; cbn [map merge_loop all_]; [reflexivity|].
  rewrite H. destruct (holds c); cbn [andb]; [exact IH|reflexivity].
Qed.
Lemma cases_loop_vals (a : list (expr K V)) (l : list cond) :
  Forall (fun c => @build K V c = EValue (holds c)) l ->
  cases_loop a (map build l) = EValue (any_ l).
Proof.
  induction 1 as [|c l H F IH]; cbn [map cases_loop any_]; [reflexivity|].
  rewrite H. destruct (holds c); cbn [orb]; [reflexivity|exact IH].
Qed.

Lemma build_spec c : @build K V c = EValue (holds c).
Proof.
  induction c as [b|l F|l F|c IH] using cond_rect'.
  - reflexivity.
  - cbn [build holds]. fold all_. unfold merge. destruct l as [|c l]; [reflexivity|].
    exact (merge_loop_vals _ (c :: l) F).
  - cbn [build]. unfold cases. destruct l as [|c l]; [reflexivity|].
    exact (cases_loop_vals _ (c :: l) F).
  - cbn [build holds]. unfold avoid. now rewrite IH.
Qed.

Lemma match_conds (l : list cond) :
  match_ (map (@build K V) l) = true <-> Forall (fun c => holds c = true) l.
Proof.
  induction l as [|c l IH]; cbn [map match_]; [split; auto|].
  rewrite build_spec. destruct (holds c) eqn:E.
  - rewrite IH. split; [intros; constructor; assumption|intros H; inversion H; assumption].
  - split; [discriminate|intros H; inversion H; congruence].
Qed.
End Cond.

(** ** Insertion sort meets the contract *)
Section Ins.
Context {A : Type}.

Lemma nth_error_app_len {B} (p : list B) x s : nth_error (p ++ x :: s) (length p) = Some x.
Proof. rewrite nth_error_app2 by lia. now rewrite Nat.sub_diag. Qed.

Lemma nth_app_at {B} (p : list B) s n d : nth (length p + n) (p ++ s) d = nth n s d.
Proof. rewrite app_nth2_plus. reflexivity. Qed.

Lemma map_seq_nth {B} (l : list B) d (f : nat -> B) n0 :
  (forall i, (i < length l)%nat -> f (n0 + i)%nat = nth i l d) -> map f (seq n0 (length l)) = l.
Proof.
  revert n0. induction l as [|x l IH]; intros n0 H; cbn [length seq map]; [reflexivity|].
  f_equal.
  - specialize (H 0%nat ltac:(cbn; lia)). rewrite Nat.add_0_r in H. exact H.
  - apply IH. intros i L. replace (S n0 + i)%nat with (n0 + S i)%nat by lia.
    apply (H (S i)). cbn [length]. lia.
Qed.

Lemma swap_adjacent (p : list A) y x s :
  swap (p ++ y :: x :: s) (S (length p)) (length p) = p ++ x :: y :: s.
Proof.
  unfold swap.
  assert (E1 : nth_error (p ++ y :: x :: s) (S (length p)) = Some x).
  { rewrite nth_error_app2 by lia. replace (S (length p) - length p)%nat with 1%nat by lia. reflexivity. }
  rewrite E1, nth_error_app_len.
  replace (length (p ++ y :: x :: s)) with (length (p ++ x :: y :: s))
    by (rewrite !app_length; reflexivity).
  apply map_seq_nth with (d := x). intros i L. cbn [Nat.add].
  destruct (Nat.eqb_spec i (S (length p))) as [->|N1].
  - replace (S (length p)) with (length p + 1)%nat by lia. now rewrite nth_app_at.
  - destruct (Nat.eqb_spec i (length p)) as [->|N2].
    + replace (length p) with (length p + 0)%nat at 1 by lia. now rewrite nth_app_at.
    + destruct (Nat.ltb_spec i (length p)).
      * rewrite !app_nth1 by lia. reflexivity.
      * replace i with (length p + (S (S (i - length p - 2))))%nat by lia.
        rewrite !nth_app_at. reflexivity.
Qed.

Context (lt : A -> A -> bool) (W : strict_weak lt).

(** insertion into the reverse of a prefix *)
Fixpoint insr (x : A) (rp : list A) : list A :=
  match rp with
  | [] => [x]
  | y :: rp' => if lt x y then y :: insr x rp' else x :: y :: rp'
  end.

Lemma insr_perm x rp : Permutation (x :: rp) (insr x rp).
Proof.
  induction rp as [|y rp IH]; cbn [insr]; [reflexivity|].
  destruct (lt x y); [|reflexivity]. rewrite perm_swap. now constructor.
Qed.

Lemma ins_inner_spec (l0 : list A) less :
  (forall l' i j a b, nth_error l' i = Some a -> nth_error l' j = Some b ->
     Permutation l0 l' -> less l' i j = lt a b) ->
  forall rp x s, Permutation l0 (rev rp ++ x :: s) ->
  ins_inner less (rev rp ++ x :: s) (length rp) = rev (insr x rp) ++ s.
Proof.
  intros HL. induction rp as [|y rp IH]; intros x s P; cbn [length ins_inner insr].
  - reflexivity.
  - cbn [rev] in *. rewrite <- app_assoc in *. cbn [app] in *.
    rewrite (HL _ _ _ x y); [| | |exact P].
    + destruct (lt x y).
      * replace (S (length rp)) with (S (length (rev rp))) by (now rewrite rev_length).
        replace (length rp) with (length (rev rp)) by (now rewrite rev_length).
        rewrite swap_adjacent. rewrite rev_length. rewrite IH.
        -- cbn [rev]. now rewrite <- app_assoc.
        -- rewrite P. apply Permutation_app_head. constructor.
      * cbn [rev]. now rewrite <- !app_assoc.
    + rewrite nth_error_app2 by (rewrite rev_length; lia). rewrite rev_length.
      replace (S (length rp) - length rp)%nat with 1%nat by lia. reflexivity.
    + rewrite <- (rev_length rp). apply nth_error_app_len.
Qed.

(** reverse-sorted prefix: newer first, so no later element is greater *)
Definition rsorted (rp : list A) : Prop := StronglySorted (fun a b => lt a b = false) rp.

Lemma insr_sorted x rp : rsorted rp -> rsorted (insr x rp).
Proof.
  destruct W as (I & T & NT).
  induction 1 as [|y rp S IH F]; cbn [insr].
  - repeat constructor.
  - destruct (lt x y) eqn:E.
    + constructor; [exact IH|]. apply (Permutation_Forall (insr_perm x rp)).
      constructor; [|exact F].
      destruct (lt y x) eqn:E2; [|reflexivity]. specialize (I x).
      pose proof (T _ _ _ E E2). congruence.
    + constructor; [now constructor|]. constructor; [exact E|].
      rewrite Forall_forall in *. intros z Hz. destruct (lt x z) eqn:E3; [|reflexivity].
      destruct (NT x y z E3) as [H|H]; [congruence|]. rewrite (F z Hz) in H. discriminate.
Qed.
Lemma rev_sorted rp : rsorted rp -> sorted_by lt (rev rp).
Proof.
  unfold rsorted, sorted_by. induction 1 as [|x rp S IH F]; cbn [rev]; [constructor|].
  assert (F' : Forall (fun b => lt x b = false) (rev rp)) by (apply Forall_rev; exact F).
  clear S F. induction IH as [|a m H IH G]; cbn [app]; [repeat constructor|].
  inversion F' as [|? ? F1 F2]; subst. constructor; [auto|].
  apply Forall_app. split; [exact G|]. repeat constructor. exact F1.
Qed.

Lemma ins_outer_spec (l0 : list A) less :
  (forall l' i j a b, nth_error l' i = Some a -> nth_error l' j = Some b ->
     Permutation l0 l' -> less l' i j = lt a b) ->
  forall s rp, Permutation l0 (rev rp ++ s) -> rsorted rp ->
  sorted_by lt (ins_outer less (length s) (length rp) (rev rp ++ s)).
Proof.
  intros HL. induction s as [|x s IH]; intros rp P S; cbn [length ins_outer].
  - rewrite app_nil_r. now apply rev_sorted.
  - rewrite (ins_inner_spec l0 less HL rp x s P).
    replace (Datatypes.S (length rp)) with (length (insr x rp))
      by (rewrite <- (Permutation_length (insr_perm x rp)); reflexivity).
    apply IH; [|now apply insr_sorted]. rewrite P.
    rewrite <- (Permutation_rev (insr x rp)), <- (insr_perm x rp).
    rewrite <- (Permutation_rev rp). cbn [app]. apply Permutation_sym, Permutation_middle.
Qed.
End Ins.

Lemma swap_perm {A} (l : list A) j : Permutation l (swap l (S j) j).
Proof.
  unfold swap. destruct (nth_error l (S j)) as [x|] eqn:E1; [|reflexivity].
  destruct (nth_error l j) as [y|] eqn:E2; [|reflexivity].
  destruct (nth_error_split l j E2) as (p & s & -> & L). subst j.
  rewrite nth_error_app2 in E1 by lia. replace (S (length p) - length p)%nat with 1%nat in E1 by lia.
  destruct s as [|x' s]; [discriminate|]. injection E1 as ->.
  pose proof (swap_adjacent p y x s) as SA. unfold swap in SA.
  assert (E3 : nth_error (p ++ y :: x :: s) (S (length p)) = Some x).
  { rewrite nth_error_app2 by lia. replace (S (length p) - length p)%nat with 1%nat by lia. reflexivity. }
  rewrite E3, nth_error_app_len in SA. rewrite SA. apply Permutation_app_head. constructor.
Qed.
Lemma ins_inner_perm {A} less : forall j (l : list A), Permutation l (ins_inner less l j).
Proof.
  induction j as [|j IH]; intros l; cbn [ins_inner]; [reflexivity|].
  destruct (less l (S j) j); [|reflexivity]. rewrite (swap_perm l j) at 1. apply IH.
Qed.
Lemma ins_outer_perm {A} less : forall n i (l : list A), Permutation l (ins_outer less n i l).
Proof.
  induction n as [|n IH]; intros i l; cbn [ins_outer]; [reflexivity|].
  rewrite (ins_inner_perm less i l) at 1. apply IH.
Qed.

Lemma insertion_contract {A} : sort_contract (@insertion_sort A).
Proof.
  split.
  - intros. apply ins_outer_perm.
  - intros less lt l W HL. unfold insertion_sort. destruct l as [|x l]; [constructor|].
    replace (length (x :: l) - 1)%nat with (length l) by (cbn [length]; lia).
    apply (ins_outer_spec lt W (x :: l) less HL l [x]); [reflexivity|]. repeat constructor.
Qed.

(** ** Ranges and orders of a query *)
Section Ranges.
Context {K V : Type}.
Lemma first_range_none (es : list (expr K V)) : no_range es -> first_range es = (0, 0).
Proof.
  induction 1 as [|e es H _ IH]; [reflexivity|]. destruct e; cbn in *; try exact IH. destruct H; exact I.
Qed.
Lemma first_range_is (es : list (expr K V)) f u : range_is es f u -> first_range es = (f, u).
Proof.
  intros (pre & post & -> & H). induction H as [|e es H _ IH]; [reflexivity|].
  destruct e; cbn in *; try exact IH. destruct H; exact I.
Qed.
Lemma orders_none (es : list (expr K V)) : Forall (fun e => ~ is_order e) es -> orders_of es = [].
Proof.
  induction 1 as [|e es H _ IH]; [reflexivity|]. destruct e; cbn in *; try exact IH. destruct H; exact I.
Qed.
Lemma orders_app (a b : list (expr K V)) : orders_of (a ++ b) = orders_of a ++ orders_of b.
Proof. induction a as [|e a IH]; [reflexivity|]. destruct e; cbn; rewrite ?IH; reflexivity. Qed.
Lemma orders_only (es : list (expr K V)) lt : only_order es lt -> orders_of es = [lt].
Proof.
  intros (pre & post & -> & H). apply Forall_app in H. destruct H as [H1 H2].
  rewrite orders_app. cbn. rewrite (orders_none _ H1), (orders_none _ H2). reflexivity.
Qed.
Context (keq : forall a b : K, {a = b} + {a <> b}).
Lemma add_answers zk key_of (r : ram K V) v :
  match key_of (u64 (r_id r + 1)) with
  | None => add keq zk key_of r v = (r, (zk, Some ErrInsertOnly))
  | Some k => exists r' e, add keq zk key_of r v = (r', (k, e)) /\ e <> Some ErrInsertOnly /\
      r_id r' = u64 (r_id r + 1) /\ (e = None <-> load keq (r_map r) k = None)
  end.
Proof.
  unfold add. destruct (key_of (u64 (r_id r + 1))) as [k|]; [|reflexivity].
  unfold load_or_store. destruct (load keq (r_map r) k) as [x|] eqn:E.
  - eexists _, _. split; [reflexivity|]. split; [discriminate|]. split; [reflexivity|]. split; discriminate.
  - eexists _, _. split; [reflexivity|]. split; [discriminate|]. split; [reflexivity|]. split; reflexivity.
Qed.
End Ranges.
