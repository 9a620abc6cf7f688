(** * C139: the JavaScript client. *)
From Coq Require Import String Permutation.
From Verif Require Import GoBase GoText SdkModel.
Open Scope list_scope.
Open Scope Z_scope.

(** ** Paths *)
Lemma leqb_iff a b : leqb a b = true <-> a = b.
Proof.
  revert b. induction a as [|x a IH]; intros [|y b]; cbn; try (split; congruence).
  rewrite andb_true_iff, beq_true, IH. split; [intros [-> ->]; reflexivity|intros Q; inversion Q; split; reflexivity].
Qed.
Lemma under_iff a p : under a p = true <-> exists q, p = a ++ q.
Proof.
  revert p. induction a as [|x a IH]; intros p; cbn; [split; [intros _; exists p; reflexivity|reflexivity]|].
  destruct p as [|y p]; [split; [discriminate|intros (q & Q); discriminate]|]. rewrite andb_true_iff, beq_true, IH. split.
  - intros (-> & q & ->). exists q. reflexivity.
  - intros (q & Q). inversion Q; subst. split; [reflexivity|exists q; reflexivity].
Qed.
Lemma under_no a p : under a p = false <-> ~ exists q, p = a ++ q.
Proof. rewrite <- not_true_iff_false, under_iff. reflexivity. Qed.

(** ** The tree *)
Fixpoint sub (p : list bytes) (n : node) : option node :=
  match p with [] => Some n | k :: r => match assoc k (n_elem n) with Some c => sub r c | None => None end end.
Definition has (n : node) (p : list bytes) (m : meth) : Prop := exists c, sub p n = Some c /\ n_item c m = true.
Lemma assoc_at f k l j : assoc j (at_key f k l) = if beq k j then Some (f (match assoc k l with Some n => n | None => new_node end)) else assoc j l.
Proof.
  induction l as [|[x n] l IH]; cbn [at_key assoc].
  - destruct (beq k j); reflexivity.
  - destruct (beq x k) eqn:E.
    + apply beq_true in E. subst x. cbn [assoc]. destruct (beq k j); reflexivity.
    + cbn [assoc]. rewrite IH. destruct (beq x j) eqn:F.
      * apply beq_true in F. subst x. destruct (beq k j) eqn:G; [|reflexivity]. apply beq_true in G. subst. rewrite beq_refl in E. discriminate.
      * reflexivity.
Qed.
Lemma has_new p m : ~ has new_node p m.
Proof. intros (c & S & I). destruct p; cbn in S; [inversion S; subst; discriminate|discriminate]. Qed.
Lemma has_cons n k p m : has n (k :: p) m <-> exists c, assoc k (n_elem n) = Some c /\ has c p m.
Proof.
  unfold has. cbn [sub]. split.
  - intros (c & S & I). destruct (assoc k (n_elem n)) as [d|]; [|discriminate]. exists d. split; [reflexivity|]. exists c. split; assumption.
  - intros (d & A & c & S & I). rewrite A. exists c. split; assumption.
Qed.
Lemma has_add q it : forall n p m, has (add_item q it n) p m <-> has n p m \/ (p = q /\ it m = true).
Proof.
  induction q as [|k q IH]; intros n p m; cbn [add_item].
  - destruct p as [|j p].
    + unfold has. cbn [sub]. split.
      * intros (c & S & I). inversion S; subst. cbn [n_item] in I. apply orb_prop in I. destruct I as [I|I]; [left; exists n; split; [reflexivity|exact I]|right; split; [reflexivity|exact I]].
      * intros [(c & S & I) | [_ I]]; eexists; (split; [reflexivity|]); cbn [n_item]; [inversion S; subst; rewrite I; reflexivity|rewrite I; apply orb_true_r].
    + rewrite !has_cons. cbn [n_elem]. split; [intros H; left; exact H|intros [H | [X _]]; [exact H|discriminate]].
  - destruct p as [|j p].
    + unfold has. cbn [sub]. split.
      * intros (c & S & I). inversion S; subst. left. exists n. split; [reflexivity|exact I].
      * intros [(c & S & I) | [X _]]; [|discriminate]. inversion S; subst. eexists. split; [reflexivity|exact I].
    + rewrite !has_cons. cbn [n_elem]. rewrite assoc_at. destruct (beq k j) eqn:E.
      * apply beq_true in E. subst j. split.
        -- intros (c & S & H). inversion S; subst. apply IH in H. destruct H as [H | [-> H]]; [|right; split; [reflexivity|exact H]].
           left. destruct (assoc k (n_elem n)) as [d|] eqn:A; [|destruct (has_new _ _ H)]. exists d. split; [reflexivity|exact H].
        -- intros [(c & A & H) | [X H]]; eexists; (split; [reflexivity|]); apply IH; [rewrite A; left; exact H|inversion X; subst; right; split; [reflexivity|exact H]].
      * split; [intros H; left; exact H|]. intros [H | [X _]]; [exact H|]. inversion X; subst. rewrite beq_refl in E. discriminate.
Qed.
(** The tree has the operations of the document. *)
Lemma has_tree d p m : has (tree_of d) p m <-> exists it, In (p, it) d /\ it m = true.
Proof.
  unfold tree_of. assert (G : forall d n, has (fold_left (fun n '(p, it) => add_item p it n) d n) p m <-> has n p m \/ exists it, In (p, it) d /\ it m = true).
  { clear d. induction d as [|[q it] d IH]; intros n; cbn [fold_left].
    - split; [intros H; left; exact H|intros [H | (it & [] & _)]; exact H].
    - rewrite IH, has_add. split.
      + intros [[H | [-> H]] | (it' & I & H)].
        * left. exact H.
        * right. exists it. split; [left; reflexivity|exact H].
        * right. exists it'. split; [right; exact I|exact H].
      + intros [H | (it' & [I | I] & H)].
        * left. left. exact H.
        * inversion I; subst. left. right. split; [reflexivity|exact H].
        * right. exists it'. split; assumption. }
  rewrite G. split; [intros [H|H]; [destruct (has_new _ _ H)|exact H]|intros H; right; exact H].
Qed.
(** keys: no key twice, and all of them from the paths *)
Definition wf (P : bytes -> Prop) (n : node) : Prop := forall p c, sub p n = Some c -> NoDup (map fst (n_elem c)) /\ forall k, In k (map fst (n_elem c)) -> P k.
Lemma at_keys f k l : forall j, In j (map fst (at_key f k l)) <-> j = k \/ In j (map fst l).
Proof.
  intros j. induction l as [|[x n] l IH]; cbn [at_key map fst In].
  - intuition congruence.
  - destruct (beq x k) eqn:E; cbn [map fst In].
    + apply beq_true in E. subst. intuition congruence.
    + rewrite IH. intuition congruence.
Qed.
Lemma nodup_at f k l : NoDup (map fst l) -> NoDup (map fst (at_key f k l)).
Proof.
  induction l as [|[x n] l IH]; cbn [at_key map fst]; intros N.
  - constructor; [intros []|constructor].
  - inversion N as [|? ? N1 N2]; subst. destruct (beq x k) eqn:E; cbn [map fst]; constructor; try assumption.
    + rewrite at_keys. intros [-> | I]; [rewrite beq_refl in E; discriminate|contradiction].
    + apply IH. exact N2.
Qed.
Lemma wf_new P : wf P new_node.
Proof. intros p c S. destruct p; cbn in S; [inversion S; subst; split; [constructor|intros k []]|discriminate]. Qed.
Lemma wf_child P n k c : wf P n -> assoc k (n_elem n) = Some c -> wf P c.
Proof. intros W A p d S. apply (W (k :: p)). cbn [sub]. rewrite A. exact S. Qed.
Lemma wf_add P q it : Forall P q -> forall n, wf P n -> wf P (add_item q it n).
Proof.
  induction 1 as [|k q K Q IH]; intros n W p c S; cbn [add_item] in S.
  - destruct p as [|j p]; cbn [sub n_elem] in S.
    + inversion S; subst. cbn [n_elem]. apply (W [] n). reflexivity.
    + apply (W (j :: p)). exact S.
  - destruct p as [|j p]; cbn [sub n_elem] in S.
    + inversion S; subst. cbn [n_elem]. destruct (W [] n eq_refl) as [W1 W2]. split; [apply nodup_at; exact W1|].
      intros x I. apply at_keys in I. destruct I as [-> | I]; [exact K|apply W2; exact I].
    + rewrite assoc_at in S. destruct (beq k j) eqn:E.
      * refine (IH _ _ p c S). destruct (assoc k (n_elem n)) as [d|] eqn:A; [eapply wf_child; eassumption|apply wf_new].
      * apply (W (j :: p)). exact S.
Qed.
Lemma wf_tree P d : Forall (fun '(p, _) => Forall P p) d -> wf P (tree_of d).
Proof.
  intros F. unfold tree_of. assert (G : forall n, wf P n -> wf P (fold_left (fun n '(p, it) => add_item p it n) d n)).
  { induction F as [|[p it] d P1 F IH]; intros n W; [exact W|]. cbn [fold_left]. apply IH. apply wf_add; assumption. }
  apply G. apply wf_new.
Qed.
Lemma assoc_in l k c : NoDup (map fst l) -> (In (k, c) l <-> assoc k l = Some c).
Proof.
  induction l as [|[x n] l IH]; cbn [assoc map fst In]; intros N; [split; [intros []|discriminate]|].
  inversion N as [|? ? N1 N2]; subst. destruct (beq x k) eqn:E.
  - apply beq_true in E. subst x. split; [|intros X; inversion X; left; reflexivity].
    intros [X|X]; [inversion X; reflexivity|]. exfalso. apply N1. apply in_map_iff. exists (k, c). split; [reflexivity|exact X].
  - rewrite <- (IH N2). split; [intros [X|X]; [inversion X; subst; rewrite beq_refl in E; discriminate|exact X]|intros X; right; exact X].
Qed.

(** ** The program *)
Scheme walked_min := Minimality for walked Sort Prop
with walked_all_min := Minimality for walked_all Sort Prop.
Combined Scheme walked_both from walked_min, walked_all_min.
Definition fixed (k : bytes) : Prop := variable k = false.

Lemma in_order n order k c : NoDup (map fst (n_elem n)) -> Permutation order (filter (fun kn => negb (variable (fst kn))) (n_elem n)) ->
  (In (k, c) order <-> assoc k (n_elem n) = Some c /\ fixed k).
Proof.
  intros N P. rewrite <- (assoc_in _ k c N). unfold fixed. split.
  - intros I. apply (Permutation_in _ P) in I. apply filter_In in I. cbn [fst] in I. destruct I as [I V]. split; [exact I|]. destruct (variable k); [discriminate|reflexivity].
  - intros [I V]. apply (Permutation_in _ (Permutation_sym P)). apply filter_In. cbn [fst]. rewrite V. split; [exact I|reflexivity].
Qed.
Lemma walked_in P :
  (forall p n prog, walked p n prog -> wf P n -> forall st, In st prog <-> exists q c, sub q n = Some c /\ Forall fixed q /\ In st (head (p ++ q) c)) /\
  (forall p order prog, walked_all p order prog -> Forall (fun kn => wf P (snd kn) /\ fixed (fst kn)) order ->
     forall st, In st prog <-> exists k n q c, In (k, n) order /\ sub q n = Some c /\ Forall fixed q /\ In st (head (p ++ k :: q) c)).
Proof.
  apply walked_both.
  - intros p n order prog O _ IH W st. assert (N := proj1 (W [] n eq_refl)). rewrite in_app_iff, IH.
    + split.
      * intros [I | (k & c & q & d & I & S & F & H)].
        -- exists [], n. split; [reflexivity|]. split; [constructor|]. rewrite app_nil_r. exact I.
        -- apply (in_order _ _ _ _ N O) in I. destruct I as [A V]. exists (k :: q), d. cbn [sub]. rewrite A. split; [exact S|]. split; [constructor; assumption|exact H].
      * intros (q & c & S & F & H). destruct q as [|k q].
        -- left. cbn [sub] in S. inversion S; subst. rewrite app_nil_r in H. exact H.
        -- right. cbn [sub] in S. destruct (assoc k (n_elem n)) as [d|] eqn:A; [|discriminate]. inversion F; subst.
           exists k, d, q, c. split; [apply (in_order _ _ _ _ N O); split; assumption|]. split; [exact S|split; assumption].
    + apply Forall_forall. intros [k c] I. apply (in_order _ _ _ _ N O) in I. destruct I as [A V]. split; [eapply wf_child; eassumption|exact V].
  - intros p _ st. split; [intros []|intros (k & n & q & c & [] & _)].
  - intros p k n r a b _ IHa _ IHb F st. inversion F as [|? ? [W V] F']; subst. cbn [snd fst] in *.
    rewrite in_app_iff, (IHa W), (IHb F'). split.
    + intros [(q & c & S & G & H) | (j & m & q & c & I & S & G & H)].
      * exists k, n, q, c. rewrite <- app_assoc in H. split; [left; reflexivity|split; [exact S|split; [exact G|exact H]]].
      * exists j, m, q, c. split; [right; exact I|split; [exact S|split; assumption]].
    + intros (j & m & q & c & [I | I] & S & G & H).
      * inversion I; subst. left. exists q, c. rewrite <- app_assoc. split; [exact S|split; [exact G|exact H]].
      * right. exists j, m, q, c. split; [exact I|split; [exact S|split; assumption]].
Qed.
Lemma head_under p n st : In st (head p n) -> exists q, target st = p ++ q.
Proof.
  unfold head. intros I. apply in_app_or in I. destruct I as [I|I].
  - destruct p as [|k p]; [destruct I|]. destruct I as [<- | []]. exists []. rewrite app_nil_r. destruct (existsb _ _); reflexivity.
  - apply in_map_iff in I. destruct I as (m & <- & _). exists [meth_text m]. reflexivity.
Qed.

(** Assignments whose object is there, that lose nothing. *)
Fixpoint ready (seen : list (list bytes)) (prog : list stmt) : Prop :=
  match prog with
  | [] => True
  | st :: r => (removelast (target st) = [] \/ In (removelast (target st)) seen) /\ (forall t, In t seen -> under (target st) t = false) /\ ready (target st :: seen) r
  end.
Lemma ready_app a : forall seen b, ready seen (a ++ b) <-> ready seen a /\ ready (rev (map target a) ++ seen) b.
Proof.
  induction a as [|st a IH]; intros seen b; cbn [app ready map rev]; [tauto|]. rewrite IH, <- app_assoc. cbn [app]. tauto.
Qed.
Lemma find_val_keys p s : In p (map fst s) -> find_val p s <> None.
Proof.
  induction s as [|[q v] s IH]; intros I; [destruct I|]. cbn [find_val]. destruct (leqb q p) eqn:E; [discriminate|].
  destruct I as [X|I]; [cbn in X; subst; rewrite (proj2 (leqb_iff p p) eq_refl) in E; discriminate|exact (IH I)].
Qed.
Lemma run_ready prog : forall s, ready (map fst s) prog ->
  run prog s = Some (rev (map (fun st => (target st, value_of st)) prog) ++ s).
Proof.
  induction prog as [|st prog IH]; intros s R; [reflexivity|]. cbn [ready] in R. destruct R as (R1 & R2 & R3). cbn [run map rev].
  assert (F : filter (fun qv : list bytes * val => negb (under (target st) (fst qv))) s = s).
  { clear - R2. induction s as [|[q v] s IH]; [reflexivity|]. cbn [filter fst]. rewrite R2 by (left; reflexivity). cbn [negb].
    rewrite IH by (intros t I; apply R2; right; exact I). reflexivity. }
  assert (A : assign (target st) (value_of st) s = Some ((target st, value_of st) :: s)).
  { unfold assign. rewrite F. destruct R1 as [-> | R1]; [reflexivity|]. apply find_val_keys in R1.
    destruct (removelast (target st)); [reflexivity|]. destruct (find_val _ s); [reflexivity|congruence]. }
  rewrite A, IH by exact R3. rewrite <- app_assoc. reflexivity.
Qed.
Lemma ready_nodup prog : forall seen, ready seen prog -> NoDup (map target prog) /\ forall t, In t (map target prog) -> ~ In t seen.
Proof.
  induction prog as [|st prog IH]; intros seen R; cbn [map]; [split; [constructor|intros t []]|].
  destruct R as (R1 & R2 & R3). destruct (IH _ R3) as [N D]. split.
  - constructor; [intros I; apply (D _ I); left; reflexivity|exact N].
  - intros t [<- | I].
    + intros I. specialize (R2 _ I). assert (U : under (target st) (target st) = true) by (apply under_iff; exists []; rewrite app_nil_r; reflexivity). congruence.
    + intros J. apply (D _ I). right. exact J.
Qed.

(** no element is named like a method *)
Definition not_method (k : bytes) : Prop := forall m, k <> meth_text m.
Lemma meth_text_inj a b : meth_text a = meth_text b -> a = b.
Proof. destruct a, b; intros E; try reflexivity; vm_compute in E; discriminate. Qed.
Lemma snoc_parent {A} (p : list A) k : removelast (p ++ [k]) = p.
Proof. apply removelast_last. Qed.
Lemma head_ready p n seen : (removelast p = [] \/ In (removelast p) seen) -> (forall t, In t seen -> under p t = false) -> ready seen (head p n).
Proof.
  intros R U. unfold head. apply ready_app. split.
  - destruct p as [|k p]; [exact I|]. cbn [ready]. assert (T : forall b : bool, target (if b then SVar (k :: p) else SNew (k :: p)) = k :: p) by (intros []; reflexivity).
    rewrite T. split; [exact R|]. split; [exact U|exact I].
  - assert (G : forall l seen', NoDup l -> (p = [] \/ In p seen') ->
       (forall t, In t seen' -> forall m, In m l -> under (p ++ [meth_text m]) t = false) ->
       ready seen' (map (fun m => SCall p m (url_of p)) l)).
    { induction l as [|m l IH]; intros s N Q V; [exact I|]. inversion N as [|? ? N1 N2]; subst. cbn [map ready target]. rewrite snoc_parent.
      split; [exact Q|]. split; [intros t T; apply V; [exact T|left; reflexivity]|]. apply IH; [exact N2| |].
      - destruct Q as [Q|Q]; [left; exact Q|right; right; exact Q].
      - intros t [<- | T] m' M; [|apply V; [exact T|right; exact M]].
        apply under_no. intros (q & X). rewrite <- app_assoc in X. apply app_inv_head in X. cbn in X. inversion X as [[X1 X2]].
        apply meth_text_inj in X1. subst m'. contradiction. }
    apply G.
    + apply NoDup_filter. repeat (constructor; [cbn; intuition discriminate|]). constructor.
    + destruct p as [|k p]; [left; reflexivity|right]. destruct (existsb _ _); left; reflexivity.
    + intros t T m _. apply in_app_or in T. destruct T as [T|T].
      * destruct p as [|k p]; [destruct T|]. assert (E : t = k :: p) by (destruct T as [<- | []]; destruct (existsb _ _); reflexivity). subst t.
        apply under_no. intros (q & X). apply (f_equal (@List.length bytes)) in X. rewrite !app_length in X. cbn in X. lia.
      * specialize (U _ T). apply under_no. intros (q & X). apply under_no in U. apply U. exists ([meth_text m] ++ q). rewrite app_assoc. exact X.
Qed.
Lemma walked_ready :
  (forall p n prog, walked p n prog -> wf not_method n -> forall seen, (removelast p = [] \/ In (removelast p) seen) -> (forall t, In t seen -> under p t = false) -> ready seen prog) /\
  (forall p order prog, walked_all p order prog -> Forall (fun kn => wf not_method (snd kn) /\ fixed (fst kn)) order -> NoDup (map fst order) ->
     forall seen, (p = [] \/ In p seen) -> (forall k t, In k (map fst order) -> In t seen -> under (p ++ [k]) t = false) -> ready seen prog).
Proof.
  apply walked_both.
  - intros p n order prog O Wk IH W seen R U. assert (N := W [] n eq_refl). destruct N as [N K].
    apply ready_app. split; [apply head_ready; assumption|]. apply IH.
    + apply Forall_forall. intros [k c] I. apply (in_order _ _ _ _ N O) in I. destruct I as [A V]. split; [eapply wf_child; eassumption|exact V].
    + apply (Permutation_NoDup (Permutation_sym (Permutation_map fst O))). clear - N. induction (n_elem n) as [|[k c] l IH]; [constructor|].
      cbn [map fst] in N. inversion N as [|? ? N1 N2]; subst. cbn [filter fst]. destruct (variable k); cbn [negb]; [apply IH; exact N2|].
      cbn [map fst]. constructor; [|apply IH; exact N2]. intros I. apply N1. apply in_map_iff in I. destruct I as (x & <- & I). apply filter_In in I. apply in_map. apply I.
    + destruct p as [|k p]; [left; reflexivity|right]. apply in_or_app. left. apply -> in_rev. unfold head. rewrite map_app. apply in_or_app. left. left. destruct (existsb _ _); reflexivity.
    + intros k t I T. apply in_app_or in T. destruct T as [T|T].
      * apply in_rev in T. apply in_map_iff in T. destruct T as (st & <- & T). apply under_no. intros (q & X).
        unfold head in T. apply in_app_or in T. destruct T as [T|T].
        -- destruct p as [|j p]; [destruct T|]. assert (E : target st = j :: p) by (destruct T as [<- | []]; destruct (existsb _ _); reflexivity). rewrite E in X.
           apply (f_equal (@List.length bytes)) in X. rewrite !app_length in X. cbn in X. lia.
        -- apply in_map_iff in T. destruct T as (m & <- & _). cbn [target] in X. rewrite <- app_assoc in X. apply app_inv_head in X. inversion X as [[X1 X2]].
           assert (KK : In k (map fst (n_elem n))).
           { apply in_map_iff in I. destruct I as ([k' c] & Y & I). cbn in Y. subst k'. apply (in_order _ _ _ _ N O) in I. destruct I as [A _].
             apply (assoc_in _ _ _ N) in A. apply in_map_iff. exists (k, c). split; [reflexivity|exact A]. }
           apply (K _ KK m). symmetry. exact X1.
      * specialize (U _ T). apply under_no. intros (q & X). apply under_no in U. apply U. exists ([k] ++ q). rewrite app_assoc. exact X.
  - intros. exact I.
  - intros p k n r a b Wa IHa _ IHb F N seen Q U. inversion F as [|? ? [W V] F']; subst. cbn [map fst snd] in *. inversion N as [|? ? N1 N2]; subst.
    apply ready_app. split.
    + apply IHa; [exact W| |].
      * rewrite snoc_parent. exact Q.
      * intros t T. apply U; [left; reflexivity|exact T].
    + apply IHb; [exact F'|exact N2| |].
      * destruct Q as [Q|Q]; [left; exact Q|right; apply in_or_app; right; exact Q].
      * intros j t J T. apply in_app_or in T. destruct T as [T|T].
        -- apply in_rev in T. apply in_map_iff in T. destruct T as (st & <- & T).
           apply (proj1 (proj1 (walked_in not_method) _ _ _ Wa W st)) in T. destruct T as (q & c & _ & _ & H). destruct (head_under _ _ _ H) as (z & Z). rewrite Z.
           apply under_no. intros (y & X). rewrite <- !app_assoc in X. apply app_inv_head in X. cbn in X. inversion X as [[X1 X2]]. subst j. contradiction.
        -- apply U; [right; exact J|exact T].
Qed.

(** ** C139 *)
Lemma find_val_in s p v : NoDup (map fst s) -> (find_val p s = Some v <-> In (p, v) s).
Proof.
  induction s as [|[q w] s IH]; cbn [find_val map fst In]; intros N; [split; [discriminate|intros []]|].
  inversion N as [|? ? N1 N2]; subst. destruct (leqb q p) eqn:E.
  - apply leqb_iff in E. subst q. split; [intros X; inversion X; left; reflexivity|].
    intros [X|X]; [inversion X; reflexivity|]. exfalso. apply N1. apply in_map_iff. exists (p, v). split; [reflexivity|exact X].
  - rewrite (IH N2). split; [intros X; right; exact X|]. intros [X|X]; [|exact X]. inversion X; subst. rewrite (proj2 (leqb_iff p p) eq_refl) in E. discriminate.
Qed.
Lemma client d prog : Forall (fun '(p, _) => Forall not_method p) d -> walked [] (tree_of d) prog ->
  exists s, run prog [] = Some s /\ forall p v, find_val p s = Some v <-> exists st, In st prog /\ target st = p /\ value_of st = v.
Proof.
  intros F W. assert (R : ready [] prog).
  { apply (proj1 walked_ready _ _ _ W (wf_tree _ _ F) []); [left; reflexivity|intros t []]. }
  exists (rev (map (fun st => (target st, value_of st)) prog) ++ []). split; [apply run_ready; exact R|]. intros p v.
  rewrite app_nil_r, find_val_in.
  - rewrite <- in_rev, in_map_iff. split; [intros (st & X & I); inversion X; subst; exists st; split; [exact I|split; reflexivity]|].
    intros (st & I & <- & <-). exists st. split; [reflexivity|exact I].
  - rewrite map_rev, map_map. apply NoDup_rev. apply (ready_nodup prog [] R).
Qed.
Lemma calls d prog s p m u : Forall (fun '(p, _) => Forall not_method p) d -> walked [] (tree_of d) prog -> 
  (forall p v, find_val p s = Some v <-> exists st, In st prog /\ target st = p /\ value_of st = v) ->
  Forall fixed p -> (find_val (p ++ [meth_text m]) s = Some (VMeth m u) <-> (has (tree_of d) p m /\ u = url_of p)).
Proof.
  intros F W S V. rewrite S. split.
  - intros (st & I & T & E). apply (proj1 (walked_in not_method) _ _ _ W (wf_tree _ _ F)) in I. destruct I as (q & c & B & _ & H). cbn [app] in H.
    unfold head in H. apply in_app_or in H. destruct H as [H|H].
    + destruct q; [destruct H|]. destruct H as [<- | []]. destruct (existsb _ _); discriminate.
    + apply in_map_iff in H. destruct H as (m' & <- & H). cbn in E. inversion E; subst. cbn [target] in T. apply app_inj_tail in T. destruct T as [-> _].
      apply filter_In in H. split; [exists c; split; [exact B|apply H]|reflexivity].
  - intros [(c & B & H) ->]. exists (SCall p m (url_of p)). split; [|split; reflexivity].
    apply (proj1 (walked_in not_method) _ _ _ W (wf_tree _ _ F)). exists p, c. split; [exact B|]. split; [exact V|]. cbn [app]. unfold head. apply in_or_app. right.
    apply in_map_iff. exists m. split; [reflexivity|]. apply filter_In. split; [destruct m; cbn; tauto|exact H].
Qed.

(** the text of a path *)
Fixpoint path_text (p : list bytes) : bytes := match p with [] => [] | k :: r => text "/" ++ k ++ path_text r end.
Lemma url_path p : url_of p = path_text p.
Proof. induction p as [|k p IH]; [reflexivity|]. cbn [url_of flat_map path_text] in *. change (flat_map (fun k => 47 :: k) p) with (url_of p). rewrite IH. reflexivity. Qed.
(** Whatever order Go visits its maps in, the client is made, and the function of an operation
    other than GET, at the elements of its path, requests its method and path; where the API
    has no operation there is no function. *)
Theorem C139_calls_partial d prog : Forall (fun '(p, _) => Forall not_method p) d -> walked [] (tree_of d) prog ->
  exists s, run prog [] = Some s /\
  forall host p m, Forall fixed p -> m <> MGet ->
    (call host s (p ++ [meth_text m]) = Fetch m (host ++ path_text p) <-> exists it, In (p, it) d /\ it m = true).
Proof.
  intros F W. destruct (client d prog F W) as (s & R & S). exists s. split; [exact R|]. intros host p m V G.
  rewrite <- has_tree, <- url_path. split.
  - unfold call. intros E. destruct (find_val (p ++ [meth_text m]) s) as [v|] eqn:X; [|discriminate].
    destruct v as [| |m' u]; try discriminate. assert (M : m' = m) by (destruct m'; inversion E; congruence). subst m'.
    apply (calls d prog s p m u F W S V) in X. apply X.
  - intros H. unfold call. rewrite (proj2 (calls d prog s p m (url_of p) F W S V) (conj H eq_refl)). destruct m; congruence.
Qed.
(** There is such a program for every document. *)
Theorem C139_some_program : forall n p, exists prog, walked p n prog.
Proof.
  fix IH 1. intros [it elem] p.
  assert (L : exists prog, walked_all p (filter (fun kn => negb (variable (fst kn))) elem) prog).
  { induction elem as [|[k c] elem [r R]]; [exists []; constructor|]. cbn [filter fst]. destruct (variable k); cbn [negb]; [exists r; exact R|].
    destruct (IH c (p ++ [k])) as (a & A). exists (a ++ r). constructor; assumption. }
  destruct L as (prog & L). exists (head p (Node it elem) ++ prog). econstructor; [apply Permutation_refl|exact L].
Qed.
Definition only (m : meth) : item := meth_eqb m.
Definition shop : document := [([text "pets"], only MPost); ([text "pets"; text "sold"], only MPut); ([text "pets"; text "{id}"], only MGet)].
Theorem C139_example : Forall (fun '(p, _) => Forall not_method p) shop /\
  let prog := [SVar [text "pets"]; SCall [text "pets"] MPost (text "/pets"); SNew [text "pets"; text "sold"]; SCall [text "pets"; text "sold"] MPut (text "/pets/sold")] in
  walked [] (tree_of shop) prog /\
  exists s, run prog [] = Some s /\ call (text "http://x") s [text "pets"; text "sold"; text "PUT"] = Fetch MPut (text "http://x/pets/sold") /\
  call (text "http://x") s [text "pets"] = ReferenceError.
Proof.
  split.
  { repeat (constructor; [repeat (constructor; [intros m; destruct m; intros X; vm_compute in X; discriminate|]); constructor|]). constructor. }
  cbv zeta. split.
  { set (sold := Node (fun m => false || only MPut m) []). set (id := Node (fun m => false || only MGet m) []).
    set (pets := Node (fun m => false || only MPost m) [(text "sold", sold); (text "{id}", id)]).
    assert (S : walked [text "pets"; text "sold"] sold [SNew [text "pets"; text "sold"]; SCall [text "pets"; text "sold"] MPut (text "/pets/sold")]).
    { change [SNew [text "pets"; text "sold"]; SCall [text "pets"; text "sold"] MPut (text "/pets/sold")] with (head [text "pets"; text "sold"] sold ++ []).
      apply (walked_node _ sold []); [apply Permutation_refl|constructor]. }
    assert (P : walked [text "pets"] pets ([SVar [text "pets"]; SCall [text "pets"] MPost (text "/pets")] ++ [SNew [text "pets"; text "sold"]; SCall [text "pets"; text "sold"] MPut (text "/pets/sold")] ++ [])).
    { change [SVar [text "pets"]; SCall [text "pets"] MPost (text "/pets")] with (head [text "pets"] pets).
      apply (walked_node _ pets [(text "sold", sold)]); [apply Permutation_refl|]. constructor; [exact S|constructor]. }
    apply (walked_node [] (tree_of shop) [(text "pets", pets)] ((([SVar [text "pets"]; SCall [text "pets"] MPost (text "/pets")] ++ [SNew [text "pets"; text "sold"]; SCall [text "pets"; text "sold"] MPut (text "/pets/sold")] ++ [])) ++ [])).
    - apply Permutation_refl.
    - constructor; [exact P|constructor]. }
  eexists. split; [reflexivity|]. split; vm_compute; reflexivity.
Qed.

(** ** Refuted *)
(** The functions of GET operations, and those of parameters, end in a ReferenceError. *)
Theorem C139_get_refuted d prog : Forall (fun '(p, _) => Forall not_method p) d -> walked [] (tree_of d) prog ->
  exists s, run prog [] = Some s /\
  forall host p it, Forall fixed p -> In (p, it) d -> it MGet = true -> call host s (p ++ [text "GET"]) = ReferenceError.
Proof.
  intros F W. destruct (client d prog F W) as (s & R & S). exists s. split; [exact R|]. intros host p it V I G.
  unfold call. assert (H : has (tree_of d) p MGet) by (apply has_tree; exists it; split; assumption).
  change (text "GET") with (meth_text MGet). rewrite (proj2 (calls d prog s p MGet (url_of p) F W S V) (conj H eq_refl)). reflexivity.
Qed.
Lemma sub_add q it : forall n c, sub q n = Some c \/ True -> exists c', sub q (add_item q it n) = Some c'.
Proof.
  induction q as [|k q IH]; intros n c _; [eexists; reflexivity|]. cbn [add_item sub n_elem]. rewrite assoc_at, beq_refl. apply (IH _ c). right. exact I.
Qed.
Lemma sub_keep p q it : forall n, sub p n <> None -> sub p (add_item q it n) <> None.
Proof.
  revert q. induction p as [|k p IH]; intros q n S; [discriminate|]. destruct q as [|j q]; cbn [add_item sub n_elem] in *; [exact S|].
  rewrite assoc_at. destruct (beq j k) eqn:E; [|exact S]. apply beq_true in E. subst j. destruct (assoc k (n_elem n)); [|congruence]. apply IH. exact S.
Qed.
Lemma sub_tree d p it : In (p, it) d -> sub p (tree_of d) <> None.
Proof.
  intros I. unfold tree_of. assert (G : forall n, (sub p n <> None \/ In (p, it) d) -> sub p (fold_left (fun n '(p, it) => add_item p it n) d n) <> None).
  { clear I. induction d as [|[q i] d IH]; intros n H; cbn [fold_left]; [destruct H as [H|[]]; exact H|]. apply IH.
    destruct H as [H | [X | H]]; [left; apply sub_keep; exact H| |right; exact H]. inversion X; subst. left.
    destruct (sub_add p it n n) as (c & C); [right; exact Logic.I|]. rewrite C. discriminate. }
  apply G. right. exact I.
Qed.
Lemma sub_app p q n : sub (p ++ q) n = match sub p n with Some c => sub q c | None => None end.
Proof. revert n. induction p as [|k p IH]; intros n; [reflexivity|]. cbn [app sub]. destruct (assoc k (n_elem n)); [apply IH|reflexivity]. Qed.
Theorem C139_parameter_refuted d prog : Forall (fun '(p, _) => Forall not_method p) d -> walked [] (tree_of d) prog ->
  exists s, run prog [] = Some s /\
  forall host p k r it, p <> [] -> Forall fixed p -> variable k = true -> In (p ++ k :: r, it) d -> call host s p = ReferenceError.
Proof.
  intros F W. destruct (client d prog F W) as (s & R & S). exists s. split; [exact R|]. intros host p k r it NE V K I.
  apply sub_tree in I. rewrite sub_app in I. destruct (sub p (tree_of d)) as [c|] eqn:B; [|congruence]. cbn [sub] in I.
  destruct (assoc k (n_elem c)) as [e|] eqn:A; [|congruence].
  assert (H : existsb (fun kn => variable (fst kn)) (n_elem c) = true).
  { apply existsb_exists. exists (k, e). split; [|exact K]. apply (assoc_in _ _ _ (proj1 (wf_tree _ _ F p c B))). exact A. }
  unfold call. rewrite (proj2 (S p VParam)); [reflexivity|]. exists (SVar p). split; [|split; reflexivity].
  apply (proj1 (walked_in not_method) _ _ _ W (wf_tree _ _ F)). exists p, c. split; [exact B|]. split; [exact V|]. cbn [app]. unfold head. rewrite H.
  destruct p; [congruence|]. left. reflexivity.
Qed.
(** A response of status 200, that of every function with results, is rejected. *)
Theorem C139_ok_refuted : wrap 200 = Rejected.
Proof. reflexivity. Qed.
Theorem C139_wrap s : wrap s = Rejected <-> ~ (201 <= s <= 299).
Proof.
  unfold wrap. destruct (Z.ltb_spec 200 s); destruct (Z.ltb_spec s 300); cbn [andb]; [destruct (s =? 204)| | |]; (split; intros X; [try discriminate; try lia|try reflexivity; exfalso; lia]).
Qed.
(** Below a parameter the functions of longer paths would request another path. *)
Theorem C139_nested_refuted v a b : a <> [] -> nested_url v [a; b] <> v ++ url_of [a; b].
Proof.
  intros N E. unfold nested_url in E. cbn [rev app url_of flat_map] in E. apply app_inv_head in E.
  apply (f_equal (@List.length Z)) in E. cbn in E. rewrite app_nil_r, app_length in E. destruct a; [congruence|]. cbn in E. lia.
Qed.
