(** C127: what the escape graph answers. *)
From Verif Require Import GoBase EscModel.
From Coq Require Import Relations.
Local Open Scope nat_scope.
Open Scope list_scope.

(** ** Specification *)
(** Two nodes are linked by a history when it contains a link between them, in either direction. *)
Definition linked (h : list op) (a b : key) : Prop := In (OLink a b) h \/ In (OLink b a) h.
Definition connected (h : list op) : key -> key -> Prop := clos_refl_trans key (linked h).
Definition escapes (h : list op) (k : key) (q : kind) : Prop := exists a f, connected h k a /\ In (ORoute a f) h /\ flag q f = true.
(** What is done to a graph: operations and questions, in any order. *)
Inductive command := Do (o : op) | Ask (k : key) (q : kind).
Definition perform (g : graph) (c : command) : option graph :=
  match c with Do o => Some (apply g o) | Ask k q => match ask g k q with Some (_, g) => Some g | None => None end end.
Fixpoint after (g : graph) (l : list command) : option graph := match l with [] => Some g | c :: l => match perform g c with Some g => after g l | None => None end end.
Definition history (l : list command) : list op := flat_map (fun c => match c with Do o => [o] | Ask _ _ => [] end) l.

(** ** Keys and plans *)
Lemma key_eqb_eq a b : key_eqb a b = true <-> a = b.
Proof.
  destruct a, b; cbn; try (split; discriminate).
  - rewrite Nat.eqb_eq. split; intro H; [subst | injection H]; auto.
  - rewrite Nat.eqb_eq. split; intro H; [subst | injection H]; auto.
Qed.
Lemma key_eqb_refl a : key_eqb a a = true. Proof. now apply key_eqb_eq. Qed.
Lemma key_eqb_neq a b : a <> b -> key_eqb a b = false. Proof. intro N. destruct (key_eqb a b) eqn:E; auto. apply key_eqb_eq in E. contradiction. Qed.
Lemma member_in k l : member k l = true <-> In k l.
Proof.
  unfold member. rewrite existsb_exists. split.
  - intros (x & I & E). apply key_eqb_eq in E. now subst.
  - intro I. exists k. split; auto. apply key_eqb_refl.
Qed.
Lemma key_dec (a b : key) : a = b \/ a <> b.
Proof. destruct (key_eqb a b) eqn:E; [left; now apply key_eqb_eq | right; intro; subst; rewrite key_eqb_refl in E; discriminate]. Qed.
Lemma in_add l k x : In x (add_key l k) <-> In x l \/ x = k.
Proof.
  unfold add_key. destruct (member k l) eqn:E.
  - apply member_in in E. split; [tauto | intros [H | ->]; auto].
  - rewrite in_app_iff. cbn. intuition.
Qed.
Lemma in_fold_add m l x : In x (fold_left add_key m l) <-> In x l \/ In x m.
Proof.
  revert l. induction m as [|k m IH]; intro l; cbn [fold_left].
  - cbn. tauto.
  - rewrite IH, in_add. cbn. intuition.
Qed.
Lemma merge_with p q x : In x (p_with (merge p q)) <-> In x (p_with p) \/ In x (p_with q).
Proof. apply in_fold_add. Qed.
Lemma merge_flag p q k : flag k (p_flags (merge p q)) = flag k (p_flags p) || flag k (p_flags q).
Proof. destruct k; reflexivity. Qed.
Lemma no_flag k : flag k no_flags = false. Proof. destruct k; reflexivity. Qed.
Lemma find_set g k p a : find_plan (set_plan g k p) a = if key_eqb k a then Some p else find_plan g a.
Proof. unfold find_plan, set_plan. cbn [find fst]. destruct (key_eqb k a); reflexivity. Qed.
Lemma find_set_eq g k p : find_plan (set_plan g k p) k = Some p.
Proof. now rewrite find_set, key_eqb_refl. Qed.
Lemma find_set_neq g k p a : k <> a -> find_plan (set_plan g k p) a = find_plan g a.
Proof. intro N. now rewrite find_set, key_eqb_neq. Qed.
Definition dom (g : graph) : list key := map fst g.
Lemma find_dom g k p : find_plan g k = Some p -> In k (dom g).
Proof.
  unfold find_plan. destruct (find _ g) as [e|] eqn:E; [|discriminate]. intros _. apply find_some in E as [I E].
  apply key_eqb_eq in E. subst. now apply in_map.
Qed.

(** ** Connection *)
Lemma linked_sym h a b : linked h a b -> linked h b a. Proof. unfold linked. tauto. Qed.
Lemma connected_refl h a : connected h a a. Proof. apply rt_refl. Qed.
Lemma connected_trans h a b c : connected h a b -> connected h b c -> connected h a c. Proof. intros. now apply rt_trans with b. Qed.
Lemma connected_sym h a b : connected h a b -> connected h b a.
Proof. induction 1; [apply rt_step; now apply linked_sym | apply rt_refl | now apply rt_trans with y]. Qed.
Lemma linked_mono h h' a b : incl h h' -> linked h a b -> linked h' a b. Proof. intros I [H | H]; [left | right]; auto. Qed.
Lemma connected_mono h h' a b : incl h h' -> connected h a b -> connected h' a b.
Proof. intro I. induction 1; [apply rt_step; eapply linked_mono; eauto | apply rt_refl | now apply rt_trans with y]. Qed.
Lemma escapes_mono h h' k q : incl h h' -> escapes h k q -> escapes h' k q.
Proof. intros I (a & f & C & R & F). exists a, f. split; [eapply connected_mono; eauto | auto]. Qed.
Lemma escapes_connected h a b q : connected h a b -> escapes h b q -> escapes h a q.
Proof. intros C (c & f & C' & R). exists c, f. split; auto. eapply connected_trans; eauto. Qed.

(** ** Invariant *)
Record plan_ok (h : list op) (a : key) (p : plan) : Prop := {
  po_link : forall b, linked h a b -> a <> b -> In b (p_with p);
  po_with : forall b, In b (p_with p) -> connected h a b;
  po_route : forall f q, In (ORoute a f) h -> flag q f = true -> flag q (p_flags p) = true;
  po_flag : forall q, flag q (p_flags p) = true -> escapes h a q }.
Definition mentioned (h : list op) (a : key) : Prop := (exists b, linked h a b /\ a <> b) \/ (exists f, In (ORoute a f) h).
Record ok (h : list op) (g : graph) : Prop := {
  ok_plan : forall a p, find_plan g a = Some p -> plan_ok h a p;
  ok_has : forall a, mentioned h a -> exists p, find_plan g a = Some p }.

Lemma ok_empty : ok [] [].
Proof. split; [discriminate | intros a [(b & [H | H] & _) | (f & H)]; destruct H]. Qed.
(** A plan that is missing says as much as one that is empty. *)
Lemma ok_plan_of h g a : ok h g -> plan_ok h a (plan_of g a).
Proof.
  intros [P H]. unfold plan_of. destruct (find_plan g a) as [p|] eqn:E; [now apply P|].
  assert (N : ~ mentioned h a). { intro M. apply H in M as (p & M). congruence. }
  split; cbn.
  - intros b L Nb. exfalso. apply N. left. eauto.
  - tauto.
  - intros f q R. exfalso. apply N. right. eauto.
  - intros q F. rewrite no_flag in F. discriminate.
Qed.
Lemma ok_set h g k p : ok h g -> plan_ok h k p -> ok h (set_plan g k p).
Proof.
  intros [P H] K. split.
  - intros a q E. destruct (key_dec k a) as [-> | N].
    + rewrite find_set_eq in E. injection E as <-. auto.
    + rewrite find_set_neq in E by auto. auto.
  - intros a M. destruct (key_dec k a) as [-> | N].
    + rewrite find_set_eq. eauto.
    + rewrite find_set_neq by auto. auto.
Qed.

Lemma in_snoc {A} (l : list A) x y : In x (l ++ [y]) <-> In x l \/ x = y. Proof. rewrite in_app_iff. cbn. intuition. Qed.
Lemma incl_snoc {A} (l : list A) y : incl l (l ++ [y]). Proof. intros x H. apply in_snoc. auto. Qed.

Lemma ok_route h g k f : ok h g -> ok (h ++ [ORoute k f]) (route g k f).
Proof.
  intros O. pose proof (ok_plan_of h g k O) as K.
  assert (EL : forall a b, linked (h ++ [ORoute k f]) a b <-> linked h a b).
  { intros a b. unfold linked. rewrite !in_snoc. intuition discriminate. }
  split.
  - intros a p E. unfold route in E. destruct (key_dec k a) as [-> | N].
    + rewrite find_set_eq in E. injection E as <-. split.
      * intros b L Nb. apply merge_with. left. apply EL in L. now apply (po_link _ _ _ K).
      * intros b I. apply merge_with in I as [I | []]. eapply connected_mono; [apply incl_snoc | now apply (po_with _ _ _ K)].
      * intros f' q R F. rewrite merge_flag, orb_true_iff. apply in_snoc in R as [R | R].
        -- left. eapply (po_route _ _ _ K); eauto.
        -- injection R as <-. right. exact F.
      * intros q F. rewrite merge_flag, orb_true_iff in F. destruct F as [F | F].
        -- eapply escapes_mono; [apply incl_snoc | now apply (po_flag _ _ _ K)].
        -- exists a, f. split; [apply connected_refl | split; [apply in_snoc; auto | exact F]].
    + rewrite find_set_neq in E by auto. pose proof (ok_plan _ _ O a p E) as A. split.
      * intros b L Nb. apply EL in L. now apply (po_link _ _ _ A).
      * intros b I. eapply connected_mono; [apply incl_snoc | now apply (po_with _ _ _ A)].
      * intros f' q R F. apply in_snoc in R as [R | R]; [eapply (po_route _ _ _ A); eauto | injection R as -> ->; contradiction].
      * intros q F. eapply escapes_mono; [apply incl_snoc | now apply (po_flag _ _ _ A)].
  - intros a M. unfold route. destruct (key_dec k a) as [-> | N]; [rewrite find_set_eq; eauto|].
    rewrite find_set_neq by auto. apply (ok_has _ _ O). destruct M as [(b & L & Nb) | (f' & R)].
    + left. exists b. split; auto. now apply EL.
    + right. exists f'. apply in_snoc in R as [R | R]; auto. injection R as -> ->. contradiction.
Qed.

Lemma ok_together h g a b : ok h g -> ok (h ++ [OLink a b]) (together g a b).
Proof.
  intros O. unfold together. destruct (key_eqb a b) eqn:E.
  - apply key_eqb_eq in E as <-. split.
    + intros c p F. pose proof (ok_plan _ _ O c p F) as C. split.
      * intros d L N. apply (po_link _ _ _ C); auto. destruct L as [L | L]; apply in_snoc in L as [L | L]; [now left | injection L as -> ->; contradiction | now right | injection L as -> ->; contradiction].
      * intros d I. eapply connected_mono; [apply incl_snoc | now apply (po_with _ _ _ C)].
      * intros f q R. apply in_snoc in R as [R | R]; [now apply (po_route _ _ _ C) | discriminate].
      * intros q I. eapply escapes_mono; [apply incl_snoc | now apply (po_flag _ _ _ C)].
    + intros c [(d & L & N) | (f & R)]; apply (ok_has _ _ O).
      * left. exists d. split; auto. destruct L as [L | L]; apply in_snoc in L as [L | L]; [now left | injection L as -> ->; contradiction | now right | injection L as -> ->; contradiction].
      * right. exists f. apply in_snoc in R as [R | R]; [auto | discriminate].
  - assert (N : a <> b) by (intro; subst; rewrite key_eqb_refl in E; discriminate). clear E.
    set (h' := h ++ [OLink a b]).
    assert (LK : forall c d, linked h' c d <-> linked h c d \/ (c = a /\ d = b) \/ (c = b /\ d = a)).
    { intros c d. unfold linked, h'. rewrite !in_snoc. split.
      - intros [[H | H] | [H | H]]; [tauto | injection H as -> ->; tauto | tauto | injection H as -> ->; tauto].
      - intros [[H | H] | [[-> ->] | [-> ->]]]; tauto. }
    assert (AB : connected h' a b). { apply rt_step, LK. auto. }
    assert (UP : forall c p, plan_ok h c p -> c <> a -> c <> b -> plan_ok h' c p).
    { intros c p C Na Nb. split.
      - intros d L Nd. apply LK in L as [L | [[-> _] | [-> _]]]; [now apply (po_link _ _ _ C) | contradiction | contradiction].
      - intros d I. eapply connected_mono; [apply incl_snoc | now apply (po_with _ _ _ C)].
      - intros f q R. apply in_snoc in R as [R | R]; [now apply (po_route _ _ _ C) | discriminate].
      - intros q I. eapply escapes_mono; [apply incl_snoc | now apply (po_flag _ _ _ C)]. }
    assert (PL : forall c d p, plan_ok h c p -> c <> d -> (c = a /\ d = b) \/ (c = b /\ d = a) -> plan_ok h' c (merge p {| p_flags := no_flags; p_with := [d] |})).
    { intros c d p C Nd W. split.
      - intros e L Ne. apply merge_with. apply LK in L as [L | L]; [left; now apply (po_link _ _ _ C)|].
        right. left. destruct W as [[-> ->] | [-> ->]]; destruct L as [[? ?] | [? ?]]; subst; auto; contradiction.
      - intros e I. apply merge_with in I as [I | [<- | []]].
        + eapply connected_mono; [apply incl_snoc | now apply (po_with _ _ _ C)].
        + destruct W as [[-> ->] | [-> ->]]; [exact AB | now apply connected_sym].
      - intros f q R F. rewrite merge_flag. apply in_snoc in R as [R | R]; [|discriminate]. rewrite (po_route _ _ _ C f q R F). reflexivity.
      - intros q F. rewrite merge_flag in F. cbn [p_flags] in F. rewrite no_flag, orb_false_r in F. eapply escapes_mono; [apply incl_snoc | now apply (po_flag _ _ _ C)]. }
    split.
    + intros c p F. destruct (key_dec b c) as [<- | Nb].
      * rewrite find_set_eq in F. injection F as <-.
        replace (plan_of (set_plan g a (merge (plan_of g a) {| p_flags := no_flags; p_with := [b] |})) b) with (plan_of g b)
          by (unfold plan_of; now rewrite find_set_neq by auto).
        apply PL; [now apply ok_plan_of | auto | auto].
      * rewrite find_set_neq in F by auto. destruct (key_dec a c) as [<- | Na].
        -- rewrite find_set_eq in F. injection F as <-. apply PL; [now apply ok_plan_of | auto | auto].
        -- rewrite find_set_neq in F by auto. apply UP; auto. now apply (ok_plan _ _ O).
    + intros c M. destruct (key_dec b c) as [<- | Nb]; [rewrite find_set_eq; eauto|]. rewrite find_set_neq by auto.
      destruct (key_dec a c) as [<- | Na]; [rewrite find_set_eq; eauto|]. rewrite find_set_neq by auto. apply (ok_has _ _ O).
      destruct M as [(d & L & Nd) | (f & R)].
      * left. exists d. split; auto. apply LK in L as [L | [[-> _] | [-> _]]]; auto; contradiction.
      * right. exists f. apply in_snoc in R as [R | R]; [auto | discriminate].
Qed.
Lemma ok_apply h g o : ok h g -> ok (h ++ [o]) (apply g o).
Proof. destruct o; [apply ok_route | apply ok_together]. Qed.

(** ** The search *)
Definition unseen (u seen : list key) : nat := List.length (filter (fun k => negb (member k seen)) u).
Lemma unseen_cons u seen x : unseen (x :: u) seen = (if member x seen then 0 else 1) + unseen u seen.
Proof. unfold unseen. cbn [filter]. destruct (member x seen); reflexivity. Qed.
Lemma unseen_incl u s s' : incl s s' -> unseen u s' <= unseen u s.
Proof.
  intro I. induction u as [|x u IH]; [auto|]. rewrite !unseen_cons. destruct (member x s) eqn:E.
  - apply member_in in E. replace (member x s') with true by (symmetry; apply member_in, I, E). lia.
  - destruct (member x s'); lia.
Qed.
Lemma unseen_cons_le u seen k : unseen u (k :: seen) <= unseen u seen.
Proof. apply unseen_incl. intros x I. now right. Qed.
Lemma unseen_cons_lt u seen k : In k u -> ~ In k seen -> S (unseen u (k :: seen)) <= unseen u seen.
Proof.
  intros I N. induction u as [|x u IH]; [destruct I|]. rewrite !unseen_cons.
  assert (M : member k seen = false). { destruct (member k seen) eqn:E; auto. apply member_in in E. contradiction. }
  destruct I as [-> | I].
  - rewrite M. replace (member k (k :: seen)) with true by (symmetry; apply member_in; now left).
    pose proof (unseen_cons_le u seen k). lia.
  - specialize (IH I). destruct (member x seen) eqn:E.
    + apply member_in in E. replace (member x (k :: seen)) with true by (symmetry; apply member_in; now right). lia.
    + destruct (member x (k :: seen)); lia.
Qed.
(** What a search has established: the nodes it has newly seen have their neighbours among those seen, their flags are in the answer. *)
Record found (h : list op) (u : list key) (g' : graph) (seen seen' : list key) (p : plan) : Prop := {
  fd_ok : ok h g';
  fd_dom : incl (dom g') u;
  fd_incl : incl seen seen';
  fd_next : forall x y, In x seen' -> ~ In x seen -> linked h x y -> In y seen';
  fd_flags : forall x f q, In x seen' -> ~ In x seen -> In (ORoute x f) h -> flag q f = true -> flag q (p_flags p) = true }.

Lemma get_found h u fuel : forall g k seen, ok h g -> incl (dom g) u -> unseen u seen < fuel ->
  exists p g' seen', get fuel g k seen = Some (p, g', seen') /\ found h u g' seen seen' p /\ In k seen'
  /\ (forall b, In b (p_with p) -> connected h k b) /\ (forall q, flag q (p_flags p) = true -> escapes h k q).
Proof.
  induction fuel as [|fuel IH]; intros g k seen O D F; [lia|]. cbn [get].
  destruct (member k seen) eqn:E.
  - apply member_in in E. exists no_plan, g, seen. split; [reflexivity|]. split; [|split; [exact E|split]].
    + split; [assumption | assumption | apply incl_refl | intros; contradiction | intros; contradiction].
    + intros b [].
    + intros q H. cbn in H. rewrite no_flag in H. discriminate.
  - assert (N : ~ In k seen). { intro I. apply member_in in I. congruence. }
    destruct (find_plan g k) as [p|] eqn:P.
    2:{ exists no_plan, g, (k :: seen). split; [reflexivity|].
        assert (NM : ~ mentioned h k). { intro M. apply (ok_has _ _ O) in M as (p & M). congruence. }
        split; [|split; [now left | split]].
        - split; auto.
          + intros x I. now right.
          + intros x y [<- | I] Nx L; [|contradiction]. destruct (key_dec k y) as [-> | Ny]; [now left|]. exfalso. apply NM. left. eauto.
          + intros x f q [<- | I] Nx R Fl; [|contradiction]. exfalso. apply NM. right. eauto.
        - intros b [].
        - intros q H. cbn in H. rewrite no_flag in H. discriminate. }
    pose proof (ok_plan _ _ O k p P) as K.
    assert (KU : In k u) by (apply D; eapply find_dom; eauto).
    assert (FU : unseen u (k :: seen) < fuel). { pose proof (unseen_cons_lt u seen k KU N). lia. }
    assert (V : forall l p0 g0 s0, ok h g0 -> incl (dom g0) u -> unseen u s0 < fuel -> (forall a, In a l -> connected h k a) ->
              (forall b, In b (p_with p0) -> connected h k b) -> (forall q, flag q (p_flags p0) = true -> escapes h k q) ->
              exists p1 g1 s1, visit (get fuel) l p0 g0 s0 = Some (p1, g1, s1) /\ found h u g1 s0 s1 p1 /\ (forall a, In a l -> In a s1)
              /\ (forall a, In a (p_with p0) -> In a (p_with p1)) /\ (forall q, flag q (p_flags p0) = true -> flag q (p_flags p1) = true)
              /\ (forall b, In b (p_with p1) -> connected h k b) /\ (forall q, flag q (p_flags p1) = true -> escapes h k q)).
    { induction l as [|a l IHl]; intros p0 g0 s0 O0 D0 F0 CL W0 E0.
      - exists p0, g0, s0. split; [reflexivity|]. split; [split; [assumption | assumption | apply incl_refl | intros; contradiction | intros; contradiction]|].
        split; [intros ? []|]. auto.
      - cbn [visit]. destruct (IH g0 a s0 O0 D0 F0) as (q & g2 & s2 & G & FD & IA & WQ & EQ). rewrite G.
        assert (CA : connected h k a) by (apply CL; now left).
        destruct (IHl (merge p0 q) g2 s2 (fd_ok _ _ _ _ _ _ FD) (fd_dom _ _ _ _ _ _ FD)) as (p1 & g1 & s1 & V & FD1 & IL & W1 & F1 & WP & EP).
        + pose proof (unseen_incl u s0 s2 (fd_incl _ _ _ _ _ _ FD)). lia.
        + intros; apply CL; now right.
        + intros b I. apply merge_with in I as [I | I]; [auto | eapply connected_trans; eauto].
        + intros q' I. rewrite merge_flag, orb_true_iff in I. destruct I as [I | I]; [auto | eapply escapes_connected; eauto].
        + exists p1, g1, s1. split; [exact V|].
          assert (S2 : forall x, In x s1 -> ~ In x s0 -> In x s2 \/ ~ In x s2).
          { intros x _ _. destruct (member x s2) eqn:M; [left; now apply member_in | right; intro I; apply member_in in I; congruence]. }
          split; [|split; [|split; [|split; [|split]]]]; auto.
          * split; [apply FD1 | apply FD1 | | |].
            -- eapply incl_tran; [apply FD | apply FD1].
            -- intros x y I1 N0 L. destruct (S2 x I1 N0) as [I2 | N2].
               ++ apply (fd_incl _ _ _ _ _ _ FD1). eapply (fd_next _ _ _ _ _ _ FD); eauto.
               ++ eapply (fd_next _ _ _ _ _ _ FD1); eauto.
            -- intros x f q' I1 N0 R Fl. destruct (S2 x I1 N0) as [I2 | N2].
               ++ apply F1. rewrite merge_flag, orb_true_iff. right. eapply (fd_flags _ _ _ _ _ _ FD); eauto.
               ++ eapply (fd_flags _ _ _ _ _ _ FD1); eauto.
          * intros b [<- | I]; [apply (fd_incl _ _ _ _ _ _ FD1); exact IA | auto].
          * intros b I. apply W1. apply merge_with. auto.
          * intros q' I. apply F1. rewrite merge_flag, I. reflexivity. }
    destruct (V (p_with p) p g (k :: seen) O D FU (po_with _ _ _ K) (po_with _ _ _ K) (po_flag _ _ _ K))
      as (p1 & g1 & s1 & HV & FD & IL & W1 & F1 & WP & EP).
    rewrite HV. exists p1, (set_plan g1 k p1), s1. split; [reflexivity|].
    assert (K1 : In k s1) by (apply (fd_incl _ _ _ _ _ _ FD); now left).
    split; [|split; [exact K1 | split; assumption]].
    split.
    + apply ok_set; [apply FD|]. split; auto.
      * intros b L Nb. apply W1. now apply (po_link _ _ _ K).
      * intros f q R Fl. apply F1. eapply (po_route _ _ _ K); eauto.
    + intros x [<- | I]; [exact KU | now apply (fd_dom _ _ _ _ _ _ FD)].
    + intros x I. apply (fd_incl _ _ _ _ _ _ FD). now right.
    + intros x y I Nx L. destruct (key_dec k x) as [<- | Nk].
      * destruct (key_dec k y) as [<- | Ny]; [exact K1|]. apply IL. now apply (po_link _ _ _ K).
      * eapply (fd_next _ _ _ _ _ _ FD); eauto. intros [-> | J]; contradiction.
    + intros x f q I Nx R Fl. destruct (key_dec k x) as [<- | Nk].
      * apply F1. eapply (po_route _ _ _ K); eauto.
      * eapply (fd_flags _ _ _ _ _ _ FD); eauto. intros [-> | J]; contradiction.
Qed.

Lemma unseen_le u s : unseen u s <= List.length u.
Proof. unfold unseen. induction u as [|x u IH]; cbn [filter]; auto. destruct (negb (member x s)); cbn; lia. Qed.

Lemma ask_ok h g k q : ok h g -> exists b g', ask g k q = Some (b, g') /\ ok h g' /\ (b = true <-> escapes h k q).
Proof.
  intros O. unfold ask.
  destruct (get_found h (dom g) (S (S (List.length g))) g k [] O (incl_refl _)) as (p & g' & s & G & FD & IK & WP & EP).
  { pose proof (unseen_le (dom g) []) as L. unfold dom in L at 2. rewrite map_length in L. lia. }
  rewrite G. exists (flag q (p_flags p)), g'. split; [reflexivity|]. split; [apply FD|]. split; [apply EP|].
  intros (a & f & C & R & F).
  assert (IA : In a s).
  { apply clos_rt_rtn1_iff in C. clear R F. induction C as [|y z L C IH]; [exact IK|]. eapply (fd_next _ _ _ _ _ _ FD); [exact IH | intros [] | exact L]. }
  eapply (fd_flags _ _ _ _ _ _ FD); eauto.
Qed.

Lemma ok_after h g l : ok h g -> exists g', after g l = Some g' /\ ok (h ++ history l) g'.
Proof.
  revert h g. induction l as [|c l IH]; intros h g O; cbn [after].
  - exists g. split; [reflexivity|]. cbn. now rewrite app_nil_r.
  - destruct c as [o | k q]; cbn [perform].
    + destruct (IH (h ++ [o]) (apply g o) (ok_apply _ _ _ O)) as (g' & A & K). exists g'. split; [exact A|]. now rewrite <- app_assoc in K.
    + destruct (ask_ok h g k q O) as (b & g1 & A & K & _). rewrite A. apply IH, K.
Qed.

(** ** C127 *)
(** Whatever was done to the graph and asked of it before, in whatever order, a question is answered, and the answer is yes
    exactly when the node is connected with one that was marked as a route of that kind. *)
Theorem C127_answers : forall l, exists g, after [] l = Some g
  /\ forall k q, exists b g', ask g k q = Some (b, g') /\ (b = true <-> escapes (history l) k q).
Proof.
  intro l. destruct (ok_after [] [] l ok_empty) as (g & A & O). exists g. split; [exact A|]. intros k q.
  destruct (ask_ok _ _ k q O) as (b & g' & E & _ & H). eauto.
Qed.
(** Questions do not change answers. *)
Theorem C127_questions_do_not_matter : forall l1 l2 g1 g2 k q, history l1 = history l2 -> after [] l1 = Some g1 -> after [] l2 = Some g2 ->
  option_map fst (ask g1 k q) = option_map fst (ask g2 k q).
Proof.
  intros l1 l2 g1 g2 k q H A1 A2. destruct (C127_answers l1) as (g1' & B1 & C1), (C127_answers l2) as (g2' & B2 & C2).
  replace g1' with g1 in * by congruence. replace g2' with g2 in * by congruence.
  destruct (C1 k q) as (b1 & ? & E1 & F1), (C2 k q) as (b2 & ? & E2 & F2). rewrite E1, E2. cbn. rewrite H in F1. destruct b1, b2; intuition congruence.
Qed.
(** The answer is the same for all nodes that are connected. *)
Theorem C127_shared_fate : forall l g a b q, after [] l = Some g -> connected (history l) a b -> option_map fst (ask g a q) = option_map fst (ask g b q).
Proof.
  intros l g a b q A C. destruct (C127_answers l) as (g' & B & H). replace g' with g in * by congruence.
  destruct (H a q) as (x & ? & E1 & F1), (H b q) as (y & ? & E2 & F2). rewrite E1, E2. cbn.
  assert (escapes (history l) a q <-> escapes (history l) b q) by (split; apply escapes_connected; [now apply connected_sym | exact C]).
  destruct x, y; intuition congruence.
Qed.
(** A variable is put on the stack exactly when it is connected with no route of any kind. *)
Lemma analysis_ok p : ok (walk_stmts p) (analysis p).
Proof.
  unfold analysis. assert (H : forall l h g, ok h g -> ok (h ++ l) (fold_left apply l g)).
  { induction l as [|o l IH]; intros h g O; cbn [fold_left]; [now rewrite app_nil_r|]. replace (h ++ o :: l) with ((h ++ [o]) ++ l) by now rewrite <- app_assoc. apply IH, ok_apply, O. }
  exact (H _ [] [] ok_empty).
Qed.
Theorem C127_stack_allocated : forall p x, exists b g', stack_allocated (analysis p) x = Some (b, g')
  /\ (b = true <-> forall q, ~ escapes (walk_stmts p) (KVar x) q).
Proof.
  intros p x. unfold stack_allocated. pose proof (analysis_ok p) as O.
  destruct (ask_ok _ _ (KVar x) Function O) as (b1 & g1 & -> & O1 & F1). destruct b1.
  { exists false, g1. split; [reflexivity|]. split; [discriminate | intro H; exfalso; now apply (H Function), F1]. }
  destruct (ask_ok _ _ (KVar x) Block O1) as (b2 & g2 & -> & O2 & F2). destruct b2.
  { exists false, g2. split; [reflexivity|]. split; [discriminate | intro H; exfalso; now apply (H Block), F2]. }
  destruct (ask_ok _ _ (KVar x) Goroutine O2) as (b3 & g3 & -> & O3 & F3). destruct b3.
  { exists false, g3. split; [reflexivity|]. split; [discriminate | intro H; exfalso; now apply (H Goroutine), F3]. }
  destruct (ask_ok _ _ (KVar x) Containment O3) as (b4 & g4 & -> & O4 & F4).
  exists (negb b4), g4. split; [reflexivity|]. destruct b4; cbn.
  - split; [discriminate | intro H; exfalso; now apply (H Containment), F4].
  - split; [intros _ q H | reflexivity]. destruct q; [apply F2 in H | apply F1 in H | apply F3 in H | apply F4 in H]; discriminate.
Qed.
(** Four variables: a route of one, a chain of links to it through a cycle, a fourth apart, a question in between. *)
Definition chain : list command :=
  [Do (OLink (KVar 1) (KNode 10)); Do (OLink (KNode 10) (KNode 11)); Ask (KVar 1) Function; Do (OLink (KNode 11) (KVar 2)); Do (OLink (KVar 2) (KVar 1));
   Do (ORoute (KNode 12) function_flag); Do (OLink (KVar 3) (KNode 12)); Ask (KVar 2) Function; Do (OLink (KVar 3) (KVar 2)); Do (OLink (KVar 4) (KNode 13))].
Example chain_answers : exists g, after [] chain = Some g /\ option_map fst (ask g (KVar 1) Function) = Some true /\ option_map fst (ask g (KVar 1) Block) = Some false
  /\ option_map fst (ask g (KVar 4) Function) = Some false.
Proof. eexists. repeat split; vm_compute; reflexivity. Qed.
Print Assumptions C127_answers.
Print Assumptions C127_stack_allocated.
