(** * Channels of programs compiled by zgo: C149 *)
From Coq Require Import List Arith Lia Bool.
Import ListNotations.
From Verif Require Import ZigChanModel.

(** ** Words for the statements *)
Definition ops (s : state) : list (list op) := map snd (todo s).
(** what goroutine i has still to do *)
Definition left_of (i : nat) (l : list (list op)) : list op := nth i l [].
Definition finished (l : list (list op)) : Prop := forall i, left_of i l = [].
(** nobody can take a step *)
Definition stuck nil size cap spurious s := forall s', ~ step nil size cap spurious s s'.
Definition go_stuck nil cap s := forall s', ~ go_step nil cap s s'.
(** the values sent *)
Fixpoint values (l : list op) : list nat := match l with [] => [] | Send v :: r => v :: values r | Recv :: r => values r end.
Definition all_sends (p : list (list op)) : nat := list_sum (map (fun l => length (values l)) p).
(** only goroutine k receives *)
Definition one_receiver (k : nat) (p : list (list op)) : Prop := forall i, i <> k -> ~ In Recv (left_of i p).
(** what goroutine i sent, or received *)
Definition by_ (i : nat) (l : list (nat * nat)) : list nat := map snd (filter (fun x => fst x =? i) l).

(** What has to hold of channels: whatever the runtime can end with, Go can end with. *)
Definition C149_full : Prop :=
  forall nil size cap spurious p s, steps nil size cap spurious (start p) s -> stuck nil size cap spurious s ->
  crashed s = false /\
  exists g, go_steps nil cap (go_start p) g /\ go_stuck nil cap g /\ g_todo g = ops s /\ g_got g = got s.

(** ** Lists *)
Lemma nth_put : forall A i j (x : A) l, nth_error (put i x l) j =
  if i =? j then match nth_error l j with Some _ => Some x | None => None end else nth_error l j.
Proof.
  induction i as [|i IH]; intros [|j] x [|y l]; cbn; try reflexivity.
  - destruct (i =? j); reflexivity.
  - apply IH.
Qed.
Lemma map_put : forall A B (f : A -> B) i x l, map f (put i x l) = put i (f x) (map f l).
Proof. induction i as [|i IH]; intros x [|y l]; cbn; try reflexivity. now rewrite IH. Qed.
Lemma put_same : forall A i (x : A) l, nth_error l i = Some x -> put i x l = l.
Proof.
  induction i as [|i IH]; intros x [|y l] H; cbn in *; try discriminate.
  - now inversion H.
  - now rewrite IH.
Qed.
Lemma left_put : forall i j r l, left_of j (put i r l) = if i =? j then match nth_error l j with Some _ => r | None => [] end else left_of j l.
Proof.
  intros. unfold left_of. induction i as [|i IH] in j, l |- *; destruct j as [|j], l as [|y l]; cbn; try reflexivity.
  - destruct (i =? j); reflexivity.
  - apply IH.
Qed.
Lemma left_nth : forall i l r, nth_error l i = Some r -> left_of i l = r.
Proof. intros. unfold left_of. now apply nth_error_nth. Qed.

Lemma ops_wake : forall w l, map snd (wake w l) = map (@snd status (list op)) l.
Proof.
  intros [i|] l; [|reflexivity]. cbn [wake]. destruct (nth_error l i) as [[[] r]|] eqn:E; try reflexivity.
  rewrite map_put. cbn [snd]. apply put_same. rewrite nth_error_map, E. reflexivity.
Qed.
Lemma wake_nth : forall w l j, nth_error (wake w l) j =
  match nth_error l j with Some (st0, r) => Some (match st0, w with Asleep, Some i => if i =? j then Awake else Asleep | _, _ => st0 end, r) | None => None end.
Proof.
  intros w l j. destruct w as [i|]; cbn [wake].
  - destruct (nth_error l i) as [[[] r]|] eqn:E.
    + destruct (nth_error l j) as [[st0 r0]|] eqn:F; [destruct st0|]; try reflexivity.
      destruct (i =? j) eqn:G; [|reflexivity]. apply Nat.eqb_eq in G. subst j. congruence.
    + rewrite nth_put. destruct (i =? j) eqn:G.
      * apply Nat.eqb_eq in G. subst j. rewrite E. reflexivity.
      * destruct (nth_error l j) as [[st0 r0]|]; [destruct st0|]; reflexivity.
    + destruct (nth_error l j) as [[st0 r0]|] eqn:F; [destruct st0|]; try reflexivity.
      destruct (i =? j) eqn:G; [|reflexivity]. apply Nat.eqb_eq in G. subst j. congruence.
    + destruct (nth_error l j) as [[st0 r0]|] eqn:F; [destruct st0|]; try reflexivity.
      destruct (i =? j) eqn:G; [|reflexivity]. apply Nat.eqb_eq in G. subst j. congruence.
  - destruct (nth_error l j) as [[[] r0]|]; reflexivity.
Qed.
(** ** What every step does *)
Lemma ops_nth : forall s i st r, nth_error (todo s) i = Some (st, r) -> nth_error (ops s) i = Some r.
Proof. intros. unfold ops. now rewrite nth_error_map, H. Qed.

(** A step does nothing as far as Go can see, or is a send or a receive, or crashes. *)
Inductive seen (cap i : nat) (s s' : state) : Prop :=
| SNothing : ops s' = ops s -> buf s' = buf s -> got s' = got s -> sent s' = sent s -> crashed s' = crashed s -> seen cap i s s'
| SSend : forall v r, nth_error (ops s) i = Some (Send v :: r) -> ops s' = put i r (ops s) -> length (buf s) <= cap ->
    buf s' = buf s ++ [v] -> got s' = got s -> sent s' = sent s ++ [(i, v)] -> crashed s' = crashed s -> seen cap i s s'
| SRecv : forall v r, nth_error (ops s) i = Some (Recv :: r) -> ops s' = put i r (ops s) -> buf s = v :: buf s' ->
    got s' = got s ++ [(i, v)] -> sent s' = sent s -> crashed s' = crashed s -> seen cap i s s'
| SCrash : crashed s' = true -> ops s' = ops s -> buf s' = buf s -> got s' = got s -> sent s' = sent s -> seen cap i s s'.

Lemma ops_put_same : forall s i st st' r, nth_error (todo s) i = Some (st, r) -> map snd (put i (st', r) (todo s)) = ops s.
Proof. intros. rewrite map_put. cbn [snd]. apply put_same. now apply (ops_nth s i st). Qed.
Lemma turn_seen : forall size cap i s s', turn false size cap i s = Some s' -> seen cap i s s'.
Proof.
  intros size cap i s s' H. unfold turn in H. destruct (crashed s) eqn:C; [discriminate|].
  destruct (nth_error (todo s) i) as [[[] [|[v|] r]]|] eqn:E; try discriminate.
  - destruct (size =? 0).
    + inversion H; subst s'. apply SCrash; reflexivity.
    + destruct (is_full cap s) eqn:F; inversion H; subst s'.
      * apply SNothing; cbn; try reflexivity. now apply ops_put_same with Next.
      * unfold is_full, slots in F. apply Nat.leb_gt in F.
        apply SSend with v r; cbn; try reflexivity; [now apply ops_nth with Next| |lia].
        unfold ops, deliver. cbn [todo]. rewrite ?ops_wake, map_put. reflexivity.
  - destruct (buf s) as [|v q] eqn:B; inversion H; subst s'.
    + apply SNothing; cbn; try reflexivity. now apply ops_put_same with Next.
    + unfold take. rewrite B. apply SRecv with v r; cbn; try reflexivity; [now apply ops_nth with Next| |exact B].
      unfold ops. cbn [todo]. rewrite map_put. reflexivity.
  - destruct (is_full cap s) eqn:F; inversion H; subst s'.
    + apply SNothing; cbn; try reflexivity. now apply ops_put_same with Awake.
    + unfold is_full, slots in F. apply Nat.leb_gt in F.
      apply SSend with v r; cbn; try reflexivity; [now apply ops_nth with Awake| |lia].
      unfold ops, deliver. cbn [todo]. rewrite ?ops_wake, map_put. reflexivity.
  - inversion H; subst s'. unfold take. destruct (buf s) as [|v q] eqn:B.
    + apply SCrash; cbn; auto.
    + apply SRecv with v r; cbn; try reflexivity; [now apply ops_nth with Awake| |exact B].
      unfold ops. cbn [todo]. rewrite map_put. reflexivity.
Qed.
Lemma step_seen : forall size cap sp s s', step false size cap sp s s' -> exists i, seen cap i s s'.
Proof.
  intros size cap sp s s' H. destruct H as [i s s' H|i r s P C E].
  - exists i. now apply turn_seen with size.
  - exists i. apply SNothing; cbn; auto. now apply ops_put_same with Asleep.
Qed.

Lemma ops_start : forall p, ops (start p) = p.
Proof. intros. unfold ops, start. cbn [todo]. rewrite map_map. cbn [snd]. apply map_id. Qed.

(** ** Order *)
Lemma by_app : forall i l x, by_ i (l ++ [x]) = by_ i l ++ (if fst x =? i then [snd x] else []).
Proof.
  intros. unfold by_. rewrite filter_app, map_app. cbn [filter]. destruct (fst x =? i); reflexivity.
Qed.

(** The channel is a queue, in every execution: what was received, in order, followed by what
    is buffered is what was sent, in order; every goroutine sends its own values in its own
    order, each of them once; and it receives once per receive. Never is more than the
    capacity and one buffered. *)
Theorem C149_order : forall size cap spurious p s,
  steps false size cap spurious (start p) s ->
  map snd (got s) ++ buf s = map snd (sent s)
  /\ (forall i, values (left_of i p) = by_ i (sent s) ++ values (left_of i (ops s)))
  /\ (forall i, length (left_of i p) = length (by_ i (sent s)) + length (by_ i (got s)) + length (left_of i (ops s)))
  /\ length (buf s) <= S cap.
Proof.
  intros size cap sp p s H. remember (start p) as s0 eqn:Z. induction H as [s|s t u H IH T].
  - subst s. cbn [got buf sent start map app length]. rewrite ops_start. repeat split; try reflexivity; lia.
  - specialize (IH Z). destruct IH as (I1 & I2 & I3 & I4). apply step_seen in T. destruct T as [i T].
    destruct T as [A B C D _|v r N A R B C D _|v r N A B C D _|_ A B C D].
    + rewrite A, B, C, D. auto.
    + rewrite A, B, C, D. rewrite !map_app, app_assoc, I1. cbn [map snd].
      split; [reflexivity|]. split; [|split].
      * intro j. rewrite I2, by_app, left_put. cbn [fst snd]. destruct (i =? j) eqn:G.
        -- apply Nat.eqb_eq in G. subst j. rewrite N, (left_nth _ _ _ N). cbn [values]. now rewrite <- app_assoc.
        -- now rewrite app_nil_r.
      * intro j. rewrite I3, by_app, left_put. cbn [fst snd]. destruct (i =? j) eqn:G.
        -- apply Nat.eqb_eq in G. subst j. rewrite N, (left_nth _ _ _ N), app_length. cbn [length]. lia.
        -- rewrite app_nil_r. lia.
      * rewrite app_length. cbn [length]. lia.
    + rewrite A, C, D. rewrite !map_app, <- app_assoc. cbn [map snd app]. rewrite <- B, I1.
      split; [reflexivity|]. split; [|split].
      * intro j. rewrite I2, left_put. destruct (i =? j) eqn:G; [|reflexivity].
        apply Nat.eqb_eq in G. subst j. now rewrite N, (left_nth _ _ _ N).
      * intro j. rewrite I3, by_app, left_put. cbn [fst snd]. destruct (i =? j) eqn:G.
        -- apply Nat.eqb_eq in G. subst j. rewrite N, (left_nth _ _ _ N), app_length. cbn [length]. lia.
        -- rewrite app_nil_r. lia.
      * rewrite B in I4. cbn [length] in I4. lia.
    + rewrite A, B, C, D. auto.
Qed.

(** ** One receiver *)
Lemma steps_order : forall size cap sp s0 s, steps false size cap sp s0 s ->
  forall P : state -> Prop, P s0 -> (forall t u, P t -> step false size cap sp t u -> P u) -> P s.
Proof. intros size cap sp s0 s H P P0 PS. induction H; eauto. Qed.

Lemma in_put_left : forall i j r o l, In o (left_of j (put i r l)) -> (j = i /\ In o r) \/ (j <> i /\ In o (left_of j l)).
Proof.
  intros i j r o l H. rewrite left_put in H. destruct (i =? j) eqn:G.
  - apply Nat.eqb_eq in G. left. split; [congruence|]. destruct (nth_error l j); [exact H|destruct H].
  - apply Nat.eqb_neq in G. right. split; [congruence|exact H].
Qed.
Lemma seen_one : forall cap i k s s', seen cap i s s' -> one_receiver k (ops s) -> one_receiver k (ops s').
Proof.
  intros cap i k s s' H O. destruct H as [A _ _ _ _|v r N A _ _ _ _ _|v r N A _ _ _ _|_ A _ _ _]; rewrite A; try exact O;
    intros j J K; apply in_put_left in K; destruct K as [[K1 K2]|[K1 K2]]; try exact (O j J K2);
    subst j; apply (O i J); rewrite (left_nth _ _ _ N); right; exact K2.
Qed.

Definition calm (k : nat) (s : state) : Prop :=
  crashed s = false /\ one_receiver k (ops s) /\
  forall r, nth_error (todo s) k = Some (Awake, Recv :: r) -> buf s <> [].
Lemma is_k : forall k s i st r, one_receiver k (ops s) -> nth_error (todo s) i = Some (st, Recv :: r) -> i = k.
Proof.
  intros k s i st r O N. destruct (Nat.eq_dec i k) as [E|E]; [exact E|]. exfalso. apply (O i E).
  apply ops_nth in N. rewrite (left_nth _ _ _ N). left. reflexivity.
Qed.
Lemma calm_step : forall size cap k s s', size <> 0 -> calm k s -> step false size cap false s s' -> calm k s'.
Proof.
  intros size cap k s s' Z (C1 & C2 & C3) T.
  assert (O : one_receiver k (ops s')).
  { destruct (step_seen _ _ _ _ _ T) as [i S]. exact (seen_one _ _ _ _ _ S C2). }
  split; [|split; [exact O|]].
  - destruct T as [i s s' T|]; [|discriminate]. unfold turn in T. rewrite C1 in T.
    destruct (nth_error (todo s) i) as [[[] [|[v|] r]]|] eqn:E; try discriminate.
    + apply Nat.eqb_neq in Z. rewrite Z in T. destruct (is_full cap s); inversion T; subst s'; exact C1.
    + destruct (buf s) as [|v q] eqn:B; inversion T; subst s'; [exact C1|]. unfold take. rewrite B. exact C1.
    + destruct (is_full cap s); inversion T; subst s'; exact C1.
    + inversion T; subst s'. pose proof (is_k _ _ _ _ _ C2 E) as I. subst i. specialize (C3 _ E).
      unfold take. destruct (buf s); [congruence|exact C1].
  - intros r0 K. destruct T as [i s s' T|]; [|discriminate]. unfold turn in T. rewrite C1 in T.
    assert (D : forall i v r w s, buf (deliver i v r w s) <> []) by (intros; cbn; destruct (buf s0); discriminate).
    destruct (nth_error (todo s) i) as [[[] [|[v|] r]]|] eqn:E; try discriminate.
    + apply Nat.eqb_neq in Z. rewrite Z in T. destruct (is_full cap s); inversion T; subst s'; [|apply D].
      cbn [buf sleep]. cbn [todo sleep] in K. rewrite nth_put in K. destruct (i =? k) eqn:G; [|exact (C3 _ K)].
      destruct (nth_error (todo s) k); discriminate.
    + pose proof (is_k _ _ _ _ _ C2 E) as I. subst i.
      destruct (buf s) as [|v q] eqn:B; inversion T; subst s'; unfold take in K; try rewrite B in K; cbn [todo sleep] in K;
        rewrite nth_put, Nat.eqb_refl, E in K; discriminate.
    + destruct (is_full cap s); inversion T; subst s'; [|apply D].
      cbn [buf sleep]. cbn [todo sleep] in K. rewrite nth_put in K. destruct (i =? k) eqn:G; [|exact (C3 _ K)].
      destruct (nth_error (todo s) k); discriminate.
    + pose proof (is_k _ _ _ _ _ C2 E) as I. subst i. specialize (C3 _ E). inversion T; subst s'.
      unfold take in *. destruct (buf s) as [|v q] eqn:B; [congruence|]. cbn [todo] in K.
      rewrite nth_put, Nat.eqb_refl, E in K. discriminate.
Qed.
Lemma calm_start : forall k p, one_receiver k p -> calm k (start p).
Proof.
  intros. split; [reflexivity|]. split; [now rewrite ops_start|]. intros r N. cbn [todo start] in N.
  rewrite nth_error_map in N. destruct (nth_error p k); discriminate.
Qed.
(** With one receiver, any number of senders and no spurious wakeups nothing panics. *)
Theorem C149_no_panic_partial : forall size cap k p s,
  size <> 0 -> one_receiver k p -> steps false size cap false (start p) s -> crashed s = false.
Proof.
  intros size cap k p s Z O H. apply (steps_order _ _ _ _ _ H (calm k)).
  - now apply calm_start.
  - intros. now apply (calm_step size cap k t u).
Qed.

(** ** Never full *)
Lemma sends_cons : forall x l, all_sends (x :: l) = length (values x) + all_sends l.
Proof. reflexivity. Qed.
Lemma sends_put : forall i r r' l, nth_error l i = Some r ->
  all_sends (put i r' l) + length (values r) = all_sends l + length (values r').
Proof.
  induction i as [|i IH]; intros r r' [|y l] H; try discriminate; cbn in H; cbn [put]; rewrite !sends_cons.
  - inversion H. lia.
  - specialize (IH r r' l H). lia.
Qed.
Lemma sends_seen : forall cap i s s', seen cap i s s' -> length (sent s') + all_sends (ops s') = length (sent s) + all_sends (ops s).
Proof.
  intros cap i s s' H. destruct H as [A B C D _|v r N A R B C D _|v r N A B C D _|_ A B C D]; rewrite A, D; try reflexivity.
  - rewrite app_length. cbn [length]. pose proof (sends_put i _ r _ N) as S. cbn [values length] in S. lia.
  - pose proof (sends_put i _ r _ N) as S. cbn [values length] in S. lia.
Qed.
Lemma sends_in : forall i l r, nth_error l i = Some r -> length (values r) <= all_sends l.
Proof.
  induction i as [|i IH]; intros [|y l] r H; try discriminate; cbn in H; rewrite !sends_cons.
  - inversion H. lia.
  - specialize (IH l r H). lia.
Qed.

Record loose (cap k : nat) (s : state) : Prop := {
  l_calm : calm k s;
  l_sent : length (sent s) + all_sends (ops s) <= cap;
  l_queue : length (got s) + length (buf s) = length (sent s);
  l_senders : forall i st v r, nth_error (todo s) i = Some (st, Send v :: r) -> st = Next;
  l_asleep : forall i r, nth_error (todo s) i = Some (Asleep, r) -> buf s = [] /\ sig s = Some k /\ exists r', r = Recv :: r' }.
Lemma loose_step : forall size cap k s s', size <> 0 -> loose cap k s -> step false size cap false s s' ->
  loose cap k s' /\ (ops s' = ops s /\ buf s' = buf s /\ got s' = got s \/
    go_step false cap {| g_todo := ops s; g_queue := buf s; g_got := got s |} {| g_todo := ops s'; g_queue := buf s'; g_got := got s' |}).
Proof.
  intros size cap k s s' Z L T. pose proof L as [C LS LQ LN LA].
  pose proof (calm_step _ _ _ _ _ Z C T) as C'. destruct (step_seen _ _ _ _ _ T) as [i S].
  assert (G : ops s' = ops s /\ buf s' = buf s /\ got s' = got s \/
    go_step false cap {| g_todo := ops s; g_queue := buf s; g_got := got s |} {| g_todo := ops s'; g_queue := buf s'; g_got := got s' |}).
  { destruct S as [A B D E F|v r N A R B D E F|v r N A B D E F|F _ _ _ _].
    - left. auto.
    - right. rewrite A, B, D. apply (GoSend false cap i v r {| g_todo := ops s; g_queue := buf s; g_got := got s |}); [reflexivity|exact N|].
      cbn [g_queue]. pose proof (sends_in _ _ _ N) as X. cbn [values length] in X. lia.
    - right. rewrite A, D. apply (GoRecv false cap i r v (buf s') {| g_todo := ops s; g_queue := buf s; g_got := got s |}); [reflexivity|exact N|exact B].
    - destruct C' as [C' _]. congruence. }
  split; [|exact G]. constructor; [exact C'| | | |].
  - rewrite (sends_seen _ _ _ _ S). exact LS.
  - destruct S as [A B D E F|v r N A R B D E F|v r N A B D E F|F A B D E]; rewrite ?D, ?E, ?B, ?app_length; cbn [length]; try lia.
    rewrite B in LQ. cbn [length] in LQ. lia.
  - destruct T as [j s s' T|]; [|discriminate]. unfold turn in T. destruct C as [C _]. rewrite C in T. clear S G C' L.
    assert (NF : forall st v r, nth_error (todo s) j = Some (st, Send v :: r) -> is_full cap s = false).
    { intros st v r N. apply ops_nth in N. pose proof (sends_in _ _ _ N) as X. cbn [values length] in X.
      unfold is_full, slots. apply Nat.leb_gt. lia. }
    assert (PN : forall r l, (forall i st v r, nth_error l i = Some (st, Send v :: r) -> st = Next) ->
       forall i st v r', nth_error (put j (Next, r) l) i = Some (st, Send v :: r') -> st = Next).
    { intros r l HL i0 st v r' N. rewrite nth_put in N. destruct (j =? i0); [|eauto]. destruct (nth_error l i0); [congruence|discriminate]. }
    destruct (nth_error (todo s) j) as [[[] [|[v|] r]]|] eqn:E; try discriminate.
    + apply Nat.eqb_neq in Z. rewrite Z in T. rewrite (NF _ _ _ eq_refl) in T. inversion T; subst s'. cbn [todo deliver].
      intros i0 st v0 r0 N. rewrite wake_nth in N.
      destruct (nth_error (put j (Next, r) (todo s)) i0) as [[st0 l0]|] eqn:F; [|discriminate].
      inversion N; subst. pose proof (PN _ _ LN _ _ _ _ F) as X. subst st0. reflexivity.
    + destruct (buf s) as [|v q] eqn:B; inversion T; subst s'; [|unfold take; rewrite B; cbn [todo]; now apply PN].
      cbn [todo sleep]. intros i0 st v0 r0 N. rewrite nth_put in N. destruct (j =? i0); [|eauto].
      destruct (nth_error (todo s) i0); discriminate.
    + pose proof (LN _ _ _ _ E). discriminate.
    + inversion T; subst s'. unfold take. destruct (buf s); cbn [todo]; [exact LN|now apply PN].
  - destruct T as [j s s' T|]; [|discriminate]. unfold turn in T. destruct C as (C & C2 & C3). rewrite C in T. clear S G C' L.
    assert (NF : forall st v r, nth_error (todo s) j = Some (st, Send v :: r) -> is_full cap s = false).
    { intros st v r N. apply ops_nth in N. pose proof (sends_in _ _ _ N) as X. cbn [values length] in X.
      unfold is_full, slots. apply Nat.leb_gt. lia. }
    destruct (nth_error (todo s) j) as [[[] [|[v|] r]]|] eqn:E; try discriminate.
    + apply Nat.eqb_neq in Z. rewrite Z in T. rewrite (NF _ _ _ eq_refl) in T. inversion T; subst s'. cbn [todo deliver].
      intros i0 r0 N. exfalso. rewrite wake_nth, nth_put in N. destruct (j =? i0) eqn:G.
      * destruct (nth_error (todo s) i0); [|discriminate]. discriminate.
      * destruct (nth_error (todo s) i0) as [[st0 l0]|] eqn:F; [|discriminate]. destruct st0; try discriminate.
        destruct (LA _ _ F) as (A1 & A2 & r' & A3). subst l0. rewrite A2 in N.
        rewrite (is_k _ _ _ _ _ C2 F), Nat.eqb_refl in N. discriminate.
    + pose proof (is_k _ _ _ _ _ C2 E) as I. subst j.
      destruct (buf s) as [|v q] eqn:B; inversion T; subst s'.
      * cbn [todo sleep buf sig]. intros i0 r0 N. rewrite nth_put in N. destruct (k =? i0) eqn:G.
        -- destruct (nth_error (todo s) i0); [|discriminate]. inversion N; subst. split; [exact B|]. split; [reflexivity|]. eauto.
        -- split; [exact B|]. destruct (LA _ _ N) as (A1 & A2 & A3). split; [reflexivity|exact A3].
      * unfold take. rewrite B. cbn [todo]. intros i0 r0 N. exfalso. rewrite nth_put in N. destruct (k =? i0) eqn:G.
        -- destruct (nth_error (todo s) i0); discriminate.
        -- destruct (LA _ _ N) as (A1 & _). discriminate.
    + pose proof (LN _ _ _ _ E). discriminate.
    + pose proof (is_k _ _ _ _ _ C2 E) as I. subst j. specialize (C3 _ E). inversion T; subst s'. unfold take.
      destruct (buf s) as [|v q] eqn:B; [congruence|]. cbn [todo]. intros i0 r0 N. exfalso. rewrite nth_put in N. destruct (k =? i0) eqn:G.
      * destruct (nth_error (todo s) i0); discriminate.
      * destruct (LA _ _ N) as (A1 & _). discriminate.
Qed.
Lemma loose_start : forall cap k p, one_receiver k p -> all_sends p <= cap -> loose cap k (start p).
Proof.
  intros cap k p O A. constructor; [now apply calm_start|rewrite ops_start; exact A|reflexivity| |];
    cbn [todo start]; intros i st; intros; rewrite nth_error_map in H; destruct (nth_error p i); cbn in H; congruence.
Qed.
(** With one receiver, and room for all that is ever sent, and no spurious wakeups, the
    runtime ends where Go can end. *)
Theorem C149_outcomes_partial : forall size cap k p s,
  size <> 0 -> one_receiver k p -> all_sends p <= cap ->
  steps false size cap false (start p) s ->
  exists g, go_steps false cap (go_start p) g /\ g_todo g = ops s /\ g_got g = got s /\ g_queue g = buf s
    /\ crashed s = false /\ (stuck false size cap false s -> go_stuck false cap g).
Proof.
  intros size cap k p s Z O A H.
  assert (L : loose cap k s /\ exists g, go_steps false cap (go_start p) g /\ g = {| g_todo := ops s; g_queue := buf s; g_got := got s |}).
  { apply (steps_order _ _ _ _ _ H (fun s => loose cap k s /\ exists g, go_steps false cap (go_start p) g /\ g = {| g_todo := ops s; g_queue := buf s; g_got := got s |})).
    - split; [now apply loose_start|]. eexists. split; [apply GoDone|]. unfold go_start. now rewrite ops_start.
    - intros t u (L & g & G1 & G2) T. destruct (loose_step _ _ _ _ _ Z L T) as (L' & [(X & Y & W)|X]).
      + split; [exact L'|]. exists g. split; [exact G1|]. rewrite X, Y, W. exact G2.
      + split; [exact L'|]. eexists. split; [|reflexivity]. eapply GoMore; [exact G1|]. rewrite G2. exact X. }
  destruct L as (L & g & G1 & G2). exists g. split; [exact G1|]. subst g. cbn [g_todo g_got g_queue].
  pose proof L as [C _ _ LN LA]. destruct C as (C1 & C2 & C3).
  split; [reflexivity|]. split; [reflexivity|]. split; [reflexivity|]. split; [exact C1|].
  intros K g' T. assert (NoSend : forall i v r, nth_error (ops s) i = Some (Send v :: r) -> False).
  { intros i v r N. unfold ops in N. rewrite nth_error_map in N. destruct (nth_error (todo s) i) as [[st l]|] eqn:E; [|discriminate].
    cbn in N. inversion N; subst l. pose proof (LN _ _ _ _ E). subst st.
    assert (X : exists s', turn false size cap i s = Some s').
    { unfold turn. rewrite C1, E. apply Nat.eqb_neq in Z. rewrite Z. destruct (is_full cap s); eauto. }
    destruct X as [s' X]. exact (K s' (Turn _ _ _ _ _ _ _ X)). }
  inversion T as [i v r s0 N E F|i r v q s0 N E F|i j v r r' s0 N E F B]; subst; cbn [g_todo g_queue] in *; eauto.
  unfold ops in E. rewrite nth_error_map in E. destruct (nth_error (todo s) i) as [[st l]|] eqn:E'; [|discriminate].
  cbn in E. inversion E; subst l. destruct st.
  - refine (K _ (Turn false size cap false i s _ _)). unfold turn. rewrite C1, E', F. reflexivity.
  - destruct (LA _ _ E') as (B & _). congruence.
  - refine (K _ (Turn false size cap false i s _ _)). unfold turn. rewrite C1, E'. reflexivity.
Qed.

(** Every run ends: no goroutine is woken for ever. *)
Definition weight (x : status * list op) : nat := 3 * length (snd x) + match fst x with Asleep => 1 | _ => 2 end.
Definition total (l : list (status * list op)) : nat := list_sum (map weight l).
Lemma total_cons : forall x l, total (x :: l) = weight x + total l.
Proof. reflexivity. Qed.
Lemma total_put : forall i x y l, nth_error l i = Some x -> total (put i y l) + weight x = total l + weight y.
Proof.
  induction i as [|i IH]; intros x y [|z l] H; try discriminate; cbn in H; cbn [put]; rewrite !total_cons.
  - inversion H. lia.
  - specialize (IH x y l H). lia.
Qed.
Lemma total_wake : forall w l, total (wake w l) <= S (total l).
Proof.
  intros [i|] l; cbn [wake]; [|lia]. destruct (nth_error l i) as [[[] r]|] eqn:E; try lia.
  pose proof (total_put _ _ (Awake, r) _ E) as H. unfold weight in H. cbn [fst snd] in H. lia.
Qed.
Lemma turn_total : forall nil size cap i s s', turn nil size cap i s = Some s' -> crashed s' = true \/ total (todo s') < total (todo s).
Proof.
  intros nil size cap i s s' H. unfold turn in H. destruct (crashed s); [discriminate|].
  destruct (nth_error (todo s) i) as [[[] [|[v|] r]]|] eqn:E; try discriminate;
    assert (P : forall y, total (put i y (todo s)) + weight (_ : status * list op) = total (todo s) + weight y) by (intro; exact (total_put _ _ _ _ E));
    unfold weight in P; cbn [fst snd length] in P.
  - destruct nil; [|destruct (size =? 0); [|destruct (is_full cap s)]]; inversion H; subst s'; cbn [todo pass crash sleep deliver crashed]; auto; right.
    + specialize (P (Next, r)). cbn [fst snd] in P. lia.
    + specialize (P (Asleep, Send v :: r)). cbn [fst snd length] in P. lia.
    + specialize (P (Next, r)). cbn [fst snd] in P. pose proof (total_wake (sig s) (put i (Next, r) (todo s))). lia.
  - destruct nil; [|destruct (buf s) as [|v q] eqn:B]; inversion H; subst s'; unfold take; try rewrite B; cbn [todo sleep crashed]; right.
    + specialize (P (Next, r)). cbn [fst snd] in P. lia.
    + specialize (P (Asleep, Recv :: r)). cbn [fst snd length] in P. lia.
    + specialize (P (Next, r)). cbn [fst snd] in P. lia.
  - destruct (is_full cap s); inversion H; subst s'; cbn [todo sleep deliver wake]; right.
    + specialize (P (Asleep, Send v :: r)). cbn [fst snd length] in P. lia.
    + specialize (P (Next, r)). cbn [fst snd] in P. lia.
  - inversion H; subst s'. unfold take. destruct (buf s); cbn [todo crashed]; [auto|right].
    specialize (P (Next, r)). cbn [fst snd] in P. lia.
Qed.
Lemma turns_crashed : forall nil size cap is s s', crashed s = true -> turns nil size cap is s = Some s' -> is = [].
Proof. intros nil size cap [|i is] s s' C H; [reflexivity|]. cbn [turns] in H. unfold turn in H. rewrite C in H. discriminate. Qed.
Theorem C149_terminates : forall nil size cap is p s,
  turns nil size cap is (start p) = Some s -> length is <= 1 + 2 * length p + 3 * list_sum (map (@length op) p).
Proof.
  intros nil size cap is p s H.
  assert (G : forall is s0 s, turns nil size cap is s0 = Some s -> length is <= S (total (todo s0))).
  { clear. induction is as [|i is IH]; intros s0 s H; cbn [turns length] in *; [lia|].
    destruct (turn nil size cap i s0) as [s1|] eqn:T; [|discriminate]. destruct (turn_total _ _ _ _ _ _ T) as [C|L].
    - rewrite (turns_crashed _ _ _ _ _ _ C H). cbn [length]. lia.
    - specialize (IH _ _ H). lia. }
  specialize (G _ _ _ H). cbn [todo start] in G.
  assert (E : total (map (fun l => (Next, l)) p) = 2 * length p + 3 * list_sum (map (@length op) p)).
  { clear. induction p as [|l p IH]; [reflexivity|]. cbn [map length]. rewrite total_cons, IH. unfold weight. cbn [fst snd].
    change (list_sum (length l :: map (@length op) p)) with (length l + list_sum (map (@length op) p)). lia. }
  lia.
Qed.

(** ** Where the runtime is not like Go *)
Lemma steps_trans : forall nil size cap sp s t u, steps nil size cap sp s t -> steps nil size cap sp t u -> steps nil size cap sp s u.
Proof. intros nil size cap sp s t u H K. induction K as [s'|s' t u K IH T]; [exact H|eapply More; [exact (IH H)|exact T]]. Qed.
Lemma turns_steps : forall nil size cap sp is s s', turns nil size cap is s = Some s' -> steps nil size cap sp s s'.
Proof.
  induction is as [|i is IH]; intros s s' H; cbn [turns] in H.
  - inversion H. apply Done.
  - destruct (turn nil size cap i s) as [s1|] eqn:T; [|discriminate].
    eapply steps_trans; [|apply IH; exact H]. eapply More; [apply Done|]. now apply Turn with i.
Qed.
Lemma turns_app : forall nil size cap is js s t, turns nil size cap is s = Some t -> turns nil size cap (is ++ js) s = turns nil size cap js t.
Proof.
  induction is as [|i is IH]; intros js s t H; cbn [turns app] in *; [congruence|].
  destruct (turn nil size cap i s); [eauto|discriminate].
Qed.

Definition sender_and_receiver (n : nat) : list (list op) := [repeat (Send 7) n; repeat Recv n].
Lemma many_sends : forall size cap n m R b st, size <> 0 -> length b + n <= S cap ->
  turns false size cap (repeat 0 n) {| todo := [(Next, repeat (Send 7) (n + m)); R]; buf := b; sig := None; got := []; sent := st; crashed := false |}
  = Some {| todo := [(Next, repeat (Send 7) m); R]; buf := b ++ repeat 7 n; sig := None; got := []; sent := st ++ repeat (0, 7) n; crashed := false |}.
Proof.
  induction n as [|n IH]; intros m R b st Z L; cbn [repeat turns Nat.add].
  - now rewrite !app_nil_r.
  - unfold turn. cbn [crashed todo nth_error]. apply Nat.eqb_neq in Z. rewrite Z. unfold is_full, slots. cbn [buf].
    destruct (S cap <=? length b) eqn:F; [apply Nat.leb_le in F; lia|]. unfold deliver. cbn [todo buf sig got sent crashed put wake].
    rewrite IH; [|now apply Nat.eqb_neq|rewrite app_length; cbn [length]; lia].
    now rewrite <- !app_assoc.
Qed.
Lemma many_receives : forall size cap n m st g, 
  turns false size cap (repeat 1 n) {| todo := [(Asleep, [Send 7]); (Next, repeat Recv (n + m))]; buf := repeat 7 n; sig := Some 0; got := g; sent := st; crashed := false |}
  = Some {| todo := [(Asleep, [Send 7]); (Next, repeat Recv m)]; buf := []; sig := Some 0; got := g ++ repeat (1, 7) n; sent := st; crashed := false |}.
Proof.
  induction n as [|n IH]; intros m st g; cbn [repeat turns Nat.add].
  - now rewrite app_nil_r.
  - unfold turn. cbn [crashed todo nth_error buf]. unfold take. cbn [todo buf sig got sent crashed put]. rewrite IH.
    now rewrite <- app_assoc.
Qed.
(** A sender that waits for room is not woken by the receiver: a program that sends as many
    values as it receives can stop for ever, whatever the capacity, though in Go it always
    finishes. *)
Theorem C149_sender_not_woken_refuted : forall size cap, size <> 0 ->
  (exists s, steps false size cap false (start (sender_and_receiver (S (S cap)))) s /\ stuck false size cap false s /\
     crashed s = false /\ ops s = [[Send 7]; [Recv]] /\ buf s = []) /\
  (forall g, go_steps false cap (go_start (sender_and_receiver (S (S cap)))) g -> go_stuck false cap g -> finished (g_todo g)).
Proof.
  intros size cap Z. split.
  - set (A := repeat (0, 7) (S cap)). set (G := repeat (1, 7) (S cap)).
    exists {| todo := [(Asleep, [Send 7]); (Asleep, [Recv])]; buf := []; sig := Some 1; got := G; sent := A; crashed := false |}.
    split; [|split; [|split; [reflexivity|split; reflexivity]]].
    + apply turns_steps with (is := repeat 0 (S cap) ++ [0] ++ repeat 1 (S cap) ++ [1]).
      pose proof (many_sends size cap (S cap) 1 (Next, repeat Recv (S (S cap))) [] [] Z ltac:(cbn [length]; lia)) as H.
      replace (S cap + 1) with (S (S cap)) in H by lia.
      unfold start, sender_and_receiver. cbn [map]. rewrite (turns_app _ _ _ _ _ _ _ H). cbn [app]. fold A.
      set (B := repeat 7 (S cap)). assert (LB : length B = S cap) by apply repeat_length.
      cbn [turns]. unfold turn at 1. cbn [crashed todo nth_error repeat]. pose proof Z as Z'. apply Nat.eqb_neq in Z'. rewrite Z'.
      unfold is_full, slots. cbn [buf]. rewrite LB, Nat.leb_refl. unfold sleep. cbn [todo buf sig got sent crashed put].
      pose proof (many_receives size cap (S cap) 1 A []) as K. replace (S cap + 1) with (S (S cap)) in K by lia.
      change (Recv :: Recv :: repeat Recv cap) with (repeat Recv (S (S cap))). unfold B.
      rewrite (turns_app _ _ _ _ _ _ _ K). reflexivity.
    + intros s' T. inversion T as [i s0 s1 H|]; subst; [|discriminate].
      destruct i as [|[|i]]; cbn in H; try discriminate. destruct i; discriminate.
  - intros g H K. 
    assert (I : exists a b, g_todo g = [repeat (Send 7) a; repeat Recv b] /\ a + length (g_queue g) = b).
    { clear K. remember (go_start (sender_and_receiver (S (S cap)))) as g0 eqn:E. induction H as [g|g0' t u H IH T].
      - subst g. exists (S (S cap)), (S (S cap)). split; [reflexivity|cbn [g_queue go_start length]; lia].
      - specialize (IH E). destruct IH as (a & b & I1 & I2).
        assert (S0 : forall i v r, nth_error (g_todo t) i = Some (Send v :: r) -> i = 0 /\ exists a', a = S a' /\ r = repeat (Send 7) a').
        { intros i v r N. rewrite I1 in N. destruct i as [|[|[|i]]]; cbn in N; try discriminate.
          - destruct a as [|a]; cbn in N; [discriminate|]. inversion N. eauto.
          - destruct b; cbn in N; discriminate. }
        assert (R0 : forall i r, nth_error (g_todo t) i = Some (Recv :: r) -> i = 1 /\ exists b', b = S b' /\ r = repeat Recv b').
        { intros i r N. rewrite I1 in N. destruct i as [|[|[|i]]]; cbn in N; try discriminate.
          - destruct a; cbn in N; discriminate.
          - destruct b as [|b]; cbn in N; [discriminate|]. inversion N. eauto. }
        inversion T as [i v r s0 N E1 F|i r v q s0 N E1 F|i j v r r' s0 N E1 F B]; subst; cbn [g_todo g_queue].
        + destruct (S0 _ _ _ E1) as (X & a' & Y & W). subst. rewrite I1. exists a', (S a' + length (g_queue t)).
          split; [reflexivity|rewrite app_length; cbn [length]; lia].
        + destruct (R0 _ _ E1) as (X & b' & Y & W). subst. rewrite I1. exists a, b'.
          split; [reflexivity|]. rewrite F in Y. cbn [length] in Y. lia.
        + destruct (S0 _ _ _ E1) as (X & a' & Y & W). destruct (R0 _ _ F) as (X' & b' & Y' & W'). subst. rewrite I1. exists a', b'.
          split; [reflexivity|]. rewrite B in Y'. cbn [length] in *. lia. }
    destruct I as (a & b & I1 & I2). destruct b as [|b].
    + assert (a = 0) by lia. subst a. rewrite I1. intro i. unfold left_of. destruct i as [|[|[|]]]; reflexivity.
    + exfalso. destruct (g_queue g) as [|v q] eqn:Q.
      * cbn [length] in I2. assert (a = S b) by lia. subst a. refine (K _ (GoMeet false cap 0 1 7 (repeat (Send 7) b) (repeat Recv b) g eq_refl _ _ Q)); rewrite I1; reflexivity.
      * refine (K _ (GoRecv false cap 1 (repeat Recv b) v q g eq_refl _ Q)). rewrite I1. reflexivity.
Qed.

(** Two receivers: one can take what the other was woken for, and the program panics. In Go
    it finishes, whatever the capacity. *)
Theorem C149_two_receivers_refuted : forall size cap, size <> 0 ->
  exists s, steps false size cap false (start [[Send 7; Send 8]; [Recv]; [Recv]]) s /\ crashed s = true.
Proof.
  intros size cap Z. eexists. split.
  - apply turns_steps with (is := [1; 0; 2; 1]). apply Nat.eqb_neq in Z. cbn. unfold turn; cbn. rewrite Z. cbn. reflexivity.
  - reflexivity.
Qed.
(** A wait that ends without a signal makes a receiver panic, with one sender and one receiver. *)
Theorem C149_spurious_refuted : forall size cap,
  exists s, steps false size cap true (start [[Send 7]; [Recv]]) s /\ crashed s = true.
Proof.
  intros size cap. eexists. split.
  - eapply More; [eapply More; [eapply More; [apply Done|]|]|].
    + apply (Turn false size cap true 1). reflexivity.
    + apply (Spurious false size cap true 1 [Recv]); reflexivity.
    + apply (Turn false size cap true 1). reflexivity.
  - reflexivity.
Qed.
(** A woken sender does not wake the receiver that waits: a value is in the channel, its
    receiver waits for ever. *)
Theorem C149_receiver_not_woken_refuted :
  exists s, steps false 8 0 false (start [[Send 1; Send 3]; [Send 2]; [Recv; Recv; Recv]]) s /\ stuck false 8 0 false s
    /\ crashed s = false /\ ops s = [[]; []; [Recv]] /\ buf s = [2].
Proof.
  eexists. split.
  - apply turns_steps with (is := [0; 1; 2; 0; 2; 2; 1]). reflexivity.
  - split; [|split; [reflexivity|split; reflexivity]].
    intros s' T. inversion T as [i s0 s1 H|]; subst; [|discriminate].
    destruct i as [|[|[|i]]]; cbn in H; try discriminate. destruct i; discriminate.
Qed.
(** A receiver that was woken makes the channel forget the sender that began to wait in the
    meantime: not even another goroutine's send, which signals who waits, wakes it. *)
Theorem C149_waiter_forgotten_refuted :
  exists s, turns false 8 0 [0; 1; 1; 0; 2; 0; 0] (start [[Recv; Recv; Recv]; [Send 1; Send 2]; [Send 3]]) = Some s
    /\ stuck false 8 0 false s /\ crashed s = false /\ ops s = [[Recv]; [Send 2]; []] /\ buf s = [] /\ got s = [(0, 1); (0, 3)].
Proof.
  eexists. split; [reflexivity|]. split; [|split; [reflexivity|split; [reflexivity|split; reflexivity]]].
  intros s' T. inversion T as [i s0 s1 H|]; subst; [|discriminate].
  destruct i as [|[|[|i]]]; cbn in H; try discriminate. destruct i; discriminate.
Qed.
(** A channel without capacity does not make the sender wait for the receiver. *)
Theorem C149_unbuffered_refuted : forall size, size <> 0 ->
  (exists s, steps false size 0 false (start [[Send 7]]) s /\ ops s = [[]] /\ crashed s = false) /\
  (forall g, go_steps false 0 (go_start [[Send 7]]) g -> g_todo g = [[Send 7]]).
Proof.
  intros size Z. split.
  - eexists. split; [|split].
    + apply turns_steps with (is := [0]). apply Nat.eqb_neq in Z. cbn. unfold turn; cbn. rewrite Z. cbn. reflexivity.
    + reflexivity.
    + reflexivity.
  - intros g H. remember (go_start [[Send 7]]) as g0 eqn:E. induction H as [g|g0' t u H IH T]; [subst; reflexivity|].
    specialize (IH E). inversion T as [i v r s0 N E1 F|i r v q s0 N E1 F|i j v r r' s0 N E1 F B]; subst; cbn [g_todo].
    + lia.
    + rewrite IH in E1. destruct i as [|[|]]; discriminate.
    + rewrite IH in F. destruct j as [|[|]]; discriminate.
Qed.
(** Values without size (struct{}): any send panics. *)
Theorem C149_empty_struct_refuted : forall cap v p, exists s, steps false 0 cap false (start ([Send v] :: p)) s /\ crashed s = true.
Proof. intros cap v p. eexists. split; [apply turns_steps with (is := [0]); reflexivity|reflexivity]. Qed.
(** Sending on and receiving from a nil channel goes on, with zero; in Go it never does. *)
Theorem C149_nil_refuted : forall size cap v,
  (exists s, steps true size cap false (start [[Send v; Recv]]) s /\ ops s = [[]] /\ got s = [(0, 0)]) /\
  (forall g, go_steps true cap (go_start [[Send v; Recv]]) g -> g = go_start [[Send v; Recv]]).
Proof.
  intros size cap v. split.
  - eexists. split; [apply turns_steps with (is := [0; 0]); reflexivity|]. split; reflexivity.
  - intros g H. remember (go_start [[Send v; Recv]]) as g0 eqn:E. induction H as [g|g0' t u H IH T]; [reflexivity|].
    inversion T; discriminate.
Qed.
Theorem C149_full_refuted : ~ C149_full.
Proof.
  intro F. destruct (C149_two_receivers_refuted 8 0 ltac:(lia)) as (s & S & C).
  destruct (F false 8 0 false _ s S) as (C' & _); [|congruence].
  intros s' T. inversion T as [i s0 s1 H|i r s0 H]; subst; [|discriminate]. unfold turn in H. rewrite C in H. discriminate.
Qed.

(** A sender, two values, room for two, one receiver: what C149_outcomes_partial and
    C149_no_panic_partial speak of; and a run of it, in which the receiver sleeps. *)
Theorem C149_example :
  one_receiver 1 [[Send 4; Send 5]; [Recv; Recv]] /\ all_sends [[Send 4; Send 5]; [Recv; Recv]] <= 2 /\
  exists s, turns false 8 2 [1; 0; 0; 1; 1] (start [[Send 4; Send 5]; [Recv; Recv]]) = Some s
    /\ got s = [(1, 4); (1, 5)] /\ ops s = [[]; []] /\ crashed s = false.
Proof.
  split; [|split].
  - intros [|[|i]] H; cbn; try congruence; [intros [K|[K|[]]]; discriminate|]. unfold left_of. cbn. destruct i; intros [].
  - cbn. lia.
  - eexists. split; [reflexivity|]. split; [|split]; reflexivity.
Qed.
Print Assumptions C149_outcomes_partial.
Print Assumptions C149_sender_not_woken_refuted.
