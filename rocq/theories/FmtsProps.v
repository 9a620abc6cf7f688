(** Proofs about package fmts (api/fmts/fmts.go). *)
From Coq Require Import Permutation.
From Verif Require Import GoBase GoText FmtsModel.
Local Open Scope Z_scope.
Local Open Scope list_scope.

(** ** Formats *)
(** A format: a text, and then values with a text between two of them, and a text after the last. *)
Record fmt := { before : bytes; between : list bytes; behind : bytes }.
Definition verb : bytes := [37; 118].
Definition tag_text (f : fmt) : bytes := before f ++ verb ++ concat (map (fun s => s ++ verb) (between f)) ++ behind f.
(** The text of a first value and the others. *)
Definition value_text (f : fmt) (a : bytes) (others : list bytes) : bytes := before f ++ a ++ concat (map (fun x => fst x ++ snd x) (combine (between f) others)) ++ behind f.
(** None of its texts has a %. *)
Definition plain (f : fmt) : Prop := ~ In 37 (before f) /\ Forall (fun s => ~ In 37 s) (between f) /\ ~ In 37 (behind f).
Section Fmts.
Variable runes : bytes -> nat.
Variable Id : Type.
Notation count := (count runes).
Notation rank := (rank runes Id).
Notation choose := (choose runes Id).
Definition beq_dec (a b : bytes) : {a = b} + {a <> b} := list_eq_dec Z.eq_dec a b.
(** A value fits a format: it starts and ends as it says, and has each text between two values as often as the
    format has it. *)
Definition fits (f : fmt) (v : bytes) : Prop :=
  (exists r, v = before f ++ r) /\ (exists r, v = r ++ behind f) /\ forall s, In s (between f) -> count v s = count_occ beq_dec (between f) s.
Definition features (f : fmt) : nat :=
  ((if beq (before f) [] then 0 else 1) + (if beq (behind f) [] then 0 else 1) + length (nodup beq_dec (between f)))%nat.

(** ** The candidate of a tag *)
Lemma cutv_plain p r : ~ In 37 p -> cutv (p ++ verb ++ r) = Some (p, r).
Proof.
  induction p as [|b p IH]; intros N; [reflexivity|]. rewrite <- app_comm_cons.
  assert (Q : exists c t, p ++ verb ++ r = c :: t) by (destruct p; do 2 eexists; reflexivity). destruct Q as (c & t & Q).
  cbn [cutv]. rewrite Q. replace (b =? 37) with false by (symmetry; apply Z.eqb_neq; intros ->; apply N; left; reflexivity). cbn [andb].
  rewrite <- Q, IH; [reflexivity|]. intros I. apply N. right. exact I.
Qed.
Lemma splitv_plain p : ~ In 37 p -> splitv p = [p].
Proof.
  induction p as [|b p IH]; intros N; [reflexivity|]. cbn [splitv]. rewrite IH by (intros I; apply N; right; exact I). destruct p; [reflexivity|].
  replace (b =? 37) with false by (symmetry; apply Z.eqb_neq; intros ->; apply N; left; reflexivity). reflexivity.
Qed.
Lemma splitv_verb p r : ~ In 37 p -> splitv (p ++ verb ++ r) = p :: splitv r.
Proof.
  induction p as [|b p IH]; intros N; [reflexivity|]. rewrite <- app_comm_cons.
  assert (Q : exists c t, p ++ verb ++ r = c :: t) by (destruct p; do 2 eexists; reflexivity). destruct Q as (c & t & Q).
  cbn [splitv]. rewrite IH by (intros I; apply N; right; exact I). rewrite Q. replace (b =? 37) with false by (symmetry; apply Z.eqb_neq; intros ->; apply N; left; reflexivity). reflexivity.
Qed.
Lemma splitv_all ss l : Forall (fun s => ~ In 37 s) ss -> ~ In 37 l -> splitv (concat (map (fun s => s ++ verb) ss) ++ l) = ss ++ [l].
Proof.
  intros F N. induction F as [|s ss H F IH]; [apply splitv_plain; exact N|]. cbn [map concat app]. rewrite <- !app_assoc, splitv_verb by exact H. rewrite IH. reflexivity.
Qed.
Lemma suffix_plain ss l : ~ In 37 l -> (if has_suffix (concat (map (fun s => s ++ verb) ss) ++ l) verb then [] else l) = l.
Proof.
  intros N. destruct (has_suffix _ _) eqn:H; [|reflexivity]. apply has_suffix_iff in H. destruct H as (r & H).
  destruct l as [|x l] using rev_ind; [reflexivity|]. clear IHl. exfalso.
  assert (E : rev (concat (map (fun s => s ++ verb) ss) ++ l ++ [x]) = rev (r ++ verb)) by (rewrite H; reflexivity).
  rewrite !rev_app_distr in E. cbn [rev app verb] in E. injection E as E1 E. destruct l as [|y l] using rev_ind.
  - cbn [rev app] in E. destruct ss as [|s ss] using rev_ind; [discriminate|]. rewrite map_app, concat_app in E. cbn [map concat] in E. rewrite !rev_app_distr in E. cbn [rev app verb] in E. discriminate.
  - rewrite rev_app_distr in E. cbn [rev app] in E. injection E as -> E. apply N. rewrite !in_app_iff. cbn. tauto.
Qed.
Definition tally (l : list bytes) : list (bytes * nat) := fold_left (fun m k => bump k m) l [].
Lemma candidate_fmt f id : plain f -> candidate_of Id (tag_text f) id = {| format := tag_text f; prefix := before f; suffix := behind f; search := tally (between f); author := id |}.
Proof.
  intros (P1 & P2 & P3). unfold candidate_of. unfold tag_text at 1. rewrite cutv_plain by exact P1. rewrite splitv_all by assumption. rewrite removelast_last, last_last. cbv zeta. change [37; 118] with verb. rewrite suffix_plain by exact P3. reflexivity.
Qed.
(** ** Tallies *)
Lemma bump_keys k m : map fst (bump k m) = if in_dec beq_dec k (map fst m) then map fst m else map fst m ++ [k].
Proof.
  induction m as [|(x & n) m IH]; [destruct in_dec as [[]|]; reflexivity|]. cbn [bump map fst]. destruct (beq x k) eqn:E.
  - apply beq_true in E. subst x. cbn [map fst]. destruct (in_dec beq_dec k (k :: map fst m)) as [|Q]; [reflexivity|]. destruct Q. left. reflexivity.
  - assert (NE : x <> k) by (intros ->; rewrite beq_refl in E; discriminate). cbn [map fst]. rewrite IH. destruct (in_dec beq_dec k (map fst m)) as [I|I]; destruct (in_dec beq_dec k (x :: map fst m)) as [J|J]; try reflexivity; [destruct J; right; exact I|destruct J as [J|J]; [destruct (NE J)|destruct (I J)]].
Qed.
Lemma bump_nodup k m : NoDup (map fst m) -> NoDup (map fst (bump k m)).
Proof.
  intros N. rewrite bump_keys. destruct in_dec as [I|I]; [exact N|]. apply (Permutation_NoDup (l := k :: map fst m)); [apply Permutation_cons_append|constructor; assumption].
Qed.
Lemma tally_from l : forall m, NoDup (map fst m) -> NoDup (map fst (fold_left (fun m k => bump k m) l m)) /\
  (forall k n, In (k, n) m -> In (k, (n + count_occ beq_dec l k)%nat) (fold_left (fun m k => bump k m) l m)) /\
  (forall k, In k l -> ~ In k (map fst m) -> In (k, count_occ beq_dec l k) (fold_left (fun m k => bump k m) l m)) /\
  (forall k, In k (map fst (fold_left (fun m k => bump k m) l m)) -> In k l \/ In k (map fst m)).
Proof.
  induction l as [|x l IH]; intros m N; cbn [fold_left]; [split; [exact N|]; split; [intros k n I; cbn; rewrite Nat.add_0_r; exact I|]; split; [intros k []|auto]|].
  assert (B : forall m k n, NoDup (map fst m) -> In (k, n) m -> In (k, if beq_dec x k then S n else n) (bump x m)).
  { clear. induction m as [|(y & j) m IH]; intros k n N; [intros []|intros [Q|I]]; cbn [bump].
    - injection Q as -> ->. destruct (beq_dec x k) as [->|NE]; [rewrite beq_refl; left; reflexivity|]. rewrite beq_false by congruence. left. reflexivity.
    - inversion N as [|? ? N1 N2]; subst. destruct (beq y x) eqn:E; [apply beq_true in E; subst y|right; apply IH; assumption].
      destruct (beq_dec x k) as [->|NE]; [destruct N1; apply (in_map fst _ _ I)|right; exact I]. }
  assert (NB : forall m, ~ In x (map fst m) -> In (x, 1%nat) (bump x m)).
  { clear. induction m as [|(y & j) m IH]; intros N; cbn [bump]; [left; reflexivity|]. cbn in N. rewrite beq_false by (intros ->; apply N; left; reflexivity). right. apply IH. tauto. }
  destruct (IH (bump x m) (bump_nodup x m N)) as (A1 & A2 & A3 & A4). split; [exact A1|]. split; [|split].
  - intros k n I. specialize (A2 k _ (B m k n N I)). cbn [count_occ]. destruct (beq_dec x k); [|exact A2]. replace (n + S (count_occ beq_dec l k))%nat with (S n + count_occ beq_dec l k)%nat by lia. exact A2.
  - intros k I NI. cbn [count_occ]. destruct (beq_dec x k) as [->|NE]; [apply (A2 k 1%nat); apply NB; exact NI|]. destruct I as [I|I]; [destruct (NE I)|]. apply A3; [exact I|]. rewrite bump_keys. destruct in_dec; [exact NI|]. rewrite in_app_iff. cbn. intros [J|[J|[]]]; auto.
  - intros k I. destruct (A4 k I) as [J|J]; [left; right; exact J|]. rewrite bump_keys in J. destruct in_dec; [right; exact J|]. rewrite in_app_iff in J. destruct J as [J|[J|[]]]; [right; exact J|left; left; exact J].
Qed.
Lemma tally_nodup l : NoDup (map fst (tally l)).
Proof. apply (tally_from l []). constructor. Qed.
Lemma tally_in l k : In k l -> In (k, count_occ beq_dec l k) (tally l).
Proof. intros I. apply (tally_from l []); [constructor|exact I|intros []]. Qed.
Lemma tally_keys l k n : In (k, n) (tally l) -> In k l /\ n = count_occ beq_dec l k.
Proof.
  intros I. assert (IK : In k (map fst (tally l))) by apply (in_map fst _ _ I). destruct (proj2 (proj2 (proj2 (tally_from l [] (NoDup_nil _)))) k IK) as [J|[]]. split; [exact J|].
  assert (U : forall (m : list (bytes * nat)) a b c, NoDup (map fst m) -> In (a, b) m -> In (a, c) m -> b = c).
  { clear. induction m as [|(x & y) m IH]; intros a b c N; [intros []|intros [P|P] [Q|Q]]; inversion N; subst; try congruence.
    - injection P as -> ->. destruct H1. apply (in_map fst _ _ Q).
    - injection Q as -> ->. destruct H1. apply (in_map fst _ _ P).
    - eapply IH; eassumption. }
  apply (U (tally l) k); [apply tally_nodup|exact I|apply tally_in; exact J].
Qed.
Lemma tally_length l : length (tally l) = length (nodup beq_dec l).
Proof.
  rewrite <- (map_length fst). apply Nat.le_antisymm.
  - apply NoDup_incl_length; [apply tally_nodup|]. intros k I. apply nodup_In. apply in_map_iff in I. destruct I as ((x & n) & <- & I). apply (tally_keys l x n I).
  - apply NoDup_incl_length; [apply NoDup_nodup|]. intros k I. apply nodup_In in I. apply (in_map fst _ _ (tally_in l k I)).
Qed.
(** ** Ranks *)
Lemma rank_search_all v m s : (forall k n, In (k, n) m -> count v k = n) -> rank_search runes v m s = (s + length m)%nat.
Proof.
  revert s. induction m as [|(k & n) m IH]; intros s H; cbn [rank_search length]; [lia|]. rewrite (H k n) by (left; reflexivity). rewrite Nat.eqb_refl, IH; [lia|]. intros. apply H. right. assumption.
Qed.
Lemma rank_search_not v m s k n : In (k, n) m -> count v k <> n -> rank_search runes v m s = O.
Proof.
  revert s. induction m as [|(x & y) m IH]; intros s; [intros []|intros [Q|I] N]; cbn [rank_search].
  - injection Q as -> ->. apply Nat.eqb_neq in N. rewrite N. reflexivity.
  - destruct (Nat.eqb _ _); [apply IH; assumption|reflexivity].
Qed.
(** ** C113 *)
(** The order in which the map of texts is visited does not matter. *)
Theorem C113_order v m m' s : Permutation m m' -> rank_search runes v m s = rank_search runes v m' s.
Proof.
  intros P. revert s. induction P as [|(k & n) m m' P IH|(k & n) (k' & n') m|m m' m'' P1 IH1 P2 IH2]; intros s; cbn [rank_search]; [reflexivity| | |].
  - destruct (Nat.eqb _ _); [apply IH|reflexivity].
  - destruct (Nat.eqb (FmtsModel.count runes v k) n), (Nat.eqb (FmtsModel.count runes v k') n'); reflexivity.
  - rewrite IH1. apply IH2.
Qed.
(** A format that a value fits ranks by the number of its texts; others rank 0. *)
Theorem C113_rank f id v : plain f -> (fits f v -> rank (candidate_of Id (tag_text f) id) v = features f) /\ (~ fits f v -> rank (candidate_of Id (tag_text f) id) v = O).
Proof.
  intros P. rewrite candidate_fmt by exact P. unfold FmtsModel.rank, features. cbn [prefix suffix search]. split.
  - intros ((r & V1) & (r' & V2) & C).
    assert (HP : has_prefix v (before f) = true) by (apply has_prefix_iff; eauto). assert (HS : has_suffix v (behind f) = true) by (apply has_suffix_iff; eauto). rewrite HP, HS.
    assert (RS : forall s, rank_search runes v (tally (between f)) s = (s + length (nodup beq_dec (between f)))%nat).
    { intros s. rewrite rank_search_all, tally_length; [reflexivity|]. intros k n I. apply tally_keys in I. destruct I as (I & ->). apply C. exact I. }
    destruct (beq (before f) []), (beq (behind f) []); rewrite RS; lia.
  - intros NF.
    assert (HB : beq (before f) [] = true -> exists r, v = before f ++ r) by (intros B; apply beq_true in B; rewrite B; exists v; reflexivity).
    assert (HE : beq (behind f) [] = true -> exists r, v = r ++ behind f) by (intros B; apply beq_true in B; rewrite B; exists v; rewrite app_nil_r; reflexivity).
    assert (RS : (exists r, v = before f ++ r) -> (exists r, v = r ++ behind f) -> forall s, rank_search runes v (tally (between f)) s = O).
    { intros B E s. destruct (Forall_dec (fun x => count v x = count_occ beq_dec (between f) x) (fun x => Nat.eq_dec _ _) (between f)) as [F|F].
      - destruct NF. split; [exact B|]. split; [exact E|]. rewrite Forall_forall in F. exact F.
      - assert (X : Exists (fun x => count v x <> count_occ beq_dec (between f) x) (between f)) by (apply neg_Forall_Exists_neg; [intros x; apply Nat.eq_dec|exact F]).
        apply Exists_exists in X. destruct X as (k & I & N). eapply rank_search_not; [apply tally_in; exact I|exact N]. }
    destruct (beq (before f) []) eqn:B; destruct (beq (behind f) []) eqn:E.
    + apply RS; auto.
    + destruct (has_suffix v (behind f)) eqn:HS; [apply has_suffix_iff in HS; apply RS; auto|reflexivity].
    + destruct (has_prefix v (before f)) eqn:HP; [apply has_prefix_iff in HP; apply RS; auto|reflexivity].
    + destruct (has_prefix v (before f)) eqn:HP; [|reflexivity]. destruct (has_suffix v (behind f)) eqn:HS; [apply has_suffix_iff in HS; apply has_prefix_iff in HP; apply RS; auto|reflexivity].
Qed.
(** The candidate chosen is the one that ranks above all others; nil if there is none. *)
Definition above_all (v : bytes) (cs : list (candidate Id)) (c : candidate Id) : Prop := exists l r, cs = l ++ c :: r /\ Forall (fun x => (rank x v < rank c v)%nat) (l ++ r).
Lemma above_two v l b m x r c : rank b v = rank x v -> Forall (fun y => (rank y v <= rank b v)%nat) (l ++ b :: m ++ x :: r) -> ~ above_all v (l ++ b :: m ++ x :: r) c.
Proof.
  intros E F (l' & r' & Q & U).
  assert (LC : (rank c v <= rank b v)%nat). { rewrite Forall_forall in F. apply F. rewrite Q, in_app_iff. right. left. reflexivity. }
  assert (L1 : length (filter (fun y => Nat.leb (rank c v) (rank y v)) (l' ++ c :: r')) = 1%nat).
  { rewrite filter_app. cbn [filter]. rewrite Nat.leb_refl. rewrite Forall_app in U. destruct U as (U1 & U2).
    assert (Z0 : forall k, Forall (fun x => (rank x v < rank c v)%nat) k -> filter (fun y => Nat.leb (rank c v) (rank y v)) k = []).
    { intros k H. induction H as [|y k H1 H IH]; [reflexivity|]. cbn [filter]. replace (Nat.leb (rank c v) (rank y v)) with false by (symmetry; apply Nat.leb_gt; exact H1). exact IH. }
    rewrite (Z0 _ U1), (Z0 _ U2). reflexivity. }
  rewrite <- Q in L1. rewrite filter_app in L1. cbn [filter] in L1. replace (Nat.leb (rank c v) (rank b v)) with true in L1 by (symmetry; apply Nat.leb_le; exact LC).
  rewrite filter_app in L1. cbn [filter] in L1. rewrite <- E in L1. replace (Nat.leb (rank c v) (rank b v)) with true in L1 by (symmetry; apply Nat.leb_le; exact LC).
  rewrite !app_length in L1. cbn [length] in L1. rewrite app_length in L1. cbn [length] in L1. lia.
Qed.
Definition leading (v : bytes) (seen : list (candidate Id)) (h : nat) (b : candidate Id) (sh : bool) : Prop :=
  exists l r, seen = l ++ b :: r /\ rank b v = h /\ Forall (fun x => (rank x v < h)%nat) l /\ Forall (fun x => (rank x v <= h)%nat) r /\ (if sh then Exists (fun x => rank x v = h) r else Forall (fun x => (rank x v < h)%nat) r).
Lemma choose_leading v cs : forall seen h b sh, leading v seen h b sh ->
  match choose cs v (Some h) (Some b) sh with Some c => above_all v (seen ++ cs) c | None => forall c, ~ above_all v (seen ++ cs) c end.
Proof.
  induction cs as [|c cs IH]; intros seen h b sh (l & r & -> & H & FL & FR & SH); cbn [FmtsModel.choose].
  - rewrite app_nil_r. destruct sh.
    + apply Exists_exists in SH. destruct SH as (x & I & E). apply in_split in I. destruct I as (m & r' & ->). intros c. apply above_two; [congruence|]. rewrite H, Forall_app. split; [eapply Forall_impl; [|exact FL]; cbv beta; intros; lia|]. constructor; [lia|exact FR].
    + exists l, r. split; [reflexivity|]. rewrite H, Forall_app. split; assumption.
  - replace ((l ++ b :: r) ++ c :: cs) with ((l ++ b :: (r ++ [c])) ++ cs) by (rewrite <- !app_assoc; cbn [app]; rewrite <- app_assoc; reflexivity).
    destruct (Nat.eqb (rank c v) h) eqn:E; [apply Nat.eqb_eq in E|apply Nat.eqb_neq in E; destruct (Nat.ltb h (rank c v)) eqn:L; [apply Nat.ltb_lt in L|apply Nat.ltb_ge in L]].
    + apply IH. exists l, (r ++ [c]). split; [reflexivity|]. split; [exact H|]. split; [exact FL|]. split; [apply Forall_app; split; [exact FR|constructor; [lia|constructor]]|]. apply Exists_app. right. constructor. exact E.
    + apply IH. exists (l ++ b :: r), []. split; [rewrite <- app_assoc; reflexivity|]. split; [reflexivity|]. split; [|split; constructor]. apply Forall_app. split; [eapply Forall_impl; [|exact FL]; cbv beta; intros; lia|]. constructor; [lia|]. eapply Forall_impl; [|exact FR]. cbv beta. intros. lia.
    + apply IH. exists l, (r ++ [c]). split; [reflexivity|]. split; [exact H|]. split; [exact FL|]. split; [apply Forall_app; split; [exact FR|constructor; [lia|constructor]]|].
      destruct sh; [apply Exists_app; left; exact SH|apply Forall_app; split; [exact SH|constructor; [lia|constructor]]].
Qed.
Theorem C113_choose v cs c : (choose cs v None None false = Some c -> above_all v cs c) /\ (above_all v cs c -> exists d, choose cs v None None false = Some d /\ above_all v cs d).
Proof.
  destruct cs as [|x cs]; cbn [FmtsModel.choose]; [split; [discriminate|intros ([|? ?] & r & Q & _); discriminate]|].
  assert (L : leading v [x] (rank x v) x false). { exists [], []. split; [reflexivity|]. split; [reflexivity|]. repeat split; constructor. }
  pose proof (choose_leading v cs [x] (rank x v) x false L) as H. cbn [app] in H. destruct (choose cs v (Some (rank x v)) (Some x) false) as [d|].
  - split; [intros Q; injection Q as <-; exact H|intros _; exists d; auto].
  - split; [discriminate|intros U; destruct (H c U)].
Qed.
Lemma above_unique v cs c d : above_all v cs c -> above_all v cs d -> c = d.
Proof.
  intros (l & r & -> & U) (l' & r' & Q & U'). assert (I : In d (l ++ c :: r)) by (rewrite Q, in_app_iff; right; left; reflexivity). rewrite in_app_iff in I. cbn in I.
  assert (J : In c (l' ++ d :: r')) by (rewrite <- Q, in_app_iff; right; left; reflexivity). rewrite in_app_iff in J. cbn in J. rewrite Forall_forall in *.
  destruct I as [I|[I|I]]; [|congruence|]; destruct J as [J|[J|J]]; try congruence; exfalso;
    (assert ((rank d v < rank c v)%nat) by (apply U; rewrite in_app_iff; auto)); (assert ((rank c v < rank d v)%nat) by (apply U'; rewrite in_app_iff; auto)); lia.
Qed.
(** A value formatted by a format is parsed by the function of that format if it fits it and each other format
    has fewer texts, or does not fit. *)
Theorem C113_best fs1 f id fs2 v : Forall (fun x => plain (fst x)) (fs1 ++ (f, id) :: fs2) -> fits f v -> (0 < features f)%nat ->
  Forall (fun x => (features (fst x) < features f)%nat \/ ~ fits (fst x) v) (fs1 ++ fs2) ->
  call_dispatch runes Id (map (fun x => candidate_of Id (tag_text (fst x)) (snd x)) (fs1 ++ (f, id) :: fs2)) v = Some id.
Proof.
  intros P F N OT. unfold call_dispatch. set (cand := fun x : fmt * Id => candidate_of Id (tag_text (fst x)) (snd x)).
  assert (PF : plain f). { rewrite Forall_forall in P. apply (P (f, id)). rewrite in_app_iff. right. left. reflexivity. }
  assert (U : above_all v (map cand (fs1 ++ (f, id) :: fs2)) (cand (f, id))).
  { exists (map cand fs1), (map cand fs2). split; [rewrite map_app; reflexivity|]. rewrite <- map_app. apply Forall_map. rewrite Forall_forall in *. intros (g & j) I. unfold cand. cbn [fst snd].
    rewrite (proj1 (C113_rank f id v PF) F).
    assert (PG : plain g). { apply (P (g, j)). rewrite in_app_iff in *. cbn. tauto. }
    destruct (C113_rank g j v PG) as (R1 & R2). specialize (OT _ I). cbn [fst] in OT.
    assert (D : rank (candidate_of Id (tag_text g) j) v = features g \/ rank (candidate_of Id (tag_text g) j) v = O%nat).
    { destruct (Nat.eq_dec (rank (candidate_of Id (tag_text g) j) v) 0) as [Z0|NZ]; [right; exact Z0|left]. apply R1.
      assert (DE : fits g v \/ ~ fits g v). { clear - runes. unfold fits.
        destruct (has_prefix v (before g)) eqn:HP; [|right; intros (A & _); apply has_prefix_iff in A; congruence]. apply has_prefix_iff in HP.
        destruct (has_suffix v (behind g)) eqn:HS; [|right; intros (_ & A & _); apply has_suffix_iff in A; congruence]. apply has_suffix_iff in HS.
        destruct (Forall_dec (fun x => count v x = count_occ beq_dec (between g) x) (fun x => Nat.eq_dec _ _) (between g)) as [FA|FA]; rewrite Forall_forall in FA; [left|right]; tauto. }
      destruct DE as [DE|DE]; [exact DE|destruct (NZ (R2 DE))]. }
    destruct OT as [OT|OT]; [destruct D as [-> | ->]; lia|rewrite (R2 OT); exact N]. }
  destruct (C113_choose v (map cand (fs1 ++ (f, id) :: fs2)) (cand (f, id))) as (_ & C). destruct (C U) as (d & -> & UD). cbn [option_map]. rewrite (above_unique _ _ _ _ UD U). unfold cand. cbn [fst snd]. rewrite candidate_fmt by exact PF. reflexivity.
Qed.
(** When it fits: texts between values of one byte, that is in no value and neither before nor behind. *)
Lemma count1_app b s t : count_from 0 (s ++ t) [b] = (count_from 0 s [b] + count_from 0 t [b])%nat.
Proof. induction s as [|x s IH]; [reflexivity|]. cbn [app count_from has_prefix length Nat.sub]. rewrite IH. destruct ((b =? x) && true); lia. Qed.
Lemma count1_none b s : ~ In b s -> count_from 0 s [b] = O.
Proof.
  induction s as [|x s IH]; intros N; [reflexivity|]. cbn [count_from has_prefix length Nat.sub]. replace (b =? x) with false by (symmetry; apply Z.eqb_neq; intros ->; apply N; left; reflexivity). cbn [andb]. apply IH. intros I. apply N. right. exact I.
Qed.
Theorem C113_fits_partial f a others : length others = length (between f) -> Forall (fun s => exists b, s = [b]) (between f) ->
  (forall b, In [b] (between f) -> ~ In b (before f) /\ ~ In b (behind f) /\ ~ In b a /\ Forall (fun x => ~ In b x) others) -> fits f (value_text f a others).
Proof.
  intros L S1 N. split; [eexists; reflexivity|]. split; [unfold value_text; rewrite !app_assoc; eexists; reflexivity|]. intros s I. rewrite Forall_forall in S1. destruct (S1 s I) as (b & ->). destruct (N b I) as (N1 & N2 & N3 & N4). unfold FmtsModel.count, value_text.
  rewrite !count1_app, (count1_none b _ N1), (count1_none b _ N2), (count1_none b _ N3), Nat.add_0_r. cbn [Nat.add].
  clear N N1 N2 N3 I. revert others L N4. assert (S2 : Forall (fun s => exists b, s = [b]) (between f)) by (apply Forall_forall; exact S1). clear S1. induction S2 as [|s ss (x & ->) S2 IH]; intros [|o others] L N4; try discriminate; [reflexivity|].
  inversion N4 as [|? ? O1 O2]; subst. cbn [combine map concat fst snd]. rewrite !count1_app, (count1_none b o O1), (IH others) by (try assumption; injection L; auto). cbn [count_occ count_from has_prefix]. destruct (beq_dec [x] [b]) as [Q|Q].
  - injection Q as ->. rewrite Z.eqb_refl. cbn. lia.
  - replace (b =? x) with false by (symmetry; apply Z.eqb_neq; intros ->; apply Q; reflexivity). cbn. lia.
Qed.
(** A format without texts ties with all that a value does not fit: then nothing parses it. *)
Theorem C113_plain_refuted f id id' v : plain f -> ~ fits f v -> call_dispatch runes Id [candidate_of Id verb id; candidate_of Id (tag_text f) id'] v = None.
Proof.
  intros P F. unfold call_dispatch. cbn [FmtsModel.choose]. rewrite (proj2 (C113_rank f id' v P) F).
  replace (rank (candidate_of Id verb id) v) with O by reflexivity. reflexivity.
Qed.
(** A single format is used for each value, also those it does not fit. *)
Theorem C113_only_refuted f id v : call_dispatch runes Id [candidate_of Id (tag_text f) id] v = Some id.
Proof. unfold call_dispatch. cbn [FmtsModel.choose option_map]. f_equal. unfold candidate_of. destruct (cutv (tag_text f)) as [(p & r)|]; reflexivity. Qed.
(** "/%v/%v" does not fit the values it formats, whatever they are. *)
Definition slashes : fmt := {| before := [47]; between := [[47]]; behind := [] |}.
Theorem C113_prefix_refuted a b : ~ fits slashes (value_text slashes a [b]).
Proof.
  intros (_ & _ & C). specialize (C [47] (or_introl eq_refl)). unfold FmtsModel.count, value_text in C. cbn [slashes before between behind combine map concat fst snd] in C. rewrite !count1_app in C. cbn in C. lia.
Qed.
(** A value with the text between two values in it: nor does it. *)
Definition colon : fmt := {| before := []; between := [[58]]; behind := [] |}.
Theorem C113_separator_refuted a a' b : ~ fits colon (value_text colon (a ++ 58 :: a') [b]).
Proof.
  intros (_ & _ & C). specialize (C [58] (or_introl eq_refl)). unfold FmtsModel.count, value_text in C. cbn [colon before between behind combine map concat fst snd] in C. rewrite !count1_app in C. cbn in C. lia.
Qed.
(** "%v%v" fits only the empty text. *)
Definition adjacent : fmt := {| before := []; between := [[]]; behind := [] |}.
Theorem C113_adjacent_refuted v : fits adjacent v -> runes v = O.
Proof. intros (_ & _ & C). specialize (C [] (or_introl eq_refl)). cbn in C. lia. Qed.
(** A tag without %v fits each value that ends in it. *)
Theorem C113_literal_refuted w id v : w <> [] -> ~ In 37 w -> rank (candidate_of Id w id) (v ++ w) = 1%nat.
Proof.
  intros N P. unfold candidate_of. assert (CN : cutv w = None).
  { clear N. induction w as [|b w IH]; [reflexivity|]. cbn [cutv]. destruct w as [|c w]; [reflexivity|]. replace (b =? 37) with false by (symmetry; apply Z.eqb_neq; intros ->; apply P; left; reflexivity). cbn [andb]. rewrite IH; [reflexivity|]. intros I. apply P. right. exact I. }
  rewrite CN, splitv_plain by exact P. cbn [removelast last fold_left]. pose proof (suffix_plain [] w P) as SP. cbn [map concat app] in SP. change [37; 118] with verb. rewrite SP. unfold FmtsModel.rank. cbn [prefix suffix search beq rank_search].
  rewrite beq_false by exact N. replace (has_suffix (v ++ w) w) with true by (symmetry; apply has_suffix_iff; eexists; reflexivity). reflexivity.
Qed.
(** ** Linking *)
Notation structure := (structure Id).
Notation func := (func Id).
Fixpoint all_funcs (s : structure) : list func := match s with Structure _ fns subs => fns ++ flat_map all_funcs subs end.
Definition outer (s : structure) : list func := match s with Structure _ fns _ => fns end.
Definition spaces (s : structure) : list structure := match s with Structure _ _ subs => subs end.
Fixpoint struct_ind' (P : structure -> Prop) (H : forall fns subs, Forall P subs -> P (Structure Id fns subs)) (s : structure) : P s :=
  match s with Structure _ fns subs => H fns subs ((fix go l : Forall P l := match l with [] => Forall_nil _ | x :: r => Forall_cons _ (struct_ind' P H x) (go r) end) subs) end.
Lemma fill_sub subs : (fix go (l : list structure) := match l with [] => ([], []) | x :: r => let '(m, c) := fill Id x in let '(m', c') := go r in (m ++ m', c ++ c') end) subs = (flat_map (fun x => fst (fill Id x)) subs, flat_map (fun x => snd (fill Id x)) subs).
Proof. induction subs as [|x subs IH]; [reflexivity|]. rewrite IH. cbn [flat_map]. destruct (fill Id x). reflexivity. Qed.
Lemma flat_map_nest {A} (g : func -> list A) (subs : list structure) (h : structure -> list A) : Forall (fun x => h x = flat_map g (all_funcs x)) subs -> flat_map h subs = flat_map g (flat_map all_funcs subs).
Proof. intros F. induction F as [|x subs H F IH]; [reflexivity|]. cbn [flat_map]. rewrite H, IH, flat_map_app. reflexivity. Qed.
(** The parsers, also those in namespaces, are made, and each with a tag is a candidate for its type. *)
Theorem C113_fill s : fill Id s = (flat_map (fun f => match parser Id f with Some _ => [(f_id Id f, IParse Id (tag_of Id f) (removelast (f_out Id f)))] | None => [] end) (all_funcs s),
  flat_map (fun f => match parser Id f, f_tag Id f with Some n, Some t => [(n, candidate_of Id t (f_id Id f))] | _, _ => [] end) (all_funcs s)).
Proof.
  induction s as [fns subs IH] using struct_ind'. cbn [fill]. rewrite fill_sub. cbn [fst snd all_funcs]. rewrite !flat_map_app. f_equal; f_equal; apply flat_map_nest; eapply Forall_impl; [|exact IH| |exact IH]; cbv beta; intros x ->; reflexivity.
Qed.
(** What each function is made to do, by its signature. *)
Definition parses (f : func) : bool := Nat.ltb 1 (length (f_out Id f)) && last_err (f_out Id f).
Inductive kind := KParse (n : nat) | KDispatch (n : nat) | KFormat | KOther.
Definition kind_of (f : func) : kind :=
  if parses f then match f_in Id f with [Str n] => KParse n | _ => KOther end
  else match f_in Id f, f_out Id f with [Str n], [AnyT] => KDispatch n | _, [Str _] => KFormat | _, _ => KOther end.
Lemma parser_kind f : parser Id f = match kind_of f with KParse n => Some n | _ => None end.
Proof.
  unfold parser, kind_of, parses. destruct (Nat.ltb 1 (length (f_out Id f)) && last_err (f_out Id f)); destruct (f_in Id f) as [|[n| | |n] [|? ?]]; try reflexivity; destruct (f_out Id f) as [|[m| | |m] [|? ?]]; reflexivity.
Qed.
Lemma link_funcs_in cs fns m ok : link_funcs Id cs fns = (m, ok) -> forall id i, In (id, i) m -> exists f, In f fns /\ id = f_id Id f /\ match kind_of f with KDispatch n => i = IDispatch Id (of_type Id n cs) | KFormat => i = IFormat Id (tag_of Id f) | _ => False end.
Proof.
  revert m ok. induction fns as [|f fns IH]; intros m ok Q; cbn [link_funcs] in Q; [injection Q as <- _; intros id i []|]. destruct (link_func Id cs f) as [a|] eqn:E; [|injection Q as <- _; intros id i []].
  destruct (link_funcs Id cs fns) as [ms ok'] eqn:R. injection Q as <- _. intros id i I. rewrite in_app_iff in I. destruct I as [I|I]; [|destruct (IH _ _ eq_refl id i I) as (g & J & K); exists g; split; [right; exact J|exact K]].
  exists f. split; [left; reflexivity|]. unfold link_func in E. unfold kind_of, parses. destruct (Nat.ltb 1 (length (f_out Id f)) && last_err (f_out Id f)); [injection E as <-; destruct I|].
  destruct (f_in Id f) as [|[n| | |n] [|? ?]]; destruct (f_out Id f) as [|[k| | |k] [|? ?]]; try discriminate; injection E as <-; destruct I as [I|[]]; injection I as <- <-; split; reflexivity.
Qed.
Lemma link_funcs_all cs fns m : link_funcs Id cs fns = (m, true) -> forall f, In f fns -> match kind_of f with KDispatch n => In (f_id Id f, IDispatch Id (of_type Id n cs)) m | KFormat => In (f_id Id f, IFormat Id (tag_of Id f)) m | _ => True end.
Proof.
  revert m. induction fns as [|g fns IH]; intros m Q f I; [destruct I|]. cbn [link_funcs] in Q. destruct (link_func Id cs g) as [a|] eqn:E; [|discriminate].
  destruct (link_funcs Id cs fns) as [ms ok'] eqn:R. injection Q as <- ->. destruct I as [->|I].
  - unfold link_func in E. unfold kind_of, parses. destruct (Nat.ltb 1 (length (f_out Id f)) && last_err (f_out Id f)); [destruct (f_in Id f) as [|[n| | |n] [|? ?]]; exact Logic.I|].
    destruct (f_in Id f) as [|[n| | |n] [|? ?]]; destruct (f_out Id f) as [|[k| | |k] [|? ?]]; try exact Logic.I; injection E as <-; apply in_app_iff; left; left; reflexivity.
  - specialize (IH _ eq_refl f I). destruct (kind_of f); try exact Logic.I; apply in_app_iff; right; exact IH.
Qed.
(** When linking succeeds, each parser (also in namespaces) parses by its tag; each function of the structure
    itself that gives any chooses among all parsers of its type, also those in namespaces; each of one that
    gives a string formats by its tag. Nothing else is made for any of them. *)
Definition candidates (s : structure) : list (nat * candidate Id) := flat_map (fun f => match kind_of f, f_tag Id f with KParse n, Some t => [(n, candidate_of Id t (f_id Id f))] | _, _ => [] end) (all_funcs s).
Definition wanted (s : structure) (f : func) : option (impl Id) :=
  match kind_of f with KParse _ => Some (IParse Id (tag_of Id f) (removelast (f_out Id f))) | KDispatch n => Some (IDispatch Id (of_type Id n (candidates s))) | KFormat => Some (IFormat Id (tag_of Id f)) | KOther => None end.
Theorem C113_link s m : link Id true s = (m, true) ->
  (forall f i, In f (outer s) -> wanted s f = Some i -> In (f_id Id f, i) m) /\
  (forall f n, In f (all_funcs s) -> kind_of f = KParse n -> In (f_id Id f, IParse Id (tag_of Id f) (removelast (f_out Id f))) m) /\
  (NoDup (map (f_id Id) (all_funcs s)) -> forall f i, In f (outer s) -> In (f_id Id f, i) m -> wanted s f = Some i).
Proof.
  destruct s as [fns subs]. intros Q. cbn [link] in Q. set (s := Structure Id fns subs) in *.
  assert (CE : snd (fill Id s) = candidates s).
  { rewrite C113_fill. cbn [snd]. unfold candidates. apply flat_map_ext. intros f. rewrite parser_kind. destruct (kind_of f); reflexivity. }
  assert (ME : forall id i, In (id, i) (fst (fill Id s)) <-> exists f n, In f (all_funcs s) /\ kind_of f = KParse n /\ id = f_id Id f /\ i = IParse Id (tag_of Id f) (removelast (f_out Id f))).
  { intros id i. rewrite C113_fill. cbn [fst]. rewrite in_flat_map. split.
    - intros (f & I & J). rewrite parser_kind in J. destruct (kind_of f) as [n|n| |] eqn:K; try destruct J as []. 2: destruct H. injection H as <- <-. exists f, n. auto.
    - intros (f & n & I & K & -> & ->). exists f. split; [exact I|]. rewrite parser_kind, K. left. reflexivity. }
  destruct (fill Id s) as [made cs]. cbn [fst snd] in *. subst cs. destruct (link_funcs Id (candidates s) fns) as [ms ok] eqn:L. destruct ok; [|discriminate]. injection Q as <-.
  assert (P2 : forall f n, In f (all_funcs s) -> kind_of f = KParse n -> In (f_id Id f, IParse Id (tag_of Id f) (removelast (f_out Id f))) (made ++ ms ++ flat_map (fun x => fst (link Id false x)) subs)).
  { intros f n I K. apply in_app_iff. left. apply ME. exists f, n. auto. }
  split; [|split; [exact P2|]].
  - intros f i I W. cbn [outer s] in I. unfold wanted in W. pose proof (link_funcs_all _ _ _ L f I) as LA. destruct (kind_of f) as [n|n| |] eqn:K; try discriminate; injection W as <-.
    + apply (P2 f n); [|exact K]. cbn [all_funcs s]. apply in_app_iff. left. exact I.
    + rewrite !in_app_iff. right. left. exact LA.
    + rewrite !in_app_iff. right. left. exact LA.
  - intros ND f i I J. cbn [outer s] in I.
    assert (IA : In f (all_funcs s)) by (cbn [all_funcs s]; apply in_app_iff; left; exact I).
    assert (UN : forall g, In g (all_funcs s) -> f_id Id f = f_id Id g -> f = g).
    { intros g IG E. clear - ND IA IG E. induction (all_funcs s) as [|x l IH]; [destruct IA|]. cbn in ND. inversion ND as [|? ? N1 N2]; subst. destruct IA as [->|IA], IG as [->|IG]; auto.
      - destruct N1. rewrite E. apply in_map. exact IG.
      - destruct N1. rewrite <- E. apply in_map. exact IA. }
    rewrite !in_app_iff in J. destruct J as [J|[J|J]].
    + apply ME in J. destruct J as (g & n & IG & K & E & ->). rewrite <- (UN g IG E) in *. unfold wanted. rewrite K. reflexivity.
    + destruct (link_funcs_in _ _ _ _ L _ _ J) as (g & IG & E & W). assert (IG' : In g (all_funcs s)) by (cbn [all_funcs s]; apply in_app_iff; left; exact IG). rewrite <- (UN g IG' E) in *. unfold wanted. destruct (kind_of f); try destruct W; congruence.
    + exfalso. apply in_flat_map in J. destruct J as (x & IX & J).
      assert (FR : forall y id i, In (id, i) (fst (link Id false y)) -> exists g, In g (all_funcs y) /\ id = f_id Id g).
      { clear. induction y as [fns subs IH] using struct_ind'. intros id i I. cbn [link] in I. destruct (link_funcs Id [] fns) as [ms ok] eqn:L. destruct ok; cbn [fst app] in I.
        - rewrite in_app_iff in I. cbn [all_funcs]. destruct I as [I|I]; [destruct (link_funcs_in _ _ _ _ L _ _ I) as (g & J & K & _); exists g; rewrite in_app_iff; auto|].
          apply in_flat_map in I. destruct I as (x & J & I). rewrite Forall_forall in IH. destruct (IH x J _ _ I) as (g & G1 & G2). exists g. split; [|exact G2]. apply in_app_iff. right. apply in_flat_map. eauto.
        - destruct (link_funcs_in _ _ _ _ L _ _ I) as (g & J & K & _). exists g. cbn [all_funcs]. rewrite in_app_iff. auto. }
      destruct (FR _ _ _ J) as (g & IG & E). clear - ND I IX IG E. cbn [all_funcs s] in ND. rewrite map_app in ND.
      assert (DJ : In (f_id Id g) (map (f_id Id) (flat_map all_funcs subs))) by (apply in_map; apply in_flat_map; eauto). rewrite <- E in DJ. apply (in_map (f_id Id)) in I. clear - ND I DJ.
      induction (map (f_id Id) fns) as [|y l IH]; [destruct I|]. cbn in ND. inversion ND as [|? ? N1 N2]; subst. destruct I as [->|I]; [apply N1; apply in_app_iff; auto|auto].
Qed.
(** A function in a namespace that gives any has nothing to choose from, and a function there that can't be
    linked is not reported. *)
Theorem C113_nested_refuted f n g fns subs : kind_of f = KDispatch n -> In f fns -> parses g = false -> f_out Id g = [] -> (forall x, In x fns -> kind_of x <> KOther) ->
  exists m, link Id true (Structure Id [] [Structure Id (fns ++ [g]) subs]) = (m, true) /\ In (f_id Id f, IDispatch Id []) m.
Proof.
  intros K I PG OG W. cbn [link]. destruct (fill Id _) as [made cs]. cbn [link_funcs]. eexists. split; [reflexivity|]. cbn [app flat_map link]. rewrite !in_app_iff. right. left.
  assert (LF : forall l, (forall x, In x l -> kind_of x <> KOther \/ parses x = true) -> exists m, link_funcs Id [] (l ++ [g]) = (m, false) /\ forall x k, In x l -> kind_of x = KDispatch k -> In (f_id Id x, IDispatch Id []) m).
  { clear f n K fns I W subs. induction l as [|x l IH]; intros W.
    - exists []. split; [|intros x k []]. cbn [app link_funcs]. unfold link_func. unfold parses in PG. rewrite PG, OG. destruct (f_in Id g) as [|[?| | |?] [|? ?]]; reflexivity.
    - destruct IH as (m & Q & H); [intros y J; apply W; right; exact J|]. cbn [app link_funcs]. rewrite Q. destruct (link_func Id [] x) as [a|] eqn:E.
      + exists (a ++ m). split; [reflexivity|]. intros y k [->|J] KY; apply in_app_iff; [left|right; eapply H; eassumption].
        unfold link_func in E. unfold kind_of, parses in KY. destruct (Nat.ltb 1 (length (f_out Id y)) && last_err (f_out Id y)); [destruct (f_in Id y) as [|[?| | |?] [|? ?]]; discriminate|].
        destruct (f_in Id y) as [|[?| | |?] [|? ?]]; destruct (f_out Id y) as [|[?| | |?] [|? ?]]; try discriminate; injection E as <-; left; reflexivity.
      + exfalso. unfold link_func in E. destruct (W x (or_introl eq_refl)) as [WX|WX]; unfold kind_of, parses in WX; destruct (Nat.ltb 1 (length (f_out Id x)) && last_err (f_out Id x)); try discriminate.
        destruct (f_in Id x) as [|[?| | |?] [|? ?]]; destruct (f_out Id x) as [|[?| | |?] [|? ?]]; try discriminate; apply WX; reflexivity. }
  destruct (LF fns) as (m & Q & H); [intros x J; left; apply W; exact J|]. rewrite Q. cbn [fst]. eapply H; eassumption.
Qed.
(** ** Calls *)
Variables (V Err : Type) (sscanf : bytes -> bytes -> list ty -> list V * nat * option Err) (sprintf : bytes -> list V -> bytes).
(** Values survive formatting and parsing, and an error of the scanner is reported, for a scanner that reads
    what the formatter writes. *)
Theorem C113_round_trip_partial f args outs n : sscanf (sprintf (tag_text f) args) (tag_text f) outs = (args, n, None) -> call_parse V Err sscanf (tag_text f) outs (call_format V sprintf (tag_text f) args) = inl args.
Proof. intros E. unfold call_parse, call_format. rewrite E. reflexivity. Qed.
Theorem C113_scan_error v t outs vs n e : sscanf v t outs = (vs, n, Some e) -> call_parse V Err sscanf t outs v = inr e.
Proof. intros E. unfold call_parse. rewrite E. reflexivity. Qed.
End Fmts.
(** The formats of the package's test. *)
Example C113_case : let f := {| before := []; between := [[58]]; behind := [] |} in let g := {| before := []; between := [[47]; [47]; [47]]; behind := [] |} in
  fits (fun s => length s) f (value_text f ([97]) [[98]]) /\ fits (fun s => length s) g (value_text g ([97]) [[98]; [99]; [100]]) /\
  call_dispatch (fun s => length s) nat [candidate_of nat verb 0; candidate_of nat (tag_text f) 1; candidate_of nat (tag_text g) 2]%nat ([97; 47; 98; 47; 99; 47; 100]) = Some 2%nat /\
  call_dispatch (fun s => length s) nat [candidate_of nat verb 0; candidate_of nat (tag_text f) 1; candidate_of nat (tag_text g) 2]%nat ([97; 98; 99]) = None.
Proof.
  cbv zeta. split; [|split]; [| |split; reflexivity]; apply C113_fits_partial; try reflexivity; repeat constructor; try (eexists; reflexivity); cbn in H; repeat (destruct H as [H|H]; [injection H as <-|]); try destruct H; cbn; try lia; repeat constructor; cbn; lia.
Qed.
Print Assumptions C113_rank.
Print Assumptions C113_best.
Print Assumptions C113_link.
Print Assumptions C113_nested_refuted.
