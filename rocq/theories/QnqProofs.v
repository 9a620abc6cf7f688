From Coq Require Import List Arith Bool Lia.
Import ListNotations.
From Verif Require Import QnqModel QnqSpec.

(** ** Logs *)
Lemma calls_app s l a b : calls s l (a ++ b) = calls s l a + calls s l b.
Proof. induction a as [|e a IH]; cbn; [reflexivity|]. destruct e; rewrite ?IH; lia. Qed.

Lemma before_in log a b : before log a b -> In a log /\ In b log.
Proof.
  intros (l1 & l2 & l3 & ->). split; apply in_or_app; right; [left; reflexivity|].
  right. apply in_or_app. right. left. reflexivity.
Qed.
Lemma before_app log ev a b : before log a b -> before (log ++ ev) a b.
Proof.
  intros (l1 & l2 & l3 & ->). exists l1, l2, (l3 ++ ev).
  rewrite <- app_assoc. cbn. rewrite <- app_assoc. reflexivity.
Qed.
Lemma split_app {A} (x : list A) : forall a b y, x ++ y = a ++ b ->
  (exists c, a = x ++ c /\ y = c ++ b) \/ (exists c, x = a ++ c /\ b = c ++ y).
Proof.
  induction x as [|h x IH]; intros a b y E.
  - left. exists a. split; [reflexivity|exact E].
  - destruct a as [|h' a].
    + right. exists (h :: x). split; [reflexivity|]. symmetry. exact E.
    + cbn in E. inversion E as [[E1 E2]]. subst h'. destruct (IH _ _ _ E2) as [(c & -> & ->)|(c & -> & ->)].
      * left. exists c. split; reflexivity.
      * right. exists c. split; reflexivity.
Qed.
Lemma before_app_inv log ev a b : before (log ++ ev) a b -> ~ In b ev -> before log a b.
Proof.
  intros (l1 & l2 & l3 & E) Hn.
  assert (E' : log ++ ev = (l1 ++ a :: l2) ++ (b :: l3)) by (rewrite <- app_assoc; exact E).
  apply split_app in E'. destruct E' as [(c & E1 & E2)|(c & E1 & E2)].
  - exfalso. apply Hn. rewrite E2. apply in_or_app. right. left. reflexivity.
  - destruct c as [|x c].
    + cbn in E2. exfalso. apply Hn. rewrite <- E2. left. reflexivity.
    + inversion E2; subst x. exists l1, l2, c. rewrite E1, <- app_assoc. reflexivity.
Qed.

(** ** The invariant *)
Definition dead (s : state) (k : nat) : Prop :=
  nread (nodes s k) = true /\ exists c, nctx (nodes s k) = Some c /\ cancelled s c = true.
Definition hop (s : state) (n m : nat) : Prop :=
  n < m <= tail s /\ forall k, n < k < m -> dead s k.
Definition claims (p : pc) (n : nat) : Prop :=
  match p with LWctx m | LWhandler m | LStore m | LDone m => n = m | _ => False end.
Definition claim (s : state) (t : tid) (n : nat) : Prop :=
  exists c p, threads s t = Some (mkThread c p) /\ claims p n.
Definition is_listen (p : pc) : Prop :=
  match p with
  | LFast | LLoad _ | LCasTail _ | LWctx _ | LWhandler _ | LStore _ | LChkRead _ _
  | LChkCtx _ _ | LLoadNN _ _ | LCas _ _ _ | LDone _ => True
  | _ => False end.
Definition done (s : state) (l : tid) (c : ctx) (k : nat) : Prop :=
  threads s l = Some (mkThread c (LDone k)).

(* Deliveries of Send [t] standing at node n; [post]: node n itself has been handled. *)
Record deliv (s : state) (log : list event) (t n : nat) (post : bool) : Prop := {
  d_pos : n <= tail s;
  d_zero : forall l c k, done s l c k -> (n < k \/ (k = n /\ post = false)) -> calls t l log = 0;
  d_one : forall l, calls t l log <= 1;
  d_live : forall l c k, before log (EListened l) (ESend t) -> done s l c k ->
     cancelled s c = false -> (k < n \/ (k = n /\ post = true)) -> calls t l log = 1 }.
Definition sentinv (log : list event) (t : nat) (sent : bool) : Prop :=
  if sent then exists l, calls t l log = 1 else forall l, calls t l log = 0.
Definition nxinv (s : state) (log : list event) (t n : nat) (nx : option nat) : Prop :=
  match nx with
  | Some m => hop s n m
  | None => forall l c k, before log (EListened l) (ESend t) -> done s l c k -> k < n
  end.
Definition alldeliv (s : state) (log : list event) (t : nat) : Prop :=
  forall l c k, before log (EListened l) (ESend t) -> done s l c k ->
     cancelled s c = false -> calls t l log = 1.

Definition pcinv (s : state) (log : list event) (t : tid) (c : ctx) (p : pc) : Prop :=
  match p with
  | LFast => True
  | LLoad n | LCasTail n => n <= tail s
  | LWctx n => True
  | LWhandler n => nctx (nodes s n) = Some c
  | LStore n => nctx (nodes s n) = Some c /\ nhandler (nodes s n) = Some t
  | LDone n => nread (nodes s n) = true
  | LChkRead n m => hop s n m
  | LChkCtx n m => hop s n m /\ nread (nodes s m) = true
  | LLoadNN n m => hop s n m /\ dead s m
  | LCas n m k => hop s n m /\ dead s m /\ hop s m k
  | SLoadNext n sent => deliv s log t n false /\ sentinv log t sent
  | SLoadRead n nx sent => deliv s log t n false /\ sentinv log t sent /\ nxinv s log t n nx
  | SCall n nx => deliv s log t n false /\ nxinv s log t n nx /\ nread (nodes s n) = true
  | SRet n nx l => deliv s log t n true /\ nxinv s log t n nx /\ calls t l log = 1 /\
      (exists d, done s l d n)
  | SChkRead n m => deliv s log t n true /\ sentinv log t true /\ hop s n m
  | SChkCtx n m => deliv s log t n true /\ sentinv log t true /\ hop s n m /\ nread (nodes s m) = true
  | SLoadNN n m => deliv s log t n true /\ sentinv log t true /\ hop s n m /\ dead s m
  | SCas n m k => deliv s log t n true /\ sentinv log t true /\ hop s n m /\ dead s m /\ hop s m k
  | SDone r => (forall l, calls t l log <= 1) /\
      match r with
      | RNil => sentinv log t true /\ alldeliv s log t
      | REmpty => sentinv log t false /\ alldeliv s log t
      | RErr e => exists l, In (EReply t l (Some e)) log /\ calls t l log = 1
      end
  | PPanic => False
  end.

Record Inv (s : state) (log : list event) : Prop := {
  i_next : forall n, n < tail s -> exists m, nnext (nodes s n) = Some m /\ hop s n m;
  i_tail : forall n, tail s <= n -> nnext (nodes s n) = None /\ nread (nodes s n) = false;
  i_read : forall n, nread (nodes s n) = true -> exists l c,
      done s l c n /\ nhandler (nodes s n) = Some l /\ nctx (nodes s n) = Some c;
  i_uniq : forall t1 t2 n, claim s t1 n -> claim s t2 n -> t1 = t2;
  i_claim : forall t n, claim s t n -> n < tail s;
  i_pc : forall t c p, threads s t = Some (mkThread c p) -> pcinv s log t c p;
  i_bg : cancelled s background = false;
  i_listened : forall l, In (EListened l) log <-> exists c n, done s l c n;
  i_listen : forall l c, In (EListen l c) log <->
      exists p, threads s l = Some (mkThread c p) /\ is_listen p;
  i_cancel : forall c, In (ECancel c) log <-> cancelled s c = true;
  i_send : forall t, In (ESend t) log <-> exists c p, threads s t = Some (mkThread c p) /\ ~ is_listen p;
  i_calls : forall t l, calls t l log <> 0 ->
      (exists c n, done s l c n) /\ In (ESend t) log;
  i_order : forall l' l c c' k' k, before log (EListened l') (EListen l c) ->
      done s l' c' k' -> claim s l k -> k' < k;
  i_sent : forall t r, In (ESent t r) log <-> exists c, threads s t = Some (mkThread c (SDone r));
  i_replied : forall t l e, In (EReply t l (Some e)) log ->
      exists c, threads s t = Some (mkThread c (SDone (RErr e)))
}.

(** ** Evolution: how other threads see a step *)
Record evo (ot : option tid) (s : state) (log : list event) (s' : state) (log' : list event) : Prop := {
  e_tail : tail s <= tail s';
  e_canc : forall c, cancelled s c = true -> cancelled s' c = true;
  e_read : forall n, nread (nodes s n) = true ->
     nread (nodes s' n) = true /\ nctx (nodes s' n) = nctx (nodes s n);
  e_thr : forall t, Some t <> ot -> threads s' t = threads s t;
  e_done : forall t c n, done s t c n -> done s' t c n;
  e_done' : forall t c n, done s' t c n -> done s t c n \/ ~ In (EListened t) log;
  e_fields : forall t n, Some t <> ot -> claim s t n ->
     nctx (nodes s' n) = nctx (nodes s n) /\ nhandler (nodes s' n) = nhandler (nodes s n);
  e_calls : forall t l, Some t <> ot -> calls t l log' = calls t l log;
  e_in : forall e, In e log -> In e log';
  e_before : forall t l, Some t <> ot -> In (ESend t) log ->
     before log' (EListened l) (ESend t) -> before log (EListened l) (ESend t) }.

Lemma dead_evo ot s log s' log' k : evo ot s log s' log' -> dead s k -> dead s' k.
Proof.
  intros E (Hr & c & Hc & Hx). destruct (e_read _ _ _ _ _ E _ Hr) as [H1 H2].
  split; [exact H1|]. exists c. rewrite H2. split; [exact Hc|]. eapply e_canc; eassumption.
Qed.
Lemma hop_evo ot s log s' log' n m : evo ot s log s' log' -> hop s n m -> hop s' n m.
Proof.
  intros E [H1 H2]. pose proof (e_tail _ _ _ _ _ E). split; [lia|].
  intros k Hk. eapply dead_evo; [exact E|]. auto.
Qed.

Section Stable.
  Variables (ot : option tid) (s : state) (log : list event) (s' : state) (log' : list event).
  Hypothesis E : evo ot s log s' log'.
  Hypothesis I : Inv s log.

  Lemma canc_false c : cancelled s' c = false -> cancelled s c = false.
  Proof.
    intros H. destruct (cancelled s c) eqn:F; [|reflexivity].
    apply (e_canc _ _ _ _ _ E) in F. congruence.
  Qed.

  (* a listener that returned before the (running) Send was already done *)
  Lemma old_done t l c k : Some t <> ot -> In (ESend t) log ->
    before log' (EListened l) (ESend t) -> done s' l c k ->
    before log (EListened l) (ESend t) /\ done s l c k.
  Proof.
    intros Ht Hs Hb Hd. apply (e_before _ _ _ _ _ E) in Hb; [|assumption|assumption].
    split; [exact Hb|]. destruct (e_done' _ _ _ _ _ E _ _ _ Hd) as [H|H]; [exact H|].
    exfalso. apply H. apply before_in in Hb. apply Hb.
  Qed.

  Lemma deliv_evo t n b : Some t <> ot -> In (ESend t) log -> deliv s log t n b -> deliv s' log' t n b.
  Proof.
    intros Ht Hs [H1 H2 H3 H4]. pose proof (e_tail _ _ _ _ _ E). split.
    - lia.
    - intros l c k Hd Hk. rewrite (e_calls _ _ _ _ _ E) by assumption.
      destruct (e_done' _ _ _ _ _ E _ _ _ Hd) as [Hd'|Hd']; [eauto|].
      destruct (calls t l log) eqn:F; [reflexivity|].
      destruct (i_calls _ _ I t l) as [[c' [n' Hdn]] _]; [lia|].
      exfalso. apply Hd'. apply (i_listened _ _ I). eauto.
    - intros l. rewrite (e_calls _ _ _ _ _ E) by assumption. auto.
    - intros l c k Hb Hd Hc Hk. rewrite (e_calls _ _ _ _ _ E) by assumption.
      destruct (old_done t l c k Ht Hs Hb Hd) as [Hb' Hd'].
      eapply H4; try eassumption. apply canc_false. exact Hc.
  Qed.
  Lemma sentinv_evo t b : Some t <> ot -> sentinv log t b -> sentinv log' t b.
  Proof.
    intros Ht. destruct b; cbn.
    - intros [l Hl]. exists l. rewrite (e_calls _ _ _ _ _ E) by assumption. exact Hl.
    - intros H l. rewrite (e_calls _ _ _ _ _ E) by assumption. auto.
  Qed.
  Lemma nxinv_evo t n nx : Some t <> ot -> In (ESend t) log -> nxinv s log t n nx -> nxinv s' log' t n nx.
  Proof.
    intros Ht Hs. destruct nx as [m|]; cbn; [apply hop_evo with (1 := E)|].
    intros H l c k Hb Hd. destruct (old_done t l c k Ht Hs Hb Hd). eauto.
  Qed.
  Lemma alldeliv_evo t : Some t <> ot -> In (ESend t) log -> alldeliv s log t -> alldeliv s' log' t.
  Proof.
    intros Ht Hs H l c k Hb Hd Hc. destruct (old_done t l c k Ht Hs Hb Hd) as [Hb' Hd'].
    rewrite (e_calls _ _ _ _ _ E) by assumption. eapply H; try eassumption. apply canc_false; exact Hc.
  Qed.

  Lemma pcinv_evo t c p : Some t <> ot -> threads s t = Some (mkThread c p) ->
    pcinv s log t c p -> pcinv s' log' t c p.
  Proof.
    intros Ht Hthr.
    pose proof (e_tail _ _ _ _ _ E) as Htl.
    assert (Hcl : forall n, claims p n -> nctx (nodes s' n) = nctx (nodes s n) /\
       nhandler (nodes s' n) = nhandler (nodes s n)).
    { intros n Hn. eapply e_fields; [exact E|exact Ht|]. exists c, p. split; assumption. }
    assert (Hsend : ~ is_listen p -> In (ESend t) log).
    { intros Hp. apply (i_send _ _ I). eauto. }
    pose proof (fun n m => hop_evo _ _ _ _ _ n m E) as Hhop.
    pose proof (fun k => dead_evo _ _ _ _ _ k E) as Hdead.
    assert (Hread : forall n, nread (nodes s n) = true -> nread (nodes s' n) = true)
      by (intros n Hn; exact (proj1 (e_read _ _ _ _ _ E n Hn))).
    destruct p; cbn [pcinv claims is_listen] in *; try tauto; try lia.
    all: try (specialize (Hsend ltac:(tauto))).
    all: repeat match goal with
      | |- _ /\ _ -> _ => intros [? ?]
      | H : _ /\ _ |- _ => destruct H
      | |- _ -> _ => intros ? end.
    all: try (destruct (Hcl _ eq_refl) as [Hc1 Hc2]; rewrite ?Hc1, ?Hc2).
    all: repeat match goal with |- _ /\ _ => split end; auto using deliv_evo, sentinv_evo, nxinv_evo.
    - rewrite (e_calls _ _ _ _ _ E) by assumption. assumption.
    - match goal with H : exists _, done _ _ _ _ |- _ => destruct H as [d Hd] end.
      exists d. eapply e_done; eassumption.
    - intros l. rewrite (e_calls _ _ _ _ _ E) by assumption. auto.
    - destruct r.
      + match goal with H : _ /\ _ |- _ => destruct H end. auto using sentinv_evo, alldeliv_evo.
      + match goal with H : _ /\ _ |- _ => destruct H end. auto using sentinv_evo, alldeliv_evo.
      + match goal with H : exists _, _ |- _ => destruct H as (l & Hin & Hl) end.
        exists l. rewrite (e_calls _ _ _ _ _ E) by assumption.
        split; [eapply e_in; eassumption|exact Hl].
  Qed.
End Stable.

Lemma upd_eq {A} (f : nat -> A) i a : upd f i a i = a.
Proof. unfold upd. rewrite Nat.eqb_refl. reflexivity. Qed.
Lemma upd_neq {A} (f : nat -> A) i j a : j <> i -> upd f i a j = f j.
Proof. intros H. unfold upd. destruct (Nat.eqb_spec j i); [contradiction|reflexivity]. Qed.

(** ** A step of one thread preserves the invariant, given the facts about its own node
    and program point *)
Record evok (s : state) (t : tid) (p' : pc) (ev : list event) : Prop := {
  ev_listened : forall l, In (EListened l) ev <-> l = t /\ exists n, p' = LDone n;
  ev_nolisten : forall l c, ~ In (EListen l c) ev;
  ev_nosend : forall x, ~ In (ESend x) ev;
  ev_nocancel : forall c, ~ In (ECancel c) ev;
  ev_calls : forall x l, calls x l ev <> 0 -> x = t /\ ~ is_listen p' /\ exists c n, done s l c n;
  ev_sent : forall x r, In (ESent x r) ev <-> x = t /\ p' = SDone r;
  ev_reply : forall x l e, In (EReply x l (Some e)) ev -> x = t /\ p' = SDone (RErr e)
}.

Definition running (p : pc) : Prop :=
  match p with LDone _ | SDone _ | PPanic => False | _ => True end.

Section ThreadStep.
  Variables (s : state) (log : list event) (t : tid) (c : ctx) (p p' : pc)
            (nodes' : nat -> node) (tail' : nat) (ev : list event).
  Let s' := mkState nodes' tail' (cancelled s) (upd (threads s) t (Some (mkThread c p'))).
  Let log' := log ++ ev.
  Hypothesis I : Inv s log.
  Hypothesis Hthr : threads s t = Some (mkThread c p).
  Hypothesis Hrun : running p.
  Hypothesis Hlis : is_listen p <-> is_listen p'.
  Hypothesis Htail : tail s <= tail'.
  Hypothesis Hclaim : forall n, claims p' n -> claims p n \/ (n = tail s /\ tail' = S (tail s)).
  Hypothesis Hev : evok s t p' ev.
  Hypothesis Hread : forall n, nread (nodes s n) = true ->
     nread (nodes' n) = true /\ nctx (nodes' n) = nctx (nodes s n).
  Hypothesis Hfields : forall t' n, t' <> t -> claim s t' n ->
     nctx (nodes' n) = nctx (nodes s n) /\ nhandler (nodes' n) = nhandler (nodes s n).

  Lemma ts_other x : x <> t -> threads s' x = threads s x.
  Proof. intros H. cbn. apply upd_neq. exact H. Qed.
  Lemma ts_self : threads s' t = Some (mkThread c p').
  Proof. cbn. apply upd_eq. Qed.
  Lemma ts_done l d k : done s l d k -> done s' l d k.
  Proof.
    unfold done. intros H. destruct (Nat.eq_dec l t) as [->|Hne].
    - rewrite Hthr in H. injection H as _ E. pose proof Hrun as Hr. rewrite E in Hr. destruct Hr.
    - rewrite ts_other by exact Hne. exact H.
  Qed.
  Lemma ts_done_inv l d k : done s' l d k -> done s l d k \/ (l = t /\ d = c /\ p' = LDone k).
  Proof.
    unfold done. intros H. destruct (Nat.eq_dec l t) as [->|Hne].
    - rewrite ts_self in H. injection H as <- <-. right. auto.
    - rewrite ts_other in H by exact Hne. left; exact H.
  Qed.
  Lemma ts_notdone : ~ In (EListened t) log.
  Proof.
    intros H. apply (i_listened _ _ I) in H. destruct H as (d & n & H). unfold done in H.
    rewrite Hthr in H. injection H as _ E. pose proof Hrun as Hr. rewrite E in Hr. destruct Hr.
  Qed.

  Lemma ts_evo : evo (Some t) s log s' log'.
  Proof.
    split; cbn [tail cancelled nodes]; try assumption.
    - auto.
    - intros x Hx. apply ts_other. congruence.
    - exact ts_done.
    - intros l d n H. destruct (ts_done_inv _ _ _ H) as [|(-> & _)]; [left; assumption|].
      right. exact ts_notdone.
    - intros x n Hx. apply Hfields. congruence.
    - intros x l Hx. unfold log'. rewrite calls_app.
      destruct (calls x l ev) eqn:F; [lia|].
      destruct (ev_calls _ _ _ _ Hev x l) as [-> _]; [lia|]. congruence.
    - intros e He. apply in_or_app. left; exact He.
    - intros x l Hx _ Hb. eapply before_app_inv; [exact Hb|]. apply (ev_nosend _ _ _ _ Hev).
  Qed.

  Hypothesis Hnext : forall n, n < tail' -> exists m, nnext (nodes' n) = Some m /\ hop s' n m.
  Hypothesis Htl : forall n, tail' <= n -> nnext (nodes' n) = None /\ nread (nodes' n) = false.
  Hypothesis Hrd : forall n, nread (nodes' n) = true -> exists l d,
      done s' l d n /\ nhandler (nodes' n) = Some l /\ nctx (nodes' n) = Some d.
  Hypothesis Hpc : pcinv s' log' t c p'.

  Lemma ts_claim x n : claim s' x n -> claim s x n \/ (x = t /\ n = tail s /\ tail' = S (tail s)).
  Proof.
    intros (d & q & Hx & Hq). destruct (Nat.eq_dec x t) as [->|Hne].
    - rewrite ts_self in Hx. injection Hx as <- <-. destruct (Hclaim _ Hq) as [H|[H1 H2]].
      + left. exists c, p. split; assumption.
      + right. auto.
    - rewrite ts_other in Hx by exact Hne. left. exists d, q. split; assumption.
  Qed.

  Lemma ts_inv : Inv s' log'.
  Proof.
    split.
    - exact Hnext.
    - exact Htl.
    - exact Hrd.
    - intros t1 t2 n H1 H2.
      destruct (ts_claim _ _ H1) as [A|(-> & -> & E1)]; destruct (ts_claim _ _ H2) as [B|(-> & E2 & _)].
      + eapply i_uniq; eassumption.
      + subst n. apply (i_claim _ _ I) in A. lia.
      + apply (i_claim _ _ I) in B. lia.
      + reflexivity.
    - intros x n H. cbn. destruct (ts_claim _ _ H) as [A|(-> & -> & E1)].
      + apply (i_claim _ _ I) in A. lia.
      + lia.
    - intros x d q Hx. destruct (Nat.eq_dec x t) as [->|Hne].
      + rewrite ts_self in Hx. injection Hx as <- <-. exact Hpc.
      + rewrite ts_other in Hx by exact Hne.
        eapply pcinv_evo; [exact ts_evo|exact I|congruence|exact Hx|].
        apply (i_pc _ _ I); exact Hx.
    - exact (i_bg _ _ I).
    - intros l. unfold log'. rewrite in_app_iff, (ev_listened _ _ _ _ Hev), (i_listened _ _ I).
      split.
      + intros [(d & n & H)|(-> & n & E)].
        * exists d, n. apply ts_done; exact H.
        * exists c, n. unfold done. rewrite <- E. apply ts_self.
      + intros (d & n & H). destruct (ts_done_inv _ _ _ H) as [H'|(-> & -> & E)].
        * left; eauto.
        * right; eauto.
    - intros l d. unfold log'. rewrite in_app_iff, (i_listen _ _ I). split.
      + intros [(q & Hq & Hl)|H]; [|exfalso; eapply ev_nolisten; eassumption].
        destruct (Nat.eq_dec l t) as [->|Hne].
        * rewrite Hthr in Hq. injection Hq as <- <-. exists p'. split; [apply ts_self|]. apply Hlis; exact Hl.
        * exists q. rewrite ts_other by exact Hne. split; assumption.
      + intros (q & Hq & Hl). left. destruct (Nat.eq_dec l t) as [->|Hne].
        * rewrite ts_self in Hq. injection Hq as <- <-. exists p. split; [exact Hthr|]. apply Hlis; exact Hl.
        * rewrite ts_other in Hq by exact Hne. eauto.
    - intros d. unfold log'. rewrite in_app_iff, (i_cancel _ _ I). cbn. split.
      + intros [H|H]; [exact H|exfalso; eapply ev_nocancel; eassumption].
      + auto.
    - intros x. unfold log'. rewrite in_app_iff, (i_send _ _ I). split.
      + intros [(d & q & Hq & Hl)|H]; [|exfalso; eapply ev_nosend; eassumption].
        destruct (Nat.eq_dec x t) as [->|Hne].
        * rewrite Hthr in Hq. injection Hq as <- <-. exists c, p'. split; [apply ts_self|]. tauto.
        * exists d, q. rewrite ts_other by exact Hne. split; assumption.
      + intros (d & q & Hq & Hl). left. destruct (Nat.eq_dec x t) as [->|Hne].
        * rewrite ts_self in Hq. injection Hq as <- <-. exists c, p. split; [exact Hthr|]. tauto.
        * rewrite ts_other in Hq by exact Hne. eauto.
    - intros x l. unfold log'. rewrite calls_app. intros H.
      assert (calls x l log <> 0 \/ calls x l ev <> 0) as [H1|H1] by lia.
      + destruct (i_calls _ _ I _ _ H1) as [(d & n & Hd) Hs]. split.
        * exists d, n. apply ts_done; exact Hd.
        * apply in_or_app. left; exact Hs.
      + destruct (ev_calls _ _ _ _ Hev _ _ H1) as (-> & Hl & d & n & Hd). split.
        * exists d, n. apply ts_done; exact Hd.
        * apply in_or_app. left. apply (i_send _ _ I). exists c, p. split; [exact Hthr|]. tauto.
    - intros l' l d d' k' k Hb Hd Hk.
      apply before_app_inv in Hb; [|apply (ev_nolisten _ _ _ _ Hev)].
      destruct (ts_done_inv _ _ _ Hd) as [Hd'|(-> & _)].
      + destruct (ts_claim _ _ Hk) as [Hk'|(_ & -> & _)].
        * eapply (i_order _ _ I); eassumption.
        * apply (i_claim _ _ I l'). exists d', (LDone k'). split; [exact Hd'|reflexivity].
      + exfalso. apply ts_notdone. apply before_in in Hb. apply Hb.
    - intros x r. unfold log'. rewrite in_app_iff, (ev_sent _ _ _ _ Hev), (i_sent _ _ I). split.
      + intros [(d & H)|(-> & E)].
        * exists d. destruct (Nat.eq_dec x t) as [->|Hne]; [|rewrite ts_other by exact Hne; exact H].
          rewrite Hthr in H. injection H as _ E. pose proof Hrun as Hr. rewrite E in Hr. destruct Hr.
        * exists c. rewrite <- E. apply ts_self.
      + intros (d & H). destruct (Nat.eq_dec x t) as [->|Hne].
        * rewrite ts_self in H. injection H as _ E. right; auto.
        * rewrite ts_other in H by exact Hne. left; eauto.
    - intros x l e. unfold log'. rewrite in_app_iff. intros [H|H].
      + destruct (i_replied _ _ I _ _ _ H) as [d Hd]. exists d.
        destruct (Nat.eq_dec x t) as [->|Hne]; [|rewrite ts_other by exact Hne; exact Hd].
        rewrite Hthr in Hd. injection Hd as _ E. pose proof Hrun as Hr. rewrite E in Hr. destruct Hr.
      + destruct (ev_reply _ _ _ _ Hev _ _ _ H) as [-> E]. exists c. rewrite <- E. apply ts_self.
  Qed.
End ThreadStep.

Lemma evok_nil s t p' : (forall n, p' <> LDone n) -> (forall r, p' <> SDone r) -> evok s t p' [].
Proof.
  intros H1 H2. split; cbn; try tauto; try (intros; lia).
  - intros l. split; [tauto|]. intros [_ [n Hn]]. destruct (H1 _ Hn).
  - intros x r. split; [tauto|]. intros [_ Hn]. destruct (H2 _ Hn).
Qed.

Lemma inv_pure s log t c p p' ev : Inv s log -> threads s t = Some (mkThread c p) -> running p ->
  (is_listen p <-> is_listen p') -> (forall n, claims p' n -> claims p n) -> evok s t p' ev ->
  pcinv (setPc s t c p') (log ++ ev) t c p' -> Inv (setPc s t c p') (log ++ ev).
Proof.
  intros I Hthr Hrun Hlis Hcl Hev Hpc.
  apply (ts_inv s log t c p p' (nodes s) (tail s) ev); auto.
  - intros n Hn. exact (i_next _ _ I n Hn).
  - intros n Hn. exact (i_tail _ _ I n Hn).
  - intros n Hn. destruct (i_read _ _ I n Hn) as (l & d & Hd & H1 & H2).
    exists l, d. split; [|split; assumption].
    exact (ts_done s t c p p' (nodes s) (tail s) Hthr Hrun _ _ _ Hd).
Qed.

(** Sender-side views that do not depend on program points *)
Lemma deliv_ext s log t n b s' log' : deliv s log t n b ->
  tail s <= tail s' -> (forall l c k, done s' l c k -> done s l c k) ->
  (forall l, calls t l log' = calls t l log) ->
  (forall l, before log' (EListened l) (ESend t) -> before log (EListened l) (ESend t)) ->
  (forall c, cancelled s' c = cancelled s c) -> deliv s' log' t n b.
Proof.
  intros [H1 H2 H3 H4] Ht Hd Hc Hb Hx. split.
  - lia.
  - intros l c k. rewrite Hc. eauto.
  - intros l. rewrite Hc. auto.
  - intros l c k B D X K. rewrite Hc. rewrite Hx in X. eauto.
Qed.

(* moving on from node n (handled) to node m over dead nodes *)
Lemma deliv_move s log t n m : Inv s log -> deliv s log t n true -> hop s n m ->
  deliv s log t m false.
Proof.
  intros I [H1 H2 H3 H4] [Hm Hd]. split.
  - lia.
  - intros l c k D K. apply (H2 l c k D). lia.
  - exact H3.
  - intros l c k B D X K. destruct (Nat.le_gt_cases k n).
    + apply (H4 l c k B D X). lia.
    + assert (dead s k) as (Hr & d & Hc & Hcx) by (apply Hd; lia).
      destruct (i_read _ _ I _ Hr) as (l' & c' & D' & _ & Hc').
      assert (l' = l).
      { eapply (i_uniq _ _ I); [exists c', (LDone k)|exists c, (LDone k)]; (split; [eassumption|reflexivity]). }
      subst l'. unfold done in D, D'. rewrite D in D'. injection D' as <-. congruence.
Qed.
(* node n turned out not to be readable: nothing to deliver there *)
Lemma deliv_skip s log t n : Inv s log -> deliv s log t n false -> nread (nodes s n) = false ->
  deliv s log t n true.
Proof.
  intros I [H1 H2 H3 H4] Hr. split; auto.
  - intros l c k D K. apply (H2 l c k D). lia.
  - intros l c k B D X K. destruct (Nat.eq_dec k n) as [->|].
    + pose proof (i_pc _ _ I _ _ _ D) as P. cbn in P. congruence.
    + apply (H4 l c k B D X). lia.
Qed.

Lemma evok_sendadv s t nx sent : evok s t (sendAdvance nx sent) (sentEvents t (sendAdvance nx sent)).
Proof.
  destruct nx as [m|]; [apply evok_nil; discriminate|].
  cbn. split; cbn; intros; try tauto; try lia.
  - split; [intros [H|[]]; discriminate|]. intros [_ [n Hn]]; discriminate.
  - intros [H|[]]; discriminate.
  - intros [H|[]]; discriminate.
  - intros [H|[]]; discriminate.
  - split; [intros [H|[]]; injection H as <- <-; auto|]. intros [-> H]. injection H as <-. auto.
  - destruct H as [H|[]]; discriminate.
Qed.

(* a step of a sending thread that only moves its program point *)
Section SendPure.
  Variables (s : state) (log : list event) (t : tid) (c : ctx) (p p' : pc).
  Hypothesis I : Inv s log.
  Hypothesis Hthr : threads s t = Some (mkThread c p).
  Hypothesis Hrun : running p.
  Hypothesis Hs : ~ is_listen p.
  Hypothesis Hs' : ~ is_listen p'.

  Lemma sp_done l d k : done (setPc s t c p') l d k -> done s l d k.
  Proof.
    unfold done. cbn. unfold upd. destruct (Nat.eqb_spec l t) as [->|]; [|auto].
    intros H. injection H as _ E. rewrite E in Hs'. destruct Hs'. exact Logic.I.
  Qed.
  Lemma sp_deliv ev n b : (forall l, calls t l ev = 0) -> (forall x, ~ In (ESend x) ev) ->
    deliv s log t n b -> deliv (setPc s t c p') (log ++ ev) t n b.
  Proof.
    intros Hc He H. eapply deliv_ext; [exact H|cbn; lia|exact sp_done| | |reflexivity].
    - intros l. rewrite calls_app, Hc. lia.
    - intros l Hb. eapply before_app_inv; [exact Hb|apply He].
  Qed.
  Lemma sp_nx ev n nx : (forall x, ~ In (ESend x) ev) -> nxinv s log t n nx ->
    nxinv (setPc s t c p') (log ++ ev) t n nx.
  Proof.
    intros He. destruct nx as [m|]; cbn [nxinv]; [intros H; exact H|].
    intros H l d k Hb Hd. eapply H; [|apply sp_done; exact Hd].
    eapply before_app_inv; [exact Hb|apply He].
  Qed.
  Lemma sp_sent ev b : (forall l, calls t l ev = 0) -> sentinv log t b -> sentinv (log ++ ev) t b.
  Proof.
    intros Hc. destruct b; cbn.
    - intros [l Hl]. exists l. rewrite calls_app, Hc. lia.
    - intros H l. rewrite calls_app, Hc, H. reflexivity.
  Qed.
End SendPure.

Lemma alldeliv_of s log t n : deliv s log t n true -> nxinv s log t n None -> alldeliv s log t.
Proof.
  intros [H1 H2 H3 H4] Hn l c k B D X. eapply H4; try eassumption.
  left. eapply Hn; eassumption.
Qed.

Lemma inv_sendpure s log t c p p' : Inv s log -> threads s t = Some (mkThread c p) -> running p ->
  ~ is_listen p -> ~ is_listen p' -> (forall r, p' <> SDone r) ->
  pcinv (setPc s t c p') log t c p' -> Inv (setPc s t c p') (log ++ []).
Proof.
  intros I Hthr Hrun Hl Hl' Hd Hpc. eapply inv_pure; try eassumption; try tauto.
  - destruct p'; cbn in *; tauto.
  - apply evok_nil; [|exact Hd]. intros n E. rewrite E in Hl'. destruct Hl'. exact Logic.I.
  - rewrite app_nil_r. exact Hpc.
Qed.
Lemma inv_listenpure s log t c p p' : Inv s log -> threads s t = Some (mkThread c p) -> running p ->
  is_listen p -> is_listen p' -> (forall n, ~ claims p' n) ->
  pcinv (setPc s t c p') log t c p' -> Inv (setPc s t c p') (log ++ []).
Proof.
  intros I Hthr Hrun Hl Hl' Hd Hpc. eapply inv_pure; try eassumption; try tauto.
  - intros n Hn. destruct (Hd _ Hn).
  - apply evok_nil; intros x E; rewrite E in *; [destruct (Hd x eq_refl)|exact Hl'].
  - rewrite app_nil_r. exact Hpc.
Qed.

(** Linking a new node *)
Lemma inv_castail s log t c p n s1 : Inv s log -> threads s t = Some (mkThread c p) -> running p ->
  is_listen p -> n <= tail s -> casTail s n = Some s1 ->
  Inv (setPc s1 t c (LWctx n)) (log ++ []).
Proof.
  intros I Hthr Hrun Hl Hn Hc. unfold casTail in Hc.
  destruct (nnext (nodes s n)) as [m|] eqn:En; [discriminate|].
  assert (n = tail s).
  { destruct (Nat.eq_dec n (tail s)); [assumption|].
    destruct (i_next _ _ I n) as (m & Hm & _); [lia|]. congruence. }
  subst n. injection Hc as <-.
  set (nd := nodes s (tail s)) in *.
  set (nodes' := upd (nodes s) (tail s) (mkNode (Some (S (tail s))) (nread nd) (nctx nd) (nhandler nd))).
  assert (F : forall k, nread (nodes' k) = nread (nodes s k) /\ nctx (nodes' k) = nctx (nodes s k) /\
     nhandler (nodes' k) = nhandler (nodes s k)).
  { intros k. unfold nodes', upd. destruct (Nat.eqb_spec k (tail s)) as [->|]; cbn; auto. }
  apply (ts_inv s log t c p (LWctx (tail s)) nodes' (S (tail s)) []); auto.
  - cbn. tauto.
  - apply evok_nil; discriminate.
  - intros k Hk. destruct (F k) as (-> & -> & _). auto.
  - intros t' k _ _. destruct (F k) as (_ & -> & ->). auto.
  - intros k Hk. unfold nodes' at 1, upd. destruct (Nat.eqb_spec k (tail s)) as [->|Hne]; cbn [nnext].
    + eexists. split; [reflexivity|]. split; [cbn; lia|]. intros; lia.
    + destruct (i_next _ _ I k) as (m & Hm & Hh); [lia|]. exists m. split; [exact Hm|].
      destruct Hh as [H1 H2]. split; [cbn; lia|]. intros j Hj. destruct (H2 j Hj) as (Hr & d & Hd & Hx).
      unfold dead. cbn [nodes cancelled]. destruct (F j) as (-> & -> & _). eauto.
  - intros k Hk. destruct (i_tail _ _ I k) as [H1 H2]; [lia|].
    unfold nodes', upd. destruct (Nat.eqb_spec k (tail s)); [lia|]. auto.
  - intros k Hk. destruct (F k) as (E1 & E2 & E3). rewrite E1 in Hk. rewrite E2, E3.
    destruct (i_read _ _ I k Hk) as (l & d & Hd & H1 & H2). exists l, d. split; [|split; assumption].
    exact (ts_done s t c p (LWctx (tail s)) nodes' (S (tail s)) Hthr Hrun _ _ _ Hd).
  - exact Logic.I.
Qed.

(** Unlinking a dead node *)
Lemma inv_casskip s log t c p p' n m k s1 : Inv s log -> threads s t = Some (mkThread c p) -> running p ->
  (is_listen p <-> is_listen p') -> (forall x, ~ claims p' x) -> (forall r, p' <> SDone r) ->
  dead s m -> hop s m k -> casSkip s n m k = Some s1 ->
  pcinv (setPc s1 t c p') log t c p' ->
  Inv (setPc s1 t c p') (log ++ []).
Proof.
  intros I Hthr Hrun Hl Hcl Hnd Hdm Hmk Hc Hpc. unfold casSkip in Hc.
  destruct (nnext (nodes s n)) as [m'|] eqn:En; [|discriminate].
  destruct (Nat.eqb_spec m' m) as [->|]; [|discriminate]. injection Hc as <-.
  set (nd := nodes s n) in *.
  set (nodes' := upd (nodes s) n (mkNode (Some k) (nread nd) (nctx nd) (nhandler nd))).
  assert (F : forall j, nread (nodes' j) = nread (nodes s j) /\ nctx (nodes' j) = nctx (nodes s j) /\
     nhandler (nodes' j) = nhandler (nodes s j)).
  { intros j. unfold nodes', upd. destruct (Nat.eqb_spec j n) as [->|]; cbn; auto. }
  assert (Hn : n < tail s).
  { destruct (Nat.lt_ge_cases n (tail s)); [assumption|].
    destruct (i_tail _ _ I n) as [H1 _]; [lia|]. fold nd in H1. congruence. }
  destruct (i_next _ _ I n Hn) as (m' & Hm' & Hh). fold nd in Hm'. rewrite En in Hm'. injection Hm' as <-.
  assert (D : forall q j, dead s j -> dead (mkState nodes' (tail s) (cancelled s) q) j).
  { intros q j (Hr & d & Hd & Hx). unfold dead. cbn [nodes cancelled]. destruct (F j) as (-> & -> & _). eauto. }
  apply (ts_inv s log t c p p' nodes' (tail s) []); auto.
  - intros x Hx. destruct (Hcl _ Hx).
  - apply evok_nil; [|exact Hnd]. intros x E. apply (Hcl x). rewrite E. reflexivity.
  - intros j Hj. destruct (F j) as (-> & -> & _). auto.
  - intros t' j _ _. destruct (F j) as (_ & -> & ->). auto.
  - intros j Hj. unfold nodes' at 1, upd. destruct (Nat.eqb_spec j n) as [->|Hne]; cbn [nnext].
    + exists k. split; [reflexivity|]. destruct Hh as [Hh1 Hh2]. destruct Hmk as [Hk1 Hk2].
      split; [cbn [tail]; lia|]. intros j Hj'. apply D.
      destruct (Nat.lt_total j m) as [H|[->|H]]; [apply Hh2; lia|exact Hdm|apply Hk2; lia].
    + destruct (i_next _ _ I j Hj) as (m' & Hm' & [H1 H2]). exists m'. split; [exact Hm'|].
      split; [exact H1|]. intros i Hi. apply D. apply H2. exact Hi.
  - intros j Hj. destruct (i_tail _ _ I j Hj) as [H1 H2].
    unfold nodes', upd. destruct (Nat.eqb_spec j n); [lia|]. auto.
  - intros j Hj. destruct (F j) as (E1 & E2 & E3). rewrite E1 in Hj. rewrite E2, E3.
    destruct (i_read _ _ I j Hj) as (l & d & Hd & H1 & H2). exists l, d. split; [|split; assumption].
    exact (ts_done s t c p p' nodes' (tail s) Hthr Hrun _ _ _ Hd).
  - rewrite app_nil_r. exact Hpc.
Qed.

(** Filling a claimed node *)
Lemma inv_write s log t c p p' n nd' ev : Inv s log -> threads s t = Some (mkThread c p) -> running p ->
  is_listen p -> is_listen p' -> claims p n -> claims p' n ->
  nnext nd' = nnext (nodes s n) -> evok s t p' ev ->
  (nread nd' = true -> p' = LDone n /\ nhandler nd' = Some t /\ nctx nd' = Some c) ->
  pcinv (setPc (setNode s n nd') t c p') (log ++ ev) t c p' ->
  Inv (setPc (setNode s n nd') t c p') (log ++ ev).
Proof.
  intros I Hthr Hrun Hl Hl' Hcp Hcp' Hnx Hev Hrd Hpc.
  assert (Hclm : claim s t n) by (exists c, p; auto).
  pose proof (i_claim _ _ I _ _ Hclm) as Hn.
  assert (Hunread : nread (nodes s n) = false).
  { destruct (nread (nodes s n)) eqn:R; [|reflexivity].
    destruct (i_read _ _ I _ R) as (l & d & Hd & _).
    assert (l = t) by (eapply (i_uniq _ _ I); [exists d, (LDone n); split; [exact Hd|reflexivity]|exact Hclm]).
    subst l. unfold done in Hd. rewrite Hthr in Hd. injection Hd as _ E. rewrite E in Hrun. destruct Hrun. }
  set (nodes' := upd (nodes s) n nd').
  assert (F : forall j, j <> n -> nodes' j = nodes s j) by (intros; apply upd_neq; assumption).
  assert (Fn : nodes' n = nd') by apply upd_eq.
  assert (D : forall q j, dead s j -> dead (mkState nodes' (tail s) (cancelled s) q) j).
  { intros q j (Hr & d & Hd & Hx). assert (j <> n) by (intros ->; congruence).
    unfold dead. cbn [nodes cancelled]. rewrite F by assumption. eauto. }
  apply (ts_inv s log t c p p' nodes' (tail s) ev); auto.
  - tauto.
  - intros x Hx. left. replace x with n; [exact Hcp|].
    clear - Hx Hcp'. destruct p'; cbn in *; try tauto; congruence.
  - intros j Hj. assert (j <> n) by (intros ->; congruence). rewrite F by assumption. auto.
  - intros t' j Hne Hcj. assert (j <> n).
    { intros ->. apply Hne. eapply (i_uniq _ _ I); eassumption. }
    rewrite F by assumption. auto.
  - intros j Hj. destruct (i_next _ _ I j Hj) as (m & Hm & [H1 H2]). exists m. split.
    + destruct (Nat.eq_dec j n) as [->|]; [rewrite Fn, Hnx; exact Hm|rewrite F by assumption; exact Hm].
    + split; [exact H1|]. intros i Hi. apply D. auto.
  - intros j Hj. rewrite F by lia. apply (i_tail _ _ I); exact Hj.
  - intros j Hj. destruct (Nat.eq_dec j n) as [->|Hne].
    + rewrite Fn in *. destruct (Hrd Hj) as (-> & H1 & H2). exists t, c. split; [|split; assumption].
      unfold done. cbn. apply upd_eq.
    + rewrite F in * by assumption. destruct (i_read _ _ I j Hj) as (l & d & Hd & H1 & H2).
      exists l, d. split; [|split; assumption].
      exact (ts_done s t c p p' nodes' (tail s) Hthr Hrun _ _ _ Hd).
Qed.

(** ** Every action preserves the invariant *)
Lemma hop_next s log n m : Inv s log -> nnext (nodes s n) = Some m -> hop s n m.
Proof.
  intros I Hn. destruct (Nat.lt_ge_cases n (tail s)) as [H|H].
  - destruct (i_next _ _ I n H) as (m' & Hm & Hh). congruence.
  - destruct (i_tail _ _ I n H). congruence.
Qed.
Lemma tail_next s log n : Inv s log -> nnext (nodes s n) = None -> tail s <= n.
Proof.
  intros I Hn. destruct (Nat.lt_ge_cases n (tail s)) as [H|H]; [|exact H].
  destruct (i_next _ _ I n H) as (m' & Hm & Hh). congruence.
Qed.
Lemma done_lt s log l c k : Inv s log -> done s l c k -> k < tail s.
Proof. intros I H. apply (i_claim _ _ I l). exists c, (LDone k). split; [exact H|reflexivity]. Qed.

Lemma evok_listened s t n : evok s t (LDone n) [EListened t].
Proof.
  split; cbn; intros; try tauto; try lia.
  - split; [intros [H|[]]; injection H as <-; eauto|]. intros [-> _]. auto.
  - intros [H|[]]; discriminate.
  - intros [H|[]]; discriminate.
  - intros [H|[]]; discriminate.
  - split; [intros [H|[]]; discriminate|]. intros [_ H]; discriminate.
  - destruct H as [H|[]]; discriminate.
Qed.

Lemma runThread_inv s log t reply s' ev : Inv s log -> runThread s t reply = Some (s', ev) ->
  Inv s' (log ++ ev).
Proof.
  intros I Hr. unfold runThread in Hr.
  destruct (threads s t) as [[c p]|] eqn:Hthr; [|discriminate]. cbn [tctx tpc] in Hr.
  pose proof (i_pc _ _ I _ _ _ Hthr) as P.
  destruct p; cbn [pcinv] in P.
  - (* LFast *)
    destruct (casTail s 0) as [s1|] eqn:Hc; injection Hr as <- <-.
    + eapply inv_castail; try eassumption; cbn; lia || tauto.
    + eapply inv_listenpure; try eassumption; cbn; try tauto. lia.
  - (* LLoad *)
    destruct (nnext (nodes s n)) as [m|] eqn:En; injection Hr as <- <-;
    eapply inv_listenpure; try eassumption; cbn; try tauto.
    exact (hop_next _ _ _ _ I En).
  - (* LCasTail *)
    destruct (casTail s n) as [s1|] eqn:Hc; injection Hr as <- <-.
    + eapply inv_castail; try eassumption; cbn; tauto.
    + eapply inv_listenpure; try eassumption; cbn; tauto.
  - (* LWctx *)
    injection Hr as <- <-. eapply inv_write; try eassumption; cbn; try tauto.
    + apply evok_nil; discriminate.
    + intros R. exfalso. destruct (i_read _ _ I _ R) as (l & d & Hd & _).
      assert (l = t) as -> by (eapply (i_uniq _ _ I); [exists d, (LDone n); split; [exact Hd|reflexivity]|
        exists c, (LWctx n); split; [exact Hthr|reflexivity]]).
      unfold done in Hd. congruence.
    + rewrite upd_eq. reflexivity.
  - (* LWhandler *)
    injection Hr as <- <-. eapply inv_write; try eassumption; cbn; try tauto.
    + apply evok_nil; discriminate.
    + intros R. exfalso. destruct (i_read _ _ I _ R) as (l & d & Hd & _).
      assert (l = t) as -> by (eapply (i_uniq _ _ I); [exists d, (LDone n); split; [exact Hd|reflexivity]|
        exists c, (LWhandler n); split; [exact Hthr|reflexivity]]).
      unfold done in Hd. congruence.
    + rewrite upd_eq. cbn. auto.
  - (* LStore *)
    injection Hr as <- <-. destruct P as [P1 P2]. eapply inv_write; try eassumption; cbn; try tauto.
    + apply evok_listened.
    + rewrite upd_eq. reflexivity.
  - (* LChkRead *)
    destruct (nread (nodes s m)) eqn:R; injection Hr as <- <-;
    eapply inv_listenpure; try eassumption; cbn; try tauto.
    destruct P as [P _]. lia.
  - (* LChkCtx *)
    destruct P as [P R]. destruct (i_read _ _ I _ R) as (l & d & _ & _ & Hd). rewrite Hd in Hr.
    destruct (cancelled s d) eqn:X; injection Hr as <- <-;
    eapply inv_listenpure; try eassumption; cbn; try tauto.
    + split; [exact P|]. split; [exact R|]. eauto.
    + destruct P as [P _]. lia.
  - (* LLoadNN *)
    destruct P as [P D]. destruct (nnext (nodes s m)) as [k|] eqn:En; injection Hr as <- <-;
    eapply inv_listenpure; try eassumption; cbn; try tauto.
    + split; [exact P|]. split; [exact D|]. exact (hop_next _ _ _ _ I En).
    + destruct P as [P _]. lia.
  - (* LCas *)
    destruct P as (P & D & P2). destruct (casSkip s n m k) as [s1|] eqn:Hc; injection Hr as <- <-.
    + eapply inv_casskip; try eassumption; cbn; try tauto; try discriminate.
      unfold casSkip in Hc. destruct (nnext (nodes s n)) as [m'|]; [|discriminate].
      destruct (Nat.eqb m' m); [|discriminate]. injection Hc as <-. cbn. destruct P2. lia.
    + eapply inv_listenpure; try eassumption; cbn; try tauto. destruct P. lia.
  - discriminate.
  - (* SLoadNext *)
    injection Hr as <- <-. destruct P as [P1 P2].
    eapply inv_sendpure; try eassumption; cbn [running is_listen]; try tauto; try discriminate.
    cbn [pcinv]. rewrite <- (app_nil_r log). split; [|split].
    + eapply sp_deliv; try eassumption; cbn; auto; try tauto.
    + eapply sp_sent; try eassumption; cbn; auto.
    + eapply sp_nx; cbn; auto.
      destruct (nnext (nodes s n)) as [m|] eqn:En; [exact (hop_next _ _ _ _ I En)|].
      intros l d k _ Hd. pose proof (done_lt _ _ _ _ _ I Hd). pose proof (tail_next _ _ _ I En). lia.
  - (* SLoadRead *)
    destruct P as (P1 & P2 & P3). destruct (nread (nodes s n)) eqn:R.
    + injection Hr as <- <-. eapply inv_sendpure; try eassumption; cbn [running is_listen]; try tauto; try discriminate.
      cbn [pcinv]. rewrite <- (app_nil_r log). split; [|split].
      * eapply sp_deliv; try eassumption; cbn; auto; try tauto.
      * eapply sp_nx; cbn; auto.
      * exact R.
    + assert (P1' := deliv_skip _ _ _ _ I P1 R).
      injection Hr as <- <-.
      assert (Hnl : ~ is_listen (sendAdvance nx sent)) by (destruct nx; cbn; tauto).
      eapply inv_pure; try eassumption; cbn [running is_listen]; try tauto.
      * destruct nx; cbn; tauto.
      * apply evok_sendadv.
      * destruct nx as [m|].
        -- cbn [sendAdvance sentEvents pcinv]. split.
           ++ eapply sp_deliv; try eassumption; cbn; auto; try tauto.
              eapply deliv_move; eassumption.
           ++ eapply sp_sent; try eassumption; cbn; auto.
        -- cbn [sendAdvance sentEvents pcinv].
           assert (A : alldeliv s log t) by (eapply alldeliv_of; eassumption).
           assert (A' : alldeliv (setPc s t c (SDone (if sent then RNil else REmpty))) (log ++ [ESent t (if sent then RNil else REmpty)]) t).
           { intros l d k B D X. rewrite calls_app. cbn [calls]. rewrite Nat.add_0_r. eapply A; [| |exact X].
             - eapply before_app_inv; [exact B|]. cbn. intros [H|[]]; discriminate.
             - eapply sp_done; [|exact D]. cbn. tauto. }
           split. { intros l. rewrite calls_app. cbn. pose proof (d_one _ _ _ _ _ P1 l). lia. }
           destruct sent; (split; [|exact A']); eapply sp_sent; try eassumption; cbn; auto.
  - (* SCall *)
    destruct P as (P1 & P2 & R). destruct (i_read _ _ I _ R) as (l & d & Hd & Hh & _).
    rewrite Hh in Hr. injection Hr as <- <-.
    assert (Z : calls t l log = 0) by (eapply (d_zero _ _ _ _ _ P1); [exact Hd|auto]).
    assert (C : forall x, calls t x (log ++ [ECall t l]) = if Nat.eqb x l then 1 else calls t x log).
    { intros x. rewrite calls_app. cbn. rewrite Nat.eqb_refl. cbn.
      destruct (Nat.eqb_spec x l) as [->|]; cbn; lia. }
    assert (Inj : forall x e, done s x e n -> x = l).
    { intros x e Hx. eapply (i_uniq _ _ I); [exists e, (LDone n)|exists d, (LDone n)]; (split; [eassumption|reflexivity]). }
    eapply inv_pure; try eassumption; cbn [running is_listen claims]; try tauto.
    + split; cbn; intros; try tauto; try lia.
      * split; [intros [H|[]]; discriminate|]. intros [_ [k H]]; discriminate.
      * intros [H|[]]; discriminate.
      * intros [H|[]]; discriminate.
      * intros [H|[]]; discriminate.
      * destruct (Nat.eqb_spec x t) as [->|]; cbn in *; [|lia].
        match goal with H : (if ?a =? l then 1 else 0) + 0 <> 0 |- _ =>
          destruct (Nat.eqb_spec a l) as [Ea|Ea]; [rewrite Ea|exfalso; apply H; reflexivity] end.
        split; [reflexivity|]. split; [tauto|]. eauto.
      * split; [intros [H|[]]; discriminate|]. intros [_ H]; discriminate.
      * destruct H as [H|[]]; discriminate.
    + cbn [pcinv]. split; [|split; [|split]].
      * destruct P1 as [H1 H2 H3 H4]. split.
        -- cbn. exact H1.
        -- intros x e k D K. apply sp_done in D; [|cbn; tauto]. rewrite C.
           destruct (Nat.eqb_spec x l) as [->|].
           ++ unfold done in D, Hd. rewrite Hd in D. injection D as _ <-. destruct K as [K|[_ K]]; [lia|discriminate].
           ++ apply (H2 x e k D). lia.
        -- intros x. rewrite C. destruct (Nat.eqb x l); [lia|auto].
        -- intros x e k B D X K. apply sp_done in D; [|cbn; tauto]. rewrite C.
           destruct (Nat.eqb_spec x l) as [->|]; [reflexivity|].
           destruct (Nat.eq_dec k n) as [->|].
           ++ exfalso. eauto.
           ++ eapply H4; [|exact D|exact X|lia].
              eapply before_app_inv; [exact B|]. cbn. intros [H|[]]; discriminate.
      * eapply sp_nx; cbn; auto. intros x [H|[]]; discriminate.
      * rewrite C, Nat.eqb_refl. reflexivity.
      * exists d. unfold done in *. cbn. unfold upd. destruct (Nat.eqb_spec l t) as [->|]; [|exact Hd].
        rewrite Hthr in Hd. discriminate.
  - (* SRet *)
    destruct P as (P1 & P2 & P3 & d & Hd). destruct reply as [e|].
    + injection Hr as <- <-. eapply inv_pure; try eassumption; cbn [running is_listen claims]; try tauto.
      * split; cbn; intros; try tauto; try lia.
        -- split; [intros [H|[H|[]]]; discriminate|]. intros [_ [k H]]; discriminate.
        -- intros [H|[H|[]]]; discriminate.
        -- intros [H|[H|[]]]; discriminate.
        -- intros [H|[H|[]]]; discriminate.
        -- split; [intros [H|[H|[]]]; [discriminate|]; injection H as <- <-; auto|].
           intros [-> H]. injection H as <-. auto.
        -- destruct H as [H|[H|[]]]; [|discriminate]. injection H as <- <- <-. auto.
      * cbn [pcinv]. split.
        -- intros x. rewrite calls_app. cbn. pose proof (d_one _ _ _ _ _ P1 x). lia.
        -- exists l. split; [apply in_or_app; right; left; reflexivity|]. rewrite calls_app. cbn. lia.
    + destruct nx as [m|]; injection Hr as <- <-.
      * eapply inv_pure; try eassumption; cbn [running is_listen claims]; try tauto.
        -- split; cbn; intros; try tauto; try lia.
           ++ split; [intros [H|[]]; discriminate|]. intros [_ [k H]]; discriminate.
           ++ intros [H|[]]; discriminate.
           ++ intros [H|[]]; discriminate.
           ++ intros [H|[]]; discriminate.
           ++ split; [intros [H|[]]; discriminate|]. intros [_ H]; discriminate.
           ++ destruct H as [H|[]]; discriminate.
        -- cbn [pcinv]. split; [|split].
           ++ eapply sp_deliv; try eassumption; cbn; auto; try tauto. intros x [H|[]]; discriminate.
           ++ cbn [sentinv]. exists l. rewrite calls_app. cbn. lia.
           ++ exact P2.
      * eapply inv_pure; try eassumption; cbn [running is_listen claims]; try tauto.
        -- split; cbn; intros; try tauto; try lia.
           ++ split; [intros [H|[H|[]]]; discriminate|]. intros [_ [k H]]; discriminate.
           ++ intros [H|[H|[]]]; discriminate.
           ++ intros [H|[H|[]]]; discriminate.
           ++ intros [H|[H|[]]]; discriminate.
           ++ split; [intros [H|[H|[]]]; [discriminate|]; injection H as <- <-; auto|].
              intros [-> H]. injection H as <-. auto.
           ++ destruct H as [H|[H|[]]]; discriminate.
        -- cbn [pcinv]. split; [|split].
           ++ intros x. rewrite calls_app. cbn. pose proof (d_one _ _ _ _ _ P1 x). lia.
           ++ cbn [sentinv]. exists l. rewrite calls_app. cbn. lia.
           ++ assert (A : alldeliv s log t) by (eapply alldeliv_of; eassumption).
              intros x e k B D X. rewrite calls_app. cbn [calls]. rewrite Nat.add_0_r. eapply A; [| |exact X].
              ** eapply before_app_inv; [exact B|]. cbn. intros [H|[H|[]]]; discriminate.
              ** eapply sp_done; [|exact D]. cbn. tauto.
  - (* SChkRead *)
    destruct P as (P1 & P2 & P3).
    destruct (nread (nodes s m)) eqn:R; injection Hr as <- <-;
    (eapply inv_sendpure; try eassumption; cbn [running is_listen]; try tauto; try discriminate);
    cbn [pcinv]; rewrite <- (app_nil_r log).
    + split; [|split; [|split]]; auto.
      * eapply sp_deliv; try eassumption; cbn; auto; try tauto.
      * eapply (sp_sent _ _ _ true); cbn; auto.
    + split.
      * eapply sp_deliv; try eassumption; cbn; auto; try tauto. eapply deliv_move; eassumption.
      * eapply (sp_sent _ _ _ true); cbn; auto.
  - (* SChkCtx *)
    destruct P as (P1 & P2 & P3 & R).
    destruct (i_read _ _ I _ R) as (l & d & _ & _ & Hd). rewrite Hd in Hr.
    destruct (cancelled s d) eqn:X; injection Hr as <- <-;
    (eapply inv_sendpure; try eassumption; cbn [running is_listen]; try tauto; try discriminate);
    cbn [pcinv]; rewrite <- (app_nil_r log).
    + split; [|split; [|split]]; auto.
      * eapply sp_deliv; try eassumption; cbn; auto; try tauto.
      * eapply (sp_sent _ _ _ true); cbn; auto.
      * split; [exact R|]. eauto.
    + split.
      * eapply sp_deliv; try eassumption; cbn; auto; try tauto. eapply deliv_move; eassumption.
      * eapply (sp_sent _ _ _ true); cbn; auto.
  - (* SLoadNN *)
    destruct P as (P1 & P2 & P3 & D).
    destruct (nnext (nodes s m)) as [k|] eqn:En; injection Hr as <- <-;
    (eapply inv_sendpure; try eassumption; cbn [running is_listen]; try tauto; try discriminate);
    cbn [pcinv]; rewrite <- (app_nil_r log).
    + split; [|split; [|split; [|split]]]; auto.
      * eapply sp_deliv; try eassumption; cbn; auto; try tauto.
      * eapply (sp_sent _ _ _ true); cbn; auto.
      * exact (hop_next _ _ _ _ I En).
    + split.
      * eapply sp_deliv; try eassumption; cbn; auto; try tauto. eapply deliv_move; eassumption.
      * eapply (sp_sent _ _ _ true); cbn; auto.
  - (* SCas *)
    destruct P as (P1 & P2 & P3 & D & P4).
    destruct (casSkip s n m k) as [s1|] eqn:Hc; injection Hr as <- <-.
    + eapply inv_casskip; try eassumption; cbn [running is_listen claims]; try tauto; try discriminate.
      cbn [pcinv]. split; [|exact P2].
      assert (deliv s log t k false) as Q.
      { eapply deliv_move; [exact I|exact P1|]. destruct P3 as [Q1 Q2]. destruct P4 as [Q3 Q4].
        split; [lia|]. intros j Hj.
        destruct (Nat.lt_total j m) as [H|[->|H]]; [apply Q2; lia|exact D|apply Q4; lia]. }
      unfold casSkip in Hc. destruct (nnext (nodes s n)) as [m'|]; [|discriminate].
      destruct (Nat.eqb m' m); [|discriminate]. injection Hc as <-.
      eapply deliv_ext; [exact Q|cbn; lia| |auto|auto|reflexivity].
      intros l e j. unfold done. cbn. unfold upd. destruct (Nat.eqb_spec l t) as [->|]; [discriminate|auto].
    + eapply inv_sendpure; try eassumption; cbn [running is_listen]; try tauto; try discriminate.
      cbn [pcinv]; rewrite <- (app_nil_r log). split.
      * eapply sp_deliv; try eassumption; cbn; auto; try tauto. eapply deliv_move; eassumption.
      * eapply (sp_sent _ _ _ true); cbn; auto.
  - discriminate.
  - discriminate.
Qed.

Lemma inv_init : Inv init [].
Proof.
  split; cbn; try discriminate; try tauto.
  - intros n H. lia.
  - intros t1 t2 n (c & p & H & _) _. cbn in H; discriminate H.
  - intros t n (c & p & H & _). cbn in H; discriminate H.
  - intros l. split; [tauto|]. intros (c & n & H). cbn in H; discriminate H.
  - intros l c. split; [tauto|]. intros (p & H & _). cbn in H; discriminate H.
  - intros c. split; [tauto|intros H; discriminate H].
  - intros t. split; [tauto|]. intros (c & p & H & _). cbn in H; discriminate H.
  - intros t r. split; [tauto|]. intros (c & H). cbn in H; discriminate H.
Qed.

Lemma spawn_inv s log t c p e : Inv s log -> threads s t = None ->
  ((p = LFast \/ p = LLoad 0) /\ e = EListen t c) \/ (p = SLoadNext 0 false /\ c = background /\ e = ESend t) ->
  Inv (setPc s t c p) (log ++ [e]).
Proof.
  intros I Hnone Hcase.
  assert (Hnocl : forall n, ~ claims p n) by (intros n; destruct Hcase as [[[->| ->] _]|(-> & _)]; cbn; tauto).
  assert (Hnd : forall n, p <> LDone n) by (intros n ->; apply (Hnocl n); reflexivity).
  assert (Hns : forall r, p <> SDone r) by (intros r ->; destruct Hcase as [[[H|H] _]|(H & _)]; discriminate).
  assert (Hoth : forall x, x <> t -> threads (setPc s t c p) x = threads s x) by (intros; cbn; apply upd_neq; assumption).
  assert (Hself : threads (setPc s t c p) t = Some (mkThread c p)) by (cbn; apply upd_eq).
  assert (Hcl : forall x l, calls x l [e] = 0) by (intros x l; destruct Hcase as [[_ ->]|(_ & _ & ->)]; reflexivity).
  assert (D1 : forall l d k, done s l d k -> done (setPc s t c p) l d k).
  { intros l d k H. unfold done. destruct (Nat.eq_dec l t) as [->|]; [unfold done in H; congruence|].
    rewrite Hoth by assumption. exact H. }
  assert (D2 : forall l d k, done (setPc s t c p) l d k -> done s l d k).
  { intros l d k H. unfold done in *. destruct (Nat.eq_dec l t) as [->|].
    - rewrite Hself in H. injection H as _ E. destruct (Hnd _ E).
    - rewrite Hoth in H by assumption. exact H. }
  assert (C2 : forall x n, claim (setPc s t c p) x n -> claim s x n).
  { intros x n (d & q & H & Hq). destruct (Nat.eq_dec x t) as [->|].
    - rewrite Hself in H. injection H as <- <-. destruct (Hnocl _ Hq).
    - rewrite Hoth in H by assumption. exists d, q. auto. }
  assert (Fr : forall l, calls t l log = 0).
  { intros l. destruct (calls t l log) eqn:F; [reflexivity|].
    destruct (i_calls _ _ I t l) as [_ H]; [lia|]. apply (i_send _ _ I) in H. destruct H as (d & q & H & _). congruence. }
  assert (Hne : forall l, e <> EListened l) by (intros l; destruct Hcase as [[_ ->]|(_ & _ & ->)]; discriminate).
  assert (EV : evo (Some t) s log (setPc s t c p) (log ++ [e])).
  { split; cbn [tail cancelled nodes setPc]; auto.
    - intros x l _. rewrite calls_app, Hcl. lia.
    - intros e0 H. apply in_or_app. auto.
    - intros x l Hx Hin Hb. eapply before_app_inv; [exact Hb|]. intros [H|[]].
      destruct Hcase as [[_ ->]|(_ & _ & ->)]; congruence. }
  split.
  - exact (i_next _ _ I).
  - exact (i_tail _ _ I).
  - intros n Hn. destruct (i_read _ _ I n Hn) as (l & d & Hd & H). exists l, d. auto.
  - intros t1 t2 n H1 H2. eapply (i_uniq _ _ I); eauto.
  - intros x n H. apply (i_claim _ _ I x n). auto.
  - intros x d q Hx. destruct (Nat.eq_dec x t) as [->|Hne'].
    + rewrite Hself in Hx. injection Hx as <- <-. destruct Hcase as [[[->| ->] _]|(-> & _ & ->)]; cbn; auto; try lia.
      split.
      * split; cbn; try lia.
        -- intros l d k _ _. rewrite calls_app, Fr. reflexivity.
        -- intros l. rewrite calls_app, Fr. cbn. lia.
      * intros l. rewrite calls_app, Fr. reflexivity.
    + rewrite Hoth in Hx by assumption. eapply pcinv_evo; [exact EV|exact I|congruence|exact Hx|].
      apply (i_pc _ _ I); exact Hx.
  - exact (i_bg _ _ I).
  - intros l. rewrite in_app_iff, (i_listened _ _ I). split.
    + intros [(d & n & H)|[H|[]]]; [eauto|]. destruct (Hne l H).
    + intros (d & n & H). left; eauto.
  - intros l d. rewrite in_app_iff, (i_listen _ _ I). split.
    + intros [(q & Hq & Hl)|[H|[]]].
      * exists q. rewrite Hoth by congruence. auto.
      * subst e. destruct Hcase as [[Hp Heq]|(_ & _ & Heq)]; [|discriminate]. injection Heq as -> ->.
        exists p. split; [exact Hself|]. destruct Hp as [->| ->]; cbn; auto.
    + intros (q & Hq & Hl). destruct (Nat.eq_dec l t) as [->|].
      * rewrite Hself in Hq. injection Hq as <- <-. right. destruct Hcase as [[_ ->]|(-> & _)]; [left; reflexivity|destruct Hl].
      * rewrite Hoth in Hq by assumption. left; eauto.
  - intros d. rewrite in_app_iff, (i_cancel _ _ I). cbn. split; [|auto].
    intros [H|[H|[]]]; [exact H|]. destruct Hcase as [[_ ->]|(_ & _ & ->)]; discriminate.
  - intros x. rewrite in_app_iff, (i_send _ _ I). split.
    + intros [(d & q & Hq & Hl)|[H|[]]].
      * exists d, q. rewrite Hoth by congruence. auto.
      * subst e. destruct Hcase as [[_ Heq]|(-> & -> & Heq)]; [discriminate|]. injection Heq as ->.
        exists background, (SLoadNext 0 false). split; [exact Hself|]. cbn. tauto.
    + intros (d & q & Hq & Hl). destruct (Nat.eq_dec x t) as [->|].
      * rewrite Hself in Hq. injection Hq as <- <-. right.
        destruct Hcase as [[[->| ->] _]|(_ & _ & ->)]; cbn in Hl; [tauto|tauto|left; reflexivity].
      * rewrite Hoth in Hq by assumption. left; eauto.
  - intros x l. rewrite calls_app, Hcl, Nat.add_0_r. intros H.
    destruct (i_calls _ _ I _ _ H) as [(d & n & Hd) Hs]. split; [eauto|]. apply in_or_app; auto.
  - intros l' l d d' k' k Hb Hd Hk. apply D2 in Hd. apply C2 in Hk.
    destruct (Nat.eq_dec l t) as [->|Hnt].
    + destruct Hk as (x & q & Hq & _). congruence.
    + eapply (i_order _ _ I); [|exact Hd|exact Hk]. eapply before_app_inv; [exact Hb|].
      intros [H|[]]. destruct Hcase as [[_ ->]|(_ & _ & ->)]; congruence.
  - intros x r. rewrite in_app_iff, (i_sent _ _ I). split.
    + intros [(d & H)|[H|[]]].
      * exists d. rewrite Hoth by congruence. exact H.
      * destruct Hcase as [[_ ->]|(_ & _ & ->)]; discriminate.
    + intros (d & H). left. destruct (Nat.eq_dec x t) as [->|].
      * rewrite Hself in H. injection H as _ E. destruct (Hns _ E).
      * rewrite Hoth in H by assumption. eauto.
  - intros x l e0. rewrite in_app_iff. intros [H|[H|[]]].
    + destruct (i_replied _ _ I _ _ _ H) as [d Hd]. exists d. rewrite Hoth by congruence. exact Hd.
    + destruct Hcase as [[_ ->]|(_ & _ & ->)]; discriminate.
Qed.

Lemma cancel_inv s log c : Inv s log -> c <> background ->
  Inv (mkState (nodes s) (tail s) (upd (cancelled s) c true) (threads s)) (log ++ [ECancel c]).
Proof.
  intros I Hc. set (s' := mkState _ _ _ _).
  assert (Hcn : forall d, cancelled s d = true -> cancelled s' d = true).
  { intros d H. cbn. unfold upd. destruct (Nat.eqb d c); auto. }
  assert (EV : evo None s log s' (log ++ [ECancel c])).
  { split; auto.
    - intros x l _. rewrite calls_app. cbn. lia.
    - intros e H. apply in_or_app; auto.
    - intros x l _ _ Hb. eapply before_app_inv; [exact Hb|]. intros [H|[]]; discriminate. }
  split.
  - intros n Hn. destruct (i_next _ _ I n Hn) as (m & Hm & Hh). exists m. split; [exact Hm|].
    eapply hop_evo; [exact EV|exact Hh].
  - exact (i_tail _ _ I).
  - exact (i_read _ _ I).
  - exact (i_uniq _ _ I).
  - exact (i_claim _ _ I).
  - intros x d q Hx. eapply pcinv_evo; [exact EV|exact I|discriminate|exact Hx|]. apply (i_pc _ _ I); exact Hx.
  - cbn. unfold upd. destruct (Nat.eqb_spec background c); [congruence|exact (i_bg _ _ I)].
  - intros l. rewrite in_app_iff, (i_listened _ _ I). split; [|auto]. intros [H|[H|[]]]; [exact H|discriminate].
  - intros l d. rewrite in_app_iff, (i_listen _ _ I). split; [|auto]. intros [H|[H|[]]]; [exact H|discriminate].
  - intros d. rewrite in_app_iff, (i_cancel _ _ I). cbn. unfold upd. destruct (Nat.eqb_spec d c) as [->|Hne].
    + split; [reflexivity|]. intros _. right. left. reflexivity.
    + split; [|auto]. intros [H|[H|[]]]; [exact H|congruence].
  - intros x. rewrite in_app_iff, (i_send _ _ I). split; [|auto]. intros [H|[H|[]]]; [exact H|discriminate].
  - intros x l. rewrite calls_app. cbn [calls]. rewrite Nat.add_0_r. intros H.
    destruct (i_calls _ _ I _ _ H) as [H1 H2]. split; [exact H1|]. apply in_or_app; auto.
  - intros l' l d d' k' k Hb. apply before_app_inv in Hb; [|intros [H|[]]; discriminate].
    exact (i_order _ _ I _ _ _ _ _ _ Hb).
  - intros x r. rewrite in_app_iff, (i_sent _ _ I). split; [|auto]. intros [H|[H|[]]]; [exact H|discriminate].
  - intros x l e. rewrite in_app_iff. intros [H|[H|[]]]; [|discriminate]. exact (i_replied _ _ I _ _ _ H).
Qed.

Lemma exec_inv s log a s' ev : Inv s log -> exec s a = Some (s', ev) -> Inv s' (log ++ ev).
Proof.
  intros I H. destruct a; cbn [exec] in H.
  - destruct (threads s t) eqn:E; [discriminate|]. injection H as <- <-.
    apply spawn_inv; [exact I|exact E|]. left. destruct (Nat.eqb c background); auto.
  - destruct (threads s t) eqn:E; [discriminate|]. injection H as <- <-.
    apply spawn_inv; [exact I|exact E|]. right. auto.
  - eapply runThread_inv; eassumption.
  - destruct (Nat.eqb_spec c background); [discriminate|]. injection H as <- <-. apply cancel_inv; assumption.
Qed.

Lemma execution_inv s log : execution s log -> Inv s log.
Proof. induction 1; [exact inv_init|eapply exec_inv; eassumption]. Qed.

(** ** Consequences *)

(* an event splits the execution at the step that emitted it *)
Lemma execution_split s log : execution s log -> forall l1 e l2, log = l1 ++ e :: l2 ->
  exists s0 log0 a s1 ev1 ev2, execution s0 log0 /\ exec s0 a = Some (s1, ev1 ++ e :: ev2) /\ l1 = log0 ++ ev1.
Proof.
  induction 1 as [|s log a s' ev Hex IH Ha]; intros l1 e l2 E.
  - destruct l1; discriminate.
  - apply split_app in E. destruct E as [(c & -> & ->)|(c & E1 & E2)].
    + exists s, log, a, s', c, l2. auto.
    + destruct c as [|x c].
      * cbn in E2. rewrite app_nil_r in E1. subst l1 ev. exists s, log, a, s', [], l2. rewrite app_nil_r. auto.
      * injection E2 as <- _. eapply IH. exact E1.
Qed.

Lemma exec_sent_last s a s1 ev1 t r ev2 :
  exec s a = Some (s1, ev1 ++ ESent t r :: ev2) -> ev2 = [].
Proof.
  intros H.
  assert (Hg : forall x ev, [x] = ev ++ ESent t r :: ev2 -> ev2 = []).
  { intros x ev E. destruct ev as [|y ev]; [injection E as _ E; auto|].
    injection E as _ E. destruct ev; discriminate. }
  assert (Hl : forall x (A : list event), [x] = ev1 ++ ESent t r :: ev2 -> ev2 = []).
  { intros x _. apply Hg. }
  assert (Hl2 : forall x y, [x; y] = ev1 ++ ESent t r :: ev2 -> x <> ESent t r -> ev2 = []).
  { intros x y E Hn. destruct ev1 as [|z ev1]; [injection E as E _; congruence|].
    injection E as _ E. apply (Hg y _ E). }
  assert (H0 : [] = ev1 ++ ESent t r :: ev2 -> ev2 = []) by (intros E; destruct ev1; discriminate).
  destruct a; cbn [exec] in H.
  - destruct (threads s t0); [discriminate|]. injection H as _ H. eapply Hl; [exact nil|exact H].
  - destruct (threads s t0); [discriminate|]. injection H as _ H. eapply Hl; [exact nil|exact H].
  - unfold runThread in H. destruct (threads s t0) as [[c p]|]; [|discriminate]. cbn [tctx tpc] in H.
    destruct p; try discriminate;
    repeat match type of H with
    | context [match ?x with _ => _ end] =>
        match x with context [match _ with _ => _ end] => fail 1 | _ => destruct x end
    end; try discriminate; injection H as _ H;
    first [ apply H0; exact H | eapply Hl; [exact nil|exact H] | eapply Hl2; [exact H|discriminate] | idtac ].
    all: destruct nx; cbn in H; first [ apply H0; exact H | eapply Hl; [exact nil|exact H] ].
  - destruct (Nat.eqb c background); [discriminate|]. injection H as _ H. eapply Hl; [exact nil|exact H].
Qed.

Lemma execution_at_sent s log l1 t r l2 : execution s log -> log = l1 ++ ESent t r :: l2 ->
  exists s1, execution s1 (l1 ++ [ESent t r]).
Proof.
  intros H E. destruct (execution_split _ _ H _ _ _ E) as (s0 & log0 & a & s1 & ev1 & ev2 & H0 & Ha & ->).
  pose proof (exec_sent_last _ _ _ _ _ _ _ Ha) as ->. exists s1.
  rewrite <- app_assoc. eapply exec_step; eassumption.
Qed.

(* a step that emits ECall t l is made by t at SCall *)
Lemma exec_call s a s1 ev t l : exec s a = Some (s1, ev) -> In (ECall t l) ev ->
  exists c n nx, threads s t = Some (mkThread c (SCall n nx)) /\ nhandler (nodes s n) = Some l /\ ev = [ECall t l].
Proof.
  intros H Hi. destruct a; cbn [exec] in H.
  - destruct (threads s t0); [discriminate|]. injection H as _ <-. destruct Hi as [Hi|[]]; discriminate.
  - destruct (threads s t0); [discriminate|]. injection H as _ <-. destruct Hi as [Hi|[]]; discriminate.
  - unfold runThread in H. destruct (threads s t0) as [[c p]|] eqn:Ht; [|discriminate]. cbn [tctx tpc] in H.
    destruct p; try discriminate;
    repeat match type of H with
    | context [match ?x with _ => _ end] =>
        match x with context [match _ with _ => _ end] => fail 1 | _ => destruct x eqn:? end
    end; try discriminate; injection H as _ <-;
    try (cbn in Hi; repeat match type of Hi with _ \/ _ => destruct Hi as [Hi|Hi] end; try discriminate; try tauto).
    + destruct nx; cbn in Hi; [tauto|]. destruct Hi as [Hi|[]]; discriminate.
    + injection Hi as -> ->. exists c, n, nx. auto.
  - destruct (Nat.eqb c background); [discriminate|]. injection H as _ <-. destruct Hi as [Hi|[]]; discriminate.
Qed.

Lemma exec_reply s a s1 ev1 t l e ev2 : exec s a = Some (s1, ev1 ++ EReply t l (Some e) :: ev2) ->
  exists c n nx, threads s t = Some (mkThread c (SRet n nx l)) /\ ev1 = [] /\ ev2 = [ESent t (RErr e)].
Proof.
  intros H.
  assert (Hg : forall x ev, [x] = ev ++ EReply t l (Some e) :: ev2 -> x = EReply t l (Some e)).
  { intros x ev E. destruct ev as [|y ev]; [injection E as E _; auto|].
    injection E as _ E. destruct ev; discriminate. }
  assert (Hl : forall x, [x] = ev1 ++ EReply t l (Some e) :: ev2 -> x = EReply t l (Some e)).
  { intros x. apply Hg. }
  assert (Hl2 : forall x y, [x; y] = ev1 ++ EReply t l (Some e) :: ev2 -> y <> EReply t l (Some e) ->
      x = EReply t l (Some e) /\ ev1 = [] /\ ev2 = [y]).
  { intros x y E Hn. destruct ev1 as [|z ev1]; [injection E as E E'; subst; auto|].
    injection E as _ E. apply Hg in E. congruence. }
  assert (H0 : [] <> ev1 ++ EReply t l (Some e) :: ev2) by (intros E; destruct ev1; discriminate).
  destruct a; cbn [exec] in H.
  - destruct (threads s t0); [discriminate|]. injection H as _ H. apply Hl in H. discriminate.
  - destruct (threads s t0); [discriminate|]. injection H as _ H. apply Hl in H. discriminate.
  - unfold runThread in H. destruct (threads s t0) as [[c p]|] eqn:Ht; [|discriminate]. cbn [tctx tpc] in H.
    destruct p; try discriminate;
    repeat match type of H with
    | context [match ?x with _ => _ end] =>
        match x with context [match _ with _ => _ end] => fail 1 | _ => destruct x end
    end; try discriminate; injection H as _ H;
    try (exfalso; exact (H0 H));
    try (exfalso; apply Hl in H; discriminate).
    + exfalso. destruct nx; cbn in H; [exact (H0 H)|apply Hl in H; discriminate].
    + destruct (Hl2 _ _ H) as (E & -> & ->); [discriminate|]. injection E as <- <- <-.
      exists c, n, nx. auto.
    + destruct (Hl2 _ _ H) as (E & _); [discriminate|]. discriminate E.
  - destruct (Nat.eqb c background); [discriminate|]. injection H as _ H. apply Hl in H. discriminate.
Qed.

Lemma no_calls_after_sent s log : execution s log -> forall l1 t r l2 x,
  log = l1 ++ ESent t r :: l2 -> ~ In (ECall t x) l2.
Proof.
  induction 1 as [|s log a s' ev Hex IH Ha]; intros l1 t r l2 x E.
  - destruct l1; discriminate.
  - assert (E0 := E). apply split_app in E. destruct E as [(c & -> & ->)|(c & E1 & E2)].
    + rewrite (exec_sent_last _ _ _ _ _ _ _ Ha). intros [].
    + destruct c as [|y c].
      * cbn in E2. subst ev. pose proof (exec_sent_last _ _ _ [] _ _ _ Ha) as ->. intros [].
      * injection E2 as <- ->. intros Hi. apply in_app_or in Hi. destruct Hi as [Hi|Hi].
        -- eapply (IH _ _ _ _ x E1); exact Hi.
        -- destruct (exec_call _ _ _ _ _ _ Ha Hi) as (d & n & nx & Ht & _).
           pose proof (execution_inv _ _ Hex) as I.
           destruct (proj1 (i_sent _ _ I t r)) as [d' Hd'].
           { rewrite E1. apply in_or_app. right. left. reflexivity. }
           congruence.
Qed.

Lemma calls_in t l log : calls t l log <> 0 <-> In (ECall t l) log.
Proof.
  induction log as [|e log IH]; [cbn; tauto|].
  destruct e; cbn [calls In];
    try (rewrite IH; split; [auto|intros [H|H]; [discriminate|exact H]]).
  destruct (Nat.eqb_spec t s) as [->|Hn]; [destruct (Nat.eqb_spec l l0) as [->|Hn]|]; cbn [andb plus].
  - split; [auto|]. intros _ H. discriminate.
  - rewrite IH. split; [auto|]. intros [H|H]; [congruence|exact H].
  - rewrite IH. split; [auto|]. intros [H|H]; [congruence|exact H].
Qed.

Lemma calls_at_most_one s log t l : execution s log -> calls t l log <= 1.
Proof.
  intros H. pose proof (execution_inv _ _ H) as I.
  destruct (Nat.eq_dec (calls t l log) 0) as [->|Hn]; [lia|].
  destruct (i_calls _ _ I t l Hn) as [_ Hs]. apply (i_send _ _ I) in Hs. destruct Hs as (c & p & Hp & Hl).
  pose proof (i_pc _ _ I _ _ _ Hp) as P.
  destruct p; cbn [is_listen] in Hl; try tauto; cbn [pcinv] in P; try tauto;
  repeat match type of P with _ /\ _ => destruct P as [P ?] end; first [apply (d_one _ _ _ _ _ P)|apply P].
Qed.

(* what the log says about a listener, in a state satisfying Inv *)
Lemma listener_done s log l c : Inv s log -> In (EListened l) log -> In (EListen l c) log ->
  exists k, done s l c k.
Proof.
  intros I H1 H2. apply (i_listened _ _ I) in H1. destruct H1 as (d & k & Hd).
  apply (i_listen _ _ I) in H2. destruct H2 as (p & Hp & _). unfold done in *.
  exists k. congruence.
Qed.
Lemma live_ctx s log c : Inv s log -> ~ In (ECancel c) log -> cancelled s c = false.
Proof.
  intros I H. destruct (cancelled s c) eqn:E; [|reflexivity]. destruct H. apply (i_cancel _ _ I); exact E.
Qed.

Lemma qnq_delivered_sent s log l1 l2 t r l c : execution s log -> log = l1 ++ ESent t r :: l2 ->
  r = RNil \/ r = REmpty ->
  before l1 (EListened l) (ESend t) -> In (EListen l c) l1 -> ~ In (ECancel c) l1 -> calls t l l1 = 1.
Proof.
  intros H E Hr Hb Hl Hc. destruct (execution_at_sent _ _ _ _ _ _ H E) as [s1 H1].
  pose proof (execution_inv _ _ H1) as I.
  destruct (proj1 (i_sent _ _ I t r)) as [d Hd]; [apply in_or_app; right; left; reflexivity|].
  pose proof (i_pc _ _ I _ _ _ Hd) as [_ P].
  assert (A : alldeliv s1 (l1 ++ [ESent t r]) t) by (destruct Hr as [-> | ->]; apply P).
  destruct (listener_done s1 _ l c I) as [k Hk].
  { apply in_or_app; left. apply (before_in _ _ _ Hb). }
  { apply in_or_app; left. exact Hl. }
  assert (Q : calls t l (l1 ++ [ESent t r]) = 1).
  { eapply A; [apply before_app; exact Hb|exact Hk|]. eapply live_ctx; [exact I|].
    intros X. apply in_app_or in X. destruct X as [X|[X|[]]]; [tauto|discriminate]. }
  rewrite calls_app in Q. cbn in Q. lia.
Qed.

Lemma qnq_delivery s log l1 l2 t l c : execution s log -> log = l1 ++ ESent t RNil :: l2 ->
  before l1 (EListened l) (ESend t) -> In (EListen l c) l1 -> ~ In (ECancel c) l1 -> calls t l log = 1.
Proof.
  intros H E Hb Hl Hc. pose proof (calls_at_most_one _ _ t l H) as Q.
  assert (calls t l l1 = 1) by (eapply qnq_delivered_sent; eauto).
  rewrite E, calls_app in *. lia.
Qed.

Lemma qnq_empty_no_calls s log t : execution s log -> In (ESent t REmpty) log -> forall l, ~ In (ECall t l) log.
Proof.
  intros H Hi l. pose proof (execution_inv _ _ H) as I.
  destruct (proj1 (i_sent _ _ I _ _) Hi) as [d Hd]. pose proof (i_pc _ _ I _ _ _ Hd) as [_ [P _]].
  rewrite <- calls_in. rewrite (P l). tauto.
Qed.
Lemma qnq_nil_some_call s log t : execution s log -> In (ESent t RNil) log -> exists l, In (ECall t l) log.
Proof.
  intros H Hi. pose proof (execution_inv _ _ H) as I.
  destruct (proj1 (i_sent _ _ I _ _) Hi) as [d Hd]. pose proof (i_pc _ _ I _ _ _ Hd) as [_ [[l P] _]].
  exists l. apply calls_in. lia.
Qed.
Lemma qnq_live_not_empty s log l1 l2 t r l c : execution s log -> log = l1 ++ ESent t r :: l2 ->
  before l1 (EListened l) (ESend t) -> In (EListen l c) l1 -> ~ In (ECancel c) l1 -> r <> REmpty.
Proof.
  intros H E Hb Hl Hc ->. assert (Q : calls t l l1 = 1) by (eapply qnq_delivered_sent; eauto).
  eapply (qnq_empty_no_calls _ _ t H); [rewrite E; apply in_or_app; right; left; reflexivity|].
  rewrite E. apply in_or_app. left. apply calls_in. rewrite Q. discriminate.
Qed.

Lemma qnq_one_result s log t r r' : execution s log -> In (ESent t r) log -> In (ESent t r') log -> r = r'.
Proof.
  intros H H1 H2. pose proof (execution_inv _ _ H) as I.
  apply (i_sent _ _ I) in H1, H2. destruct H1, H2. congruence.
Qed.

Lemma qnq_error s log l1 l2 t l e : execution s log -> log = l1 ++ EReply t l (Some e) :: l2 ->
  (forall x, ~ In (ECall t x) l2) /\ In (ESent t (RErr e)) log /\ (forall r, In (ESent t r) log -> r = RErr e).
Proof.
  intros H E.
  assert (Hs : exists l2', l2 = ESent t (RErr e) :: l2').
  { clear -H E. revert l1 l2 E. induction H as [|s log a s' ev Hex IH Ha]; intros l1 l2 E.
    - destruct l1; discriminate.
    - apply split_app in E. destruct E as [(c & -> & ->)|(c & E1 & E2)].
      + destruct (exec_reply _ _ _ _ _ _ _ _ Ha) as (_ & _ & _ & _ & _ & ->). eauto.
      + destruct c as [|y c].
        * cbn in E2. subst ev. destruct (exec_reply _ _ _ [] _ _ _ _ Ha) as (_ & _ & _ & _ & _ & ->). eauto.
        * injection E2 as <- ->. destruct (IH _ _ E1) as [l2' ->]. exists (l2' ++ ev). reflexivity. }
  destruct Hs as [l2' ->].
  assert (Hi : In (ESent t (RErr e)) log) by (rewrite E; apply in_or_app; right; right; left; reflexivity).
  assert (Ha : forall x, ~ In (ECall t x) l2').
  { intros x. eapply (no_calls_after_sent _ _ H (l1 ++ [EReply t l (Some e)])). rewrite E, <- app_assoc. reflexivity. }
  split; [|split; [exact Hi|]].
  - intros x [X|X]; [discriminate|]. exact (Ha x X).
  - intros r Hr. eapply qnq_one_result; eassumption.
Qed.

(* listeners registered earlier have been served when a later one is called *)
Lemma qnq_order_call s log l1 l2 t l l' c c' : execution s log -> log = l1 ++ ECall t l :: l2 ->
  before l1 (EListened l') (EListen l c) -> before l1 (EListened l') (ESend t) ->
  In (EListen l' c') l1 -> ~ In (ECancel c') l1 -> calls t l' l1 = 1.
Proof.
  intros H E Hb Hb' Hl' Hc.
  destruct (execution_split _ _ H _ _ _ E) as (s0 & log0 & a & s1 & ev1 & ev2 & H0 & Ha & ->).
  destruct (exec_call _ _ _ _ t l Ha) as (d & n & nx & Ht & Hh & Hev).
  { apply in_or_app. right. left. reflexivity. }
  assert (ev1 = []) as -> by (destruct ev1 as [|y ev1]; [reflexivity|]; injection Hev as _ Hev; destruct ev1; discriminate).
  rewrite app_nil_r in *.
  pose proof (execution_inv _ _ H0) as I.
  pose proof (i_pc _ _ I _ _ _ Ht) as (D & _ & Hr).
  destruct (i_read _ _ I n Hr) as (l0 & c0 & Hd & Hh' & _).
  assert (l0 = l) as -> by congruence.
  destruct (listener_done _ _ l' c' I) as [k' Hk']; [apply (before_in _ _ _ Hb)|exact Hl'|].
  eapply (d_live _ _ _ _ _ D); [exact Hb'|exact Hk'|eapply live_ctx; eassumption|].
  left. eapply (i_order _ _ I); [exact Hb|exact Hk'|].
  exists c0, (LDone n). split; [exact Hd|reflexivity].
Qed.

Lemma qnq_order_error s log l1 l2 t l l' e c c' : execution s log -> log = l1 ++ EReply t l (Some e) :: l2 ->
  before l1 (EListened l') (EListen l c) -> before l1 (EListened l') (ESend t) ->
  In (EListen l' c') l1 -> ~ In (ECancel c') l1 -> calls t l' log = 1.
Proof.
  intros H E Hb Hb' Hl' Hc. pose proof (calls_at_most_one _ _ t l' H) as Q1.
  destruct (execution_split _ _ H _ _ _ E) as (s0 & log0 & a & s1 & ev1 & ev2 & H0 & Ha & E1).
  destruct (exec_reply _ _ _ _ _ _ _ _ Ha) as (d & n & nx & Ht & -> & ->).
  rewrite app_nil_r in E1. subst log0.
  pose proof (execution_inv _ _ H0) as I.
  pose proof (i_pc _ _ I _ _ _ Ht) as (D & _ & _ & (c0 & Hd)).
  destruct (listener_done _ _ l' c' I) as [k' Hk']; [apply (before_in _ _ _ Hb)|exact Hl'|].
  assert (calls t l' l1 = 1).
  { eapply (d_live _ _ _ _ _ D); [exact Hb'|exact Hk'|eapply live_ctx; eassumption|].
    left. eapply (i_order _ _ I); [exact Hb|exact Hk'|]. exists c0, (LDone n). split; [exact Hd|reflexivity]. }
  rewrite E, calls_app in *. lia.
Qed.

Lemma qnq_no_panic s log t c : execution s log -> threads s t <> Some (mkThread c PPanic).
Proof. intros H Ht. exact (i_pc _ _ (execution_inv _ _ H) _ _ _ Ht). Qed.

(* every node that is not dead is linked *)
Lemma linked_upto s log : Inv s log -> forall k, k <= tail s -> ~ dead s k \/ k = 0 -> linked s k.
Proof.
  intros I.
  assert (Q : forall d n k, n + d = k -> k <= tail s -> (~ dead s k \/ k = 0) -> linked s n -> linked s k).
  { induction d as [d IH] using lt_wf_ind. intros n k E Hk Hd Hn.
    destruct d as [|d]; [replace k with n by lia; exact Hn|].
    destruct (i_next _ _ I n) as (m & Hm & [Hlt Hdead]); [lia|].
    destruct (Nat.le_gt_cases m k) as [Hle|Hgt].
    - apply (IH (k - m)) with (n := m); [lia|lia|exact Hk|exact Hd|]. eapply linked_next; eassumption.
    - exfalso. destruct Hd as [Hd| ->]; [|lia]. apply Hd. apply Hdead. lia. }
  intros k Hk Hd. eapply (Q k 0); [lia|exact Hk|exact Hd|constructor].
Qed.
Lemma qnq_linked s log l c : execution s log -> In (EListened l) log -> In (EListen l c) log ->
  ~ In (ECancel c) log ->
  exists n, linked s n /\ nread (nodes s n) = true /\ nhandler (nodes s n) = Some l.
Proof.
  intros H H1 H2 H3. pose proof (execution_inv _ _ H) as I.
  destruct (listener_done _ _ l c I H1 H2) as [k Hk].
  pose proof (i_pc _ _ I _ _ _ Hk) as Hr. cbn in Hr.
  destruct (i_read _ _ I k Hr) as (l0 & c0 & Hd & Hh & Hx).
  assert (Cl : forall x d, done s x d k -> claim s x k) by (intros x d Hd'; exists d, (LDone k); split; [exact Hd'|reflexivity]).
  assert (l0 = l) as -> by (eapply (i_uniq _ _ I); eauto).
  assert (c0 = c) as -> by (unfold done in *; congruence).
  exists k. split; [|auto]. eapply linked_upto; [exact I| |].
  - apply Nat.lt_le_incl. eapply (i_claim _ _ I). eauto.
  - left. intros (_ & d & Hd' & Hc). assert (d = c) by congruence. subst d.
    apply H3. apply (i_cancel _ _ I); exact Hc.
Qed.

(** ** A Send that runs alone *)
Lemma runAll_app s log a b s' log' : runAll s log a = Some (s', log') ->
  runAll s log (a ++ b) = runAll s' log' b.
Proof.
  revert s log. induction a as [|x a IH]; intros s log H; cbn in *.
  - injection H as <- <-. reflexivity.
  - destruct (exec s x) as [[s1 ev]|]; [|discriminate]. apply IH. exact H.
Qed.

(* the listeners reached: after a delivered one, at most one cancelled listener is skipped *)
Fixpoint reached (s : state) (fuel : nat) (ls : list (tid * ctx)) : list (tid * ctx) :=
  match fuel with 0 => [] | S f =>
  match ls with
  | [] => []
  | x :: [] => [x]
  | x :: (y :: rest) => x :: reached s f (if cancelled s (snd y) then rest else y :: rest)
  end end.

Definition increasing (s : state) : Prop := forall i j, nnext (nodes s i) = Some j -> i < j.

Lemma registered_ext s s' b : increasing s -> (forall j, b <= j -> nodes s' j = nodes s j) ->
  forall n ls, registered s n ls -> b <= n -> registered s' n ls.
Proof.
  intros Hi Hb n ls H. induction H as [n H1 H2|n m l c ls H1 H2 H3 H4 H5 IH]; intros Hn.
  - constructor; rewrite Hb; assumption.
  - assert (Hlt := Hi _ _ H4).
    apply (reg_cons s' n m l c ls); try (rewrite Hb; assumption). apply IH. lia.
Qed.

Lemma runAll_step s log a s' ev acts r : exec s a = Some (s', ev) ->
  runAll s' (log ++ ev) acts = r -> runAll s log (a :: acts) = r.
Proof. intros H <-. cbn. rewrite H. reflexivity. Qed.

Lemma setPc_nodes s t c p : nodes (setPc s t c p) = nodes s. Proof. reflexivity. Qed.

(* one listener of a solo Send: invoke it, drop one cancelled successor, go on *)
Lemma solo_send t : forall f ls s log n sent,
  increasing s -> registered s n ls -> length ls < f ->
  threads s t = Some (mkThread background (SLoadNext n sent)) ->
  exists N s', runAll s log (repeat (ARun t None) N) =
    Some (s', log ++ delivery_log t (reached s f ls) ++
              [ESent t (if sent then RNil else match ls with [] => REmpty | _ => RNil end)]).
Proof.
  induction f as [|f IH]; intros ls s log n sent Hi Hr Hf Ht; [lia|].
  destruct Hr as [n H1 H2|n m l c ls H1 H2 H3 H4 H5].
  - exists 2. destruct sent; eexists; cbn [repeat]; (eapply runAll_step;
    [cbn [exec]; unfold runThread; rewrite Ht; cbn [tpc tctx]; reflexivity|];
    eapply runAll_step;
    [cbn [exec]; unfold runThread; cbn [threads setPc]; rewrite (upd_eq (threads s)); cbn [tpc tctx nodes setPc];
      rewrite H1, H2; reflexivity|];
    cbn; rewrite app_nil_r; reflexivity).
  - (* load next, load read, call, return *)
    assert (S4 : exists s1, nodes s1 = nodes s /\ cancelled s1 = cancelled s /\
       threads s1 t = Some (mkThread background (SChkRead n m)) /\
       forall k, runAll s log (ARun t None :: ARun t None :: ARun t None :: ARun t None :: k) =
       runAll s1 (log ++ [ECall t l; EReply t l None]) k).
    { eexists. split; [|split; [|split]].
      4: { intros k. eapply runAll_step.
           { cbn [exec]. unfold runThread. rewrite Ht. cbn [tpc tctx]. reflexivity. }
           eapply runAll_step.
           { cbn [exec]. unfold runThread. cbn [threads setPc]. rewrite (upd_eq (threads s)). cbn [tpc tctx nodes setPc].
             rewrite H1, H4. reflexivity. }
           eapply runAll_step.
           { cbn [exec]. unfold runThread. cbn [threads setPc]. rewrite upd_eq. cbn [tpc tctx nodes setPc].
             rewrite H2. reflexivity. }
           eapply runAll_step.
           { cbn [exec]. unfold runThread. cbn [threads setPc]. rewrite upd_eq. cbn [tpc tctx nodes setPc]. reflexivity. }
           rewrite !app_nil_r, <- !app_assoc. cbn [app]. reflexivity. }
      all: cbn; try rewrite upd_eq; reflexivity. }
    destruct S4 as (s1 & E1 & E2 & E3 & E4).
    cbn [length] in Hf.
    destruct H5 as [m G1 G2|m k l' c' ls G1 G2 G3 G4 G5].
    + (* last listener *)
      exists 7. eexists. cbn [repeat]. rewrite E4. eapply runAll_step.
      { cbn [exec]. unfold runThread. rewrite E3. cbn [tpc tctx]. rewrite E1, G1. reflexivity. }
      eapply runAll_step.
      { cbn [exec]. unfold runThread. cbn [threads setPc]. rewrite upd_eq. cbn [tpc tctx nodes setPc]. reflexivity. }
      eapply runAll_step.
      { cbn [exec]. unfold runThread. cbn [threads setPc]. rewrite upd_eq. cbn [tpc tctx nodes setPc]. rewrite E1, G1, G2. reflexivity. }
      cbn [sendAdvance sentEvents runAll reached delivery_log flat_map fst]. rewrite !app_nil_r, <- !app_assoc.
      destruct sent; reflexivity.
    + cbn [length] in Hf. destruct (cancelled s c') eqn:Hc.
      * (* skipped *)
        pose proof (Hi _ _ H4) as L1. pose proof (Hi _ _ G4) as L2.
        assert (S3 : exists s3, nodes s3 = upd (nodes s) n (mkNode (Some k) (nread (nodes s n)) (nctx (nodes s n)) (nhandler (nodes s n))) /\
           cancelled s3 = cancelled s /\ threads s3 t = Some (mkThread background (SLoadNext k true)) /\
           forall acts lg, runAll s1 lg (ARun t None :: ARun t None :: ARun t None :: ARun t None :: acts) = runAll s3 lg acts).
        { eexists. split; [|split; [|split]].
          4: { intros acts lg. eapply runAll_step.
               { cbn [exec]. unfold runThread. rewrite E3. cbn [tpc tctx]. rewrite E1, G1. reflexivity. }
               eapply runAll_step.
               { cbn [exec]. unfold runThread. cbn [threads setPc]. rewrite upd_eq. cbn [tpc tctx nodes setPc cancelled].
                 rewrite E1, G3, E2, Hc. reflexivity. }
               eapply runAll_step.
               { cbn [exec]. unfold runThread. cbn [threads setPc]. rewrite upd_eq. cbn [tpc tctx nodes setPc].
                 rewrite E1, G4. reflexivity. }
               eapply runAll_step.
               { cbn [exec]. unfold runThread. cbn [threads setPc]. rewrite upd_eq. cbn [tpc tctx nodes setPc casSkip].
                 unfold casSkip. cbn [nodes setPc]. rewrite E1, H4, Nat.eqb_refl. reflexivity. }
               rewrite !app_nil_r. reflexivity. }
          all: cbn; try rewrite upd_eq; rewrite ?E1, ?E2; reflexivity. }
        destruct S3 as (s3 & F1 & F2 & F3 & F4).
        assert (Hnb : forall j, S n <= j -> nodes s3 j = nodes s j).
        { intros j Hj. rewrite F1. unfold upd. destruct (Nat.eqb_spec j n); [lia|reflexivity]. }
        destruct (IH ls s3 (log ++ [ECall t l; EReply t l None]) k true) as (N & s' & HN).
        { intros i j. rewrite F1. unfold upd. destruct (Nat.eqb_spec i n) as [->|]; [|apply Hi].
          cbn. intros E. injection E as <-. lia. }
        { eapply (registered_ext s s3 (S n)); [exact Hi|exact Hnb|exact G5|lia]. }
        { lia. }
        { exact F3. }
        exists (4 + (4 + N)), s'.
        change (repeat (ARun t None) (4 + (4 + N))) with
          (ARun t None :: ARun t None :: ARun t None :: ARun t None :: repeat (ARun t None) (4 + N)).
        rewrite E4.
        change (repeat (ARun t None) (4 + N)) with
          (ARun t None :: ARun t None :: ARun t None :: ARun t None :: repeat (ARun t None) N).
        rewrite F4, HN.
        assert (R : forall g zs, reached s3 g zs = reached s g zs).
        { induction g as [|g IHg]; intros zs; [reflexivity|]. cbn. destruct zs as [|z [|[z1 z2] zs]]; try reflexivity.
          cbn [snd]; rewrite F2, IHg; reflexivity. }
        cbn [reached snd]. rewrite Hc, R. unfold delivery_log. cbn [flat_map fst]. rewrite <- !app_assoc. destruct sent; reflexivity.
      * (* live *)
        assert (S3 : exists s3, nodes s3 = nodes s /\
           cancelled s3 = cancelled s /\ threads s3 t = Some (mkThread background (SLoadNext m true)) /\
           forall acts lg, runAll s1 lg (ARun t None :: ARun t None :: acts) = runAll s3 lg acts).
        { eexists. split; [|split; [|split]].
          4: { intros acts lg. eapply runAll_step.
               { cbn [exec]. unfold runThread. rewrite E3. cbn [tpc tctx]. rewrite E1, G1. reflexivity. }
               eapply runAll_step.
               { cbn [exec]. unfold runThread. cbn [threads setPc]. rewrite upd_eq. cbn [tpc tctx nodes setPc cancelled].
                 rewrite E1, G3, E2, Hc. reflexivity. }
               rewrite !app_nil_r. reflexivity. }
          all: cbn; try rewrite upd_eq; rewrite ?E1, ?E2; reflexivity. }
        destruct S3 as (s3 & F1 & F2 & F3 & F4).
        destruct (IH ((l', c') :: ls) s3 (log ++ [ECall t l; EReply t l None]) m true) as (N & s' & HN).
        { intros i j. rewrite F1. apply Hi. }
        { eapply (registered_ext s s3 0); [exact Hi|intros; rewrite F1; reflexivity| |lia].
          eapply reg_cons; eassumption. }
        { cbn [length]. lia. }
        { exact F3. }
        exists (4 + (2 + N)), s'.
        change (repeat (ARun t None) (4 + (2 + N))) with
          (ARun t None :: ARun t None :: ARun t None :: ARun t None :: repeat (ARun t None) (2 + N)).
        rewrite E4.
        change (repeat (ARun t None) (2 + N)) with
          (ARun t None :: ARun t None :: repeat (ARun t None) N).
        rewrite F4, HN.
        assert (R : forall g zs, reached s3 g zs = reached s g zs).
        { induction g as [|g IHg]; intros zs; [reflexivity|]. cbn. destruct zs as [|z [|[z1 z2] zs]]; try reflexivity.
          cbn [snd]; rewrite F2, IHg; reflexivity. }
        cbn [reached snd]. rewrite Hc, R. unfold delivery_log. cbn [flat_map fst]. rewrite <- !app_assoc. destruct sent; reflexivity.
Qed.

Lemma reached_live s : forall f ls b, length ls < f -> isolated s b ls ->
  match ls with [] => True | (_, c) :: _ => cancelled s c = false end -> reached s f ls = live s ls.
Proof.
  induction f as [|f IH]; intros ls b Hf Hiso Hh; [lia|].
  destruct ls as [|[l c] [|[l' c'] ls]]; [reflexivity| |].
  - cbn. rewrite Hh. reflexivity.
  - cbn [length] in Hf. cbn [isolated] in Hiso. destruct Hiso as (_ & I1 & I2).
    cbn [reached snd]. unfold live. cbn [filter snd]. rewrite Hh. cbn [negb]. f_equal.
    destruct (cancelled s c') eqn:Hc; cbn [negb].
    + eapply IH; [lia|exact I2|]. destruct ls as [|[l2 c2] ls]; [exact I|].
      destruct I2 as [I2 _]. destruct (cancelled s c2); [|reflexivity]. discriminate (I2 eq_refl).
    + rewrite (IH ((l', c') :: ls) false); [unfold live; cbn [filter snd]; rewrite Hc; reflexivity|cbn [length]; lia| |exact Hc].
      cbn [isolated]. rewrite Hc. split; [discriminate|exact I2].
Qed.

Lemma qnq_sequential s log t ls : execution s log -> threads s t = None ->
  registered s 0 ls -> ls <> [] -> isolated s true ls ->
  exists N s', runAll s log (ASend t :: repeat (ARun t None) N) =
    Some (s', log ++ ESend t :: delivery_log t (live s ls) ++ [ESent t RNil]).
Proof.
  intros H Ht Hr Hne Hiso. pose proof (execution_inv _ _ H) as I.
  set (s0 := setPc s t background (SLoadNext 0 false)).
  destruct (solo_send t (S (length ls)) ls s0 (log ++ [ESend t]) 0 false) as (N & s' & HN).
  - intros i j. cbn. intros E. destruct (Nat.le_gt_cases (tail s) i) as [L|L].
    + destruct (i_tail _ _ I i L). congruence.
    + destruct (i_next _ _ I i L) as (m & Hm & [Hlt _]). assert (m = j) by congruence. lia.
  - eapply (registered_ext s s0 0).
    + intros i j E. destruct (Nat.le_gt_cases (tail s) i) as [L|L].
      * destruct (i_tail _ _ I i L). congruence.
      * destruct (i_next _ _ I i L) as (m & Hm & [Hlt _]). assert (m = j) by congruence. lia.
    + reflexivity.
    + exact Hr.
    + lia.
  - lia.
  - cbn. apply upd_eq.
  - exists N, s'. eapply runAll_step.
    { cbn [exec]. rewrite Ht. reflexivity. }
    fold s0. rewrite HN. rewrite (reached_live s0 (S (length ls)) ls true); [|lia| |].
    2: { assert (Q : forall zs b, isolated s b zs -> isolated s0 b zs).
         { induction zs as [|[z1 z2] zs IHz]; intros b; cbn; [auto|]. intros [Q1 Q2]. split; [exact Q1|]. apply IHz. exact Q2. }
         apply Q. exact Hiso. }
    + rewrite <- app_assoc. destruct ls; [congruence|reflexivity].
    + destruct ls as [|[l c] ls]; [exact Logic.I|]. destruct Hiso as [Hiso _]. cbn. destruct (cancelled s c); [|reflexivity].
      discriminate (Hiso eq_refl).
Qed.

Lemma runAll_execution acts : forall s log s' log', execution s log ->
  runAll s log acts = Some (s', log') -> execution s' log'.
Proof.
  induction acts as [|a acts IH]; intros s log s' log' H E; cbn in E.
  - injection E as <- <-. exact H.
  - destruct (exec s a) as [[s1 ev]|] eqn:Ha; [|discriminate]. eapply IH; [|exact E].
    eapply exec_step; eassumption.
Qed.

(* the list of a quiescent walk is made of Listen calls that returned, with their own contexts *)
Lemma qnq_registered_log s log n ls : execution s log -> registered s n ls ->
  forall l c, In (l, c) ls ->
  In (EListen l c) log /\ In (EListened l) log /\ (cancelled s c = true <-> In (ECancel c) log).
Proof.
  intros H R. pose proof (execution_inv _ _ H) as I.
  induction R as [n R1 R2|n m l c ls R1 R2 R3 R4 R5 IH]; intros l' c' Hin; [destruct Hin|].
  destruct Hin as [E|Hin]; [|exact (IH _ _ Hin)].
  injection E as <- <-. destruct (i_read _ _ I n R1) as (l2 & c2 & D & Hh & Hc).
  assert (l2 = l) as -> by congruence. assert (c2 = c) as -> by congruence.
  split; [|split].
  - apply (i_listen _ _ I). exists (LDone n). split; [exact D|exact Logic.I].
  - apply (i_listened _ _ I). eauto.
  - symmetry. apply (i_cancel _ _ I).
Qed.
Lemma registered_linked s n ls : registered s n ls -> forall k, linked s k -> n = 0 ->
  forall l, nread (nodes s k) = true -> nhandler (nodes s k) = Some l -> In l (map fst ls).
Proof.
  intros R k K E l. subst n.
  assert (X : forall j, linked s j -> exists rs, registered s j rs /\ incl rs ls).
  { intros j J. induction J as [|a b J IHJ Hn].
    - exists ls. split; [exact R|apply incl_refl].
    - destruct IHJ as (rs & R' & Hi). inversion R' as [n0 X1 X2|n0 m0 l0 c0 ls0 X1 X2 X3 X4 X5]; subst.
      + congruence.
      + assert (m0 = b) as -> by congruence. exists ls0. split; [exact X5|].
        intros x Hx. apply Hi. right. exact Hx. }
  intros Hr Hh. destruct (X k K) as (rs & R' & Hi).
  inversion R' as [n0 X1 X2|n0 m0 l0 c0 ls0 X1 X2 X3 X4 X5]; subst; [congruence|].
  assert (l0 = l) as -> by congruence. change l with (fst (l, c0)). apply in_map, Hi. left; reflexivity.
Qed.
Lemma qnq_registered_all s log ls l c : execution s log -> registered s 0 ls ->
  In (EListened l) log -> In (EListen l c) log -> ~ In (ECancel c) log -> In (l, c) ls.
Proof.
  intros H R H1 H2 H3. destruct (qnq_linked s log l c H H1 H2 H3) as (n & L & Hr & Hh).
  pose proof (registered_linked s 0 ls R n L eq_refl l Hr Hh) as Hin.
  apply in_map_iff in Hin. destruct Hin as ((l' & c') & E & Hin). cbn in E. subst l'.
  destruct (qnq_registered_log _ _ _ _ H R _ _ Hin) as (X & _).
  pose proof (execution_inv _ _ H) as I.
  apply (i_listen _ _ I) in X, H2. destruct X as (p & X & _), H2 as (q & Y & _).
  congruence.
Qed.
