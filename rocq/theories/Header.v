(** * C152: clients that add headers *)
From Coq Require Import String.
From Verif Require Import GoBase GoText CorsModel Cors HeaderModel.
Open Scope list_scope.
Open Scope Z_scope.

Lemma get_set : forall k k' v h, get_header k (set_header k' v h) = if beq k' k then Some v else get_header k h.
Proof. intros k k' v h. exact (get_when k k' v true h). Qed.
Lemma get_del : forall k k' h, get_header k (del_header k' h) = if beq k' k then None else get_header k h.
Proof.
  intros k k' h. unfold del_header. destruct (beq k' k) eqn:E.
  - apply beq_true in E. subst k'. induction h as [|[q v] h IH]; [reflexivity|]. cbn [filter fst].
    destruct (beq q k) eqn:F; cbn [negb]; [exact IH|]. cbn [get_header]. rewrite F. exact IH.
  - apply get_filter. exact E.
Qed.
Lemma get_set_all : forall add k h,
  get_header k (set_all add h) = match get_header k (rev add) with Some v => Some v | None => get_header k h end.
Proof.
  induction add as [|[q v] add IH]; intros k h; [reflexivity|]. cbn [set_all fold_left fst snd rev] in *.
  change (fold_left _ add ?x) with (set_all add x). rewrite IH, get_set, get_app. cbn [get_header].
  destruct (get_header k (rev add)); [reflexivity|]. destruct (beq q k); reflexivity.
Qed.
Lemma get_del_all : forall add k h, get_header k (del_all add h) = if existsb (beq k) (map fst add) then None else get_header k h.
Proof.
  induction add as [|[q v] add IH]; intros k h; [reflexivity|]. cbn [del_all fold_left fst map existsb] in *.
  change (fold_left _ add ?x) with (del_all add x). rewrite IH, get_del.
  destruct (existsb (beq k) (map fst add)); [rewrite orb_true_r; reflexivity|]. rewrite orb_false_r.
  destruct (beq q k) eqn:E; [apply beq_true in E; subst q; rewrite beq_refl; reflexivity|].
  destruct (beq k q) eqn:F; [|reflexivity]. apply beq_true in F. subst q. rewrite beq_refl in E. discriminate.
Qed.
Lemma get_in : forall l k v, NoDup (map fst l) -> In (k, v) l -> get_header k l = Some v.
Proof.
  induction l as [|[q w] l IH]; intros k v N I; [destruct I|]. cbn [map fst] in N. inversion N as [|? ? N1 N2]; subst. cbn [get_header].
  destruct I as [I|I]; [injection I as <- <-; rewrite beq_refl; reflexivity|].
  rewrite beq_false; [apply IH; assumption|]. intros <-. apply N1. apply in_map_iff. exists (q, v). split; [reflexivity|exact I].
Qed.
Lemma get_none : forall l k, ~ In k (map fst l) -> get_header k l = None.
Proof.
  induction l as [|[q w] l IH]; intros k N; [reflexivity|]. cbn [get_header]. rewrite beq_false; [apply IH|]; intros X; apply N; [right; exact X|left; exact X].
Qed.
Lemma names_rev : forall add k, ~ In k (map fst add) -> get_header k (rev add) = None.
Proof. intros add k N. apply get_none. rewrite map_rev. intros X. apply in_rev in X. contradiction. Qed.
Lemma get_kept : forall (keep : bytes -> bool) h k, get_header k (filter (fun x => keep (fst x)) h) = if keep k then get_header k h else None.
Proof.
  intros keep h k. induction h as [|[q v] h IH]; [destruct (keep k); reflexivity|]. cbn [filter fst get_header].
  destruct (beq q k) eqn:E.
  - apply beq_true in E. subst q. destruct (keep k) eqn:K; [cbn [get_header]; rewrite beq_refl; reflexivity|exact IH].
  - destruct (keep q); [cbn [get_header]; rewrite E|]; exact IH.
Qed.

Section Props.
Variables (place : Type) (within : place -> place -> bool).
Definition run (server : place -> header -> option place) (add : header) (forget : bool) (h : header) (p : place) :=
  sends place within server add forget h p.

Lemma follow_in : forall server add forget n first h0 gone p q h', In (q, h') (follow place within server add forget n first h0 gone p) ->
  exists out, h' = set_all add (filter (fun x => negb out || negb (sensitive (fst x))) h0).
Proof.
  induction n as [|n IH]; intros first h0 gone p q h' I; [destruct I|]. cbn [follow round_trip fst] in I. destruct I as [I|I].
  - injection I as <- <-. eexists. reflexivity.
  - destruct (server p _) as [p'|]; [|destruct I]. exact (IH _ _ _ _ _ _ I).
Qed.

(** Every request that is sent, the first and those after redirects, has the headers that
    are added, each with its value, whatever the caller's request says. *)
Theorem C152_added : forall server add forget h p q h' k v, NoDup (map fst add) -> In (k, v) add ->
  In (q, h') (run server add forget h p) -> get_header k h' = Some v.
Proof.
  intros server add forget h p q h' k v N A I. destruct (follow_in _ _ _ _ _ _ _ _ _ _ I) as [out ->].
  rewrite get_set_all. rewrite (get_in (rev add) k v); [reflexivity| |apply in_rev; rewrite rev_involutive; exact A].
  rewrite map_rev. apply NoDup_rev. exact N.
Qed.
(** Of the others none is changed: the first request has all the caller gave it, *)
Theorem C152_first : forall server add forget h p, within p p = true ->
  exists h' r, run server add forget h p = (p, h') :: r /\ forall k, ~ In k (map fst add) -> get_header k h' = get_header k h.
Proof.
  intros server add forget h p W. unfold run, sends. cbn [follow round_trip fst]. rewrite W. cbn [negb orb].
  eexists. eexists. split; [reflexivity|]. intros k N. rewrite get_set_all, (names_rev add k N).
  rewrite (get_kept (fun _ => true)). reflexivity.
Qed.
(** and the later ones too, but for those net/http keeps to the domain of the first *)
Theorem C152_others : forall server add forget h p q h' k, ~ In k (map fst add) -> In (q, h') (run server add forget h p) ->
  get_header k h' = get_header k h \/ (sensitive k = true /\ get_header k h' = None).
Proof.
  intros server add forget h p q h' k N I. destruct (follow_in _ _ _ _ _ _ _ _ _ _ I) as [out ->].
  rewrite get_set_all, (names_rev add k N), (get_kept (fun k => negb out || negb (sensitive k))).
  destruct out; cbn [negb orb]; [|left; reflexivity]. destruct (sensitive k); cbn [negb]; [right; split; reflexivity|left; reflexivity].
Qed.
(** What the caller's request has under other names it keeps, *)
Theorem C152_caller_partial : forall add h k, ~ In k (map fst add) -> get_header k (left_with add h) = get_header k h.
Proof.
  intros add h k N. unfold left_with, round_trip. cbn [snd]. rewrite get_del_all, get_set_all, (names_rev add k N).
  destruct (existsb (beq k) (map fst add)) eqn:E; [|reflexivity].
  apply existsb_exists in E. destruct E as [x [X Y]]. apply beq_true in Y. subst x. contradiction.
Qed.
(** and what it has under one of the names is gone from it. *)
Theorem C152_caller_refuted : forall add h k, In k (map fst add) -> get_header k (left_with add h) = None.
Proof.
  intros add h k I. unfold left_with, round_trip. cbn [snd]. rewrite get_del_all.
  rewrite (proj2 (existsb_exists (beq k) (map fst add))) by (exists k; split; [exact I|apply beq_refl]). reflexivity.
Qed.
(** net/http alone sends no credentials to another domain, wherever it is redirected to, *)
Theorem C152_without : forall server h p q h' k, within p q = false -> sensitive k = true ->
  In (q, h') (run server [] true h p) -> get_header k h' = None.
Proof.
  intros server h p q h' k W S. unfold run, sends. generalize (10%nat) as n. generalize false as gone. 
  assert (G : forall n gone p', In (q, h') (follow place within server [] true n p h gone p') -> get_header k h' = None).
  { induction n as [|n IH]; intros gone p' I; [destruct I|]. cbn [follow round_trip fst set_all fold_left] in I. destruct I as [I|I].
    - injection I as -> <-. rewrite W. cbn [negb]. rewrite orb_true_r.
      rewrite (get_kept (fun k => negb true || negb (sensitive k))), S. reflexivity.
    - destruct (server p' _) as [p''|]; [|destruct I]. exact (IH _ _ I). }
  intros gone n. apply G.
Qed.
(** but what these clients add is sent to whatever place the server names: the token of
    rest.Header("Authorization", ...), and the key of api/open/ai. *)
Theorem C152_leak_refuted : forall server forget k v h p q, (forall h', server p h' = Some q) ->
  exists h', In (q, h') (run server [(k, v)] forget h p) /\ get_header k h' = Some v.
Proof.
  intros server forget k v h p q R. unfold run, sends. eexists. split.
  - cbn [follow]. right. rewrite R. left. reflexivity.
  - unfold round_trip. cbn [fst]. rewrite get_set_all. cbn [rev app get_header]. rewrite beq_refl. reflexivity.
Qed.
(** At most ten requests are made for one, wherever they are redirected to; *)
Theorem C152_ten : forall server add forget h p, (1 <= List.length (run server add forget h p) <= 10)%nat.
Proof.
  intros server add forget h p. unfold run, sends.
  assert (G : forall n first h0 gone p', (List.length (follow place within server add forget n first h0 gone p') <= n)%nat).
  { induction n as [|n IH]; intros first h0 gone p'; cbn [follow List.length]; [lia|]. destruct (server p' _) as [q|]; cbn [List.length]; [specialize (IH first h0 (if forget then false else gone || negb (within first p')) q)|]; lia. }
  split; [|apply G]. cbn [follow List.length]. lia.
Qed.
(** a server that always redirects is asked ten times. *)
Theorem C152_ten_reached : forall server add forget h p, (forall q h', server q h' <> None) ->
  List.length (run server add forget h p) = 10%nat.
Proof.
  intros server add forget h p R. unfold run, sends.
  assert (G : forall n first h0 gone p', List.length (follow place within server add forget n first h0 gone p') = n).
  { induction n as [|n IH]; intros first h0 gone p'; cbn [follow List.length]; [reflexivity|].
    match goal with |- context [server p' ?h1] => pose proof (R p' h1) as Q; destruct (server p' h1) as [q|]; [|congruence] end.
    rewrite IH. reflexivity. }
  apply G.
Qed.
End Props.

(** What is not to leave the domain: credentials, and no other header. *)
Theorem C152_sensitive : forall k, sensitive k = true <-> In k [text "Authorization"; text "Www-Authenticate"; text "Cookie"; text "Cookie2"].
Proof.
  intros k. unfold sensitive. rewrite existsb_exists. split.
  - intros [x [X Y]]. apply beq_true in Y. subst x. exact X.
  - intros I. exists k. split; [exact I|apply beq_refl].
Qed.
Theorem C152_example :
  let token := (text "Authorization", text "Bearer secret") in
  let server (p : nat) (_ : header) := match p with O => Some 1%nat | _ => None end in
  run nat Nat.eqb server [token] false [(text "Accept", text "application/json"); (text "Cookie", text "id=1")] 0%nat =
    [(0%nat, [token; (text "Accept", text "application/json"); (text "Cookie", text "id=1")]);
     (1%nat, [token; (text "Accept", text "application/json")])].
Proof. vm_compute. reflexivity. Qed.
