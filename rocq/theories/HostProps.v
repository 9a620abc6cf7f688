(** Proofs about the REST host and client (api/rest/host.go, api/rest/link.go). *)
From Coq Require Import String.
From Verif Require Import GoBase GoText HostModel HostSpec.
Local Open Scope Z_scope.
Local Open Scope list_scope.

Section Props.
Variables (V Ctx Args E : Type).
Variable encode : encoder V.
Variable encode_map : bytes -> list (bytes * V) -> bytes + error.
Variable form : rw -> rw.
Variable status_text : Z -> bytes.
Variable decode : bytes -> bytes -> option V.
Variable decode_map : bytes -> list bytes -> bytes -> option (list V).
Notation auth := (auth Ctx Args).
Notation op := (op V Ctx Args).
Notation request := (request Ctx).
Notation serve := (serve V Ctx Args encode encode_map form).
Notation handle := (handle Ctx Args).
Notation redacted := (redacted Ctx Args).
Notation receive := (receive V Ctx Args E status_text decode decode_map).
Notation ECall := (ECall Ctx Args).
Notation ERead := (ERead Ctx Args).
Notation EAuthenticate := (EAuthenticate Ctx Args).
Notation EAuthorize := (EAuthorize Ctx Args).
Notation EForm := (EForm Ctx Args).
Notation allowed := (allowed Ctx Args).

Lemma find_none_iff {A} (f : A -> bool) l : find f l = None <-> (forall x, In x l -> f x = false).
Proof. split; [apply find_none|]. induction l as [|x l IH]; [reflexivity|]. intros H. cbn [find]. rewrite (H x) by (left; reflexivity). apply IH. intros y I. apply H. right. exact I. Qed.
(** ** C108 *)
(** The function is called only after Authenticate and Authorize have agreed, with the context the one
    returned and with the arguments the other was shown; nothing is called after it. *)
Theorem C108_call (a : auth) (o : op) q ctx args : In (ECall ctx args) (fst (serve (Some a) o q)) ->
  fst (serve (Some a) o q) = [EAuthenticate ctx None; ERead; EAuthorize ctx args None; ECall ctx args] /\ allowed (Some a) (q_ctx Ctx q) ctx args.
Proof.
  unfold HostModel.serve. destruct (authenticate Ctx Args a) as [c e] eqn:A. destruct e as [e|]; [intros [Q|[]]; discriminate|].
  match goal with |- context [if ?b then _ else _] => destruct b end; [intros [Q|[Q|[]]]; discriminate|].
  destruct (o_read V Ctx Args o) as [args'|[e|[]]]; cbn [fst]; [|intros [Q|[Q|[]]]; discriminate|intros [Q|[Q|[]]]; discriminate].
  destruct (authorize Ctx Args a c args') as [e|] eqn:Z; cbn [fst app]; [intros [Q|[Q|[Q|[]]]]; discriminate|].
  intros [Q|[Q|[Q|[Q|[]]]]]; try discriminate. injection Q as -> ->. split; [reflexivity|]. split; assumption.
Qed.
(** Not even the arguments are read before Authenticate has agreed. *)
Theorem C108_read (a : auth) (o : op) q : In ERead (fst (serve (Some a) o q)) -> exists ctx r, authenticate _ _ a = (ctx, None) /\ fst (serve (Some a) o q) = EAuthenticate ctx None :: r.
Proof.
  unfold HostModel.serve. destruct (authenticate Ctx Args a) as [c e] eqn:A. destruct e as [e|]; [intros [Q|[]]; discriminate|]. intros _. exists c.
  match goal with |- context [if ?b then _ else _] => destruct b end; [eexists; split; reflexivity|].
  destruct (o_read V Ctx Args o) as [args'|[e|[]]]; cbn [fst app]; [|eexists; split; reflexivity|eexists; split; reflexivity].
  destruct (authorize Ctx Args a c args') as [e|]; eexists; split; reflexivity.
Qed.
(** What a failing request is answered depends on the redacted error alone, if the error writes no headers. *)
Lemma handle_redacted a sc ctx e1 e2 w : eheaders e1 = [] -> eheaders e2 = [] -> redacted a ctx e1 = redacted a ctx e2 -> handle a sc ctx e1 w = handle a sc ctx e2 w.
Proof. intros H1 H2 R. unfold HostModel.handle. rewrite H1, H2, R. reflexivity. Qed.
Theorem C108_redacted_partial (a : auth) (o o' : op) q e1 e2 :
  (forall ctx args, o_call _ _ _ o ctx args = inr e1) -> o' = {| o_method := o_method _ _ _ o; o_default := o_default _ _ _ o; o_scenarios := o_scenarios _ _ _ o; o_rules := o_rules _ _ _ o; o_read := o_read _ _ _ o; o_call := fun _ _ => inr e2 |} ->
  eheaders e1 = [] -> eheaders e2 = [] -> (forall ctx, redact _ _ a ctx e1 = redact _ _ a ctx e2) ->
  snd (serve (Some a) o q) = snd (serve (Some a) o' q).
Proof.
  intros F -> H1 H2 R. unfold HostModel.serve. destruct (authenticate Ctx Args a) as [c [e|]]; [reflexivity|]. cbn [o_default o_method o_scenarios o_read].
  match goal with |- context [if ?b then _ else _] => destruct b end; [reflexivity|]. destruct (o_read V Ctx Args o) as [args'|[e|[]]]; try reflexivity.
  destruct (authorize Ctx Args a c args') as [e|]; [reflexivity|]. cbn [snd o_call]. rewrite F. apply handle_redacted; try assumption. apply R.
Qed.
(** Headers are taken from the error before it is redacted: they are sent. *)
Lemma beq_sym a b : beq a b = beq b a.
Proof. destruct (beq a b) eqn:Q; [apply beq_true in Q; subst; symmetry; apply beq_refl|]. destruct (beq b a) eqn:Q'; [apply beq_true in Q'; subst; rewrite beq_refl in Q; discriminate|reflexivity]. Qed.
Lemma hget_del k k' h : beq k k' = false -> hget k (hdel k' h) = hget k h.
Proof.
  intros N. unfold hget, hdel. induction h as [|(x & v) h IH]; [reflexivity|]. cbn [filter find fst]. destruct (beq x k') eqn:Q; cbn [negb].
  - rewrite IH. cbn [find fst]. destruct (beq x k) eqn:Q2; [|reflexivity]. apply beq_true in Q, Q2. subst. rewrite beq_refl in N. discriminate.
  - cbn [find fst]. destruct (beq x k); [reflexivity|exact IH].
Qed.
Lemma hget_set k v h : hget k (hset k v h) = v.
Proof. unfold hget, hset. cbn [find fst]. rewrite beq_refl. reflexivity. Qed.
Lemma hget_set_other k k' v h : beq k k' = false -> hget k (hset k' v h) = hget k h.
Proof. intros N. unfold hset. rewrite <- (hget_del k k' h N). unfold hget. cbn [find fst]. rewrite beq_sym, N. reflexivity. Qed.
(** An error answered on a fresh response. *)
Definition final_status (s : Z) : Prop := 200 <= s <= 999 /\ s <> 204 /\ s <> 304.
Lemma http_error_fresh m s h : final_status s -> exists h', http_error m s {| hdr := h; sent := None; out := [] |} = Some {| hdr := h'; sent := Some (s, h'); out := m ++ [10] |} /\
  h' = hset (text "X-Content-Type-Options") (text "nosniff") (hset ContentType text_utf8 (hdel ContentLength h)).
Proof.
  intros ((A & B) & C & D). eexists. split; [|reflexivity]. unfold http_error, write_header. cbn [sent hdr out].
  replace (s <? 100) with false by lia. replace (999 <? s) with false by lia. replace (s <=? 199) with false by lia. cbn [orb andb].
  unfold write. cbn [sent hdr out]. unfold body_allowed. replace (s <=? 199) with false by lia. replace (s =? 204) with false by lia. replace (s =? 304) with false by lia. reflexivity.
Qed.
Theorem C108_headers_refuted (a : auth) (o : op) q e ctx args k v :
  allowed (Some a) (q_ctx _ q) ctx args -> o_read _ _ _ o = inl args -> o_call _ _ _ o ctx args = inr e -> q_accept _ q = client_accept ->
  eheaders e = [(k, v)] -> beq k ContentType = false -> beq k ContentLength = false -> beq k (text "X-Content-Type-Options") = false ->
  redact _ _ a ctx e = Err (text "redacted") (Some 403) false [] None -> o_scenarios _ _ _ o = [] ->
  exists w, snd (serve (Some a) o q) = Some w /\ hget k (rhdr (response_of w)) = v /\ body (response_of w) = text "redacted" ++ [10] /\ code (response_of w) = 403.
Proof.
  intros (A & Z) RD CL AC EH N1 N2 N3 RE SC. unfold HostModel.serve. rewrite A, AC.
  replace ((negb (beq (o_default V Ctx Args o) (text "text/html")) && beq (o_method V Ctx Args o) (text "GET") && contains client_accept (text "text/html")) || contains client_accept (text "application/schema+json")) with false by (change (contains client_accept (text "text/html")) with false; change (contains client_accept (text "application/schema+json")) with false; rewrite andb_false_r; reflexivity).
  rewrite RD, Z. cbn [snd]. rewrite CL. unfold HostModel.handle, fresh. cbn [HostModel.redacted hdr sent out]. rewrite RE, EH, SC. cbn [ejson find message_of status_of estatus message hset_all fold_left fst snd]. change (403 =? 0) with false. cbv iota.
  destruct (http_error_fresh (text "redacted") 403 (hset k v [])) as (h' & -> & EH'); [unfold final_status; lia|]. exists {| hdr := h'; sent := Some (403, h'); out := text "redacted" ++ [10] |}. split; [reflexivity|].
  unfold response_of. cbn [sent out rhdr body code]. split; [|split; reflexivity].
  assert (G : hget k h' = v). { rewrite EH'. rewrite hget_set_other by exact N3. rewrite hget_set_other by exact N1. rewrite hget_del by exact N2. apply hget_set. }
  destruct (find _ h'); [exact G|]. change (hget k (hset ContentType (sniff (text "redacted" ++ [10])) h') = v). rewrite hget_set_other by exact N1. exact G.
Qed.
(** A GET of a resource that has none is answered with the form of the resource: without authentication. *)
Theorem C108_form_refuted (a : auth) ops q : Forall (fun o : op => o_method _ _ _ o <> text "GET") ops ->
  dispatch V Ctx Args encode encode_map form (Some a) ops (text "GET") q = ([EForm], Some (form fresh)).
Proof.
  intros F. unfold dispatch. rewrite (proj2 (find_none_iff _ _)); [reflexivity|]. intros o I. rewrite Forall_forall in F. apply beq_false. apply F. exact I.
Qed.
(** No function of a resource is called but after Authenticate and Authorize. *)
Theorem C108_dispatch (a : auth) ops m q ctx args : In (ECall ctx args) (fst (dispatch V Ctx Args encode encode_map form (Some a) ops m q)) -> allowed (Some a) (q_ctx Ctx q) ctx args.
Proof.
  unfold dispatch. destruct (find _ ops) as [o|]; [intros I; apply (C108_call a o q); exact I|]. destruct (beq m (text "GET")); [intros [Q|[]]; discriminate|]. destruct (beq m (text "OPTIONS")); intros [].
Qed.
End Props.
Print Assumptions C108_headers_refuted.
