(** * C137: serving under Deno. *)
From Coq Require Import String.
From Verif Require Import GoBase GoText DenoModel.
Open Scope list_scope.
Open Scope Z_scope.

(** ** The specification *)
Fixpoint content (b : source) : bytes := match b with SChunk c r => c ++ content r | _ => [] end.
Fixpoint ending (b : source) : read := match b with SDone => REof | SFail e => RErr e | SChunk _ r => ending r end.
Fixpoint count (b : source) : nat := match b with SChunk _ r => S (count r) | _ => O end.

(** ** Proofs *)
Definition rest (s : stream) : bytes := s_data s ++ content (s_body s).
Lemma read_data n s d s' : read_n n s = (RData d, s') ->
  rest s = d ++ rest s' /\ (List.length d <= n)%nat /\ ending (s_body s') = ending (s_body s) /\
  ((n > 0)%nat -> (List.length (rest s') + count (s_body s') < List.length (rest s) + count (s_body s))%nat).
Proof.
  unfold read_n, rest. destruct s as [b dt]. cbn [s_body s_data]. destruct dt as [|x dt].
  - destruct b as [|e|c r]; intros E; inversion E; subst; clear E. cbn [s_data s_body content ending count app].
    assert (K : (if (n <? List.length c)%nat then skipn n c else []) = skipn n c).
    { destruct (n <? List.length c)%nat eqn:L; [reflexivity|]. apply Nat.ltb_ge in L. rewrite skipn_all2 by exact L. reflexivity. }
    unfold bytes in *. rewrite K. split; [rewrite app_assoc, firstn_skipn; reflexivity|]. split; [rewrite firstn_length; lia|]. split; [reflexivity|].
    intros N. rewrite !app_length, skipn_length. lia.
  - intros E. inversion E; subst; clear E. cbn [s_data s_body].
    split; [rewrite app_assoc, firstn_skipn; reflexivity|]. split; [rewrite firstn_length; lia|]. split; [reflexivity|].
    intros N. rewrite !app_length, skipn_length. cbn [List.length]. lia.
Qed.
Lemma read_end n s x s' : read_n n s = (x, s') -> (forall d, x <> RData d) -> rest s = [] /\ x = ending (s_body s).
Proof.
  unfold read_n, rest. destruct s as [b dt]. cbn [s_body s_data]. destruct dt as [|y dt].
  - destruct b as [|e|c r]; intros E N; inversion E; subst; try (split; reflexivity). exfalso. eapply N. reflexivity.
  - intros E N. inversion E; subst. exfalso. eapply N. reflexivity.
Qed.
Lemma reads ns : forall s ds e, read_all ns s = (ds, e) ->
  (exists more, rest s = concat ds ++ more) /\
  (forall x, e = Some x -> rest s = concat ds /\ x = ending (s_body s)).
Proof.
  induction ns as [|n ns IH]; intros s ds e E; cbn [read_all] in E.
  - inversion E; subst. split; [exists (rest s); reflexivity|discriminate].
  - destruct (read_n n s) as [[d| |m] s'] eqn:R.
    + destruct (read_all ns s') as [ds' e'] eqn:A. inversion E; subst. destruct (read_data _ _ _ _ R) as (P & _ & Q & _).
      destruct (IH _ _ _ A) as ((more & M) & F). split.
      * exists more. rewrite P, M. cbn [concat]. rewrite app_assoc. reflexivity.
      * intros x X. destruct (F x X) as [F1 F2]. rewrite P, F1, F2, Q. split; reflexivity.
    + inversion E; subst. destruct (read_end _ _ _ _ R ltac:(discriminate)) as [P Q]. split; [exists []; exact P|].
      intros x X. inversion X; subst. split; [exact P|exact Q].
    + inversion E; subst. destruct (read_end _ _ _ _ R ltac:(discriminate)) as [P Q]. split; [exists []; exact P|].
      intros x X. inversion X; subst. split; [exact P|exact Q].
Qed.
Lemma reads_finish ns : forall s, Forall (fun n => (n > 0)%nat) ns -> (List.length (rest s) + count (s_body s) < List.length ns)%nat ->
  snd (read_all ns s) <> None.
Proof.
  induction ns as [|n ns IH]; intros s P L; [cbn in L; lia|]. inversion P as [|? ? N P']; subst. cbn [read_all].
  destruct (read_n n s) as [[d| |m] s'] eqn:R; [|cbn; discriminate|cbn; discriminate].
  destruct (read_data _ _ _ _ R) as (_ & _ & _ & D). specialize (D N). specialize (IH s' P').
  cbn [List.length] in L. destruct (read_all ns s') as [ds e]. cbn [snd] in *. apply IH. lia.
Qed.

(** What is read, in buffers of any sizes, is the body in order: a part from its start, all
    of it when the end (or the failure of the stream) is reported, and that is reported. *)
Theorem C137_body_partial b ns ds e : read_all ns (body_of b) = (ds, e) ->
  (exists more, content b = concat ds ++ more) /\
  (forall x, e = Some x -> concat ds = content b /\ x = ending b) /\
  (Forall (fun n => (n > 0)%nat) ns -> (List.length (content b) + count b < List.length ns)%nat -> e <> None).
Proof.
  intros E. destruct (reads ns _ _ _ E) as [A B]. split; [exact A|]. split.
  - intros x X. destruct (B x X) as [B1 B2]. split; [symmetry; exact B1|exact B2].
  - intros P L. pose proof (reads_finish ns (body_of b) P L) as N. rewrite E in N. exact N.
Qed.
(** No buffer is given more than it holds. *)
Theorem C137_fits n s d s' : read_n n s = (RData d, s') -> (List.length d <= n)%nat.
Proof. intros R. apply (read_data _ _ _ _ R). Qed.
Theorem C137_example :
  read_all [2; 2; 2; 9; 9]%nat (body_of (SChunk [1; 2; 3] (SChunk [] (SChunk [4; 5] SDone)))) = ([[1; 2]; [3]; []; [4; 5]], Some REof) /\
  read_all [2; 9; 9]%nat (body_of (SChunk [1; 2; 3] (SFail [7]))) = ([[1; 2]; [3]], Some (RErr [7])).
Proof. split; reflexivity. Qed.

(** The status and body of the response are the handler's. *)
Theorem C137_status_and_body_partial r : 200 <= r_code r <= 599 -> ~ In (r_code r) [204; 205; 304] ->
  exists x, respond r = Ok x /\ r_code x = r_code r /\ r_body x = r_body r.
Proof.
  intros R N. unfold respond, js_response. rewrite (proj2 (Z.ltb_ge _ _)), (proj2 (Z.ltb_ge _ _)) by lia.
  assert (B : null_body (r_code r) = false).
  { unfold null_body. destruct ((r_code r =? 204) || (r_code r =? 205) || (r_code r =? 304)) eqn:E; [|reflexivity].
    exfalso. apply N. cbn. lia. }
  rewrite B. cbn [orb]. eexists. split; [reflexivity|]. split; reflexivity.
Qed.
(** Its headers (its content type among them) are not sent. *)
Theorem C137_headers_refuted r x : respond r = Ok x -> r_headers x = [].
Proof. unfold respond, js_response. destruct (_ || null_body _); intros E; inversion E. reflexivity. Qed.
(** A response without content, that of every function without results (host.go:848-850), ends
    the server. *)
Theorem C137_no_content_refuted h b : respond {| r_code := 204; r_headers := h; r_body := b |} = Panic.
Proof. reflexivity. Qed.
Theorem C137_crash_refuted r : respond r = Panic <-> r_code r < 200 \/ 599 < r_code r \/ In (r_code r) [204; 205; 304].
Proof.
  unfold respond, js_response, null_body. destruct (_ || _ || _) eqn:E; split; intros H; try reflexivity; try discriminate.
  - cbn. lia.
  - exfalso. cbn in H. lia.
Qed.
(** The address of the client is not known. *)
Theorem C137_address_refuted h a : remote_addr (h ++ [(text "x-forwarded-for", a)]) = text "<undefined>".
Proof. reflexivity. Qed.
