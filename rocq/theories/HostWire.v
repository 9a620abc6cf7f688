(** Errors and results from a REST host to a linked client (api/rest/host.go, api/rest/link.go). *)
From Coq Require Import String.
From Verif Require Import GoBase GoText HostModel HostSpec HostProps.
Local Open Scope Z_scope.
Local Open Scope list_scope.

Lemma drop_blank f (m : bytes) b : hd_error m = Some b -> f b = false -> drop_while f m = m.
Proof. destruct m as [|x m]; [discriminate|]. cbn. intros Q N. injection Q as ->. rewrite N. reflexivity. Qed.
Lemma member_blank b : ~ blank b -> member b [9; 10; 11; 12; 13; 32] = false.
Proof.
  intros N. unfold member. destruct (existsb (Z.eqb b) [9; 10; 11; 12; 13; 32]) eqn:Q; [|reflexivity]. apply existsb_exists in Q. destruct Q as (x & I & Q). apply Z.eqb_eq in Q. subst. destruct (N I).
Qed.
Lemma trim_tidy m : tidy m -> trim_space (m ++ [10]) = m.
Proof.
  intros (b & l & HB & NB & HL & NL). unfold trim_space, trim. destruct m as [|x m]; [discriminate|]. cbn in HB. injection HB as ->.
  assert (D : drop_while (fun c => member c [9; 10; 11; 12; 13; 32]) ((b :: m) ++ [10]) = (b :: m) ++ [10]) by (apply (drop_blank _ _ b); [reflexivity|apply member_blank; exact NB]).
  rewrite D. rewrite rev_app_distr. change (rev [10]) with [10]. change ([10] ++ rev (b :: m)) with (10 :: rev (b :: m)). cbn [drop_while]. change (member 10 [9; 10; 11; 12; 13; 32]) with true. cbv iota.
  rewrite (drop_blank _ _ l); [apply rev_involutive|exact HL|apply member_blank; exact NL].
Qed.
Lemma tidy_nonempty m : tidy m -> beq m [] = false.
Proof. intros (b & l & HB & _). apply beq_false. intros ->. discriminate. Qed.

Section Wire.
Variables (V Ctx Args E : Type).
Variable encode : encoder V.
Variable encode_map : bytes -> list (bytes * V) -> bytes + error.
Variable form : rw -> rw.
Variable status_text : Z -> bytes.
Variable decode : bytes -> bytes -> option V.
Variable decode_map : bytes -> list bytes -> bytes -> option (list V).
Notation auth := (auth Ctx Args).
Notation op := (op V Ctx Args).
Notation request := (request Ctx).
Notation serve := (serve V Ctx Args encode encode_map form).
Notation handle := (handle Ctx Args).
Notation redacted := (redacted Ctx Args).
Notation receive := (receive V Ctx Args E status_text decode decode_map).
Notation allowed := (allowed Ctx Args).
Notation scenarios := (o_scenarios V Ctx Args).
Notation CFail := (CFail V E).
Notation COk := (COk V E).
Notation CErr := (CErr E).

(** A request of a linked client that reaches the function. *)
Definition reached (a : option auth) (o : op) (q : request) (ctx : Ctx) (args : Args) : Prop :=
  allowed a (q_ctx _ q) ctx args /\ o_read _ _ _ o = inl args /\ q_accept _ q = client_accept.
Lemma no_form (o : op) : (negb (beq (o_default V Ctx Args o) (text "text/html")) && beq (o_method V Ctx Args o) (text "GET") && contains client_accept (text "text/html")) || contains client_accept (text "application/schema+json") = false.
Proof. change (contains client_accept (text "text/html")) with false. change (contains client_accept (text "application/schema+json")) with false. rewrite andb_false_r. reflexivity. Qed.
Lemma serve_reached a o q ctx args : reached a o q ctx args -> snd (serve a o q) =
  match o_call _ _ _ o ctx args with inr e => handle a (scenarios o) ctx e fresh | inl vs => reply V Ctx Args encode encode_map a o ctx client_accept vs fresh end.
Proof.
  intros (AL & RD & AC). unfold HostModel.serve. rewrite AC. destruct a as [a|]; cbn [HostSpec.allowed] in AL.
  - destruct AL as (A & Z). rewrite A. rewrite no_form. rewrite RD, Z. cbn [snd]. reflexivity.
  - subst ctx. rewrite no_form. rewrite RD. cbn [snd]. reflexivity.
Qed.
Lemma handle_plain a sc ctx e m s : ejson (redacted a ctx e) = None ->
  (match find (fun s => s_test s (redacted a ctx e)) sc with
   | Some x => (if beq (s_text x) [] then message_of (redacted a ctx e) else s_text x) = m /\ (if s_code x =? 0 then status_of (redacted a ctx e) else s_code x) = s
   | None => message_of (redacted a ctx e) = m /\ status_of (redacted a ctx e) = s
   end) -> handle a sc ctx e fresh = http_error m s {| hdr := hset_all (eheaders e) []; sent := None; out := [] |}.
Proof.
  intros J F. unfold HostModel.handle, fresh. cbn [hdr sent out]. rewrite J. destruct (find _ sc) as [x|]; destruct F as (<- & <-); reflexivity.
Qed.
(** What the client makes of an error answer. *)
Lemma receive_error typed o mime n s h m : 300 <= s <= 999 -> receive typed o mime n (response_of {| hdr := h; sent := Some (s, h); out := m |}) =
  decode_error V E status_text typed (o_method _ _ _ o) {| code := s; body := m; rhdr := rhdr (response_of {| hdr := h; sent := Some (s, h); out := m |}) |}.
Proof. intros S'. unfold HostModel.receive. unfold response_of. cbn [sent out code]. replace (s <? 200) with false by lia. replace (299 <? s) with true by lia. reflexivity. Qed.
Lemma response_kept s b : error_status s -> ~ special_status s -> from_response E status_text s b = response_error E status_text s (trim_space b).
Proof.
  intros (A & B) N. unfold from_response. unfold special_status in N. cbn [In] in N.
  replace (s =? 411) with false by lia. replace (s =? 413) with false by lia. replace (s =? 414) with false by lia. replace (s =? 429) with false by lia. replace (s =? 431) with false by lia. replace (s =? 500) with false by lia. reflexivity.
Qed.
Lemma error_arrives a o q ctx args e m s mime n : reached a o q ctx args -> o_call _ _ _ o ctx args = inr e -> ejson (redacted a ctx e) = None ->
  (match find (fun s => s_test s (redacted a ctx e)) (scenarios o) with
   | Some x => (if beq (s_text x) [] then message_of (redacted a ctx e) else s_text x) = m /\ (if s_code x =? 0 then status_of (redacted a ctx e) else s_code x) = s
   | None => message_of (redacted a ctx e) = m /\ status_of (redacted a ctx e) = s
   end) -> tidy m -> error_status s -> ~ special_status s ->
  exists w, snd (serve a o q) = Some w /\ receive None o mime n (response_of w) = CFail (CErr m (Some s)).
Proof.
  intros R C J F T S' N. rewrite (serve_reached a o q ctx args R), C. rewrite (handle_plain _ _ _ _ m s J F).
  destruct (http_error_fresh m s (hset_all (eheaders e) [])) as (h' & -> & _); [unfold final_status, error_status in *; lia|]. eexists. split; [reflexivity|].
  rewrite receive_error by (unfold error_status in *; lia). unfold decode_error. cbn [code body]. replace (s =? 404) with false by (unfold special_status in N; cbn [In] in N; lia).
  rewrite (response_kept s _ S' N), (trim_tidy m T). unfold response_error. rewrite (tidy_nonempty m T). reflexivity.
Qed.
(** ** C109 *)
(** An error with a status, as redacted, reaches the caller with its message and its status. *)
Theorem C109_error_partial a o q ctx args e s mime n : reached a o q ctx args -> o_call _ _ _ o ctx args = inr e ->
  ejson (redacted a ctx e) = None -> Forall (fun x => s_test x (redacted a ctx e) = false) (scenarios o) ->
  estatus (redacted a ctx e) = Some s -> error_status s -> ~ special_status s -> tidy (message (redacted a ctx e)) ->
  exists w, snd (serve a o q) = Some w /\ receive None o mime n (response_of w) = CFail (CErr (message (redacted a ctx e)) (Some s)).
Proof.
  intros R C J NS ES S' N T. apply (error_arrives a o q ctx args e); try assumption.
  rewrite (proj2 (find_none_iff _ _)) by (rewrite Forall_forall in NS; exact NS). unfold message_of, status_of. rewrite ES. split; [reflexivity|]. replace (s =? 0) with false by (unfold error_status in S'; lia). reflexivity.
Qed.
(** A registered scenario gives its own status and text. *)
Theorem C109_scenario_partial a o q ctx args e before x after mime n : reached a o q ctx args -> o_call _ _ _ o ctx args = inr e ->
  ejson (redacted a ctx e) = None -> scenarios o = before ++ x :: after -> Forall (fun y => s_test y (redacted a ctx e) = false) before -> s_test x (redacted a ctx e) = true ->
  error_status (s_code x) -> ~ special_status (s_code x) -> tidy (s_text x) ->
  exists w, snd (serve a o q) = Some w /\ receive None o mime n (response_of w) = CFail (CErr (s_text x) (Some (s_code x))).
Proof.
  intros R C J SC NB TX S' N T. apply (error_arrives a o q ctx args e); try assumption. rewrite SC.
  assert (F : find (fun y => s_test y (redacted a ctx e)) (before ++ x :: after) = Some x).
  { clear - NB TX. induction NB as [|y l Q NB IH]; cbn [app find]; [rewrite TX; reflexivity|rewrite Q; exact IH]. }
  rewrite F, (tidy_nonempty _ T). replace (s_code x =? 0) with false by (unfold error_status in S'; lia). split; reflexivity.
Qed.
(** A function without an implementation is 501 and says so. *)
Theorem C109_not_implemented a o q ctx args e mime n : reached a o q ctx args -> o_call _ _ _ o ctx args = inr e -> ejson (redacted a ctx e) = None ->
  Forall (fun x => s_test x (redacted a ctx e) = false) (scenarios o) -> estatus (redacted a ctx e) = None -> is_notimpl (redacted a ctx e) = true ->
  exists w, snd (serve a o q) = Some w /\ receive None o mime n (response_of w) = CFail (CErr (text "not implemented") (Some 501)).
Proof.
  intros R C J NS ES NI. apply (error_arrives a o q ctx args e); try assumption.
  - rewrite (proj2 (find_none_iff _ _)) by (rewrite Forall_forall in NS; exact NS). unfold message_of, status_of. rewrite ES, NI. split; reflexivity.
  - exists 110, 100. repeat split; try reflexivity; unfold blank; cbn [In]; lia.
  - unfold error_status. lia.
  - unfold special_status. cbn [In]. lia.
Qed.
(** An error without a status: the caller gets one without a status, its message inside another. *)
Theorem C109_no_status_refuted o q args e mime n : reached None o q (q_ctx _ q) args -> o_call _ _ _ o (q_ctx _ q) args = inr e -> ejson e = None -> scenarios o = [] -> estatus e = None -> is_notimpl e = false ->
  exists w, snd (serve None o q) = Some w /\ receive None o mime n (response_of w) = CFail (CErr (text "unexpected status : 500 Internal Server Error " ++ message e ++ [10]) None).
Proof.
  intros R C J NS ES NI. rewrite (serve_reached _ _ _ _ _ R), C. rewrite (handle_plain None (scenarios o) (q_ctx _ q) e (message e) 500 J) by (rewrite NS; cbn [find HostModel.redacted]; unfold message_of, status_of; rewrite ES, NI; split; reflexivity).
  destruct (http_error_fresh (message e) 500 (hset_all (eheaders e) [])) as (h' & -> & _); [unfold final_status; lia|]. eexists. split; [reflexivity|]. rewrite receive_error by lia. reflexivity.
Qed.
(** ... and an error with a status that has been wrapped (as xray.New does) is one without. *)
Theorem C109_wrapped_refuted o q args m e mime n : reached None o q (q_ctx _ q) args -> o_call _ _ _ o (q_ctx _ q) args = inr (Wrap m e) -> scenarios o = [] -> is_notimpl e = false ->
  exists w, snd (serve None o q) = Some w /\ receive None o mime n (response_of w) = CFail (CErr (text "unexpected status : 500 Internal Server Error " ++ m ++ [10]) None).
Proof. intros R C NS NI. apply (C109_no_status_refuted o q args (Wrap m e)); try assumption; reflexivity. Qed.
(** Not found: the message and the status are lost; for a DELETE, the error is. *)
Theorem C109_not_found_refuted o q args e mime n : reached None o q (q_ctx _ q) args -> o_call _ _ _ o (q_ctx _ q) args = inr e -> ejson e = None -> scenarios o = [] -> estatus e = Some 404 ->
  exists w, snd (serve None o q) = Some w /\ receive None o mime n (response_of w) = if beq (o_method _ _ _ o) (text "DELETE") then CZero V E else CFail (CErr (text "not found") None).
Proof.
  intros R C J NS ES. rewrite (serve_reached _ _ _ _ _ R), C. rewrite (handle_plain None (scenarios o) (q_ctx _ q) e (message e) 404 J) by (rewrite NS; cbn [find HostModel.redacted]; unfold message_of, status_of; rewrite ES; split; reflexivity).
  destruct (http_error_fresh (message e) 404 (hset_all (eheaders e) [])) as (h' & -> & _); [unfold final_status; lia|]. eexists. split; [reflexivity|]. rewrite receive_error by lia. reflexivity.
Qed.
(** Too many requests: the message is replaced. *)
Theorem C109_message_refuted o q args e mime n : reached None o q (q_ctx _ q) args -> o_call _ _ _ o (q_ctx _ q) args = inr e -> ejson e = None -> scenarios o = [] -> estatus e = Some 429 ->
  exists w, snd (serve None o q) = Some w /\ receive None o mime n (response_of w) = CFail (CErr (text "please slow down") (Some 429)).
Proof.
  intros R C J NS ES. rewrite (serve_reached _ _ _ _ _ R), C. rewrite (handle_plain None (scenarios o) (q_ctx _ q) e (message e) 429 J) by (rewrite NS; cbn [find HostModel.redacted]; unfold message_of, status_of; rewrite ES; split; reflexivity).
  destruct (http_error_fresh (message e) 429 (hset_all (eheaders e) [])) as (h' & -> & _); [unfold final_status; lia|]. eexists. split; [reflexivity|]. rewrite receive_error by lia. reflexivity.
Qed.
(** An error with a status of success, or an informational one, is a success. *)
Theorem C109_success_refuted o q args e s mime : reached None o q (q_ctx _ q) args -> o_call _ _ _ o (q_ctx _ q) args = inr e -> ejson e = None -> scenarios o = [] -> estatus e = Some s -> 102 <= s <= 299 ->
  exists w, snd (serve None o q) = Some w /\ receive None o mime O (response_of w) = COk [].
Proof.
  intros R C J NS ES S'. rewrite (serve_reached _ _ _ _ _ R), C. rewrite (handle_plain None (scenarios o) (q_ctx _ q) e (message e) s J) by (rewrite NS; cbn [find HostModel.redacted]; unfold message_of, status_of; rewrite ES; split; [reflexivity|]; replace (s =? 0) with false by lia; reflexivity).
  unfold http_error, write_header. cbn [sent hdr out]. replace (s <? 100) with false by lia. replace (999 <? s) with false by lia. cbn [orb].
  destruct ((s <=? 199) && negb (s =? 101)) eqn:I; (eexists; split; [reflexivity|]); unfold HostModel.receive, response_of, write; cbn [sent hdr out].
  - change (body_allowed 200) with true. cbn [sent out code]. reflexivity.
  - assert (199 < s) by lia. destruct (body_allowed s); cbn [sent out code]; (replace (s <? 200) with false by lia); (replace (299 <? s) with false by lia); reflexivity.
Qed.
(** An error whose status is no three digit number takes the handler down. *)
Theorem C109_bad_status_refuted o q args e s : reached None o q (q_ctx _ q) args -> o_call _ _ _ o (q_ctx _ q) args = inr e -> ejson e = None -> scenarios o = [] -> estatus e = Some s -> s <> 0 -> s < 100 \/ 999 < s ->
  snd (serve None o q) = None.
Proof.
  intros R C J NS ES Z S'. rewrite (serve_reached _ _ _ _ _ R), C. rewrite (handle_plain None (scenarios o) (q_ctx _ q) e (message e) s J) by (rewrite NS; cbn [find HostModel.redacted]; unfold message_of, status_of; rewrite ES; split; [reflexivity|]; replace (s =? 0) with false by lia; reflexivity).
  unfold http_error, write_header. cbn [sent hdr out]. replace ((s <? 100) || (999 <? s)) with true by lia. reflexivity.
Qed.
(** An error with a JSON form reaches the caller as the registered error type, whatever its status is. *)
Theorem C109_typed_partial a o q ctx args e j s d e' mime n : reached a o q ctx args -> o_call _ _ _ o ctx args = inr e -> ejson (redacted a ctx e) = Some j -> estatus (redacted a ctx e) = Some s -> error_status s -> d j = Some e' ->
  exists w, snd (serve a o q) = Some w /\ receive (Some d) o mime n (response_of w) = CFail (CTyped E e').
Proof.
  intros R C J ES S' D. rewrite (serve_reached _ _ _ _ _ R), C. unfold HostModel.handle. rewrite J. unfold status_of, write_header, set_header, fresh. cbn [sent hdr out]. rewrite ES. unfold error_status in S'.
  replace (s =? 0) with false by lia. replace (s <? 100) with false by lia. replace (999 <? s) with false by lia. replace (s <=? 199) with false by lia. cbn [orb andb]. eexists. split; [reflexivity|].
  unfold write. cbn [sent hdr out]. unfold body_allowed. replace (s <=? 199) with false by lia. replace (s =? 204) with false by lia. replace (s =? 304) with false by lia. cbn [orb negb app]. rewrite receive_error by lia.
  unfold decode_error. cbn [body]. rewrite D. reflexivity.
Qed.
(** With a registered error type, an error that is not of it loses its message: the decoder has taken it. *)
Theorem C109_typed_plain_refuted o q args e s d mime n : reached None o q (q_ctx _ q) args -> o_call _ _ _ o (q_ctx _ q) args = inr e -> ejson e = None -> scenarios o = [] -> estatus e = Some s -> error_status s -> ~ special_status s ->
  (length (message e) < 512)%nat -> d (message e ++ [10]) = None ->
  exists w, snd (serve None o q) = Some w /\ receive (Some d) o mime n (response_of w) = CFail (CErr (status_text s) (Some s)).
Proof.
  intros R C J NS ES S' N L D. rewrite (serve_reached _ _ _ _ _ R), C. rewrite (handle_plain None (scenarios o) (q_ctx _ q) e (message e) s J) by (rewrite NS; cbn [find HostModel.redacted]; unfold message_of, status_of; rewrite ES; split; [reflexivity|]; replace (s =? 0) with false by (unfold error_status in S'; lia); reflexivity).
  destruct (http_error_fresh (message e) s (hset_all (eheaders e) [])) as (h' & -> & _); [unfold final_status, error_status in *; lia|]. eexists. split; [reflexivity|]. rewrite receive_error by (unfold error_status in S'; lia).
  unfold decode_error. cbn [body code]. rewrite D. replace (s =? 404) with false by (unfold special_status in N; cbn [In] in N; lia). rewrite (response_kept s _ S' N).
  replace (skipn 512 (message e ++ [10])) with (@nil Z) by (symmetry; apply skipn_all2; rewrite app_length; cbn [List.length]; lia). reflexivity.
Qed.

(** ** C110 *)
Notation JSON := (text "application/json").
Lemma accepts_json : negotiate (split client_accept 44) = Some JSON.
Proof. reflexivity. Qed.
Lemma response_typed h s b t : hget ContentType h = t -> t <> [] -> rhdr (response_of {| hdr := h; sent := Some (s, h); out := b |}) = h.
Proof.
  intros G N. unfold response_of. cbn [sent out rhdr]. destruct (find (fun kv => beq (fst kv) ContentType) h) eqn:F; [reflexivity|]. unfold hget in G. rewrite F in G. subst. destruct (N eq_refl).
Qed.
Lemma write_fresh h b : write b {| hdr := h; sent := None; out := [] |} = {| hdr := h; sent := Some (200, h); out := b |}.
Proof. reflexivity. Qed.
Lemma receive_ok o n h b : hget ContentType h = JSON -> receive None o false (S n) (response_of {| hdr := h; sent := Some (200, h); out := b |}) =
  match o_rules _ _ _ o with
  | _ :: _ => match decode_map JSON (o_rules _ _ _ o) b with Some vs => COk vs | None => CFail (decode_failed E) end
  | [] => match decode JSON b with Some v => COk [v] | None => CFail (decode_failed E) end
  end.
Proof.
  intros G. unfold HostModel.receive. rewrite (response_typed _ _ _ _ G) by discriminate. rewrite G. unfold response_of. cbn [sent out code body].
  change (200 <? 200) with false. change (299 <? 200) with false. change (media_type JSON) with JSON. reflexivity.
Qed.
(** The result of a linked function is the value the function returned. *)
Theorem C110_result_partial a o q ctx args k hd v b : reached a o q ctx args -> o_rules _ _ _ o = [] -> o_call _ _ _ o ctx args = inl [Data V k hd None v] ->
  encode JSON v = inl b -> decode JSON b = Some v ->
  exists w, snd (serve a o q) = Some w /\ receive None o false 1 (response_of w) = COk [v].
Proof.
  intros R RU C EN DE. rewrite (serve_reached _ _ _ _ _ R), C. unfold reply, fresh. cbn [announce hdr sent out]. unfold respond.
  change (beq client_accept [] || beq client_accept (text "*/*")) with false. cbv iota. rewrite accepts_json. cbv zeta. rewrite RU. cbn [encode_results]. rewrite EN. eexists. split; [reflexivity|]. unfold set_header. cbn [hdr sent out].
  rewrite write_fresh, receive_ok by apply hget_set. rewrite RU, DE. reflexivity.
Qed.
(** Several results are the values returned, if an object of them can be read back. *)
Fixpoint plain_data (vs : list (value V)) (ds : list V) : Prop :=
  match vs, ds with [], [] => True | Data _ _ _ None d :: vs, e :: ds => d = e /\ plain_data vs ds | _, _ => False end.
Lemma announce_plain vs ds h : plain_data vs ds -> exists h', announce V vs {| hdr := h; sent := None; out := [] |} = Some {| hdr := h'; sent := None; out := [] |}.
Proof.
  revert ds h. induction vs as [|[k hd st d|c f] vs IH]; intros ds h P; [eexists; reflexivity| |destruct ds; destruct P]. destruct st as [s|]; [destruct ds; destruct P|]. destruct ds as [|e ds]; [destruct P|]. destruct P as (_ & P). cbn [announce hdr sent out]. eapply IH. exact P.
Qed.
Theorem C110_results_partial a o q ctx args vs ds b : reached a o q ctx args -> o_rules _ _ _ o <> [] -> o_call _ _ _ o ctx args = inl vs -> plain_data vs ds -> length ds = length (o_rules _ _ _ o) ->
  encode_map JSON (combine (o_rules _ _ _ o) ds) = inl b -> decode_map JSON (o_rules _ _ _ o) b = Some ds ->
  exists w, snd (serve a o q) = Some w /\ receive None o false (length ds) (response_of w) = COk ds.
Proof.
  intros R RU C P L EN DE. rewrite (serve_reached _ _ _ _ _ R), C. unfold reply. destruct (announce_plain vs ds [] P) as (h' & AN). unfold fresh. rewrite AN.
  assert (ER : encode_results V encode encode_map JSON (o_rules _ _ _ o) vs = inl b).
  { unfold encode_results. destruct (o_rules V Ctx Args o) as [|r0 rs0] eqn:RE; [destruct (RU eq_refl)|]. rewrite <- EN. clear EN DE AN C RE RU.
    assert (G : forall rs vs ds acc, plain_data vs ds -> length ds = length rs -> (fix go (rs : list bytes) (vs : list (value V)) (acc : list (bytes * V)) : bytes + error :=
       match rs, vs with
       | r :: rs, Data _ _ _ _ v :: vs => go rs vs (acc ++ [(r, v)])
       | [], _ => encode_map JSON acc
       | _, _ => inr no_encoding
       end) rs vs acc = encode_map JSON (acc ++ combine rs ds)).
    { clear. induction rs as [|r rs IH]; intros vs ds acc P L; [rewrite app_nil_r; reflexivity|]. destruct ds as [|d ds]; [discriminate|]. destruct vs as [|[k hd [s|] v|c f] vs]; try destruct P. subst v. rewrite (IH vs ds) by (try assumption; cbn in L; lia). rewrite <- app_assoc. reflexivity. }
    apply (G (r0 :: rs0) vs ds [] P L). }
  assert (LN : exists n, length ds = S n) by (destruct (o_rules V Ctx Args o); [destruct (RU eq_refl)|cbn in L; eexists; exact L]). destruct LN as (n & LN).
  assert (RR : respond V Ctx Args encode encode_map a o ctx client_accept vs {| hdr := h'; sent := None; out := [] |} = Some {| hdr := hset ContentType JSON h'; sent := Some (200, hset ContentType JSON h'); out := b |}).
  { unfold respond. change (beq client_accept [] || beq client_accept (text "*/*")) with false. cbv iota. rewrite accepts_json. cbv zeta. rewrite ER. reflexivity. }
  exists {| hdr := hset ContentType JSON h'; sent := Some (200, hset ContentType JSON h'); out := b |}. split.
  - destruct vs as [|[k hd st v|c f] vs]; [destruct ds; [discriminate|destruct P]| |destruct ds; destruct P]. exact RR.
  - rewrite LN, receive_ok by apply hget_set. destruct (o_rules V Ctx Args o); [destruct (RU eq_refl)|]. rewrite DE. reflexivity.
Qed.
(** A function without results succeeds when it does. *)
Theorem C110_nothing a o q ctx args mime : reached a o q ctx args -> o_call _ _ _ o ctx args = inl [] ->
  exists w, snd (serve a o q) = Some w /\ code (response_of w) = 204 /\ body (response_of w) = [] /\ receive None o mime O (response_of w) = COk [].
Proof. intros R C. rewrite (serve_reached _ _ _ _ _ R), C. eexists. repeat split; reflexivity. Qed.
(** To a client that says nothing of what it accepts: JSON for structs, slices, maps and arrays, else plain text. *)
Theorem C110_default a o ctx (accept : bytes) (k : bool) hd st v (b : bytes) : accept = [] \/ accept = text "*/*" -> o_rules _ _ _ o = [] ->
  let t := if k then text "application/json" else text "text/plain" in encode t v = inl b ->
  exists w, respond V Ctx Args encode encode_map a o ctx accept [Data V k hd st v] fresh = Some w /\ code (response_of w) = 200 /\ hget ContentType (rhdr (response_of w)) = t /\ body (response_of w) = b.
Proof.
  intros AC RU. cbv zeta. intros EN. unfold respond. replace (beq accept [] || beq accept (text "*/*")) with true by (destruct AC as [-> | ->]; reflexivity). cbn [default_accept].
  assert (NG : negotiate (split (if k then text "application/json" else text "text/plain") 44) = Some (if k then text "application/json" else text "text/plain")) by (destruct k; reflexivity).
  rewrite NG, RU. cbn [encode_results]. cbv zeta. rewrite EN. eexists. split; [reflexivity|]. unfold set_header, fresh. cbn [hdr sent out]. rewrite write_fresh.
  rewrite (response_typed _ _ _ _ (hget_set _ _ _)) by (destruct k; discriminate). split; [reflexivity|]. split; [apply hget_set|reflexivity].
Qed.
(** A result that has a status (201, say): its JSON is sent as plain text, and read as such. *)
Theorem C110_status_refuted o q args k hd s v b rest : reached None o q (q_ctx _ q) args -> o_rules _ _ _ o = [] -> o_call _ _ _ o (q_ctx _ q) args = inl [Data V k [] (Some s) v] ->
  200 <= s <= 299 -> s <> 204 -> encode JSON v = inl b -> b = hd :: rest -> json_start hd = true -> existsb binary b = false ->
  exists w, snd (serve None o q) = Some w /\ hget ContentType (rhdr (response_of w)) = text_utf8 /\
    receive None o false 1 (response_of w) = match decode (text "text/plain") b with Some v => COk [v] | None => CFail (decode_failed E) end.
Proof.
  intros R RU C S' NC EN B JS NB. rewrite (serve_reached _ _ _ _ _ R), C. unfold reply, fresh. cbn [announce hdr sent out hset_all fold_left]. unfold write_header. cbn [sent hdr out].
  replace (s <? 100) with false by lia. replace (999 <? s) with false by lia. replace (s <=? 199) with false by lia. cbn [orb andb announce].
  unfold respond. change (beq client_accept [] || beq client_accept (text "*/*")) with false. cbv iota. rewrite accepts_json. cbv zeta. rewrite RU. cbn [encode_results]. rewrite EN. eexists. split; [reflexivity|]. unfold set_header, write. cbn [hdr sent out].
  unfold body_allowed. replace (s <=? 199) with false by lia. replace (s =? 204) with false by lia. replace (s =? 304) with false by lia. cbn [orb negb app].
  assert (RS : response_of {| hdr := hset ContentType JSON []; sent := Some (s, []); out := b |} = {| code := s; rhdr := hset ContentType text_utf8 []; body := b |}).
  { unfold response_of. cbn [sent out find]. subst b. unfold sniff. rewrite JS, NB. reflexivity. }
  match goal with |- context [response_of ?x] => replace (response_of x) with {| code := s; rhdr := hset ContentType text_utf8 []; body := b |} by (symmetry; exact RS) end. split; [reflexivity|]. unfold HostModel.receive. cbn [code rhdr body]. replace (s <? 200) with false by lia. replace (299 <? s) with false by lia. cbn [orb].
  replace (media_type (hget ContentType (hset ContentType text_utf8 []))) with (text "text/plain") by reflexivity. rewrite RU. reflexivity.
Qed.
(** The answer is in the first of the types asked for that is supported; if there is none, it is 415. *)
Theorem C110_negotiated a o ctx accept vs before t after : accept = join (before ++ t :: after) 44 -> Forall (fun x => ~ In 44 x) (before ++ t :: after) -> accept <> [] -> accept <> text "*/*" ->
  Forall (fun x => ~ In (media_type x) content_types) before -> In (media_type t) content_types ->
  forall b, encode_results V encode encode_map (media_type t) (o_rules _ _ _ o) vs = inl b ->
  exists w, respond V Ctx Args encode encode_map a o ctx accept vs fresh = Some w /\ code (response_of w) = 200 /\ hget ContentType (rhdr (response_of w)) = media_type t /\ body (response_of w) = b.
Proof.
  intros -> NC N1 N2 NB IT b EN. unfold respond. rewrite (beq_false _ _ N1), (beq_false _ _ N2). cbn [orb]. rewrite split_join by (try assumption; destruct before; discriminate).
  assert (NG : negotiate (before ++ t :: after) = Some (media_type t)).
  { clear - NB IT. assert (SU : forall x, supported x = true <-> In x content_types).
    { intros x. unfold supported. rewrite existsb_exists. split; [intros (y & I & Q); apply beq_true in Q; subst; exact I|intros I; exists x; split; [exact I|apply beq_refl]]. }
    induction NB as [|x l Q NB IH]; cbn [app negotiate]; [rewrite (proj2 (SU _) IT); reflexivity|]. rewrite <- SU in Q. apply not_true_iff_false in Q. rewrite Q. exact IH. }
  rewrite NG, EN. eexists. split; [reflexivity|]. unfold set_header, fresh. cbn [hdr sent out]. rewrite write_fresh.
  assert (NE : media_type t <> []). { intros Q. rewrite Q in IT. cbn in IT. repeat (destruct IT as [IT|IT]; [discriminate|]). exact IT. }
  rewrite (response_typed _ _ _ (media_type t) (hget_set _ _ _) NE). split; [reflexivity|]. split; [apply hget_set|reflexivity].
Qed.
Theorem C110_not_supported a o ctx types vs : types <> [] -> Forall (fun x => ~ In 44 x /\ ~ In (media_type x) content_types) types -> join types 44 <> [] -> join types 44 <> text "*/*" ->
  exists w, respond V Ctx Args encode encode_map a o ctx (join types 44) vs fresh = Some w /\ code (response_of w) = 415.
Proof.
  intros NE F N1 N2. unfold respond. rewrite (beq_false _ _ N1), (beq_false _ _ N2). cbn [orb]. rewrite split_join; [|exact NE|eapply Forall_impl; [|exact F]; intros x (A & _); exact A].
  assert (NG : negotiate types = None).
  { clear - F. induction F as [|x l (_ & Q) F IH]; [reflexivity|]. cbn [negotiate]. replace (supported (media_type x)) with false; [exact IH|]. symmetry. apply not_true_iff_false. intros S'. apply Q. unfold supported in S'. apply existsb_exists in S'. destruct S' as (y & I & E'). apply beq_true in E'. rewrite E'. exact I. }
  rewrite NG. eexists. split; reflexivity.
Qed.
(** The content of a reader is received as it is, by a function with a mime tag. *)
Theorem C110_reader_partial o q args content : reached None o q (q_ctx _ q) args -> o_default _ _ _ o <> [] -> o_call _ _ _ o (q_ctx _ q) args = inl [Reader V content None] ->
  exists w, snd (serve None o q) = Some w /\ receive None o true 1 (response_of w) = CReader V E content.
Proof.
  intros R D C. rewrite (serve_reached _ _ _ _ _ R), C. unfold reply, fresh. cbn [announce]. rewrite (beq_false _ _ D). cbv zeta. eexists. split; [reflexivity|].
  destruct content as [|c r]; unfold HostModel.receive, set_header; cbn [hdr sent out]; [reflexivity|rewrite write_fresh; reflexivity].
Qed.
(** A reader that fails after some content: the message of the failure is received as content. *)
Theorem C110_reader_failed_refuted o q args c content e : reached None o q (q_ctx _ q) args -> o_default _ _ _ o <> [] -> o_call _ _ _ o (q_ctx _ q) args = inl [Reader V (c :: content) (Some e)] ->
  ejson e = None -> scenarios o = [] -> (100 <= status_of e <= 999) ->
  exists w, snd (serve None o q) = Some w /\ receive None o true 1 (response_of w) = CReader V E ((c :: content) ++ message_of e ++ [10]).
Proof.
  intros R D C J NS S'. rewrite (serve_reached _ _ _ _ _ R), C. unfold reply, fresh. cbn [announce]. rewrite (beq_false _ _ D). cbv zeta. unfold set_header. cbn [hdr sent out]. rewrite write_fresh. unfold HostModel.handle. cbn [HostModel.redacted hdr sent out]. rewrite J, NS. cbn [find].
  unfold http_error, write_header. cbn [sent hdr out]. eexists. split; [reflexivity|]. reflexivity.
Qed.
(** Without a mime tag, a reader of a type of its own can't be received at all. *)
Theorem C110_reader_type_refuted o q args content : reached None o q (q_ctx _ q) args -> o_default _ _ _ o = text "text/csv" -> o_call _ _ _ o (q_ctx _ q) args = inl [Reader V content None] -> content <> [] ->
  exists w, snd (serve None o q) = Some w /\ receive None o false 1 (response_of w) = CFail (CErr (text "unsupported content type: text/csv") None).
Proof.
  intros R D C N. rewrite (serve_reached _ _ _ _ _ R), C. unfold reply, fresh. cbn [announce]. rewrite D. cbv zeta. eexists. split; [reflexivity|]. destruct content as [|c r]; [destruct (N eq_refl)|]. reflexivity.
Qed.
(** An answer in multipart/form-data makes the client panic. *)
Theorem C110_multipart_refuted o n b : receive None o false (S n) {| code := 200; rhdr := [(ContentType, text "multipart/form-data; boundary=x")]; body := b |} = CPanic V E.
Proof. reflexivity. Qed.
End Wire.

(** Media types are compared without their parameters, the blanks around them and case. *)
Definition blanks (s : bytes) : Prop := Forall (fun b => b = 32 \/ b = 9) s.
Lemma drop_blanks f (l m : bytes) : Forall (fun b => f b = true) l -> drop_while f (l ++ m) = drop_while f m.
Proof. intros F. induction F as [|b l Q F IH]; [reflexivity|]. cbn [app drop_while]. rewrite Q. exact IH. Qed.
Theorem C110_media_type l t r params : blanks l -> blanks r -> Forall (fun b => 33 <= b /\ b <> 59) t -> media_type (l ++ t ++ r ++ 59 :: params) = map lower t /\ media_type (l ++ t ++ r) = map lower t.
Proof.
  intros BL BR T. unfold media_type.
  assert (NS : ~ In 59 (l ++ t ++ r)).
  { rewrite !in_app_iff. unfold blanks in *. rewrite Forall_forall in *. intros [I|[I|I]]; [destruct (BL _ I); lia|destruct (T _ I); lia|destruct (BR _ I); lia]. }
  assert (BM : forall x, blanks x -> Forall (fun b => member b (text " " ++ [9]) = true) x).
  { intros x B. eapply Forall_impl; [|exact B]. intros b [-> | ->]; reflexivity. }
  assert (TM : trim (l ++ t ++ r) (text " " ++ [9]) = t).
  { unfold trim. rewrite (drop_blanks _ l _ (BM l BL)). destruct t as [|b t].
    - cbn [app]. rewrite <- (app_nil_r r). rewrite (drop_blanks _ r [] (BM r BR)). reflexivity.
    - assert (NB : forall x, 33 <= x -> member x (text " " ++ [9]) = false). { intros x L. unfold member. change (text " " ++ [9]) with [32; 9]. cbn [existsb]. replace (x =? 32) with false by lia. replace (x =? 9) with false by lia. reflexivity. }
      inversion T as [|? ? TB TT]; subst. cbn [app drop_while]. rewrite NB by lia. change (b :: t ++ r) with ((b :: t) ++ r). rewrite rev_app_distr.
      assert (RR : blanks (rev r)) by (unfold blanks in *; rewrite Forall_forall in *; intros x I; apply BR; apply in_rev; exact I).
      rewrite (drop_blanks _ (rev r) _ (BM _ RR)). destruct (rev (b :: t)) as [|z zs] eqn:RZ; [apply (f_equal (@rev Z)) in RZ; rewrite rev_involutive in RZ; discriminate|].
      assert (IZ : In z (b :: t)) by (apply in_rev; rewrite RZ; left; reflexivity). cbn [drop_while]. rewrite NB by (rewrite Forall_forall in T; apply T; exact IZ). rewrite <- RZ. apply rev_involutive. }
  split.
  - replace (l ++ t ++ r ++ 59 :: params) with ((l ++ t ++ r) ++ 59 :: params) by (rewrite <- !app_assoc; reflexivity). rewrite (cut_app _ _ _ NS), TM. reflexivity.
  - rewrite (cut_none _ _ NS), TM. reflexivity.
Qed.

(** ** Cases *)
Definition quoted (v : bytes) : bytes := [34] ++ v ++ [34].
Definition toy_encode (t : bytes) (v : bytes) : bytes + error := inl (if beq t (text "application/json") then quoted v else v).
Definition toy_decode (t b : bytes) : option bytes := if beq t (text "application/json") then match b with 34 :: r => Some (removelast r) | _ => None end else Some b.
Definition toy_op (m : string) (call : nat -> nat -> list (value bytes) + error) : op bytes nat nat :=
  {| o_method := text m; o_default := text "application/json"; o_scenarios := [{| s_test := fun e => beq (message e) (text "secret"); s_code := 409; s_text := text "in conflict" |}]; o_rules := []; o_read := inl 5%nat; o_call := call |}.
Definition toy_auth : auth nat nat :=
  {| authenticate := (7%nat, None); authorize := fun c a => if Nat.eqb a 5 then None else Some (Err (text "denied") (Some 403) false [] None); redact := fun _ e => Err (message e) (estatus e) false [] None |}.
Definition toy_request : request nat := {| q_accept := client_accept; q_ctx := 0%nat |}.
Definition toy_serve o := serve bytes nat nat toy_encode (fun _ _ => inr no_encoding) (fun w => w) (Some toy_auth) o toy_request.
Definition toy_receive o r := receive bytes nat nat unit (fun _ => text "status") toy_decode (fun _ _ _ => None) None o false 1 r.
Example C108_case : fst (toy_serve (toy_op "GET" (fun _ _ => inl [Data bytes false [] None (text "hi")]))) = [EAuthenticate nat nat 7 None; ERead nat nat; EAuthorize nat nat 7 5 None; ECall nat nat 7 5]%nat.
Proof. reflexivity. Qed.
Example C109_case : let o := toy_op "POST" (fun _ _ => inr (Err (text "no such thing") (Some 410) false [(text "X-A", text "b")] None)) in
  exists w, snd (toy_serve o) = Some w /\ toy_receive o (response_of w) = CFail bytes unit (CErr unit (text "no such thing") (Some 410)) /\ tidy (text "no such thing").
Proof.
  cbv zeta. eexists. split; [reflexivity|]. split; [reflexivity|]. exists 110, 103. repeat split; try reflexivity; unfold blank; cbn [In]; lia.
Qed.
Example C109_scenario_case : let o := toy_op "POST" (fun _ _ => inr (Err (text "secret") (Some 400) false [] None)) in
  exists w, snd (toy_serve o) = Some w /\ toy_receive o (response_of w) = CFail bytes unit (CErr unit (text "in conflict") (Some 409)).
Proof. cbv zeta. eexists. split; [reflexivity|]. reflexivity. Qed.
Example C110_case : let o := toy_op "GET" (fun _ _ => inl [Data bytes false [] None (text "hi")]) in
  exists w, snd (toy_serve o) = Some w /\ toy_receive o (response_of w) = COk bytes unit [text "hi"].
Proof. cbv zeta. eexists. split; [reflexivity|]. reflexivity. Qed.
Example C110_status_case : let o := toy_op "POST" (fun _ _ => inl [Data bytes false [] (Some 201) (text "hi")]) in
  exists w, snd (toy_serve o) = Some w /\ toy_receive o (response_of w) = COk bytes unit (@cons bytes (quoted (text "hi")) nil).
Proof. cbv zeta. eexists. split; [reflexivity|]. reflexivity. Qed.
Print Assumptions C109_error_partial.
Print Assumptions C109_typed_plain_refuted.
Print Assumptions C110_results_partial.
Print Assumptions C110_negotiated.
