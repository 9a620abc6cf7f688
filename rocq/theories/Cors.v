(** * C151: cross-origin requests *)
From Coq Require Import String.
From Verif Require Import GoBase GoText HandModel Hand CorsModel CorsSpec.
Open Scope list_scope.
Open Scope Z_scope.

(** ** Headers *)
Lemma get_filter : forall k k' h, beq k' k = false -> get_header k (filter (fun p => negb (beq (fst p) k')) h) = get_header k h.
Proof.
  intros k k' h N. induction h as [|[q v] h IH]; [reflexivity|]. cbn [filter get_header fst]. destruct (beq q k') eqn:E; cbn [negb].
  - apply beq_true in E. subst q. rewrite N. exact IH.
  - cbn [get_header]. destruct (beq q k); [reflexivity|exact IH].
Qed.
Lemma get_when : forall k k' v b h, get_header k (when b (set_header k' v) h) = if beq k' k then (if b then Some v else get_header k h) else get_header k h.
Proof.
  intros k k' v b h. destruct b; cbn [when]; [|destruct (beq k' k); reflexivity].
  unfold set_header. cbn [get_header]. destruct (beq k' k) eqn:E; [reflexivity|]. apply get_filter. exact E.
Qed.
Lemma get_app : forall k a b, get_header k (a ++ b) = match get_header k a with Some v => Some v | None => get_header k b end.
Proof. intros k a b. induction a as [|[q v] a IH]; [reflexivity|]. cbn [app get_header]. destruct (beq q k); [reflexivity|exact IH]. Qed.
Lemma said_if : forall s, (if negb (is_empty s) then Some s else None) = said s.
Proof. intros [|x s]; reflexivity. Qed.

(** the rules as they are on the wire *)
Definition carries (c : access_control) (r : response) : Prop :=
  header_of r "Access-Control-Allow-Origin" = said (allow_origin c) /\
  header_of r "Access-Control-Allow-Credentials" = (if allow_credentials c then Some (text "true") else None) /\
  header_of r "Access-Control-Allow-Methods" = said (allow_methods c) /\
  header_of r "Access-Control-Allow-Headers" = said (allow_headers c) /\
  header_of r "Access-Control-Expose-Headers" = said (expose_headers c) /\
  header_of r "Access-Control-Max-Age" = (if max_age c =? 0 then None else Some (itoa (max_age c))).
(** what a function answers of its own has none of these headers *)
Definition plain (own : response) : Prop :=
  Forall (fun k => header_of own k = None)
    ["Access-Control-Allow-Origin"; "Access-Control-Allow-Credentials"; "Access-Control-Allow-Methods"; "Access-Control-Allow-Headers";
     "Access-Control-Expose-Headers"; "Access-Control-Max-Age"]%string.

Lemma carried : forall (control : request -> function -> access_control) r fn s own, plain own ->
  carries (control r fn) {| status := s; headers := headers own ++ add_cors (Some control) r fn [] |}.
Proof.
  intros control r fn s own P. unfold plain in P.
  inversion P as [|? ? P1 Q1]; subst. inversion Q1 as [|? ? P2 Q2]; subst. inversion Q2 as [|? ? P3 Q3]; subst.
  inversion Q3 as [|? ? P4 Q4]; subst. inversion Q4 as [|? ? P5 Q5]; subst. inversion Q5 as [|? ? P6 Q6]; subst.
  unfold header_of in *. unfold carries, header_of, add_cors. cbn [headers].
  split; [|split; [|split; [|split; [|split]]]];
    rewrite get_app; [rewrite P1|rewrite P2|rewrite P3|rewrite P4|rewrite P5|rewrite P6]; rewrite !get_when;
    repeat match goal with |- context [beq (text ?a) (text ?b)] => let x := eval vm_compute in (beq (text a) (text b)) in change (beq (text a) (text b)) with x end;
    cbv iota; cbn [get_header]; try apply said_if; [reflexivity|]. destruct (max_age _ =? 0); reflexivity.
Qed.
Lemma carried_nil : forall (control : request -> function -> access_control) r fn s, carries (control r fn) {| status := s; headers := add_cors (Some control) r fn [] |}.
Proof.
  intros control r fn s. apply (carried control r fn s {| status := 0; headers := [] |}).
  unfold plain. repeat (constructor; [reflexivity|]). constructor.
Qed.

(** ** What answers OPTIONS *)
Lemma serving_options : forall order p ms, shape order -> In (p, ms) order -> ~ In (text "OPTIONS") ms ->
  serving (pattern (text "OPTIONS") p) (of_resources order) = Some HNoContent.
Proof.
  intros order p ms [N F] I O.
  rewrite (serving_resources order p ms (text "OPTIONS") N); [|eapply Forall_impl; [|exact F]; cbn; tauto|exact I|apply method_space; right; left; reflexivity].
  unfold of_resource. rewrite !serving_app.
  assert (E : existsb (beq (text "OPTIONS")) ms = false).
  { destruct (existsb (beq (text "OPTIONS")) ms) eqn:E; [|reflexivity]. apply existsb_exists in E. destruct E as [x [X Y]]. apply beq_true in Y. subst x. contradiction. }
  rewrite E. destruct (existsb (beq (text "GET")) ms); cbn [serving].
  - rewrite beq_refl. reflexivity.
  - rewrite beq_false; [rewrite beq_refl; reflexivity|]. intros X. apply pattern_inj in X; [destruct X; discriminate| |]; apply method_space; cbn; auto.
Qed.
Lemma serving_method : forall order p ms m, shape order -> In (p, ms) order -> In m ms -> m <> text "OPTIONS" ->
  serving (pattern m p) (of_resources order) = Some (HOp p m).
Proof.
  intros order p ms m S I M O. rewrite (C142_served order p ms m S I); [|destruct S as [_ F]; rewrite Forall_forall in F; destruct (F _ I) as [C _]; cbn [snd] in C; unfold clean in C; rewrite Forall_forall in C; apply C; exact M|exact O].
  rewrite (proj2 (existsb_exists (beq m) ms)) by (exists m; split; [exact M|apply beq_refl]). reflexivity.
Qed.

(** ** C151 *)

(** the answer of a function carries the rules the authenticator has for that function and
    request, and no others, whatever the function answers *)
Theorem C151_headers : forall (control : request -> function -> access_control) order p ms m own r, shape order -> In (p, ms) order -> In m ms -> m <> text "OPTIONS" ->
  r_method r = m -> plain own ->
  carries (control r (Some (p, m))) (answer (Some control) order p own r) /\
  status (answer (Some control) order p own r) = status own.
Proof.
  intros control order p ms m own r S I M O E P. unfold answer. rewrite E, (serving_method order p ms m S I M O). cbn [answer_of].
  split; [apply carried; exact P|reflexivity].
Qed.
(** a preflight is answered without asking who it is from: the answer is the same whatever
    the function and its authentication would have said *)
Theorem C151_preflight : forall (control : request -> function -> access_control) order p ms own f, shape order -> In (p, ms) order -> ~ In (text "OPTIONS") ms ->
  status (answer (Some control) order p own (preflight_of f)) = 204 /\
  carries (control (preflight_of f) None) (answer (Some control) order p own (preflight_of f)).
Proof.
  intros control order p ms own f S I O. unfold answer. cbn [preflight_of r_method]. rewrite (serving_options order p ms S I O). cbn [answer_of].
  split; [reflexivity|apply carried_nil].
Qed.
Lemma check_is : forall c f r, carries c r -> cors_check f r = admits_origin (said (allow_origin c)) (if allow_credentials c then Some (text "true") else None) f.
Proof. intros c f r [A [B _]]. unfold cors_check. rewrite A, B. reflexivity. Qed.
(** A script gets an answer exactly if the authenticator's rules for the function allow it,
    when it gives the preflight, of which it is told no function, the same rules. *)
Theorem C151_browser_partial : forall (control : request -> function -> access_control) order p ms own f, shape order -> In (p, ms) order -> In (f_method f) ms ->
  ~ In (text "OPTIONS") ms -> plain own ->
  control (preflight_of f) None = control (request_of f) (Some (p, f_method f)) ->
  readable (answer (Some control) order p own) f = policy_allows (control (request_of f) (Some (p, f_method f))) f.
Proof.
  intros control order p ms own f S I M O P E.
  assert (ON : f_method f <> text "OPTIONS") by (intros X; rewrite X in M; contradiction).
  destruct (C151_headers control order p ms (f_method f) own (request_of f) S I M ON eq_refl P) as [H _].
  destruct (C151_preflight control order p ms own f S I O) as [T L]. rewrite E in L.
  set (c := control (request_of f) (Some (p, f_method f))) in *.
  unfold readable, policy_allows, preflight_ok.
  rewrite (check_is c f _ H).
  rewrite (check_is c f _ L), T.
  destruct L as [_ [_ [LM [LH _]]]]. rewrite LM, LH.
  change (200 <=? 204) with true. change (204 <=? 299) with true.
  destruct (admits_origin _ _ f); destruct (needs_preflight f); cbn [andb orb negb]; rewrite ?andb_true_r, ?andb_false_r; reflexivity.
Qed.
(** Without a preflight it needs to promise nothing. *)
Theorem C151_simple : forall (control : request -> function -> access_control) order p ms own f, shape order -> In (p, ms) order -> In (f_method f) ms ->
  f_method f <> text "OPTIONS" -> plain own -> needs_preflight f = false ->
  readable (answer (Some control) order p own) f = policy_allows (control (request_of f) (Some (p, f_method f))) f.
Proof.
  intros control order p ms own f S I M ON P N.
  destruct (C151_headers control order p ms (f_method f) own (request_of f) S I M ON eq_refl P) as [H _].
  unfold readable, policy_allows. rewrite (check_is _ f _ H), N. cbn [negb orb andb]. rewrite andb_true_r. reflexivity.
Qed.
(** Without an authenticator, or with one that has no rules, no other origin reads anything. *)
Theorem C151_closed : forall order p own f, plain own -> readable (answer None order p own) f = false.
Proof.
  intros order p own f P. unfold readable.
  assert (X : cors_check f (answer None order p own (request_of f)) = false).
  { unfold cors_check. assert (H : header_of (answer None order p own (request_of f)) "Access-Control-Allow-Origin" = None).
    { inversion P as [|? ? P1 Q1]; subst. unfold header_of in *. unfold answer. destruct (serving _ _) as [[]|]; cbn [answer_of headers add_cors]; rewrite ?get_app; try rewrite P1; try exact P1; reflexivity. }
    rewrite H. reflexivity. }
  rewrite X. apply andb_false_r.
Qed.

Definition rules := {| allow_origin := text "https://app.example"; expose_headers := []; max_age := 600; allow_credentials := true;
                       allow_methods := text "GET, PUT"; allow_headers := text "Authorization, Content-Type" |}.
Definition put_pet := {| f_origin := text "https://app.example"; f_method := text "PUT"; f_unsafe := [text "authorization"; text "content-type"]; f_credentials := true |}.
Definition pets : spec := [(text "/pets/{id}", [text "GET"; text "PUT"]); (text "/pets", [text "POST"])].
Definition ok : response := {| status := 200; headers := [(text "Content-Type", text "application/json")] |}.
Lemma pets_shape : shape pets.
Proof. exact (proj1 C142_example). Qed.
Theorem C151_example :
  shape pets /\ plain ok /\ needs_preflight put_pet = true /\
  readable (answer (Some (fun _ _ => rules)) pets (text "/pets/{id}") ok) put_pet = true /\
  readable (answer (Some (fun _ _ => rules)) pets (text "/pets/{id}") ok)
    {| f_origin := text "https://evil.example"; f_method := text "PUT"; f_unsafe := []; f_credentials := true |} = false /\
  headers (answer (Some (fun _ _ => rules)) pets (text "/pets/{id}") ok (preflight_of put_pet)) =
    [(text "Access-Control-Max-Age", text "600"); (text "Access-Control-Allow-Methods", text "GET, PUT");
     (text "Access-Control-Allow-Headers", text "Authorization, Content-Type"); (text "Access-Control-Allow-Credentials", text "true");
     (text "Access-Control-Allow-Origin", text "https://app.example")].
Proof.
  split; [exact pets_shape|]. split; [|vm_compute; auto].
  unfold plain. repeat (constructor; [vm_compute; reflexivity|]). constructor.
Qed.

(** ** What fails *)

(** the handler that would tell the authenticator of the GET never serves: another one for
    the same pattern follows it (with http.ServeMux the second is a panic) *)
Theorem C151_get_handler_refuted : forall order p ms, shape order -> In (p, ms) order -> In (text "GET") ms -> ~ In (text "OPTIONS") ms ->
  In (pattern (text "OPTIONS") p, HCors) (of_resource p ms) /\
  serving (pattern (text "OPTIONS") p) (of_resources order) = Some HNoContent.
Proof.
  intros order p ms S I G O. split; [|exact (serving_options order p ms S I O)].
  unfold of_resource. apply in_or_app. left. apply in_flat_map. exists (text "GET"). split; [exact G|]. left. reflexivity.
Qed.
(** The pages carry what the authenticator has for no function. *)
Theorem C151_pages : forall (control : request -> function -> access_control) path own r h, h = HIndex \/ h = HExample -> plain own ->
  carries (control r None) (answer_of (Some control) path own r h) /\ status (answer_of (Some control) path own r h) = status own.
Proof. intros control path own r h [-> | ->] P; (split; [apply carried; exact P|reflexivity]). Qed.
(** A preflight that is served for GET carries the rules of GET, and is answered with success. *)
Theorem C151_get_handler : forall (control : request -> function -> access_control) path own r,
  carries (control r (Some (path, text "GET"))) (answer_of (Some control) path own r HCors) /\
  status (answer_of (Some control) path own r HCors) = 200.
Proof. intros control path own r. split; [apply carried_nil|reflexivity]. Qed.
(** Where nothing is served no rules are given out: no other origin reads that answer. *)
Theorem C151_nowhere : forall auth order p own f, serving (pattern (f_method f) p) (of_resources order) = None ->
  headers (answer auth order p own (request_of f)) = [] /\ readable (answer auth order p own) f = false.
Proof.
  intros auth order p own f S.
  assert (E : answer auth order p own (request_of f) = {| status := 404; headers := [] |}).
  { unfold answer. cbn [request_of r_method]. rewrite S. reflexivity. }
  rewrite E. split; [reflexivity|]. unfold readable. rewrite E. apply andb_false_r.
Qed.
Theorem C151_nowhere_example : serving (pattern (text "PATCH") (text "/pets/{id}")) (of_resources pets) = None.
Proof. vm_compute. reflexivity. Qed.
(** so an authenticator with rules for each function is asked about none: here only PUT of
    a pet is for other origins, and nobody else's script may call it; and here PUT is not
    for them, and is called *)
Theorem C151_function_refuted :
  let per_function fn := match fn with Some (_, m) => if beq m (text "PUT") then rules else
      {| allow_origin := []; expose_headers := []; max_age := 0; allow_credentials := false; allow_methods := []; allow_headers := [] |}
    | None => {| allow_origin := []; expose_headers := []; max_age := 0; allow_credentials := false; allow_methods := []; allow_headers := [] |} end in
  let but_put fn := match fn with Some (_, m) => if beq m (text "PUT") then
      {| allow_origin := text "https://app.example"; expose_headers := []; max_age := 0; allow_credentials := true; allow_methods := text "GET"; allow_headers := [] |} else rules
    | None => rules end in
  policy_allows (per_function (Some (text "/pets/{id}", text "PUT"))) put_pet = true /\
  readable (answer (Some (fun _ fn => per_function fn)) pets (text "/pets/{id}") ok) put_pet = false /\
  policy_allows (but_put (Some (text "/pets/{id}", text "PUT"))) put_pet = false /\
  readable (answer (Some (fun _ fn => but_put fn)) pets (text "/pets/{id}") ok) put_pet = true.
Proof. vm_compute. auto. Qed.
(** with an OPTIONS function of its own, it depends on the order a map is visited in
    whether a resource with a GET asks it *)
Theorem C151_order_refuted : forall p, 
  serving (pattern (text "OPTIONS") p) (of_resource p [text "GET"; text "OPTIONS"]) = Some (HOp p (text "OPTIONS")) /\
  serving (pattern (text "OPTIONS") p) (of_resource p [text "OPTIONS"; text "GET"]) = Some HCors.
Proof.
  intros p. assert (G : beq (pattern (text "GET") p) (pattern (text "OPTIONS") p) = false) by reflexivity.
  unfold of_resource. cbn [flat_map of_operation existsb app].
  split; vm_compute; rewrite ?beq_refl; reflexivity || (fold beq; rewrite ?beq_refl; reflexivity).
Qed.
(** the form of a resource has no rules: no other origin reads the schema of a function *)
Theorem C151_form_refuted : forall auth order p ms own f, shape order -> In (p, ms) order -> ~ In (text "GET") ms -> plain own ->
  f_method f = text "GET" -> readable (answer auth order p own) f = false.
Proof.
  intros auth order p ms own f S I G P E. unfold readable.
  assert (H : answer auth order p own (request_of f) = own).
  { unfold answer. cbn [request_of r_method]. rewrite E, (C142_served order p ms (text "GET") S I); [|apply method_space; left; reflexivity|discriminate].
    destruct (existsb (beq (text "GET")) ms) eqn:X; [|reflexivity]. apply existsb_exists in X. destruct X as [x [X Y]]. apply beq_true in Y. subst x. contradiction. }
  rewrite H. unfold cors_check. inversion P as [|? ? P1 Q1]; subst. rewrite P1. apply andb_false_r.
Qed.
(** An authenticator that answers with the origin of the request: nothing tells a cache
    that the answer differs by origin, and that for one is no answer for another. *)
Theorem C151_cache_refuted : forall (control : request -> function -> access_control) order p ms own f g, shape order -> In (p, ms) order -> In (f_method f) ms -> f_method f <> text "OPTIONS" ->
  plain own -> header_of own "Vary" = None -> f_method g = f_method f -> f_origin f <> f_origin g ->
  f_origin f <> [] -> f_origin g <> [] -> f_origin f <> text "*" ->
  (forall r fn, allow_origin (control r fn) = r_origin r) -> (forall r fn, allow_credentials (control r fn) = true) ->
  let server := answer (Some control) order p own in
  cors_check f (server (request_of f)) = true /\ cors_check g (server (request_of g)) = true /\
  header_of (server (request_of f)) "Vary" = None /\ cors_check g (server (request_of f)) = false.
Proof.
  intros control order p ms own f g S I M ON P V EM N NF NG NS CO CC server.
  destruct (C151_headers control order p ms (f_method f) own (request_of f) S I M ON eq_refl P) as [H _].
  assert (M' : In (f_method g) ms) by (rewrite EM; exact M). assert (ON' : f_method g <> text "OPTIONS") by (rewrite EM; exact ON).
  destruct (C151_headers control order p ms (f_method g) own (request_of g) S I M' ON' eq_refl P) as [H' _].
  fold server in H, H'. rewrite (check_is _ f _ H), (check_is _ g _ H), (check_is _ g _ H'), !CO, !CC. cbn [request_of r_origin].
  assert (SF : said (f_origin f) = Some (f_origin f)) by (destruct (f_origin f); [congruence|reflexivity]).
  assert (SG : said (f_origin g) = Some (f_origin g)) by (destruct (f_origin g); [congruence|reflexivity]).
  rewrite SF, SG. unfold admits_origin. rewrite !beq_refl, (beq_false _ _ N), (beq_false _ _ NS). cbn [negb]. rewrite !orb_true_r.
  split; [reflexivity|]. split; [reflexivity|]. split; [|reflexivity].
  unfold server, answer. cbn [request_of r_method]. rewrite (serving_method order p ms _ S I M ON). unfold header_of in *. cbn [answer_of headers].
  rewrite get_app, V. unfold add_cors. rewrite !get_when. reflexivity.
Qed.
