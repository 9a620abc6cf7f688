(** * C142: the endpoints of an API. *)
From Coq Require Import String Permutation.
From Verif Require Import GoBase GoText HandModel.
Open Scope list_scope.
Open Scope Z_scope.

(** ** Formats *)
(** A path as its segments: parameters, and other text that is not in braces. *)
Inductive seg := Lit (s : bytes) | Par (name : bytes).
Definition seg_text (s : seg) : bytes := match s with Lit s => s | Par n => text "{" ++ n ++ text "}" end.
Definition seg_ok (s : seg) : Prop :=
  match s with
  | Lit s => ~ In 47 s /\ ~ (exists n, s = text "{" ++ n) 
  | Par n => ~ In 47 n
  end.
Definition path_of (l : list seg) : bytes := join (map seg_text l) 47.
(** the same path with its parameters in another form *)
Definition formatted (f : format) (s : seg) : bytes := match s with Lit s => s | Par n => fst f ++ n ++ snd f end.
Definition path_in (f : format) (l : list seg) : bytes := join (map (formatted f) l) 47.

Lemma convert_seg f r s : seg_ok s -> convert_part f r (seg_text s) = formatted f s.
Proof.
  destruct s as [s|n]; cbn [seg_ok seg_text formatted]; unfold convert_part.
  - intros [_ N]. destruct (has_prefix s [123]) eqn:E; [|reflexivity]. apply has_prefix_iff in E. exfalso. apply N. exact E.
  - intros _. change (text "{") with [123]. change (text "}") with [125]. rewrite has_prefix_app. rewrite (proj2 (has_suffix_iff _ _)) by (exists ([123] ++ n); rewrite app_assoc; reflexivity).
    cbn [andb]. assert (SF : has_suffix ([123] ++ n ++ [125]) [42] = false).
    { unfold has_suffix. rewrite app_assoc, rev_app_distr. reflexivity. }
    rewrite SF. unfold sprintf. f_equal. f_equal. cbn [app skipn List.length]. rewrite app_length. cbn [List.length].
    replace (S (List.length n + 1) - 2)%nat with (List.length n) by lia. rewrite firstn_app, Nat.sub_diag, firstn_all. cbn. apply app_nil_r.
Qed.
Lemma seg_slash s : seg_ok s -> ~ In 47 (seg_text s).
Proof.
  destruct s as [s|n]; cbn [seg_ok seg_text]; [intros [N _]; exact N|]. intros N I. rewrite !in_app_iff in I. destruct I as [[I|[]] | [I | [I|[]]]]; [discriminate|contradiction|discriminate].
Qed.
(** The parameters of the pattern come in the format asked for; the format for remainders
    is never used. *)
Theorem C142_format f r m l : ~ In 32 m -> l <> [] -> Forall seg_ok l ->
  convert f r (pattern m (path_of l)) = m ++ text " " ++ path_in f l.
Proof.
  intros M N F. unfold convert, pattern.
  destruct (beq (fst f) (fst braces) && beq (snd f) (snd braces)) eqn:E.
  - apply andb_true_iff in E. destruct E as [E1 E2]. apply beq_true in E1, E2. cbn [app]. change (text " ") with [32]. cbn [app]. f_equal. f_equal.
    unfold path_of, path_in. f_equal. apply map_ext. intros [s|n]; [reflexivity|]. cbn [seg_text formatted]. rewrite E1, E2. reflexivity.
  - rewrite cut_app by exact M. change (text " ") with [32]. cbn [app]. f_equal. f_equal. unfold path_of, path_in.
    rewrite split_join; [|destruct l; [congruence|discriminate]|].
    + rewrite map_map. f_equal. apply map_ext_in. intros s I. rewrite Forall_forall in F. apply convert_seg. apply F. exact I.
    + clear N. induction F; cbn [map]; constructor; [apply seg_slash; assumption|assumption].
Qed.
Theorem C142_remainder_refuted f r r' p : convert f r p = convert f r' p.
Proof.
  unfold convert. destruct (_ && _); [reflexivity|]. destruct (cut p 32) as [[m q] b]. f_equal. f_equal. f_equal. apply map_ext. intros s.
  unfold convert_part. destruct (has_prefix s [123]); [|reflexivity]. cbn [andb]. destruct (has_suffix s [125]) eqn:E; [|reflexivity].
  apply has_suffix_iff in E. destruct E as (t & ->). assert (S : has_suffix (t ++ [125]) [42] = false) by (unfold has_suffix; rewrite rev_app_distr; reflexivity).
  rewrite S. reflexivity.
Qed.

(** ** Operations *)
Definition ops_of (l : list (bytes * handler)) : list (bytes * handler) := filter (fun '(_, h) => match h with HOp _ _ => true | _ => false end) l.
Lemma ops_app a b : ops_of (a ++ b) = ops_of a ++ ops_of b.
Proof. apply filter_app. Qed.
Lemma ops_resource p ms : ops_of (of_resource p ms) = map (fun m => (pattern m p, HOp p m)) ms.
Proof.
  unfold of_resource. rewrite !ops_app.
  assert (T : ops_of (if existsb (beq (text "OPTIONS")) ms then [] else [(pattern (text "OPTIONS") p, HNoContent)]) ++ ops_of (if existsb (beq (text "GET")) ms then [] else [(pattern (text "GET") p, HForm)]) = [])
   by (destruct (existsb _ ms); destruct (existsb _ ms); reflexivity).
  rewrite T, app_nil_r. clear T. induction ms as [|m ms IH]; [reflexivity|]. cbn [flat_map map]. rewrite ops_app, IH. unfold of_operation. destruct (beq m (text "GET")); reflexivity.
Qed.
Lemma ops_resources l : ops_of (of_resources l) = flat_map (fun '(p, ms) => map (fun m => (pattern m p, HOp p m)) ms) l.
Proof. induction l as [|[p ms] l IH]; [reflexivity|]. unfold of_resources in *. cbn [flat_map]. rewrite ops_app, IH, ops_resource. reflexivity. Qed.
Definition operations (s : spec) : list (bytes * bytes) := flat_map (fun '(p, ms) => map (fun m => (m, p)) ms) s.
Lemma operations_same a b : same_spec a b -> Permutation (operations a) (operations b).
Proof.
  intros (c & P & F). transitivity (operations c).
  - unfold operations. apply Permutation_flat_map. exact P.
  - clear P. induction F as [|[p ms] [q ns] c b [E1 E2] F IH]; [constructor|]. cbn [fst snd] in *. subst q. unfold operations in *. cbn [flat_map].
    apply Permutation_app; [apply Permutation_map; exact E2|exact IH].
Qed.
(** Whatever the order the maps are visited in, each operation is yielded once, with its own
    method and path, in the format asked for. *)
Theorem C142_operations f r ex s order : same_spec s order ->
  Permutation (ops_of (handlers f r ex order)) (map (fun '(m, p) => (convert f r (pattern m p), HOp p m)) (operations s)).
Proof.
  intros S. transitivity (map (fun '(m, p) => (convert f r (pattern m p), HOp p m)) (operations order)); [|apply Permutation_map; apply Permutation_sym; apply operations_same; exact S].
  assert (E : ops_of (handlers f r ex order) = map (fun '(p, h) => (convert f r p, h)) (ops_of (of_resources order))).
  { unfold handlers. assert (M : forall l, ops_of (map (fun '(p, h) => (convert f r p, h)) l) = map (fun '(p, h) => (convert f r p, h)) (ops_of l)).
    { induction l as [|[p h] l IH]; [reflexivity|]. unfold ops_of in *. cbn [map filter]. destruct h; cbn [map]; rewrite IH; reflexivity. }
    rewrite M. f_equal. destruct ex; reflexivity. }
  rewrite E, ops_resources. clear. unfold operations. induction order as [|[p ms] o IH]; [constructor|]. cbn [flat_map]. rewrite !map_app. apply Permutation_app; [|exact IH].
  rewrite !map_map. apply Permutation_refl.
Qed.

(** ** What serves a request *)
Lemma serving_app q a b : serving q (a ++ b) = match serving q b with Some h => Some h | None => serving q a end.
Proof.
  induction a as [|[p h] a IH]; cbn [app serving]; [destruct (serving q b); reflexivity|]. rewrite IH. destruct (serving q b); reflexivity.
Qed.
Lemma serving_none q l : (forall p h, In (p, h) l -> p <> q) -> serving q l = None.
Proof.
  induction l as [|[p h] l IH]; intros N; [reflexivity|]. cbn [serving]. rewrite IH by (intros p' h' I; apply (N p' h'); right; exact I).
  rewrite beq_false; [reflexivity|]. apply (N p h). left. reflexivity.
Qed.
Lemma pattern_inj m p m' p' : ~ In 32 m -> ~ In 32 m' -> pattern m p = pattern m' p' -> m = m' /\ p = p'.
Proof.
  intros A B E. apply (f_equal (fun x => cut x 32)) in E. unfold pattern in E. rewrite !cut_app in E by assumption. inversion E. split; reflexivity.
Qed.
Lemma method_space m : In m [text "GET"; text "OPTIONS"] -> ~ In 32 m.
Proof. intros [<- | [<- | []]]; cbn; intuition discriminate. Qed.
Definition clean (ms : list bytes) : Prop := Forall (fun m => ~ In 32 m) ms.
Lemma in_resource p ms q h : clean ms -> In (q, h) (of_resource p ms) -> exists m, q = pattern m p /\ ~ In 32 m.
Proof.
  intros C I. unfold of_resource in I. rewrite !in_app_iff in I. destruct I as [I | [I | I]].
  - apply in_flat_map in I. destruct I as (m & M & I). unfold clean in C; rewrite Forall_forall in C. unfold of_operation in I. apply in_app_or in I. destruct I as [I|I].
    + destruct (beq m (text "GET")); [|destruct I]. destruct I as [I|[]]. inversion I; subst. eexists. split; [reflexivity|]. apply method_space. right. left. reflexivity.
    + destruct I as [I|[]]. inversion I; subst. exists m. split; [reflexivity|]. apply C. exact M.
  - destruct (existsb _ ms); [destruct I|]. destruct I as [I|[]]. inversion I; subst. eexists. split; [reflexivity|]. apply method_space. right. left. reflexivity.
  - destruct (existsb _ ms); [destruct I|]. destruct I as [I|[]]. inversion I; subst. eexists. split; [reflexivity|]. apply method_space. left. reflexivity.
Qed.
(** where a resource decides *)
Lemma serving_resources order p ms m : NoDup (map fst order) -> Forall (fun x => clean (snd x)) order -> In (p, ms) order -> ~ In 32 m ->
  serving (pattern m p) (of_resources order) = serving (pattern m p) (of_resource p ms).
Proof.
  induction order as [|[q ns] order IH]; intros N F I M; [destruct I|]. unfold of_resources in *. cbn [flat_map]. rewrite serving_app.
  cbn [map fst] in N. inversion N as [|? ? N1 N2]; subst. inversion F as [|? ? F1 F2]; subst. cbn [snd] in F1. destruct I as [I|I].
  - inversion I; subst. rewrite serving_none; [reflexivity|]. intros x h J E. apply in_flat_map in J. destruct J as ([q' ns'] & J & K).
    rewrite Forall_forall in F2. apply (in_resource q' ns' x h (F2 _ J)) in K. destruct K as (m' & -> & M').
    apply pattern_inj in E; [|assumption|assumption]. destruct E as [_ <-]. apply N1. apply in_map_iff. exists (q', ns'). split; [reflexivity|exact J].
  - rewrite IH by assumption. destruct (serving (pattern m p) (of_resource p ms)) as [h|] eqn:S; [reflexivity|].
    apply serving_none. intros x h J E. apply (in_resource q ns x h F1) in J. destruct J as (m' & -> & M').
    apply pattern_inj in E; [|assumption|assumption]. destruct E as [_ <-]. apply N1. apply in_map_iff. exists (q, ms). split; [reflexivity|exact I].
Qed.
Lemma serving_ops p ms m : clean ms -> NoDup ms -> ~ In 32 m -> m <> text "OPTIONS" ->
  serving (pattern m p) (flat_map (of_operation p) ms) = if existsb (beq m) ms then Some (HOp p m) else None.
Proof.
  intros C N M O. induction ms as [|k ms IH]; [reflexivity|]. inversion C as [|? ? C1 C2]; subst. inversion N as [|? ? N1 N2]; subst. cbn [flat_map existsb]. rewrite serving_app, IH by assumption.
  assert (Q : serving (pattern m p) (of_operation p k) = if beq m k then Some (HOp p m) else None).
  { unfold of_operation. rewrite serving_app. cbn [serving]. destruct (beq m k) eqn:E.
    - apply beq_true in E. subst. rewrite beq_refl. reflexivity.
    - rewrite beq_false by (intros X; apply pattern_inj in X; [|assumption|assumption]; destruct X as [-> _]; rewrite beq_refl in E; discriminate).
      destruct (beq k (text "GET")); [|reflexivity]. cbn [serving]. rewrite beq_false; [reflexivity|]. intros X. apply pattern_inj in X; [|apply method_space; right; left; reflexivity|assumption]. destruct X as [X _]. congruence. }
  rewrite Q. destruct (existsb (beq m) ms) eqn:E; [rewrite orb_true_r; reflexivity|]. rewrite orb_false_r. reflexivity.
Qed.
Definition shape (s : spec) : Prop := NoDup (map fst s) /\ Forall (fun x => clean (snd x) /\ NoDup (snd x)) s.
(** An operation other than OPTIONS is served by its function, whatever the order; a GET the
    resource has not is answered by its form, an OPTIONS it has not with no content. *)
Theorem C142_served order p ms m : shape order -> In (p, ms) order -> ~ In 32 m -> m <> text "OPTIONS" ->
  serving (pattern m p) (of_resources order) =
  if existsb (beq m) ms then Some (HOp p m) else if beq m (text "GET") then Some HForm else None.
Proof.
  intros [N F] I M O. rewrite (serving_resources order p ms m N); [|eapply Forall_impl; [|exact F]; cbn; tauto|exact I|exact M].
  rewrite Forall_forall in F. destruct (F _ I) as [C D]. cbn [snd] in *. unfold of_resource. rewrite !serving_app, (serving_ops p ms m C D M O).
  assert (SO : serving (pattern m p) (if existsb (beq (text "OPTIONS")) ms then [] else [(pattern (text "OPTIONS") p, HNoContent)]) = None).
  { destruct (existsb (beq (text "OPTIONS")) ms); [reflexivity|]. cbn [serving]. rewrite beq_false; [reflexivity|]. intros X. apply pattern_inj in X; [|apply method_space; right; left; reflexivity|exact M]. destruct X as [X _]. congruence. }
  rewrite SO. destruct (beq m (text "GET")) eqn:G.
  - apply beq_true in G. subst m. destruct (existsb (beq (text "GET")) ms); [reflexivity|]. cbn [serving]. rewrite beq_refl. reflexivity.
  - assert (SG : serving (pattern m p) (if existsb (beq (text "GET")) ms then [] else [(pattern (text "GET") p, HForm)]) = None).
    { destruct (existsb (beq (text "GET")) ms); [reflexivity|]. cbn [serving]. rewrite beq_false; [reflexivity|]. intros X. apply pattern_inj in X; [|apply method_space; left; reflexivity|exact M]. destruct X as [<- _]. rewrite beq_refl in G. discriminate. }
    rewrite SG. destruct (existsb (beq m) ms); reflexivity.
Qed.
Theorem C142_example :
  let s := [(text "/pets/{id}", [text "GET"; text "PUT"]); (text "/pets", [text "POST"])] in
  shape s /\ same_spec s [(text "/pets", [text "POST"]); (text "/pets/{id}", [text "PUT"; text "GET"])] /\
  ops_of (handlers ([58], []) ([58], []) false s) =
    [(text "GET /pets/:id", HOp (text "/pets/{id}") (text "GET")); (text "PUT /pets/:id", HOp (text "/pets/{id}") (text "PUT")); (text "POST /pets", HOp (text "/pets") (text "POST"))] /\
  serving (text "GET /pets") (of_resources s) = Some HForm.
Proof.
  cbv zeta. split; [|split; [|split; reflexivity]].
  - split; [constructor; [intros [X|[]]; discriminate|constructor; [intros []|constructor]]|].
    constructor; [|constructor; [|constructor]]; cbn [snd]; split.
    + repeat (constructor; [intros X; vm_compute in X; intuition discriminate|]). constructor.
    + constructor; [intros [X|[]]; discriminate|constructor; [intros []|constructor]].
    + repeat (constructor; [intros X; vm_compute in X; intuition discriminate|]). constructor.
    + constructor; [intros []|constructor].
  - eexists. split; [apply perm_swap|]. constructor; [split; [reflexivity|apply Permutation_refl]|]. constructor; [split; [reflexivity|apply perm_swap]|constructor].
Qed.

(** ** Refuted *)
(** Patterns are yielded twice: OPTIONS of a resource with a GET (http.ServeMux panics on
    that), and a GET of "/". *)
Theorem C142_twice_refuted f r ex order p ms : In (p, ms) order -> In (text "GET") ms -> ~ In (text "OPTIONS") ms ->
  ~ NoDup (map fst (handlers f r ex order)).
Proof.
  intros I G O N. unfold handlers in N. cbn [map fst] in N. apply NoDup_cons_iff in N. destruct N as [_ N]. rewrite map_app, map_app in N. rewrite map_map in N.
  assert (K : forall (a b : list bytes), NoDup (a ++ b) -> NoDup b) by (intros a b; induction a as [|x a IH]; intros Q; [exact Q|]; inversion Q; subst; apply IH; assumption).
  apply K in N. rewrite map_map in N. apply in_split in I. destruct I as (a & b & ->). unfold of_resources in N. rewrite flat_map_app, map_app in N. apply K in N. cbn [flat_map] in N. rewrite map_app in N.
  assert (K2 : forall (a b : list bytes), NoDup (a ++ b) -> NoDup a).
  { intros x y. induction x as [|z x IH]; intros Q; [constructor|]. inversion Q as [|? ? Q1 Q2]; subst. constructor; [intros W; apply Q1; apply in_or_app; left; exact W|apply IH; exact Q2]. }
  apply K2 in N. unfold of_resource in N. replace (existsb (beq (text "OPTIONS")) ms) with false in N.
  - apply in_split in G. destruct G as (c & d & ->). rewrite flat_map_app in N. cbn [flat_map] in N. unfold of_operation at 2 in N. rewrite beq_refl in N.
    rewrite <- !app_assoc in N. rewrite map_app in N. apply K in N. cbn [app map fst] in N. apply NoDup_cons_iff in N. destruct N as [N _]. apply N.
    right. rewrite map_app. apply in_or_app. right. left. reflexivity.
  - symmetry. apply not_true_iff_false. intros E. apply existsb_exists in E. destruct E as (x & X & E). apply beq_true in E. subst x. contradiction.
Qed.
Theorem C142_root_refuted f r ex order ms : In (text "/", ms) order -> In (text "GET") ms ->
  exists l, handlers f r ex order = (convert f r (text "GET /"), HIndex) :: l /\ In (convert f r (text "GET /"), HOp (text "/") (text "GET")) l.
Proof.
  intros I G. eexists. split; [reflexivity|]. apply in_map_iff. exists (pattern (text "GET") (text "/"), HOp (text "/") (text "GET")). split; [reflexivity|].
  apply in_or_app. right. apply in_flat_map. exists (text "/", ms). split; [exact I|]. unfold of_resource. apply in_or_app. left. apply in_flat_map. exists (text "GET"). split; [exact G|].
  right. left. reflexivity.
Qed.
(** Of a resource with both a GET and an OPTIONS the order of visiting decides which serves
    OPTIONS: the function, or the answer made up for the GET. *)
Theorem C142_options_refuted p : 
  serving (pattern (text "OPTIONS") p) (of_resources [(p, [text "GET"; text "OPTIONS"])]) = Some (HOp p (text "OPTIONS")) /\
  serving (pattern (text "OPTIONS") p) (of_resources [(p, [text "OPTIONS"; text "GET"])]) = Some HCors.
Proof.
  assert (B : forall a b, ~ In 32 a -> ~ In 32 b -> beq (pattern a p) (pattern b p) = beq a b).
  { intros a b A C. destruct (beq a b) eqn:E; [apply beq_true in E; subst; apply beq_refl|]. apply beq_false. intros X. apply pattern_inj in X; [|assumption|assumption]. destruct X as [-> _]. rewrite beq_refl in E. discriminate. }
  assert (GE : ~ In 32 (text "GET")) by (apply method_space; left; reflexivity). assert (OP : ~ In 32 (text "OPTIONS")) by (apply method_space; right; left; reflexivity).
  unfold of_resources, of_resource. cbn [flat_map existsb]. unfold of_operation. 
  change (beq (text "GET") (text "GET")) with true. change (beq (text "OPTIONS") (text "GET")) with false. change (beq (text "OPTIONS") (text "OPTIONS")) with true.
  cbn [orb app serving]. rewrite !B by assumption. split; reflexivity.
Qed.
(** ** The pages: the index once, first; that of an example just when there are examples. *)
Theorem C142_pages f r ex order :
  (exists l, handlers f r ex order = (convert f r (text "GET /"), HIndex) :: l /\ ~ In HIndex (map snd l)) /\
  (In HExample (map snd (handlers f r ex order)) <-> ex = true).
Proof.
  assert (O : forall h, In h (map snd (of_resources order)) -> h <> HIndex /\ h <> HExample).
  { intros h I. apply in_map_iff in I. destruct I as ([p k] & <- & I). apply in_flat_map in I. destruct I as ([q ms] & _ & I).
    unfold of_resource in I. cbn [snd]. apply in_app_or in I. destruct I as [I|I].
    - apply in_flat_map in I. destruct I as (m & _ & I). unfold of_operation in I. apply in_app_or in I. destruct I as [I|I].
      + destruct (beq m (text "GET")); [|contradiction I]. destruct I as [I|[]]. inversion I; subst. split; discriminate.
      + destruct I as [I|[]]. inversion I; subst. split; discriminate.
    - apply in_app_or in I. destruct I as [I|I].
      + destruct (existsb (beq (text "OPTIONS")) ms); [contradiction I|]. destruct I as [I|[]]. inversion I; subst. split; discriminate.
      + destruct (existsb (beq (text "GET")) ms); [contradiction I|]. destruct I as [I|[]]. inversion I; subst. split; discriminate. }
  assert (M : forall l : list (bytes * handler), map snd (map (fun '(p, h) => (convert f r p, h)) l) = map snd l) by (intros l; rewrite map_map; apply map_ext; intros [p h]; reflexivity).
  split.
  - eexists. split; [reflexivity|]. rewrite M, map_app. intros I. apply in_app_or in I. destruct I as [I|I].
    + destruct ex; [|contradiction I]. destruct I as [I|[]]. discriminate.
    + apply O in I. destruct I as [I _]. apply I. reflexivity.
  - unfold handlers. rewrite M. cbn [map snd]. rewrite map_app. split.
    + intros [I|I]; [discriminate|]. apply in_app_or in I. destruct I as [I|I].
      * destruct ex; [reflexivity|contradiction I].
      * apply O in I. destruct I as [_ I]. exfalso. apply I. reflexivity.
    + intros ->. right. apply in_or_app. left. left. reflexivity.
Qed.
