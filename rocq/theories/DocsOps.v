(** C126: the operations of the published document (api/rest/docs.go:104-334) against those the server has
    (api/rest/rest.go:245-437).

    Simplifications: an operation is its name, its parameters with where they go and the positions of the arguments in the
    body; schemas are DocsModel. Functions are in the order they are visited (that of namespaces is any order in the code);
    a function in a hidden namespace is hidden. Bodies that are readers are like others. *)
From Verif Require Import GoBase MuxModel MuxSpec MuxProofs RestModel RestSpec RestProofs.
Local Open Scope nat_scope.
Open Scope list_scope.

Record func := { f_name : string; f_rest : string; f_http : string; f_hidden : bool; f_nargs : nat; f_nouts : nat;
  f_sparam : string -> option (string * list nat); f_fields : nat -> option (list (string * list nat)) }.
(** rest.go:272-297 [makeResponses] and 299-437 [loadOperation]: what the server has for a function with a rest tag. *)
Definition serve (fn : func) : outcome (option operation) :=
  let! o := load_operation (f_nargs fn) (f_sparam fn) (f_fields fn) (f_rest fn) in
  match o with
  | None => Ok None
  | Some op =>
      let! rules := result_rules_of (f_rest fn) in
      if (match rules with [] => Nat.eqb (f_nouts fn) 1 | _ => false end) || Nat.eqb (List.length rules) (f_nouts fn) then Ok (Some op) else Ok None
  end.
Inductive place := AtPath | AtQuery | Nowhere.
Inductive body_doc := NoBody | OneArg (i : nat) | Object (l : list (string * nat)).
Inductive resp_doc := NoResp | OneResult | Results (names : list string).
Record doc_op := { d_id : string; d_params : list (string * place); d_body : body_doc; d_resp : resp_doc }.
Definition place_of (p : param) : place := match p_path p, p_query p with true, false => AtPath | false, true => AtQuery | _, _ => Nowhere end.
(** docs.go:245-276 *)
Fixpoint doc_params (i : nat) (rules : list string) (has_rules : bool) (l : list param) : option (list (string * place) * list (string * nat) * option nat) :=
  match l with
  | [] => Some ([], [], None)
  | p :: r =>
      if p_void p then doc_params (S i) rules has_rules r
      else if in_body p then
        match has_rules, rules with
        | true, [] => None
        | true, n :: ns => match doc_params (S i) ns has_rules r with Some (ps, m, b) => Some (ps, (n, i) :: m, b) | None => None end
        | false, _ => match doc_params (S i) rules has_rules r with Some (ps, m, b) => Some (ps, m, Some (match b with Some j => j | None => i end)) | None => None end
        end
      else match doc_params (S i) rules has_rules r with Some (ps, m, b) => Some ((p_name p, place_of p) :: ps, m, b) | None => None end
  end.
Fixpoint take_results (n : nat) (rules : list string) : outcome (list string) :=
  match n, rules with O, _ => Ok [] | S _, [] => Panic | S n, r :: rules => let! l := take_results n rules in Ok (r :: l) end.
Definition nonempty {A} (l : list A) : bool := match l with [] => false | _ => true end.
(** docs.go:204-334 [operationFor] *)
Definition operation_for (fn : func) (target : string) : outcome (option doc_op) :=
  let '(target, _, _) := cut space target in
  let '(path, query, has_query) := cut "?"%char target in
  let! s1 := parse_path_tag (f_nargs fn) (f_sparam fn) path (pnew (f_nargs fn)) in
  match s1 with
  | None => Ok None
  | Some st1 =>
      let! s2 := (if has_query then parse_query (f_nargs fn) (f_sparam fn) (f_fields fn) (split "&"%char query) st1 else Ok (Some st1)) in
      match s2 with
      | None => Ok None
      | Some st2 =>
          let! rules := argument_rules_of (f_rest fn) in
          let! results := result_rules_of (f_rest fn) in
          match parse_body 0 rules (nonempty rules) (plist st2) with
          | None => Ok None
          | Some l =>
              match doc_params 0 rules (nonempty rules) l with
              | None => Ok None
              | Some (ps, mapping, b) =>
                  let body := match mapping, b with [], Some i => OneArg i | [], None => NoBody | x :: m, _ => Object (x :: m) end in
                  if Nat.eqb (f_nouts fn) 1 && negb (nonempty results) then Ok (Some {| d_id := f_name fn; d_params := ps; d_body := body; d_resp := OneResult |})
                  else if negb (Nat.eqb (f_nouts fn) 0) || nonempty results then
                    let! names := take_results (f_nouts fn) results in Ok (Some {| d_id := f_name fn; d_params := ps; d_body := body; d_resp := Results names |})
                  else Ok (Some {| d_id := f_name fn; d_params := ps; d_body := body; d_resp := NoResp |})
              end
          end
      end
  end.
Definition doc_methods : list string := ["GET"; "PUT"; "POST"; "DELETE"; "OPTIONS"; "HEAD"; "PATCH"; "TRACE"].
Definition endpoint := (string * string)%type. (* path, method *)
Definition document := list (endpoint * doc_op).
Definition doc_get (d : document) (path method : string) : option doc_op :=
  match List.find (fun e => String.eqb (fst (fst e)) path && String.eqb (snd (fst e)) method) d with Some e => Some (snd e) | None => None end.
(** docs.go:148-201 [addFunctionTo] *)
Definition add_function (d : document) (fn : func) : outcome (option document) :=
  let tag := if String.eqb (f_rest fn) "" then f_http fn else f_rest fn in
  if String.eqb tag "" || String.eqb tag "-" then Ok (Some d)
  else if f_hidden fn then Ok (Some d)
  else
    let '(method, target, ok) := cut space tag in
    if negb ok then Ok None
    else
      let! o := operation_for fn target in
      match o with
      | None => Ok None
      | Some op =>
          let '(target, _, _) := cut space target in
          let '(path, _, _) := cut "?"%char target in
          let '(method, _, _) := cut "("%char method in
          if existsb (String.eqb method) doc_methods then Ok (Some (((cleanup path, method), op) :: d)) else Ok None
      end.
(** docs.go:104-147 [oasDocumentOf], [addNamespaceTo] *)
Fixpoint add_functions (d : document) (fns : list func) : outcome (option document) :=
  match fns with
  | [] => Ok (Some d)
  | fn :: fns => let! o := add_function d fn in match o with None => Ok None | Some d => add_functions d fns end
  end.

(** ** What the document should say *)
Fixpoint body_positions (i : nat) (l : list param) : list nat :=
  match l with [] => [] | p :: r => if in_body p then i :: body_positions (S i) r else body_positions (S i) r end.
Record describes (fn : func) (op : operation) (d : doc_op) : Prop := {
  ds_id : d_id d = f_name fn;
  (* every parameter of the path and of the query, in order and with its place *)
  ds_params : d_params d = map (fun p => (p_name p, place_of p)) (filter (fun p => negb (p_void p) && negb (in_body p)) (o_params op));
  (* the arguments in the body under the names the server reads them from *)
  ds_object : o_rules op <> [] -> d_body d = Object (combine (o_rules op) (body_positions 0 (o_params op)));
  ds_one : forall i, o_rules op = [] -> body_positions 0 (o_params op) = [i] -> d_body d = OneArg i;
  ds_none : body_positions 0 (o_params op) = [] -> d_body d = NoBody;
  (* the results *)
  ds_resp : result_rules_of (f_rest fn) = Ok [] -> d_resp d = match f_nouts fn with O => NoResp | _ => OneResult end;
  ds_results : forall r rs, result_rules_of (f_rest fn) = Ok (r :: rs) -> d_resp d = Results (r :: rs)
}.
(** The path of a tag, as it is in the document. *)
Definition doc_path (tag : string) : string := match split space tag with _ :: target :: _ => cleanup (fst (fst (cut "?"%char target))) | _ => "" end.

(** ** Proofs *)
Lemma split_cut c s : split c s = let '(x, y, ok) := cut c s in if ok then x :: split c y else [x].
Proof.
  induction s as [|a s IH]; [reflexivity|]. cbn [split cut]. destruct (Ascii.eqb a c); [reflexivity|]. rewrite IH. destruct (cut c s) as [[x y] ok]. destruct ok; reflexivity.
Qed.
Lemma body_void l : forall i rules h ps, parse_body i rules h l = Some ps -> map p_void ps = map p_void l.
Proof.
  induction l as [|p l IH]; intros i rules h ps E; cbn [parse_body] in E; [injection E as <-; reflexivity|].
  assert (V : in_body p = true -> p_void p = false) by (unfold in_body; destruct (p_path p), (p_query p), (p_void p); cbn; congruence).
  destruct (in_body p).
  - destruct h, rules as [|n ns]; try discriminate E.
    all: match type of E with option_map _ ?x = _ => destruct x as [ps'|] eqn:E'; [|discriminate E] end; injection E as <-; cbn [map]; rewrite (IH _ _ _ _ E'), (V eq_refl); reflexivity.
  - destruct (parse_body (S i) rules h l) as [ps'|] eqn:E'; [|discriminate E]. injection E as <-. cbn [map]. rewrite (IH _ _ _ _ E'). reflexivity.
Qed.
Lemma doc_params_spec l : forall i rules h, (h = true -> List.length rules = List.length (filter in_body l)) -> exists b,
  doc_params i rules h l = Some (map (fun p => (p_name p, place_of p)) (filter (fun p => negb (p_void p) && negb (in_body p)) l), if h then combine rules (body_positions i l) else [], b) /\
  (h = true -> b = None) /\ (h = false -> forall j, body_positions i l = [j] -> b = Some j) /\ (body_positions i l = [] -> b = None).
Proof.
  induction l as [|p l IH]; intros i rules h L.
  - exists None. cbn. split; [destruct h; [destruct rules; reflexivity|reflexivity]|]. split; [reflexivity|split; [intros _ j E; discriminate E|reflexivity]].
  - assert (V : in_body p = true -> p_void p = false) by (unfold in_body; destruct (p_path p), (p_query p), (p_void p); cbn; congruence).
    cbn [doc_params body_positions filter]. destruct (in_body p) eqn:B.
    + rewrite (V eq_refl). cbn [negb andb]. destruct h.
      * destruct rules as [|n ns]; [cbn in L; rewrite B in L; specialize (L eq_refl); discriminate L|]. destruct (IH (S i) ns true) as (b & E & H1 & H2 & H3).
        { intros _. specialize (L eq_refl). cbn in L. rewrite B in L. cbn in L. congruence. }
        rewrite E. exists b. split; [reflexivity|]. split; [exact H1|]. split; [intros X; discriminate X|intros X; discriminate X].
      * destruct (IH (S i) rules false ltac:(discriminate)) as (b & E & H1 & H2 & H3). rewrite E. eexists. split; [reflexivity|]. split; [intros X; discriminate X|]. split; [|intros X; discriminate X].
        intros _ j X. injection X as -> X. rewrite (H3 X). reflexivity.
    + rewrite andb_true_r. assert (L' : h = true -> List.length rules = List.length (filter in_body l)) by (intros X; specialize (L X); cbn in L; rewrite B in L; exact L).
      destruct (IH (S i) rules h L') as (b & E & H1 & H2 & H3). rewrite E. destruct (p_void p); cbn [negb]; exists b; (split; [reflexivity|split; [exact H1|split; [exact H2|exact H3]]]).
Qed.
Lemma take_all rules : take_results (List.length rules) rules = Ok rules.
Proof. induction rules as [|r l IH]; [reflexivity|]. cbn. rewrite IH. reflexivity. Qed.
Lemma combine_nil {A B} (l : list A) (m : list B) : combine l m = [] -> l = [] \/ m = [].
Proof. destruct l, m; [left; reflexivity|left; reflexivity|right; reflexivity|discriminate]. Qed.
Lemma positions_length l : forall i, List.length (body_positions i l) = List.length (filter in_body l).
Proof. induction l as [|p l IH]; intros i; [reflexivity|]. cbn. destruct (in_body p); cbn; rewrite IH; reflexivity. Qed.

(** Whatever the server takes, the document describes. *)
Lemma served_described fn op : serve fn = Ok (Some op) -> exists m0 target rest d, cut space (f_rest fn) = (m0, rest, true) /\ fst (fst (cut space rest)) = target /\
  operation_for fn rest = Ok (Some d) /\ describes fn op d /\ fst (fst (cut "("%char m0)) = o_method op /\ doc_path (f_rest fn) = cleanup (fst (fst (cut "?"%char target))).
Proof.
  unfold serve, load_operation. intros H. pose proof (split_cut space (f_rest fn)) as SP.
  destruct (cut space (f_rest fn)) as [[m0 rest] ok] eqn:C. destruct ok; [|rewrite SP in H; (cbn in H; discriminate H)].
  pose proof (split_cut space rest) as SR. destruct (cut space rest) as [[target rest2] ok2] eqn:C2.
  assert (exists tl, split space rest = target :: tl) as [tl SR'] by (rewrite SR; destruct ok2; eexists; reflexivity).
  rewrite SP, SR' in H. destruct (String.eqb m0 "") eqn:M0; [(cbn in H; discriminate H)|].
  match type of H with context [match ?x with Some method => _ | None => Ok None end] => destruct x as [method|] eqn:ME; [|(cbn in H; discriminate H)] end.
  assert (MM : fst (fst (cut "("%char m0)) = method).
  { rewrite contains_has in ME. destruct (has_char "("%char m0) eqn:HB.
    - destruct (unsnoc m0) as [[m1 c]|] eqn:U; [|discriminate ME].
      assert (m0 = m1 ++ String c "")%string as ->.
      { clear - U. revert m1 c U. induction m0 as [|a m0 IH]; intros m1 c U; [discriminate U|]. cbn [unsnoc] in U. destruct (unsnoc m0) as [[x y]|] eqn:U0.
        - injection U as <- <-. cbn [String.append]. f_equal. apply IH. reflexivity.
        - injection U as <- <-. destruct m0 as [|b m0]; [reflexivity|]. cbn [unsnoc] in U0. destruct (unsnoc m0) as [[? ?]|]; discriminate U0. }
      destruct (Ascii.eqb c ")"%char) eqn:CC.
      2: { exfalso. clear - CC ME. destruct c as [b0 b1 b2 b3 b4 b5 b6 b7]. destruct b0, b1, b2, b3, b4, b5, b6, b7; cbn in *; congruence. }
      apply Ascii.eqb_eq in CC. subst c. destruct (cut "("%char m1) as [[m x] o] eqn:Cm. injection ME as <-.
      rewrite has_char_app in HB. cbn in HB. rewrite orb_false_r in HB.
      clear - Cm HB. revert m x o Cm. induction m1 as [|a m1 IH]; intros m x o Cm; [discriminate HB|]. cbn [String.append cut] in *. destruct (Ascii.eqb a "("%char) eqn:A; [injection Cm as <- _ _; reflexivity|].
      destruct (cut "("%char m1) as [[m' x'] o'] eqn:C'. injection Cm as <- <- <-. cbn in HB. rewrite A in HB. specialize (IH HB _ _ _ eq_refl).
      destruct (cut "("%char (m1 ++ ")")) as [[u v] w]. cbn in *. congruence.
    - injection ME as <-. rewrite (RestProofs.cut_none _ _ HB). reflexivity. }
  destruct (cut "?"%char target) as [[path query] has_query] eqn:Q.
  exists m0, target, rest.
  destruct (parse_path_tag (f_nargs fn) (f_sparam fn) path (pnew (f_nargs fn))) as [[st1|]|] eqn:P1; try (cbn in H; discriminate H). cbn [obind] in H.
  match type of H with obind (obind ?x _) _ = _ => destruct x as [[st2|]|] eqn:P2; try (cbn in H; discriminate H) end. cbn [obind] in H.
  destruct (argument_rules_of (f_rest fn)) as [rules|] eqn:AR; [|(cbn in H; discriminate H)]. cbn [obind] in H.
  destruct (parse_body 0 rules _ (plist st2)) as [ps|] eqn:PB; [|(cbn in H; discriminate H)].
  set (h := match rules with [] => false | _ => true end) in *.
  match type of H with context [if ?x then Ok None else _] => destruct x eqn:LN; [(cbn in H; discriminate H)|] end. cbn [obind] in H.
  destruct (result_rules_of (f_rest fn)) as [results|] eqn:RR; [|(cbn in H; discriminate H)]. cbn [obind] in H.
  match type of H with context [if ?x then _ else _] => destruct x eqn:NO; [|(cbn in H; discriminate H)] end. injection H as H.
  assert (L : h = true -> List.length rules = List.length (filter in_body ps)).
  { unfold h. destruct rules; [discriminate|]. intros _. apply negb_false_iff, Nat.eqb_eq in LN. exact LN. }
  destruct (doc_params_spec ps 0 rules h L) as (b & DP & B1 & B2 & B3).
  assert (X : forall resp, (results = [] -> resp = match f_nouts fn with O => NoResp | _ => OneResult end) -> (forall r rs, results = r :: rs -> resp = Results (r :: rs)) ->
    describes fn op {| d_id := f_name fn; d_params := map (fun p => (p_name p, place_of p)) (filter (fun p => negb (p_void p) && negb (in_body p)) ps);
      d_body := match (if h then combine rules (body_positions 0 ps) else []), b with [], Some i => OneArg i | [], None => NoBody | x :: m, _ => Object (x :: m) end; d_resp := resp |}).
  { intros resp Hr Hrs. subst op. constructor; cbn [o_params o_rules d_id d_params d_body d_resp]; [reflexivity|reflexivity| | | |intros E; apply Hr; congruence|intros r rs E; apply Hrs; congruence].
    - intros NE. unfold h in *. destruct rules as [|r rs]; [destruct (NE eq_refl)|]. destruct (combine (r :: rs) (body_positions 0 ps)) eqn:CB; [|reflexivity].
      apply combine_nil in CB. destruct CB as [CB|CB]; [discriminate CB|]. specialize (L eq_refl). rewrite <- (positions_length ps 0), CB in L. discriminate L.
    - intros i E P. unfold h in *. rewrite E. rewrite (B2 ltac:(rewrite E; reflexivity) i P). reflexivity.
    - intros E. rewrite (B3 E), E. destruct h; [|reflexivity]. destruct rules; reflexivity. }
  assert (OP : exists d, operation_for fn rest = Ok (Some d) /\ describes fn op d).
  { unfold operation_for. rewrite C2, Q, P1. cbn [obind]. rewrite P2. cbn [obind]. rewrite AR, RR. cbn [obind]. change (nonempty rules) with h. rewrite PB, DP.
    destruct results as [|r rs]; cbn [nonempty negb].
    - rewrite andb_true_r, orb_false_r. destruct (Nat.eqb (f_nouts fn) 1) eqn:N1.
      + eexists. split; [reflexivity|]. apply X; [|intros r rs E; discriminate E]. intros _. apply Nat.eqb_eq in N1. rewrite N1. reflexivity.
      + cbn [orb List.length] in NO. apply Nat.eqb_eq in NO. rewrite <- NO. cbn [Nat.eqb negb]. eexists. split; [reflexivity|]. apply X; [|intros r rs E; discriminate E]. intros _. rewrite <- NO. reflexivity.
    - rewrite andb_false_r, orb_true_r. cbn [orb] in NO. apply Nat.eqb_eq in NO. rewrite <- NO, take_all. cbn [obind]. eexists. split; [reflexivity|]. apply X; [intros E; discriminate E|]. intros r' rs' E. congruence. }
  destruct OP as (d & OP & DS). exists d. split; [reflexivity|]. split; [rewrite C2; reflexivity|]. split; [exact OP|]. split; [exact DS|]. split; [subst op; exact MM|].
  unfold doc_path. rewrite SP, SR', Q. reflexivity.
Qed.

(** ** The document *)
Definition routed (fn : func) : Prop := f_rest fn <> "" /\ f_rest fn <> "-".
(** The methods a path item of OpenAPI 3.1 has. *)
Definition openapi_methods : list string := ["GET"; "PUT"; "POST"; "DELETE"; "OPTIONS"; "HEAD"; "PATCH"; "TRACE"].
(** A function the server does not fail on: it has no route and no http tag, or it is served with a method OpenAPI knows. *)
Definition accepted (fn : func) : Prop :=
  (routed fn -> exists op, serve fn = Ok (Some op) /\ In (o_method op) openapi_methods) /\ (f_rest fn = "" -> f_http fn = "" \/ f_http fn = "-").
Lemma add_accepted fn d : accepted fn -> exists e, add_function d fn = Ok (Some (e ++ d)) /\
  ((e = [] /\ (routed fn -> f_hidden fn = true)) \/ exists op o, e = [((doc_path (f_rest fn), o_method op), o)] /\ routed fn /\ f_hidden fn = false /\ serve fn = Ok (Some op) /\ describes fn op o).
Proof.
  intros [A1 A2]. unfold add_function. destruct (String.eqb (f_rest fn) "") eqn:R0.
  - apply String.eqb_eq in R0. destruct (A2 R0) as [E|E]; rewrite E; exists []; (split; [reflexivity|left; split; [reflexivity|intros [X _]; congruence]]).
  - rewrite R0. cbn [orb]. destruct (String.eqb (f_rest fn) "-") eqn:R1.
    + apply String.eqb_eq in R1. exists []. split; [reflexivity|left; split; [reflexivity|intros [_ X]; congruence]].
    + apply String.eqb_neq in R0, R1. destruct (f_hidden fn) eqn:HD; [exists []; split; [reflexivity|left; split; [reflexivity|auto]]|].
      destruct (A1 (conj R0 R1)) as (op & S0 & M). destruct (served_described fn op S0) as (m0 & target & rest & o & C1 & C2 & OP & DS & MM & PP).
      rewrite C1. cbn [negb]. rewrite OP. cbn [obind]. destruct (cut space rest) as [[t' x'] o'] eqn:CR. cbn in C2. subst t'. destruct (cut "?"%char target) as [[path q] hq] eqn:Q. destruct (cut "("%char m0) as [[m y] z] eqn:CM. cbn in MM, PP. subst m.
      assert (EX : existsb (String.eqb (o_method op)) doc_methods = true) by (apply existsb_exists; exists (o_method op); split; [change doc_methods with openapi_methods; exact M|apply String.eqb_refl]). rewrite EX.
      exists [((doc_path (f_rest fn), o_method op), o)]. rewrite PP. split; [reflexivity|]. right. exists op, o. split; [reflexivity|]. split; [split; assumption|split; [reflexivity|split; assumption]].
Qed.
Lemma doc_get_in d path m o : doc_get d path m = Some o -> In ((path, m), o) d.
Proof.
  unfold doc_get. intros H. destruct (List.find (fun e => String.eqb (fst (fst e)) path && String.eqb (snd (fst e)) m) d) as [[[p' m'] o']|] eqn:E; [|discriminate H]. injection H as <-. apply find_some in E. destruct E as [E B]. cbn in B. apply andb_true_iff in B. destruct B as [B1 B2].
  apply String.eqb_eq in B1, B2. subst. exact E.
Qed.
Lemma doc_get_some d path m o : In ((path, m), o) d -> exists o', doc_get d path m = Some o'.
Proof.
  intros X. unfold doc_get. destruct (List.find (fun e => String.eqb (fst (fst e)) path && String.eqb (snd (fst e)) m) d) as [e|] eqn:E; [eexists; reflexivity|]. pose proof (find_none _ _ E _ X) as N. cbn in N. rewrite !String.eqb_refl in N. discriminate N.
Qed.
(** The server has a document, with the operation of every function that is not hidden, at its path and under its
    method, and nothing else. *)
Theorem C126_documented fns : Forall accepted fns -> exists d, add_functions [] fns = Ok (Some d) /\
  (forall fn op, In fn fns -> routed fn -> f_hidden fn = false -> serve fn = Ok (Some op) -> exists o, doc_get d (doc_path (f_rest fn)) (o_method op) = Some o) /\
  (forall path m o, doc_get d path m = Some o -> exists fn op, In fn fns /\ routed fn /\ f_hidden fn = false /\ serve fn = Ok (Some op) /\
     path = doc_path (f_rest fn) /\ m = o_method op /\ describes fn op o).
Proof.
  intros A. assert (G : forall fns d0, Forall accepted fns -> exists d, add_functions d0 fns = Ok (Some d) /\ (forall x, In x d0 -> In x d) /\
    (forall fn op, In fn fns -> routed fn -> f_hidden fn = false -> serve fn = Ok (Some op) -> exists o, In ((doc_path (f_rest fn), o_method op), o) d) /\
    (forall path m o, In ((path, m), o) d -> In ((path, m), o) d0 \/ exists fn op, In fn fns /\ routed fn /\ f_hidden fn = false /\ serve fn = Ok (Some op) /\ path = doc_path (f_rest fn) /\ m = o_method op /\ describes fn op o)).
  { clear. induction fns as [|fn fns IH]; intros d0 A; [exists d0; split; [reflexivity|split; [auto|split; [intros fn op []|auto]]]|].
    apply Forall_cons_iff in A. destruct A as [A1 A]. destruct (add_accepted fn d0 A1) as (e & E & K). cbn [add_functions]. rewrite E. cbn [obind].
    destruct (IH (e ++ d0) A) as (d & D1 & D2 & D3 & D4). exists d. split; [exact D1|]. split; [intros x X; apply D2, in_app_iff; right; exact X|]. split.
    - intros fn' op [<-|X] R Hh S0; [|apply (D3 fn' op X R Hh S0)]. destruct K as [[-> K]|(op' & o & -> & _ & _ & S1 & DS)]; [specialize (K R); congruence|].
      rewrite S0 in S1. injection S1 as <-. exists o. apply D2. left. reflexivity.
    - intros path m o X. destruct (D4 path m o X) as [Y|(fn' & op & Y1 & Y2)]; [|right; exists fn', op; split; [right; exact Y1|exact Y2]].
      apply in_app_iff in Y. destruct Y as [Y|Y]; [|left; exact Y]. destruct K as [[-> K]|(op' & o' & -> & R & Hh & S1 & DS)]; [destruct Y|]. destruct Y as [Y|[]]. injection Y as <- <- <-.
      right. exists fn, op'. split; [left; reflexivity|]. split; [exact R|split; [exact Hh|split; [exact S1|split; [reflexivity|split; [reflexivity|exact DS]]]]]. }
  destruct (G fns [] A) as (d & D1 & _ & D3 & D4). exists d. split; [exact D1|]. split.
  - intros fn op X R Hh S0. destruct (D3 fn op X R Hh S0) as [o O]. apply (doc_get_some _ _ _ _ O).
  - intros path m o X. destruct (D4 path m o (doc_get_in _ _ _ _ X)) as [[]|Y]. exact Y.
Qed.

(** ** The path *)
Lemma write_fmt p t : good_name (t_name p) -> cleanup ("{" ++ write_param p ++ "}" ++ t) = ("{" ++ t_name p ++ "}" ++ cleanup t)%string.
Proof.
  intros [N F]. assert (Fe : has_char "="%char (t_name p) = false) by (apply (free_in _ _ _ F); cbn; tauto).
  rewrite write_param_fmt, !app_assoc_s. rewrite (cleanup_app "{") by reflexivity. f_equal. rewrite cleanup_app by exact Fe. f_equal. unfold fmt. destruct (t_num p) as [k|].
  - cbn [String.append]. rewrite !app_assoc_s. cbn [String.append].
    replace (String "%" (String "[" (decimal k ++ String "]" (String "v" (String "}" t))))) with (("%[" ++ decimal k ++ "]v") ++ String "}" t)%string by (cbn [String.append]; now rewrite app_assoc_s).
    rewrite cleanup_eq; [reflexivity|discriminate|]. rewrite !has_char_app. rewrite decimal_free by (cbn; tauto). reflexivity.
  - cbn [String.append]. change (String "%" (String "v" (String "}" t))) with ("%v" ++ String "}" t)%string. rewrite cleanup_eq; [reflexivity|discriminate|reflexivity].
Qed.
Lemma cleanup_tsegs segs : Forall good_tseg segs -> cleanup (render_path (map write_tseg segs)) = render_path (map render_seg (pattern_of segs)).
Proof.
  intro G. unfold render_path. rewrite cleanup_app by reflexivity. f_equal.
  induction segs as [|x segs IH]; [reflexivity|]. inversion G as [|? ? Gx G']. subst. specialize (IH G').
  assert (X : forall t, cleanup (write_tseg x ++ t) = (render_seg (match x with TLit s => Lit s | TPar p => Var (t_name p) end) ++ cleanup t)%string).
  { intro t. destruct x as [s|p]; cbn [write_tseg render_seg].
    - apply cleanup_app. destruct Gx as [_ F]. apply (free_in _ _ _ F). cbn; tauto.
    - rewrite app_assoc_s, app_assoc_s, write_fmt by exact Gx. now rewrite !app_assoc_s. }
  cbn [map pattern_of]. destruct segs as [|y segs].
  - cbn [map String.concat]. rewrite <- (app_nil_s (write_tseg x)), X. now rewrite app_nil_s.
  - cbn [map] in *. cbn [String.concat] in *. rewrite X. f_equal. rewrite cleanup_app by reflexivity. f_equal. exact IH.
Qed.
(** A well-formed tag is documented under the pattern the server routes it under. *)
Theorem C126_path m segs query args results op nargs sparam fields : has_char space m = false -> Forall good_tseg segs -> Forall good_titem query -> good_rules args -> good_rules results ->
  load_operation nargs sparam fields (tag m (target segs query) args results) = Ok (Some op) ->
  doc_path (tag m (target segs query) args results) = o_path op /\ o_path op = render_path (map render_seg (pattern_of segs)).
Proof.
  intros M G Q Ga Gr H. pose proof (target_space segs query G Q) as TS. pose proof (split_tag m (target segs query) args results M TS Ga Gr) as SP.
  assert (CT : exists q h, cut "?"%char (target segs query) = (render_path (map write_tseg segs), q, h)).
  { unfold target. assert (HP : has_char "?"%char (render_path (map write_tseg segs)) = false) by (apply has_path_char; [discriminate|exact G|cbn; tauto]).
    destruct query as [|x q]; [rewrite app_nil_s; eexists; eexists; apply RestProofs.cut_none, HP|].
    clear - HP. generalize (join "&" (map write_titem (x :: q))) as r. intros r. exists r, true. induction (render_path (map write_tseg segs)) as [|a s IH]; [reflexivity|].
    cbn in HP. apply orb_false_iff in HP. destruct HP as [Ha HP]. cbn [String.append cut]. rewrite Ha. change (cut "?"%char (s ++ ("?" ++ r))) with (cut "?"%char (s ++ "?" ++ r)). cbn [String.append] in IH |- *. rewrite (IH HP). reflexivity. }
  destruct CT as (q & h & CT). unfold doc_path, load_operation in *. rewrite SP in H |- *. unfold tag_parts in H |- *. cbn [app] in H |- *. rewrite CT in H |- *. cbn [fst].
  assert (OP : o_path op = clean (render_path (map write_tseg segs))).
  { destruct (String.eqb m ""); [discriminate H|].
    match type of H with context [match ?x with Some method => _ | None => Ok None end] => destruct x as [method|]; [|discriminate H] end.
    destruct (parse_path_tag _ _ _ _) as [[st1|]|]; try (cbn in H; discriminate H). cbn [obind] in H.
    match type of H with obind ?x _ = _ => destruct x as [[st2|]|]; try (cbn in H; discriminate H) end. cbn [obind] in H.
    destruct (argument_rules_of _) as [rules|]; [|cbn in H; discriminate H]. cbn [obind] in H. destruct (parse_body _ _ _ _) as [ps|]; [|discriminate H].
    match type of H with context [if ?x then Ok None else _] => destruct x; [discriminate H|] end. injection H as <-. reflexivity. }
  rewrite OP, (clean_tsegs segs G), (cleanup_tsegs segs G). split; reflexivity.
Qed.

(** ** Cases *)
Definition plainf (name rest : string) (nargs nouts : nat) : func :=
  {| f_name := name; f_rest := rest; f_http := ""; f_hidden := false; f_nargs := nargs; f_nouts := nouts; f_sparam := fun _ => None; f_fields := fun _ => None |}.
Definition two : list func := [plainf "Get" "GET /pet/{id=%v}?long=%v" 2 1; plainf "Put" "PUT /pet/{id=%v} (name,age) old,new" 3 2].
Example two_accepted : Forall accepted two.
Proof. constructor; [|constructor; [|constructor]]; (split; [intros _; eexists; split; [vm_compute; reflexivity|vm_compute; tauto]|intros X; discriminate X]). Qed.
Example two_doc : exists d, add_functions [] two = Ok (Some d) /\
  doc_get d "/pet/{id}" "GET" = Some {| d_id := "Get"; d_params := [("id", AtPath); ("long", AtQuery)]; d_body := NoBody; d_resp := OneResult |} /\
  doc_get d "/pet/{id}" "PUT" = Some {| d_id := "Put"; d_params := [("id", AtPath)]; d_body := Object [("name", 1); ("age", 2)]; d_resp := Results ["old"; "new"] |}.
Proof. eexists. split; [vm_compute; reflexivity|split; vm_compute; reflexivity]. Qed.
(** A hidden function is served and not in the document. *)
Example hidden_doc : add_functions [] [{| f_name := "Get"; f_rest := "GET /x"; f_http := ""; f_hidden := true; f_nargs := 0; f_nouts := 1; f_sparam := fun _ => None; f_fields := fun _ => None |}] = Ok (Some []).
Proof. reflexivity. Qed.
(** Of two arguments in the body without rules, the server reads both and the document has only the last. *)
Theorem C126_bodies_refuted : exists fn op d, serve fn = Ok (Some op) /\ body_positions 0 (o_params op) = [0; 1] /\ add_functions [] [fn] = Ok (Some [(("/sum", "POST"), d)]) /\ d_body d = OneArg 1.
Proof. exists (plainf "Sum" "POST /sum" 2 1). eexists. eexists. split; [vm_compute; reflexivity|]. split; [reflexivity|]. split; vm_compute; reflexivity. Qed.
(** An argument that is both in the path and in the query is documented without a place. *)
Theorem C126_both_refuted : exists fn op d, serve fn = Ok (Some op) /\ add_functions [] [fn] = Ok (Some [(("/x/{a}", "GET"), d)]) /\ d_params d = [("a", Nowhere)].
Proof. exists (plainf "X" "GET /x/{a=%v}?a=%[1]v" 1 1). eexists. eexists. split; [vm_compute; reflexivity|]. split; vm_compute; reflexivity. Qed.
(** A method that OpenAPI has no field for is a route, and then there is no document: the server does not start. *)
Theorem C126_method_refuted : exists fn op, serve fn = Ok (Some op) /\ add_functions [] [fn] = Ok None.
Proof. exists (plainf "C" "CONNECT /x" 0 1). eexists. split; vm_compute; reflexivity. Qed.
(** A function with only an http tag is documented and not served; such a tag without a space is an error for the whole API, and one for a function with several results a panic. *)
Definition httpf (http : string) (nouts : nat) : func :=
  {| f_name := "F"; f_rest := ""; f_http := http; f_hidden := false; f_nargs := 0; f_nouts := nouts; f_sparam := fun _ => None; f_fields := fun _ => None |}.
Theorem C126_http_refuted : (exists d, add_functions [] [httpf "GET /x" 1] = Ok (Some [(("/x", "GET"), d)])) /\ ~ routed (httpf "GET /x" 1) /\
  add_functions [] [httpf "example.com" 1] = Ok None /\ add_functions [] [httpf "GET /x" 2] = Panic.
Proof. split; [eexists; vm_compute; reflexivity|]. split; [intros [X _]; apply X; reflexivity|]. split; vm_compute; reflexivity. Qed.
(** A format outside of braces is in the documented path and not in the route. *)
Theorem C126_path_refuted : exists fn op, serve fn = Ok (Some op) /\ o_path op = "/x" /\ doc_path (f_rest fn) = "/x=%v".
Proof. exists (plainf "X" "GET /x=%v" 0 1). eexists. split; [vm_compute; reflexivity|]. split; vm_compute; reflexivity. Qed.
(** Two functions at one path and method: the document has the last one. *)
Theorem C126_duplicates : exists d, add_functions [] [plainf "A" "GET /x" 0 1; plainf "B" "GET /x" 0 1] = Ok (Some d) /\ option_map d_id (doc_get d "/x" "GET") = Some "B".
Proof. eexists. split; vm_compute; reflexivity. Qed.
Print Assumptions C126_documented.
Print Assumptions C126_path.
