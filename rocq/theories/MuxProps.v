(** Properties C52, C53 and C74 of the request router of api/rest. *)
From Verif Require Import GoBase MuxModel MuxSpec MuxProofs.

Lemma good_lit M segs : good_request M segs -> Forall (lit M) segs /\ Forall good_seg segs.
Proof.
  intro G. split; eapply Forall_impl; try exact G; intros s [[A B] C]; split; assumption.
Qed.

(** C52: the handler of the preferred matching pattern is run, with each placeholder
    of that pattern bound to its segment. *)
Theorem C52_dispatch_partial :
  forall (H : Type) (M : string -> Prop), good_methods M ->
  forall (t : list (entry H)), Forall (good_entry M) t -> one_place t ->
  forall method segs raw h, M method -> good_request M segs ->
  route method segs t = Some h ->
  exists sg path vals,
    serve_request (build (patterns t)) method (render_path segs) raw = Served h path vals /\
    In (method, sg, h) t /\ matches sg segs /\
    forall i n, nth_error sg i = Some (Var n) ->
      exists v, nth_error segs i = Some v /\ path_value n vals = v.
Proof.
  intros H M [Me Ms] t G O method segs raw h Hm S E.
  destruct (good_lit _ _ S) as [L F]. unfold serve_request. rewrite parse_rendered by exact F.
  destruct (serve_bound M method segs _ [] t (match raw with "" => None | _ => parse_path raw end) h
              Hm L (build_R M Me Ms t G) O E) as (sg & vals & A & B).
  exists sg, (p_of []), vals. split; [exact A|exact B].
Qed.

(** A request for which no pattern is left gets the not-found handler, provided no
    longer pattern continues with a placeholder. *)
Theorem C52_not_found_partial :
  forall (H : Type) (M : string -> Prop), good_methods M ->
  forall (t : list (entry H)), Forall (good_entry M) t ->
  forall method segs raw, M method -> good_request M segs ->
  route method segs t = None -> vars (remaining segs t) = [] ->
  exists path vals,
    serve_request (build (patterns t)) method (render_path segs) raw = NotFound path vals.
Proof.
  intros H M [Me Ms] t G method segs raw Hm S E V.
  destruct (good_lit _ _ S) as [L F]. unfold serve_request. rewrite parse_rendered by exact F.
  destruct (serve_not_found M method segs Hm L _ [] t (match raw with "" => None | _ => parse_path raw end) []
              (build_R M Me Ms t G) E V) as (vals & A).
  eauto.
Qed.

(** What is missing: a request that matches no pattern, but would match one with one
    more placeholder segment, runs that pattern's handler with the placeholder bound
    to the method name (GET /a runs GET /a/{id} with id = "GET"). *)
Theorem C52_short_path_refuted :
  forall (H : Type) (M : string -> Prop), good_methods M ->
  forall (t : list (entry H)), Forall (good_entry M) t ->
  forall method segs raw h, M method -> good_request M segs ->
  route method segs t = None -> at_end method (vars (remaining segs t)) = Some h ->
  exists path vals,
    serve_request (build (patterns t)) method (render_path segs) raw = Served h path vals /\
    forall n, In n (names (remaining segs t)) -> path_value n vals = method.
Proof.
  intros H M [Me Ms] t G method segs raw h Hm S E V.
  destruct (good_lit _ _ S) as [L F]. unfold serve_request. rewrite parse_rendered by exact F.
  exact (serve_short M Me method segs Hm L _ [] t _ [] h (build_R M Me Ms t G) E V).
Qed.
(** and a placeholder is bound to the wrong segment when another pattern uses its name
    one level further down. *)
Theorem C52_binding_refuted :
  exists (t : list (entry nat)) vals,
    Forall (good_entry (fun m => m = "GET")) t /\
    In ("GET", [Var "b"; Var "c"; Lit "q"], 1%nat) t /\
    serve_request (build (patterns t)) "GET" "/x/y/q" "" = Served 1%nat (Some [""]) vals /\
    path_value "b" vals = "y".
Proof.
  exists [("GET", [Var "b"; Var "c"; Lit "q"], 1%nat); ("GET", [Var "a"; Var "b"; Lit "p"], 2%nat)].
  eexists. split; [|split; [now left|split; [reflexivity|reflexivity]]].
  repeat match goal with
  | |- Forall _ _ => constructor
  | |- good_entry _ _ => split
  | |- _ /\ _ => split
  | |- good_pat_seg _ => cbn [good_pat_seg]
  | |- good_seg _ => split
  end; try reflexivity; try discriminate; exact I.
Qed.

(** C53: the handler run was registered for the request's method, when no segment of
    the path is a method name. *)
Theorem C53_same_method_partial :
  forall (H : Type) (M : string -> Prop), good_methods M ->
  forall (t : list (entry H)), Forall (good_entry M) t ->
  forall method segs raw h path vals, M method -> good_request M segs ->
  serve_request (build (patterns t)) method (render_path segs) raw = Served h path vals ->
  exists sg, In (method, sg, h) t.
Proof.
  intros H M [Me Ms] t G method segs raw h path vals Hm S.
  destruct (good_lit _ _ S) as [L F]. unfold serve_request. rewrite parse_rendered by exact F.
  destruct (exists_bound t) as (n & Hn).
  exact (serve_method M method Hm n _ [] t segs _ [] h path vals Hn L (build_R M Me Ms t G)).
Qed.
(** What is missing: whatever its method, a request whose path starts with the name of
    a method that has a handler at the root runs that handler.  (Every Handler
    registers "GET /".) *)
Theorem C53_method_name_in_path_refuted :
  forall (H : Type) (M : string -> Prop), good_methods M ->
  forall (t : list (entry H)), Forall (good_entry M) t ->
  forall m h, M m -> good_seg m -> at_end m t = Some h ->
  forall method segs raw, Forall good_seg segs ->
  exists path, serve_request (build (patterns t)) method (render_path (m :: segs)) raw = Served h path [].
Proof.
  intros H M [Me Ms] t G m h Hm Gm E method segs raw F. unfold serve_request.
  rewrite parse_rendered by (constructor; assumption). eexists.
  exact (serve_method_name M m h _ [] t method segs _ [] Hm Me (build_R M Me Ms t G) E).
Qed.

(** C74 (a not-found handler sees the path of the request, so that APIs can be
    chained): holds when the first segment is known and the rest fails right after. *)
Theorem C74_path_kept_partial :
  forall (H : Type) (M : string -> Prop), good_methods M ->
  forall (t : list (entry H)), Forall (good_entry M) t ->
  forall method s segs raw, M method -> good_request M (s :: segs) ->
  remaining [s] t <> [] -> vars (remaining [s] t) = [] ->
  match segs with [] => at_end method (remaining [s] t) = None | s2 :: _ => lits s2 (remaining [s] t) = [] end ->
  exists vals, serve_request (build (patterns t)) method (render_path (s :: segs)) raw =
    NotFound (parse_path (render_path (s :: segs))) vals.
Proof.
  intros H M [Me Ms] t G method s segs raw Hm S N V E.
  destruct (good_lit _ _ S) as [L F]. unfold serve_request. rewrite parse_rendered by exact F.
  destruct (serve_not_found M method (s :: segs) Hm L _ [] t (match raw with "" => None | _ => parse_path raw end) []
              (build_R M Me Ms t G)) as (vals & A).
  - unfold route. cbn [remaining] in *. destruct (lits s t) as [|e l].
    + destruct segs as [|s2 r]; [exact E|]. cbn [remaining]. rewrite E, V. now rewrite remaining_nil.
    + destruct segs as [|s2 r]; [exact E|]. cbn [remaining]. rewrite E, V. now rewrite remaining_nil.
  - cbn [remaining] in *. destruct (lits s t) as [|e l].
    + destruct segs as [|s2 r]; [exact V|]. cbn [remaining]. rewrite E, V. now rewrite remaining_nil.
    + destruct segs as [|s2 r]; [exact V|]. cbn [remaining]. rewrite E, V. now rewrite remaining_nil.
  - exists vals. rewrite A. f_equal. cbn [raw_at]. cbn [remaining] in *.
    destruct (lits s t) as [|e l].
    + destruct (vars t) as [|e l]; [now destruct N|]. destruct segs as [|s2 r]; [reflexivity|].
      cbn [raw_at]. rewrite E, V. reflexivity.
    + destruct segs as [|s2 r]; [reflexivity|]. cbn [raw_at]. rewrite E, V. reflexivity.
Qed.
(** What is missing: when the first segment is unknown, the not-found handler sees the
    empty path, whatever the request. *)
Theorem C74_path_lost_at_root_refuted :
  forall (H : Type) (M : string -> Prop), good_methods M ->
  forall (t : list (entry H)), Forall (good_entry M) t ->
  forall method s segs, M method -> good_request M (s :: segs) ->
  lits s t = [] -> vars t = [] ->
  exists vals, serve_request (build (patterns t)) method (render_path (s :: segs)) "" = NotFound None vals.
Proof.
  intros H M [Me Ms] t G method s segs Hm S E V.
  destruct (good_lit _ _ S) as [L F]. unfold serve_request. rewrite parse_rendered by exact F.
  destruct (serve_not_found M method (s :: segs) Hm L _ [] t None [] (build_R M Me Ms t G)) as (vals & A).
  - unfold route. cbn [remaining]. rewrite E, V. now rewrite remaining_nil.
  - cbn [remaining]. rewrite E, V. now rewrite remaining_nil.
  - exists vals. rewrite A. cbn [raw_at]. now rewrite E, V.
Qed.
(** and two levels down it sees only the end of the path. *)
Theorem C74_path_cut_deeper_refuted :
  exists (t : list (entry nat)),
    serve_request (build (patterns t)) "GET" "/a/b/c" "" = NotFound (parse_path "/b/c") [].
Proof. exists [("GET", [Lit "a"; Lit "b"], 1%nat)]. reflexivity. Qed.

(** ** The hypotheses are met *)
Definition ex_methods (m : string) : Prop := In m ["GET"; "POST"; "PUT"].
Definition ex_table : list (entry nat) :=
  [("GET", [], 0%nat); ("GET", [Lit "users"], 1%nat); ("POST", [Lit "users"], 2%nat);
   ("GET", [Lit "users"; Var "id"], 3%nat); ("GET", [Lit "users"; Lit "me"], 4%nat);
   ("PUT", [Lit "users"; Var "id"; Lit "name"], 5%nat)].
Example ex_good : good_methods ex_methods /\ Forall (good_entry ex_methods) ex_table /\
  good_request ex_methods ["users"; "42"; "name"] /\ one_place ex_table.
Proof.
  assert (GM : good_methods ex_methods).
  { split; [intros [X|[X|[X|[]]]]; discriminate|]. intros m [<-|[<-|[<-|[]]]]; reflexivity. }
  split; [exact GM|]. split; [|split].
  - unfold ex_methods.
    repeat match goal with
    | |- Forall _ _ => constructor
    | |- good_entry _ _ => split
    | |- _ /\ _ => split
    | |- good_pat_seg _ => cbn [good_pat_seg]
    | |- good_seg _ => split
    end; try reflexivity; try discriminate; try exact I; cbn [fst In]; tauto || intuition discriminate.
  - unfold ex_methods.
    repeat match goal with
    | |- Forall _ _ => constructor
    | |- good_request _ _ => unfold good_request
    | |- _ /\ _ => split
    | |- good_seg _ => split
    end; try reflexivity; try discriminate; cbn [In]; intuition discriminate.
  - exists (fun _ => 1%nat). intros m sg h i n I. unfold ex_table in I. cbn [In] in I.
    repeat (destruct I as [I|I]; [injection I as <- <- <-; destruct i as [|[|[|i]]]; cbn; try discriminate;
      try reflexivity; destruct i; discriminate|]). destruct I.
Qed.
Example ex_routes :
  route "PUT" ["users"; "42"; "name"] ex_table = Some 5%nat /\
  serve_request (build (patterns ex_table)) "PUT" "/users/42/name" "" =
    Served 5%nat (Some [""]) [("id", "42"); ("id", "42")] /\
  serve_request (build (patterns ex_table)) "GET" "/users/me" "" = Served 4%nat (Some [""]) [] /\
  serve_request (build (patterns ex_table)) "PUT" "/users" "" = NotFound (Some [""]) [("id", "PUT"); ("id", "PUT")] /\
  serve_request (build (patterns ex_table)) "GET" "/nothing" "" = NotFound None [].
Proof. repeat split. Qed.
Example ex_short : serve_request (build (patterns [("GET", [Lit "a"; Var "id"], 1%nat)])) "GET" "/a" "" =
  Served 1%nat (Some [""]) [("id", "GET")].
Proof. reflexivity. Qed.
Example ex_delete_runs_get :
  serve_request (build (patterns ex_table)) "DELETE" "/GET/x" "" = Served 0%nat (Some ["x"]) [].
Proof. reflexivity. Qed.

Print Assumptions C52_dispatch_partial.
Print Assumptions C52_not_found_partial.
Print Assumptions C52_short_path_refuted.
Print Assumptions C52_binding_refuted.
Print Assumptions C53_same_method_partial.
Print Assumptions C53_method_name_in_path_refuted.
Print Assumptions C74_path_kept_partial.
Print Assumptions C74_path_lost_at_root_refuted.
Print Assumptions C74_path_cut_deeper_refuted.

(** A pattern without a method serves every method. *)
Theorem C52_any_method :
  forall (H : Type) (h : H) s m raw,
  good_seg s -> (forall r, s <> String "{"%char r) -> has_char " "%char s = false ->
  exists path, serve_request (handle (render_path [s]) h []) m (render_path [s]) raw = Served h path [].
Proof.
  intros H h s m raw [N F] B S.
  assert (C : cut space (render_path [s]) = (render_path [s], "", false)).
  { unfold render_path. cbn [String.concat append cut]. cbn.
    enough (X : forall t, has_char " "%char t = false -> cut space t = (t, "", false)) by now rewrite X.
    induction t as [|a t IH]; cbn [has_char cut]; [reflexivity|]. intro E.
    apply orb_false_iff in E as [E1 E2]. unfold space at 1. now rewrite E1, (IH E2). }
  unfold handle. rewrite C. unfold render_path. cbn [String.concat append].
  assert (P : split slash (String "/"%char s) = [""; s]).
  { cbn [split]. cbn [Ascii.eqb slash]. change (Ascii.eqb "/"%char slash) with true. cbn iota.
    now rewrite split_no. }
  rewrite P. assert (E : String.eqb s "" = false) by now apply String.eqb_neq.
  cbn [pat_segs String.eqb]. rewrite E. cbn [pat_segs].
  assert (K : key_name s = (s, "")).
  { destruct s as [|a s]; [reflexivity|]. unfold key_name.
    destruct a as [[] [] [] [] [] [] [] []]; try reflexivity. now destruct (B s). }
  cbn [handle_segs]. rewrite K. cbn [lookup set]. rewrite E.
  unfold serve_request. cbn [parse_path]. rewrite split_no by exact F.
  cbn [serve find first_seg]. rewrite E, String.eqb_refl.
  cbn [serve rest_path first_seg find String.eqb].
  destruct (String.eqb m "") eqn:Em; cbn [serve]; rewrite ?app_nil_r; eauto.
Qed.

(** An empty segment in a pattern is not skipped: it matches every segment. *)
Theorem C52_empty_segment_refuted :
  forall (H : Type) (h : H) s raw, good_seg s ->
  (exists path vals, serve_request (handle "GET //x" h []) "GET" (render_path [s; "x"]) raw = Served h path vals) /\
  (s <> "x" -> exists path vals, serve_request (handle "GET //x" h []) "GET" (render_path ["x"; s]) raw = NotFound path vals).
Proof.
  intros H h s raw [N F]. assert (E : String.eqb s "" = false) by now apply String.eqb_neq.
  assert (P1 : parse_path (render_path [s; "x"]) = Some [s; "x"]).
  { unfold render_path. cbn [String.concat append parse_path]. now rewrite split_cons. }
  assert (P2 : parse_path (render_path ["x"; s]) = Some ["x"; s]).
  { change (render_path ["x"; s]) with (String "/"%char ("x" ++ String slash s)%string).
    cbn [parse_path]. rewrite split_cons by reflexivity. now rewrite split_no. }
  unfold serve_request. rewrite P1, P2. split.
  - cbn [handle cut]. cbn. rewrite E. cbn. rewrite E. cbn. eauto.
  - intro X. cbn. rewrite E. assert (Ex : String.eqb s "x" = false) by now apply String.eqb_neq. cbn. rewrite ?Ex. cbn.
    rewrite ?E. eauto.
Qed.
