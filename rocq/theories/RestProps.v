(** Properties C54 and C75-C78: rest tags and calls made through them. *)
From Verif Require Import GoBase MuxModel MuxSpec MuxProofs MuxProps RestModel RestSpec RestProofs RestCall.
Local Open Scope nat_scope.

(** C54: each accessor returns the component the tag was assembled from. *)
Theorem C54_accessors_partial :
  forall m path query args results,
  In m http_methods ->
  free path [" "; "?"]%char -> free query [" "; "?"]%char ->
  good_rules args -> good_rules results ->
  (forall r s x, results = r :: s -> r <> String "("%char x) ->
  let t := tag m (path ++ "?" ++ query) args results in
  method_of t = m /\ path_of t = (path ++ "?" ++ query)%string /\
  decode_tag t = (m, path, query) /\
  argument_rules_of t = Ok args /\ result_rules_of t = Ok results.
Proof.
  intros m path query args results Hm Fp Fq Ga Gr Gp t.
  assert (Sm : has_char space m = false) by (cbn in Hm; intuition subst; reflexivity).
  assert (St : has_char space (path ++ "?" ++ query) = false).
  { rewrite !has_char_app, (free_in _ _ _ Fp), (free_in _ _ _ Fq) by (now left). reflexivity. }
  assert (M : method_of t = m).
  { unfold t. rewrite method_tag by assumption. cbn in Hm. intuition subst; reflexivity. }
  assert (P : path_of t = (path ++ "?" ++ query)%string) by (unfold t; now rewrite path_tag by assumption).
  split; [exact M|]. split; [exact P|]. split; [|split].
  - unfold decode_tag. rewrite M, P. change ("?" ++ query)%string with (String "?" query).
    rewrite split_cons by (apply (free_in _ _ _ Fp); right; now left).
    rewrite split_no by (apply (free_in _ _ _ Fq); right; now left). reflexivity.
  - now apply argument_rules_tag.
  - now apply result_rules_tag.
Qed.
(** CleanupPattern leaves the placeholders of a path without their formats. *)
Theorem C54_cleanup_partial :
  forall segs, Forall good_tseg segs ->
  cleanup (render_path (map write_tseg segs)) = render_path (map render_seg (pattern_of segs)).
Proof. exact cleanup_tsegs. Qed.
(** What is missing: two spaces in a row, or a lone bracket, make an accessor panic; *)
Theorem C54_double_space_refuted :
  forall m path rest, free m [" "]%char -> free path [" "]%char ->
  result_rules_of (m ++ " " ++ path ++ "  " ++ rest) = Panic /\
  argument_rules_of (m ++ " " ++ path ++ "  " ++ rest) = Panic /\
  argument_rules_of (m ++ " " ++ path ++ " (") = Panic.
Proof.
  intros m path rest Fm Fp.
  assert (Sm : has_char space m = false) by (apply (free_in _ _ _ Fm); now left).
  assert (Sp : has_char space path = false) by (apply (free_in _ _ _ Fp); now left).
  unfold result_rules_of, argument_rules_of. change space with " "%char in *.
  change (" " ++ ?z)%string with (String " " z). rewrite !split_cons by exact Sm.
  change ("  " ++ rest)%string with (String " " (String " " rest)).
  change " (" with (String " " "("). rewrite !split_cons by exact Sp.
  cbn [split]. rewrite Ascii.eqb_refl. split; [reflexivity|split; reflexivity].
Qed.
(** a method other than the eight known ones, or one with a content type, reads as GET; *)
Theorem C54_unknown_method_refuted :
  forall m path, free m [" "]%char -> free path [" "]%char -> ~ In m http_methods ->
  method_of (m ++ " " ++ path) = "GET".
Proof.
  intros m path Fm Fp N. unfold method_of. change (" " ++ path)%string with (String " " path).
  rewrite split_cons by (apply (free_in _ _ _ Fm); now left).
  destruct (existsb (String.eqb m) known_methods) eqn:E; [|reflexivity].
  apply existsb_exists in E as (x & I & E). apply String.eqb_eq in E. subst x. destruct N. cbn in I |- *. tauto.
Qed.
(** an equals sign in a literal swallows the placeholder that follows it. *)
Theorem C54_equals_in_literal_refuted :
  forall a b n f, free a ["="]%char -> free b ["}"; "="]%char -> free n ["}"; "="]%char -> free f ["}"]%char ->
  cleanup (a ++ "=" ++ b ++ "/{" ++ n ++ "=" ++ f ++ "}") = (a ++ "}")%string.
Proof.
  intros a b n f Fa Fb Fn Ff. rewrite cleanup_app by (apply (free_in _ _ _ Fa); now left). f_equal.
  change ("=" ++ (b ++ ("/{" ++ (n ++ ("=" ++ (f ++ "}"))))))%string with (String "=" (b ++ ("/{" ++ (n ++ ("=" ++ (f ++ "}")))))).
  replace (b ++ "/{" ++ n ++ "=" ++ f ++ "}")%string with ((b ++ "/{" ++ n ++ "=" ++ f) ++ String "}" "")%string
    by (rewrite !app_assoc_s; reflexivity).
  rewrite cleanup_eq; [reflexivity|destruct b; discriminate|].
  rewrite !has_char_app. rewrite (free_in _ _ _ Fb), (free_in _ _ _ Fn), (free_in _ _ _ Ff) by (now left). reflexivity.
Qed.

(** C75: every parameter of the tag stands for the argument its format names, in the
    place where it is written; all other arguments go to the body, named by the
    argument rules in order. *)
Theorem C75_parameters_partial :
  forall n sparam fields m segs query rules results,
  good_method m -> good_tag n segs query -> good_rules rules -> good_rules results ->
  (forall r s x, results = r :: s -> r <> String "("%char x) ->
  (rules <> [] -> List.length rules = List.length (unreferenced n segs query)) ->
  exists op, load_operation n sparam fields (tag m (target segs query) rules results) = Ok (Some op) /\
    o_method op = m /\ o_static op = titem_consts query /\ o_rules op = rules /\
    o_path op = render_path (map render_seg (pattern_of segs)) /\
    List.length (o_params op) = n /\
    (forall i, i < n -> exists p, nth_error (o_params op) i = Some p /\
       p_index p = [i] /\ p_void p = false /\
       (p_path p = true <-> exists a, In (a, i) (path_refs segs)) /\
       (p_query p = true <-> exists a, In (a, i) (query_refs segs query)) /\
       (forall a, In (a, i) (all_refs segs query) -> p_name p = a)) /\
    (rules <> [] ->
     forall k i, nth_error (unreferenced n segs query) k = Some i ->
       exists p, nth_error (o_params op) i = Some p /\ nth_error rules k = Some (p_name p)).
Proof. exact load_described. Qed.
(** What is missing: %[0]v, a negative number and an empty format crash the parser. *)
Theorem C75_bad_number_refuted :
  forall n sparam fields, (load_operation n sparam fields "GET /x/{a=%[0]v}" = Panic) /\
  load_operation n sparam fields "GET /x/{a=%[-1]v}" = Panic /\
  load_operation n sparam fields "GET /x/{a=}" = Panic /\
  load_operation n sparam fields "GET /x?a=" = Panic.
Proof.
  intros n sparam fields.
  assert (U : forall p st, (p <= 0)%Z -> use_arg n "a" InPath p st = Panic).
  { intros p st L. unfold use_arg. destruct (Z.leb_spec (Z.of_nat n) (p - 1)); [lia|].
    destruct (Z.ltb_spec (p - 1) 0); [reflexivity|lia]. }
  assert (P0 : parse_path_tag n sparam "/x/{a=%[0]v}" (pnew n) = Panic).
  { transitivity (match use_arg n "a" InPath 0 (pnew n) with Ok (Some st') => Ok (Some st') | o => o end); [reflexivity|].
    now rewrite U by lia. }
  assert (P1 : parse_path_tag n sparam "/x/{a=%[-1]v}" (pnew n) = Panic).
  { transitivity (match use_arg n "a" InPath (-1) (pnew n) with Ok (Some st') => Ok (Some st') | o => o end); [reflexivity|].
    now rewrite U by lia. }
  unfold load_operation. cbn -[parse_path_tag pnew]. rewrite P0, P1. split; [reflexivity|]. split; [reflexivity|]. split; reflexivity.
Qed.

(** A field of the arguments in the query is a parameter of its own, after those of
    the arguments: it has the name written before the equals sign, or else its own. *)
Theorem C75_field_parameter :
  forall n sparam fields name f own ix,
  good_name name -> good_name f -> sparam f = Some (own, ix) ->
  (exists op, load_operation n sparam fields ("GET /x?" ++ name ++ "=$" ++ f) = Ok (Some op) /\
     o_static op = [] /\ List.length (o_params op) = S n /\
     nth_error (o_params op) n =
       Some {| p_name := name; p_path := false; p_query := true; p_void := false; p_index := ix |}) /\
  (exists op, load_operation n sparam fields ("GET /x?" ++ f) = Ok (Some op) /\
     o_static op = [] /\ List.length (o_params op) = S n /\
     nth_error (o_params op) n =
       Some {| p_name := own; p_path := false; p_query := true; p_void := false; p_index := ix |}).
Proof.
  intros n sparam fields name f own ix Gn Gf Sp.
  assert (W : forall q p, has_char " "%char q = false -> has_char "&"%char q = false ->
     parse_query_param n sparam fields q (pnew n) =
        Ok (Some {| pos := 0; plist := repeat no_param n ++ [p]; pstatic := [] |}) -> in_body p = false ->
     exists op, load_operation n sparam fields ("GET /x?" ++ q) = Ok (Some op) /\
     o_static op = [] /\ List.length (o_params op) = S n /\ nth_error (o_params op) n = Some p).
  { intros q p Sq Aq Q B. unfold load_operation.
    assert (T : split space ("GET /x?" ++ q) = ["GET"; "/x?" ++ q]%string).
    { change ("GET /x?" ++ q)%string with ("GET" ++ String space ("/x?" ++ q))%string.
      rewrite split_cons by reflexivity. rewrite split_no; [reflexivity|]. cbn. exact Sq. }
    rewrite T. cbn [String.eqb Ascii.eqb Bool.eqb].
    change (contains "("%char "GET") with false. cbn iota.
    change (cut "?"%char ("/x?" ++ q)) with ("/x"%string, q, true). cbn iota beta.
    change (parse_path_tag n sparam "/x" (pnew n)) with (Ok (Some (pnew n)) : presult). cbn [obind].
    rewrite split_no by exact Aq. cbn [parse_query]. rewrite Q. cbn [obind].
    assert (A : argument_rules_of ("GET /x?" ++ q) = Ok []).
    { unfold argument_rules_of. rewrite T. reflexivity. }
    rewrite A. cbn [obind plist pstatic].
    assert (PB : forall i k, exists ps, parse_body i [] false (repeat no_param k ++ [p]) = Some (ps ++ [p]) /\ List.length ps = k).
    { intros i k. revert i. induction k as [|k IH]; intro i.
      - exists []. split; [|reflexivity]. cbn. now rewrite B.
      - destruct (IH (S i)) as (ps & E & L). cbn [repeat app parse_body].
        change (in_body no_param) with true. cbn iota. rewrite E. cbn [option_map].
        eexists (_ :: ps). split; [reflexivity|]. cbn. now rewrite L. }
    destruct (PB 0 n) as (ps & E & L). rewrite E. cbn iota.
    eexists. split; [reflexivity|]. cbn [o_static o_params]. split; [reflexivity|]. split.
    - rewrite app_length, L. cbn. lia.
    - rewrite nth_error_app2 by lia. rewrite L, Nat.sub_diag. reflexivity. }
  assert (Fn : forall c, In c [" "; "&"; "="]%char -> has_char c name = false).
  { intros c I. destruct Gn as [_ Fr]. apply (free_in _ _ _ Fr). cbn in *. tauto. }
  assert (Ff : forall c, In c [" "; "&"; "="]%char -> has_char c f = false).
  { intros c I. destruct Gf as [_ Fr]. apply (free_in _ _ _ Fr). cbn in *. tauto. }
  split.
  - apply W.
    + rewrite has_char_app, Fn by (cbn; tauto). cbn. apply Ff. cbn. tauto.
    + rewrite has_char_app, Fn by (cbn; tauto). cbn. apply Ff. cbn. tauto.
    + unfold parse_query_param. rewrite good_name_start by exact Gn. unfold parse_param.
      rewrite contains_has, has_char_app. change (has_char "="%char ("=$" ++ f)) with true.
      rewrite orb_true_r, orb_true_l.
      change ("=$" ++ f)%string with (String "="%char (String "$"%char f)).
      rewrite cut_no_char by (apply Fn; cbn; tauto). cbn iota beta.
      unfold parse_struct. rewrite Sp. reflexivity.
    + reflexivity.
  - apply W.
    + apply Ff. cbn. tauto.
    + apply Ff. cbn. tauto.
    + assert (St : starts "%"%char f = false)
        by (rewrite <- (app_nil_s f); now apply good_name_start).
      unfold parse_query_param. rewrite St. unfold parse_param.
      rewrite contains_has, Ff by (cbn; tauto). rewrite St. cbn [orb].
      unfold parse_struct. rewrite Sp. reflexivity.
    + reflexivity.
Qed.

(** C76: a call made through a tag reaches the function with the same arguments: path
    arguments whose text is not empty, has no slash and is no method name, scalar query
    arguments, and body arguments (one, or several with argument rules). *)
Theorem C76_call_partial :
  forall (V : Type) (zero : V) (is_zero : V -> bool) (text : V -> string) (scan : string -> option V) of_obj
         (H : Type) (M : string -> Prop) (t : list (entry H)),
  good_methods M -> Forall (good_entry M) t -> one_place t ->
  forall n sparam fields m segs query rules results (args : list (arg V)) h raw,
  M m -> good_method m -> good_tag n segs query -> good_rules rules -> good_rules results ->
  (forall r s x, results = r :: s -> r <> String "("%char x) ->
  (rules <> [] -> List.length rules = List.length (unreferenced n segs query)) -> NoDup rules ->
  (rules = [] -> List.length (unreferenced n segs query) <= 1) ->
  (unreferenced n segs query = [] \/ ~ In m without_body) ->
  List.length args = n ->
  (forall a i, In (a, i) (path_refs segs) ->
     exists v, nth_error args i = Some (One v) /\
       good_seg (text v) /\ ~ M (text v) /\ scan (text v) = Some v) ->
  (forall a i, In (a, i) (query_refs segs query) ->
     exists v, nth_error args i = Some (One v) /\
       if is_zero v then v = zero else text v <> "" /\ scan (text v) = Some v) ->
  (forall a i k v, In (a, i) (query_refs segs query) -> In (k, v) (titem_consts query) -> k <> a) ->
  (** the table sends the request path to this function only *)
  (forall path, matches (pattern_of segs) path -> route m path t = Some h) ->
  (forall m' sg, In (m', sg, h) t -> sg = pattern_of segs) ->
  exists op req path hp vals,
    load_operation n sparam fields (tag m (target segs query) rules results) = Ok (Some op) /\
    client_request is_zero text op args = Ok req /\
    path_unescape (r_path req) = Some path /\
    serve_request (build (patterns t)) m path raw = Served h hp vals /\
    server_args zero scan of_obj op (map (is_slice V) args) vals req = Some args.
Proof.
  intros V zero is_zero text scan of_obj H M t G1 G2 G3 n sparam fields m segs query rules results args h raw
    A1 A2 A3 A4 A5 A6 A7 A8 A9 B.
  apply call_works; try assumption.
  destruct B as [B|B]; [now left|right]. destruct (bodyless m) eqn:E; [|reflexivity].
  now apply bodyless_in in E.
Qed.
(** What is missing.  A text argument with a slash does not arrive, and an empty one
    arrives as the name of the method. *)
Definition str_zero (s : string) : bool := match s with "" => true | _ => false end.
Definition one_route (H : Type) (h : H) : list (entry H) := [("GET", [Lit "f"; Var "a"], h)].
Definition str_call (v : string) : option (list (arg string)) :=
  match load_operation 1 (fun _ => None) (fun _ => None) "GET /f/{a=%v}" with
  | Ok (Some op) =>
    match client_request str_zero (fun s => s) op [One v] with
    | Ok req =>
      match path_unescape (r_path req) with
      | Some path =>
        match serve_request (build (patterns (one_route nat 1))) "GET" path "" with
        | Served _ _ vals => server_args "" (fun s => Some s) (fun _ => None) op [false] vals req
        | NotFound _ _ => None
        end
      | None => None
      end
    | Panic => None
    end
  | _ => None
  end.
Theorem C76_slash_refuted : forall a b, good_seg a -> good_seg b ->
  b <> "GET" -> str_call (a ++ "/" ++ b) = None.
Proof.
  intros a b Ga Gb Nb. unfold str_call.
  destruct (load_operation 1 (fun _ => None) (fun _ => None) "GET /f/{a=%v}") as [[op|]|] eqn:L; [|reflexivity|reflexivity].
  vm_compute in L. injection L as <-.
  destruct (client_request _ _ _ _) as [req|] eqn:C; [|reflexivity].
  unfold client_request in C. cbn -[path_escape] in C. injection C as <-. cbn [r_path].
  match goal with |- context [path_unescape ?z] =>
    replace z with ("/f/" ++ (path_escape (a ++ "/" ++ b) ++ ""))%string by reflexivity end.
  rewrite unescape_lit by reflexivity. rewrite unescape_escape. cbn [path_unescape option_map].
  rewrite app_nil_s.
  destruct (slash_route 1 a b Ga Gb Nb) as (p & v & E).
  change ("/f/" ++ a ++ "/" ++ b)%string with (render_path ["f"; a; b]). unfold one_route. now rewrite E.
Qed.
Theorem C76_empty_refuted : str_call "" = Some [One "GET"] /\ str_call "x" = Some [One "x"].
Proof. split; reflexivity. Qed.
(** An argument in the body of a GET, HEAD, DELETE, OPTIONS or TRACE is never received. *)
Theorem C76_bodyless_refuted :
  forall (V : Type) (zero : V) is_zero text scan of_obj n sparam fields m segs query rules results (args : list (arg V)) op req vals slices,
  good_method m -> good_tag n segs query -> good_rules rules -> good_rules results ->
  (forall r s x, results = r :: s -> r <> String "("%char x) ->
  (rules <> [] -> List.length rules = List.length (unreferenced n segs query)) ->
  In m without_body -> unreferenced n segs query <> [] ->
  load_operation n sparam fields (tag m (target segs query) rules results) = Ok (Some op) ->
  client_request is_zero text op args = Ok req ->
  server_args zero scan of_obj op slices vals req = None.
Proof.
  intros V zero is_zero text scan of_obj n sparam fields m segs query rules results args op req vals slices
    A1 A2 A3 A4 A5 A6 B. apply bodyless_lost with (1 := A1) (2 := A2) (3 := A3) (4 := A4) (5 := A5) (6 := A6).
  now apply bodyless_in.
Qed.

(** C77 (slice arguments of the query arrive): refuted, the client repeats the name and
    the server looks for name[], so every slice arrives empty. *)
Theorem C77_slice_query_refuted :
  forall (V : Type) (zero : V) is_zero text scan of_obj sparam fields m name (vs : list V) vals,
  good_method m -> good_name name ->
  exists op req,
    load_operation 1 sparam fields (tag m (target [TLit "p"] [TQuery {| t_name := name; t_num := None |}]) [] []) = Ok (Some op) /\
    client_request is_zero text op [Many vs] = Ok req /\
    server_args zero scan of_obj op [true] vals req = Some [Many []].
Proof. exact slice_lost. Qed.

(** C78 (several body arguments without rules arrive): refuted, the server rejects
    every such call. *)
Theorem C78_several_body_refuted :
  forall (V : Type) (zero : V) is_zero text scan of_obj n sparam fields m segs query results (args : list (arg V)) op req vals slices,
  good_method m -> good_tag n segs query -> good_rules results ->
  (forall r s x, results = r :: s -> r <> String "("%char x) ->
  2 <= List.length (unreferenced n segs query) ->
  load_operation n sparam fields (tag m (target segs query) [] results) = Ok (Some op) ->
  client_request is_zero text op args = Ok req ->
  server_args zero scan of_obj op slices vals req = None.
Proof. exact several_lost. Qed.

(** ** The hypotheses are met *)
(** PUT /users/{id=%v}/x?q=%[3]v&k=1 (a,b): arguments id, a, q, b *)
Definition ex_segs : list tseg := [TLit "users"; TPar {| t_name := "id"; t_num := None |}; TLit "x"].
Definition ex_query : list titem := [TQuery {| t_name := "q"; t_num := Some 3 |}; TConst "k" "1"].
Ltac solve_free := repeat match goal with
  | |- good_rules _ => unfold good_rules | |- Forall _ _ => constructor | |- good_tseg _ => cbn [good_tseg] | |- good_titem _ => cbn [good_titem]
  | |- good_name _ => split | |- _ /\ _ => split | |- free _ _ => unfold free
  end; try discriminate; try reflexivity; try exact I.
Example ex_tag_text : tag "PUT" (target ex_segs ex_query) ["a"; "b"] ["r"] = "PUT /users/{id=%v}/x?q=%[3]v&k=1 (a,b) r".
Proof. reflexivity. Qed.
Example ex_good_tag : good_tag 4 ex_segs ex_query /\ good_method "PUT" /\ good_rules ["a"; "b"] /\
  unreferenced 4 ex_segs ex_query = [1; 3].
Proof.
  split; [|split; [split; [discriminate|solve_free]|split; [solve_free|reflexivity]]].
  unfold good_tag, ex_segs, ex_query. repeat match goal with |- _ /\ _ => split end.
  - solve_free.
  - solve_free.
  - reflexivity.
  - cbn. repeat constructor.
  - cbn. repeat constructor.
  - cbn. intros a b i j [E|[E|[]]] [F|[F|[]]]; injection E as <- <-; injection F as <- <-; split; congruence.
  - cbn. repeat constructor. intros [].
Qed.
Definition ex_op : operation :=
  {| o_method := "PUT"; o_path := "/users/{id}/x";
     o_params := [{| p_name := "id"; p_path := true; p_query := false; p_void := false; p_index := [0] |};
                  {| p_name := "a"; p_path := false; p_query := false; p_void := false; p_index := [1] |};
                  {| p_name := "q"; p_path := false; p_query := true; p_void := false; p_index := [2] |};
                  {| p_name := "b"; p_path := false; p_query := false; p_void := false; p_index := [3] |}];
     o_static := [("k", "1")]; o_rules := ["a"; "b"] |}.
Example ex_load : load_operation 4 (fun _ => None) (fun _ => None) "PUT /users/{id=%v}/x?q=%[3]v&k=1 (a,b) r" = Ok (Some ex_op).
Proof. reflexivity. Qed.
Example ex_request : client_request str_zero (fun s => s) ex_op [One "a b"; One "x"; One ""; Many ["y"]] =
  Ok {| r_path := "/users/a%20b/x"; r_query := [("k", "1")]; r_body := [DObj [("a", One "x"); ("b", Many ["y"])]] |}.
Proof. reflexivity. Qed.
Example ex_call :
  exists op req path hp vals,
    load_operation 4 (fun _ => None) (fun _ => None) (tag "PUT" (target ex_segs ex_query) ["a"; "b"] ["r"]) = Ok (Some op) /\
    client_request str_zero (fun s => s) op [One "a b"; One "x"; One "z"; Many ["y"]] = Ok req /\
    path_unescape (r_path req) = Some path /\
    serve_request (build (patterns [("PUT", pattern_of ex_segs, 7)])) "PUT" path "" = Served 7 hp vals /\
    server_args "" (fun s => Some s) (fun _ => None) op (map (is_slice string) [One "a b"; One "x"; One "z"; Many ["y"]]) vals req =
      Some [One "a b"; One "x"; One "z"; Many ["y"]].
Proof.
  destruct ex_good_tag as (G1 & G2 & G3 & G4).
  apply (C76_call_partial string "" str_zero (fun s => s) (fun s => Some s) (fun _ => None) nat (fun m => m = "PUT")
    [("PUT", pattern_of ex_segs, 7)]); try assumption.
  - split; [discriminate|]. intros m ->. reflexivity.
  - constructor; [|constructor]. split; [reflexivity|]. cbn [fst snd pattern_of ex_segs map].
    repeat match goal with |- Forall _ _ => constructor | |- _ /\ _ => split | |- good_pat_seg _ => cbn [good_pat_seg]
      | |- good_seg _ => split end; try discriminate; try reflexivity; exact I.
  - exists (fun _ => 1). intros m sg h i x [E|[]] N. injection E as <- <- <-.
    destruct i as [|[|[|i]]]; cbn in N; try discriminate; try reflexivity. destruct i; discriminate.
  - reflexivity.
  - solve_free.
  - intros r s x E. injection E as <- <-. discriminate.
  - intros _. now rewrite G4.
  - repeat constructor; cbn; intuition discriminate.
  - discriminate.
  - right. cbn. intuition discriminate.
  - reflexivity.
  - cbn. intros a i [E|[]]. injection E as <- <-. exists "a b". repeat split; discriminate || reflexivity.
  - cbn. intros a i [E|[]]. injection E as <- <-. exists "z". repeat split; discriminate || reflexivity.
  - cbn. intros a i k v [E|[]] [F|[]]. injection E as <- <-. injection F as <- <-. discriminate.
  - intros path P. cbn in P. inversion P as [|? ? segs1 P1|]. subst. inversion P1 as [|? ? segs2 P2|? ? ? segs2 P2]. subst.
    inversion P2 as [|? ? segs3 P3|]. subst. inversion P3. subst. reflexivity.
  - intros m' sg [E|[]]. now injection E as <- <-.
Qed.

Print Assumptions C54_accessors_partial.
Print Assumptions C54_cleanup_partial.
Print Assumptions C54_double_space_refuted.
Print Assumptions C54_unknown_method_refuted.
Print Assumptions C54_equals_in_literal_refuted.
Print Assumptions C75_parameters_partial.
Print Assumptions C75_bad_number_refuted.
Print Assumptions C76_call_partial.
Print Assumptions C76_slash_refuted.
Print Assumptions C76_empty_refuted.
Print Assumptions C76_bodyless_refuted.
Print Assumptions C77_slice_query_refuted.
Print Assumptions C78_several_body_refuted.
