(** * The forms of a resource (C162) *)
From Coq Require Import List Arith Bool Lia.
From Verif Require Import RestFormModel.
Import ListNotations.

Lemma method_eqb_eq : forall a b, method_eqb a b = true <-> a = b.
Proof.
  intros [| | | |x] [| | | |y]; cbn; split; intro H; try reflexivity; try discriminate.
  - apply Nat.eqb_eq in H. now subst.
  - injection H as ->. apply Nat.eqb_refl.
Qed.
Lemma method_eqb_refl : forall a, method_eqb a a = true.
Proof. intro a. now apply method_eqb_eq. Qed.
Lemma lookup_in : forall T (res : resource T) m o, NoDup (map fst res) -> (lookup res m = Some o <-> In (m, o) res).
Proof.
  intros T res m o N. induction res as [|[k p] res IH]; cbn [lookup]; [split; [discriminate|intros []]|].
  inversion N as [|k0 l N1 N2]; subst. destruct (method_eqb k m) eqn:E.
  - apply method_eqb_eq in E as ->. split; intro H.
    + injection H as ->. now left.
    + destruct H as [H|H]; [now injection H as ->|]. exfalso. apply N1. apply in_map_iff. now exists (m, o).
  - rewrite IH by assumption. split; [now right|]. intros [H|H]; [injection H as -> ->; now rewrite method_eqb_refl in E|assumption].
Qed.

(** ** The page has a tab and a form for each operation that is a GET, a POST, a PUT or a
    DELETE, in this order, and the first is the one that is open. *)
Definition formed (m : method) : Prop := forall n, m <> Other n.
Definition rank (m : method) : nat := match m with GET => 0 | POST => 1 | PUT => 2 | DELETE => 3 | Other _ => 4 end.
Lemma in_order : forall m, In m order <-> formed m.
Proof.
  intros m. unfold order, formed. cbn. split.
  - intros H n ->. repeat destruct H as [H|H]; try discriminate. exact H.
  - intro F. destruct m as [| | | |n]; auto. destruct (F n). reflexivity.
Qed.
Lemma shown_in : forall T (res : resource T) m o, NoDup (map fst res) -> (In (m, o) (shown res) <-> In (m, o) res /\ formed m).
Proof.
  intros T res m o N. unfold shown. rewrite in_flat_map. rewrite <- lookup_in by assumption. split.
  - intros (k & K & H). destruct (lookup res k) as [p|] eqn:L; [|destruct H]. destruct H as [H|[]]. injection H as -> ->.
    split; [assumption|now apply in_order].
  - intros [L F]. exists m. split; [now apply in_order|]. rewrite L. now left.
Qed.
Lemma shown_sorted : forall T (res : resource T) l1 l2 a b, forms (page_of res) = l1 ++ a :: l2 -> In b l2 -> rank a < rank b.
Proof.
  intros T res l1 l2 a b E I.
  assert (Q : forall ms l1 l2, (forall k1 k2 c d, ms = k1 ++ c :: k2 -> In d k2 -> rank c < rank d) ->
    map fst (flat_map (fun m => match lookup res m with Some o => [(m, o)] | None => [] end) ms) = l1 ++ a :: l2 -> In b l2 -> rank a < rank b).
  { clear. induction ms as [|m ms IH]; intros l1 l2 H E I; [destruct l1; discriminate|].
    assert (H' : forall k1 k2 c d, ms = k1 ++ c :: k2 -> In d k2 -> rank c < rank d) by (intros k1 k2 c d E' D; apply (H (m :: k1) k2 c d); [now rewrite E'|assumption]).
    cbn [flat_map] in E. destruct (lookup res m) as [o|]; cbn [app map fst] in E; [|now apply (IH l1 l2)].
    destruct l1 as [|x l1]; cbn [app] in E.
    - injection E as -> <-. apply (H [] ms a b); [reflexivity|]. apply in_map_iff in I as ([m' o'] & <- & I). apply in_flat_map in I as (k & K & I).
      destruct (lookup res k); [|destruct I]. destruct I as [I|[]]. now injection I as -> _.
    - injection E as _ E. now apply (IH l1 l2). }
  apply (Q order l1 l2); [|exact E|exact I]. clear. intros k1 k2 c d E D. unfold order in E.
  destruct k1 as [|? [|? [|? [|? k1]]]]; cbn [app] in E; try (injection E as; subst; cbn in D; intuition (subst; cbn; lia)).
  injection E as _ _ _ _ E. destruct k1; discriminate.
Qed.
Theorem C162_page_partial : forall T (res : resource T), NoDup (map fst res) ->
  (forall m, In m (forms (page_of res)) <-> formed m /\ exists o, In (m, o) res) /\
  (forall l1 l2 a b, forms (page_of res) = l1 ++ a :: l2 -> In b l2 -> rank a < rank b) /\
  (forall i m, nth_error (forms (page_of res)) i = Some m ->
     exists o, In (m, o) res /\ nth_error (tabs (page_of res)) i = Some (i =? 0, oname o)) /\
  length (tabs (page_of res)) = length (forms (page_of res)).
Proof.
  intros T res N. split; [|split; [|split]].
  - intro m. unfold page_of. cbn [forms]. rewrite in_map_iff. split.
    + intros ([k o] & <- & I). apply shown_in in I as [I F]; [|assumption]. cbn. eauto.
    + intros [F [o I]]. exists (m, o). split; [reflexivity|]. now apply shown_in.
  - intros l1 l2 a b. apply shown_sorted.
  - intros i m. unfold page_of. cbn [forms tabs]. assert (A : forall k o, In (k, o) (shown res) -> In (k, o) res) by (intros k o H; now apply shown_in in H).
    destruct (shown res) as [|[k o] r]; [destruct i; discriminate|]. destruct i as [|i]; cbn [map nth_error fst]; intro H.
    + injection H as ->. exists o. split; [apply A; now left|reflexivity].
    + rewrite nth_error_map in *. destruct (nth_error r i) as [[k' o']|] eqn:E; [|discriminate]. injection H as ->.
      exists o'. split; [apply A; right; now apply nth_error_In in E|reflexivity].
  - unfold page_of. cbn [forms tabs]. destruct (shown res) as [|[k o] r]; [reflexivity|]. cbn. now rewrite !map_length.
Qed.
(** An operation of another method (PATCH) has no form. *)
Theorem C162_patch_refuted : forall T (res : resource T) n, NoDup (map fst res) -> ~ In (Other n) (forms (page_of res)).
Proof. intros T res n N H. apply (proj1 (C162_page_partial T res N)) in H as [F _]. now destruct (F n). Qed.

(** ** The fields of a form *)
Definition bodies {T} (args : list (param T)) : list T := map ptype (in_body args).
(** the property of a name: the last one *)
Definition property {S} (n : nat) (props : list (nat * S)) (s : S) : Prop :=
  exists l1 l2, props = l1 ++ (n, s) :: l2 /\ ~ In n (map fst l2).
Lemma parse_names : forall T (args : list (param T)) rules ps, parse_body args rules = Some ps -> length rules = length (in_body args) ->
  map pname (in_body ps) = rules /\ bodies ps = bodies args.
Proof.
  intros T args. unfold bodies, in_body. induction args as [|p args IH]; intros rules ps E L; cbn [parse_body] in E.
  - injection E as <-. destruct rules; [auto|discriminate].
  - destruct (loc p) eqn:Q; cbn [filter] in *; rewrite Q in *.
    + destruct rules as [|n rules]; [discriminate|]. destruct (parse_body args rules) as [qs|] eqn:P; [|discriminate]. injection E as <-.
      cbn in L. injection L as L. destruct (IH _ _ P L) as [A B]. cbn. now rewrite A, B.
    + destruct (parse_body args rules) as [qs|] eqn:P; [|discriminate]. injection E as <-. cbn [filter]. rewrite Q. now apply IH.
Qed.
(** With rules the form is an object with a property for each of them, of the type of its
    argument, and without them it is that of the body; when the operation takes no body it
    says nothing. *)
Theorem C162_fields_partial : forall T S (sch : T -> S) name h (args : list (param T)) rules o, load name h args rules = Some o -> NoDup rules ->
  (rules <> [] -> exists props, form_schema sch (Some o) = Object props /\ length rules = length (bodies args) /\
     (forall i n t, nth_error rules i = Some n -> nth_error (bodies args) i = Some t -> property n props (sch t)) /\
     forall n s, property n props s -> In n rules) /\
  (rules = [] -> forall t, bodies args = [t] -> form_schema sch (Some o) = Whole (sch t)) /\
  (bodies args = [] -> form_schema sch (Some o) = Nothing).
Proof.
  intros T S sch name h args rules o L N. unfold load in L. destruct rules as [|r rules].
  - injection L as <-. split; [congruence|]. split.
    + intros _ t B. unfold form_schema. cbn [mapping params]. unfold bodies in B. destruct (in_body args) as [|p [|q l]]; try discriminate. cbn in *. now injection B as <-.
    + intros B. unfold form_schema. cbn [mapping params]. unfold bodies in B. destruct (in_body args); [reflexivity|discriminate].
  - destruct (parse_body args (r :: rules)) as [ps|] eqn:P; [|discriminate].
    destruct (Nat.eqb_spec (length (r :: rules)) (length (in_body args))) as [Q|]; [|discriminate]. injection L as <-.
    destruct (parse_names _ _ _ _ P Q) as [A B]. remember (r :: rules) as rs.
    split; [|split].
    + intros _. eexists. split; [reflexivity|]. cbn [params].
      assert (F : map fst (map (fun p => (pname p, sch (ptype p))) (in_body ps)) = rs) by (rewrite map_map; exact A).
      split; [now unfold bodies; rewrite map_length|]. split.
      * intros i n t I1 I2. rewrite <- B in I2. rewrite <- A in I1. unfold bodies in I2. rewrite nth_error_map in I1, I2.
        destruct (nth_error (in_body ps) i) as [p|] eqn:E; [|discriminate]. injection I1 as <-. injection I2 as <-.
        apply nth_error_split in E as (l1 & l2 & E & _). exists (map (fun p => (pname p, sch (ptype p))) l1), (map (fun p => (pname p, sch (ptype p))) l2).
        rewrite E, map_app. split; [reflexivity|]. rewrite <- A, E, map_app in N. cbn in N. apply NoDup_remove_2 in N.
        rewrite map_map. cbn [fst]. intro H. apply N, in_app_iff. now right.
      * intros n s (l1 & l2 & E & _). rewrite <- F, E, map_app. apply in_app_iff. right. now left.
    + subst rs. discriminate.
    + intros X. unfold bodies in X. rewrite Heqrs in Q. destruct (in_body args); [|discriminate]. cbn in Q. discriminate.
Qed.
Lemma destruct_last : forall A (l : list A), l = [] \/ exists k x, l = k ++ [x].
Proof. intros A l. destruct l as [|a l] using rev_ind; eauto. Qed.
(** Several bodies without rules: a form of one field without a name, for the last one. *)
Theorem C162_several_refuted : forall T S (sch : T -> S) name h (args : list (param T)) o t u ts, load name h args [] = Some o ->
  bodies args = ts ++ [t; u] -> (forall p, In p args -> loc p = Body -> pname p = 0) ->
  exists props, form_schema sch (Some o) = Object props /\ property 0 props (sch u) /\ forall n s, property n props s -> n = 0 /\ s = sch u.
Proof.
  intros T S sch name h args o t u ts L B Z. injection L as <-. unfold form_schema. cbn [mapping params].
  assert (Len : 1 <? length (in_body args) = true).
  { apply Nat.ltb_lt. apply (f_equal (@length T)) in B. unfold bodies in B. rewrite map_length, app_length in B. cbn in B. lia. }
  rewrite Len. eexists. split; [reflexivity|].
  assert (E : map (fun p : param T => (pname p, sch (ptype p))) (in_body args) = map (fun x => (0, sch x)) (bodies args)).
  { unfold bodies. rewrite map_map. apply map_ext_in. intros p I. apply filter_In in I as [I J]. f_equal. apply Z; [assumption|]. now destruct (loc p). }
  rewrite E, B. assert (R : ts ++ [t; u] = (ts ++ [t]) ++ [u]) by now rewrite <- app_assoc. rewrite R, map_app.
  assert (P : property 0 (map (fun x => (0, sch x)) (ts ++ [t]) ++ map (fun x => (0, sch x)) [u]) (sch u)) by (eexists _, []; split; [reflexivity|intros []]).
  split; [exact P|]. intros n s (l1 & l2 & Q & M).
  destruct (destruct_last _ l2) as [->|(l3 & x & ->)].
  - cbn in Q. apply app_inj_tail in Q as [_ Q]. now injection Q as -> ->.
  - exfalso. apply M. rewrite map_app, in_app_iff. right. left.
    assert (N : forall l (y : nat * S), In y (map (fun x => (0, sch x)) l) -> fst y = 0) by (intros l y H; apply in_map_iff in H as (? & <- & _); reflexivity).
    assert (I1 : In (n, s) (map (fun x => (0, sch x)) (ts ++ [t]) ++ map (fun x => (0, sch x)) [u])) by (rewrite Q; apply in_app_iff; right; now left).
    assert (I2 : In x (map (fun x => (0, sch x)) (ts ++ [t]) ++ map (fun x => (0, sch x)) [u])) by (rewrite Q; apply in_app_iff; right; right; apply in_app_iff; right; now left).
    rewrite <- map_app in I1, I2. apply N in I1, I2. cbn in I1. congruence.
Qed.
(** A method that the resource does not have is answered as one without a body. *)
Theorem C162_unknown_refuted : forall T S (sch : T -> S) allowed (res : resource T) m r, wants_schema r = true -> query r = Some m -> lookup res m = None ->
  (forall o, lookup res GET = Some o -> allowed o = true) -> serve sch allowed res GET r = Schema Nothing.
Proof.
  intros T S sch allowed res m r W Q L A. unfold serve. assert (F : form sch res r = Schema Nothing) by (unfold form; now rewrite W, Q, L).
  destruct (lookup res GET) as [o|]; [|exact F]. rewrite (A o eq_refl), W, orb_true_r. exact F.
Qed.

(** ** Which requests are answered with forms, and which run the operation. *)
Theorem C162_served : forall T S (sch : T -> S) allowed (res : resource T) m r o, lookup res m = Some o -> allowed o = true ->
  (serve sch allowed res m r = Run o <-> wants_schema r = false /\ (m <> GET \/ html o = true \/ wants_html r = false)) /\
  forall p, serve sch allowed res m r = Run p -> p = o.
Proof.
  intros T S sch allowed res m r o L A. unfold serve. rewrite L, A. cbn [negb]. destruct (wants_schema r) eqn:W.
  - rewrite orb_true_r. assert (F : forall p, form sch res r <> Run p) by (intro p; unfold form; rewrite W; destruct (query r); discriminate).
    split; [|intros p E; now destruct (F p)]. split; [intro E; now destruct (F o)|intros [X _]; discriminate].
  - rewrite orb_false_r. destruct (negb (html o) && method_eqb m GET && wants_html r) eqn:B.
    + assert (F : forall p, form sch res r <> Run p) by (intro p; unfold form; rewrite W; destruct (wants_html r); discriminate).
      split; [|intros p E; now destruct (F p)]. split; [intro E; now destruct (F o)|]. intros [_ X].
      apply andb_prop in B as [B H]. apply andb_prop in B as [B G]. apply method_eqb_eq in G. apply negb_true_iff in B.
      destruct X as [X|[X|X]]; congruence.
    + split; [|intros p E; now injection E]. split; [|reflexivity]. intros _. split; [reflexivity|].
      destruct (html o); [auto|]. destruct (method_eqb m GET) eqn:G; [|left; intros ->; discriminate]. right. right. exact B.
Qed.
Theorem C162_browser : forall T S (sch : T -> S) allowed (res : resource T) r, wants_schema r = false -> wants_html r = true ->
  (forall o, lookup res GET = Some o -> html o = false /\ allowed o = true) -> serve sch allowed res GET r = Page (page_of res).
Proof.
  intros T S sch allowed res r W H N. assert (F : form sch res r = Page (page_of res)) by (unfold form; now rewrite W, H).
  unfold serve. destruct (lookup res GET) as [o|]; [|exact F]. destruct (N o eq_refl) as [-> ->]. rewrite H. exact F.
Qed.
(** Asking for the schema of a method gives that of its operation. *)
Theorem C162_schema : forall T S (sch : T -> S) allowed (res : resource T) m o r, NoDup (map fst res) -> In (m, o) res -> wants_schema r = true -> query r = Some m ->
  (forall p, lookup res GET = Some p -> allowed p = true) -> serve sch allowed res GET r = Schema (form_schema sch (Some o)).
Proof.
  intros T S sch allowed res m o r N I W Q A. apply lookup_in in I; [|assumption].
  assert (F : form sch res r = Schema (form_schema sch (Some o))) by (unfold form; now rewrite W, Q, I).
  unfold serve. destruct (lookup res GET) as [p|]; [|exact F]. rewrite (A p eq_refl), W, orb_true_r. exact F.
Qed.
(** Without a GET, a request for neither has nothing to find; a schema is asked for by the
    name of a method. *)
Theorem C162_neither : forall T S (sch : T -> S) allowed (res : resource T) r, lookup res GET = None ->
  (wants_schema r = false -> wants_html r = false -> serve sch allowed res GET r = NotFound) /\
  (wants_schema r = true -> query r = None -> serve sch allowed res GET r = BadRequest) /\
  forall m, m <> GET -> lookup res m = None -> serve sch allowed res m r = NotAllowed.
Proof.
  intros T S sch allowed res r L. split; [|split].
  - intros W H. unfold serve, form. now rewrite L, W, H.
  - intros W Q. unfold serve, form. now rewrite L, W, Q.
  - intros m N M. unfold serve. rewrite M. destruct (method_eqb m GET) eqn:G; [apply method_eqb_eq in G; contradiction|reflexivity].
Qed.
(** An operation that a request is not let at is not run and says nothing of itself. *)
Theorem C162_denied : forall T S (sch : T -> S) allowed (res : resource T) m r o, lookup res m = Some o -> allowed o = false ->
  serve sch allowed res m r = Denied.
Proof. intros T S sch allowed res m r o L A. unfold serve. now rewrite L, A. Qed.
(** But its form and its schema are shown to whoever asks when the resource has no GET. *)
Theorem C162_unauthenticated_refuted : forall T S (sch : T -> S) allowed (res : resource T) m o, NoDup (map fst res) -> In (m, o) res ->
  lookup res GET = None -> allowed o = false ->
  serve sch allowed res GET {| wants_schema := true; wants_html := false; query := Some m |} = Schema (form_schema sch (Some o)) /\
  serve sch allowed res GET {| wants_schema := false; wants_html := true; query := None |} = Page (page_of res).
Proof.
  intros T S sch allowed res m o N I L A. split.
  - apply C162_schema with m; try assumption; try reflexivity. congruence.
  - apply C162_browser; try reflexivity. congruence.
Qed.

(** [rest:"PUT /users/{id=%v} (name,age)"] and [rest:"GET /users/{id=%v}"], and a PATCH. *)
Definition args : list (param nat) :=
  [ {| pname := 9; loc := Elsewhere; ptype := 100 |}; {| pname := 0; loc := Body; ptype := 101 |}; {| pname := 0; loc := Body; ptype := 102 |} ].
Definition put_user : operation nat :=
  {| oname := 1; params := [ {| pname := 9; loc := Elsewhere; ptype := 100 |}; {| pname := 5; loc := Body; ptype := 101 |}; {| pname := 6; loc := Body; ptype := 102 |} ];
     mapping := true; html := false |}.
Definition get_user : operation nat := {| oname := 2; params := [ {| pname := 9; loc := Elsewhere; ptype := 100 |} ]; mapping := false; html := false |}.
Definition users : resource nat := [(PUT, put_user); (Other 0, get_user); (GET, get_user)].
Theorem C162_example : load 1 false args [5; 6] = Some put_user /\ NoDup [5; 6] /\ NoDup (map fst users) /\
  page_of users = {| tabs := [(true, 2); (false, 1)]; forms := [GET; PUT] |} /\
  serve (fun t => t) (fun _ => true) users GET {| wants_schema := true; wants_html := false; query := Some PUT |} = Schema (Object [(5, 101); (6, 102)]) /\
  serve (fun t => t) (fun _ => true) users GET {| wants_schema := true; wants_html := false; query := Some DELETE |} = Schema Nothing /\
  serve (fun t => t) (fun _ => true) users PUT {| wants_schema := false; wants_html := true; query := None |} = Run put_user /\
  (exists o, load 1 false args [] = Some o /\ form_schema (fun t => t) (Some o) = Object [(0, 101); (0, 102)]).
Proof.
  split; [reflexivity|]. split; [repeat constructor; cbn; intuition discriminate|]. split; [repeat constructor; cbn; intuition discriminate|].
  split; [reflexivity|]. split; [reflexivity|]. split; [reflexivity|]. split; [reflexivity|]. eexists. split; reflexivity.
Qed.
