(** Proofs about the paths of functions, documentation and stubs (api/api.go, api/stub/stub.go). *)
From Coq Require Import String Permutation.
From Verif Require Import GoBase GoText ApiModel ApiSpec ApiProps ApiStruct.
Local Open Scope Z_scope.
Local Open Scope list_scope.

(** ** Paths *)
Fixpoint link_all (path : slice) (l : list (bytes * structure)) (h : heap) (acc : list (list nat * slice)) : heap * list (list nat * slice) :=
  match l with
  | [] => (h, acc)
  | (n, c) :: r => let '(h1, p) := append h path n in let '(h2, ps) := link h1 c p in link_all path r h2 (acc ++ ps)
  end.
Lemma link_eq h fns ns path : link h (Struct fns ns) path = link_all path ns h (map (fun f => (fn_loc f, path)) fns).
Proof.
  cbn [link]. generalize (map (fun f => (fn_loc f, path)) fns) as acc. revert h. induction ns as [|(n & c) ns IH]; intros h acc; [reflexivity|].
  cbn [link_all]. destruct (append h path n) as [h1 p]. destruct (link h1 c p) as [h2 ps]. apply IH.
Qed.
(** In a heap that only grows, the slices made so far keep what they hold. *)
Definition reads (h : heap) (ps : list (list nat * slice)) (out : list nat -> list bytes -> Prop) : Prop :=
  Forall (fun lp => (arr (snd lp) < length h)%nat) ps /\
  forall l q, (exists p, In (l, p) ps /\ read_slice h p = q) <-> out l q.
Lemma read_grow h x p : (arr p < length h)%nat -> read_slice (h ++ x) p = read_slice h p.
Proof. intros L. unfold read_slice. rewrite app_nth1 by exact L. reflexivity. Qed.
Lemma reads_app h x ps qs P Q : reads h ps P -> reads (h ++ x) qs Q -> reads (h ++ x) (ps ++ qs) (fun l q => P l q \/ Q l q).
Proof.
  intros (A & B) (C & D). split.
  - apply Forall_app. split; [|exact C]. eapply Forall_impl; [|exact A]. intros a L. cbv beta in *. rewrite app_length. lia.
  - intros l q. rewrite <- B, <- D. setoid_rewrite in_app_iff. rewrite Forall_forall in A. split.
    + intros (p & [I|I] & E); [left|right]; exists p; (split; [exact I|]); [|exact E]. rewrite read_grow in E by exact (A _ I). exact E.
    + intros [(p & I & E)|(p & I & E)]; exists p; (split; [auto|]); [|exact E]. rewrite read_grow by exact (A _ I). exact E.
Qed.
Lemma reads_ext h ps P Q : (forall l q, P l q <-> Q l q) -> reads h ps P -> reads h ps Q.
Proof. intros E (A & B). split; [exact A|]. intros l q. rewrite B. apply E. Qed.
(** A slice with no room left. *)
Definition full (h : heap) (path : slice) (p : list bytes) : Prop := (arr path < length h)%nat /\ nth (arr path) h [] = p /\ len path = length p.
Lemma append_full h path p n : full h path p -> append h path n = (h ++ [p ++ [n] ++ repeat [] (length p - 1)], {| arr := length h; len := S (length p) |}).
Proof.
  intros (L & E & N). unfold append. rewrite E, N, Nat.ltb_irrefl, firstn_all. reflexivity.
Qed.
(** What a slice holds, whether it has room or not. *)
Definition holds (h : heap) (path : slice) (p : list bytes) : Prop := (arr path < length h)%nat /\ read_slice h path = p.
Lemma full_holds h path p : full h path p -> holds h path p.
Proof. intros (L & E & N). split; [exact L|]. unfold read_slice. rewrite E, N. apply firstn_all. Qed.
Definition below (s : structure) (p : list bytes) (l : list nat) (q : list bytes) : Prop := exists r, q = p ++ r /\ fn_at s l r.
Lemma link_spec d : forall s h path p, shallow d s -> (length p + d <= 3)%nat -> (1 <= length p)%nat -> holds h path p -> (d <> O -> full h path p) ->
  exists ext, fst (link h s path) = h ++ ext /\ reads (h ++ ext) (snd (link h s path)) (below s p).
Proof.
  induction d as [|d IH]; intros s h path p SH L1 L2 H F.
  - inversion SH as [d fns E1 E2|]; subst. rewrite link_eq. cbn [link_all fst snd]. exists []. rewrite app_nil_r. split; [reflexivity|]. destruct H as (LH & R). split.
    + apply Forall_forall. intros x I. apply in_map_iff in I. destruct I as (f & <- & _). exact LH.
    + intros l q. split.
      * intros (p' & I & E). apply in_map_iff in I. destruct I as (f & Q & I). injection Q as <- <-. exists []. rewrite app_nil_r. split; [congruence|]. apply (fn_here (Struct fns []) f). exact I.
      * intros (r & -> & A). inversion A as [s f I|s n c loc r' I A']; subst; [|destruct I]. exists path. rewrite app_nil_r. split; [|reflexivity]. apply in_map_iff. exists f. split; [reflexivity|exact I].
  - specialize (F ltac:(discriminate)).
    assert (SN : exists fns ns, s = Struct fns ns /\ Forall (fun nc => shallow d (snd nc)) ns). { inversion SH; subst; eexists; eexists; (split; [reflexivity|]); [constructor|assumption]. }
    destruct SN as (fns & ns & -> & SN). rewrite link_eq. clear SH.
    assert (G : forall ns h acc P, Forall (fun nc => shallow d (snd nc)) ns -> full h path p -> reads h acc P ->
       exists ext, fst (link_all path ns h acc) = h ++ ext /\ reads (h ++ ext) (snd (link_all path ns h acc)) (fun l q => P l q \/ exists n c, In (n, c) ns /\ below c (p ++ [n]) l q)).
    { clear - IH L1 L2. induction ns as [|(n & c) ns IHN]; intros h acc P SN F R.
      - exists []. rewrite app_nil_r. split; [reflexivity|]. eapply reads_ext; [|exact R]. intros l q. split; [auto|]. intros [A|(n & c & [] & _)]; exact A.
      - inversion SN as [|? ? SC SR]; subst. cbn [snd] in SC. cbn [link_all]. rewrite (append_full h path p n F).
        set (h1 := h ++ [p ++ [n] ++ repeat [] (length p - 1)]). set (p1 := {| arr := length h; len := S (length p) |}).
        assert (N1 : nth (length h) h1 [] = p ++ [n] ++ repeat [] (length p - 1)) by (unfold h1; rewrite app_nth2, Nat.sub_diag by lia; reflexivity).
        assert (LH1 : length h1 = S (length h)) by (unfold h1; rewrite app_length; cbn; lia).
        assert (H1 : holds h1 p1 (p ++ [n])).
        { split; [cbn; lia|]. unfold read_slice. cbn [arr len p1]. rewrite N1, app_assoc. replace (S (length p)) with (length (p ++ [n])) by (rewrite app_length; cbn; lia). rewrite firstn_app, firstn_all, Nat.sub_diag. cbn [firstn]. apply app_nil_r. }
        assert (F1 : d <> O -> full h1 p1 (p ++ [n])).
        { intros ND. split; [cbn; lia|]. cbn [arr len p1]. rewrite N1. replace (length p - 1)%nat with O by lia. cbn [repeat]. rewrite app_nil_r, app_length. cbn. split; [reflexivity|lia]. }
        destruct (IH c h1 p1 (p ++ [n]) SC ltac:(rewrite app_length; cbn; lia) ltac:(rewrite app_length; cbn; lia) H1 F1) as (e1 & E1 & R1).
        destruct (link h1 c p1) as [h2 ps]. cbn [fst snd] in E1, R1. subst h2.
        unfold h1 in *. rewrite <- app_assoc in *. set (e2 := [p ++ [n] ++ repeat [] (length p - 1)] ++ e1) in *.
        assert (F2 : full (h ++ e2) path p). { destruct F as (A & B & C). split; [rewrite app_length; lia|]. rewrite app_nth1 by exact A. split; assumption. }
        destruct (IHN (h ++ e2) (acc ++ ps) _ SR F2 (reads_app _ _ _ _ _ _ R R1)) as (e3 & E3 & R3). exists (e2 ++ e3). rewrite app_assoc. split; [exact E3|].
        eapply reads_ext; [|exact R3]. intros l q. cbn [In]. split.
        + intros [[A|A]|(m & c' & I & A)]; [left; exact A|right; exists n, c; auto|right; exists m, c'; auto].
        + intros [A|(m & c' & [Q|I] & A)]; [auto| |right; exists m, c'; auto]. injection Q as <- <-. auto. }
    assert (R0 : reads h (map (fun f => (fn_loc f, path)) fns) (fun l q => q = p /\ exists f, In f fns /\ fn_loc f = l)).
    { destruct H as (LH & R). split.
      - apply Forall_forall. intros x I. apply in_map_iff in I. destruct I as (f & <- & _). exact LH.
      - intros l q. split.
        + intros (p' & I & E). apply in_map_iff in I. destruct I as (f & Q & I). injection Q as <- <-. split; [congruence|exists f; auto].
        + intros (-> & f & I & <-). exists path. split; [|exact R]. apply in_map_iff. exists f. auto. }
    destruct (G ns h _ _ SN F R0) as (ext & E & R). exists ext. split; [exact E|]. eapply reads_ext; [|exact R]. intros l q. split.
    + intros [(-> & f & I & <-)|(n & c & I & r & -> & A)].
      * exists []. rewrite app_nil_r. split; [reflexivity|]. apply (fn_here (Struct fns ns) f). exact I.
      * exists (n :: r). rewrite <- app_assoc. split; [reflexivity|]. eapply fn_inside; [exact I|exact A].
    + intros (r & -> & A). inversion A as [s f I|s n c loc r' I A']; subst.
      * left. rewrite app_nil_r. split; [reflexivity|]. exists f. auto.
      * right. exists n, c. split; [exact I|]. exists r'. rewrite <- app_assoc. auto.
Qed.
(** In an API whose namespaces are nested at most three deep, the path of each function is the names of
    the namespaces that lead to it. *)
Theorem C105_path_partial s : shallow 3 s -> forall loc p, In (loc, p) (link_root s) <-> fn_at s loc p.
Proof.
  intros SH. destruct s as [fns ns]. unfold link_root. cbn [namespace functions].
  assert (SN : Forall (fun nc => shallow 2 (snd nc)) ns) by (inversion SH; subst; [constructor|assumption]). clear SH.
  match goal with |- context [fold_left ?f ns _] => set (step := f) end.
  assert (G : forall ns h acc P, Forall (fun nc => shallow 2 (snd nc)) ns -> reads h acc P ->
     exists h2 ps, fold_left step ns (h, acc) = (h2, ps) /\ reads h2 ps (fun l q => P l q \/ exists n c, In (n, c) ns /\ below c [n] l q)).
  { clear. induction ns as [|(n & c) ns IHN]; intros h acc P SN R.
    - exists h, acc. split; [reflexivity|]. eapply reads_ext; [|exact R]. intros l q. split; [auto|]. intros [A|(n & c & [] & _)]; exact A.
    - inversion SN as [|? ? SC SR]; subst. cbn [fold_left]. cbn [snd] in SC.
      assert (F1 : full (h ++ [[n]]) {| arr := length h; len := 1 |} [n]). { split; [cbn; rewrite app_length; cbn; lia|]. cbn [arr len]. rewrite app_nth2, Nat.sub_diag by lia. split; reflexivity. }
      destruct (link_spec 2 c (h ++ [[n]]) {| arr := length h; len := 1 |} [n] SC ltac:(cbn; lia) ltac:(cbn; lia) (full_holds _ _ _ F1) (fun _ => F1)) as (e & E & R1).
      unfold step at 2. destruct (link (h ++ [[n]]) c {| arr := length h; len := 1 |}) as [h2 ps]. cbn [fst snd] in E, R1. subst h2. rewrite <- app_assoc in R1. rewrite <- app_assoc.
      destruct (IHN _ _ _ SR (reads_app _ _ _ _ _ _ R R1)) as (h3 & ps3 & E3 & R3). exists h3, ps3. split; [exact E3|]. eapply reads_ext; [|exact R3]. intros l q. cbn [In]. split.
      + intros [[A|A]|(m & c' & I & A)]; [left; exact A|right; exists n, c; auto|right; exists m, c'; auto].
      + intros [A|(m & c' & [Q|I] & A)]; [auto| |right; exists m, c'; auto]. injection Q as <- <-. auto. }
  destruct (G ns [] [] (fun _ _ => False) SN) as (h2 & ps & E & (RL & R)).
  { split; [constructor|]. intros l q. split; [intros (p & [] & _)|intros []]. }
  intros loc p. match goal with |- context [fold_left step ns ?z] => replace (fold_left step ns z) with (h2, ps) by (symmetry; exact E) end. rewrite in_app_iff. split.
  - intros [I|I]; apply in_map_iff in I.
    + destruct I as (f & Q & I). injection Q as <- <-. apply (fn_here (Struct fns ns) f). exact I.
    + destruct I as ((l & sl) & Q & I). injection Q as <- <-. destruct (proj1 (R l (read_slice h2 sl)) (ex_intro _ sl (conj I eq_refl))) as [[]|(n & c & IN & r & -> & A)]. cbn [app]. eapply fn_inside; [exact IN|exact A].
  - intros A. inversion A as [s f I|s n c loc' r' I A']; subst.
    + left. apply in_map_iff. exists f. auto.
    + right. apply in_map_iff. destruct (proj2 (R loc (n :: r'))) as (sl & I2 & E2). { right. exists n, c. split; [exact I|]. exists r'. auto. } exists (loc, sl). rewrite E2. auto.
Qed.
(** A function below two namespaces that share a parent three deep: its path ends in the name of the
    other. *)
Definition deep : list afield := [FStruct (text "a") [FStruct (text "b") [FStruct (text "c") [FStruct (text "x") [FFunc (text "F") plain_fn]; FStruct (text "y") [FFunc (text "G") plain_fn]]]]].
Theorem C105_path_refuted : link_root (structure_of deep) = [([0; 0; 0; 0; 0]%nat, [text "a"; text "b"; text "c"; text "y"]); ([0; 0; 0; 1; 0]%nat, [text "a"; text "b"; text "c"; text "y"])] /\
  fn_at (structure_of deep) [0; 0; 0; 0; 0]%nat [text "a"; text "b"; text "c"; text "x"].
Proof. split; [reflexivity|]. repeat (eapply fn_inside; [left; reflexivity|]). apply (fn_here _ {| fn_name := text "F"; fn_type := plain_fn; fn_loc := [0; 0; 0; 0; 0]%nat |}). left. reflexivity. Qed.
Example C105_path_case : shallow 3 (structure_of sample) /\ In ([2; 1; 0]%nat, [text "Z"; text "Y"]) (link_root (structure_of sample)).
Proof. split; [cbn; repeat constructor|]. vm_compute. tauto. Qed.

(** ** C106 *)
Lemma has_prefix_nl_other c r k : c <> nl -> has_prefix (c :: r) (nl :: repeat tab k) = false.
Proof. intros N. cbn [has_prefix]. replace (nl =? c) with false by (symmetry; apply Z.eqb_neq; congruence). reflexivity. Qed.
Lemma replace_line k : forall p r fuel, ~ In nl p -> (length p <= fuel)%nat ->
  replace_all_n fuel (p ++ r) (nl :: repeat tab k) [nl] = p ++ replace_all_n (fuel - length p) r (nl :: repeat tab k) [nl].
Proof.
  induction p as [|c p IH]; intros r fuel N L; [rewrite Nat.sub_0_r; reflexivity|]. destruct fuel as [|fuel]; [cbn in L; lia|]. cbn [app replace_all_n length Nat.sub].
  change ((nl =? c) && has_prefix (p ++ r) (repeat tab k)) with (has_prefix (c :: p ++ r) (nl :: repeat tab k)). 
  rewrite has_prefix_nl_other by (intros Q; apply N; left; exact Q). f_equal. apply IH; [intros I; apply N; right; exact I|cbn in L; lia].
Qed.
Lemma has_prefix_line p q k : ~ In nl p -> (q = [] \/ exists q', q = nl :: q') -> has_prefix (p ++ q) (repeat tab k) = has_prefix p (repeat tab k).
Proof.
  revert p. induction k as [|k IH]; intros p N Q; [reflexivity|]. cbn [repeat]. destruct p as [|c p].
  - cbn [app has_prefix]. destruct Q as [->|(q' & ->)]; reflexivity.
  - cbn [app has_prefix]. f_equal. apply IH; [intros I; apply N; right; exact I|exact Q].
Qed.
Definition lines_text (ls : list bytes) : bytes := concat (map (fun p => nl :: p) ls).
Lemma in_skipn' {A} k (x : A) l : In x (skipn k l) -> In x l.
Proof. intros I. rewrite <- (firstn_skipn k l). apply in_or_app. right. exact I. Qed.
Lemma skipn_repeat_app k (p q : bytes) : has_prefix p (repeat tab k) = true -> skipn k (p ++ q) = skipn k p ++ q.
Proof. intros H. apply has_prefix_iff in H. destruct H as (r & ->). rewrite <- app_assoc. assert (L : length (repeat tab k) = k) by apply repeat_length. rewrite <- L at 1 3. rewrite !skipn_app, !skipn_all, !Nat.sub_diag. reflexivity. Qed.
Lemma replace_lines k : forall ls fuel, Forall (fun p => ~ In nl p) ls -> (length (lines_text ls) < fuel)%nat ->
  replace_all_n fuel (lines_text ls) (nl :: repeat tab k) [nl] = lines_text (map (fun p => trim_prefix p (repeat tab k)) ls).
Proof.
  induction ls as [|p ls IH]; intros fuel F L; [destruct fuel; reflexivity|]. inversion F as [|? ? NP F']; subst. destruct fuel as [|fuel]; [lia|].
  change (lines_text (p :: ls)) with (nl :: p ++ lines_text ls) in *. change (lines_text (map (fun p0 => trim_prefix p0 (repeat tab k)) (p :: ls))) with (nl :: trim_prefix p (repeat tab k) ++ lines_text (map (fun p0 => trim_prefix p0 (repeat tab k)) ls)).
  cbn [replace_all_n]. set (rest := lines_text ls) in *.
  assert (HP : has_prefix (nl :: p ++ rest) (nl :: repeat tab k) = has_prefix p (repeat tab k)).
  { cbn [has_prefix]. rewrite Z.eqb_refl. cbn [andb]. apply has_prefix_line; [exact NP|]. unfold rest. destruct ls; [left; reflexivity|right; eexists; reflexivity]. }
  rewrite HP. cbn [length skipn] in *. rewrite repeat_length. rewrite app_length in L. unfold trim_prefix at 1. destruct (has_prefix p (repeat tab k)) eqn:HT.
  - rewrite repeat_length, (skipn_repeat_app k p rest HT). cbn [app]. f_equal. assert (LS : (length (skipn k p) <= length p)%nat) by (rewrite skipn_length; lia).
    rewrite replace_line; [|intros I; apply NP; eapply (in_skipn' k); exact I|lia]. f_equal. apply IH; [exact F'|lia].
  - cbn [app]. f_equal. rewrite replace_line; [|exact NP|lia]. f_equal. apply IH; [exact F'|lia].
Qed.
(** The documentation of a field is its tag after the first line, with the indentation of the first line
    of that taken off the start of every line that has it. *)
Definition indentation (s : bytes) : bytes := repeat tab (leading_tabs s).
Lemma lines_join ls : ls <> [] -> lines_text ls = nl :: join ls nl.
Proof.
  induction ls as [|p ls IH]; [congruence|]. intros _. destruct ls as [|q ls]; [cbn; rewrite app_nil_r; reflexivity|].
  change (lines_text (p :: q :: ls)) with (nl :: p ++ lines_text (q :: ls)). rewrite IH by discriminate. reflexivity.
Qed.
Theorem C106_documentation_partial first rest : ~ In nl first ->
  documentation (first ++ nl :: rest) = Some (join (map (fun line => trim_prefix line (indentation rest)) (split rest nl)) nl).
Proof.
  intros N. unfold documentation. rewrite (cut_app first rest nl N). f_equal. unfold replace_all.
  pose proof (lines_join (split rest nl) (split_nonempty rest nl)) as E. rewrite join_split in E.
  replace (nl :: rest) with (lines_text (split rest nl)) by exact E. rewrite replace_lines; [|apply split_parts|lia].
  rewrite lines_join; [reflexivity|]. intros Q. apply map_eq_nil in Q. exact (split_nonempty _ _ Q).
Qed.
(** The first line of the documentation has no indentation, and a line with more keeps the rest. *)
Theorem C106_first_line first tabs l rest : ~ In nl first -> ~ In nl l -> hd nl l <> tab ->
  exists more, documentation (first ++ nl :: repeat tab tabs ++ l ++ nl :: rest) = Some (l ++ nl :: more).
Proof.
  intros N NL T. rewrite C106_documentation_partial by exact N. 
  assert (K : leading_tabs (repeat tab tabs ++ l ++ nl :: rest) = tabs).
  { induction tabs as [|k IH]; [|cbn [repeat app leading_tabs]; rewrite Z.eqb_refl, IH; reflexivity]. cbn [repeat app]. destruct l as [|c l]; [reflexivity|]. cbn in T. cbn [app leading_tabs]. replace (c =? tab) with false by (symmetry; apply Z.eqb_neq; exact T). reflexivity. }
  unfold indentation. rewrite K. rewrite app_assoc, split_app.
  - cbn [map]. rewrite trim_prefix_app. destruct (split rest nl) as [|q qs] eqn:Q; [destruct (split_nonempty _ _ Q)|]. eexists. cbn [map join]. reflexivity.
  - rewrite in_app_iff. intros [I|I]; [|exact (NL I)]. apply repeat_spec in I. discriminate.
Qed.
Theorem C106_no_lines tag : ~ In nl tag -> documentation tag = None.
Proof. intros N. unfold documentation. rewrite (cut_none tag nl N). reflexivity. Qed.
Example C106_case : documentation (text "http" ++ [nl; tab; tab] ++ text "one" ++ [nl; tab; tab; tab] ++ text "two" ++ [nl; tab] ++ text "x") = Some (text "one" ++ [nl; tab] ++ text "two" ++ [nl; tab] ++ text "x").
Proof. reflexivity. Qed.

(** ** C107 *)
(** What a stub returns for a result of a type. *)
Definition stub_result (t : gtype) : rvalue := if gtype_eqb t read_closer then {| vtype := read_closer; vdata := Some empty_reader |} else zero t.
Lemma stub_results os : assign_all (map (fun t => if gtype_eqb t read_closer then value_of (Some empty_reader) else Some (zero t)) os) os = Some (map stub_result os).
Proof.
  induction os as [|t os IH]; [reflexivity|]. cbn [map assign_all]. rewrite IH. assert (R : stub_result t = if gtype_eqb t read_closer then {| vtype := read_closer; vdata := Some empty_reader |} else zero t) by reflexivity. rewrite R. clear R. destruct (gtype_eqb t read_closer) eqn:E.
  - apply gtype_eqb_true in E. subst t. reflexivity.
  - rewrite (assign_same _ _ (zero_typed t)). reflexivity.
Qed.
(** A stub without an error returns zero values (an empty reader for an io.ReadCloser), and no error. *)
Theorem C107_stub ft ctx args : variadic ft = false -> returns_error ft \/ without_error ft -> is_context ctx -> Forall2 has_type args (params ft) ->
  call ft (Some (stub ft None)) (Some ctx) args = Ret (map stub_result (results ft), None).
Proof.
  intros V E C A. unfold call. rewrite (call_passes ft _ ctx args V C A). unfold stub, make_func. rewrite stub_results. destruct E as [E|E].
  - destruct (has_error_true ft E) as (H & LO). rewrite H. rewrite (results_error ft E), map_app. change (map stub_result [error_type]) with [zero error_type]. rewrite last_data, removelast_last. reflexivity.
  - rewrite (has_error_false ft E). rewrite (results_plain ft E). reflexivity.
Qed.
(** A stub with an error returns it, or panics with it. *)
Theorem C107_stub_error ft e ctx args : variadic ft = false -> returns_error ft \/ without_error ft -> is_error e -> is_context ctx -> Forall2 has_type args (params ft) ->
  call ft (Some (stub ft (Some e))) (Some ctx) args = if has_error ft then Ret ([], Some e) else Pan (Some e).
Proof.
  intros V E ER C A. unfold call. rewrite (call_passes ft _ ctx args V C A). unfold stub. destruct E as [E|E].
  - destruct (has_error_true ft E) as (H & LO). rewrite H. unfold make_func. rewrite (results_error ft E). rewrite map_app. cbn [map]. rewrite removelast_last.
    rewrite assign_all_app by (rewrite map_length; reflexivity). rewrite stub_results. cbn [assign_all]. rewrite (assign_error e ER). rewrite last_data. reflexivity.
  - rewrite (has_error_false ft E). reflexivity.
Qed.
(** The result of a stub is of the type of the result. *)
Theorem C107_typed t : has_type (stub_result t) t.
Proof.
  unfold stub_result. destruct (gtype_eqb t read_closer) eqn:E; [|apply zero_typed]. apply gtype_eqb_true in E. subst t. split; [reflexivity|]. split; reflexivity.
Qed.
(** The linker makes a stub of each function of the API, at any depth. *)
Theorem C107_link fs err m : (forall loc n ft, field_at fs loc n ft -> stub_link (structure_of fs) err m loc = Some (stub ft err)) /\
  (forall loc, (forall n ft, ~ field_at fs loc n ft) -> stub_link (structure_of fs) err m loc = m loc).
Proof.
  destruct (C105_functions fs) as (A & _). split.
  - intros loc n ft H. rewrite stub_link_walk. apply (put_all (fun ft => stub ft err)).
    + intros f I E. apply (perm_in _ _ f (walk_perm _)), A in I. rewrite E in I. destruct (field_at_det _ _ _ _ _ _ I H). assumption.
    + left. exists {| fn_name := n; fn_type := ft; fn_loc := loc |}. split; [|reflexivity]. apply (perm_in _ _ _ (walk_perm _)), A. exact H.
  - intros loc N. rewrite stub_link_walk. apply put_none. intros f I E. apply (perm_in _ _ f (walk_perm _)), A in I. rewrite E in I. exact (N _ _ I).
Qed.
Example C107_case : call {| ins := [context_type; int_type]; outs := [int_type; read_closer; error_type]; variadic := false |} (Some (stub {| ins := [context_type; int_type]; outs := [int_type; read_closer; error_type]; variadic := false |} None)) (Some background) [int_value 3]
  = Ret ([int_value 0; {| vtype := read_closer; vdata := Some empty_reader |}], None).
Proof. reflexivity. Qed.
Print Assumptions C105_functions.
Print Assumptions C105_order.
Print Assumptions C105_import_error_call_partial.
Print Assumptions C105_path_partial.
Print Assumptions C106_documentation_partial.
Print Assumptions C107_stub_error.
