(** * C134: form data. *)
From Coq Require Import String.
From Verif Require Import GoBase GoText ZigLitModel MimeModel.
Open Scope list_scope.
Open Scope Z_scope.

(** ** The specification *)

(** [leaf v p t]: [v] has text [t] at the path [p] of fields; a field that is zero and
    may be left out is not there. *)
Inductive leaf : mval -> list bytes -> bytes -> Prop :=
| leaf_text t : leaf (MText t) [] t
| leaf_ptr v p t : leaf v p t -> leaf (MPtr v) p t
| leaf_struct fs p t : leafs fs p t -> leaf (MStruct fs) p t
with leafs : mfields -> list bytes -> bytes -> Prop :=
| leafs_here f v r p t : skipped f = false -> leaf v p t -> leafs (FCons f v r) (part_name f :: p) t
| leafs_later f v r p t : leafs r p t -> leafs (FCons f v r) p t.
(** and of a map at the top *)
Inductive entry : mfields -> list bytes -> bytes -> Prop :=
| entry_here f v r p t : leaf v p t -> entry (FCons f v r) (f_name f :: p) t
| entry_later f v r p t : entry r p t -> entry (FCons f v r) p t.
(** the names of form fields: the path with periods *)
Fixpoint join (q : list bytes) : bytes :=
  match q with [] => [] | [k] => k | k :: r => k ++ 46 :: join r end.

(** Names that are not empty, have no period and are not the underscore; no maps
    inside, no nil pointers; the fields of a struct that are there have different names. *)
Definition good_key (k : bytes) : Prop := k <> [] /\ ~ In 46 k /\ k <> [95].
Fixpoint keys (fs : mfields) : list bytes :=
  match fs with FNil => [] | FCons f _ r => if skipped f then keys r else part_name f :: keys r end.
Fixpoint good (v : mval) : Prop :=
  match v with
  | MText _ => True
  | MStruct fs => NoDup (keys fs) /\ goods fs
  | MMap _ => False
  | MPtr v => good v
  | MNil => False
  end
with goods (fs : mfields) : Prop :=
  match fs with
  | FNil => True
  | FCons f v r => (skipped f = true \/ (good_key (part_name f) /\ good v)) /\ goods r
  end.
Fixpoint map_keys (fs : mfields) : list bytes := match fs with FNil => [] | FCons f _ r => f_name f :: map_keys r end.
Fixpoint good_entries (fs : mfields) : Prop :=
  match fs with FNil => True | FCons f v r => good_key (f_name f) /\ good v /\ good_entries r end.

(** ** Proofs *)
Scheme mval_mut := Induction for mval Sort Prop
with mfields_mut := Induction for mfields Sort Prop.
Combined Scheme mval_mutind from mval_mut, mfields_mut.

Fixpoint paths (v : mval) : list (list bytes * bytes) :=
  match v with
  | MText t => [([], t)]
  | MStruct fs => paths_l fs
  | MPtr v => paths v
  | _ => []
  end
with paths_l (fs : mfields) : list (list bytes * bytes) :=
  match fs with
  | FNil => []
  | FCons f v r => (if skipped f then [] else map (fun '(p, t) => (part_name f :: p, t)) (paths v)) ++ paths_l r
  end.
Fixpoint paths_m (fs : mfields) : list (list bytes * bytes) :=
  match fs with
  | FNil => []
  | FCons f v r => map (fun '(p, t) => (f_name f :: p, t)) (paths v) ++ paths_m r
  end.

Lemma join_cons k r : join (k :: r) = match r with [] => k | _ => k ++ 46 :: join r end.
Proof. destruct r; reflexivity. Qed.
Lemma join_ne q : q <> [] -> Forall good_key q -> join q <> [].
Proof.
  intros N G. destruct q as [|k r]; [congruence|]. inversion G as [|? ? [K _] _]; subst. rewrite join_cons.
  destruct r; [exact K|]. destruct k; [congruence|discriminate].
Qed.
Lemma join_not_blank q : Forall good_key q -> join q <> [95].
Proof.
  intros G. destruct q as [|k r]; [discriminate|]. inversion G as [|? ? (K1 & K2 & K3) _]; subst. rewrite join_cons.
  destruct r as [|k2 r]; [exact K3|]. destruct k as [|c [|d k]]; [congruence| |].
  - cbn. intros X. inversion X.
  - discriminate.
Qed.
Lemma join_snoc q k : q <> [] -> join (q ++ [k]) = join q ++ 46 :: k.
Proof.
  induction q as [|a r IH]; [congruence|]. intros _. cbn [app]. rewrite !join_cons. destruct r as [|b r].
  - reflexivity.
  - rewrite IH by discriminate. cbn [app]. destruct (r ++ [k]) eqn:E; rewrite <- app_assoc; reflexivity.
Qed.
Lemma prefix_join q k : Forall good_key q -> prefix_of (join q) ++ k = join (q ++ [k]).
Proof.
  intros G. unfold prefix_of. rewrite beq_false by (apply join_not_blank; exact G).
  destruct q as [|a r]; [reflexivity|]. rewrite join_snoc by discriminate.
  destruct (join (a :: r)) eqn:E; [exfalso; revert E; apply join_ne; [discriminate|exact G]|].
  rewrite <- app_assoc. reflexivity.
Qed.

Definition named (q : list bytes) (l : list (list bytes * bytes)) : list (bytes * bytes) :=
  map (fun '(p, t) => (join (q ++ p), t)) l.
Lemma named_push q k l : named q (map (fun '(p, t) => (k :: p, t)) l) = named (q ++ [k]) l.
Proof.
  unfold named. rewrite map_map. apply map_ext. intros [p t]. rewrite <- app_assoc. reflexivity.
Qed.

Lemma parts_paths :
  (forall v q, Forall good_key q -> good v -> parts_of (join q) v = Ok (named q (paths v))) /\
  (forall fs q, Forall good_key q -> goods fs -> struct_parts (join q) fs = Ok (named q (paths_l fs))).
Proof.
  apply mval_mutind.
  - intros t q _ _. cbn. rewrite app_nil_r. reflexivity.
  - intros fs IH q Q [_ G]. cbn [parts_of paths]. apply IH; assumption.
  - intros fs _ q _ [].
  - intros v IH q Q G. cbn [parts_of paths]. apply IH; assumption.
  - intros q _ [].
  - reflexivity.
  - intros f v IHv r IHr q Q [G1 G2]. cbn [struct_parts paths_l]. destruct (skipped f) eqn:S.
    + apply IHr; assumption.
    + destruct G1 as [G1 | [K G1]]; [discriminate|]. rewrite prefix_join by exact Q.
      rewrite IHv; [|apply Forall_app; split; [exact Q|constructor; [exact K|constructor]]|exact G1].
      cbn [obind]. rewrite IHr by assumption. cbn [obind]. unfold named at 3. rewrite map_app. fold (named q).
      rewrite <- named_push. reflexivity.
Qed.
Lemma map_parts_paths fs : good_entries fs -> map_parts fs = Ok (named [] (paths_m fs)).
Proof.
  induction fs as [|f v r IH]; [reflexivity|]. intros (K & G & GR). cbn [map_parts paths_m].
  pose proof (proj1 parts_paths v [f_name f] (Forall_cons _ K (Forall_nil _)) G) as P.
  change (join [f_name f]) with (f_name f) in P. rewrite P.
  cbn [obind]. rewrite IH by exact GR. cbn [obind]. unfold named at 3. rewrite map_app. fold (named []).
  rewrite <- (named_push [] (f_name f)). reflexivity.
Qed.

Lemma paths_leaf :
  (forall v, good v -> forall p t, In (p, t) (paths v) <-> leaf v p t) /\
  (forall fs, goods fs -> forall p t, In (p, t) (paths_l fs) <-> leafs fs p t).
Proof.
  apply mval_mutind.
  - intros t _ p u. cbn. split.
    + intros [X | []]. inversion X; subst. constructor.
    + intros L. inversion L; subst. left. reflexivity.
  - intros fs IH [_ G] p t. cbn [paths]. rewrite (IH G). split; [intros L; constructor; exact L|intros L; inversion L; assumption].
  - intros fs _ [].
  - intros v IH G p t. cbn [paths]. rewrite (IH G). split; [intros L; constructor; exact L|intros L; inversion L; assumption].
  - intros [].
  - intros _ p t. split; [intros []|intros L; inversion L].
  - intros f v IHv r IHr [G1 G2] p t. cbn [paths_l]. rewrite in_app_iff, (IHr G2). destruct (skipped f) eqn:S.
    + split; [intros [[] | L]; apply leafs_later; exact L|].
      intros L. inversion L; subst; [congruence|right; assumption].
    + destruct G1 as [G1 | [K G1]]; [discriminate|]. specialize (IHv G1). split.
      * intros [L | L]; [|apply leafs_later; exact L]. apply in_map_iff in L. destruct L as ([p' t'] & X & L).
        inversion X; subst. apply leafs_here; [exact S|]. apply IHv. exact L.
      * intros L. inversion L; subst; [|right; assumption]. left. apply in_map_iff.
        match goal with H : leaf v ?p0 t |- _ => exists (p0, t); split; [reflexivity|apply IHv; exact H] end.
Qed.
Lemma paths_entry fs : good_entries fs -> forall p t, In (p, t) (paths_m fs) <-> entry fs p t.
Proof.
  induction fs as [|f v r IH]; intros G p t.
  - split; [intros []|intros L; inversion L].
  - destruct G as (K & G1 & G2). cbn [paths_m]. rewrite in_app_iff, (IH G2). split.
    + intros [L | L]; [|apply entry_later; exact L]. apply in_map_iff in L. destruct L as ([p' t'] & X & L).
      inversion X; subst. apply entry_here. apply (proj1 paths_leaf); assumption.
    + intros L. inversion L; subst; [|right; assumption]. left. apply in_map_iff.
      match goal with H : leaf v ?p0 t |- _ => exists (p0, t); split; [reflexivity|apply (proj1 paths_leaf); assumption] end.
Qed.

Lemma paths_keys fs : forall p t, In (p, t) (paths_l fs) -> exists k r, p = k :: r /\ In k (keys fs).
Proof.
  induction fs as [|f v r IH]; intros p t I; [destruct I|]. cbn [paths_l] in I. apply in_app_or in I. cbn [keys].
  destruct I as [I|I].
  - destruct (skipped f); [destruct I|]. apply in_map_iff in I. destruct I as ([p' t'] & X & _). inversion X; subst.
    eexists; eexists. split; [reflexivity|left; reflexivity].
  - destruct (IH _ _ I) as (k & q & -> & K). exists k, q. split; [reflexivity|]. destruct (skipped f); [exact K|right; exact K].
Qed.
Lemma paths_m_keys fs : forall p t, In (p, t) (paths_m fs) -> exists k r, p = k :: r /\ In k (map_keys fs).
Proof.
  induction fs as [|f v r IH]; intros p t I; [destruct I|]. cbn [paths_m] in I. apply in_app_or in I. cbn [map_keys].
  destruct I as [I|I].
  - apply in_map_iff in I. destruct I as ([p' t'] & X & _). inversion X; subst.
    eexists; eexists. split; [reflexivity|left; reflexivity].
  - destruct (IH _ _ I) as (k & q & -> & K). exists k, q. split; [reflexivity|right; exact K].
Qed.
Lemma nodup_app {A} (l m : list A) : NoDup l -> NoDup m -> (forall x, In x l -> ~ In x m) -> NoDup (l ++ m).
Proof.
  intros L M D. induction L as [|x l N L IH]; [exact M|]. cbn. constructor.
  - intros I. apply in_app_or in I. destruct I as [I|I]; [contradiction|]. apply (D x); [left; reflexivity|exact I].
  - apply IH. intros y Y. apply D. right. exact Y.
Qed.
Lemma nodup_push k (l : list (list bytes * bytes)) : NoDup (map fst l) -> NoDup (map fst (map (fun '(p, t) => (k :: p, t)) l)).
Proof.
  intros N. rewrite map_map. induction l as [|[p t] l IH]; [constructor|]. cbn [map fst] in *. inversion N as [|? ? N1 N2]; subst.
  constructor; [|apply IH; exact N2]. intros I. apply in_map_iff in I. destruct I as ([p' t'] & X & I). cbn [fst] in X.
  inversion X; subst. apply N1. apply in_map_iff. exists (p, t'). split; [reflexivity|exact I].
Qed.
Lemma push_fst k (l : list (list bytes * bytes)) x : In x (map fst (map (fun '(p, t) => (k :: p, t)) l)) -> exists r, x = k :: r.
Proof.
  intros I. rewrite map_map in I. apply in_map_iff in I. destruct I as ([p t] & <- & _). exists p. reflexivity.
Qed.
Lemma paths_nodup :
  (forall v, good v -> NoDup (map fst (paths v))) /\
  (forall fs, goods fs -> NoDup (keys fs) -> NoDup (map fst (paths_l fs))).
Proof.
  apply mval_mutind.
  - intros t _. cbn. constructor; [intros []|constructor].
  - intros fs IH [N G]. cbn [paths]. apply IH; assumption.
  - intros fs _ [].
  - intros v IH G. cbn [paths]. apply IH. exact G.
  - intros [].
  - intros _ _. constructor.
  - intros f v IHv r IHr [G1 G2] N. cbn [paths_l keys] in *. destruct (skipped f) eqn:S; [apply IHr; assumption|].
    inversion N as [|? ? N1 N2]; subst. destruct G1 as [G1 | [K G1]]; [discriminate|]. rewrite map_app. apply nodup_app.
    + apply nodup_push. apply IHv. exact G1.
    + apply IHr; assumption.
    + intros x X Y. destruct (push_fst _ _ _ X) as (p & ->). apply in_map_iff in Y. destruct Y as ([p' t'] & E & Y).
      cbn [fst] in E. subst p'. destruct (paths_keys _ _ _ Y) as (k & q & E & I). inversion E; subst. contradiction.
Qed.
Lemma paths_m_nodup fs : good_entries fs -> NoDup (map_keys fs) -> NoDup (map fst (paths_m fs)).
Proof.
  induction fs as [|f v r IH]; intros G N; [constructor|]. destruct G as (K & G1 & G2). cbn [paths_m map_keys] in *.
  inversion N as [|? ? N1 N2]; subst. rewrite map_app. apply nodup_app.
  - apply nodup_push. apply (proj1 paths_nodup). exact G1.
  - apply IH; assumption.
  - intros x X Y. destruct (push_fst _ _ _ X) as (p & ->). apply in_map_iff in Y. destruct Y as ([p' t'] & E & Y).
    cbn [fst] in E. subst p'. destruct (paths_m_keys _ _ _ Y) as (k & q & E & I). inversion E; subst. contradiction.
Qed.

(** the components of a path *)
Lemma paths_good :
  (forall v, good v -> forall p t, In (p, t) (paths v) -> Forall good_key p) /\
  (forall fs, goods fs -> forall p t, In (p, t) (paths_l fs) -> Forall good_key p).
Proof.
  apply mval_mutind.
  - intros t _ p u [X | []]. inversion X; subst. constructor.
  - intros fs IH [_ G]. exact (IH G).
  - intros fs _ [].
  - intros v IH G. exact (IH G).
  - intros [].
  - intros _ p t [].
  - intros f v IHv r IHr [G1 G2] p t I. cbn [paths_l] in I. apply in_app_or in I. destruct I as [I|I]; [|eapply IHr; eassumption].
    destruct (skipped f); [destruct I|]. destruct G1 as [G1 | [K G1]]; [discriminate|].
    apply in_map_iff in I. destruct I as ([p' t'] & X & I). inversion X; subst. constructor; [exact K|eapply IHv; eassumption].
Qed.
Lemma paths_m_good fs : good_entries fs -> forall p t, In (p, t) (paths_m fs) -> Forall good_key p.
Proof.
  induction fs as [|f v r IH]; intros G p t I; [destruct I|]. destruct G as (K & G1 & G2). cbn [paths_m] in I.
  apply in_app_or in I. destruct I as [I|I]; [|eapply IH; eassumption].
  apply in_map_iff in I. destruct I as ([p' t'] & X & I). inversion X; subst. constructor; [exact K|].
  eapply (proj1 paths_good); eassumption.
Qed.
Lemma dot_split a b x y : ~ In 46 a -> ~ In 46 b -> a ++ 46 :: x = b ++ 46 :: y -> a = b /\ x = y.
Proof.
  revert b. induction a as [|c a IH]; intros b A B E; destruct b as [|d b]; cbn [app] in E.
  - inversion E. split; reflexivity.
  - inversion E; subst. contradiction B. left. reflexivity.
  - inversion E; subst. contradiction A. left. reflexivity.
  - inversion E as [[E1 E2]]; subst. destruct (IH b) as [-> ->].
    + intros I. apply A. right. exact I.
    + intros I. apply B. right. exact I.
    + exact E2.
    + split; reflexivity.
Qed.
Lemma join_inj p : forall q, Forall good_key p -> Forall good_key q -> join p = join q -> p = q.
Proof.
  induction p as [|a p IH]; intros q P Q E.
  - destruct q as [|b q]; [reflexivity|]. exfalso. symmetry in E. revert E. apply join_ne; [discriminate|exact Q].
  - destruct q as [|b q]; [exfalso; revert E; apply join_ne; [discriminate|exact P]|].
    inversion P as [|? ? (A1 & A2 & A3) P']; subst. inversion Q as [|? ? (B1 & B2 & B3) Q']; subst.
    rewrite !join_cons in E. destruct p as [|a' p], q as [|b' q].
    + subst. reflexivity.
    + exfalso. apply A2. rewrite E. apply in_or_app. right. left. reflexivity.
    + exfalso. apply B2. rewrite <- E. apply in_or_app. right. left. reflexivity.
    + destruct (dot_split _ _ _ _ A2 B2 E) as [-> E']. f_equal. apply IH; assumption.
Qed.
Lemma named_nodup l : NoDup (map fst l) -> (forall p t, In (p, t) l -> Forall good_key p) -> NoDup (map fst (named [] l)).
Proof.
  unfold named. induction l as [|[p t] l IH]; intros N G; [constructor|]. cbn [map fst app] in *. inversion N as [|? ? N1 N2]; subst.
  constructor; [|apply IH; [exact N2|intros; eapply G; right; eassumption]].
  intros I. apply in_map_iff in I. destruct I as ([n u] & X & I). apply in_map_iff in I. destruct I as ([p' t'] & Y & I).
  inversion Y; subst. cbn [fst] in X. apply join_inj in X; [|eapply G; right; exact I|eapply G; left; reflexivity].
  subst p'. apply N1. apply in_map_iff. eexists (p, _). split; [|exact I]; reflexivity.
Qed.
Lemma in_named l n t : In (n, t) (named [] l) <-> exists p, In (p, t) l /\ n = join p.
Proof.
  unfold named. rewrite in_map_iff. split.
  - intros ([p u] & X & I). inversion X; subst. exists p. split; [exact I|reflexivity].
  - intros (p & I & ->). exists (p, t). split; [reflexivity|exact I].
Qed.

(** ** C134 *)

(** The form has a field for every text in the value, named by its path, no other
    fields, and no name twice. *)
Theorem C134_form_partial v : good v ->
  exists l, multipart v = Ok l /\ (forall n t, In (n, t) l <-> exists p, leaf v p t /\ n = join p) /\ NoDup (map fst l).
Proof.
  intros G. unfold multipart. pose proof (proj1 parts_paths v [] (Forall_nil _) G) as P. change (join []) with (@nil Z) in P. rewrite P.
  eexists. split; [reflexivity|]. split.
  - intros n t. rewrite in_named. split; intros (p & I & E); exists p; (split; [|exact E]); apply (proj1 paths_leaf); assumption.
  - apply named_nodup; [apply (proj1 paths_nodup); exact G|apply (proj1 paths_good); exact G].
Qed.
(** So does the form of a map (the arguments of a function). *)
Theorem C134_arguments_partial fs : good_entries fs -> NoDup (map_keys fs) ->
  exists l, multipart (MMap fs) = Ok l /\ (forall n t, In (n, t) l <-> exists p, entry fs p t /\ n = join p) /\ NoDup (map fst l).
Proof.
  intros G N. unfold multipart. cbn [parts_of]. rewrite map_parts_paths by exact G.
  eexists. split; [reflexivity|]. split.
  - intros n t. rewrite in_named. split; intros (p & I & E); exists p; (split; [|exact E]); apply (paths_entry fs G); assumption.
  - apply named_nodup; [apply paths_m_nodup; assumption|apply paths_m_good; exact G].
Qed.

(** The name of a field, and when it may be left out, in terms of its tags. *)
Lemma cut_comma_spec n o : ~ In 44 n -> cut_comma (n ++ 44 :: o) = (n, o) /\ cut_comma n = (n, []).
Proof.
  unfold cut_comma. induction n as [|c n IH]; intros N; [split; reflexivity|].
  assert (C : (c =? 44) = false) by (apply Z.eqb_neq; intros ->; apply N; left; reflexivity).
  destruct IH as [A B]; [intros I; apply N; right; exact I|]. apply pair_equal_spec in A as [A1 A2]. apply pair_equal_spec in B as [B1 B2].
  cbn [app take_while drop_while]. rewrite C. cbn [negb]. cbv iota. rewrite A1, A2, B1, B2. split; reflexivity.
Qed.
Theorem C134_name fn z n o k : ~ In 44 n ->
  let f j t := {| f_name := fn; f_json := j; f_form := t; f_zero := z |} in
  (forall j, k <> [] -> part_name (f j k) = k) /\
  part_name (f (n ++ 44 :: o) []) = (if beq n [] then fn else n) /\
  part_name (f n []) = (if beq n [] then fn else n).
Proof.
  intros N f. destruct (cut_comma_spec n o N) as [A B].
  split; [intros j K; unfold part_name; cbn; destruct k; [congruence|reflexivity]|].
  unfold part_name, f. cbn [f_json f_form f_name]. rewrite A, B. cbn [fst]. destruct n; split; reflexivity.
Qed.
Theorem C134_left_out fn z n o k : ~ In 44 n ->
  let f j := {| f_name := fn; f_json := j; f_form := k; f_zero := z |} in
  (skipped (f (n ++ 44 :: o)) = true <->
     z = true /\ ((exists a b, o = a ++ text "omitempty" ++ b) \/ (exists a b, o = a ++ text "omitzero" ++ b))) /\
  skipped (f n) = false.
Proof.
  intros N f. destruct (cut_comma_spec n o N) as [A B]. unfold skipped, f. cbn [f_json f_zero]. rewrite A, B. cbn [snd]. split.
  - rewrite andb_true_iff, orb_true_iff, !contains_iff. tauto.
  - reflexivity.
Qed.

Definition field (n j f : string) (z : bool) : finfo := {| f_name := text n; f_json := text j; f_form := text f; f_zero := z |}.
Definition person : mval :=
  MStruct (FCons (field "Name" "name" "" false) (MText (text "Ann"))
          (FCons (field "Age" "age,omitempty" "" true) (MText (text "0"))
          (FCons (field "Home" "" "address" false) (MPtr (MStruct (FCons (field "City" "" "" false) (MText (text "Oslo"))
                                                                  (FCons (field "Name" "name" "" false) (MText (text "x")) FNil)))) FNil))).
Theorem C134_example : good person /\
  multipart person = Ok [(text "name", text "Ann"); (text "address.City", text "Oslo"); (text "address.name", text "x")].
Proof.
  split; [|vm_compute; reflexivity].
  assert (K : forall k, forallb (fun c => negb (c =? 46)) k = true -> k <> [] -> k <> [95] -> good_key k).
  { intros k F N M. split; [exact N|]. split; [|exact M]. intros I. rewrite forallb_forall in F. specialize (F _ I). discriminate. }
  cbn [person good goods]. split.
  { vm_compute. repeat (constructor; [cbn; intuition discriminate|]). constructor. }
  split; [right; split; [apply K; [reflexivity|discriminate|discriminate]|exact I]|].
  split; [left; reflexivity|].
  split; [right; split; [apply K; [reflexivity|discriminate|discriminate]|]|exact I].
  split.
  { vm_compute. repeat (constructor; [cbn; intuition discriminate|]). constructor. }
  split; [right; split; [apply K; [reflexivity|discriminate|discriminate]|exact I]|].
  split; [right; split; [apply K; [reflexivity|discriminate|discriminate]|exact I]|exact I].
Qed.

(** ** Refuted *)
(** The entries of maps inside structs lose the path: two maps with the same key give the
    same name. *)
Theorem C134_map_refuted k a b :
  let m t := MMap (FCons {| f_name := k; f_json := []; f_form := []; f_zero := false |} (MText t) FNil) in
  multipart (MStruct (FCons (field "A" "" "" false) (m a) (FCons (field "B" "" "" false) (m b) FNil))) = Ok [(k, a); (k, b)].
Proof. reflexivity. Qed.
(** A nil pointer, unless it may be left out, is a panic. *)
Theorem C134_nil_refuted fs f r : skipped f = false ->
  multipart (MStruct (FCons f MNil r)) = Panic /\ multipart (MMap (FCons f MNil fs)) = Panic.
Proof. intros S. unfold multipart. cbn [parts_of struct_parts map_parts]. rewrite S. split; reflexivity. Qed.
(** A field that encoding/json keeps private ("-") is sent under the name "-". *)
Theorem C134_private_refuted n z t : skipped (field n "-" "" z) = false /\
  multipart (MStruct (FCons (field n "-" "" z) (MText t) FNil)) = Ok [(text "-", t)].
Proof. split; reflexivity. Qed.
(** A file shorter than the buffer does not look like plain text: the rest of the buffer
    is zeros. *)
Theorem C134_short_file_refuted content : (List.length content < 512)%nat -> looks_plain (sniffed content) = false.
Proof.
  intros L. unfold looks_plain, sniffed. rewrite firstn_all2 by lia. rewrite existsb_app.
  destruct (512 - List.length content)%nat as [|k] eqn:E; [lia|]. cbn [repeat existsb]. change (binary_byte 0) with true.
  cbn [orb]. rewrite orb_true_r. reflexivity.
Qed.
Theorem C134_long_file content : (512 <= List.length content)%nat -> looks_plain (sniffed content) = looks_plain (firstn 512 content).
Proof.
  intros L. unfold sniffed. rewrite firstn_length. replace (512 - min 512 (List.length content))%nat with O by lia.
  cbn [repeat]. rewrite app_nil_r. reflexivity.
Qed.
