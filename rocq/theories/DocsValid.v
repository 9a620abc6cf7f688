(** C125: what is sent validates against the published schemas. *)
From Coq Require Import String.
From Verif Require Import GoBase GoText DocsModel DocsSpec DocsProps DocsTerm.
Open Scope list_scope.

Section Env.
Context (env : nat -> decl).
Notation sf := (schema_for env).
(** What the schema of a type is like. *)
Inductive desc : ty -> schema -> Prop :=
| de_bool : desc TBool (of_type JTBool) | de_int s w : desc (TInt s w) (int_schema s w) | de_float : desc TFloat (of_type JTNumber)
| de_string : desc TString (of_type JTString) | de_text : desc TText (of_type JTString) | de_any : desc TAny empty_schema
| de_named id : desc (TNamed id) (ref_to (key_of (env id)))
| de_named_ptr id t s : d_under (env id) = TPtr t -> desc t s -> desc (TNamed id) s
| de_ptr t s : desc t s -> desc (TPtr t) s
| de_slice t s : desc t s -> desc (TSlice t) (Schema None (Some JTArray) [] [] (Some s) 0 None None None None)
| de_array n t s : desc t s -> desc (TArray n t) (Schema None (Some JTArray) [] [] (Some s) n None None None None)
| de_map k v ks vs : desc k ks -> desc v vs -> desc (TMap k v) (Schema None (Some JTObject) [] [] None 0 None None (Some ks) (Some vs))
| de_struct fs props req : (forall n s, In (n, s) props -> exists g, In g (flat fs) /\ ff_name g = n /\ desc (ff_type g) s) ->
    (forall n, In n req -> exists g, In g (flat fs) /\ ff_name g = n /\ ff_omit g = false) -> desc (TStruct fs) (object (props, req)).
Definition acc_desc (G : list ffield) (a : acc) : Prop :=
  (forall n s, In (n, s) (fst a) -> exists g, In g G /\ ff_name g = n /\ desc (ff_type g) s) /\ (forall n, In n (snd a) -> exists g, In g G /\ ff_name g = n /\ ff_omit g = false).
Definition reg_desc (r : registry) : Prop := forall id s, reg_get r (key_of (env id)) = Some s -> s = empty_schema \/ desc (d_under (env id)) s.

(** The environment: underlying types are the ones the schemas are right about, and are not defined types; types
    that are given one name in the document are of one underlying type. *)
Context (wf_plain : forall id, plain env (d_under (env id))) (unnamed : forall id j, d_under (env id) <> TNamed j)
  (names : forall i j, key_of (env i) = key_of (env j) -> d_under (env i) = d_under (env j)).

Lemma split_cut (s : bytes) c : split s c = let '(a, b, ok) := cut s c in if ok then a :: split b c else [a].
Proof.
  induction s as [|x s IH]; [reflexivity|]. cbn [split cut]. destruct (x =? c); [reflexivity|]. rewrite IH. destruct (cut s c) as [[a b] ok]. destruct ok; reflexivity.
Qed.
Lemma sent_json name tag : sent_name name tag = json_name name tag.
Proof. unfold sent_name, tag_name, json_name. rewrite split_cut. destruct (cut tag 44) as [[a b] ok]. destruct ok; reflexivity. Qed.
Lemma cut_join (s : bytes) c a b : cut s c = (a, b, true) -> s = a ++ c :: b.
Proof.
  revert a b. induction s as [|x s IH]; intros a b E; [discriminate E|]. cbn [cut] in E. destruct (Z.eqb_spec x c) as [->|N]; [injection E as <- <-; reflexivity|].
  destruct (cut s c) as [[a' b'] ok]. injection E as <- <- ->. cbn. f_equal. apply IH. reflexivity.
Qed.
Lemma option_contains o tag : option_in o tag = true -> contains tag (44 :: o) = true.
Proof.
  unfold option_in. intros H. apply existsb_exists in H. destruct H as (o' & X & B). apply beq_true in B. subst o'. apply contains_iff.
  assert (G : forall (l : list bytes) s, split s 44 = l -> In o (tl l) -> exists a b, s = a ++ (44 :: o) ++ b).
  { clear. induction l as [|p l IH]; intros s E X; [destruct X|]. rewrite split_cut in E. destruct (cut s 44) as [[a b] ok] eqn:C. destruct ok; [|injection E as _ <-; destruct X].
    apply cut_join in C. injection E as -> E. cbn [tl] in X. subst s.
    destruct l as [|q l]; [destruct X|]. destruct X as [->|X].
    - rewrite split_cut in E. destruct (cut b 44) as [[a' b'] ok'] eqn:C'. destruct ok'.
      + apply cut_join in C'. injection E as -> E. subst b. exists p, (44 :: b'). reflexivity.
      + injection E as -> _. exists p, []. rewrite app_nil_r. f_equal. f_equal. clear - C'. revert o b' C'. induction b as [|x b IHb]; intros o b' C'; [injection C' as <- _; reflexivity|].
        cbn [cut] in C'. destruct (x =? 44); [discriminate C'|]. destruct (cut b 44) as [[u v] w]. injection C' as <- <- ->. f_equal. apply (IHb u v eq_refl).
    - destruct (IH b E X) as (u & v & ->). exists (p ++ 44 :: u), v. rewrite <- app_assoc. reflexivity. }
  apply (G _ _ eq_refl X).
Qed.
Lemma not_omitted tag : omits tag = false -> may_omit tag = false.
Proof.
  unfold omits, may_omit. intros H. apply orb_false_iff in H. destruct H as [H1 H2]. apply orb_false_iff. split.
  - destruct (option_in (text "omitempty") tag) eqn:E; [|reflexivity]. apply option_contains in E. change (44 :: text "omitempty") with (text ",omitempty") in E. congruence.
  - destruct (option_in (text "omitzero") tag) eqn:E; [|reflexivity]. apply option_contains in E. change (44 :: text "omitzero") with (text ",omitzero") in E. congruence.
Qed.
Lemma flat_sub d e name sub g : In g (flat_map (flat_field (S d)) sub) -> In g (flat_field d (Embed e name [] sub)).
Proof.
  cbn. intros H. induction sub as [|f sub IH]; [exact H|]. cbn in *. apply in_app_iff in H. apply in_app_iff. destruct H as [H|H]; [left; exact H|right; apply IH, H].
Qed.
Definition od (t : ty) (o : option (schema * registry)) : Prop := match o with Some (s, r) => desc t s /\ reg_desc r | None => True end.
Definition oa (G : list ffield) (o : option (acc * registry)) : Prop := match o with Some (a, r) => acc_desc G a /\ reg_desc r | None => True end.
Lemma reg_desc_set r id s : reg_desc r -> s = empty_schema \/ desc (d_under (env id)) s -> reg_desc (reg_set (key_of (env id)) s r).
Proof.
  intros R D id' s' E. rewrite reg_get_set in E. destruct (key_eqb (key_of (env id)) (key_of (env id'))) eqn:K; [|apply (R _ _ E)].
  apply key_eqb_eq in K. injection E as <-. rewrite <- (names _ _ K). exact D.
Qed.
Lemma describes f :
  (forall reg t, reg_desc reg -> plain env t -> od t (sf f reg t)) /\
  (forall reg t, reg_desc reg -> plain env t -> od t (body env f reg t)) /\
  (forall reg fs a G d, reg_desc reg -> plain_fields env fs -> acc_desc G a -> (forall g, In g (flat_map (flat_field d) fs) -> In g G) -> oa G (add_fields env f reg fs a)) /\
  (forall reg fs a G d, reg_desc reg -> plain_fields env fs -> acc_desc G a -> (forall g, In g (flat_map (flat_field d) fs) -> In g G) -> oa G (add_own env f reg fs a)) /\
  (forall reg fs p a G d, reg_desc reg -> plain_fields env fs -> acc_desc G a -> (forall g, In g (flat_map (flat_field d) fs) -> In g G) -> oa G (add_anon env f reg fs p a)).
Proof.
  induction f as [|f (I1 & I2 & I3 & I4 & I5)]; [split; [|split; [|split; [|split]]]; intros; exact I|].
  split; [|split; [|split; [|split]]].
  - intros reg t R P. rewrite sf_eq. destruct t as [|sg w| | | | |id|t|t|n t|kt vt|fs]; try (apply I2; assumption).
    + destruct (reg_get reg (key_of (env id))); [split; [constructor|exact R]|].
      pose proof (reg_desc_set reg id empty_schema R (or_introl eq_refl)) as R1. set (r1 := reg_set _ _ _) in *.
      assert (X : od (TNamed id) match body env f r1 (d_under (env id)) with Some (s, r) => Some (ref_to (key_of (env id)), reg_set (key_of (env id)) s r) | None => None end).
      { pose proof (I2 r1 (d_under (env id)) R1 (wf_plain id)) as HH. destruct (body env f r1 (d_under (env id))) as [(s, r)|]; [|exact I]. destruct HH as [H1 H2]. split; [constructor|]. apply reg_desc_set; [exact H2|right; exact H1]. }
      pose proof (wf_plain id) as W. destruct (d_under (env id)) as [|sg w| | | | |id'|t'|t'|m t'|kt vt|fs] eqn:DU; try exact X.
      inversion W as [| | | | | | |? Pt E| | | |]. pose proof (I1 r1 t' R1 Pt) as HH. destruct (sf f r1 t') as [(s, r)|]; [|exact I]. destruct HH as [H1 H2]. split; [apply (de_named_ptr id t' s DU H1)|exact H2].
    + inversion P as [| | | | | | |? Pt E| | | |]. pose proof (I1 reg t R Pt) as HH. destruct (sf f reg t) as [(s, r)|]; [|exact I]. destruct HH as [H1 H2]. split; [constructor; exact H1|exact H2].
  - intros reg t R P. rewrite body_eq. destruct t as [|sg w| | | | |id|t|t|n t|kt vt|fs]; try (split; [constructor|exact R]); try exact I.
    + inversion P as [| | | | | | | |? Pt| | |]. pose proof (I1 reg t R Pt) as HH. destruct (sf f reg t) as [(s, r)|]; [|exact I]. destruct HH as [H1 H2]. split; [constructor; exact H1|exact H2].
    + inversion P as [| | | | | | | | |? ? Pt| |]. pose proof (I1 reg t R Pt) as HH. destruct (sf f reg t) as [(s, r)|]; [|exact I]. destruct HH as [H1 H2]. split; [constructor; exact H1|exact H2].
    + inversion P as [| | | | | | | | | |? ? Pk Ps Pv|]. pose proof (I1 reg kt R Pk) as HH. destruct (sf f reg kt) as [(s, r)|]; [|exact I]. destruct HH as [H1 H2]. pose proof (I1 r vt H2 Pv) as HH. destruct (sf f r vt) as [(s', r')|]; [|exact I]. destruct HH as [H3 H4].
      split; [constructor; assumption|exact H4].
    + inversion P as [| | | | | | | | | | |? Pf Nd]. pose proof (I3 reg fs ([], []) (flat fs) 0%nat R Pf ltac:(split; [intros n s []|intros n []]) ltac:(intros g X; exact X)) as HH.
      destruct (add_fields env f reg fs ([], [])) as [((props, req), r)|]; [|exact I]. destruct HH as [[H1 H2] H3]. split; [constructor; assumption|exact H3].
  - intros reg fs a G d R Pf A F. rewrite add_fields_eq. pose proof (I4 reg fs a G d R Pf A F) as HH. destruct (add_own env f reg fs a) as [(a1, r1)|]; [|exact I]. destruct HH as [H1 H2]. apply (I5 r1 fs (own_names fs) a1 G d); assumption.
  - intros reg fs a G d R Pf A F. rewrite add_own_eq. destruct Pf as [|e name tag t fs Pt St Pf|e name sub fs Ps Pf]; [split; assumption| |].
    + assert (F' : forall g, In g (flat_map (flat_field d) fs) -> In g G) by (intros g X; apply F; cbn; apply in_app_iff; right; exact X).
      destruct (negb e || skipped tag) eqn:SK; [apply (I4 reg fs a G d); assumption|]. pose proof (I1 reg t R Pt) as H. destruct (sf f reg t) as [(s, r)|]; [|exact I]. destruct H as [H1 H2].
      apply (I4 r fs _ G d); [exact H2|exact Pf| |exact F'].
      apply orb_false_iff in SK. destruct SK as [SE SK]. destruct e; [|discriminate SE].
      assert (NT : beq tag (text "-") = false).
      { destruct (beq tag (text "-")) eqn:B; [|reflexivity]. apply beq_true in B. subst tag. discriminate SK. }
      set (g := {| ff_depth := d; ff_name := sent_name name tag; ff_omit := may_omit tag; ff_string := option_in (text "string") tag; ff_type := t |}).
      assert (Fg : In g G). { apply F. cbn [flat_map]. apply in_app_iff. left. unfold flat_field. rewrite NT. left. reflexivity. }
      split.
      * intros n s' [E|X]; [injection E as <- <-; exists g; split; [exact Fg|split; [apply sent_json|exact H1]]|apply (proj1 A n s' X)].
      * intros n X. cbn [snd] in X. destruct (negb (omits tag) && negb (never_required env t)) eqn:Q; [|apply (proj2 A n X)]. apply in_app_iff in X. destruct X as [X|[<-|[]]]; [apply (proj2 A n X)|].
        apply andb_true_iff in Q. destruct Q as [Q _]. exists g. split; [exact Fg|split; [apply sent_json|]]. cbn [ff_omit g]. apply not_omitted. destruct (omits tag); [discriminate Q|reflexivity].
    + apply (I4 reg fs a G d); [exact R|exact Pf|exact A|]. intros g X; apply F; cbn [flat_map]; apply in_app_iff; right; exact X.
  - intros reg fs p a G d R Pf A F. rewrite add_anon_eq. destruct Pf as [|e name tag t fs Pt St Pf|e name sub fs Ps Pf]; [split; assumption| |].
    + apply (I5 reg fs p a G d); [exact R|exact Pf|exact A|]. intros g X; apply F; cbn [flat_map]; apply in_app_iff; right; exact X.
    + assert (F' : forall g, In g (flat_map (flat_field d) fs) -> In g G) by (intros g X; apply F; cbn [flat_map]; apply in_app_iff; right; exact X).
      destruct (negb e || existsb (beq name) p); [apply (I5 reg fs p a G d); assumption|].
      pose proof (I3 reg sub a G (S d) R Ps A) as H. assert (FS : forall g, In g (flat_map (flat_field (S d)) sub) -> In g G) by (intros g X; apply F; cbn [flat_map]; apply in_app_iff; left; apply flat_sub; exact X).
      specialize (H FS). destruct (add_fields env f reg sub a) as [(a1, r)|]; [|exact I]. destruct H as [H1 H2]. apply (I5 r fs p a1 G d); assumption.
Qed.
Lemma describes_all f ts : forall reg l reg', reg_desc reg -> Forall (plain env) ts -> schemas_for env f reg ts = Some (l, reg') -> Forall2 desc ts l /\ reg_desc reg'.
Proof.
  induction ts as [|t ts IH]; intros reg l reg' R P E; cbn [schemas_for] in E; [injection E as <- <-; split; [constructor|exact R]|].
  apply Forall_cons_iff in P. destruct P as [Pt P]. pose proof (proj1 (describes f) reg t R Pt) as H. destruct (sf f reg t) as [(s, r1)|]; [|discriminate]. destruct H as [H1 H2].
  destruct (schemas_for env f r1 ts) as [(l1, r2)|] eqn:E1; [|discriminate]. injection E as <- <-. destruct (IH _ _ _ H2 P E1) as [H3 H4]. split; [constructor; assumption|exact H4].
Qed.

(** ** Validity *)
Lemma nodup_once (l : list ffield) f : NoDup (map ff_name l) -> In f l -> List.length (filter (fun g => beq (ff_name g) (ff_name f) && Nat.leb (ff_depth g) (ff_depth f)) l) = 1%nat.
Proof.
  assert (Z : forall l n d, ~ In n (map ff_name l) -> filter (fun g => beq (ff_name g) n && Nat.leb (ff_depth g) d) l = []).
  { clear. intros l n d. induction l as [|g l IH]; intros H; [reflexivity|]. cbn in *. destruct (beq (ff_name g) n) eqn:B; [apply beq_true in B; exfalso; apply H; left; exact B|]. cbn. apply IH. intros X. apply H. right. exact X. }
  induction l as [|g l IH]; intros N X; [destruct X|]. cbn in N. apply NoDup_cons_iff in N. destruct N as [N1 N2]. cbn [filter]. destruct X as [->|X].
  - rewrite (proj2 (beq_true _ _) eq_refl), Nat.leb_refl. cbn. rewrite (Z l (ff_name f) (ff_depth f) N1). reflexivity.
  - destruct (beq (ff_name g) (ff_name f)) eqn:B; [|cbn; apply IH; assumption]. apply beq_true in B. exfalso. apply N1. rewrite B. apply in_map, X.
Qed.
Lemma filter_all {A} (p : A -> bool) l : (forall x, In x l -> p x = true) -> filter p l = l.
Proof. induction l as [|x l IH]; intros H; [reflexivity|]. cbn. rewrite (H x (or_introl eq_refl)), IH; [reflexivity|intros y Y; apply H; right; exact Y]. Qed.
Lemma dominant_all l : NoDup (map ff_name l) -> dominant l = l.
Proof. intros N. unfold dominant. apply filter_all. intros f X. rewrite (nodup_once l f N X). reflexivity. Qed.
Lemma find_in (l : list (bytes * schema)) n s : prop_get l n = Some s -> In (n, s) l.
Proof.
  unfold prop_get. intros H. destruct (find _ l) as [(n', s')|] eqn:E; [|discriminate]. injection H as <-. apply find_some in E. destruct E as [E B]. apply beq_true in B. subst. exact E.
Qed.
Lemma valid_empty doc j : valid doc empty_schema j.
Proof. apply valid_intro; try discriminate; try (intros; discriminate). - intros o n _ []. - intros l _ N. destruct (N eq_refl). Qed.
Lemma valid_type doc t lo hi j : type_ok t j -> (forall z m, j = JInt z -> lo = Some m -> m <= z) -> (forall z m, j = JInt z -> hi = Some m -> z <= m) -> valid doc (Schema None (Some t) [] [] None 0 lo hi None None) j.
Proof. intros H L U. apply valid_intro; try discriminate; try (intros; discriminate); [intros t' E; injection E as <-; exact H|intros o n _ []|intros l _ N; destruct (N eq_refl)|exact L|exact U]. Qed.
Lemma valid_plain doc t j : type_ok t j -> valid doc (of_type t) j.
Proof. intros H. apply valid_type; [exact H| |]; intros; discriminate. Qed.
Definition plain_ff (g : ffield) : Prop := plain env (ff_type g) /\ ff_string g = false.
Lemma plain_flat fs : plain_fields env fs -> forall d, Forall plain_ff (flat_map (flat_field d) fs).
Proof.
  induction 1 as [|e name tag t fs Pt St Pf IH|e name sub fs Ps IS Pf IH]; intros d; [constructor| |]; cbn [flat_map]; apply Forall_app; (split; [|apply IH]).
  - unfold flat_field. destruct (e && negb (beq tag (text "-"))); [|constructor]. constructor; [|constructor]. split; [exact Pt|exact St].
  - apply Forall_forall. intros g X. assert (Y : In g (flat_map (flat_field (S d)) sub)).
    { clear - X. cbn in X. induction sub as [|f sub IHs]; [exact X|]. cbn in *. apply in_app_iff in X. apply in_app_iff. destruct X as [X|X]; [left; exact X|right; apply IHs, X]. }
    apply (proj1 (Forall_forall _ _) (IS (S d)) g Y).
Qed.
Section Doc.
Context (doc : registry) (doc_desc : reg_desc doc) (doc_res : forall k s, reg_get doc k = Some s -> resolved doc s).
Lemma int_valid sg w z : w = 0 \/ w = 8 \/ w = 16 \/ w = 32 \/ w = 64 -> in_int sg w z -> valid doc (int_schema sg w) (JInt z).
Proof.
  intros W Z. unfold int_schema, in_int in *. destruct sg; destruct W as [-> | [-> | [-> | [-> | ->]]]]; cbn [Z.eqb Pos.eqb] in *; apply valid_type; try exact I; intros z' m Ez Em;
    try discriminate Em; injection Ez as <-; injection Em as <-; lia.
Qed.
Lemma ref_valid id j : has doc (key_of (env id)) -> (forall s, desc (d_under (env id)) s -> resolved doc s -> valid doc s j) -> valid doc (ref_to (key_of (env id))) j.
Proof.
  intros H V. unfold has in H. destruct (reg_get doc (key_of (env id))) as [s|] eqn:E; [|destruct (H eq_refl)].
  apply valid_intro; try discriminate; try (intros; discriminate); [|intros o n _ []|intros l _ N; destruct (N eq_refl)].
  intros k K. injection K as <-. exists s. split; [exact E|]. destruct (doc_desc _ _ E) as [->|D]; [apply valid_empty|apply V; [exact D|apply (doc_res _ _ E)]].
Qed.
Lemma validates :
  (forall t j, json_of env false t j -> plain env t -> forall s, desc t s -> resolved doc s -> valid doc s j) /\
  (forall t l, jsons_of env false t l -> plain env t -> forall s, desc t s -> resolved doc s -> forall x, In x l -> valid doc s x) /\
  (forall t o, pairs_of env false t o -> plain env t -> forall s, desc t s -> resolved doc s -> forall n x, In (n, x) o -> valid doc s x) /\
  (forall G o, fields_of env false G o -> Forall plain_ff G ->
     (forall n x, In (n, x) o -> exists g, In g G /\ ff_name g = n /\ forall s, desc (ff_type g) s -> resolved doc s -> valid doc s x) /\
     (forall g, In g G -> ff_omit g = false -> In (ff_name g) (map fst o))).
Proof.
  apply json_mutind.
  - intros b P s D R. inversion D; subst. apply valid_plain; exact I.
  - intros sg w z Z P s D R. inversion D; subst. inversion P as [|? ? W| | | | | | | | | |]; subst. apply int_valid; assumption.
  - intros x P s D R. inversion D; subst. apply valid_plain; exact I.
  - intros x P s D R. inversion D; subst. apply valid_plain; exact I.
  - intros x P s D R. inversion D; subst. apply valid_plain; exact I.
  - intros x P s D R. inversion D; subst. apply valid_empty.
  - intros id j J IH P s D R. inversion D as [| | | | | |? E1 E2|? t ? U Dt E1 E2| | | | |]; subst.
    + apply ref_valid; [|apply IH, wf_plain]. inversion R as [? ? ? ? ? ? ? ? ? ? K]. apply K. reflexivity.
    + apply IH; [apply wf_plain|rewrite U; constructor; exact Dt|exact R].
  - intros t E. discriminate E.
  - intros t j J IH P s D R. inversion D; subst. inversion P; subst. apply IH; assumption.
  - intros t E. discriminate E.
  - intros t s B P. inversion P as [| | | | | | | |? Pt Pb| | |]; subst. congruence.
  - intros t l B J IH P s D R. inversion D as [| | | | | | | | |? s' Dt E1 E2| | |]; subst. inversion P as [| | | | | | | |? Pt Pb| | |]; subst.
    inversion R as [? ? ? ? ? ? ? ? ? ? K1 K2 K3]; subst.
    apply valid_intro; try discriminate; try (intros; discriminate); [intros t' E; injection E as <-; exact I| |intros l' _ N; destruct (N eq_refl)].
    intros l' x s0 E X Es. injection E as <-. injection Es as <-. apply (IH Pt s' Dt (K3 s' eq_refl) x X).
  - intros n t l L J IH P s D R. inversion D as [| | | | | | | | | |? ? s' Dt E1 E2| |]; subst. inversion P as [| | | | | | | | |? ? Pt| |]; subst.
    inversion R as [? ? ? ? ? ? ? ? ? ? K1 K2 K3]; subst.
    apply valid_intro; try discriminate; try (intros; discriminate); [intros t' E; injection E as <-; exact I| |intros l' E _; injection E as <-; lia].
    intros l' x s0 E X Es. injection E as <-. injection Es as <-. apply (IH Pt s' Dt (K3 s' eq_refl) x X).
  - intros k v E. discriminate E.
  - intros k v o J IH P s D R. inversion D as [| | | | | | | | | | |? ? ks vs Dk Dv E1 E2|]; subst. inversion P as [| | | | | | | | | |? ? Pk Ps Pv|]; subst.
    inversion R as [? ? ? ? ? ? ? ? ? ? K1 K2 K3 K4 K5]; subst.
    apply valid_intro; try discriminate; try (intros; discriminate); [intros t' E; injection E as <-; exact I|intros o' n _ []| |].
    + intros o' n x s0 E X _ Es. injection E as <-. injection Es as <-. apply (IH Pv vs Dv (K5 vs eq_refl) n x X).
    + intros o' n x s0 E X Es. injection Es as <-. clear - Dk Ps doc_desc doc_res K4. unfold is_string_type, under in Ps.
      specialize (K4 ks eq_refl). inversion Dk as [| | | | | |id E1 E2|id t ? U Dt E1 E2| | | | |]; subst; try discriminate Ps.
      * apply valid_plain; exact I.
      * destruct (d_under (env id)) eqn:DU; try discriminate Ps. apply ref_valid; [inversion K4 as [? ? ? ? ? ? ? ? ? ? K]; apply K; reflexivity|]. rewrite DU. intros s0 D0 _. inversion D0; subst. apply valid_plain; exact I.
      * rewrite U in Ps. discriminate Ps.
  - intros fs o J IH P s D R. inversion D as [| | | | | | | | | | | |? props req Hp Hr E1 E2]; subst. inversion P as [| | | | | | | | | | |? Pf Nd]; subst.
    inversion R as [? ? ? ? ? ? ? ? ? ? K1 K2]; subst. rewrite (dominant_all _ Nd) in *. destruct (IH (plain_flat fs Pf 0%nat)) as [F1 F2].
    apply valid_intro; try discriminate; try (intros; discriminate); [intros t' E; injection E as <-; exact I| |].
    + intros o' n E Rn. injection E as <-. destruct (Hr n Rn) as (g & Gg & <- & Og). apply (F2 g Gg Og).
    + intros o' n x s0 E X Ps. injection E as <-. apply find_in in Ps. destruct (Hp n s0 Ps) as (g & Gg & Ng & Dg). destruct (F1 n x X) as (g' & Gg' & Ng' & V).
      assert (g' = g) as ->.
      { assert (N2 : ff_name g' = ff_name g) by congruence. clear - Nd Gg Gg' N2. fold (flat fs) in *. induction (flat fs) as [|h l IHl]; [destruct Gg|]. cbn in Nd. apply NoDup_cons_iff in Nd. destruct Nd as [N1 Nd].
        destruct Gg as [->|Gg], Gg' as [->|Gg']; [reflexivity|exfalso; apply N1; rewrite <- N2; apply in_map, Gg'|exfalso; apply N1; rewrite N2; apply in_map, Gg|apply IHl; assumption]. }
      apply V; [exact Dg|apply (K2 n s0 Ps)].
  - intros t P s D R x [].
  - intros t j l J IH Jl IHl P s D R x [<-|X]; [apply IH; assumption|apply IHl; assumption].
  - intros t P s D R n x [].
  - intros t k j o J IH Jo IHo P s D R n x [E|X]; [injection E as <- <-; apply IH; assumption|apply (IHo P s D R n x X)].
  - intros _. split; [intros n x []|intros g []].
  - intros g G j o S0 J IH Jo IHo P. apply Forall_cons_iff in P. destruct P as [[Pg Sg] P]. destruct (IHo P) as [H1 H2]. split.
    + intros n x [E|X]; [injection E as <- <-; exists g; split; [left; reflexivity|split; [reflexivity|]]; intros s D R; apply IH; assumption|].
      destruct (H1 n x X) as (g' & A & B & C). exists g'. split; [right; exact A|split; assumption].
    + intros g' [<-|X] O; [left; reflexivity|right; apply H2; assumption].
  - intros g G j s o S0 J IH Jo IHo P. apply Forall_cons_iff in P. destruct P as [[Pg Sg] P]. congruence.
  - intros g G o O Jo IHo P. apply Forall_cons_iff in P. destruct P as [[Pg Sg] P]. destruct (IHo P) as [H1 H2]. split.
    + intros n x X. destruct (H1 n x X) as (g' & A & B & C). exists g'. split; [right; exact A|split; assumption].
    + intros g' [<-|X] O'; [congruence|apply H2; assumption].
Qed.
End Doc.
(** The JSON of any value of a type, without nil pointers, slices and maps, validates against the schema the document has for it:
    a recursive check through all references. *)
Theorem C125_valid_partial f ts l doc i t s j : schemas_for env f [] ts = Some (l, doc) -> Forall (plain env) ts ->
  nth_error ts i = Some t -> nth_error l i = Some s -> json_of env false t j -> valid doc s j.
Proof.
  intros E P T S0 J. destruct (C124_references env f ts l doc E) as [R1 R2]. destruct (describes_all f ts [] l doc ltac:(intros id x X; discriminate X) P E) as [D RD].
  assert (Ds : desc t s). { clear - D T S0. revert i T S0. induction D as [|t' s' ts l D Ds IH]; intros [|i] T S0; cbn in *; try discriminate; [congruence|apply (IH i T S0)]. }
  apply (proj1 (validates doc RD R2) t j J); [apply (proj1 (Forall_forall _ _) P), (nth_error_In _ _ T)|exact Ds|apply (proj1 (Forall_forall _ _) R1), (nth_error_In _ _ S0)].
Qed.
End Env.
