(** C124, C125: cases, and values whose JSON the published schema rejects. *)
From Coq Require Import String.
From Verif Require Import GoBase GoText DocsModel DocsSpec DocsProps DocsTerm DocsValid.
Open Scope list_scope.

(** ** A tree *)
Definition node : ty := TStruct [Field true (text "Value") (text "value") TString; Field true (text "Next") [] (TPtr (TNamed 0));
  Field true (text "Kids") (text "kids,omitempty") (TSlice (TNamed 0)); Embed true (text "Meta") [] [Field true (text "Size") [] (TInt false 8); Field false (text "secret") [] TString; Field true (text "Attr") [] (TMap (TNamed 1) (TNamed 0))]].
Definition tree (id : nat) : decl :=
  match id with
  | O => {| d_pkg := text "example.com/tree"; d_name := text "Node"; d_under := node |}
  | _ => {| d_pkg := text "example.com/tree"; d_name := text "Key"; d_under := TString |}
  end.
Definition k0 : key := (text "tree", text "Node").
Definition k1 : key := (text "tree", text "Key").
Lemma tree_plain id : plain tree (d_under (tree id)).
Proof.
  destruct id as [|id]; [|constructor]. cbn. constructor.
  - repeat (first [apply pf_nil|apply pf_field|apply pf_embed]); try reflexivity; try (apply pl_int; right; left; reflexivity); repeat constructor.
  - vm_compute. repeat (constructor; [intros X; repeat (destruct X as [X|X]; [discriminate X|]); exact X|]). constructor.
Qed.
Lemma tree_unnamed id j : d_under (tree id) <> TNamed j. Proof. destruct id; discriminate. Qed.
Lemma tree_names i j : key_of (tree i) = key_of (tree j) -> d_under (tree i) = d_under (tree j).
Proof. destruct i, j; intros E; try reflexivity; vm_compute in E; discriminate E. Qed.
Lemma tree_fin id : In (key_of (tree id)) [k0; k1]. Proof. destruct id; [left|right; left]; reflexivity. Qed.
Example tree_ends : exists f0 l doc, forall f, (f0 <= f)%nat -> schemas_for tree f [] [TNamed 0; TSlice (TNamed 1)] = Some (l, doc).
Proof. apply (C124_ends tree [k0; k1] tree_fin tree_unnamed). Qed.
Example tree_schema : exists doc, schemas_for tree 20 [] [TNamed 0] = Some ([ref_to k0], doc) /\
  exists props, reg_get doc k0 = Some (object (props, [text "value"; text "Size"; text "Attr"])) /\
  prop_get props (text "Next") = Some (ref_to k0) /\ prop_get props (text "secret") = None /\ prop_get props (text "Size") = Some (ranged (Some 0) (Some 255)) /\
  prop_get props (text "Attr") = Some (Schema None (Some JTObject) [] [] None 0 None None (Some (ref_to k1)) (Some (ref_to k0))).
Proof. eexists. split; [vm_compute; reflexivity|]. eexists. split; [vm_compute; reflexivity|]. split; [vm_compute; reflexivity|split; [vm_compute; reflexivity|split; vm_compute; reflexivity]]. Qed.
(** What is sent for a type validates, whatever the document. *)
Example tree_valid f l doc j : schemas_for tree f [] [TNamed 0] = Some (l, doc) -> json_of tree false (TNamed 0) j -> exists s, l = [s] /\ valid doc s j.
Proof.
  intros E J. pose proof E as E'. cbn [schemas_for] in E'. destruct (schema_for tree f [] (TNamed 0)) as [(s, r)|]; [|discriminate]. injection E' as <- <-. exists s. split; [reflexivity|].
  apply (C125_valid_partial tree tree_plain tree_names f [TNamed 0] [s] r 0 (TNamed 0) s j E ltac:(repeat constructor) eq_refl eq_refl J).
Qed.

(** ** Where the schema is wrong *)
Definition flat_env (id : nat) : decl := {| d_pkg := text "example.com/x"; d_name := text "S"; d_under := TString |}.
Definition schema_of (t : ty) : option schema := match schema_for flat_env 20 [] t with Some (s, []) => Some s | _ => None end.
Lemma not_type doc t p r i m lo hi pn ad j : ~ type_ok t j -> ~ valid doc (Schema None (Some t) p r i m lo hi pn ad) j.
Proof. intros N V. inversion V as [? ? ? ? ? ? ? ? ? ? ? H1 H2]; subst. apply N, H2. reflexivity. Qed.
(** Nil pointers, slices and maps are sent as null, which no schema allows. *)
Theorem C125_null_refuted : forall t, In t [TPtr TString; TSlice TString; TMap TString TString] -> json_of flat_env true t JNull /\ exists s, schema_of t = Some s /\ forall doc, ~ valid doc s JNull.
Proof.
  intros t [<-|[<-|[<-|[]]]]; (split; [constructor; reflexivity|]); (eexists; split; [vm_compute; reflexivity|]); intros doc; apply not_type; exact (fun X => X).
Qed.
(** Bytes are sent as a string, and the schema has an array of integers. *)
Theorem C125_bytes_refuted s : json_of flat_env false (TSlice (TInt false 8)) (JStr s) /\ exists sc, schema_of (TSlice (TInt false 8)) = Some sc /\ forall doc, ~ valid doc sc (JStr s).
Proof. split; [apply jo_bytes; reflexivity|]. eexists. split; [vm_compute; reflexivity|]. intros doc. apply not_type. exact (fun X => X). Qed.
(** The keys of a map by numbers are sent as strings, and the schema of property names wants integers. *)
Theorem C125_map_refuted : json_of flat_env false (TMap (TInt true 0) TString) (JObj [(text "1", JStr (text "a"))]) /\
  exists sc, schema_of (TMap (TInt true 0) TString) = Some sc /\ forall doc, ~ valid doc sc (JObj [(text "1", JStr (text "a"))]).
Proof.
  split; [repeat constructor|]. eexists. split; [vm_compute; reflexivity|]. intros doc V. inversion V as [? ? ? ? ? ? ? ? ? ? ? H1 H2 H3 H4 H5 H6]; subst.
  refine (not_type _ _ _ _ _ _ _ _ _ _ _ _ (H6 _ _ _ _ eq_refl (or_introl eq_refl) eq_refl)). exact (fun X => X).
Qed.
(** An embedded struct with a name of its own is sent under that name; the schema wants its fields beside it. *)
Definition named_embed : ty := TStruct [Embed true (text "Inner") (text "inner") [Field true (text "A") [] TString]].
Theorem C125_embedded_refuted a : json_of flat_env false named_embed (JObj [(text "inner", JObj [(text "A", JStr a)])]) /\
  exists sc, schema_of named_embed = Some sc /\ forall doc, ~ valid doc sc (JObj [(text "inner", JObj [(text "A", JStr a)])]).
Proof.
  split.
  - apply jo_struct. change (text "inner") with (ff_name {| ff_depth := 0; ff_name := text "inner"; ff_omit := false; ff_string := false; ff_type := TStruct [Field true (text "A") [] TString] |}).
    apply (jf_field flat_env false {| ff_depth := 0; ff_name := text "inner"; ff_omit := false; ff_string := false; ff_type := TStruct [Field true (text "A") [] TString] |} [] _ []); [reflexivity| |constructor].
    apply jo_struct. apply (jf_field flat_env false {| ff_depth := 0; ff_name := text "A"; ff_omit := false; ff_string := false; ff_type := TString |} [] _ []); [reflexivity|constructor|constructor].
  - eexists. split; [vm_compute; reflexivity|]. intros doc V. inversion V as [? ? ? ? ? ? ? ? ? ? ? H1 H2 H3]; subst. specialize (H3 _ _ eq_refl (or_introl eq_refl)). cbn in H3. destruct H3 as [X|[]]. discriminate X.
Qed.
(** A field that hides one of an embedded struct has the schema of the hidden one. *)
Definition hiding : ty := TStruct [Field true (text "A") [] (TInt true 0); Embed true (text "Inner") [] [Field true (text "A") [] TString]].
Theorem C125_hidden_refuted z : in_int true 0 z -> json_of flat_env false hiding (JObj [(text "A", JInt z)]) /\ exists sc, schema_of hiding = Some sc /\ forall doc, ~ valid doc sc (JObj [(text "A", JInt z)]).
Proof.
  intros Z. split.
  - apply jo_struct. apply (jf_field flat_env false {| ff_depth := 0; ff_name := text "A"; ff_omit := false; ff_string := false; ff_type := TInt true 0 |} [] _ []); [reflexivity|constructor; exact Z|constructor].
  - eexists. split; [vm_compute; reflexivity|]. intros doc V. inversion V as [? ? ? ? ? ? ? ? ? ? ? H1 H2 H3 H4]; subst.
    refine (not_type _ _ _ _ _ _ _ _ _ _ _ _ (H4 _ _ _ _ eq_refl (or_introl eq_refl) eq_refl)). exact (fun X => X).
Qed.
(** A number tagged to be sent as a string has the schema of a number. *)
Definition quoted : ty := TStruct [Field true (text "A") (text "a,string") (TInt true 0)].
Theorem C125_quoted_refuted s : json_of flat_env false quoted (JObj [(text "a", JStr s)]) /\ exists sc, schema_of quoted = Some sc /\ forall doc, ~ valid doc sc (JObj [(text "a", JStr s)]).
Proof.
  split.
  - apply jo_struct. apply (jf_string flat_env false {| ff_depth := 0; ff_name := text "a"; ff_omit := false; ff_string := true; ff_type := TInt true 0 |} [] (JInt 0) s []); [reflexivity|constructor; vm_compute; split; congruence|constructor].
  - eexists. split; [vm_compute; reflexivity|]. intros doc V. inversion V as [? ? ? ? ? ? ? ? ? ? ? H1 H2 H3 H4]; subst.
    refine (not_type _ _ _ _ _ _ _ _ _ _ _ _ (H4 _ _ _ _ eq_refl (or_introl eq_refl) eq_refl)). exact (fun X => X).
Qed.
(** An embedded struct that is not sent at all has required fields. *)
Definition left_out : ty := TStruct [Embed true (text "Inner") (text "-") [Field true (text "A") [] TString]].
Theorem C125_left_out_refuted : json_of flat_env false left_out (JObj []) /\ exists sc, schema_of left_out = Some sc /\ forall doc, ~ valid doc sc (JObj []).
Proof.
  split; [apply jo_struct; constructor|]. eexists. split; [vm_compute; reflexivity|]. intros doc V. inversion V as [? ? ? ? ? ? ? ? ? ? ? H1 H2 H3]; subst. exact (H3 _ _ eq_refl (or_introl eq_refl)).
Qed.
(** Two types with the same name in packages with the same last element, or two local types with the same name, share one schema: that of the first. *)
Definition clash (id : nat) : decl :=
  match id with
  | O => {| d_pkg := text "example.com/a/shop"; d_name := text "Price"; d_under := TString |}
  | _ => {| d_pkg := text "example.com/b/shop"; d_name := text "Price"; d_under := TInt true 0 |}
  end.
Theorem C125_names_refuted z : in_int true 0 z -> json_of clash false (TNamed 1) (JInt z) /\ exists s0 s1 doc, schemas_for clash 20 [] [TNamed 0; TNamed 1] = Some ([s0; s1], doc) /\ ~ valid doc s1 (JInt z).
Proof.
  intros Z. split; [constructor; constructor; exact Z|]. eexists. eexists. eexists. split; [vm_compute; reflexivity|]. intros V. inversion V as [? ? ? ? ? ? ? ? ? ? ? H1]; subst.
  destruct (H1 _ eq_refl) as (s & E & V'). vm_compute in E. injection E as <-. refine (not_type _ _ _ _ _ _ _ _ _ _ _ _ V'). exact (fun X => X).
Qed.
(** The name local types get in reflect is cut at the middle dot. *)
Example local_names : cleanup (text "T" ++ [194; 183] ++ text "1") = text "T" /\ cleanup (text "T" ++ [194; 183] ++ text "2") = text "T".
Proof. split; vm_compute; reflexivity. Qed.
Print Assumptions C124_references.
Print Assumptions C124_ends.
Print Assumptions C125_valid_partial.
