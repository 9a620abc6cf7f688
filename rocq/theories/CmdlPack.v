(** Property C100: options structs on the command line of a linked function. *)
From Coq Require Import String.
From Verif Require Import GoBase BaseLemmas GoText CmdlModel CmdlSpec CmdlProps.
Local Open Scope Z_scope.
Local Open Scope list_scope.

(** Searching for an option, which starts with a comma. *)
Lemma contains_comma w r p : ~ In comma w -> contains (w ++ r) (comma :: p) = contains r (comma :: p).
Proof.
  induction w as [|c w IH]; intros N; cbn [app]; [reflexivity|]. cbn [contains].
  rewrite prefix_false by (intros ->; apply N; left; reflexivity). cbn [orb]. apply IH. intros I. apply N. right. exact I.
Qed.
Lemma contains_no w c p : ~ In c w -> contains w (c :: p) = false.
Proof.
  induction w as [|d w IH]; intros N; cbn [contains]; [reflexivity|]. rewrite prefix_false by (intros ->; apply N; left; reflexivity). apply IH. intros I. apply N. right. exact I.
Qed.
Lemma member_false c w : ~ In c w -> member c w = false.
Proof. intros N. unfold member. apply not_true_iff_false. rewrite existsb_exists. intros (x & I & Q). apply Z.eqb_eq in Q. subst. exact (N I). Qed.
Lemma member_true c w : In c w -> member c w = true.
Proof. intros I. unfold member. apply existsb_exists. exists c. split; [exact I|apply Z.eqb_refl]. Qed.
Definition opts (o : bool) : bytes := if o then text ",omitempty" else [].
Lemma cut_opts w o : ~ In comma w -> fst (fst (cut (w ++ opts o) comma)) = w.
Proof. intros N. destruct o; unfold opts; [change (text ",omitempty") with (comma :: text "omitempty"); rewrite cut_app by exact N; reflexivity|rewrite app_nil_r, cut_none by exact N; reflexivity]. Qed.
Section Pack.
  Context (sprint_other : cval -> bytes) (sprintf_other : bytes -> cval -> bytes).
  Notation sprint := (sprint sprint_other).
  Notation sprintf := (sprintf sprint_other sprintf_other).
  Notation add_field := (add_field sprint_other sprintf_other).
  Notation add := (add sprint_other sprintf_other).
  Definition put_in (i : input) (ws es : list bytes) (d : bytes) : input := {| iargs := iargs i ++ ws; ienv := ienv i ++ es; iwd := d |}.
  Lemma sprintf_v pre post v : ~ In percent pre -> ~ In percent post -> sprintf (pre ++ text "%v" ++ post) v = pre ++ sprint v ++ post.
  Proof.
    intros A B. unfold CmdlModel.sprintf. change (text "%v" ++ post) with (percent :: 118 :: post). rewrite cut_app by exact A. rewrite (member_false percent post B). reflexivity.
  Qed.
  Lemma options_none w o : ~ In comma w -> contains (w ++ opts o) (text ",env") = false /\ contains (w ++ opts o) (text ",dir") = false /\
    contains (w ++ opts o) (text ",omitzero") = false /\ contains (w ++ opts o) (text ",omitempty") = o.
  Proof.
    intros N. change (text ",env") with (comma :: text "env"). change (text ",dir") with (comma :: text "dir"). change (text ",omitzero") with (comma :: text "omitzero"). change (text ",omitempty") with (comma :: text "omitempty").
    rewrite !contains_comma by exact N. destruct o; repeat split.
  Qed.
  Lemma add_form i f v : form_ok f v ->
    add_field i (form_tag f) v = put_in i (form_words sprint f v) (form_env sprint f v) (form_dir sprint (iwd i) (f, v)).
  Proof.
    assert (NIL : put_in i [] [] (iwd i) = i) by (destruct i; unfold put_in; cbn; rewrite !app_nil_r; reflexivity).
    destruct f as [w|pre post o|w o|name| |]; cbn [form_ok form_words form_env form_dir fst].
    - intros ((NS & NP & NC) & ND & b & ->). cbn [form_tag]. unfold CmdlModel.add_field. rewrite beq_false by exact ND.
      destruct (options_none w false NC) as (E & D & Z0 & O). unfold opts in *. rewrite app_nil_r in *. rewrite E, D, Z0, O.
      rewrite (contains_no w percent (text "v") NP : contains w (text "%v") = false). cbn [negb andb orb is_bool]. rewrite cut_none by exact NC. cbn [fst].
      destruct b; cbn [is_zero negb]; [|rewrite NIL; reflexivity].
      unfold add_parts. rewrite split_word by exact NS. cbn [fold_left]. rewrite (member_false percent w NP). unfold add_arg, put_in. rewrite app_nil_r. reflexivity.
    - intros ((NS & NP & NC) & (NS' & NP' & NC')).
      assert (NCC : ~ In comma (pre ++ text "%v" ++ post)). { intros I. apply in_app_or in I. destruct I as [I|I]; [exact (NC I)|]. apply in_app_or in I. destruct I as [[Q|[Q|[]]]|I]; [discriminate|discriminate|exact (NC' I)]. }
      assert (NSS : ~ In space (pre ++ text "%v" ++ post)). { intros I. apply in_app_or in I. destruct I as [I|I]; [exact (NS I)|]. apply in_app_or in I. destruct I as [[Q|[Q|[]]]|I]; [discriminate|discriminate|exact (NS' I)]. }
      replace (form_tag (Value pre post o)) with ((pre ++ text "%v" ++ post) ++ opts o) by (rewrite <- !app_assoc; reflexivity).
      remember (pre ++ text "%v" ++ post) as t. unfold CmdlModel.add_field.
      rewrite (beq_false (t ++ opts o) (text "-")). 2:{ intros Q. assert (I : In percent (text "-")) by (rewrite <- Q, Heqt; apply in_or_app; left; apply in_or_app; right; left; reflexivity). destruct I as [I|[]]; discriminate. }
      destruct (options_none t o NCC) as (E & D & Z0 & O). rewrite E, D, Z0, O.
      replace (contains (t ++ opts o) (text "%v")) with true. 2:{ symmetry. apply contains_iff. exists pre, (post ++ opts o). rewrite Heqt, <- !app_assoc. reflexivity. }
      cbn [negb andb]. rewrite !orb_false_r. fold (omitted o v). destruct (omitted o v); [rewrite NIL; reflexivity|].
      rewrite cut_opts by exact NCC. unfold add_parts. rewrite split_word by exact NSS. cbn [fold_left].
      rewrite (member_true percent t) by (rewrite Heqt; apply in_or_app; right; left; reflexivity). rewrite Heqt, sprintf_v by assumption. unfold add_arg, put_in. rewrite app_nil_r. reflexivity.
    - intros (NS & NP & NC).
      assert (NCC : ~ In comma (w ++ text " %v")). { intros I. apply in_app_or in I. destruct I as [I|[Q|[Q|[Q|[]]]]]; [exact (NC I)|discriminate|discriminate|discriminate]. }
      replace (form_tag (Apart w o)) with ((w ++ text " %v") ++ opts o) by (rewrite <- !app_assoc; reflexivity).
      remember (w ++ text " %v") as t. unfold CmdlModel.add_field.
      rewrite (beq_false (t ++ opts o) (text "-")). 2:{ intros Q. assert (I : In percent (text "-")) by (rewrite <- Q, Heqt; apply in_or_app; left; apply in_or_app; right; right; left; reflexivity). destruct I as [I|[]]; discriminate. }
      destruct (options_none t o NCC) as (E & D & Z0 & O). rewrite E, D, Z0, O.
      replace (contains (t ++ opts o) (text "%v")) with true. 2:{ symmetry. apply contains_iff. exists (w ++ [space]), (opts o). rewrite Heqt, <- !app_assoc. reflexivity. }
      cbn [negb andb]. rewrite !orb_false_r. fold (omitted o v). destruct (omitted o v); [rewrite NIL; reflexivity|].
      rewrite cut_opts by exact NCC. unfold add_parts. rewrite Heqt. change (w ++ text " %v") with (w ++ space :: text "%v"). rewrite split_app by exact NS. change (split (text "%v") space) with [text "%v"]. cbn [fold_left].
      rewrite (member_false percent w NP). change (member percent (text "%v")) with true. cbv iota.
      pose proof (sprintf_v [] [] v ltac:(intros []) ltac:(intros [])) as P. cbn [app] in P. rewrite !app_nil_r in P. rewrite P. unfold add_arg, put_in. cbn [iargs ienv iwd]. rewrite <- app_assoc, app_nil_r. reflexivity.
    - intros ((NS & NP & NC) & B). cbn [form_tag]. unfold CmdlModel.add_field. change (text ",env") with (comma :: text "env").
      rewrite (beq_false (name ++ comma :: text "env") (text "-")). 2:{ intros Q. assert (I : In comma (text "-")) by (rewrite <- Q; apply in_or_app; right; left; reflexivity). destruct I as [I|[]]; discriminate. }
      change (text ",dir") with (comma :: text "dir"). change (text ",omitzero") with (comma :: text "omitzero"). change (text ",omitempty") with (comma :: text "omitempty").
      rewrite !contains_comma by exact NC. rewrite B, !andb_false_r. change (contains (comma :: text "env") (comma :: text "omitempty") || contains (comma :: text "env") (comma :: text "omitzero") || false) with false. cbn [andb].
      change (contains (comma :: text "env") (comma :: text "env")) with true. cbv iota. rewrite cut_app by exact NC. cbn [fst]. unfold add_env, put_in. rewrite app_nil_r. reflexivity.
    - intros B. cbn [form_tag]. unfold CmdlModel.add_field. rewrite B, andb_false_r. change (beq (text ",dir") (text "-")) with false. change (contains (text ",dir") (text ",omitempty") || contains (text ",dir") (text ",omitzero") || false) with false. cbn [andb].
      change (contains (text ",dir") (text ",env")) with false. change (contains (text ",dir") (text ",dir")) with true. cbv iota. unfold set_wd, put_in. rewrite !app_nil_r. reflexivity.
    - intros _. cbn [form_tag]. change (CmdlModel.add_field sprint_other sprintf_other i (text "-") v) with i. rewrite NIL. reflexivity.
  Qed.
  (** The fields of a struct, in order: words on the command line, variables in the environment, the
      directory. *)
  Theorem C100_fields_partial (fs : list (bytes * form * cval)) : Forall (fun x => form_ok (snd (fst x)) (snd x)) fs ->
    add nothing (CStruct (map (fun x => (exported_field (fst (fst x)) (form_tag (snd (fst x))), snd x)) fs)) =
    Some {| iargs := concat (map (fun x => form_words sprint (snd (fst x)) (snd x)) fs);
            ienv := concat (map (fun x => form_env sprint (snd (fst x)) (snd x)) fs);
            iwd := fold_left (form_dir sprint) (map (fun x => (snd (fst x), snd x)) fs) [] |}.
  Proof.
    intros F.
    assert (G : forall i, add i (CStruct (map (fun x => (exported_field (fst (fst x)) (form_tag (snd (fst x))), snd x)) fs)) =
      Some (put_in i (concat (map (fun x => form_words sprint (snd (fst x)) (snd x)) fs)) (concat (map (fun x => form_env sprint (snd (fst x)) (snd x)) fs))
             (fold_left (form_dir sprint) (map (fun x => (snd (fst x), snd x)) fs) (iwd i)))).
    { cbn [CmdlModel.add]. induction F as [|[[n f] v] fs OK _ IH]; intros i; cbn [map concat fold_left fst snd].
      - destruct i. unfold put_in. cbn. rewrite !app_nil_r. reflexivity.
      - cbn [exported_field cexported canonymous negb andb ctag]. cbn [fst snd] in OK. rewrite (add_form i f v OK). rewrite IH. unfold put_in. cbn [iargs ienv iwd]. rewrite !app_assoc. reflexivity. }
    rewrite G. reflexivity.
  Qed.
  Example C100_case : add nothing (CStruct [(exported_field (text "A") (text "--all"), CBool true); (exported_field (text "N") (text "--name=%v,omitempty"), CStr []);
      (exported_field (text "O") (text "-o %v"), CStr (text "x y")); (exported_field (text "K") (text "KEY,env"), CInt 3); (exported_field (text "D") (text ",dir"), CStr (text "/tmp"))]) =
    Some {| iargs := [text "--all"; text "-o"; text "x y"]; ienv := [text "KEY=3"]; iwd := text "/tmp" |}.
  Proof. reflexivity. Qed.
  (** A field without a tag becomes an empty word, whatever its value. *)
  Theorem C100_untagged_refuted i name v : is_bool v = false -> add i (CStruct [(exported_field name [], v)]) = Some (add_arg i []).
  Proof. intros B. cbn [CmdlModel.add exported_field cexported canonymous negb andb ctag]. unfold CmdlModel.add_field. rewrite B. reflexivity. Qed.
  (** The invert option makes no difference: the flag is there when the field is true. *)
  Theorem C100_invert_refuted i name w b : plain w -> w <> text "-" ->
    add i (CStruct [(exported_field name (w ++ text ",invert"), CBool b)]) = Some (if b then add_arg i w else i).
  Proof.
    intros (NS & NP & NC) ND. cbn [CmdlModel.add exported_field cexported canonymous negb andb ctag]. f_equal. unfold CmdlModel.add_field. change (text ",invert") with (comma :: text "invert").
    rewrite (beq_false (w ++ comma :: text "invert") (text "-")). 2:{ intros Q. assert (I : In comma (text "-")) by (rewrite <- Q; apply in_or_app; right; left; reflexivity). destruct I as [I|[]]; discriminate. }
    change (text ",dir") with (comma :: text "dir"). change (text ",env") with (comma :: text "env"). change (text ",omitzero") with (comma :: text "omitzero"). change (text ",omitempty") with (comma :: text "omitempty").
    rewrite !contains_comma by exact NC.
    replace (contains (w ++ comma :: text "invert") (text "%v")) with false.
    2:{ symmetry. apply contains_no. intros I. apply in_app_or in I. destruct I as [I|I]; [exact (NP I)|]. cbn in I. repeat (destruct I as [I|I]; [discriminate|]). destruct I. }
    change (contains (comma :: text "invert") (comma :: text "omitempty")) with false. change (contains (comma :: text "invert") (comma :: text "omitzero")) with false.
    change (contains (comma :: text "invert") (comma :: text "env")) with false. change (contains (comma :: text "invert") (comma :: text "dir")) with false. cbn [orb andb negb is_bool is_zero].
    destruct b; cbn [negb]; [|reflexivity]. rewrite cut_app by exact NC. cbn [fst]. unfold add_parts. rewrite split_word by exact NS. cbn [fold_left]. rewrite (member_false percent w NP). reflexivity.
  Qed.
End Pack.
Print Assumptions C100_fields_partial.
Print Assumptions C100_untagged_refuted.
Print Assumptions C100_invert_refuted.
