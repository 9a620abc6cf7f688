(** Properties C98 to C100: the command line of a linked function. *)
From Coq Require Import String.
From Verif Require Import GoBase BaseLemmas GoText CmdlModel CmdlSpec.
Local Open Scope Z_scope.
Local Open Scope list_scope.

(** ** Texts *)
Lemma digits_text f n acc s : (1 <= f)%nat -> 0 <= n < 10 ^ Z.of_nat f -> digits (JrpcModel.digits_n f n acc) 0 s = digits acc n true.
Proof.
  revert n acc. induction f as [|f IH]; intros n acc F N; [lia|]. cbn [JrpcModel.digits_n].
  assert (D : forall a b, digits ((48 + n mod 10) :: acc) a b = digits acc (a * 10 + n mod 10) true).
  { intros a b. cbn [digits]. pose proof (Z.mod_pos_bound n 10 ltac:(lia)).
    replace ((48 <=? 48 + n mod 10) && (48 + n mod 10 <=? 57)) with true by (symmetry; apply andb_true_intro; split; apply Z.leb_le; lia). f_equal; lia. }
  destruct (n <? 10) eqn:E; [apply Z.ltb_lt in E|apply Z.ltb_ge in E].
  - rewrite D. f_equal. rewrite Z.mod_small; lia.
  - rewrite IH.
    + rewrite D. f_equal. pose proof (Z.div_mod n 10 ltac:(lia)). lia.
    + destruct f; [|lia]. change (10 ^ Z.of_nat 1) with 10 in N. lia.
    + rewrite Nat2Z.inj_succ, Z.pow_succ_r in N by lia. split; [apply Z.div_pos; lia|apply Z.div_lt_upper_bound; lia].
Qed.
Lemma digits_uint n r : 0 <= n < 2 ^ 64 -> (match r with c :: _ => (48 <=? c) && (c <=? 57) | [] => false end) = false -> digits (JrpcModel.uint_text n ++ r) 0 false = Some (n, r).
Proof.
  intros N R. unfold JrpcModel.uint_text.
  assert (A : forall f n acc r, JrpcModel.digits_n f n acc ++ r = JrpcModel.digits_n f n (acc ++ r)).
  { induction f as [|f IH]; intros m acc r'; cbn [JrpcModel.digits_n]; [reflexivity|]. destruct (m <? 10); [reflexivity|apply IH]. }
  rewrite A, digits_text; [|lia|change (10 ^ Z.of_nat 20) with 100000000000000000000; change (2 ^ 64) with 18446744073709551616 in N; lia].
  cbn [app]. destruct r as [|c r]; cbn [digits]; [reflexivity|]. rewrite R. reflexivity.
Qed.
Lemma uint_digits n : 0 <= n < 2 ^ 64 -> Forall (fun c => 48 <= c <= 57) (JrpcModel.uint_text n) /\ JrpcModel.uint_text n <> [].
Proof.
  intros _. unfold JrpcModel.uint_text.
  assert (G : forall f n acc, Forall (fun c => 48 <= c <= 57) acc -> Forall (fun c => 48 <= c <= 57) (JrpcModel.digits_n f n acc)).
  { induction f as [|f IH]; intros m acc F; cbn [JrpcModel.digits_n]; [exact F|]. pose proof (Z.mod_pos_bound m 10 ltac:(lia)).
    assert (F' : Forall (fun c => 48 <= c <= 57) ((48 + m mod 10) :: acc)) by (constructor; [lia|exact F]). destruct (m <? 10); [exact F'|apply IH; exact F']. }
  split; [apply G; constructor|].
  assert (NE : forall f n c acc, JrpcModel.digits_n f n (c :: acc) <> []). { induction f as [|f IH]; intros m c acc; cbn [JrpcModel.digits_n]; [discriminate|]. destruct (m <? 10); [discriminate|apply IH]. }
  assert (NE1 : forall f n acc, JrpcModel.digits_n (S f) n acc <> []) by (intros f m acc; cbn [JrpcModel.digits_n]; destruct (m <? 10); [discriminate|apply NE]).
  apply NE1.
Qed.
Lemma prefix_false c s d p : c <> d -> has_prefix (c :: s) (d :: p) = false.
Proof. intros N. cbn. replace (d =? c) with false by (symmetry; apply Z.eqb_neq; congruence). reflexivity. Qed.

(** ** C99: placeholders *)
Lemma scan_next args n v : nth_error args n = Some v -> scan args n (text "%v") = Some (v, S n).
Proof.
  intros N. unfold scan, scan_where. change (beq (text "%v") []) with false. change (beq (text "%v") (text "%v")) with true. cbn [andb].
  assert (L : (n < length args)%nat) by (apply nth_error_Some; congruence). apply Nat.ltb_lt in L. rewrite L, N. reflexivity.
Qed.
Definition index_text (k : Z) : bytes := text "%[" ++ JrpcModel.uint_text k ++ text "]v".
Lemma sscanf_digit c r : 48 <= c <= 57 -> sscanf_index (c :: r) =
  match digits (c :: r) 0 false with Some (n, r) => if has_prefix r (text "]v") then Some (1 * n) else None | None => None end.
Proof.
  intros C. unfold sscanf_index. assert (E : c = 48 \/ c = 49 \/ c = 50 \/ c = 51 \/ c = 52 \/ c = 53 \/ c = 54 \/ c = 55 \/ c = 56 \/ c = 57) by lia.
  repeat (destruct E as [->|E]; [reflexivity|]). subst c. reflexivity.
Qed.
Lemma scan_where_index nargs n k : 1 <= k < 2 ^ 63 -> scan_where nargs n (index_text k) =
  if Z.of_nat nargs <? Z.of_nat n + k then None else Some (At (n + Z.to_nat k - 1), n).
Proof.
  intros K. unfold scan_where. change (beq (index_text k) []) with false. change (beq (index_text k) (text "%v")) with false.
  rewrite (proj2 (has_suffix_iff (index_text k) (text "]v"))) by (exists (text "%[" ++ JrpcModel.uint_text k); unfold index_text; rewrite <- app_assoc; reflexivity).
  rewrite (proj2 (has_prefix_iff (index_text k) (text "%["))) by (eexists; reflexivity). cbn [andb].
  change (skipn 2 (index_text k)) with (JrpcModel.uint_text k ++ text "]v").
  assert (B : 0 <= k < 2 ^ 64) by (change (2 ^ 64) with (2 * 2 ^ 63); lia).
  destruct (uint_digits k B) as (F & NE). pose proof (digits_uint k (text "]v") B eq_refl) as D.
  destruct (JrpcModel.uint_text k) as [|c u]; [congruence|]. apply Forall_inv in F. cbn [app] in *.
  rewrite (sscanf_digit c _ F), D. change (has_prefix (text "]v") (text "]v")) with true. cbv iota. rewrite Z.mul_1_l.
  replace (k <? 1) with false by (symmetry; apply Z.ltb_ge; lia). reflexivity.
Qed.
(** %v gives the arguments in order, and an error when there are no more. *)
Theorem C99_in_order args n : scan args n (text "%v") = match nth_error args n with Some v => Some (v, S n) | None => None end.
Proof.
  destruct (nth_error args n) as [v|] eqn:Q; [exact (scan_next args n v Q)|]. apply nth_error_None in Q.
  unfold scan, scan_where. change (beq (text "%v") []) with false. change (beq (text "%v") (text "%v")) with true. cbn [andb].
  replace (Nat.ltb n (length args)) with false by (symmetry; apply Nat.ltb_ge; exact Q). reflexivity.
Qed.
(** %[k]v gives the k-th argument as long as no %v has been used, and an error when there is none. *)
Theorem C99_index_partial args k : 1 <= k < 2 ^ 63 ->
  scan args 0 (index_text k) = match nth_error args (Z.to_nat (k - 1)) with Some v => Some (v, O) | None => None end.
Proof.
  intros K. unfold scan. rewrite scan_where_index by exact K. replace (0 + Z.to_nat k - 1)%nat with (Z.to_nat (k - 1)) by lia.
  destruct (Z.of_nat (length args) <? Z.of_nat 0 + k) eqn:E; [apply Z.ltb_lt in E|reflexivity].
  rewrite (proj2 (nth_error_None args (Z.to_nat (k - 1)))) by lia. reflexivity.
Qed.
(** After n uses of %v it is counted from there: %[k]v is then the (n + k)-th. *)
Theorem C99_index_refuted args n k : 1 <= k < 2 ^ 63 ->
  scan args n (index_text k) = match nth_error args (n + Z.to_nat k - 1) with Some v => Some (v, n) | None => None end.
Proof.
  intros K. unfold scan. rewrite scan_where_index by exact K.
  destruct (Z.of_nat (length args) <? Z.of_nat n + k) eqn:E; [apply Z.ltb_lt in E|reflexivity].
  rewrite (proj2 (nth_error_None args _)) by lia. reflexivity.
Qed.
Example C99_case : scan [CStr [97]; CStr [98]] 0 (text "%[2]v") = Some (CStr [98], O) /\ scan [CStr [97]; CStr [98]] 1 (text "%[1]v") = Some (CStr [98], 1%nat).
Proof. split; reflexivity. Qed.
(** A name gives the first field of that name in the struct arguments. *)
Lemma find_field_skip fs name f v r : (forall g u, In (g, u) fs -> cname g <> name) -> cname f = name -> find_field (fs ++ (f, v) :: r) name = Some v.
Proof.
  intros A N. induction fs as [|[g u] fs IH]; cbn [find_field app]; [rewrite N, beq_refl; reflexivity|].
  rewrite (beq_false (cname g) name) by (apply (A g u); left; reflexivity). apply IH. intros h w I. apply (A h w). right. exact I.
Qed.
Lemma find_field_none fs name : (forall g u, In (g, u) fs -> cname g <> name) -> find_field fs name = None.
Proof.
  intros A. induction fs as [|[g u] fs IH]; cbn [find_field]; [reflexivity|].
  rewrite (beq_false (cname g) name) by (apply (A g u); left; reflexivity). apply IH. intros h w I. apply (A h w). right. exact I.
Qed.
Lemma find_named_at before fs f v after rest name : (forall gs g u, In (CStruct gs) before -> In (g, u) gs -> cname g <> name) ->
  (forall g u, In (g, u) fs -> cname g <> name) -> cname f = name -> find_named (before ++ CStruct (fs ++ (f, v) :: after) :: rest) name = Some v.
Proof.
  intros B A N. induction before as [|b before IH]; cbn [find_named app]; [rewrite (find_field_skip fs name f v after A N); reflexivity|].
  assert (R : find_named (before ++ CStruct (fs ++ (f, v) :: after) :: rest) name = Some v) by (apply IH; intros gs g u I; apply (B gs g u); right; exact I).
  destruct b; try exact R. rewrite find_field_none; [exact R|]. intros g u I. exact (B fs0 g u (or_introl eq_refl) I).
Qed.
Definition a_name (name : bytes) : Prop := name <> [] /\ plain name /\ ~ In 123 name /\ ~ In 125 name.
Lemma name_where nargs n name : a_name name -> scan_where nargs n name = Some (Named name, n).
Proof.
  intros (NE & (_ & NP & _) & _). unfold scan_where. destruct name as [|c r]; [congruence|]. change (beq (c :: r) []) with false.
  assert (C : c <> 37) by (intros ->; apply NP; left; reflexivity).
  replace (beq (c :: r) (text "%v")) with false. 2:{ symmetry. apply beq_false. intros Q. injection Q as -> _. congruence. }
  change (has_prefix (c :: r) (text "%[")) with ((37 =? c) && has_prefix r [91]). replace (37 =? c) with false by (symmetry; apply Z.eqb_neq; congruence). reflexivity.
Qed.
Theorem C99_named args n name before fs f v after rest : a_name name -> args = before ++ CStruct (fs ++ (f, v) :: after) :: rest ->
  (forall gs g u, In (CStruct gs) before -> In (g, u) gs -> cname g <> name) -> (forall g u, In (g, u) fs -> cname g <> name) -> cname f = name ->
  scan args n name = Some (v, n).
Proof. intros NM -> B A N. unfold scan. rewrite (name_where _ n name NM). rewrite (find_named_at before fs f v after rest name B A N). reflexivity. Qed.

(** ** C98 *)
Section Line.
  Context (sprint_other : cval -> bytes) (sprintf_other : bytes -> cval -> bytes).
  Notation add := (add sprint_other sprintf_other).
  Notation components := (components sprint_other sprintf_other).
  Notation started := (started sprint_other sprintf_other).
  Definition with_args (i : input) (ws : list bytes) : input := {| iargs := iargs i ++ ws; ienv := ienv i; iwd := iwd i |}.
  Lemma with_nil i : with_args i [] = i.
  Proof. destruct i. unfold with_args. cbn. rewrite app_nil_r. reflexivity. Qed.
  Lemma with_app i a b : with_args (with_args i a) b = with_args i (a ++ b).
  Proof. unfold with_args. cbn. rewrite app_assoc. reflexivity. Qed.
  Lemma add_gives v ws : gives v ws -> forall i, add i v = Some (with_args i ws).
  Proof.
    induction 1; intros i; try reflexivity; try (cbn; rewrite with_nil; reflexivity).
    - exact (IHgives i).
    - cbn [CmdlModel.add]. rewrite IHgives1. specialize (IHgives2 (with_args i ws)). cbn [CmdlModel.add] in IHgives2. rewrite IHgives2, with_app. reflexivity.
  Qed.
  Lemma written_no_space c : is_component c -> ~ In space (written c).
  Proof.
    destruct c as [w| |k|name]; cbn [is_component written].
    - intros (N & _). exact N.
    - intros _ [Q|[Q|[]]]; discriminate.
    - intros K I. destruct (uint_digits k ltac:(change (2 ^ 64) with (2 * 2 ^ 63); lia)) as (F & _).
      apply in_app_or in I. destruct I as [[Q|[Q|[]]]|I]; try discriminate. apply in_app_or in I. destruct I as [I|[Q|[Q|[]]]]; try discriminate.
      rewrite Forall_forall in F. specialize (F _ I). unfold space in F. lia.
    - intros (_ & (N & _) & _) I. apply in_app_or in I. destruct I as [[Q|[]]|I]; [discriminate|]. apply in_app_or in I. destruct I as [I|[Q|[]]]; [exact (N I)|discriminate].
  Qed.
  Lemma trim_none s : (forall b, In b s -> b <> 123 /\ b <> 125) -> trim s (text "{}") = s.
  Proof.
    intros A. unfold trim. assert (M : forall b, In b s -> member b (text "{}") = false).
    { intros b I. destruct (A b I). change (member b (text "{}")) with ((b =? 123) || ((b =? 125) || false)). rewrite (proj2 (Z.eqb_neq b 123)), (proj2 (Z.eqb_neq b 125)) by assumption. reflexivity. }
    rewrite (drop_while_none _ s M). rewrite (drop_while_none _ (rev s)). 2:{ intros b I. apply M. apply in_rev. exact I. } apply rev_involutive.
  Qed.
  Lemma trim_braces name : name <> [] -> ~ In 123 name -> ~ In 125 name -> trim (text "{" ++ name ++ text "}") (text "{}") = name.
  Proof.
    intros NE A B. assert (M : forall b, In b name -> member b (text "{}") = false).
    { intros b I. change (member b (text "{}")) with ((b =? 123) || ((b =? 125) || false)). rewrite (proj2 (Z.eqb_neq b 123)), (proj2 (Z.eqb_neq b 125)); [reflexivity|intros ->; contradiction|intros ->; contradiction]. }
    unfold trim. change (text "{" ++ name ++ text "}") with (123 :: name ++ [125]). cbn [drop_while]. change (member 123 (text "{}")) with true. cbv iota.
    replace (drop_while (fun b => member b (text "{}")) (name ++ [125])) with (name ++ [125]).
    2:{ destruct name as [|c r]; [congruence|]. cbn [app drop_while]. rewrite (M c) by (left; reflexivity). reflexivity. }
    rewrite rev_app_distr. cbn [rev app drop_while]. change (member 125 (text "{}")) with true. cbv iota.
    rewrite drop_while_none; [apply rev_involutive|]. intros b I. apply M. apply in_rev. exact I.
  Qed.
  Lemma components_line args cs ws : Forall is_component cs -> forall n, line args n cs ws -> (n = O \/ ~ exists k, In (Index k) cs) -> index_first cs ->
    forall i, components (map written cs) args n i = Some (with_args i ws).
  Proof.
    intros F n L. revert F. induction L; intros F C X i; cbn [map CmdlModel.components].
    - rewrite with_nil. reflexivity.
    - inversion F; subst. destruct H1 as (_ & P & B). cbn [written]. rewrite P, B. cbn [orb].
      rewrite IHL; [|assumption|destruct C as [->|C]; [left; reflexivity|right; intros (k & I); apply C; exists k; right; exact I]|exact X].
      change (add_arg i w) with (with_args i [w]). rewrite with_app. reflexivity.
    - inversion F; subst. cbn [written]. change (has_prefix (text "%v") (text "%")) with true. cbn [orb]. change (trim (text "%v") (text "{}")) with (text "%v").
      rewrite (scan_next args n v H). rewrite (add_gives v us H0). destruct X as (X1 & X2).
      rewrite IHL; [rewrite with_app; reflexivity|assumption|right; exact X1|exact X2].
    - inversion F; subst. assert (n = O) as -> by (destruct C as [->|C]; [reflexivity|exfalso; apply C; exists k; left; reflexivity]).
      cbn [written]. fold (index_text k). cbn [is_component] in H3.
      replace (has_prefix (index_text k) (text "%")) with true by reflexivity. cbn [orb].
      rewrite trim_none. 2:{ intros b I. destruct (uint_digits k ltac:(change (2 ^ 64) with (2 * 2 ^ 63); lia)) as (FF & _). rewrite Forall_forall in FF.
        unfold index_text in I. apply in_app_or in I. destruct I as [[<-|[<-|[]]]|I]; try (split; discriminate). apply in_app_or in I. destruct I as [I|[<-|[<-|[]]]]; try (split; discriminate). specialize (FF _ I). lia. }
      rewrite (C99_index_partial args k H3), H. rewrite (add_gives v us H0). rewrite IHL; [rewrite with_app; reflexivity|assumption|left; reflexivity|exact X].
    - inversion F; subst. cbn [written]. change (has_prefix (text "{" ++ cname f ++ text "}") (text "%")) with false. change (has_prefix (text "{" ++ cname f ++ text "}") (text "{")) with true. cbn [orb].
      destruct H6 as (NE & PL & NA & NB). rewrite (trim_braces (cname f) NE NA NB).
      rewrite (C99_named args n (cname f) before fs f v after (skipn (S (length before)) args)); [|repeat split; try assumption; apply PL|exact H|exact H0|exact H1|reflexivity].
      rewrite (add_gives v us H3). rewrite IHL; [rewrite with_app; reflexivity|assumption|destruct C as [->|C]; [left; reflexivity|right; intros (k & I); apply C; exists k; right; exact I]|exact X].
  Qed.
  (** The program is started with the words of the tag and the arguments, in the order of the tag,
      each string argument as one word. *)
  Theorem C98_line_partial cmd cs args ws : cmd <> [] -> cs <> [] -> Forall is_component cs -> index_first cs ->
    has_suffix (join (map written cs) space) (text " | json") = false -> join (map written cs) space <> [] -> line args 0 cs ws ->
    started cmd [] (join (map written cs) space) args = Some (cmd, {| iargs := ws; ienv := []; iwd := [] |}).
  Proof.
    intros C NE F X J T L. unfold CmdlModel.started, command. cbn [app]. destruct cmd as [|c cmd]; [congruence|]. rewrite J.
    remember (join (map written cs) space) as tag. destruct tag as [|t tag]; [congruence|]. rewrite Heqtag, split_join.
    - rewrite (components_line args cs ws F 0 L (or_introl eq_refl) X). reflexivity.
    - destruct cs; [congruence|discriminate].
    - apply Forall_map. rewrite Forall_forall in *. intros x I. apply written_no_space. exact (F x I).
  Qed.
  (** ... and with " | json" at the end of the tag. *)
  Theorem C98_json_partial cmd cs args ws : cmd <> [] -> cs <> [] -> Forall is_component cs -> index_first cs ->
    join (map written cs) space <> [] -> line args 0 cs ws ->
    started cmd [] (join (map written cs) space ++ text " | json") args = Some (cmd, {| iargs := ws; ienv := []; iwd := [] |}).
  Proof.
    intros C NE F X T L. unfold CmdlModel.started, command. cbn [app]. destruct cmd as [|c cmd]; [congruence|].
    rewrite (proj2 (has_suffix_iff _ _)) by (eexists; reflexivity). rewrite trim_suffix_app.
    remember (join (map written cs) space) as tag. destruct tag as [|t tag]; [congruence|]. rewrite Heqtag, split_join.
    - rewrite (components_line args cs ws F 0 L (or_introl eq_refl) X). reflexivity.
    - destruct cs; [congruence|discriminate].
    - apply Forall_map. rewrite Forall_forall in *. intros x I. apply written_no_space. exact (F x I).
  Qed.
  Example C98_case : exists ws, line [CStr (text "a; rm -rf *"); CSlice (Some [CInt 7; CPtr None; CStr []])] 0 [Literal (text "cp"); Next; Literal (text "--"); Next] ws /\
    ws = [text "cp"; text "a; rm -rf *"; text "--"; text "7"; []] /\
    started (text "prog") [] (text "cp %v -- %v") [CStr (text "a; rm -rf *"); CSlice (Some [CInt 7; CPtr None; CStr []])] = Some (text "prog", {| iargs := ws; ienv := []; iwd := [] |}).
  Proof.
    eexists. split; [|split; reflexivity]. apply line_word. apply (line_next _ 0 (CStr (text "a; rm -rf *")) [text "a; rm -rf *"]); [reflexivity|constructor|].
    apply line_word. apply (line_next _ 1 (CSlice (Some [CInt 7; CPtr None; CStr []])) ([text "7"] ++ [] ++ [[]] ++ [])); [reflexivity| |constructor].
    apply gives_more; [apply (gives_int 7)|]. apply gives_more; [constructor|]. apply gives_more; constructor.
  Qed.
  (** A placeholder inside a word is not replaced: the word is passed as it is and the argument is not
      used. *)
  Theorem C98_inside_refuted cmd c w args : cmd <> [] -> ~ In space (c :: w) -> c <> 37 -> c <> 123 ->
    started cmd [] ((c :: w) ++ text "%v") args = Some (cmd, {| iargs := [(c :: w) ++ text "%v"]; ienv := []; iwd := [] |}).
  Proof.
    intros C S' P B. unfold CmdlModel.started, command. cbn [app]. destruct cmd as [|c' cmd]; [congruence|].
    assert (NS : ~ In space ((c :: w) ++ text "%v")). { intros I. apply in_app_or in I. destruct I as [I|[Q|[Q|[]]]]; [exact (S' I)|discriminate|discriminate]. }
    replace (has_suffix (c :: w ++ text "%v") (text " | json")) with false.
    2:{ symmetry. apply not_true_iff_false. rewrite has_suffix_iff. intros (r & Q). apply NS. change ((c :: w) ++ text "%v") with (c :: w ++ text "%v"). rewrite Q. apply in_or_app. right. left. reflexivity. }
    change (c :: w ++ text "%v") with ((c :: w) ++ text "%v") at 1. rewrite (split_word _ space NS). cbn [CmdlModel.components app].
    change (text "%") with [37]. change (text "{") with [123]. rewrite !prefix_false by assumption. reflexivity.
  Qed.
End Line.
(** Functions in a namespace are linked with its tag before their own. *)
Theorem C98_namespace_partial st sf ss t fns secs f : In (Structure st sf ss) secs -> In f sf -> In (st, f) (link_structure [] (Structure t fns secs)).
Proof.
  intros S' F. cbn [link_structure]. apply in_or_app. right. apply in_flat_map. exists (Structure st sf ss). split; [exact S'|].
  cbn [link_structure]. apply in_or_app. left. apply in_map. exact F.
Qed.
Theorem C98_prefix_partial so sf cmd prefix tag args : prefix <> [] ->
  started so sf cmd prefix tag args = started so sf cmd [] (prefix ++ [space] ++ tag) args.
Proof. intros P. unfold started, command. destruct prefix as [|p ps]; [congruence|]. cbn [app]. rewrite <- app_assoc. reflexivity. Qed.
(** A namespace inside a namespace: the outer tag is lost. *)
Theorem C98_nested_refuted t0 t1 t2 f : link_structure [] (Structure t0 [] [Structure t1 [] [Structure t2 [f] []]]) = [(t2, f)].
Proof. reflexivity. Qed.
Print Assumptions C98_line_partial.
Print Assumptions C98_json_partial.
Print Assumptions C98_inside_refuted.
Print Assumptions C98_namespace_partial.
Print Assumptions C98_prefix_partial.
Print Assumptions C98_nested_refuted.
Print Assumptions C99_in_order.
Print Assumptions C99_index_partial.
Print Assumptions C99_index_refuted.
Print Assumptions C99_named.
