(** Properties C101 and C102: running a command. *)
From Coq Require Import String.
From Verif Require Import GoBase BaseLemmas GoText CmdlModel CmdlSpec CmdlProps CmdlPack.
Local Open Scope Z_scope.
Local Open Scope list_scope.

(** ** C101: which function is run *)
Lemma word_literal w : a_word w -> has_prefix w (text "%") = false.
Proof. intros ((_ & NP & _) & NE). destruct w as [|c w]; [congruence|]. change (text "%") with [37]. apply prefix_false. intros ->. apply NP. left. reflexivity. Qed.
Lemma score_words ws cs args : Forall a_word ws -> score (ws ++ cs) (ws ++ args) = (2 * length ws + score cs args)%nat.
Proof.
  induction 1 as [|w ws W _ IH]; [reflexivity|]. cbn [app score]. rewrite (word_literal w W), beq_refl, IH. cbn [List.length]. lia.
Qed.
Lemma score_mismatch a b u w : a_word a -> a <> b -> score (a :: u) (b :: w) = O.
Proof. intros A N. cbn [score]. rewrite (word_literal a A), beq_false by exact N. reflexivity. Qed.
Lemma score_end a u : a_word a -> score (a :: u) [] = O.
Proof. intros A. cbn [score]. rewrite (word_literal a A). reflexivity. Qed.
Lemma score_diverge us ws cs args : Forall a_word us -> diverge us ws -> (score (us ++ cs) (ws ++ args) < 2 * length ws)%nat.
Proof.
  intros F (p & a & b & u & w & -> & -> & N). apply Forall_app in F. destruct F as (FP & FA). inversion FA; subst.
  rewrite <- !app_assoc, (score_words p) by exact FP. cbn [app]. rewrite score_mismatch by assumption. rewrite app_length. cbn [List.length]. lia.
Qed.
(** Literal words only: either they diverge from the arguments, or are a prefix, or the other way. *)
Lemma score_literal us args : Forall a_word us -> forall ws rest, args = ws ++ rest -> ~ is_prefix ws us -> (score us args < 2 * length ws)%nat.
Proof.
  induction us as [|u us IH] in args |- *; intros F ws rest E NP.
  - destruct ws; [exfalso; apply NP; exists []; reflexivity|]. cbn. lia.
  - inversion F; subst. destruct ws as [|w ws]; [exfalso; apply NP; exists (u :: us); reflexivity|]. cbn [app].
    destruct (list_eq_dec Z.eq_dec u w) as [->|N].
    + cbn [score]. rewrite (word_literal w H1), beq_refl. specialize (IH (ws ++ rest) H2 ws rest eq_refl). cbn [List.length].
      enough (score us (ws ++ rest) < 2 * length ws)%nat by lia. apply IH. intros (r & Q). apply NP. exists r. rewrite Q. reflexivity.
    + rewrite score_mismatch by assumption. cbn [List.length]. lia.
Qed.
Lemma best_none tags args i s h : (forall t, In t tags -> (score (split t space) args <= h)%nat) -> best tags args i s h = s.
Proof.
  induction tags as [|t tags IH] in i |- *; intros A; [reflexivity|]. cbn [best].
  replace (Nat.ltb h (score (split t space) args)) with false by (symmetry; apply Nat.ltb_ge; apply A; left; reflexivity).
  apply IH. intros t' I. apply A. right. exact I.
Qed.
Lemma best_wins before t after args i s h : (h < score (split t space) args)%nat ->
  (forall u, In u before -> (score (split u space) args < score (split t space) args)%nat) ->
  (forall u, In u after -> (score (split u space) args <= score (split t space) args)%nat) ->
  best (before ++ t :: after) args i s h = Some (i + length before)%nat.
Proof.
  induction before as [|u before IH] in i, s, h |- *; intros H B A; cbn [app best].
  - rewrite (proj2 (Nat.ltb_lt h _) H). rewrite best_none by exact A. f_equal. cbn. lia.
  - assert (U : (score (split u space) args < score (split t space) args)%nat) by (apply B; left; reflexivity).
    assert (B' : forall u0, In u0 before -> (score (split u0 space) args < score (split t space) args)%nat) by (intros u0 I; apply B; right; exact I).
    destruct (Nat.ltb h (score (split u space) args)); (rewrite IH; [f_equal; cbn [List.length]; lia|lia|exact B'|exact A]).
Qed.
Lemma words_split ws : ws <> [] -> Forall a_word ws -> split (words_tag ws) space = ws.
Proof. intros NE F. unfold words_tag. apply split_join; [exact NE|]. eapply Forall_impl; [|exact F]. intros w ((N & _) & _). exact N. Qed.
Lemma tag_split ws k : ws <> [] -> Forall a_word ws -> split (tag_of ws k) space = ws ++ repeat next_text k.
Proof.
  intros NE F. unfold tag_of. apply split_join; [destruct ws; [congruence|discriminate]|]. apply Forall_app. split.
  - eapply Forall_impl; [|exact F]. intros w ((N & _) & _). exact N.
  - apply Forall_forall. intros x I. apply repeat_spec in I. subst x. intros [Q|[Q|[]]]; discriminate.
Qed.
(** Commands of words: when the typed words are the tag of a function, and no other tag starts with
    these words, that function is the one. *)
Theorem C101_exact_partial (before : list (list bytes)) ws after prog rest : ws <> [] -> Forall a_word ws ->
  (forall us, In us (before ++ after) -> us <> [] /\ Forall a_word us /\ ~ is_prefix ws us) ->
  match_tags (map words_tag (before ++ ws :: after)) (prog :: ws ++ rest) = Some (length before).
Proof.
  intros NE F O. unfold match_tags. destruct ws as [|w ws]; [congruence|]. change (Nat.eqb (length (prog :: (w :: ws) ++ rest)) 1) with false. cbn [tl]. cbv iota.
  rewrite map_app. cbn [map]. assert (SC : score (split (words_tag (w :: ws)) space) ((w :: ws) ++ rest) = (2 * length (w :: ws))%nat).
  { rewrite words_split by assumption. rewrite <- (app_nil_r (w :: ws)) at 1. rewrite score_words by exact F. cbn [score]. lia. }
  assert (OT : forall us, In us (before ++ after) -> (score (split (words_tag us) space) ((w :: ws) ++ rest) < 2 * length (w :: ws))%nat).
  { intros us I. destruct (O us I) as (N & FU & P). rewrite words_split by assumption. apply (score_literal us _ FU (w :: ws) rest eq_refl P). }
  rewrite best_wins.
  - rewrite map_length. reflexivity.
  - rewrite SC. cbn [List.length]. lia.
  - intros u I. apply in_map_iff in I. destruct I as (us & <- & I). rewrite SC. apply OT. apply in_or_app. left. exact I.
  - intros u I. apply in_map_iff in I. destruct I as (us & <- & I). rewrite SC. apply Nat.lt_le_incl. apply OT. apply in_or_app. right. exact I.
Qed.
Example C101_exact_case : match_tags (map words_tag [[text "remote"; text "add"]; [text "list"]; [text "commit"]]) [text "git"; text "list"; text "x"] = Some 1%nat /\
  ~ is_prefix [text "list"] [text "remote"; text "add"].
Proof. split; [reflexivity|]. intros (r & Q). discriminate Q. Qed.
(** A first word that no tag starts with is an unknown command. *)
Theorem C101_unknown (tags : list (bytes * list bytes)) prog a rest :
  (forall w us, In (w, us) tags -> a_word w /\ Forall (fun u => ~ In space u) us /\ w <> a) ->
  match_tags (map (fun t => words_tag (fst t :: snd t)) tags) (prog :: a :: rest) = None.
Proof.
  intros A. unfold match_tags. change (Nat.eqb (length (prog :: a :: rest)) 1) with false. cbn [tl]. cbv iota. apply best_none. intros t I.
  apply in_map_iff in I. destruct I as ([w us] & <- & I). destruct (A w us I) as (W & F & N). cbn [fst snd]. unfold words_tag.
  rewrite split_join; [|discriminate|constructor; [exact (proj1 (proj1 W))|exact F]]. rewrite score_mismatch by assumption. lia.
Qed.
Example C101_unknown_case : match_tags (map (fun t => words_tag (fst t :: snd t)) [(text "add", [text "%v"]); (text "rm", [])]) [text "p"; text "ad"; text "x"] = None.
Proof. reflexivity. Qed.

(** ** C101: what it is called with *)
Section Run.
  Context (sscan_bool : bytes -> bytes -> option bool) (sscan_other : bytes -> bytes -> option Z).
  Notation read_args := (read_args sscan_bool sscan_other).
  Notation run := (run sscan_bool sscan_other).
  Notation consume := (consume sscan_bool sscan_other).
  Notation consume_loop := (consume_loop sscan_bool sscan_other).
  Notation try_field := (try_field sscan_bool sscan_other).
  Notation try_fields := (try_fields sscan_bool sscan_other).
  Lemma read_words ws r args ps n t vs : ws <> [] -> Forall a_word ws ->
    read_args (ws ++ r) args ps n t vs = if Nat.leb (length args) (t + length ws) then Ok (Some vs) else read_args r args ps n (t + length ws) vs.
  Proof.
    intros NE F. induction F as [|w ws W F IH] in t, NE |- *; [congruence|]. cbn [app CmdlModel.read_args]. rewrite (word_literal w W).
    cbn [List.length]. destruct ws as [|w' ws].
    - cbn [app List.length]. replace (t + 1)%nat with (S t) by lia. reflexivity.
    - destruct (Nat.leb (length args) (S t)) eqn:E; [apply Nat.leb_le in E|apply Nat.leb_gt in E].
      + replace (Nat.leb (length args) (t + S (length (w' :: ws)))) with true by (symmetry; apply Nat.leb_le; lia). reflexivity.
      + rewrite IH by discriminate. replace (S t + length (w' :: ws))%nat with (t + S (length (w' :: ws)))%nat by lia. reflexivity.
  Qed.
  Lemma set_at {A} (a : list A) x y b : set_val (length a) x (a ++ y :: b) = a ++ x :: b.
  Proof. induction a as [|z a IH]; cbn; [reflexivity|]. rewrite IH. reflexivity. Qed.
  Lemma read_nexts k pre dn v avail m : m = (length dn + k)%nat -> (1 <= k)%nat ->
    read_args (repeat next_text k) (pre ++ dn ++ v :: avail) (repeat PString m) (length dn) (length pre + length dn) (map VString dn ++ repeat (VString []) k) =
    Ok (Some (map VString dn ++ map VString (firstn k (v :: avail)) ++ repeat (VString []) (k - length (v :: avail)))).
  Proof.
    induction k as [|k IH] in dn, v, avail |- *; intros M K; [lia|]. cbn [repeat CmdlModel.read_args].
    change (has_prefix next_text (text "%")) with true. cbv iota. unfold scan_where. change (beq next_text []) with false. change (beq next_text (text "%v")) with true. cbv iota.
    rewrite repeat_length. replace (Nat.ltb (length dn) m) with true by (symmetry; apply Nat.ltb_lt; lia).
    replace (nth_error (pre ++ dn ++ v :: avail) (length pre + length dn)) with (Some v).
    2:{ symmetry. rewrite app_assoc, nth_error_app2; rewrite app_length; [|lia]. rewrite Nat.sub_diag. reflexivity. }
    rewrite (nth_error_repeat PString) by lia.
    replace (set_val (length dn) (VString v) (map VString dn ++ VString [] :: repeat (VString []) k)) with (map VString (dn ++ [v]) ++ repeat (VString []) k).
    2:{ replace (length dn) with (length (map VString dn)) by apply map_length. rewrite set_at, map_app, <- app_assoc. reflexivity. }
    rewrite !app_length. cbn [List.length].
    destruct avail as [|v' avail].
    - replace (Nat.leb (length pre + (length dn + S (@length bytes []))) (S (length pre + length dn))) with true by (symmetry; apply Nat.leb_le; cbn; lia).
      cbn [firstn map]. rewrite firstn_nil. cbn [map List.length Nat.sub]. rewrite Nat.sub_0_r, map_app, <- app_assoc. reflexivity.
    - replace (Nat.leb (length pre + (length dn + S (length (v' :: avail)))) (S (length pre + length dn))) with false by (symmetry; apply Nat.leb_gt; cbn; lia).
      destruct k as [|k].
      + cbn [repeat CmdlModel.read_args firstn map Nat.sub app]. rewrite map_app, !app_nil_r. reflexivity.
      + specialize (IH (dn ++ [v]) v' avail). rewrite <- app_assoc in IH. cbn [app] in IH. rewrite app_length in IH. cbn [List.length] in IH.
        replace (length pre + (length dn + 1))%nat with (S (length pre + length dn)) in IH by lia. replace (length dn + 1)%nat with (S (length dn)) in IH by lia.
        rewrite IH by lia. cbn [firstn map List.length Nat.sub]. rewrite map_app, <- !app_assoc. reflexivity.
  Qed.
  Lemma map_repeat_string k : map pzero (repeat PString k) = repeat (VString []) k.
  Proof. induction k; cbn; congruence. Qed.
  (** All that happens for a tag of words and string placeholders: missing arguments are empty
      strings, further ones are ignored. *)
  Lemma run_positional before ws k after prog vs ps_other : ws <> [] -> Forall a_word ws ->
    (forall us j, In (us, j) (before ++ after) -> us <> [] /\ Forall a_word us /\ diverge us ws) ->
    run (map (fun x => {| ftag := tag_of (fst x) (snd x); fparams := ps_other x |}) before ++ {| ftag := tag_of ws k; fparams := repeat PString k |} ::
         map (fun x => {| ftag := tag_of (fst x) (snd x); fparams := ps_other x |}) after) (prog :: ws ++ vs) =
    Ok (Some (length before, map VString (firstn k vs) ++ repeat (VString []) (k - length vs))).
  Proof.
    intros NE F O. unfold CmdlModel.run. rewrite map_app. cbn [map ftag].
    assert (MT : match_tags (map ftag (map (fun x => {| ftag := tag_of (fst x) (snd x); fparams := ps_other x |}) before) ++ tag_of ws k ::
      map ftag (map (fun x => {| ftag := tag_of (fst x) (snd x); fparams := ps_other x |}) after)) (prog :: ws ++ vs) = Some (length before)).
    { unfold match_tags. replace (Nat.eqb (length (prog :: ws ++ vs)) 1) with false by (destruct ws; [congruence|reflexivity]). cbn [tl].
      assert (SC : (2 * length ws <= score (split (tag_of ws k) space) (ws ++ vs))%nat) by (rewrite tag_split, score_words by assumption; lia).
      assert (OT : forall us j, In (us, j) (before ++ after) -> (score (split (tag_of us j) space) (ws ++ vs) < 2 * length ws)%nat).
      { intros us j I. destruct (O us j I) as (N & FU & D). rewrite tag_split by assumption. apply score_diverge; assumption. }
      rewrite best_wins.
      - rewrite !map_length. reflexivity.
      - destruct ws; [congruence|]. cbn [List.length] in SC. lia.
      - intros u I. apply in_map_iff in I. destruct I as (f & <- & I). apply in_map_iff in I. destruct I as ([us j] & <- & I). cbn [ftag fst snd].
        specialize (OT us j (in_or_app _ _ _ (or_introl I))). lia.
      - intros u I. apply in_map_iff in I. destruct I as (f & <- & I). apply in_map_iff in I. destruct I as ([us j] & <- & I). cbn [ftag fst snd].
        specialize (OT us j (in_or_app _ _ _ (or_intror I))). lia. }
    rewrite MT. rewrite nth_error_app2; rewrite map_length; [|lia]. rewrite Nat.sub_diag. cbn [nth_error ftag fparams].
    assert (NC : ~ In comma (tag_of ws k)).
    { unfold tag_of. assert (G : forall l, (forall w, In w l -> ~ In comma w) -> ~ In comma (join l space)).
      { induction l as [|x l IH]; intros A; [intros []|]. destruct l as [|y l].
        - cbn [join]. apply A. left. reflexivity.
        - change (join (x :: y :: l) space) with (x ++ space :: join (y :: l) space). intros I. apply in_app_or in I. destruct I as [I|[I|I]].
          + exact (A x (or_introl eq_refl) I).
          + discriminate I.
          + refine (IH _ I). intros w W. apply A. right. exact W. }
      apply G. intros w I. apply in_app_or in I. destruct I as [I|I].
      - rewrite Forall_forall in F. destruct (F w I) as ((_ & _ & N) & _). exact N.
      - apply repeat_spec in I. subst w. intros [Q|[Q|[]]]; discriminate. }
    rewrite cut_none by exact NC. cbn [fst]. rewrite tag_split by assumption. rewrite read_words by assumption. rewrite map_repeat_string.
    cbn [List.length]. rewrite app_length. destruct vs as [|v vs].
    - replace (Nat.leb (S (length ws + @length bytes [])) (1 + length ws)) with true by (symmetry; apply Nat.leb_le; cbn; lia).
      rewrite firstn_nil. cbn [map app List.length]. rewrite Nat.sub_0_r. reflexivity.
    - replace (Nat.leb (S (length ws + length (v :: vs))) (1 + length ws)) with false by (symmetry; apply Nat.leb_gt; cbn; lia).
      destruct k as [|k]; [reflexivity|].
      pose proof (read_nexts (S k) (prog :: ws) [] v vs (S k) eq_refl ltac:(lia)) as R. cbn [List.length app map] in R. rewrite Nat.add_0_r in R.
      change (1 + length ws)%nat with (S (length ws)). cbn [app]. rewrite R. reflexivity.
  Qed.
  (** The typed words are those of one tag, followed by as many arguments as that tag has
      placeholders: that function is called, with these arguments in order. *)
  Theorem C101_positional_partial before ws after prog vs ps_other : ws <> [] -> Forall a_word ws ->
    (forall us j, In (us, j) (before ++ after) -> us <> [] /\ Forall a_word us /\ diverge us ws) ->
    run (map (fun x => {| ftag := tag_of (fst x) (snd x); fparams := ps_other x |}) before ++ {| ftag := tag_of ws (length vs); fparams := repeat PString (length vs) |} ::
         map (fun x => {| ftag := tag_of (fst x) (snd x); fparams := ps_other x |}) after) (prog :: ws ++ vs) =
    Ok (Some (length before, map VString vs)).
  Proof. intros NE F O. rewrite run_positional by assumption. rewrite firstn_all, Nat.sub_diag. cbn [repeat]. rewrite app_nil_r. reflexivity. Qed.
  Example C101_positional_case : run [{| ftag := text "rm %v"; fparams := [PString] |}; {| ftag := text "cp -- %v %v"; fparams := [PString; PString] |}] [text "p"; text "cp"; text "--"; text "a b"; text "%v"] =
    Ok (Some (1%nat, [VString (text "a b"); VString (text "%v")])).
  Proof. reflexivity. Qed.
  (** Missing arguments are not an error: they are empty strings. *)
  Theorem C101_missing_refuted ws k prog : ws <> [] -> Forall a_word ws ->
    run [{| ftag := tag_of ws k; fparams := repeat PString k |}] (prog :: ws) = Ok (Some (O, repeat (VString []) k)).
  Proof.
    intros NE F. pose proof (run_positional [] ws k [] prog [] (fun _ => []) NE F) as R. cbn [map app List.length] in R. rewrite app_nil_r, firstn_nil, Nat.sub_0_r in R. cbn [map app] in R.
    apply R. intros us j [].
  Qed.
  (** Further arguments are not an error: they are ignored. *)
  Theorem C101_extra_refuted ws prog vs more : ws <> [] -> Forall a_word ws ->
    run [{| ftag := tag_of ws (length vs); fparams := repeat PString (length vs) |}] (prog :: ws ++ vs ++ more) = Ok (Some (O, map VString vs)).
  Proof.
    intros NE F. pose proof (run_positional [] ws (length vs) [] prog (vs ++ more) (fun _ => []) NE F) as R. cbn [map app List.length] in R.
    rewrite R by (intros us j []). rewrite firstn_app, firstn_all, Nat.sub_diag. cbn [firstn]. rewrite app_nil_r, app_length.
    replace (length vs - (length vs + length more))%nat with O by lia. cbn [repeat]. rewrite app_nil_r. reflexivity.
  Qed.
  (** A command whose last word is wrong is run all the same. *)
  Theorem C101_wrong_command_refuted ws b c prog : ws <> [] -> Forall a_word (ws ++ [b]) -> b <> c ->
    match_tags [words_tag (ws ++ [b])] (prog :: ws ++ [c]) = Some O.
  Proof.
    intros NE F N. unfold match_tags. destruct ws as [|w ws]; [congruence|]. change (Nat.eqb (length (prog :: (w :: ws) ++ [c])) 1) with false. cbn [tl]. cbv iota.
    cbn [best]. rewrite words_split by (try assumption; discriminate). apply Forall_app in F. destruct F as (FW & FB). rewrite score_words by exact FW. reflexivity.
  Qed.
  (** Three placeholders win over the word that was typed. *)
  Theorem C101_placeholders_refuted w prog : a_word w -> match_tags [words_tag [w]; tag_of [next_text] 2] [prog; w] = Some 1%nat.
  Proof.
    intros W. unfold match_tags. change (Nat.eqb (length [prog; w]) 1) with false. cbn [tl best]. cbv iota. rewrite words_split by (try discriminate; repeat constructor; apply W).
    cbn [score]. rewrite (word_literal w W), beq_refl. reflexivity.
  Qed.
  (** A tag with the json option is not found by its word. *)
  Theorem C101_json_refuted w prog rest : a_word w -> match_tags [w ++ text ",json"] (prog :: w :: rest) = None.
  Proof.
    intros W. unfold match_tags. change (Nat.eqb (length (prog :: w :: rest)) 1) with false. cbn [tl best]. cbv iota.
    rewrite split_word. 2:{ intros I. apply in_app_or in I. destruct I as [I|I]; [exact (proj1 (proj1 W) I)|]. cbn in I. repeat (destruct I as [I|I]; [discriminate|]). destruct I. }
    destruct W as ((NS & NP & NC) & NE). destruct w as [|c w]; [congruence|]. cbn [app score]. change (text "%") with [37]. rewrite prefix_false by (intros ->; apply NP; left; reflexivity).
    rewrite beq_false; [reflexivity|]. intros Q. apply (f_equal (@List.length Z)) in Q. cbn in Q. rewrite app_length in Q. cbn in Q. lia.
  Qed.
  (** A longer command that is listed earlier takes the shorter one. *)
  Theorem C101_tie_refuted ws b prog : ws <> [] -> Forall a_word (ws ++ [b]) -> match_tags [words_tag (ws ++ [b]); words_tag ws] (prog :: ws) = Some O.
  Proof.
    intros NE F. pose proof F as F'. apply Forall_app in F. destruct F as (FW & FB). inversion FB; subst. unfold match_tags. destruct ws as [|w ws]; [congruence|]. cbn [List.length Nat.eqb tl best].
    rewrite !words_split by (try assumption; discriminate).
    assert (E1 : score ((w :: ws) ++ [b]) (w :: ws) = (2 * length (w :: ws))%nat).
    { pose proof (score_words (w :: ws) [b] [] FW) as E. rewrite app_nil_r in E. rewrite E, score_end by assumption. lia. }
    assert (E2 : score (w :: ws) (w :: ws) = (2 * length (w :: ws))%nat).
    { pose proof (score_words (w :: ws) [] [] FW) as E. rewrite !app_nil_r in E. rewrite E. cbn [score]. lia. }
    rewrite E1, E2. replace (Nat.ltb 0 (2 * length (w :: ws))) with true by reflexivity. rewrite Nat.ltb_irrefl. reflexivity.
  Qed.

  (** ** C102: options *)
  Lemma flag_cut f : plain (fst f) -> cut (otag (flag_field f)) comma = (fst f, if snd f then text "invert" else [], snd f).
  Proof.
    intros (_ & _ & NC). destruct f as [w inv]. cbn [fst snd] in *. unfold flag_field. cbn [otag fst snd]. destruct inv.
    - change (text ",invert") with (comma :: text "invert"). rewrite cut_app by exact NC. reflexivity.
    - rewrite app_nil_r. rewrite cut_none by exact NC. reflexivity.
  Qed.
  Lemma flag_start f : plain (fst f) -> start_val (flag_field f) = OBool (snd f).
  Proof.
    intros (_ & _ & NC). destruct f as [w inv]. unfold start_val, flag_field. cbn [okind_of otag fst snd] in *. f_equal.
    change (text ",invert") with (comma :: text "invert"). rewrite contains_comma by exact NC. destruct inv; reflexivity.
  Qed.
  (** One flag field for one argument. *)
  Lemma flag_field_step args i f p : plain (fst f) ->
    try_field args i (flag_field f) p = Some (if beq (arg p) (fst f) then
      {| arg := arg p; tracker := S (tracker p); extra := S (extra p); consuming := true; vals := set_val i (OBool (negb (snd f))) (vals p) |} else p).
  Proof.
    intros P. unfold CmdlModel.try_field. rewrite (flag_cut f P). rewrite (cut_none (fst f) percent (proj1 (proj2 P))). rewrite (member_false percent (fst f) (proj1 (proj2 P))).
    change (okind_of (flag_field f)) with KBool. destruct (beq (arg p) (fst f)); [|reflexivity]. cbn [negb]. destruct (snd f); reflexivity.
  Qed.
  Definition flag_vals (seen_ : list bytes) (fs : list (bytes * bool)) : list oval := map (fun f => OBool (xorb (snd f) (word_in (fst f) seen_))) fs.
  Lemma flags_step args a l dn fs t x b : Forall (fun f => plain (fst f)) fs -> NoDup (map fst fs) ->
    try_fields args (length dn) (map flag_field fs) {| arg := a; tracker := t; extra := x; consuming := b; vals := dn ++ flag_vals l fs |} =
    Some (if word_in a (map fst fs) then {| arg := a; tracker := S t; extra := S x; consuming := true; vals := dn ++ flag_vals (a :: l) fs |}
          else {| arg := a; tracker := t; extra := x; consuming := b; vals := dn ++ flag_vals (a :: l) fs |}).
  Proof.
    intros F. revert dn t x b. induction F as [|f fs P F IH]; intros dn t x b ND; cbn [map CmdlModel.try_fields].
    - reflexivity.
    - inversion ND; subst. rewrite (flag_field_step args (length dn) f _ P). cbn [arg tracker extra vals]. cbn [flag_vals map word_in existsb].
      destruct (beq a (fst f)) eqn:E.
      + apply beq_true in E. subst a. change (map (fun f0 => OBool (xorb (snd f0) (word_in (fst f0) l))) fs) with (flag_vals l fs). rewrite set_at.
        specialize (IH (dn ++ [OBool (negb (snd f))]) (S t) (S x) true H2). rewrite app_length in IH. cbn [List.length] in IH. replace (length dn + 1)%nat with (S (length dn)) in IH by lia.
        rewrite <- app_assoc in IH. cbn [app] in IH. rewrite IH. rewrite beq_refl. cbn [orb].
        replace (word_in (fst f) (map fst fs)) with false. 2:{ symmetry. apply not_true_iff_false. unfold word_in. rewrite existsb_exists. intros (y & I & Q). apply beq_true in Q. subst y. exact (H1 I). }
        rewrite xorb_true_r, <- app_assoc. reflexivity.
      + replace (beq (fst f) a) with false. 2:{ symmetry. apply beq_false. intros <-. rewrite beq_refl in E. discriminate. } cbn [orb].
        specialize (IH (dn ++ [OBool (xorb (snd f) (word_in (fst f) l))]) t x b H2). rewrite app_length in IH. cbn [List.length] in IH. replace (length dn + 1)%nat with (S (length dn)) in IH by lia.
        rewrite <- !app_assoc in IH. cbn [app] in IH. change (map (fun f0 => OBool (xorb (snd f0) (word_in (fst f0) l))) fs) with (flag_vals l fs). rewrite IH. reflexivity.
  Qed.
  Lemma flag_vals_ext l l' fs : (forall f, In f fs -> word_in (fst f) l = word_in (fst f) l') -> flag_vals l fs = flag_vals l' fs.
  Proof. intros A. unfold flag_vals. apply map_ext_in. intros f I. rewrite (A f I). reflexivity. Qed.
  Lemma flags_loop fs : Forall (fun f => plain (fst f)) fs -> NoDup (map fst fs) -> forall fl fuel pre rest x l,
    Forall (fun a => In a (map fst fs)) fl -> (match rest with r :: _ => ~ In r (map fst fs) | [] => True end) -> fl ++ rest <> [] -> (length fl < fuel)%nat ->
    consume_loop fuel (pre ++ fl ++ rest) (map flag_field fs) (length pre) x (flag_vals l fs) = Ok (Some ((x + length fl)%nat, flag_vals (rev fl ++ l) fs)).
  Proof.
    intros P ND. induction fl as [|a fl IH]; intros fuel pre rest x l I R NE FU; destruct fuel as [|fuel]; try lia; cbn [CmdlModel.consume_loop].
    - destruct rest as [|r rest]; [exfalso; apply NE; reflexivity|]. cbn [app]. rewrite nth_error_app2 by lia. rewrite Nat.sub_diag. cbn [nth_error].
      pose proof (flags_step (pre ++ r :: rest) r l [] fs (length pre) x false P ND) as S1. cbn [List.length app] in S1. rewrite S1.
      replace (word_in r (map fst fs)) with false. 2:{ symmetry. apply not_true_iff_false. unfold word_in. rewrite existsb_exists. intros (y & Y & Q). apply beq_true in Q. subst y. exact (R Y). }
      cbn [tracker extra vals consuming]. rewrite app_length. cbn [List.length]. replace (Nat.leb (length pre + S (length rest)) (length pre)) with false by (symmetry; apply Nat.leb_gt; lia).
      rewrite Nat.add_0_r. cbn [rev app]. rewrite (flag_vals_ext (r :: l) l); [reflexivity|]. intros f If. unfold word_in. cbn [existsb].
      replace (beq (fst f) r) with false; [reflexivity|]. symmetry. apply beq_false. intros <-. apply R. apply in_map. exact If.
    - inversion I; subst. cbn [app]. rewrite nth_error_app2 by lia. rewrite Nat.sub_diag. cbn [nth_error].
      pose proof (flags_step (pre ++ a :: fl ++ rest) a l [] fs (length pre) x false P ND) as S1. cbn [List.length app] in S1. rewrite S1.
      replace (word_in a (map fst fs)) with true. 2:{ symmetry. unfold word_in. apply existsb_exists. exists a. split; [assumption|apply beq_refl]. }
      cbn [tracker extra vals consuming]. rewrite app_length. cbn [List.length].
      destruct (fl ++ rest) as [|b q] eqn:Q.
      + apply app_eq_nil in Q. destruct Q as (-> & ->). cbn [List.length rev app]. replace (Nat.leb (length pre + 1) (S (length pre))) with true by (symmetry; apply Nat.leb_le; lia). f_equal. f_equal. f_equal. lia.
      + replace (Nat.leb (length pre + S (length (b :: q))) (S (length pre))) with false by (symmetry; apply Nat.leb_gt; cbn [List.length]; lia).
        rewrite <- Q. specialize (IH fuel (pre ++ [a]) rest (S x) (a :: l) H2 R). rewrite Q in IH at 1. specialize (IH ltac:(discriminate) ltac:(cbn [List.length] in FU; lia)).
        rewrite <- app_assoc, app_length in IH. cbn [List.length app] in IH. replace (length pre + 1)%nat with (S (length pre)) in IH by lia. rewrite IH. cbn [rev]. rewrite <- app_assoc.
        f_equal. f_equal. f_equal. lia.
  Qed.
  (** Flags: all the flags at the front of the remaining arguments are taken, no more; each that is
      there is true (false when inverted) and each that is not is false (true when inverted). *)
  Theorem C102_flags_partial fs pre fl rest : Forall (fun f => a_word (fst f)) fs -> NoDup (map fst fs) -> Forall (fun a => In a (map fst fs)) fl ->
    (match rest with r :: _ => ~ In r (map fst fs) | [] => True end) -> fl ++ rest <> [] ->
    consume (pre ++ fl ++ rest) (map flag_field fs) (length pre) =
    Ok (Some (length fl, map (fun f => OBool (if word_in (fst f) fl then negb (snd f) else snd f)) fs)).
  Proof.
    intros P ND I R NE. unfold CmdlModel.consume.
    assert (P' : Forall (fun f => plain (fst f)) fs) by (eapply Forall_impl; [|exact P]; intros f W; exact (proj1 W)).
    replace (map start_val (map flag_field fs)) with (flag_vals [] fs).
    2:{ unfold flag_vals. rewrite map_map. apply map_ext_in. intros f If. rewrite Forall_forall in P'. rewrite flag_start by exact (P' f If). cbn. rewrite xorb_false_r. reflexivity. }
    rewrite (flags_loop fs P' ND) by (try assumption; rewrite !app_length; lia). f_equal. f_equal. f_equal. unfold flag_vals. apply map_ext_in. intros f _. f_equal.
    rewrite app_nil_r. replace (word_in (fst f) (rev fl)) with (word_in (fst f) fl); [destruct (word_in (fst f) fl), (snd f); reflexivity|].
    unfold word_in. apply eq_true_iff_eq. rewrite !existsb_exists. split; intros (y & Y & Q); exists y; (split; [|exact Q]); [apply in_rev; rewrite rev_involutive; exact Y|apply in_rev; exact Y].
  Qed.
  Example C102_flags_case : consume [text "p"; text "ls"; text "--all"; text "--all"; text "dir"] (map flag_field [(text "-l", false); (text "--all", false); (text "--no-sort", true)]) 2 =
    Ok (Some (2%nat, [OBool false; OBool true; OBool true])).
  Proof. reflexivity. Qed.
  (** What a client sends for a struct of flags is what the program reads. *)
  Theorem C102_round_trip_partial so sf (fs : list (bytes * bytes * bool)) pre rest i : Forall (fun x => a_word (snd (fst x)) /\ snd (fst x) <> text "-") fs -> NoDup (map (fun x => snd (fst x)) fs) ->
    (match rest with r :: _ => ~ In r (map (fun x => snd (fst x)) fs) | [] => True end) ->
    add so sf nothing (CStruct (map (fun x => (exported_field (fst (fst x)) (snd (fst x)), CBool (snd x))) fs)) = Some i -> iargs i ++ rest <> [] ->
    consume (pre ++ iargs i ++ rest) (map (fun x => flag_field (snd (fst x), false)) fs) (length pre) = Ok (Some (length (iargs i), map (fun x => OBool (snd x)) fs)).
  Proof.
    intros P ND R A NE.
    assert (E : iargs i = map (fun x => snd (fst x)) (filter snd fs)).
    { pose proof (C100_fields_partial so sf (map (fun x => (fst (fst x), Flag (snd (fst x)), CBool (snd x))) fs)) as C. rewrite !map_map in C. cbn [fst snd form_tag] in C.
      rewrite A in C. specialize (C ltac:(apply Forall_map; eapply Forall_impl; [|exact P]; intros x ((W & _) & N); cbn; split; [exact W|split; [exact N|eexists; reflexivity]])).
      injection C as ->. cbn [iargs]. clear. induction fs as [|[[n w] b] fs IH]; [reflexivity|]. cbn [map concat filter fst snd form_words is_zero]. destruct b; cbn [negb map app fst snd]; rewrite IH; reflexivity. }
    pose proof (C102_flags_partial (map (fun x => (snd (fst x), false)) fs) pre (iargs i) rest) as C. rewrite !map_map in C. cbn [fst snd] in C. rewrite C; [|apply Forall_map; eapply Forall_impl; [|exact P]; intros x (W & _); exact W|exact ND| |exact R|exact NE].
    - f_equal. f_equal. f_equal. apply map_ext_in. intros x I. f_equal. rewrite E. cbn [negb].
      destruct (snd x) eqn:SX.
      + replace (word_in (snd (fst x)) (map (fun x0 => snd (fst x0)) (filter snd fs))) with true; [reflexivity|]. symmetry. apply existsb_exists. exists (snd (fst x)). split; [|apply beq_refl].
        apply in_map_iff. exists x. split; [reflexivity|]. apply filter_In. split; assumption.
      + replace (word_in (snd (fst x)) (map (fun x0 => snd (fst x0)) (filter snd fs))) with false; [reflexivity|]. symmetry. apply not_true_iff_false. unfold word_in. rewrite existsb_exists. intros (y & Y & Q). apply beq_true in Q. subst y.
        apply in_map_iff in Y. destruct Y as (z & QZ & Z0). apply filter_In in Z0. destruct Z0 as (Z0 & SZ).
        assert (z = x); [|congruence]. clear - ND I Z0 QZ. induction fs as [|h fs IH]; [destruct I|]. cbn [map] in ND. inversion ND; subst. destruct I as [->|I], Z0 as [->|Z0]; [reflexivity| | |exact (IH H2 I Z0)].
        * exfalso. apply H1. rewrite <- QZ. apply (in_map (fun x => snd (fst x))). exact Z0.
        * exfalso. apply H1. rewrite QZ. apply (in_map (fun x => snd (fst x))). exact I.
    - rewrite E. apply Forall_map. apply Forall_forall. intros x I. apply filter_In in I. apply (in_map (fun x => snd (fst x))). exact (proj1 I).
  Qed.
  Lemma value_cut w : a_word w -> cut (otag (value_field w)) comma = (w ++ text "=%v", [], false) /\ cut (w ++ text "=%v") percent = (w ++ text "=", text "v", true) /\ member percent (w ++ text "=%v") = true /\ has_suffix (w ++ text "=") (text "=") = true.
  Proof.
    intros ((NS & NP & NC) & _). unfold value_field. cbn [otag]. repeat split.
    - apply cut_none. intros I. apply in_app_or in I. destruct I as [I|[Q|[Q|[Q|[]]]]]; [exact (NC I)|discriminate|discriminate|discriminate].
    - replace (w ++ text "=%v") with ((w ++ text "=") ++ percent :: text "v") by (rewrite <- app_assoc; reflexivity). apply cut_app.
      intros I. apply in_app_or in I. destruct I as [I|[Q|[]]]; [exact (NP I)|discriminate].
    - apply member_true. apply in_or_app. right. right. left. reflexivity.
    - apply has_suffix_iff. exists w. reflexivity.
  Qed.
  Lemma value_step args i w p : a_word w -> try_field args i (value_field w) p =
    Some {| arg := trim_prefix (arg p) (w ++ text "="); tracker := tracker p; extra := extra p; consuming := consuming p;
            vals := if beq (arg p) (w ++ text "=%v") || has_prefix (arg p) (w ++ text "=") then set_val i (OStr (trim_prefix (arg p) (w ++ text "="))) (vals p) else vals p |}.
  Proof.
    intros W. destruct (value_cut w W) as (A & B & C & D). unfold CmdlModel.try_field. rewrite A, B, C, D. cbn [arg tracker extra consuming vals okind_of value_field].
    destruct (beq (arg p) (w ++ text "=%v") || has_prefix (arg p) (w ++ text "=")); reflexivity.
  Qed.
  (** A single option with a value, w=%v, gets the value, whatever is in it. *)
  Theorem C102_value_partial w v pre rest : a_word w ->
    exists count, consume (pre ++ (w ++ text "=" ++ v) :: rest) [value_field w] (length pre) = Ok (Some (count, [OStr v])).
  Proof.
    intros W. exists O. unfold CmdlModel.consume. cbn [CmdlModel.consume_loop]. rewrite nth_error_app2 by lia. rewrite Nat.sub_diag. cbn [nth_error CmdlModel.try_fields map].
    rewrite (value_step _ _ w _ W). cbn [arg tracker extra consuming vals]. rewrite app_assoc, has_prefix_app, orb_true_r, trim_prefix_app.
    rewrite app_length. cbn [List.length]. replace (Nat.leb (length pre + S (length rest)) (length pre)) with false by (symmetry; apply Nat.leb_gt; lia). reflexivity.
  Qed.
  (** ... but it is not counted as read: a string placeholder that follows gets the option. *)
  Theorem C102_count_refuted w v x prog : a_word w ->
    run [{| ftag := text "go %v %v"; fparams := [POptions [value_field w]; PString] |}] [prog; text "go"; w ++ text "=" ++ v; x] =
    Ok (Some (O, [VOptions [OStr v]; VString (w ++ text "=" ++ v)])).
  Proof.
    intros W. unfold CmdlModel.run. change (match_tags (map ftag [{| ftag := text "go %v %v"; fparams := [POptions [value_field w]; PString] |}]) [prog; text "go"; w ++ text "=" ++ v; x]) with (Some O).
    cbn [nth_error ftag fparams]. change (split (fst (fst (cut (text "go %v %v") comma))) space) with [text "go"; next_text; next_text].
    cbn [CmdlModel.read_args]. change (has_prefix (text "go") (text "%")) with false. change (has_prefix next_text (text "%")) with true. cbn [List.length Nat.leb].
    change (scan_where 2 0 next_text) with (Some (At 0, 1%nat)). cbn [nth_error].
    assert (C : consume [prog; text "go"; w ++ text "=" ++ v; x] [value_field w] 2 = Ok (Some (O, [OStr v]))).
    { unfold CmdlModel.consume. cbn [CmdlModel.consume_loop nth_error CmdlModel.try_fields map List.length]. rewrite (value_step _ _ w _ W). cbn [arg tracker extra consuming vals]. rewrite app_assoc, has_prefix_app, orb_true_r, trim_prefix_app. reflexivity. }
    rewrite C. cbn [Nat.add Nat.leb]. change (scan_where 2 1 next_text) with (Some (At 1, 2%nat)). cbn [nth_error]. reflexivity.
  Qed.
  (** Of two options with values only the first that is given is read. *)
  Theorem C102_second_value_refuted w u v x pre rest : a_word w -> a_word u -> has_prefix v (u ++ text "=") = false -> v <> u ++ text "=%v" ->
    consume (pre ++ (w ++ text "=" ++ v) :: (u ++ text "=" ++ x) :: rest) [value_field w; value_field u] (length pre) = Ok (Some (O, [OStr v; OStr []])).
  Proof.
    intros W U N N2. unfold CmdlModel.consume. cbn [CmdlModel.consume_loop]. rewrite nth_error_app2 by lia. rewrite Nat.sub_diag. cbn [nth_error CmdlModel.try_fields map].
    rewrite (value_step _ _ w _ W). cbn [arg tracker extra consuming vals]. replace (has_prefix (w ++ text "=" ++ v) (w ++ text "=")) with true by (rewrite app_assoc, has_prefix_app; reflexivity). rewrite orb_true_r.
    replace (trim_prefix (w ++ text "=" ++ v) (w ++ text "=")) with v by (rewrite app_assoc, trim_prefix_app; reflexivity).
    rewrite (value_step _ _ u _ U). cbn [arg tracker extra consuming vals]. rewrite N, beq_false by exact N2. cbn [orb].
    rewrite app_length. cbn [List.length]. replace (Nat.leb (length pre + S (S (length rest))) (length pre)) with false by (symmetry; apply Nat.leb_gt; lia). reflexivity.
  Qed.
  (** The value of one option is taken for another flag. *)
  Theorem C102_value_is_flag_refuted w f pre : a_word w -> a_word f ->
    consume (pre ++ [w ++ text "=" ++ f]) [value_field w; flag_field (f, false)] (length pre) = Ok (Some (1%nat, [OStr f; OBool true])).
  Proof.
    intros W F. unfold CmdlModel.consume. cbn [CmdlModel.consume_loop]. rewrite nth_error_app2 by lia. rewrite Nat.sub_diag. cbn [nth_error CmdlModel.try_fields map].
    rewrite (value_step _ _ w _ W). cbn [arg tracker extra consuming vals]. rewrite app_assoc, has_prefix_app, orb_true_r, trim_prefix_app.
    rewrite (flag_field_step _ _ (f, false) _ (proj1 F)). cbn [arg tracker extra consuming vals fst snd]. rewrite beq_refl. cbn [tracker extra consuming vals].
    rewrite app_length. cbn [List.length]. replace (Nat.leb (length pre + 1) (S (length pre))) with true by (symmetry; apply Nat.leb_le; lia). reflexivity.
  Qed.
  (** An option whose value is a word of its own, "w %v": always an error, whatever is typed. *)
  Theorem C102_separate_refuted w args t : a_word w -> (t < length args)%nat -> consume args [{| otag := w ++ text " %v"; okind_of := KString |}] t = Ok None.
  Proof.
    intros ((NS & NP & NC) & NE) T. unfold CmdlModel.consume.
    assert (G : forall fuel t x vs, (t < length args)%nat -> (length args < fuel + t)%nat -> consume_loop fuel args [{| otag := w ++ text " %v"; okind_of := KString |}] t x vs = Ok None).
    { induction fuel as [|fuel IH]; intros t' x vs L FU; [lia|]. cbn [CmdlModel.consume_loop]. destruct (nth_error args t') as [a|] eqn:A; [|apply nth_error_None in A; lia].
      cbn [CmdlModel.try_fields]. unfold CmdlModel.try_field. cbn [otag].
      rewrite cut_none by (intros I; apply in_app_or in I; destruct I as [I|[Q|[Q|[Q|[]]]]]; [exact (NC I)|discriminate|discriminate|discriminate]).
      replace (w ++ text " %v") with ((w ++ text " ") ++ percent :: text "v") by (rewrite <- app_assoc; reflexivity).
      rewrite cut_app by (intros I; apply in_app_or in I; destruct I as [I|[Q|[]]]; [exact (NP I)|discriminate]).
      rewrite (member_true percent) by (apply in_or_app; right; left; reflexivity).
      replace (has_suffix (w ++ text " ") (text "=")) with false.
      2:{ symmetry. apply not_true_iff_false. rewrite has_suffix_iff. intros (r & Q). change (text " ") with [space] in Q. change (text "=") with [61] in Q. apply app_inj_tail in Q. destruct Q as (_ & Q). discriminate Q. }
      rewrite (proj2 (has_suffix_iff (w ++ text " ") (text " "))) by (exists w; reflexivity). cbn [arg tracker extra consuming vals okind_of].
      destruct (nth_error args (S t')) as [b|] eqn:B; [|reflexivity]. assert (L' : (S t' < length args)%nat) by (apply nth_error_Some; congruence).
      replace ((w ++ text " ") ++ percent :: text "v") with (w ++ text " %v") by (rewrite <- app_assoc; reflexivity).
      match goal with |- context [if negb ?m then _ else _] => destruct m end; cbn [negb]; cbn [tracker extra consuming vals];
        (replace (Nat.leb (length args) (S t')) with false by (symmetry; apply Nat.leb_gt; lia)); rewrite IH by lia; reflexivity. }
    apply G; lia.
  Qed.
End Run.

(** ** C103: results *)
(** Whatever the schedule, what the call sees is a beginning of what the program writes, in order. *)
Lemma pipe_invariant out s : pipe_run (pipe_start out) s -> out = buffer s ++ in_pipe s ++ todo s /\ (forall x, seen s = Some x -> is_prefix x (buffer s)).
Proof.
  assert (G : forall a b, pipe_run a b -> out = buffer a ++ in_pipe a ++ todo a /\ (forall x, seen a = Some x -> is_prefix x (buffer a)) -> out = buffer b ++ in_pipe b ++ todo b /\ (forall x, seen b = Some x -> is_prefix x (buffer b))).
  { induction 1 as [|a b c ST _ IH]; [exact (fun x => x)|]. intros I. apply IH. destruct ST; cbn [buffer in_pipe todo seen] in *; destruct I as (E & P); split; try exact P.
    - rewrite E, <- !app_assoc. reflexivity.
    - rewrite E, <- !app_assoc. reflexivity.
    - intros x Q. destruct (P x Q) as (rr & ->). exists (rr ++ a). rewrite app_assoc. reflexivity.
    - exact E.
    - exact E.
    - intros x Q. injection Q as ->. exists []. rewrite app_nil_r. reflexivity. }
  intros R. apply (G _ _ R). cbn. split; [reflexivity|discriminate].
Qed.
Theorem C103_prefix_partial out s x : pipe_run (pipe_start out) s -> seen s = Some x -> is_prefix x out.
Proof. intros R Q. destruct (pipe_invariant out s R) as (E & P). destruct (P x Q) as (r & B). exists (r ++ in_pipe s ++ todo s). rewrite E, B, <- app_assoc. reflexivity. Qed.
(** There is a schedule in which the call sees no more than any given beginning of the output. *)
Theorem C103_lost_refuted a b : exists s, pipe_run (pipe_start (a ++ b)) s /\ seen s = Some a /\ ended s = true.
Proof.
  assert (W : forall x t p bf e sn, pipe_run {| todo := x ++ t; in_pipe := p; buffer := bf; ended := e; seen := sn |} {| todo := t; in_pipe := p ++ x; buffer := bf; ended := e; seen := sn |}).
  { intros x t p bf e sn. destruct x as [|c x]; [rewrite app_nil_r; constructor|]. eapply pipe_more; [apply program_writes; discriminate|constructor]. }
  assert (C : forall x t p bf e sn, pipe_run {| todo := t; in_pipe := x ++ p; buffer := bf; ended := e; seen := sn |} {| todo := t; in_pipe := p; buffer := bf ++ x; ended := e; seen := sn |}).
  { intros x t p bf e sn. destruct x as [|c x]; [rewrite app_nil_r; constructor|]. eapply pipe_more; [apply goroutine_copies; discriminate|constructor]. }
  assert (T : forall x y z, pipe_run x y -> pipe_run y z -> pipe_run x z) by (induction 1; intros; [assumption|econstructor; eauto]).
  exists {| todo := []; in_pipe := b; buffer := a; ended := true; seen := Some a |}. split; [|split; reflexivity].
  eapply T; [apply (W a b)|]. pose proof (W b [] ([] ++ a) [] false None) as W2. rewrite app_nil_r in W2. eapply T; [exact W2|].
  cbn [app]. eapply T; [apply (C a [] b [])|]. cbn [app]. eapply pipe_more; [apply program_ends|]. eapply pipe_more; [apply call_reads|]. constructor.
Qed.
(** Results, from the whole output: a string without its last newline, the lines, a number. *)
Theorem C103_string_partial s : result_string (s ++ [newline]) = s.
Proof. unfold result_string. apply trim_suffix_app. Qed.
Lemma lines_acc l rest acc : ~ In newline l -> result_lines (l ++ newline :: rest) acc = (acc ++ l) :: result_lines rest [].
Proof.
  intros N. induction l as [|c l IH] in acc, N |- *; cbn [app result_lines].
  - rewrite Z.eqb_refl, app_nil_r. reflexivity.
  - replace (c =? newline) with false by (symmetry; apply Z.eqb_neq; intros ->; apply N; left; reflexivity). rewrite IH by (intros I; apply N; right; exact I). rewrite <- app_assoc. reflexivity.
Qed.
Lemma lines_rest l acc : ~ In newline l -> result_lines l acc = [].
Proof.
  intros N. induction l as [|c l IH] in acc, N |- *; cbn [result_lines]; [reflexivity|].
  replace (c =? newline) with false by (symmetry; apply Z.eqb_neq; intros ->; apply N; left; reflexivity). apply IH. intros I. apply N. right. exact I.
Qed.
(** What a program prints for a list of lines (one Fprintln each: main.go:301-304) is read back. *)
Theorem C103_lines_partial ls : Forall (fun l => ~ In newline l) ls -> result_slice (concat (map (fun l => l ++ [newline]) ls)) = ls.
Proof.
  unfold result_slice. induction 1 as [|l ls N _ IH]; [reflexivity|]. cbn [map concat]. rewrite <- app_assoc. cbn [app]. rewrite lines_acc by exact N. rewrite IH. reflexivity.
Qed.
(** A last line without a newline is lost. *)
Theorem C103_last_line_refuted ls l : Forall (fun l => ~ In newline l) ls -> ~ In newline l -> result_slice (concat (map (fun l => l ++ [newline]) ls) ++ l) = ls.
Proof.
  intros F N. unfold result_slice. induction F as [|x ls X _ IH]; cbn [map concat app]; [apply lines_rest; exact N|]. rewrite <- !app_assoc. cbn [app]. rewrite lines_acc by exact X. rewrite IH. reflexivity.
Qed.
Lemma atoi_digit c r : 48 <= c <= 57 -> atoi (c :: r) =
  match digits (c :: r) 0 false with Some (n, []) => let z := 1 * n in if (- 2 ^ 63 <=? z) && (z <? 2 ^ 63) then Some z else None | _ => None end.
Proof.
  intros C. unfold atoi. assert (E : c = 48 \/ c = 49 \/ c = 50 \/ c = 51 \/ c = 52 \/ c = 53 \/ c = 54 \/ c = 55 \/ c = 56 \/ c = 57) by lia.
  repeat (destruct E as [->|E]; [reflexivity|]). subst c. reflexivity.
Qed.
Lemma atoi_text z : - 2 ^ 63 <= z < 2 ^ 63 -> atoi (JrpcModel.int_text z) = Some z.
Proof.
  intros R. unfold JrpcModel.int_text. assert (P : 2 ^ 64 = 2 * 2 ^ 63) by reflexivity.
  assert (B : (- 2 ^ 63 <=? z) && (z <? 2 ^ 63) = true) by (apply andb_true_intro; split; [apply Z.leb_le|apply Z.ltb_lt]; lia).
  destruct (z <? 0) eqn:E; [apply Z.ltb_lt in E|apply Z.ltb_ge in E].
  - pose proof (digits_uint (- z) [] ltac:(lia) eq_refl) as D. rewrite app_nil_r in D. unfold atoi. rewrite D. cbv zeta. replace (-1 * - z) with z by lia. rewrite B. reflexivity.
  - pose proof (digits_uint z [] ltac:(lia) eq_refl) as D. rewrite app_nil_r in D. destruct (uint_digits z ltac:(lia)) as (F & NE).
    destruct (JrpcModel.uint_text z) as [|c u]; [congruence|]. apply Forall_inv in F.
    rewrite (atoi_digit c u F), D. cbv zeta. rewrite Z.mul_1_l, B. reflexivity.
Qed.
Theorem C103_int_partial z : - 2 ^ 31 <= z < 2 ^ 31 -> result_int32 (JrpcModel.int_text z ++ [newline]) = Some z.
Proof.
  intros R. unfold result_int32. rewrite trim_suffix_app, atoi_text by (assert (2 ^ 63 = 2 ^ 32 * 2 ^ 31) by reflexivity; assert (0 < 2 ^ 31) by reflexivity; assert (1 < 2 ^ 32) by reflexivity; nia).
  f_equal. apply i32_small. exact R.
Qed.
Example C103_case : result_int32 (text "-42") = Some (-42) /\ result_slice [97; 10; 10; 98; 10] = [[97]; []; [98]] /\ result_string [97; 10; 98; 10] = [97; 10; 98].
Proof. repeat split. Qed.
(** Numbers outside the range are reduced instead of being an error. *)
Theorem C103_int_wrap_refuted z : - 2 ^ 63 <= z < 2 ^ 63 -> result_int32 (JrpcModel.int_text z ++ [newline]) = Some (i32 z).
Proof. intros R. unfold result_int32. rewrite trim_suffix_app, atoi_text by exact R. reflexivity. Qed.
Print Assumptions C101_exact_partial.
Print Assumptions C101_unknown.
Print Assumptions C101_positional_partial.
Print Assumptions C101_missing_refuted.
Print Assumptions C101_extra_refuted.
Print Assumptions C101_wrong_command_refuted.
Print Assumptions C101_placeholders_refuted.
Print Assumptions C101_json_refuted.
Print Assumptions C101_tie_refuted.
Print Assumptions C102_flags_partial.
Print Assumptions C102_round_trip_partial.
Print Assumptions C102_value_partial.
Print Assumptions C102_count_refuted.
Print Assumptions C102_second_value_refuted.
Print Assumptions C102_value_is_flag_refuted.
Print Assumptions C102_separate_refuted.
Print Assumptions C103_prefix_partial.
Print Assumptions C103_lost_refuted.
Print Assumptions C103_string_partial.
Print Assumptions C103_lines_partial.
Print Assumptions C103_last_line_refuted.
Print Assumptions C103_int_partial.
Print Assumptions C103_int_wrap_refuted.
