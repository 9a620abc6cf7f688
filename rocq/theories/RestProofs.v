From Verif Require Import GoBase MuxModel MuxSpec MuxProofs RestModel RestSpec.
From Coq Require Import DecimalString DecimalNat.
Local Open Scope nat_scope.

(** ** Strings *)
Lemma contains_has c s : contains c s = has_char c s.
Proof. induction s as [|a s IH]; [reflexivity|]. cbn. now rewrite IH. Qed.
Lemma free_in s bad c : free s bad -> In c bad -> has_char c s = false.
Proof. intros F I. exact (proj1 (Forall_forall _ _) F c I). Qed.
Lemma app_assoc_s a b c : ((a ++ b) ++ c = a ++ (b ++ c))%string.
Proof. induction a as [|x a IH]; [reflexivity|]. cbn. now rewrite IH. Qed.
Lemma app_nil_s a : (a ++ "" = a)%string.
Proof. induction a as [|x a IH]; [reflexivity|]. cbn. now rewrite IH. Qed.
Lemma split_join c l : l <> [] -> Forall (fun s => has_char c s = false) l ->
  split c (join (String c "") l) = l.
Proof.
  intros N F. induction F as [|x l Hx F IH]; [now destruct N|]. unfold join in *. cbn [String.concat].
  destruct l as [|y l]; [now rewrite split_no|].
  cbn [String.append]. change (String c "" ++ ?t)%string with (String c t).
  rewrite split_cons by exact Hx. f_equal. apply IH. discriminate.
Qed.
Lemma has_join c sep l : has_char c sep = false -> Forall (fun s => has_char c s = false) l ->
  has_char c (join sep l) = false.
Proof.
  intros S F. unfold join. induction F as [|x l Hx F IH]; [reflexivity|]. cbn [String.concat].
  destruct l as [|y l]; [exact Hx|]. now rewrite !has_char_app, Hx, S, IH.
Qed.
Lemma join_nonempty sep l : l <> [] -> Forall (fun s => s <> "") l -> join sep l <> "".
Proof.
  intros N F. destruct F as [|x l Hx F]; [now destruct N|]. unfold join. cbn [String.concat].
  destruct x as [|a x]; [now destruct Hx|]. destruct l; discriminate.
Qed.

(** ** C54: the accessors *)
Definition rules_text (args : list string) : string := ("(" ++ join "," args ++ ")")%string.
Definition tag_parts (m t : string) (args results : list string) : list string :=
  [m; t] ++ (match args with [] => [] | _ => [rules_text args] end)
         ++ (match results with [] => [] | _ => [join "," results] end).
Lemma good_rules_space args : good_rules args -> Forall (fun r => has_char space r = false) args.
Proof. intro G. eapply Forall_impl; [|exact G]. intros r [_ F]. apply (free_in _ _ _ F). now left. Qed.
Lemma good_rules_comma args : good_rules args -> Forall (fun r => has_char ","%char r = false) args.
Proof. intro G. eapply Forall_impl; [|exact G]. intros r [_ F]. apply (free_in _ _ _ F). right; now left. Qed.
Lemma split_tag m t args results : has_char space m = false -> has_char space t = false ->
  good_rules args -> good_rules results ->
  split space (tag m t args results) = tag_parts m t args results.
Proof.
  intros Hm Ht Ga Gr.
  assert (Ja : has_char space (rules_text args) = false).
  { unfold rules_text. rewrite !has_char_app. rewrite has_join; [reflexivity|reflexivity|now apply good_rules_space]. }
  assert (Jr : has_char space (join "," results) = false).
  { rewrite has_join; [reflexivity|reflexivity|now apply good_rules_space]. }
  assert (E : tag m t args results = join " " (tag_parts m t args results)).
  { unfold tag, tag_parts, rules_text, join. destruct args as [|a l], results as [|r l']; cbn [app String.concat];
      cbn [String.append]; rewrite ?app_assoc_s, ?app_nil_s; cbn [String.append]; try reflexivity. }
  rewrite E. apply split_join; [discriminate|].
  unfold tag_parts. cbn [app]. constructor; [exact Hm|]. constructor; [exact Ht|].
  apply Forall_app. split.
  - destruct args; repeat constructor. exact Ja.
  - destruct results; repeat constructor. exact Jr.
Qed.
Lemma good_rules_nonempty l : good_rules l -> Forall (fun s => s <> "") l.
Proof. intro G. eapply Forall_impl; [|exact G]. now intros r [N _]. Qed.

Lemma argument_rules_tag m t args results : has_char space m = false -> has_char space t = false ->
  good_rules args -> good_rules results ->
  (forall r s x, results = r :: s -> r <> String "("%char x) ->
  argument_rules_of (tag m t args results) = Ok args.
Proof.
  intros Hm Ht Ga Gr Gp. unfold argument_rules_of. rewrite split_tag by assumption.
  unfold tag_parts. destruct args as [|a l].
  - destruct results as [|r l']; [reflexivity|]. cbn [app].
    assert (N : join "," (r :: l') <> "") by (apply join_nonempty; [discriminate|now apply good_rules_nonempty]).
    assert (Gp' := fun x => Gp r l' x eq_refl). inversion Gr as [|? ? [Nr _] _]. subst.
    destruct r as [|c r]; [now destruct Nr|].
    assert (E : exists x, join "," (String c r :: l') = String c x).
    { unfold join. cbn [String.concat]. destruct l'; [eauto|]. cbn. eauto. }
    destruct E as (x & ->).
    destruct c as [[] [] [] [] [] [] [] []]; try reflexivity. now destruct (Gp' r).
  - cbn [app]. unfold rules_text. cbn [String.append].
    rewrite unsnoc_app. f_equal. apply split_join; [discriminate|]. now apply good_rules_comma.
Qed.
Lemma result_rules_tag m t args results : has_char space m = false -> has_char space t = false ->
  good_rules args -> good_rules results ->
  (forall r s x, results = r :: s -> r <> String "("%char x) ->
  result_rules_of (tag m t args results) = Ok results.
Proof.
  intros Hm Ht Ga Gr Gp. unfold result_rules_of. rewrite split_tag by assumption.
  unfold tag_parts. destruct args as [|a l].
  - destruct results as [|r l']; [reflexivity|]. cbn [app].
    assert (Gp' := fun x => Gp r l' x eq_refl). inversion Gr as [|? ? [Nr _] _]. subst.
    rewrite <- (split_join ","%char (r :: l')) at 2; [|discriminate|now apply good_rules_comma].
    destruct r as [|c r]; [now destruct Nr|].
    assert (E : exists x, join "," (String c r :: l') = String c x).
    { unfold join. cbn [String.concat]. destruct l'; [eauto|]. cbn. eauto. }
    destruct E as (x & ->).
    destruct c as [[] [] [] [] [] [] [] []]; try reflexivity. now destruct (Gp' r).
  - cbn [app]. unfold rules_text. cbn [String.append]. destruct results as [|r l']; [reflexivity|].
    f_equal. apply split_join; [discriminate|]. now apply good_rules_comma.
Qed.
Lemma method_tag m t args results : has_char space m = false -> has_char space t = false ->
  good_rules args -> good_rules results ->
  method_of (tag m t args results) = if existsb (String.eqb m) known_methods then m else "GET".
Proof. intros. unfold method_of. now rewrite split_tag by assumption. Qed.
Lemma path_tag m t args results : has_char space m = false -> has_char space t = false ->
  good_rules args -> good_rules results -> path_of (tag m t args results) = t.
Proof. intros. unfold path_of. now rewrite split_tag by assumption. Qed.

(** ** CleanupPattern *)
Lemma upto_fmt f t : f <> "" -> has_char "}"%char f = false -> upto (f ++ String "}" t) = Some (true, t).
Proof.
  intros N F. destruct f as [|a f]; [now destruct N|]. clear N. revert a F.
  induction f as [|b f IH]; intros a F.
  - cbn [String.append upto]. cbn in F. apply orb_false_iff in F as [-> _]. now cbn.
  - cbn in F. apply orb_false_iff in F as [Ha F]. change (String a (String b f) ++ ?x)%string with (String a (String b f ++ x)).
    cbn [upto]. rewrite Ha. now rewrite IH.
Qed.
Lemma cleanup_lit s : has_char "="%char s = false -> forall n t,
  cleanup_n (String.length s + n) (s ++ t) = (s ++ cleanup_n n t)%string.
Proof.
  induction s as [|a s IH]; intros F n t; [reflexivity|]. cbn in F. apply orb_false_iff in F as [Ha F].
  cbn [String.length Nat.add String.append cleanup_n]. rewrite Ha. now rewrite IH.
Qed.
Lemma cleanup_enough s : forall n m, String.length s <= n -> String.length s <= m -> cleanup_n n s = cleanup_n m s.
Proof.
  assert (U : forall r b t, upto r = Some (b, t) -> String.length t < String.length r).
  { induction r as [|a r IH]; intros b t; [discriminate|]. cbn [upto].
    destruct (Ascii.eqb a "}"%char); [intro E; injection E as _ <-; cbn; lia|].
    destruct (upto r) as [[b' t']|]; [|discriminate]. intro E. injection E as _ <-.
    specialize (IH b' t' eq_refl). cbn. lia. }
  remember (String.length s) as L eqn:EL. assert (HL : String.length s <= L) by lia. clear EL. revert s HL.
  induction L as [|L IH]; intros s HL n m Hn Hm.
  - destruct s; [|cbn in HL; lia]. destruct n, m; reflexivity.
  - destruct s as [|a r]; [destruct n, m; reflexivity|]. cbn in HL.
    destruct n as [|n], m as [|m]; try lia. cbn [cleanup_n].
    assert (R : cleanup_n n r = cleanup_n m r) by (apply IH; lia).
    destruct (Ascii.eqb a "="%char); [|now rewrite R].
    destruct (upto r) as [[[] t]|] eqn:E; [|now rewrite R|now rewrite R].
    specialize (U _ _ _ E). f_equal. apply IH; lia.
Qed.
Lemma cleanup_app s t : has_char "="%char s = false -> cleanup (s ++ t) = (s ++ cleanup t)%string.
Proof. intro F. unfold cleanup. rewrite append_length. now apply cleanup_lit. Qed.
Lemma cleanup_eq f t : f <> "" -> has_char "}"%char f = false ->
  cleanup (String "=" (f ++ String "}" t)) = String "}" (cleanup t).
Proof.
  intros N F. unfold cleanup. cbn [String.length cleanup_n]. rewrite Ascii.eqb_refl, upto_fmt by assumption.
  f_equal. apply cleanup_enough; [|lia]. rewrite append_length. cbn. lia.
Qed.

(** ** ReplaceAll(path, "=%v", "") *)
Lemma drop_verb_lit s : has_char "="%char s = false -> forall n t,
  drop_verb_n (String.length s + n) (s ++ t) = (s ++ drop_verb_n n t)%string.
Proof.
  induction s as [|a s IH]; intros F n t; [reflexivity|]. cbn in F. apply orb_false_iff in F as [Ha F].
  cbn [String.length Nat.add String.append drop_verb_n]. rewrite Ha. cbn [andb]. rewrite IH by exact F.
  destruct (s ++ t)%string as [|b [|c u]]; reflexivity.
Qed.
Lemma drop_verb_enough s : forall n m, String.length s <= n -> String.length s <= m -> drop_verb_n n s = drop_verb_n m s.
Proof.
  remember (String.length s) as L eqn:EL. assert (HL : String.length s <= L) by lia.
  clear EL. revert s HL.
  induction L as [|L IH]; intros s HL n m Hn Hm.
  - destruct s; [|cbn in HL; lia]. destruct n, m; reflexivity.
  - destruct s as [|a r]; [destruct n, m; reflexivity|]. cbn in HL.
    destruct n as [|n], m as [|m]; try lia. cbn [drop_verb_n].
    assert (R : drop_verb_n n r = drop_verb_n m r) by (apply IH; lia).
    destruct r as [|b [|c t]]; try (now rewrite R).
    destruct (Ascii.eqb a _ && Ascii.eqb b _ && Ascii.eqb c _); [|now rewrite R].
    cbn in HL. apply IH; lia.
Qed.

Lemma drop_verb_app s t : has_char "="%char s = false -> drop_verb (s ++ t) = (s ++ drop_verb t)%string.
Proof. intro F. unfold drop_verb. rewrite append_length. now apply drop_verb_lit. Qed.
Lemma drop_verb_verb t : drop_verb (String "=" (String "%" (String "v" t))) = drop_verb t.
Proof.
  unfold drop_verb. cbn [String.length].
  change (drop_verb_n (S (S (String.length t))) t = drop_verb_n (String.length t) t).
  apply drop_verb_enough; lia.
Qed.
Lemma drop_verb_other a s : Ascii.eqb a "="%char = false -> drop_verb (String a s) = String a (drop_verb s).
Proof. intro E. change (String a s) with (String a "" ++ s)%string. rewrite drop_verb_app; [reflexivity|]. cbn. now rewrite E. Qed.
Lemma drop_verb_numbered s : drop_verb (String "=" (String "%" (String "[" s))) = String "=" (drop_verb (String "%" (String "[" s))).
Proof. reflexivity. Qed.

(** ** Numbers *)
Fixpoint uint_z (u : Decimal.uint) (acc : Z) : Z :=
  match u with
  | Decimal.Nil => acc
  | Decimal.D0 u => uint_z u (acc * 10 + 0) | Decimal.D1 u => uint_z u (acc * 10 + 1)
  | Decimal.D2 u => uint_z u (acc * 10 + 2) | Decimal.D3 u => uint_z u (acc * 10 + 3)
  | Decimal.D4 u => uint_z u (acc * 10 + 4) | Decimal.D5 u => uint_z u (acc * 10 + 5)
  | Decimal.D6 u => uint_z u (acc * 10 + 6) | Decimal.D7 u => uint_z u (acc * 10 + 7)
  | Decimal.D8 u => uint_z u (acc * 10 + 8) | Decimal.D9 u => uint_z u (acc * 10 + 9)
  end%Z.
Lemma digits_uint u acc : RestModel.digits (NilEmpty.string_of_uint u) acc = Some (uint_z u acc).
Proof. revert acc. induction u; intro acc; [reflexivity|..]; apply IHu. Qed.
Lemma tail_mul10 n : Nat.tail_mul 10 n = 10 * n.
Proof.
  unfold Nat.tail_mul. assert (T : forall a b, Nat.tail_add a b = a + b).
  { induction a as [|a IH]; intro b; [reflexivity|]. cbn [Nat.tail_add]. rewrite IH. lia. }
  cbn [Nat.tail_addmul]. rewrite !T. lia.
Qed.
Lemma uint_acc u : forall acc, Z.of_nat (Nat.of_uint_acc u acc) = uint_z u (Z.of_nat acc).
Proof.
  induction u; intro acc; [reflexivity|..]; cbn [Nat.of_uint_acc uint_z]; rewrite IHu, tail_mul10; f_equal; lia.
Qed.
Lemma atoi_decimal n : (Z.of_nat n < 2^63)%Z -> atoi (decimal n) = Some (Z.of_nat n).
Proof.
  intro B. unfold decimal.
  assert (D : RestModel.digits (NilEmpty.string_of_uint (Nat.to_uint n)) 0 = Some (Z.of_nat n)).
  { rewrite digits_uint. change 0%Z with (Z.of_nat 0). rewrite <- uint_acc.
    change (Nat.of_uint_acc (Nat.to_uint n) 0) with (Nat.of_uint (Nat.to_uint n)).
    now rewrite Unsigned.of_to. }
  assert (N : Nat.to_uint n <> Decimal.Nil).
  { intro E. pose proof (Unsigned.of_to n) as O. rewrite E in O. cbn in O. subst n. discriminate. }
  destruct (Nat.to_uint n) eqn:E; [now destruct N|..]; unfold atoi; cbn [NilEmpty.string_of_uint] in *;
    rewrite D; (rewrite (proj2 (Z.ltb_lt _ _)); [reflexivity|exact B]).
Qed.
Lemma uint_free u : Forall (fun c => has_char c (NilEmpty.string_of_uint u) = false)
  [" "; "/"; "="; "%"; "{"; "}"; "?"; "&"; "]"; "["]%char.
Proof. induction u; repeat constructor; cbn [NilEmpty.string_of_uint has_char]; cbn [Ascii.eqb Bool.eqb orb];
  apply (proj1 (Forall_forall _ _) IHu); cbn; tauto. Qed.
Lemma decimal_free n c : In c [" "; "/"; "="; "%"; "{"; "}"; "?"; "&"; "]"; "["]%char -> has_char c (decimal n) = false.
Proof. apply (proj1 (Forall_forall _ _) (uint_free (Nat.to_uint n))). Qed.

(** ** Parameters are read as written *)
Definition fmt (p : tparam) : string :=
  ("%" ++ (match t_num p with Some n => "[" ++ decimal n ++ "]" | None => "" end) ++ "v")%string.
Lemma write_param_fmt p : write_param p = (t_name p ++ String "=" (fmt p))%string.
Proof. reflexivity. Qed.
Lemma unsnoc_cons a s b t : unsnoc s = Some (t, b) -> unsnoc (String a s) = Some (String a t, b).
Proof. intro E. cbn. now rewrite E. Qed.
Lemma fmt_last p : exists x, unsnoc (fmt p) = Some (x, "v"%char).
Proof. unfold fmt. rewrite <- app_assoc_s. eexists. apply unsnoc_app. Qed.

(** ** The parameter list after the path and the query *)
Definition is_ref (i : nat) (r : string * nat) : bool := Nat.eqb (snd r) i.
Definition name_of (i : nat) (refs : list (string * nat)) : string :=
  match List.find (is_ref i) refs with Some (n, _) => n | None => "" end.
Definition expect (dp dq : list (string * nat)) (i : nat) : param :=
  {| p_name := name_of i (dp ++ dq); p_path := existsb (is_ref i) dp; p_query := existsb (is_ref i) dq;
     p_void := false; p_index := if existsb (is_ref i) (dp ++ dq) then [i] else [] |}.

Definition coherent (refs : list (string * nat)) : Prop :=
  forall a b i j, In (a, i) refs -> In (b, j) refs -> (a = b <-> i = j).
Lemma find_none_exists i refs : List.find (is_ref i) refs = None <-> existsb (is_ref i) refs = false.
Proof.
  induction refs as [|r refs IH]; [tauto|]. cbn. destruct (is_ref i r); [|exact IH]. split; discriminate.
Qed.
Lemma find_some_ref i refs n j : List.find (is_ref i) refs = Some (n, j) -> In (n, i) refs /\ j = i.
Proof.
  intro E. apply find_some in E as [I R]. apply Nat.eqb_eq in R. cbn in R. subst. tauto.
Qed.
Lemma name_of_in refs i n : coherent refs -> In (n, i) refs -> name_of i refs = n.
Proof.
  intros C I. unfold name_of. destruct (List.find (is_ref i) refs) as [[m j]|] eqn:E.
  - apply find_some_ref in E as [I' ->]. now apply (C m n i i).
  - exfalso. apply (find_none _ _ E) in I. unfold is_ref in I. cbn in I. now rewrite Nat.eqb_refl in I.
Qed.
Lemma name_of_out refs i : existsb (is_ref i) refs = false -> name_of i refs = "".
Proof. intro E. unfold name_of. apply find_none_exists in E. now rewrite E. Qed.
Lemma exists_ref refs i : existsb (is_ref i) refs = true <-> exists n, In (n, i) refs.
Proof.
  rewrite existsb_exists. split.
  - intros ([n j] & I & E). apply Nat.eqb_eq in E. cbn in E. subst. eauto.
  - intros (n & I). exists (n, i). split; [exact I|]. apply Nat.eqb_refl.
Qed.

Lemma name_of_insert dp x dq i : i <> snd x -> name_of i ((dp ++ [x]) ++ dq) = name_of i (dp ++ dq).
Proof.
  intro N. unfold name_of. rewrite <- app_assoc. induction dp as [|y dp IH]; cbn.
  - unfold is_ref at 1. apply Nat.eqb_neq in N. rewrite Nat.eqb_sym, N. reflexivity.
  - destruct (is_ref i y); [reflexivity|exact IH].
Qed.
Lemma existsb_insert dp x dq i : i <> snd x -> existsb (is_ref i) (dp ++ [x] ++ dq) = existsb (is_ref i) (dp ++ dq).
Proof.
  intro N. rewrite !existsb_app. cbn. unfold is_ref at 2. apply Nat.eqb_neq in N.
  now rewrite Nat.eqb_sym, N.
Qed.
Lemma is_ref_self n i : is_ref i (n, i) = true.
Proof. apply Nat.eqb_refl. Qed.
Lemma update_map f (g g' : nat -> param) k n a : k < n ->
  (forall i, i <> a + k -> g' i = g i) -> g' (a + k) = f (g (a + k)) ->
  update k f (map g (seq a n)) = map g' (seq a n).
Proof.
  revert k a. induction n as [|n IH]; intros k a L O E; [lia|]. cbn [seq map].
  destruct k as [|k]; cbn [update].
  - replace (a + 0) with a in * by lia. rewrite E. f_equal. apply map_ext_in. intros i I.
    apply in_seq in I. symmetry. apply O. lia.
  - rewrite O by lia. f_equal. apply IH; [lia| |].
    + intros i Hi. apply O. lia.
    + replace (S a + k) with (a + S k) by lia. exact E.
Qed.
Lemma good_name_start n t : good_name n -> starts "%"%char (n ++ t) = false.
Proof.
  intros [N F]. destruct n as [|a n]; [now destruct N|]. cbn.
  assert (X : has_char "%"%char (String a n) = false) by (apply (free_in _ _ _ F); cbn; tauto).
  cbn in X. now apply orb_false_iff in X as [X _].
Qed.
Fixpoint last_pos (p0 : nat) (ps : list tparam) : nat :=
  match ps with [] => p0 | p :: r => last_pos (match t_num p with Some n => n | None => S p0 end) r end.
Lemma refers_app p0 a b : refers p0 (a ++ b) = refers p0 a ++ refers (last_pos p0 a) b.
Proof. revert p0. induction a as [|p a IH]; intro p0; [reflexivity|]. cbn. now rewrite IH. Qed.
Lemma refers_length p0 a : List.length (refers p0 a) = List.length a.
Proof. revert p0. induction a as [|p a IH]; intro p0; [reflexivity|]. cbn. now rewrite IH. Qed.

Section Parse.
Variable nargs : nat.
Variable sparam : string -> option (string * list nat).
Variable fields : nat -> option (list (string * list nat)).
Notation parse_param := (parse_param nargs sparam).
Definition number (pos : Z) (p : tparam) : Z := match t_num p with Some n => Z.of_nat n | None => (pos + 1)%Z end.

Lemma parse_written p loc st : good_name (t_name p) ->
  match t_num p with Some n => (Z.of_nat n < 2^63)%Z | None => True end ->
  parse_param (write_param p) loc st = use_arg nargs (t_name p) loc (number (pos st) p) st.
Proof.
  intros [N F] B. rewrite write_param_fmt. unfold RestModel.parse_param.
  rewrite contains_has, has_char_app. cbn [has_char]. rewrite Ascii.eqb_refl, orb_true_r. cbn [orb].
  rewrite cut_no_char by (apply (free_in _ _ _ F); cbn; tauto).
  destruct (fmt_last p) as (x & L). unfold number.
  change (fmt p) with (String "%" ((match t_num p with Some n => "[" ++ decimal n ++ "]" | None => "" end) ++ "v"))%string in *.
  rewrite L. destruct (t_num p) as [n|].
  - cbn [String.append]. rewrite unsnoc_app. cbn [fst].
    rewrite contains_has, has_char_app. cbn [has_char]. rewrite Ascii.eqb_refl, orb_true_r.
    rewrite cut_no_char by (apply decimal_free; cbn; tauto). now rewrite atoi_decimal.
  - reflexivity.
Qed.


Definition plist_of (dp dq : list (string * nat)) : list param := map (expect dp dq) (seq 0 nargs).
Definition add_ref (loc : location) (r : string * nat) (dp dq : list (string * nat)) :=
  match loc with InPath => (dp ++ [r], dq) | InQuery => (dp, dq ++ [r]) end.


Lemma use_arg_step n k loc st dp dq : k < nargs -> n <> "" -> plist st = plist_of dp dq ->
  coherent ((n, k) :: dp ++ dq) ->
  use_arg nargs n loc (Z.of_nat (S k)) st =
    Ok (Some {| pos := Z.of_nat (S k);
                plist := let d := add_ref loc (n, k) dp dq in plist_of (fst d) (snd d);
                pstatic := pstatic st |}).
Proof.
  intros L N E C. unfold use_arg.
  replace (Z.of_nat (S k) - 1)%Z with (Z.of_nat k) by lia.
  destruct (Z.leb_spec (Z.of_nat nargs) (Z.of_nat k)); [lia|].
  destruct (Z.ltb_spec (Z.of_nat k) 0); [lia|]. rewrite Nat2Z.id, E. unfold plist_of at 1.
  assert (C' : coherent (dp ++ dq)).
  { intros a b i j Ha Hb. apply C; now right. }
  rewrite nth_error_map, nth_error_nth' with (d := 0) by (rewrite seq_length; exact L).
  rewrite seq_nth by exact L. cbn [option_map Nat.add].
  assert (NM : p_name (expect dp dq k) = "" \/ p_name (expect dp dq k) = n).
  { cbn. destruct (existsb (is_ref k) (dp ++ dq)) eqn:X.
    - right. apply exists_ref in X as (m & I). rewrite (name_of_in _ _ m C' I).
      apply (C m n k k); [now right|now left|reflexivity].
    - left. now apply name_of_out. }
  assert (G : negb (String.eqb (p_name (expect dp dq k)) "") && negb (String.eqb (p_name (expect dp dq k)) n) = false).
  { destruct NM as [-> | ->]; [reflexivity|]. rewrite String.eqb_refl. now rewrite andb_false_r. }
  rewrite G. do 3 f_equal. unfold plist_of.
  assert (NK : forall d, (if String.eqb (p_name (expect dp dq k)) "" then n else p_name (expect dp dq k)) = d -> d = n).
  { intros d <-. destruct NM as [-> | ->]; [reflexivity|]. now destruct (String.eqb n ""). }
  apply (update_map _ _ _ k nargs 0); [exact L| |].
  - intros i Hi. cbn in Hi. destruct loc; cbn [add_ref fst snd]; unfold expect.
    + rewrite name_of_insert by exact Hi. rewrite <- !app_assoc, existsb_insert by exact Hi.
      f_equal. rewrite existsb_app. cbn. unfold is_ref at 2. cbn. apply Nat.eqb_neq in Hi.
      rewrite Nat.eqb_sym, Hi. now rewrite orb_false_r.
    + rewrite app_assoc. rewrite <- (List.app_nil_r ((dp ++ dq) ++ [(n, k)])).
      rewrite name_of_insert by exact Hi. rewrite <- (app_assoc (dp ++ dq)), existsb_insert by exact Hi.
      rewrite !List.app_nil_r. f_equal. rewrite existsb_app. cbn. unfold is_ref at 2. cbn. apply Nat.eqb_neq in Hi.
      rewrite Nat.eqb_sym, Hi. now rewrite orb_false_r.
  - cbn [Nat.add]. rewrite (NK _ eq_refl).
    destruct loc; cbn [add_ref fst snd]; unfold expect, add_loc; cbn [p_name p_path p_query p_void p_index].
    + rewrite !existsb_app. cbn [existsb]. rewrite is_ref_self, !orb_true_r. cbn [orb]. f_equal.
      rewrite (name_of_in ((dp ++ [(n, k)]) ++ dq) k n); [reflexivity| |].
      * intros a b i j Ha Hb. apply C; cbn [In] in *; rewrite ?in_app_iff in *; cbn [In] in *; tauto.
      * rewrite !in_app_iff. cbn. tauto.
    + rewrite !existsb_app. cbn [existsb]. rewrite is_ref_self, !orb_true_r. f_equal.
      rewrite (name_of_in (dp ++ dq ++ [(n, k)]) k n); [reflexivity| |].
      * intros a b i j Ha Hb. apply C; cbn [In] in *; rewrite ?in_app_iff in *; cbn [In] in *; tauto.
      * rewrite !in_app_iff. cbn. tauto.
Qed.


Definition num_ok (p : tparam) : Prop := match t_num p with Some k => 1 <= k | None => True end.
Hypothesis small : (Z.of_nat nargs < 2^63)%Z.

Lemma parse_one p loc st p0 dp dq : good_name (t_name p) -> num_ok p ->
  pos st = Z.of_nat p0 -> plist st = plist_of dp dq ->
  let k := match t_num p with Some n => n | None => S p0 end in
  k - 1 < nargs -> coherent ((t_name p, k - 1) :: dp ++ dq) ->
  parse_param (write_param p) loc st =
    Ok (Some {| pos := Z.of_nat k;
                plist := let d := add_ref loc (t_name p, k - 1) dp dq in plist_of (fst d) (snd d);
                pstatic := pstatic st |}).
Proof.
  intros G O Ep El k L C. unfold num_ok in O.
  assert (K : 1 <= k) by (subst k; destruct (t_num p); lia).
  rewrite parse_written.
  - replace (number (pos st) p) with (Z.of_nat (S (k - 1))).
    + rewrite (use_arg_step (t_name p) (k - 1) loc st dp dq L); [|apply G|exact El|exact C].
      now replace (S (k - 1)) with k by lia.
    + unfold number. subst k. destruct (t_num p); lia.
  - exact G.
  - subst k. destruct (t_num p); [lia|exact I].
Qed.

Lemma parse_path_params ps : forall p0 dp st,
  Forall (fun p => good_name (t_name p)) ps -> Forall num_ok ps ->
  pos st = Z.of_nat p0 -> plist st = plist_of dp [] ->
  Forall (fun r => snd r < nargs) (refers p0 ps) -> coherent (dp ++ refers p0 ps) ->
  parse_params nargs sparam (map write_param ps) InPath st =
    Ok (Some {| pos := Z.of_nat (last_pos p0 ps); plist := plist_of (dp ++ refers p0 ps) [];
                pstatic := pstatic st |}).
Proof.
  induction ps as [|p ps IH]; intros p0 dp st G O Ep El L C.
  - cbn. rewrite List.app_nil_r. do 2 f_equal. destruct st. cbn in *. now subst.
  - cbn [map parse_params]. inversion G as [|? ? Gp G']. inversion O as [|? ? Op O']. subst.
    cbn [refers] in L. inversion L as [|? ? Lp L']. subst. cbn in Lp.
    rewrite (parse_one p InPath st p0 dp []); try assumption.
    + cbn [add_ref fst snd]. cbn zeta. cbn [refers last_pos].
      rewrite (IH (match t_num p with Some n => n | None => S p0 end) (dp ++ [(t_name p, (match t_num p with Some n => n | None => S p0 end) - 1)])); try assumption; try reflexivity.
      * cbn [pstatic]. now rewrite <- app_assoc.
      * rewrite <- app_assoc. exact C.
    + rewrite List.app_nil_r. intros a b i j Ha Hb. apply C; cbn [refers] in *; rewrite in_app_iff; cbn [In] in *; tauto.
Qed.

Lemma parse_const k v loc st : good_titem (TConst k v) ->
  parse_param (write_titem (TConst k v)) loc st =
    Ok (Some {| pos := pos st; plist := plist st; pstatic := pstatic st ++ [(k, v)] |}).
Proof.
  intros [[N F] [Nv Fv]]. cbn [write_titem]. change ("=" ++ v)%string with (String "=" v).
  unfold RestModel.parse_param. rewrite contains_has, has_char_app. cbn [has_char].
  rewrite Ascii.eqb_refl, orb_true_r. cbn [orb].
  rewrite cut_no_char by (apply (free_in _ _ _ F); cbn; tauto).
  destruct v as [|a v]; [now destruct Nv|].
  assert (X1 : has_char "%"%char (String a v) = false) by (apply (free_in _ _ _ Fv); cbn; tauto).
  assert (X2 : has_char "$"%char (String a v) = false) by (apply (free_in _ _ _ Fv); cbn; tauto).
  cbn in X1, X2. apply orb_false_iff in X1 as [X1 _]. apply orb_false_iff in X2 as [X2 _].
  destruct a as [[] [] [] [] [] [] [] []]; reflexivity || discriminate.
Qed.
Lemma parse_query_items items : forall p0 dp dq st,
  Forall good_titem items -> Forall num_ok (titem_params items) ->
  pos st = Z.of_nat p0 -> plist st = plist_of dp dq ->
  Forall (fun r => snd r < nargs) (refers p0 (titem_params items)) ->
  coherent (dp ++ dq ++ refers p0 (titem_params items)) ->
  parse_query nargs sparam fields (map write_titem items) st =
    Ok (Some {| pos := Z.of_nat (last_pos p0 (titem_params items));
                plist := plist_of dp (dq ++ refers p0 (titem_params items));
                pstatic := pstatic st ++ titem_consts items |}).
Proof.
  induction items as [|x items IH]; intros p0 dp dq st G O Ep El L C.
  - cbn. rewrite !List.app_nil_r. do 2 f_equal. destruct st. cbn in *. now subst.
  - inversion G as [|? ? Gx G']. subst. cbn [map parse_query].
    assert (ST : starts "%"%char (write_titem x) = false).
    { destruct x as [k v|p]; cbn [write_titem]; [apply good_name_start, Gx|]. rewrite write_param_fmt. apply good_name_start, Gx. }
    unfold parse_query_param. rewrite ST. destruct x as [k v|p].
    + rewrite (parse_const k v InQuery st Gx). cbn [titem_params titem_consts flat_map app] in *.
      rewrite (IH p0 dp dq); try assumption. cbn [pstatic]. now rewrite <- app_assoc.
    + cbn [titem_params titem_consts flat_map app] in *. cbn [write_titem].
      inversion O as [|? ? Op O']. cbn [refers] in L. inversion L as [|? ? Lp L']. subst. cbn in Lp.
      rewrite (parse_one p InQuery st p0 dp dq); try assumption.
      * cbn [add_ref fst snd]. cbn zeta. cbn [refers last_pos].
        rewrite (IH (match t_num p with Some n => n | None => S p0 end) dp (dq ++ [(t_name p, (match t_num p with Some n => n | None => S p0 end) - 1)])); try assumption; try reflexivity.
        -- cbn [pstatic]. now rewrite <- app_assoc.
        -- rewrite <- app_assoc. exact C.
      * intros a b i j Ha Hb. apply C; cbn [refers] in *; rewrite !in_app_iff; cbn [In] in *;
          rewrite ?in_app_iff in *; cbn [In] in *; tauto.
Qed.
Lemma nil_plist : plist (pnew nargs) = plist_of [] [].
Proof.
  unfold pnew, plist_of. cbn [plist]. assert (X : forall a n, repeat no_param n = map (expect [] []) (seq a n)).
  { intros a n. revert a. induction n as [|n IH]; intro a; [reflexivity|]. cbn [repeat seq map]. now rewrite <- IH. }
  apply X.
Qed.
End Parse.

(** ** The path of a tag *)
Lemma split_first c s t : has_char c s = false -> forall h l, split c t = h :: l -> split c (s ++ t) = (s ++ h)%string :: l.
Proof.
  intros F h l E. induction s as [|a s IH]; [exact E|]. cbn in F. apply orb_false_iff in F as [Ha F].
  cbn [String.append split]. now rewrite Ha, IH.
Qed.
Definition in_braces (t : string) (ps : list string) : Prop :=
  exists h l, split "{"%char t = h :: l /\ braces l = Some ps.
Lemma in_braces_lit s t ps : has_char "{"%char s = false -> in_braces t ps -> in_braces (s ++ t) ps.
Proof. intros F (h & l & E & B). exists (s ++ h)%string, l. split; [now apply split_first|exact B]. Qed.
Lemma in_braces_par w t ps : has_char "{"%char w = false -> has_char "}"%char w = false -> in_braces t ps ->
  in_braces ("{" ++ w ++ "}" ++ t)%string (w :: ps).
Proof.
  intros F G (h & l & E & B). exists "", ((w ++ String "}" h)%string :: l). split.
  - cbn [String.append split]. rewrite Ascii.eqb_refl. f_equal. apply split_first; [exact F|].
    cbn [String.append split]. now rewrite E.
  - cbn [braces]. rewrite cut_no_char by exact G. now rewrite B.
Qed.
Lemma write_param_free p c : good_name (t_name p) -> In c [" "; "/"; "{"; "}"; "?"; "&"]%char ->
  has_char c (write_param p) = false.
Proof.
  intros [N F] I. rewrite write_param_fmt, has_char_app. cbn [has_char].
  assert (X : has_char c (t_name p) = false) by (apply (free_in _ _ _ F); cbn in *; tauto).
  rewrite X. unfold fmt. rewrite !has_char_app.
  assert (Y : match t_num p with Some n => has_char c ("[" ++ decimal n ++ "]")%string | None => false end = false).
  { destruct (t_num p) as [n|]; [|reflexivity]. rewrite !has_char_app.
    rewrite decimal_free by (cbn in *; tauto). cbn in I. intuition subst; reflexivity. }
  assert (Z : has_char c (match t_num p with Some n => "[" ++ decimal n ++ "]" | None => "" end)%string = false)
    by (destruct (t_num p); [exact Y|reflexivity]).
  rewrite Z. cbn in I. intuition subst; reflexivity.
Qed.
Lemma tsegs_in_braces segs : Forall good_tseg segs ->
  in_braces (String.concat "/" (map write_tseg segs)) (map write_param (tseg_params segs)).
Proof.
  induction segs as [|x segs IH]; intro G; [exists "", []; now split|].
  inversion G as [|? ? Gx G']. subst. specialize (IH G').
  assert (T : exists t, String.concat "/" (map write_tseg (x :: segs)) = (write_tseg x ++ t)%string /\
                        in_braces t (map write_param (tseg_params segs))).
  { cbn [map]. destruct (map write_tseg segs) as [|y r] eqn:E.
    - exists "". cbn. rewrite app_nil_s. split; [reflexivity|]. exact IH.
    - exists ("/" ++ String.concat "/" (y :: r))%string. split; [reflexivity|].
      now apply in_braces_lit. }
  destruct T as (t & -> & B). destruct x as [s|p]; cbn [write_tseg tseg_params flat_map app].
  - apply in_braces_lit; [|exact B]. destruct Gx as [_ F]. apply (free_in _ _ _ F). cbn; tauto.
  - cbn [map]. rewrite app_assoc_s, app_assoc_s. apply in_braces_par; [| |exact B]; apply write_param_free; cbn in *; tauto.
Qed.
Lemma parse_path_written nargs sparam segs st : Forall good_tseg segs ->
  parse_path_tag nargs sparam (render_path (map write_tseg segs)) st =
  parse_params nargs sparam (map write_param (tseg_params segs)) InPath st.
Proof.
  intro G. unfold parse_path_tag, render_path. cbn [String.append].
  destruct (tsegs_in_braces segs G) as (h & l & -> & ->). reflexivity.
Qed.

Definition clean (s : string) : string := cleanup (drop_verb s).
Lemma clean_lit s t : has_char "="%char s = false -> clean (s ++ t) = (s ++ clean t)%string.
Proof. intro F. unfold clean. now rewrite drop_verb_app, cleanup_app. Qed.
Lemma clean_par p t : good_name (t_name p) ->
  clean ("{" ++ write_param p ++ "}" ++ t) = ("{" ++ t_name p ++ "}" ++ clean t)%string.
Proof.
  intros [N F]. assert (Fe : has_char "="%char (t_name p) = false) by (apply (free_in _ _ _ F); cbn; tauto).
  rewrite write_param_fmt, !app_assoc_s. rewrite (clean_lit "{") by reflexivity. f_equal.
  rewrite clean_lit by exact Fe. f_equal. unfold fmt. destruct (t_num p) as [k|].
  - cbn [String.append]. rewrite !app_assoc_s. cbn [String.append]. unfold clean.
    rewrite drop_verb_numbered.
    assert (D : drop_verb (String "%" (String "[" (decimal k ++ String "]" (String "v" (String "}" t))))) =
                (("%[" ++ decimal k ++ "]v") ++ String "}" (drop_verb t))%string).
    { replace (String "%" (String "[" (decimal k ++ String "]" (String "v" (String "}" t)))))
        with (("%[" ++ decimal k ++ "]v}") ++ t)%string by (cbn [String.append]; now rewrite app_assoc_s).
      rewrite drop_verb_app.
      - cbn [String.append]. now rewrite !app_assoc_s.
      - rewrite !has_char_app. rewrite decimal_free by (cbn; tauto). reflexivity. }
    rewrite D, cleanup_eq; [reflexivity|discriminate|].
    rewrite !has_char_app. rewrite decimal_free by (cbn; tauto). reflexivity.
  - cbn [String.append]. unfold clean. rewrite drop_verb_verb. rewrite drop_verb_other by reflexivity.
    change (String "}" (drop_verb t)) with ("}" ++ drop_verb t)%string. now rewrite cleanup_app.
Qed.
Lemma clean_tsegs segs : Forall good_tseg segs ->
  clean (render_path (map write_tseg segs)) = render_path (map render_seg (pattern_of segs)).
Proof.
  intro G. unfold render_path. rewrite clean_lit by reflexivity. f_equal.
  induction segs as [|x segs IH]; [reflexivity|]. inversion G as [|? ? Gx G']. subst. specialize (IH G').
  assert (X : forall t, clean (write_tseg x ++ t) =
    (render_seg (match x with TLit s => Lit s | TPar p => Var (t_name p) end) ++ clean t)%string).
  { intro t. destruct x as [s|p]; cbn [write_tseg render_seg].
    - apply clean_lit. destruct Gx as [_ F]. apply (free_in _ _ _ F). cbn; tauto.
    - rewrite app_assoc_s, app_assoc_s, clean_par by exact Gx. now rewrite !app_assoc_s. }
  cbn [map pattern_of]. destruct segs as [|y segs].
  - cbn [map String.concat]. rewrite <- (app_nil_s (write_tseg x)), X. now rewrite app_nil_s.
  - cbn [map] in *. cbn [String.concat] in *. rewrite X. f_equal.
    rewrite clean_lit by reflexivity. f_equal. exact IH.
Qed.

(** ** Body parameters *)
Lemma skipn_next {A} k (l : list A) x r : skipn k l = x :: r -> skipn (S k) l = r.
Proof.
  revert l. induction k as [|k IH]; intros l E; destruct l as [|y l]; try discriminate.
  - now injection E as -> ->.
  - exact (IH l E).
Qed.
Lemma in_body_expect dp dq i : in_body (expect dp dq i) = negb (existsb (is_ref i) (dp ++ dq)).
Proof. unfold in_body, expect. cbn [p_path p_query p_void]. now rewrite existsb_app, orb_false_r. Qed.
Section Body.
Variables dp dq : list (string * nat).
Variable rules : list string.
Definition unref (i : nat) : bool := negb (existsb (is_ref i) (dp ++ dq)).
Definition rank (i : nat) : nat := List.length (filter unref (seq 0 i)).
Definition fin (i : nat) : param :=
  if unref i then {| p_name := nth (rank i) rules ""; p_path := false; p_query := false; p_void := false; p_index := [i] |}
  else expect dp dq i.
Lemma rank_S i : rank (S i) = rank i + if unref i then 1 else 0.
Proof.
  unfold rank. rewrite seq_S, filter_app, app_length. cbn. now destruct (unref i).
Qed.
Lemma fin_in_body i : in_body (fin i) = unref i.
Proof. unfold fin. destruct (unref i) eqn:E; [reflexivity|]. now rewrite in_body_expect. Qed.
Lemma fin_index i : p_index (fin i) = [i].
Proof.
  unfold fin. destruct (unref i) eqn:E; [reflexivity|]. unfold unref in E. apply negb_false_iff in E.
  unfold expect. cbn [p_index]. now rewrite E.
Qed.
Lemma fin_void i : p_void (fin i) = false.
Proof. unfold fin. now destruct (unref i). Qed.
Lemma parse_body_rules n : forall a, rules <> [] -> rank (a + n) <= List.length rules ->
  parse_body a (skipn (rank a) rules) true (map (expect dp dq) (seq a n)) = Some (map fin (seq a n)).
Proof.
  induction n as [|n IH]; intros a N L; [reflexivity|]. cbn [seq map parse_body].
  rewrite in_body_expect. fold (unref a).
  assert (M : rank (S a) <= rank (a + S n)).
  { unfold rank. replace (a + S n) with (S a + n) by lia. rewrite (seq_app (S a) n 0), filter_app, app_length. lia. }
  rewrite rank_S in M.
  assert (R : parse_body (S a) (skipn (rank (S a)) rules) true (map (expect dp dq) (seq (S a) n)) =
              Some (map fin (seq (S a) n))).
  { apply IH; [exact N|]. now replace (S a + n) with (a + S n) by lia. }
  rewrite rank_S in R. unfold fin at 1. destruct (unref a) eqn:E.
  - destruct (skipn (rank a) rules) as [|x r] eqn:K.
    + exfalso. apply (f_equal (@List.length _)) in K. rewrite skipn_length in K. cbn in K. lia.
    + replace (skipn (rank a + 1) rules) with r in R.
      * rewrite R. cbn [option_map]. do 2 f_equal. f_equal.
        rewrite <- (firstn_skipn (rank a) rules), K, app_nth2; rewrite firstn_length; [|lia].
        replace (rank a - Nat.min (rank a) (List.length rules)) with 0 by lia. reflexivity.
      * replace (rank a + 1) with (S (rank a)) by lia.
        symmetry. exact (skipn_next _ _ _ _ K).
  - replace (rank a + 0) with (rank a) in R by lia. now rewrite R.
Qed.
Lemma parse_body_plain n : forall a, rules = [] ->
  parse_body a [] false (map (expect dp dq) (seq a n)) = Some (map fin (seq a n)).
Proof.
  induction n as [|n IH]; intros a N; [reflexivity|]. cbn [seq map parse_body].
  rewrite in_body_expect. fold (unref a). rewrite (IH (S a) N).
  destruct (unref a) eqn:E; cbn [option_map]; do 2 f_equal; unfold fin; rewrite E; [|reflexivity].
  f_equal. unfold unref in E. apply negb_true_iff in E.
  unfold expect. cbn [p_name]. rewrite name_of_out by exact E. rewrite N. now destruct (rank a).
Qed.
Lemma filter_fin l : filter in_body (map fin l) = map fin (filter unref l).
Proof.
  induction l as [|i l IH]; [reflexivity|]. cbn [map filter]. rewrite fin_in_body. destruct (unref i); [|exact IH].
  cbn [map]. now rewrite IH.
Qed.
Lemma body_names_rules n : rank n <= List.length rules ->
  map p_name (map fin (filter unref (seq 0 n))) = firstn (rank n) rules.
Proof.
  induction n as [|n IH]; intro L; [reflexivity|]. rewrite seq_S, filter_app, !map_app. cbn [Nat.add filter].
  rewrite rank_S in L. rewrite IH by lia. rewrite rank_S. destruct (unref n) eqn:E.
  - cbn [map]. unfold fin. rewrite E. cbn [p_name].
    rewrite <- (firstn_skipn (rank n) rules) at 3. rewrite firstn_app.
    rewrite firstn_firstn, firstn_length. replace (Nat.min (rank n + 1) (rank n)) with (rank n) by lia.
    replace (rank n + 1 - Nat.min (rank n) (List.length rules)) with 1 by lia. f_equal.
    destruct (skipn (rank n) rules) as [|x r] eqn:K.
    + exfalso. apply (f_equal (@List.length _)) in K. rewrite skipn_length in K. cbn in K. lia.
    + cbn [firstn]. f_equal.
      rewrite <- (firstn_skipn (rank n) rules), K, app_nth2; rewrite firstn_length; [|lia].
      now replace (rank n - Nat.min (rank n) (List.length rules)) with 0 by lia.
  - cbn [map]. rewrite List.app_nil_r. f_equal. lia.
Qed.
End Body.

(** ** The whole tag *)
Lemma has_path_char c segs : c <> "/"%char -> Forall good_tseg segs -> In c [" "; "?"]%char ->
  has_char c (render_path (map write_tseg segs)) = false.
Proof.
  intros NS G I. unfold render_path. rewrite has_char_app.
  assert (SL : has_char c "/" = false) by (cbn in I; intuition subst; reflexivity).
  rewrite SL. cbn [orb]. apply has_join; [exact SL|]. apply Forall_map. eapply Forall_impl; [|exact G].
  intros [s|p] Gx; cbn [write_tseg].
  - destruct Gx as [_ F]. apply (free_in _ _ _ F). cbn in *; tauto.
  - rewrite !has_char_app, write_param_free; [|exact Gx|cbn in *; tauto]. cbn in I. intuition subst; reflexivity.
Qed.
Lemma titem_free c x : good_titem x -> In c [" "; "&"]%char -> has_char c (write_titem x) = false.
Proof.
  intros G I. destruct x as [k v|p]; cbn [write_titem].
  - destruct G as [[_ F] [_ Fv]]. rewrite !has_char_app.
    rewrite (free_in _ _ _ F), (free_in _ _ _ Fv) by (cbn in *; tauto). cbn in I. intuition subst; reflexivity.
  - apply write_param_free; [exact G|]. cbn in *; tauto.
Qed.
Lemma target_space segs query : Forall good_tseg segs -> Forall good_titem query ->
  has_char space (target segs query) = false.
Proof.
  intros G Q. unfold target. rewrite has_char_app, has_path_char; [|discriminate|exact G|now left]. cbn [orb].
  destruct query as [|x q]; [reflexivity|]. rewrite has_char_app. cbn [has_char].
  rewrite has_join; [reflexivity|reflexivity|]. apply Forall_map. eapply Forall_impl; [|exact Q].
  intros y Gy. apply titem_free; [exact Gy|now left].
Qed.
Lemma cut_none c s : has_char c s = false -> cut c s = (s, "", false).
Proof.
  induction s as [|a s IH]; intro F; [reflexivity|]. cbn in F. apply orb_false_iff in F as [Ha F].
  cbn [cut]. now rewrite Ha, IH.
Qed.
Lemma query_refs_eq segs query : query_refs segs query = refers (last_pos 0 (tseg_params segs)) (titem_params query).
Proof.
  unfold query_refs. rewrite refers_app. rewrite <- (refers_length 0 (tseg_params segs)).
  rewrite skipn_app, skipn_all, Nat.sub_diag. reflexivity.
Qed.
Lemma all_refs_eq segs query : all_refs segs query = path_refs segs ++ query_refs segs query.
Proof. rewrite query_refs_eq. apply refers_app. Qed.
Lemma tseg_names segs : Forall good_tseg segs -> Forall (fun p => good_name (t_name p)) (tseg_params segs).
Proof.
  induction 1 as [|x segs G F IH]; [constructor|]. cbn. destruct x; [exact IH|]. constructor; [exact G|exact IH].
Qed.

Definition params_of (n : nat) (segs : list tseg) (query : list titem) (rules : list string) : list param :=
  map (fin (path_refs segs) (query_refs segs query) rules) (seq 0 n).
Lemma unreferenced_eq n segs query :
  unreferenced n segs query = filter (unref (path_refs segs) (query_refs segs query)) (seq 0 n).
Proof. unfold unreferenced, unref. now rewrite all_refs_eq. Qed.

Lemma load_written n sparam fields m segs query rules results :
  good_method m -> good_tag n segs query -> good_rules rules -> good_rules results ->
  (forall r s x, results = r :: s -> r <> String "("%char x) ->
  (rules <> [] -> List.length rules = List.length (unreferenced n segs query)) ->
  load_operation n sparam fields (tag m (target segs query) rules results) =
    Ok (Some {| o_method := m; o_path := render_path (map render_seg (pattern_of segs));
                o_params := params_of n segs query rules; o_static := titem_consts query; o_rules := rules |}).
Proof.
  intros [Nm Fm] (Gs & Gq & Sm & No & Lt & Co & Nd) Gr Gres Gp Len.
  assert (Hm : has_char space m = false) by (apply (free_in _ _ _ Fm); now left).
  pose proof (target_space segs query Gs Gq) as Ht.
  unfold load_operation. rewrite split_tag by assumption. unfold tag_parts. cbn [app].
  destruct (String.eqb_spec m ""); [contradiction|].
  rewrite contains_has. rewrite (free_in _ _ _ Fm) by (right; now left).
  rewrite all_refs_eq in Lt, Co. apply Forall_app in Lt as [Lp Lq]. apply Forall_app in No as [Np Nq].
  rewrite query_refs_eq in *.
  assert (P : parse_path_tag n sparam (render_path (map write_tseg segs)) (pnew n) =
    Ok (Some {| pos := Z.of_nat (last_pos 0 (tseg_params segs)); plist := plist_of n (path_refs segs) []; pstatic := [] |})).
  { rewrite parse_path_written by exact Gs.
    rewrite (parse_path_params n sparam fields Sm (tseg_params segs) 0 []); try assumption; try reflexivity.
    - now apply tseg_names.
    - apply nil_plist.
    - intros a b i j Ha Hb. apply Co; apply in_or_app; now left. }
  assert (Q : (let '(path, q, has) := cut "?"%char (target segs query) in
      (path, if has : bool then parse_query n sparam fields (split "&"%char q)
         {| pos := Z.of_nat (last_pos 0 (tseg_params segs)); plist := plist_of n (path_refs segs) []; pstatic := [] |}
       else Ok (Some {| pos := Z.of_nat (last_pos 0 (tseg_params segs)); plist := plist_of n (path_refs segs) []; pstatic := [] |}))) =
    (render_path (map write_tseg segs),
     Ok (Some {| pos := Z.of_nat (last_pos (last_pos 0 (tseg_params segs)) (titem_params query));
                 plist := plist_of n (path_refs segs) (query_refs segs query); pstatic := titem_consts query |}))).
  { unfold target. assert (PQ : has_char "?"%char (render_path (map write_tseg segs)) = false).
    { apply has_path_char; [discriminate|exact Gs|right; now left]. }
    rewrite query_refs_eq. destruct query as [|x q].
    - rewrite app_nil_s, cut_none by exact PQ. reflexivity.
    - change ("?" ++ ?z)%string with (String "?" z). rewrite cut_no_char by exact PQ. f_equal.
      change "&" with (String "&" ""). rewrite split_join.
      + rewrite (parse_query_items n sparam fields Sm (x :: q) (last_pos 0 (tseg_params segs)) (path_refs segs) []); try assumption; try reflexivity.
      + discriminate.
      + apply Forall_map. eapply Forall_impl; [|exact Gq]. intros y Gy. apply titem_free; [exact Gy|right; now left]. }
  destruct (cut "?"%char (target segs query)) as [[path q] has] eqn:Ecut.
  injection Q as -> Q. rewrite P. cbn [obind]. 
  replace (if has then parse_query n sparam fields (split "&"%char q) _ else _) with
    (Ok (Some {| pos := Z.of_nat (last_pos (last_pos 0 (tseg_params segs)) (titem_params query));
                 plist := plist_of n (path_refs segs) (query_refs segs query); pstatic := titem_consts query |})) by (symmetry; exact Q).
  cbn [obind]. rewrite argument_rules_tag by assumption. cbn [obind plist pstatic].
  fold (clean (render_path (map write_tseg segs))). rewrite clean_tsegs by exact Gs.
  unfold plist_of, params_of. destruct rules as [|r0 rules].
  - rewrite (parse_body_plain _ _ []) by reflexivity. reflexivity.
  - specialize (Len ltac:(discriminate)). rewrite unreferenced_eq in Len.
    fold (rank (path_refs segs) (query_refs segs query) n) in Len.
    pose proof (parse_body_rules (path_refs segs) (query_refs segs query) (r0 :: rules) n 0) as B.
    change (rank (path_refs segs) (query_refs segs query) 0) with 0 in B. cbn [skipn Nat.add] in B.
    rewrite B; [|discriminate|cbn [List.length] in *; lia].
    rewrite filter_fin, map_length. fold (rank (path_refs segs) (query_refs segs query) n).
    rewrite <- Len, Nat.eqb_refl. reflexivity.
Qed.
