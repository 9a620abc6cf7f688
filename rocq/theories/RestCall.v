From Verif Require Import GoBase MuxModel MuxSpec MuxProofs MuxProps RestModel RestSpec RestProofs.
Local Open Scope nat_scope.

(** ** Escaping *)
Lemma unhex_byte a : keep_byte a = false ->
  unhex (hex (nat_of_ascii a / 16)) = Some (nat_of_ascii a / 16) /\
  unhex (hex (nat_of_ascii a mod 16)) = Some (nat_of_ascii a mod 16) /\
  ascii_of_nat (16 * (nat_of_ascii a / 16) + nat_of_ascii a mod 16) = a.
Proof. destruct a as [[] [] [] [] [] [] [] []]; intros _; vm_compute; repeat split. Qed.
Lemma keep_not_percent a : keep_byte a = true -> Ascii.eqb a "%"%char = false.
Proof. destruct a as [[] [] [] [] [] [] [] []]; intro E; try reflexivity; discriminate. Qed.
Lemma unescape_escape s t : path_unescape (path_escape s ++ t) = option_map (append s) (path_unescape t).
Proof.
  induction s as [|a s IH]; [cbn; now destruct (path_unescape t)|]. cbn [path_escape].
  destruct (keep_byte a) eqn:K.
  - cbn [String.append path_unescape]. rewrite keep_not_percent by exact K. rewrite IH.
    now destruct (path_unescape t).
  - destruct (unhex_byte a K) as (E1 & E2 & E3). cbn [String.append path_unescape].
    rewrite Ascii.eqb_refl, E1, E2, E3, IH. now destruct (path_unescape t).
Qed.
Lemma unescape_lit s t : has_char "%"%char s = false -> path_unescape (s ++ t) = option_map (append s) (path_unescape t).
Proof.
  induction s as [|a s IH]; intro F; [cbn; now destruct (path_unescape t)|]. cbn in F. apply orb_false_iff in F as [Ha F].
  cbn [String.append path_unescape]. rewrite Ha, IH by exact F. now destruct (path_unescape t).
Qed.
Lemma hex_not_brace n : n < 16 -> Ascii.eqb (hex n) "{"%char = false.
Proof. intro L. do 16 (destruct n as [|n]; [reflexivity|]). lia. Qed.
Lemma escape_brace s : has_char "{"%char (path_escape s) = false.
Proof.
  induction s as [|a s IH]; [reflexivity|]. cbn [path_escape].
  destruct (keep_byte a) eqn:K; cbn [has_char]; rewrite IH.
  - rewrite orb_false_r. destruct a as [[] [] [] [] [] [] [] []]; try reflexivity; discriminate.
  - assert (L1 : nat_of_ascii a / 16 < 16).
    { apply Nat.div_lt_upper_bound; [lia|]. pose proof (nat_ascii_bounded a). lia. }
    assert (L2 : nat_of_ascii a mod 16 < 16) by (apply Nat.mod_upper_bound; lia).
    now rewrite !hex_not_brace.
Qed.

(** ** Replacing placeholders *)
Notation brace n := ("{" ++ n ++ "}")%string.
Lemma prefix_rest_app p s : prefix_rest p (p ++ s) = Some s.
Proof. induction p as [|a p IH]; [reflexivity|]. cbn. now rewrite Ascii.eqb_refl. Qed.
Lemma replace_lit n w s t : has_char "{"%char s = false ->
  replace1 (brace n) w (s ++ t) = (s ++ replace1 (brace n) w t)%string.
Proof.
  induction s as [|a s IH]; intro F; [reflexivity|]. cbn in F. apply orb_false_iff in F as [Ha F].
  cbn [String.append replace1 prefix_rest]. rewrite Ascii.eqb_sym, Ha. f_equal. now apply IH.
Qed.
Lemma replace_hit n w t : replace1 (brace n) w (brace n ++ t) = (w ++ t)%string.
Proof.
  destruct (brace n ++ t)%string as [|a r] eqn:E; [discriminate|]. cbn [replace1]. rewrite <- E, prefix_rest_app. reflexivity.
Qed.
Lemma prefix_other n m t : n <> m -> has_char "}"%char n = false -> has_char "}"%char m = false ->
  prefix_rest (n ++ "}") (m ++ "}" ++ t) = None.
Proof.
  revert m. induction n as [|a n IH]; intros m N Fn Fm.
  - destruct m as [|b m]; [now destruct N|]. cbn in Fm. apply orb_false_iff in Fm as [Hb Fm].
    cbn [String.append prefix_rest]. now rewrite Ascii.eqb_sym, Hb.
  - cbn in Fn. apply orb_false_iff in Fn as [Ha Fn]. destruct m as [|b m]; cbn [String.append prefix_rest].
    + now rewrite Ha.
    + cbn in Fm. apply orb_false_iff in Fm as [Hb Fm]. destruct (Ascii.eqb_spec a b); [|reflexivity].
      subst. apply IH; [congruence|exact Fn|exact Fm].
Qed.
Lemma replace_other n m w t : n <> m -> has_char "}"%char n = false -> has_char "}"%char m = false ->
  has_char "{"%char m = false ->
  replace1 (brace n) w (brace m ++ t) = (brace m ++ replace1 (brace n) w t)%string.
Proof.
  intros N Fn Fm Bm. rewrite !app_assoc_s.
  change ("{" ++ m ++ "}" ++ t)%string with (String "{" (m ++ "}" ++ t)).
  cbn [replace1]. change (prefix_rest (brace n) (String "{" (m ++ "}" ++ t))) with (prefix_rest (n ++ "}") (m ++ "}" ++ t)).
  rewrite prefix_other by assumption. change ("{" ++ ?z)%string with (String "{" z). f_equal.
  change (String "{" (n ++ "}")) with (brace n).
  rewrite replace_lit by exact Bm. f_equal.
Qed.

(** A path of segments, each with its slash. *)
Definition cat (l : list string) : string := fold_right (fun y acc => "/" ++ y ++ acc)%string "" l.
Lemma render_cat x l : render_path (x :: l) = cat (x :: l).
Proof.
  unfold render_path. cbn [cat fold_right]. f_equal. revert x. induction l as [|y l IH]; intro x.
  - cbn. now rewrite app_nil_s.
  - cbn [String.concat fold_right]. f_equal. f_equal. apply IH.
Qed.

Section Fill.
Variable idx : string -> nat.
Variable value : string -> string.   (* the text for a placeholder *)
Definition fill (k : nat) (s : seg) : string :=
  match s with Lit s => s | Var n => if Nat.ltb (idx n) k then path_escape (value n) else brace n end.
Definition seg_ok (s : seg) : Prop :=
  match s with
  | Lit s => has_char "{"%char s = false /\ has_char "%"%char s = false
  | Var n => has_char "{"%char n = false /\ has_char "}"%char n = false
  end.
Definition var_names (pat : list seg) : list string := flat_map (fun s => match s with Lit _ => [] | Var n => [n] end) pat.
Lemma var_in n pat : In n (var_names pat) <-> In (Var n) pat.
Proof.
  unfold var_names. rewrite in_flat_map. split.
  - intros ([s|m] & I & E); [destruct E|]. destruct E as [<-|[]]. exact I.
  - intro I. exists (Var n). split; [exact I|now left].
Qed.
Lemma fill_same pat k : (forall n, In n (var_names pat) -> idx n <> k) -> map (fill (S k)) pat = map (fill k) pat.
Proof.
  intro N. apply map_ext_in. intros [s|n] I; [reflexivity|]. cbn [fill]. apply var_in in I. specialize (N n I).
  destruct (Nat.ltb_spec (idx n) (S k)), (Nat.ltb_spec (idx n) k); try reflexivity; lia.
Qed.
Lemma replace_fill n k pat : Forall seg_ok pat -> NoDup (var_names pat) ->
  (forall m, In m (var_names pat) -> idx m = k -> m = n) -> idx n = k -> In n (var_names pat) ->
  replace1 (brace n) (path_escape (value n)) (cat (map (fill k) pat)) = cat (map (fill (S k)) pat).
Proof.
  intros F ND U E I.
  assert (Bn : has_char "}"%char n = false).
  { apply var_in in I. apply (proj1 (Forall_forall _ _) F _ I). }
  induction F as [|x pat Hx F IH]; [destruct I|].
  cbn [map cat fold_right]. fold (cat (map (fill k) pat)). fold (cat (map (fill (S k)) pat)).
  rewrite replace_lit by reflexivity. f_equal. destruct x as [s|m].
  - cbn [fill]. rewrite replace_lit by apply Hx. f_equal. apply IH; [exact ND|exact U|exact I].
  - cbn [var_names flat_map app] in ND, I, U. inversion ND as [|? ? NI ND']. subst.
    destruct (string_dec m n) as [->|D].
    + cbn [fill]. destruct (Nat.ltb_spec (idx n) (idx n)); [lia|]. destruct (Nat.ltb_spec (idx n) (S (idx n))); [|lia].
      rewrite replace_hit. f_equal. rewrite fill_same; [reflexivity|].
      intros q Iq Eq. assert (q = n) by (apply U; [now right|exact Eq]). subst q. contradiction.
    + assert (In n (var_names pat)) by (destruct I as [I|I]; [now destruct D|exact I]).
      assert (R : replace1 (brace n) (path_escape (value n)) (cat (map (fill (idx n)) pat)) = cat (map (fill (S (idx n))) pat)).
      { apply IH; [exact ND'| |assumption]. intros q Iq. apply U. now right. }
      assert (idx m <> idx n) by (intro X; apply D, U; [now left|exact X]).
      cbn [fill]. destruct (Nat.ltb_spec (idx m) (idx n)), (Nat.ltb_spec (idx m) (S (idx n))); try lia.
      * rewrite replace_lit by apply escape_brace. now f_equal.
      * rewrite replace_other; [now f_equal|congruence|exact Bn|apply Hx|apply Hx].
Qed.
Definition filled (s : seg) : string := match s with Lit s => s | Var n => value n end.
Lemma unescape_fill pat k : Forall seg_ok pat -> (forall n, In n (var_names pat) -> idx n < k) ->
  path_unescape (render_path (map (fill k) pat)) = Some (render_path (map filled pat)).
Proof.
  intros F L. destruct pat as [|x pat]; [reflexivity|]. cbn [map]. rewrite !render_cat.
  change (fill k x :: map (fill k) pat) with (map (fill k) (x :: pat)).
  change (filled x :: map filled pat) with (map filled (x :: pat)). revert F L.
  generalize (x :: pat). intros l F L. induction F as [|y l Hy F IH]; [reflexivity|].
  cbn [map cat fold_right]. fold (cat (map (fill k) l)). fold (cat (map filled l)).
  rewrite unescape_lit by reflexivity.
  assert (R : path_unescape (cat (map (fill k) l)) = Some (cat (map filled l))).
  { apply IH. intros n I. apply L. cbn [var_names flat_map]. apply in_or_app. now right. }
  destruct y as [s|n]; cbn [fill filled].
  - rewrite unescape_lit by apply Hy. now rewrite R.
  - assert (idx n < k) by (apply L; cbn; now left). destruct (Nat.ltb_spec (idx n) k); [|lia].
    rewrite unescape_escape. now rewrite R.
Qed.
End Fill.

(** ** The call *)
Lemma unsnoc_inv a : forall x c, unsnoc a = Some (x, c) -> a = (x ++ String c "")%string.
Proof.
  induction a as [|b a IH]; intros x c E; [discriminate|]. cbn in E.
  destruct (unsnoc a) as [[y d]|] eqn:U; injection E as <- <-.
  - cbn. f_equal. now apply IH.
  - destruct a as [|b' a]; [reflexivity|]. cbn in U. destruct (unsnoc a) as [[]|]; discriminate.
Qed.
Section CallProof.
Variable V : Type.
Variable zero : V.
Variable is_zero : V -> bool.
Variable text : V -> string.
Variable scan : string -> option V.
Variable of_obj : list (string * arg V) -> option (arg V).
Variables dp dq : list (string * nat).
Variable rules : list string.
Variable args : list (arg V).
Variable pat : list seg.
Notation n := (List.length args).
Notation fn := (fin dp dq rules).
Notation un := (unref dp dq).
Notation refs := (dp ++ dq).
Definition the_arg (i : nat) : arg V := nth i args (One zero).
Definition idx_of (a : string) : nat :=
  match List.find (fun r => String.eqb (fst r) a) refs with Some (_, i) => i | None => 0 end.
Definition value_of (a : string) : string := arg_text text (the_arg (idx_of a)).

Hypothesis co : coherent refs.
Hypothesis names_ok : Forall (fun r => good_name (fst r)) refs.
Hypothesis in_range : Forall (fun r => snd r < n) refs.
Hypothesis pat_ok : Forall seg_ok pat.
Hypothesis pat_vars : var_names pat = map fst dp.
Hypothesis pat_nodup : NoDup (map fst dp).
(** arguments of the path and of the query *)
Hypothesis path_args : forall a i, In (a, i) dp ->
  exists v, nth_error args i = Some (One v) /\ text v <> "" /\ scan (text v) = Some v.
Hypothesis query_args : forall a i, In (a, i) dq ->
  exists v, nth_error args i = Some (One v) /\
    if is_zero v then v = zero else text v <> "" /\ scan (text v) = Some v.

Lemma idx_in a i : In (a, i) refs -> idx_of a = i.
Proof.
  intro I. unfold idx_of. destruct (List.find _ refs) as [[b j]|] eqn:E.
  - apply find_some in E as [I' E]. apply String.eqb_eq in E. cbn in E. subst b. now apply (co a a j i).
  - apply (find_none _ _ E) in I. cbn in I. now rewrite String.eqb_refl in I.
Qed.
Lemma fin_path i : p_path (fn i) = existsb (is_ref i) dp.
Proof.
  unfold fin. destruct (un i) eqn:E; [|reflexivity]. unfold unref in E. apply negb_true_iff in E.
  rewrite existsb_app in E. apply orb_false_iff in E as [-> _]. reflexivity.
Qed.
Lemma fin_query i : p_query (fn i) = existsb (is_ref i) dq.
Proof.
  unfold fin. destruct (un i) eqn:E; [|reflexivity]. unfold unref in E. apply negb_true_iff in E.
  rewrite existsb_app in E. apply orb_false_iff in E as [_ ->]. reflexivity.
Qed.
Lemma fin_name a i : In (a, i) refs -> p_name (fn i) = a.
Proof.
  intro I. unfold fin, unref. rewrite (proj2 (exists_ref refs i)) by eauto. cbn. now apply name_of_in.
Qed.
Lemma name_no_star a : good_name a -> has_star a = false.
Proof.
  intros [_ F]. assert (S : has_char "*"%char a = false) by (apply (free_in _ _ _ F); cbn; tauto).
  unfold has_star. destruct (unsnoc a) as [[x c]|] eqn:E; [|reflexivity].
  assert (X : a = (x ++ String c "")%string).
  { now apply unsnoc_inv. }
  subst a. rewrite has_char_app in S. apply orb_false_iff in S as [_ S]. cbn in S.
  destruct c as [[] [] [] [] [] [] [] []]; reflexivity || discriminate.
Qed.

Definition path_at (k : nat) : string := render_path (map (fill idx_of value_of k) pat).
Lemma path_step k : k < n ->
  (if p_path (fn k) then
     replace1 (brace (p_name (fn k)))
       (if has_star (p_name (fn k)) then arg_text text (the_arg k) else path_escape (arg_text text (the_arg k))) (path_at k)
   else path_at k) = path_at (S k).
Proof.
  intro L. rewrite fin_path. destruct (existsb (is_ref k) dp) eqn:E.
  - apply exists_ref in E as (a & I). assert (I' : In (a, k) refs) by (apply in_or_app; now left).
    rewrite (fin_name a k I').
    rewrite name_no_star by exact (proj1 (Forall_forall _ _) names_ok _ I').
    assert (IV : In a (var_names pat)) by (rewrite pat_vars; apply in_map_iff; now exists (a, k)).
    unfold path_at. destruct pat as [|x pt] eqn:P; [destruct IV|]. rewrite <- P in *.
    assert (C : forall k, render_path (map (fill idx_of value_of k) pat) = cat (map (fill idx_of value_of k) pat))
      by (intro k'; rewrite P; apply render_cat).
    rewrite !C. replace (arg_text text (the_arg k)) with (value_of a) by (unfold value_of; now rewrite (idx_in a k)).
    apply replace_fill; [exact pat_ok|rewrite pat_vars; exact pat_nodup| |now apply idx_in|exact IV].
    intros m Im Em. rewrite pat_vars in Im. apply in_map_iff in Im as ([m' j] & <- & Im). cbn [fst] in *.
    assert (Im' : In (m', j) refs) by (apply in_or_app; now left).
    rewrite (idx_in m' j Im') in Em. subst j. now apply (co m' a k k).
  - unfold path_at. f_equal. symmetry. apply fill_same. intros m Im Em. rewrite pat_vars in Im.
    apply in_map_iff in Im as ([m' j] & <- & Im). cbn [fst] in *.
    assert (Im' : In (m', j) refs) by (apply in_or_app; now left).
    rewrite (idx_in m' j Im') in Em. subst j.
    assert (X : existsb (is_ref k) dp = true) by (apply exists_ref; eauto). congruence.
Qed.

Definition qenc (i : nat) : list (string * string) :=
  if p_query (fn i) then encode_query is_zero text (p_name (fn i)) (the_arg i) else [].
Lemma nth_arg_fin i : i < n -> nth_arg args (p_index (fn i)) = Some (the_arg i).
Proof. intro L. rewrite fin_index. cbn. now apply nth_error_nth'. Qed.
Lemma write_all mp m : forall k q mo body, k + m = n ->
  write_params is_zero text mp (map fn (seq k m)) args (path_at k) q mo body =
    Ok (path_at n, q ++ flat_map qenc (seq k m),
        mo ++ (if mp then map (fun i => (p_name (fn i), the_arg i)) (filter un (seq k m)) else []),
        body ++ (if mp then [] else map (fun i => DVal (the_arg i)) (filter un (seq k m)))).
Proof.
  induction m as [|m IH]; intros k q mo body E.
  - cbn. assert (k = n) by lia. subst k. destruct mp; now rewrite !List.app_nil_r.
  - cbn [seq map write_params]. rewrite fin_void, nth_arg_fin by lia. rewrite path_step by lia.
    rewrite fin_in_body. cbn [flat_map filter].
    assert (Q : (if p_query (fn k) then q ++ encode_query is_zero text (p_name (fn k)) (the_arg k) else q) = q ++ qenc k).
    { unfold qenc. destruct (p_query (fn k)); [reflexivity|now rewrite List.app_nil_r]. }
    rewrite Q. destruct (un k); [destruct mp|].
    + rewrite IH by lia. cbn [map]. now rewrite <- !app_assoc.
    + rewrite IH by lia. cbn [map]. now rewrite <- !app_assoc.
    + rewrite IH by lia. now rewrite <- !app_assoc.
Qed.

(** ** Query values *)
Lemma query_get_skip k l1 l2 : ~ In k (map fst l1) -> query_get k (l1 ++ l2) = query_get k l2.
Proof.
  induction l1 as [|[a v] l1 IH]; intro N; [reflexivity|]. cbn in *. destruct (String.eqb_spec k a).
  - subst. exfalso. apply N. now left.
  - apply IH. tauto.
Qed.
Lemma query_get_none k l : ~ In k (map fst l) -> query_get k l = "".
Proof. intro N. rewrite <- (List.app_nil_r l), query_get_skip by exact N. reflexivity. Qed.
Lemma encode_keys a x k : In k (map fst (encode_query is_zero text a x)) -> k = a.
Proof.
  destruct x as [v|vs]; cbn [encode_query].
  - destruct (is_zero v); [intros []|]. intros [<-|[]]. reflexivity.
  - rewrite in_map_iff. intros ([k' t] & <- & I). apply in_flat_map in I as (v & _ & I).
    destruct (is_zero v); [destruct I|]. destruct I as [E|[]]. now injection E as <- _.
Qed.
Lemma query_value static a i v : In (a, i) dq -> nth_error args i = Some (One v) ->
  ~ In a (map fst static) ->
  query_get a (static ++ flat_map qenc (seq 0 n)) = if is_zero v then "" else text v.
Proof.
  intros I E NS. rewrite query_get_skip by exact NS.
  assert (I' : In (a, i) refs) by (apply in_or_app; now right).
  assert (L : i < n) by exact (proj1 (Forall_forall _ _) in_range _ I').
  replace n with (i + (1 + (n - i - 1))) by lia. rewrite seq_app, flat_map_app.
  cbn [Nat.add seq flat_map].
  assert (K : forall j l, i <> j -> In j l -> ~ In a (map fst (qenc j))).
  { intros j l Nj _ X. unfold qenc in X. rewrite fin_query in X.
    destruct (existsb (is_ref j) dq) eqn:Ej; [|destruct X]. apply exists_ref in Ej as (b & Ib).
    assert (Ib' : In (b, j) refs) by (apply in_or_app; now right).
    apply encode_keys in X. rewrite (fin_name b j Ib') in X. subst b. apply Nj. now apply (co a a i j). }
  assert (KL : forall l, ~ In i l -> ~ In a (map fst (flat_map qenc l))).
  { induction l as [|j l IH]; intro Ni; [intros []|]. cbn [flat_map]. rewrite map_app, in_app_iff. intros [X|X].
    - revert X. apply (K j (j :: l)); [intros ->; apply Ni; now left|now left].
    - revert X. apply IH. intro. apply Ni. now right. }
  rewrite query_get_skip by (apply KL; rewrite in_seq; lia).
  assert (Q : qenc i = if is_zero v then [] else [(a, text v)]).
  { unfold qenc. rewrite fin_query, (proj2 (exists_ref dq i)) by eauto. rewrite (fin_name a i I').
    unfold the_arg. rewrite (nth_error_nth _ _ _ E). reflexivity. }
  rewrite Q. destruct (is_zero v).
  - cbn [app]. apply query_get_none, KL. rewrite in_seq. lia.
  - cbn [app query_get]. now rewrite String.eqb_refl.
Qed.

(** ** Reading *)
Definition is_slice (x : arg V) : bool := match x with One _ => false | Many _ => true end.
Variable static : list (string * string).
Hypothesis static_ok : forall a i k v, In (a, i) dq -> In (k, v) static -> k <> a.
Notation q := (static ++ flat_map qenc (seq 0 n)).
Variable vals : list (string * string).
Hypothesis vals_ok : forall a i v, In (a, i) dp -> nth_error args i = Some (One v) -> path_value a vals = text v.

Lemma set_nth_step k zs : k < n -> List.length zs = n ->
  set_nth k (the_arg k) (firstn k args ++ skipn k zs) = firstn (S k) args ++ skipn (S k) zs.
Proof.
  intros L Z. unfold the_arg. clear - L Z. revert zs args L Z. induction k as [|k IH]; intros zs as' L Z.
  - destruct as' as [|a as']; [cbn in L; lia|]. destruct zs as [|z zs]; [discriminate|]. reflexivity.
  - destruct as' as [|a as']; [cbn in L; lia|]. destruct zs as [|z zs]; [discriminate|].
    cbn in L, Z. cbn [firstn skipn app set_nth nth]. f_equal. apply IH; lia.
Qed.
Lemma nth_slices i : i < n -> nth i (map is_slice args) false = is_slice (the_arg i).
Proof. intro L. unfold the_arg. change false with (is_slice (One zero)). apply map_nth. Qed.

Definition docs_for (hr : bool) (l : list nat) : list (doc V) :=
  if hr then [] else map (fun i => DVal (the_arg i)) (filter un l).
Definition fs_for (hr : bool) (l : list nat) : list (arg V) := if hr then map the_arg (filter un l) else [].
Lemma read_one hr k l : k < n ->
  read_param zero scan of_obj hr vals q (fn k) (nth k (map is_slice args) false) (docs_for hr (k :: l)) (fs_for hr (k :: l)) =
    Some (the_arg k, docs_for hr l, fs_for hr l).
Proof.
  intro L. unfold read_param. rewrite fin_in_body. unfold docs_for, fs_for. cbn [filter].
  destruct (un k) eqn:U.
  - destruct hr; reflexivity.
  - rewrite nth_slices by exact L. unfold unref in U. apply negb_false_iff in U.
    rewrite existsb_app in U. rewrite fin_path, fin_query.
    destruct (existsb (is_ref k) dp) eqn:Ep, (existsb (is_ref k) dq) eqn:Eq; [..|discriminate].
    + apply exists_ref in Ep as (a & Ia). apply exists_ref in Eq as (b & Ib).
      destruct (path_args a k Ia) as (v & Ev & Nt & Sv). destruct (query_args b k Ib) as (v' & Ev' & Z).
      assert (v' = v) by congruence. subst v'.
      assert (a = b). { apply (co a b k k); [apply in_or_app; now left|apply in_or_app; now right|reflexivity]. } subst b.
      assert (TA : the_arg k = One v) by exact (nth_error_nth _ _ _ Ev). rewrite TA. cbn [is_slice].
      rewrite (fin_name a k) by (apply in_or_app; now left).
      rewrite (query_value static a k v Ib Ev) by (intro X; apply in_map_iff in X as ([k' w] & E1 & X); exact (static_ok a k k' w Ib X E1)).
      rewrite (vals_ok a k v Ia Ev).
      destruct (is_zero v); destruct (text v) as [|c t] eqn:T; try congruence; rewrite <- T, Sv in *; reflexivity.
    + apply exists_ref in Ep as (a & Ia). destruct (path_args a k Ia) as (v & Ev & Nt & Sv).
      assert (TA : the_arg k = One v) by exact (nth_error_nth _ _ _ Ev). rewrite TA. cbn [is_slice].
      rewrite (fin_name a k) by (apply in_or_app; now left). rewrite (vals_ok a k v Ia Ev).
      destruct (text v) as [|c t] eqn:T; [congruence|]. rewrite Sv. reflexivity.
    + apply exists_ref in Eq as (a & Ia). destruct (query_args a k Ia) as (v & Ev & Z).
      assert (TA : the_arg k = One v) by exact (nth_error_nth _ _ _ Ev). rewrite TA. cbn [is_slice].
      rewrite (fin_name a k) by (apply in_or_app; now right).
      rewrite (query_value static a k v Ia Ev) by (intro X; apply in_map_iff in X as ([k' w] & E1 & X); exact (static_ok a k k' w Ia X E1)).
      destruct (is_zero v).
      * now subst v.
      * destruct Z as [Nt Sv]. destruct (text v) as [|c t] eqn:T; [congruence|]. rewrite Sv. reflexivity.
Qed.
Lemma read_all hr zs m : List.length zs = n -> forall k, k + m = n ->
  read_params zero scan of_obj hr vals q (map is_slice args) (map fn (seq k m))
    (docs_for hr (seq k m)) (fs_for hr (seq k m)) (firstn k args ++ skipn k zs) = Some args.
Proof.
  intro Z. induction m as [|m IH]; intros k E.
  - assert (k = n) by lia. subst k. cbn. rewrite firstn_all, skipn_all2 by lia. now rewrite List.app_nil_r.
  - cbn [seq map read_params]. rewrite fin_void, fin_index, read_one by lia.
    rewrite set_nth_step by lia. apply IH. lia.
Qed.
Lemma last_value_nodup (f : nat -> string) l i d : NoDup (map f l) -> In i l ->
  last_value (f i) (map (fun j => (f j, the_arg j)) l) d = Some (the_arg i).
Proof.
  revert d. induction l as [|j l IH]; intros d N I; [destruct I|]. cbn [map last_value].
  inversion N as [|? ? NI N']. subst. destruct I as [<-|I].
  - rewrite String.eqb_refl. assert (G : forall d', last_value (f j) (map (fun j0 => (f j0, the_arg j0)) l) d' = d').
    { clear IH N N'. induction l as [|x l IH]; intro d'; [reflexivity|]. cbn [map last_value].
      destruct (String.eqb_spec (f j) (f x)).
      - exfalso. apply NI. left. now symmetry.
      - apply IH. intro. apply NI. now right. }
    apply G.
  - apply IH; assumption.
Qed.

Variable method : string.
Definition op : operation :=
  {| o_method := method; o_path := render_path (map render_seg pat); o_params := map fn (seq 0 n);
     o_static := static; o_rules := rules |}.
Hypothesis body_ok : filter un (seq 0 n) = [] \/ bodyless method = false.
Hypothesis rules_len : rules <> [] -> List.length rules = List.length (filter un (seq 0 n)).
Hypothesis rules_nodup : NoDup rules.
Hypothesis plain_one : rules = [] -> List.length (filter un (seq 0 n)) <= 1.

Lemma path_at_0 : path_at 0 = o_path op.
Proof.
  reflexivity.
Qed.
Lemma call_through :
  exists req, client_request is_zero text op args = Ok req /\
    path_unescape (r_path req) = Some (render_path (map (filled value_of) pat)) /\
    server_args zero scan of_obj op (map is_slice args) vals req = Some args.
Proof.
  unfold client_request. rewrite <- path_at_0. cbn [op o_params o_rules o_static o_method].
  rewrite write_all by reflexivity. cbn [obind]. eexists. split; [reflexivity|]. cbn [r_path r_body r_query]. split.
  - apply unescape_fill; [exact pat_ok|]. intros a I. rewrite pat_vars in I. apply in_map_iff in I as ([b i] & <- & I).
    assert (I' : In (b, i) refs) by (apply in_or_app; now left). cbn [fst]. rewrite (idx_in b i I').
    exact (proj1 (Forall_forall _ _) in_range _ I').
  - unfold server_args. cbn [op o_params o_rules o_static o_method r_body r_query].
    unfold needs_mapping. rewrite filter_fin, map_length.
    assert (ZL : List.length (map (zero_arg zero) (map is_slice args)) = n) by now rewrite !map_length.
    destruct rules as [|r0 rs] eqn:R.
    + specialize (plain_one eq_refl).
      assert (NM : Nat.ltb 1 (List.length (filter un (seq 0 n))) = false) by (apply Nat.ltb_ge; exact plain_one).
      rewrite NM. cbn [app]. rewrite <- R.
      assert (B : (if bodyless method then [] else map (fun i => DVal (the_arg i)) (filter un (seq 0 n))) = docs_for false (seq 0 n)).
      { unfold docs_for. destruct body_ok as [-> | ->]; [now destruct (bodyless method)|reflexivity]. }
      rewrite B. exact (read_all false _ n ZL 0 eq_refl).
    + specialize (rules_len ltac:(discriminate)). rewrite <- R in *.
      destruct body_ok as [X|BL]; [rewrite X in rules_len; rewrite R in rules_len; discriminate|]. rewrite BL.
      rewrite !map_map. cbn [app].
      assert (F : map (fun ns => match last_value (fst ns) (map (fun i => (p_name (fn i), the_arg i)) (filter un (seq 0 n))) None with
                        | Some a => a | None => zero_arg zero (snd ns) end)
                  (combine (map (fun x => p_name (fn x)) (filter un (seq 0 n)))
                           (map (fun x => match p_index (fn x) with [i] => nth i (map is_slice args) false | _ => false end) (filter un (seq 0 n))))
                = fs_for true (seq 0 n)).
      { unfold fs_for.
        assert (ND : NoDup (map (fun x => p_name (fn x)) (filter un (seq 0 n)))).
        { rewrite <- map_map. rewrite body_names_rules; [|unfold rank; lia].
          unfold rank. rewrite <- rules_len, firstn_all. exact rules_nodup. }
        revert ND. generalize (filter un (seq 0 n)) at 1 2 3 4 5. intro l.
        assert (S : forall l' , (forall i, In i l' -> In i l) -> NoDup (map (fun x => p_name (fn x)) l) ->
          map (fun ns => match last_value (fst ns) (map (fun i => (p_name (fn i), the_arg i)) l) None with
                        | Some a => a | None => zero_arg zero (snd ns) end)
                  (combine (map (fun x => p_name (fn x)) l')
                           (map (fun x => match p_index (fn x) with [i] => nth i (map is_slice args) false | _ => false end) l'))
                = map the_arg l').
        { intros l' Sub ND. induction l' as [|i l' IH]; [reflexivity|]. cbn [map combine fst].
          rewrite (last_value_nodup (fun x => p_name (fn x)) l i None ND) by (apply Sub; now left).
          f_equal. apply IH. intros j Ij. apply Sub. now right. }
        intro ND. apply S; [tauto|exact ND]. }
      rewrite R. rewrite <- R. 
      exact (eq_trans (f_equal (fun fs => read_params zero scan of_obj true vals q (map is_slice args) (map fn (seq 0 n)) [] fs
         (map (fun x => zero_arg zero (is_slice x)) args)) F)
         (eq_trans (f_equal (fun z => read_params zero scan of_obj true vals q (map is_slice args) (map fn (seq 0 n)) [] (fs_for true (seq 0 n)) z) (eq_sym (map_map is_slice (zero_arg zero) args))) (read_all true _ n ZL 0 eq_refl))).
Qed.
End CallProof.

(** ** Tags *)
Lemma refers_names p0 ps : map fst (refers p0 ps) = map t_name ps.
Proof. revert p0. induction ps as [|p ps IH]; intro p0; [reflexivity|]. cbn. now rewrite IH. Qed.
Lemma pattern_names segs : var_names (pattern_of segs) = map t_name (tseg_params segs).
Proof.
  induction segs as [|x segs IH]; [reflexivity|]. destruct x as [s|p]; cbn; [exact IH|]. f_equal. exact IH.
Qed.
Lemma pattern_vars segs : var_names (pattern_of segs) = map fst (path_refs segs).
Proof. unfold path_refs. now rewrite refers_names, pattern_names. Qed.
Lemma pattern_ok segs : Forall good_tseg segs -> Forall seg_ok (pattern_of segs).
Proof.
  intro G. unfold pattern_of. apply Forall_map. eapply Forall_impl; [|exact G]. intros [s|p] Gx; cbn in *.
  - destruct Gx as [_ F]. split; apply (free_in _ _ _ F); cbn; tauto.
  - destruct Gx as [_ F]. split; apply (free_in _ _ _ F); cbn; tauto.
Qed.
Lemma refs_names n segs query : good_tag n segs query -> Forall (fun r => good_name (fst r)) (all_refs segs query).
Proof.
  intros (Gs & Gq & _). apply Forall_forall. intros r I.
  assert (X : In (fst r) (map t_name (tseg_params segs ++ titem_params query))).
  { rewrite <- (refers_names 0). now apply in_map. }
  rewrite map_app in X. apply in_app_iff in X as [X|X].
  - apply in_map_iff in X as (p & <- & I'). exact (proj1 (Forall_forall _ _) (tseg_names segs Gs) p I').
  - apply in_map_iff in X as (p & <- & I'). unfold titem_params in I'. apply in_flat_map in I' as ([k v|p'] & J & I'); [destruct I'|].
    destruct I' as [<-|[]]. exact (proj1 (Forall_forall _ _) Gq _ J).
Qed.

(** ** Too few documents *)
Section Few.
Variable V : Type.
Variable zero : V.
Variable scan : string -> option V.
Variable of_obj : list (string * arg V) -> option (arg V).
Lemma read_param_docs vals q p sl docs a docs' fs' :
  read_param zero scan of_obj false vals q p sl docs [] = Some (a, docs', fs') ->
  fs' = [] /\ List.length docs = List.length docs' + if in_body p then 1 else 0.
Proof.
  unfold read_param. destruct (in_body p).
  - destruct docs as [|[x|m] docs]; [discriminate|intro E; injection E as <- <- <-; split; [reflexivity|cbn; lia]|].
    destruct (of_obj m); [|discriminate]. cbn. intro E. injection E as <- <- <-. split; [reflexivity|cbn; lia].
  - assert (X : forall o : option (arg V * list (doc V) * list (arg V)),
      (exists y, o = Some (y, docs, [])) \/ o = None -> o = Some (a, docs', fs') -> fs' = [] /\ List.length docs = List.length docs' + 0).
    { intros o [(y & ->)| ->] E; [|discriminate]. injection E as _ <- <-. split; [reflexivity|lia]. }
    apply X. clear X.
    set (v := if p_path p then path_value (p_name p) vals else ""). clearbody v.
    destruct sl.
    + set (k := if p_query p then _ else 1). clearbody k. destruct k as [|[|k]]; [eauto| |].
      * set (w := if p_query p then _ else v). clearbody w. destruct w; eauto.
      * set (g := _ q). clearbody g. destruct g; eauto.
    + set (w := if p_query p then _ else v). clearbody w. destruct w; [eauto|]. destruct (scan _); cbn; eauto.
Qed.
Lemma read_few vals q slices ps : forall docs args,
  List.length docs < List.length (filter in_body ps) ->
  read_params zero scan of_obj false vals q slices ps docs [] args = None.
Proof.
  induction ps as [|p ps IH]; intros docs args L; [cbn in L; lia|]. cbn [read_params filter] in *.
  destruct (p_void p) eqn:PV.
  - apply IH. unfold in_body in L at 1. rewrite PV, orb_true_r in L. exact L.
  - destruct (p_index p) as [|i [|]]; [reflexivity| |reflexivity].
    destruct (read_param _ _ _ _ _ _ _ _ _ _) as [[[a docs'] fs']|] eqn:E; [|reflexivity].
    apply read_param_docs in E as [-> E]. apply IH. destruct (in_body p); cbn in *; lia.
Qed.
End Few.

Lemma cleanup_tsegs segs : Forall good_tseg segs ->
  cleanup (render_path (map write_tseg segs)) = render_path (map render_seg (pattern_of segs)).
Proof.
  intro G. unfold render_path. rewrite cleanup_app by reflexivity. f_equal.
  induction segs as [|x segs IH]; [reflexivity|]. inversion G as [|? ? Gx G']. subst. specialize (IH G').
  assert (X : forall t, cleanup (write_tseg x ++ t) =
    (render_seg (match x with TLit s => Lit s | TPar p => Var (t_name p) end) ++ cleanup t)%string).
  { intro t. destruct x as [s|p]; cbn [write_tseg render_seg].
    - apply cleanup_app. destruct Gx as [_ F]. apply (free_in _ _ _ F). cbn; tauto.
    - destruct Gx as [_ F]. rewrite write_param_fmt, !app_assoc_s. rewrite (cleanup_app "{") by reflexivity. f_equal.
      rewrite cleanup_app by (apply (free_in _ _ _ F); cbn; tauto). f_equal.
      change (String "=" (fmt p) ++ ("}" ++ t))%string with (String "=" (fmt p ++ String "}" t)).
      rewrite cleanup_eq; [reflexivity|unfold fmt; discriminate|].
      unfold fmt. destruct (t_num p); [|reflexivity]. rewrite !has_char_app. rewrite decimal_free by (cbn; tauto). reflexivity. }
  cbn [map pattern_of]. destruct segs as [|y segs].
  - cbn [map String.concat]. rewrite <- (app_nil_s (write_tseg x)), X. now rewrite app_nil_s.
  - cbn [map] in *. cbn [String.concat] in *. rewrite X. f_equal.
    rewrite cleanup_app by reflexivity. f_equal. exact IH.
Qed.

Lemma nth_params n segs query rules i : i < n ->
  nth_error (params_of n segs query rules) i = Some (fin (path_refs segs) (query_refs segs query) rules i).
Proof.
  intro L. unfold params_of. rewrite nth_error_map, nth_error_nth' with (d := 0) by (rewrite seq_length; exact L).
  now rewrite seq_nth by exact L.
Qed.
Lemma rank_nth dp dq n : forall k i, nth_error (filter (unref dp dq) (seq 0 n)) k = Some i -> rank dp dq i = k /\ i < n /\ unref dp dq i = true.
Proof.
  induction n as [|n IH]; intros k i E; [destruct k; discriminate|].
  rewrite seq_S, filter_app in E. cbn [Nat.add filter] in E.
  destruct (Nat.lt_ge_cases k (List.length (filter (unref dp dq) (seq 0 n)))) as [L|L].
  - rewrite nth_error_app1 in E by exact L. destruct (IH k i E) as (A & B & C). split; [exact A|]. split; [lia|exact C].
  - rewrite nth_error_app2 in E by exact L. destruct (unref dp dq n) eqn:U.
    + destruct (k - List.length (filter (unref dp dq) (seq 0 n))) as [|j] eqn:K; [|destruct j; discriminate].
      injection E as <-. split; [unfold rank; lia|]. split; [lia|exact U].
    + destruct (k - _); discriminate.
Qed.
Lemma load_described :
  forall n sparam fields m segs query rules results,
  good_method m -> good_tag n segs query -> good_rules rules -> good_rules results ->
  (forall r s x, results = r :: s -> r <> String "("%char x) ->
  (rules <> [] -> List.length rules = List.length (unreferenced n segs query)) ->
  exists op, load_operation n sparam fields (tag m (target segs query) rules results) = Ok (Some op) /\
    o_method op = m /\ o_static op = titem_consts query /\ o_rules op = rules /\
    o_path op = render_path (map render_seg (pattern_of segs)) /\
    List.length (o_params op) = n /\
    (forall i, i < n -> exists p, nth_error (o_params op) i = Some p /\
       p_index p = [i] /\ p_void p = false /\
       (p_path p = true <-> exists a, In (a, i) (path_refs segs)) /\
       (p_query p = true <-> exists a, In (a, i) (query_refs segs query)) /\
       (forall a, In (a, i) (all_refs segs query) -> p_name p = a)) /\
    (rules <> [] ->
     forall k i, nth_error (unreferenced n segs query) k = Some i ->
       exists p, nth_error (o_params op) i = Some p /\ nth_error rules k = Some (p_name p)).
Proof.
  intros n sparam fields m segs query rules results Gm Gt Gr Gs Gp Len. eexists. split; [now apply load_written|].
  cbn [o_method o_static o_rules o_path o_params].
  repeat match goal with |- _ /\ _ => split end; try reflexivity.
  - unfold params_of. now rewrite map_length, seq_length.
  - intros i L. exists (fin (path_refs segs) (query_refs segs query) rules i).
    split; [now apply nth_params|]. split; [apply fin_index|]. split; [apply fin_void|].
    rewrite fin_path, fin_query, !exists_ref. split; [tauto|]. split; [tauto|].
    intros a I. rewrite all_refs_eq in I. apply fin_name; [|exact I].
    destruct Gt as (_ & _ & _ & _ & _ & Co & _). rewrite all_refs_eq in Co. exact Co.
  - intros N k i E. rewrite unreferenced_eq in E. destruct (rank_nth _ _ _ _ _ E) as (R & L & U).
    exists (fin (path_refs segs) (query_refs segs query) rules i). split; [now apply nth_params|].
    unfold fin. rewrite U. cbn [p_name]. rewrite R. apply nth_error_nth'.
    rewrite (Len N). rewrite unreferenced_eq. apply nth_error_Some. congruence.
Qed.

Lemma filled_matches value pat : matches pat (map (filled value) pat).
Proof. induction pat as [|[s|a] pat IH]; constructor; exact IH. Qed.
Lemma call_works :
  forall (V : Type) (zero : V) (is_zero : V -> bool) (text : V -> string) (scan : string -> option V) of_obj
         (H : Type) (M : string -> Prop) (t : list (entry H)),
  good_methods M -> Forall (good_entry M) t -> one_place t ->
  forall n sparam fields m segs query rules results (args : list (arg V)) h raw,
  M m -> good_method m -> good_tag n segs query -> good_rules rules -> good_rules results ->
  (forall r s x, results = r :: s -> r <> String "("%char x) ->
  (rules <> [] -> List.length rules = List.length (unreferenced n segs query)) -> NoDup rules ->
  (rules = [] -> List.length (unreferenced n segs query) <= 1) ->
  (unreferenced n segs query = [] \/ bodyless m = false) ->
  List.length args = n ->
  (forall a i, In (a, i) (path_refs segs) ->
     exists v, nth_error args i = Some (One v) /\
       good_seg (text v) /\ ~ M (text v) /\ scan (text v) = Some v) ->
  (forall a i, In (a, i) (query_refs segs query) ->
     exists v, nth_error args i = Some (One v) /\
       if is_zero v then v = zero else text v <> "" /\ scan (text v) = Some v) ->
  (forall a i k v, In (a, i) (query_refs segs query) -> In (k, v) (titem_consts query) -> k <> a) ->
  (forall path, matches (pattern_of segs) path -> route m path t = Some h) ->
  (forall m' sg, In (m', sg, h) t -> sg = pattern_of segs) ->
  exists op req path hp vals,
    load_operation n sparam fields (tag m (target segs query) rules results) = Ok (Some op) /\
    client_request is_zero text op args = Ok req /\
    path_unescape (r_path req) = Some path /\
    serve_request (build (patterns t)) m path raw = Served h hp vals /\
    server_args zero scan of_obj op (map (is_slice V) args) vals req = Some args.
Proof.
  intros V zero is_zero text scan of_obj H M t GM GT OP n sparam fields m segs query rules results args h raw
    Mm Gm Gt Gr Gs Gp Len Nd Pl Bo La Pa Qa Cs Ro Un.
  pose proof (refs_names n segs query Gt) as Names.
  pose proof Gt as (Gseg & Gq & Sm & No & Lt & Co & Ndp). rewrite all_refs_eq in Names, Lt, Co. rewrite unreferenced_eq in *.
  assert (PA : forall a i, In (a, i) (path_refs segs) ->
    exists v, nth_error args i = Some (One v) /\ text v <> "" /\ scan (text v) = Some v).
  { intros a i I. destruct (Pa a i I) as (v & A & [B _] & _ & C). eauto. }
  set (value := value_of V zero text (path_refs segs) (query_refs segs query) args).
  assert (VAL : forall a i v, In (a, i) (path_refs segs) -> nth_error args i = Some (One v) -> value a = text v).
  { intros a i v I E. unfold value, value_of. rewrite (idx_in _ _ Co a i) by (apply in_or_app; now left).
    unfold the_arg. now rewrite (nth_error_nth _ _ _ E). }
  assert (GR : good_request M (map (filled value) (pattern_of segs))).
  { apply Forall_map. apply Forall_forall. intros [s|a] I; cbn [filled].
    - (* literals are those of the table's entry *)
      assert (IN : exists m' , In (m', pattern_of segs, h) t).
      { destruct (route_matches m (map (filled value) (pattern_of segs)) t h (Ro _ (filled_matches _ _))) as (sg & I1 & _).
        rewrite <- (Un m sg I1). eauto. }
      destruct IN as (m' & IN). apply (proj1 (Forall_forall _ _) GT) in IN as [_ F]. cbn [fst snd] in F.
      apply (proj1 (Forall_forall _ _) F) in I as [[G _] N]. split; assumption.
    - apply var_in in I. rewrite pattern_vars in I. apply in_map_iff in I as ([b i] & <- & I). cbn [fst].
      destruct (Pa b i I) as (v & E & G & N & _). rewrite (VAL b i v I E). split; assumption. }
  destruct (C52_dispatch_partial H M GM t GT OP m (map (filled value) (pattern_of segs)) raw h Mm GR (Ro _ (filled_matches _ _)))
    as (sg & hp & vals & S & In1 & _ & B).
  rewrite (Un _ _ In1) in B.
  assert (VO : forall a i v, In (a, i) (path_refs segs) -> nth_error args i = Some (One v) -> path_value a vals = text v).
  { intros a i v I E. assert (IV : In (Var a) (pattern_of segs)).
    { apply var_in. rewrite pattern_vars. apply in_map_iff. now exists (a, i). }
    apply In_nth_error in IV as (j & Ej). destruct (B j a Ej) as (w & Ew & <-).
    rewrite nth_error_map, Ej in Ew. injection Ew as <-. cbn [filled]. exact (VAL a i v I E). }
  subst n.
  destruct (call_through V zero is_zero text scan of_obj (path_refs segs) (query_refs segs query) rules args (pattern_of segs)
    Co Names Lt (pattern_ok segs Gseg) (pattern_vars segs) Ndp PA Qa (titem_consts query) Cs vals VO m Bo Len Nd Pl)
    as (req & A1 & A2 & A3).
  eexists _, req, _, hp, vals. split; [apply load_written; try assumption; rewrite unreferenced_eq; assumption|].
  split; [exact A1|]. split; [exact A2|]. split; [exact S|exact A3].
Qed.

Lemma bodyless_lost :
  forall (V : Type) (zero : V) is_zero text scan of_obj n sparam fields m segs query rules results (args : list (arg V)) op req vals slices,
  good_method m -> good_tag n segs query -> good_rules rules -> good_rules results ->
  (forall r s x, results = r :: s -> r <> String "("%char x) ->
  (rules <> [] -> List.length rules = List.length (unreferenced n segs query)) ->
  bodyless m = true -> unreferenced n segs query <> [] ->
  load_operation n sparam fields (tag m (target segs query) rules results) = Ok (Some op) ->
  client_request is_zero text op args = Ok req ->
  server_args zero scan of_obj op slices vals req = None.
Proof.
  intros V zero is_zero text scan of_obj n sparam fields m segs query rules results args op req vals slices
    Gm Gt Gr Gs Gp Len BL NU L C.
  rewrite load_written in L by assumption. injection L as <-.
  unfold client_request in C. cbn [o_method o_path o_static o_params o_rules] in C.
  destruct (write_params _ _ _ _ _ _ _ _ _) as [[[[p' q'] m'] b']|]; [|discriminate]. cbn [obind] in C. injection C as <-.
  rewrite BL. unfold server_args. cbn [o_rules o_params r_body r_query]. destruct rules; [|reflexivity].
  apply read_few. unfold params_of. rewrite filter_fin, map_length, <- unreferenced_eq.
  destruct (unreferenced n segs query); [now destruct NU|]. cbn. lia.
Qed.
Lemma several_lost :
  forall (V : Type) (zero : V) is_zero text scan of_obj n sparam fields m segs query results (args : list (arg V)) op req vals slices,
  good_method m -> good_tag n segs query -> good_rules results ->
  (forall r s x, results = r :: s -> r <> String "("%char x) ->
  2 <= List.length (unreferenced n segs query) ->
  load_operation n sparam fields (tag m (target segs query) [] results) = Ok (Some op) ->
  client_request is_zero text op args = Ok req ->
  server_args zero scan of_obj op slices vals req = None.
Proof.
  intros V zero is_zero text scan of_obj n sparam fields m segs query results args op req vals slices
    Gm Gt Gs Gp Two L C.
  rewrite load_written in L; try assumption; [|constructor|congruence]. injection L as <-.
  unfold client_request in C. cbn [o_method o_path o_static o_params o_rules] in C.
  destruct (write_params _ _ _ _ _ _ _ _ _) as [[[[p' q'] m'] b']|]; [|discriminate]. cbn [obind] in C. injection C as <-.
  assert (FL : List.length (filter in_body (params_of n segs query [])) = List.length (unreferenced n segs query)).
  { unfold params_of. now rewrite filter_fin, map_length, <- unreferenced_eq. }
  unfold server_args, needs_mapping. cbn [o_rules o_params r_body r_query]. rewrite FL.
  destruct (Nat.ltb_spec 1 (List.length (unreferenced n segs query))); [|lia].
  apply read_few. rewrite FL. destruct (bodyless m); cbn; lia.
Qed.
Lemma slice_lost :
  forall (V : Type) (zero : V) is_zero text scan of_obj sparam fields m name (vs : list V) vals,
  good_method m -> good_name name ->
  exists op req,
    load_operation 1 sparam fields (tag m (target [TLit "p"] [TQuery {| t_name := name; t_num := None |}]) [] []) = Ok (Some op) /\
    client_request is_zero text op [Many vs] = Ok req /\
    server_args zero scan of_obj op [true] vals req = Some [Many []].
Proof.
  intros V zero is_zero text scan of_obj sparam fields m name vs vals Gm Gn.
  eexists. eexists. split; [|split].
  - apply load_written; try assumption; try constructor; try congruence.
    + constructor; [split; [discriminate|repeat constructor]|constructor].
    + repeat match goal with |- _ /\ _ => split end.
      * constructor; [exact Gn|constructor].
      * reflexivity.
      * repeat constructor.
      * cbn. repeat constructor.
      * cbn. intros a b i j [E|[]] [E'|[]]. injection E as <- <-. injection E' as <- <-. tauto.
      * constructor.
  - unfold client_request. cbn. reflexivity.
  - unfold server_args. cbn -[query_count query_get]. unfold read_param. cbn -[query_count query_get].
    assert (Z : query_count (name ++ "[]") (flat_map (fun v => if is_zero v then [] else [(name, text v)]) vs) = 0).
    { unfold query_count. induction vs as [|v vs IH]; [reflexivity|]. cbn [flat_map]. rewrite filter_app, app_length, IH.
      destruct (is_zero v); [reflexivity|]. cbn.
      destruct (String.eqb_spec name (name ++ "[]")); [|reflexivity].
      exfalso. apply (f_equal String.length) in e. rewrite append_length in e. cbn in e. lia. }
    rewrite Z. reflexivity.
Qed.

Lemma slash_route {H} (h : H) a b : good_seg a -> good_seg b -> b <> "GET" ->
  exists p v, serve_request (build (patterns [("GET", [Lit "f"; Var "a"], h)])) "GET" (render_path ["f"; a; b]) "" = NotFound p v.
Proof.
  intros Ga Gb Nb. unfold serve_request. rewrite parse_rendered.
  - unfold p_of, build, patterns. cbn -[String.eqb]. cbn.
    destruct (String.eqb_spec a "") as [->|_]; [destruct Ga; congruence|]. cbn.
    destruct (String.eqb_spec b "") as [->|_]; [destruct Gb; congruence|]. cbn.
    destruct (String.eqb_spec a ""); [destruct Ga; congruence|]. cbn.
    destruct (String.eqb_spec b "GET"); [congruence|]. cbn.
    destruct (String.eqb_spec b ""); [destruct Gb; congruence|]. cbn. eauto.
  - repeat constructor; try discriminate; try apply Ga; try apply Gb.
Qed.

Lemma bodyless_in m : bodyless m = true <-> In m without_body.
Proof.
  unfold bodyless. rewrite existsb_exists. split.
  - intros (x & I & E). apply String.eqb_eq in E. now subst.
  - intro I. exists m. split; [exact I|]. now apply String.eqb_refl.
Qed.
