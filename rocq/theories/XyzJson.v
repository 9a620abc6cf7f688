(** Lemmas about the pairs and the JSON of tagged unions. *)
From Verif Require Import GoBase BaseLemmas XyzModel XyzSpec XyzProofs XyzUnion.

Section Pairs.
Variable sp : str -> pval -> str.
Variable sc : ptype -> str -> str -> bytes.
Lemma pair_first l p : forall n i a, nth_error l i = Some a -> takes_key a (fst p) = true ->
  (forall j b, (j < i)%nat -> nth_error l j = Some b -> takes_key b (fst p) = false) ->
  unmarshal_pair_from n l p = Some {| tag := Some (n + i)%nat; ram_of := snd p |}.
Proof.
  induction l as [|b l IH]; intros n [|i] a N T B; cbn [nth_error unmarshal_pair_from] in *; try discriminate.
  - injection N as ->. rewrite T, Nat.add_0_r. reflexivity.
  - rewrite (B 0%nat b ltac:(lia) eq_refl). rewrite (IH (S n) i a N T).
    + replace (S n + i)%nat with (n + S i)%nat by lia. reflexivity.
    + intros j c L Q. apply (B (S j) c); [lia|exact Q].
Qed.
Lemma pair_round k cs l i c key r : values k cs = Ok l -> nth_error cs i = Some c -> keyed c key ->
  (forall j b, (j < i)%nat -> nth_error cs j = Some b -> (exists q, keyed b q) /\ ~ keyed b key /\ ~ also_named b key) ->
  (ctxt c <> None -> r = ram0 k) ->
  marshal_pair sp sc k l {| tag := Some i; ram_of := r |} = Ok (Some (key, r)) /\
  unmarshal_pair l (key, r) = Some {| tag := Some i; ram_of := r |}.
Proof.
  intros V N K B Z0. destruct (values_nth k cs l V) as (_ & H). destruct (H i c N) as (a & A & M).
  assert (TK : takes_key a key = true).
  { destruct (keyed_parts k c a key M K) as [(T & X & F & J)|(T & X & nm & q & v & P & D)].
    - unfold takes_key. rewrite T, X, str_eqb_refl. reflexivity.
    - rewrite (takes_parts a nm q v key T P). destruct D as [(Q1 & Q2 & -> & _)|(-> & ->)].
      + destruct q; [congruence|]. destruct key; [congruence|]. rewrite str_eqb_refl. reflexivity.
      + rewrite str_eqb_refl. apply orb_true_r. }
  split.
  - unfold marshal_pair. cbn [tag ram_of]. rewrite A.
    pose proof (is_text_iff k c a M) as IT.
    destruct (keyed_parts k c a key M K) as [(T & X & F & J)|(T & X & nm & q & v & P & D)]; rewrite T.
    + rewrite F, X, Z0; [reflexivity|]. intros Q. rewrite Q in IT. congruence.
    + destruct P as (NE & rule & b1 & b2 & P1 & P2). destruct (json_tag a) as [|x y]; [congruence|]. cbv zeta in *. rewrite P1, P2.
      destruct D as [(Q1 & Q2 & -> & _)|(-> & ->)].
      * destruct q; [congruence|]. destruct key; [congruence|]. reflexivity.
      * reflexivity.
  - unfold unmarshal_pair. rewrite (pair_first l (key, r) 0 i a A TK); [reflexivity|].
    intros j b J Q. cbn [fst]. destruct (values_back k cs l j b V Q) as (cb & NB & MB).
    destruct (B j cb J NB) as ((q & KQ) & NK & NA).
    destruct (keyed_parts k cb b q MB KQ) as [(T & X & F & J0)|(T & X & nm & q' & v & P & D)].
    + apply takes_text; [exact T| |exact J0]. rewrite X. intros ->. contradiction.
    + rewrite (takes_parts b nm q' v key T P). destruct D as [(Q1 & Q2 & -> & AN)|(-> & ->)].
      * destruct q'; [congruence|]. destruct q; [congruence|].
        rewrite !str_eqb_neq; [reflexivity|intros ->; contradiction|intros <-; contradiction].
      * rewrite str_eqb_neq; [reflexivity|intros <-; contradiction].
Qed.
End Pairs.

Section Json.
Variable fi : Z -> Z -> bytes.
Variable sp : str -> pval -> str.
Variable sc : ptype -> str -> str -> bytes.
Variable pm0 : pval -> json.
Variable pu pt : ptype -> json -> option pval.
Notation from := (unmarshal_union_from fi sp pu pt).
(** the accessor does not take the data, and leaves the way payloads are read alone *)
Definition passes (k : stype) (l0 : list accessor) (old : variant) (d : json) (a : accessor) : Prop :=
  forall n r, from k l0 old false n (a :: r) d = from k l0 old false (S n) r d.
Lemma skip_to k l0 old d l : forall n i a, nth_error l i = Some a ->
  (forall j b, (j < i)%nat -> nth_error l j = Some b -> passes k l0 old d b) ->
  exists r, from k l0 old false n l d = from k l0 old false (n + i) (a :: r) d.
Proof.
  induction l as [|b l IH]; intros n [|i] a N B; cbn [nth_error] in *; try discriminate.
  - injection N as ->. exists l. rewrite Nat.add_0_r. reflexivity.
  - destruct (IH (S n) i a N) as (r & E). { intros j c L Q. apply (B (S j) c); [lia|exact Q]. }
    exists r. rewrite (B 0%nat b ltac:(lia) eq_refl n l), E. f_equal. lia.
Qed.
Lemma as_as_ram k l i a x v : nth_error l i = Some a -> as_ fi sp k l i x = Ok v ->
  as_ram fi sp k a (ram0 k) x = Ok (ram_of v) /\ v = {| tag := Some i; ram_of := ram_of v |}.
Proof.
  intros N E. unfold as_ in E. rewrite N in E. destruct (as_ram fi sp k a (ram0 k) x) as [r|]; [|discriminate].
  injection E as <-. auto.
Qed.
Lemma get_case k l i v x t : case_get sc k l i v = Ok x -> (forall a, nth_error l i = Some a -> rtyp a = Some t) -> get sc k l i v = Ok x.
Proof.
  intros E R. unfold case_get in E. destruct (get sc k l i v) as [p|]; [|discriminate]. cbn [obind] in E.
  destruct (nth_error l i) as [a|]; [|discriminate]. rewrite (R a eq_refl) in E. destruct p; [discriminate|].
  destruct (_ || _) in E; [congruence|discriminate].
Qed.
Lemma decode_back k l i a t x v old d : nth_error l i = Some a -> rtyp a = Some t -> as_ fi sp k l i x = Ok v -> pu t d = Some x ->
  ram_of old = ram0 k -> decode_into fi sp pu pt k l i a (ram_of old) false (Some d) = JOk v.
Proof.
  intros N R A P O. unfold decode_into. rewrite R, P, O. destruct (as_as_ram k l i a x v N A) as (B & E). rewrite B, <- E. reflexivity.
Qed.
Lemma cut44 n : unmarked n -> cut 44 n = (n, [], false).
Proof. intros U. apply cut_none. unm. Qed.
(** one turn of the loop for an accessor without text and with a tag without comma *)
Lemma turn k l0 old n a r d j nm rule hk key val hc : is_text a = false -> json_tag a = j -> j <> [] -> Forall (fun c => c <> 44) j ->
  cut 63 j = (nm, rule, hk) -> cut 61 rule = (key, val, hc) ->
  from k l0 old false n (a :: r) d =
  match d with
  | JObj _ | JNull =>
    let m := match d with JObj m => m | _ => [] end in
    match rule with
    | [] => match lookup nm m with Some x => decode_into fi sp pu pt k l0 n a (ram_of old) false (Some x) | None => from k l0 old false (S n) r d end
    | _ =>
      let kv := lookup key m in
      if (hk && (match nm with [] => true | _ => false end)) || (negb hc && (match kv with Some _ => true | None => false end))
      then decode_into fi sp pu pt k l0 n a (ram_of old) false (Some d)
      else if hk && hc && quoted_as kv val
      then decode_into fi sp pu pt k l0 n a (ram_of old) false (lookup nm m)
      else from k l0 old false (S n) r d
    end
  | _ => JErr
  end.
Proof.
  intros T J NE F C1 C2. cbn [unmarshal_union_from]. rewrite T, J. destruct j as [|x j]; [congruence|].
  rewrite (cut_none 44 (x :: j) F), C1, C2. cbn [str_eqb kstring knumber kobject karray knull].
  destruct rule; destruct d; reflexivity.
Qed.
(** ** Implicit objects *)
Lemma object_round k cs l i c x v t old : values k cs = Ok l ->
  Forall (fun c => ctxt c = None /\ plain (cjson c)) cs -> NoDup (map cjson cs) ->
  nth_error cs i = Some c -> ctype c = Some t -> x <> PNil ->
  as_ fi sp k l i x = Ok v -> case_get sc k l i v = Ok x -> pu t (pm0 x) = Some x -> fresh k old ->
  marshal_union sp sc pm0 k l v = Ok (JObj [(cjson c, pm0 x)]) /\
  unmarshal_union fi sp pu pt k l old (JObj [(cjson c, pm0 x)]) = JOk v.
Proof.
  intros V F D N T XN A G P O. destruct (values_nth k cs l V) as (_ & H). destruct (H i c N) as (a & Na & M).
  assert (AT : forall j b, nth_error l j = Some b -> exists cb, nth_error cs j = Some cb /\ is_text b = false /\ json_tag b = cjson cb /\ plain (cjson cb)).
  { intros j b Q. destruct (values_back k cs l j b V Q) as (cb & NB & MB). exists cb. rewrite Forall_forall in F.
    destruct (F cb (nth_error_In _ _ NB)) as (F1 & F2). rewrite (is_text_iff k cb b MB), F1.
    destruct MB as (_ & _ & J & _). auto. }
  destruct (AT i a Na) as (c' & N' & TX & J & (NE & U)). assert (c' = c) as -> by congruence.
  assert (R : rtyp a = Some t) by (destruct M as (_ & _ & _ & R & _); congruence).
  assert (G' : get sc k l i v = Ok x) by (apply (get_case k l i v x t); [exact G|intros a0 Q; congruence]).
  split.
  - unfold marshal_union. rewrite (as_tag fi sp k l i x v A), Na, TX, J, (cut44 _ U). cbn [str_eqb].
    rewrite (cut_none 63 (cjson c)) by unm. cbn [cut]. rewrite G'. destruct (cjson c) as [|b n]; [congruence|]. cbn [obind].
    destruct x; [congruence|reflexivity].
  - unfold unmarshal_union. destruct (skip_to k l old (JObj [(cjson c, pm0 x)]) l 0 i a Na) as (r & E).
    + intros j b L Q n r. destruct (AT j b Q) as (cb & NB & TB & JB & (NEB & UB)).
      rewrite (turn k l old n b r _ _ (cjson cb) [] false [] [] false TB JB NEB); [|unm|apply cut_none; unm|reflexivity].
      cbn [lookup rev app assoc]. unfold lookup. cbn [rev app assoc]. rewrite str_eqb_neq; [reflexivity|].
      intros Q1. rewrite NoDup_nth_error in D. assert (j = i); [|lia]. apply D.
      * rewrite map_length. apply nth_error_Some. congruence.
      * rewrite (map_nth_error _ _ _ NB), (map_nth_error _ _ _ N). congruence.
    + rewrite E. cbn [Nat.add].
      rewrite (turn k l old i a r _ _ (cjson c) [] false [] [] false TX J NE); [|unm|apply cut_none; unm|reflexivity].
      unfold lookup. cbn [rev app assoc]. rewrite str_eqb_refl. eapply decode_back; eassumption.
Qed.
(** ** Discriminated cases *)
Lemma simple_escape s : simple s -> flat_map json_escape s = s /\ flat_map go_escape s = s.
Proof.
  intros (_ & F). induction F as [|c s C F (I1 & I2)]; [auto|]. cbn [flat_map]. rewrite I1, I2.
  assert (json_escape c = [c] /\ go_escape c = [c]) as (-> & ->); [|auto].
  unfold json_escape, go_escape. split; repeat (match goal with |- context [if ?x then _ else _] => replace x with false by lia end); reflexivity.
Qed.
Lemma quoted_simple s v : simple s -> simple v -> quoted_as (Some (JStr s)) v = str_eqb s v.
Proof.
  intros S1 S2. unfold quoted_as, json_quote, go_quote. rewrite (proj1 (simple_escape s S1)), (proj2 (simple_escape v S2)).
  destruct (str_eqb s v) eqn:E.
  - apply str_eqb_eq in E. subst. apply str_eqb_refl.
  - apply str_eqb_neq. intros Q. injection Q as Q. apply app_inv_tail in Q. subst. rewrite str_eqb_refl in E. discriminate.
Qed.
Lemma simple_comma v : simple v -> Forall (fun c => c <> 44) v.
Proof. intros (_ & F). eapply Forall_impl; [|exact F]. cbn. tauto. Qed.
(** [n?key=v] *)
Definition const_tag (n key v : str) : str := n ++ 63 :: key ++ 61 :: v.
Lemma const_turn k l0 old n a r d nm key val : is_text a = false -> json_tag a = const_tag nm key val -> unmarked nm -> plain key -> simple val ->
  from k l0 old false n (a :: r) d =
  match d with
  | JObj _ | JNull =>
    let m := match d with JObj m => m | _ => [] end in
    if match nm with [] => true | _ => false end then decode_into fi sp pu pt k l0 n a (ram_of old) false (Some d)
    else if quoted_as (lookup key m) val then decode_into fi sp pu pt k l0 n a (ram_of old) false (lookup nm m)
    else from k l0 old false (S n) r d
  | _ => JErr
  end.
Proof.
  intros T J U (NK & UK) SV. destruct (cut_const nm key val U UK (simple_comma val SV)) as (A & B & C).
  rewrite (turn k l0 old n a r d (const_tag nm key val) nm (key ++ 61 :: val) true key val true T J); [|unfold const_tag; destruct nm; discriminate|exact A|exact B|exact C].
  destruct (key ++ 61 :: val) as [|x y] eqn:Q; [destruct key; discriminate|].
  destruct d; try reflexivity; cbv zeta; cbn [andb negb orb]; rewrite orb_false_r; reflexivity.
Qed.
Definition discriminated (key : str) (c : case) (nm val : str) : Prop :=
  ctxt c = None /\ cjson c = const_tag nm key val /\ unmarked nm /\ nm <> key /\ simple val.
Lemma const_marshal k l i a v x t nm key val : nth_error l i = Some a -> tag v = Some i -> is_text a = false -> json_tag a = const_tag nm key val ->
  unmarked nm -> plain key -> simple val -> rtyp a = Some t -> nm <> key -> x <> PNil -> get sc k l i v = Ok x ->
  marshal_union sp sc pm0 k l v = Ok (match nm with [] => merged (pm0 x) key val | _ => JObj [(nm, pm0 x); (key, JStr val)] end).
Proof.
  intros Na TG TX J U (NK & UK) SV R NN XN G. destruct (cut_const nm key val U UK (simple_comma val SV)) as (A & B & C).
  unfold marshal_union. rewrite TG, Na, TX, J. unfold const_tag. rewrite (cut_none 44 _ A). cbn [str_eqb]. rewrite B, C, G, R.
  destruct nm as [|b nm]; cbn [obind]; [destruct x; [congruence|reflexivity]|].
  destruct key as [|q key]; [congruence|]. rewrite str_eqb_neq by exact NN. destruct x; [congruence|reflexivity].
Qed.
Lemma field_round k cs l i c x v t old key nm val : values k cs = Ok l -> plain key ->
  nth_error cs i = Some c -> discriminated key c nm val ->
  (forall j b, (j < i)%nat -> nth_error cs j = Some b -> exists n' v', discriminated key b n' v' /\ n' <> [] /\ v' <> val) ->
  ctype c = Some t -> x <> PNil -> as_ fi sp k l i x = Ok v -> case_get sc k l i v = Ok x -> fresh k old ->
  (nm <> [] -> pu t (pm0 x) = Some x) ->
  (nm = [] -> exists m, pm0 x = JObj m /\ Forall (fun e => fst e <> key) m /\ pu t (JObj (m ++ [(key, JStr val)])) = Some x) ->
  exists d, marshal_union sp sc pm0 k l v = Ok d /\ unmarshal_union fi sp pu pt k l old d = JOk v.
Proof.
  intros V PK N (C1 & C2 & U & NN & SV) B T XN A G O P1 P2. destruct (values_nth k cs l V) as (_ & H). destruct (H i c N) as (a & Na & M).
  assert (TX : is_text a = false) by (rewrite (is_text_iff k c a M), C1; reflexivity).
  assert (J : json_tag a = const_tag nm key val) by (destruct M as (_ & _ & J & _); congruence).
  assert (R : rtyp a = Some t) by (destruct M as (_ & _ & _ & R & _); congruence).
  assert (G' : get sc k l i v = Ok x) by (apply (get_case k l i v x t); [exact G|intros a0 Q; congruence]).
  rewrite (const_marshal k l i a v x t nm key val Na (as_tag fi sp k l i x v A) TX J U PK SV R NN XN G').
  eexists. split; [reflexivity|]. unfold unmarshal_union.
  assert (MM : nm = [] -> exists m, pm0 x = JObj m /\ merged (pm0 x) key val = JObj (m ++ [(key, JStr val)]) /\ pu t (JObj (m ++ [(key, JStr val)])) = Some x).
  { intros Q. destruct (P2 Q) as (m & E1 & E2 & E3). exists m. split; [exact E1|]. split; [|exact E3]. rewrite E1. cbn [merged]. f_equal. f_equal.
    clear -E2. induction E2 as [|e m E F IH]; [reflexivity|]. cbn [filter]. rewrite (str_eqb_neq _ _ E). cbn [negb]. rewrite IH. reflexivity. }
  set (d := match nm with [] => merged (pm0 x) key val | _ => JObj [(nm, pm0 x); (key, JStr val)] end).
  assert (DM : exists m, d = JObj m /\ lookup key m = Some (JStr val)).
  { unfold d. destruct nm as [|b nm].
    - destruct (MM eq_refl) as (m & _ & E & _). eexists. split; [exact E|]. unfold lookup. rewrite rev_app_distr. cbn [rev app assoc]. rewrite str_eqb_refl. reflexivity.
    - eexists. split; [reflexivity|]. unfold lookup. cbn [rev app assoc]. rewrite str_eqb_refl. reflexivity. }
  destruct DM as (m & DE & LK).
  destruct (skip_to k l old d l 0 i a Na) as (r & E).
  - intros j b L Q n r. destruct (values_back k cs l j b V Q) as (cb & NB & MB).
    destruct (B j cb L NB) as (n' & v' & (D1 & D2 & D3 & D4 & D5) & NE & VE).
    assert (TB : is_text b = false) by (rewrite (is_text_iff k cb b MB), D1; reflexivity).
    assert (JB : json_tag b = const_tag n' key v') by (destruct MB as (_ & _ & JB & _); congruence).
    rewrite (const_turn k l old n b r d n' key v' TB JB D3 PK D5). rewrite DE. cbv zeta. rewrite LK, (quoted_simple val v' SV D5), str_eqb_neq by congruence.
    destruct n'; [congruence|reflexivity].
  - rewrite E. cbn [Nat.add]. rewrite (const_turn k l old i a r d nm key val TX J U PK SV). rewrite DE. cbv zeta.
    destruct nm as [|b nm].
    + destruct (MM eq_refl) as (m' & _ & E1 & E2). rewrite <- DE. unfold d. rewrite E1. eapply decode_back; eassumption.
    + rewrite LK, (quoted_simple val val SV SV), str_eqb_refl.
      assert (lookup (b :: nm) m = Some (pm0 x)) as ->.
      { unfold d in DE. injection DE as <-. unfold lookup. cbn [rev app assoc]. rewrite str_eqb_neq by exact NN. rewrite str_eqb_refl. reflexivity. }
      eapply decode_back; try eassumption. apply P1. discriminate.
Qed.
(** ** Kinds *)
Definition kind_tag (q : jkind) : str := 44 :: kind_text q.
Lemma kind_passes k l0 old d a q q' : is_text a = false -> json_tag a = kind_tag q -> of_kind d q' -> q <> q' ->
  (q = JKString -> t_string a = true) -> passes k l0 old d a.
Proof.
  intros T J K N TS n r. cbn [unmarshal_union_from]. rewrite T, J.
  destruct q, q', d; cbn [of_kind] in K; try contradiction; try congruence; cbn; rewrite ?TS by reflexivity; reflexivity.
Qed.
Lemma kind_takes k l0 old d a q n r : is_text a = false -> json_tag a = kind_tag q -> of_kind d q -> q <> JKNull ->
  (q = JKString -> t_string a = true) ->
  from k l0 old false n (a :: r) d = decode_into fi sp pu pt k l0 n a (ram_of old) false (Some d).
Proof.
  intros T J K N TS. cbn [unmarshal_union_from]. rewrite T, J.
  destruct q, d; cbn [of_kind] in K; try contradiction; try congruence; cbn; rewrite ?TS by reflexivity; reflexivity.
Qed.
Definition kind_case (c : case) (q : jkind) : Prop :=
  ctxt c = None /\ cjson c = kind_tag q /\ (q = JKString -> exists t, ctype c = Some t /\ pstring t = true).
Lemma kind_made k c a q : made k c a -> kind_case c q -> is_text a = false /\ json_tag a = kind_tag q /\ (q = JKString -> t_string a = true).
Proof.
  intros M (A & B & C). rewrite (is_text_iff k c a M), A. destruct M as (_ & _ & J & R & _). split; [reflexivity|]. split; [congruence|].
  intros Q. destruct (C Q) as (t & T & S0). unfold t_string. rewrite R, T. exact S0.
Qed.
Lemma kind_round k cs l i c x v t old q : values k cs = Ok l -> nth_error cs i = Some c -> kind_case c q -> q <> JKNull ->
  (forall j b, (j < i)%nat -> nth_error cs j = Some b -> exists q', kind_case b q' /\ q' <> q) ->
  ctype c = Some t -> x <> PNil -> as_ fi sp k l i x = Ok v -> case_get sc k l i v = Ok x -> fresh k old ->
  of_kind (pm0 x) q -> pu t (pm0 x) = Some x ->
  marshal_union sp sc pm0 k l v = Ok (pm0 x) /\ unmarshal_union fi sp pu pt k l old (pm0 x) = JOk v.
Proof.
  intros V N KC QN B T XN A G O K P. destruct (values_nth k cs l V) as (_ & H). destruct (H i c N) as (a & Na & M).
  destruct (kind_made k c a q M KC) as (TX & J & TS).
  assert (R : rtyp a = Some t) by (destruct M as (_ & _ & _ & R & _); congruence).
  assert (G' : get sc k l i v = Ok x) by (apply (get_case k l i v x t); [exact G|intros a0 Q; congruence]).
  split.
  - unfold marshal_union. rewrite (as_tag fi sp k l i x v A), Na, TX, J, G'. destruct x; [congruence|]. destruct q; try congruence; reflexivity.
  - unfold unmarshal_union. destruct (skip_to k l old (pm0 x) l 0 i a Na) as (r & E).
    + intros j b L Q. destruct (values_back k cs l j b V Q) as (cb & NB & MB). destruct (B j cb L NB) as (q' & KB & NQ).
      destruct (kind_made k cb b q' MB KB) as (T1 & T2 & T3). eapply kind_passes; eassumption.
    + rewrite E. cbn [Nat.add]. rewrite (kind_takes k l old (pm0 x) a q i r TX J K QN TS). eapply decode_back; eassumption.
Qed.
Lemma null_round k cs l i c old : values k cs = Ok l -> nth_error cs i = Some c -> kind_case c JKNull ->
  (forall j b, (j < i)%nat -> nth_error cs j = Some b -> exists q', kind_case b q' /\ q' <> JKNull) ->
  fresh k old ->
  marshal_union sp sc pm0 k l {| tag := Some i; ram_of := ram0 k |} = Ok JNull /\
  unmarshal_union fi sp pu pt k l old JNull = JOk {| tag := Some i; ram_of := ram0 k |}.
Proof.
  intros V N KC B O. destruct (values_nth k cs l V) as (_ & H). destruct (H i c N) as (a & Na & M).
  destruct (kind_made k c a JKNull M KC) as (TX & J & TS). split.
  - unfold marshal_union. cbn [tag]. rewrite Na, TX, J. reflexivity.
  - unfold unmarshal_union. destruct (skip_to k l old JNull l 0 i a Na) as (r & E).
    + intros j b L Q. destruct (values_back k cs l j b V Q) as (cb & NB & MB). destruct (B j cb L NB) as (q' & KB & NQ).
      destruct (kind_made k cb b q' MB KB) as (T1 & T2 & T3). eapply kind_passes; try eassumption. exact I.
    + rewrite E. cbn [Nat.add unmarshal_union_from]. rewrite TX, J. cbn. rewrite O. reflexivity.
Qed.
(** ** Texts *)
Lemma text_round k cs l i c s r old : values k cs = Ok l -> nth_error cs i = Some c -> ctxt c = Some s -> Forall (fun b => b <> 37) s ->
  (forall j b, (j < i)%nat -> nth_error cs j = Some b -> exists s', ctxt b = Some s' /\ s' <> s) ->
  marshal_union sp sc pm0 k l {| tag := Some i; ram_of := r |} = Ok (JStr s) /\
  unmarshal_union fi sp pu pt k l old (JStr s) = JOk {| tag := Some i; ram_of := ram_of old |}.
Proof.
  intros V N C F B. destruct (values_nth k cs l V) as (_ & H). destruct (H i c N) as (a & Na & M).
  pose proof (is_text_iff k c a M) as TX. rewrite C in TX. destruct M as (_ & X & _ & _ & FM & _). rewrite C in X. split.
  - unfold marshal_union. cbn [tag]. rewrite Na, TX, FM, X, (no_percent s F). reflexivity.
  - unfold unmarshal_union. destruct (skip_to k l old (JStr s) l 0 i a Na) as (rr & E).
    + intros j b L Q n rr. destruct (values_back k cs l j b V Q) as (cb & NB & MB). destruct (B j cb L NB) as (s' & C' & NE).
      pose proof (is_text_iff k cb b MB) as TB. rewrite C' in TB. destruct MB as (_ & XB & _). rewrite C' in XB.
      cbn [unmarshal_union_from]. rewrite TB, XB, str_eqb_neq by exact NE. reflexivity.
    + rewrite E. cbn [Nat.add unmarshal_union_from]. rewrite TX, X, str_eqb_refl. reflexivity.
Qed.
End Json.
