(** Lemmas about tagged unions. *)
From Verif Require Import GoBase BaseLemmas XyzModel XyzSpec XyzProofs.

(** ** Tags *)
Lemma cut_found sep n r : Forall (fun c => c <> sep) n -> cut sep (n ++ sep :: r) = (n, r, true).
Proof.
  induction 1 as [|c n C F IH]; cbn [app cut].
  - rewrite Z.eqb_refl. reflexivity.
  - apply Z.eqb_neq in C. rewrite C, IH. reflexivity.
Qed.
Lemma cut_none sep n : Forall (fun c => c <> sep) n -> cut sep n = (n, [], false).
Proof.
  induction 1 as [|c n C F IH]; cbn [cut]; [reflexivity|]. apply Z.eqb_neq in C. rewrite C, IH. reflexivity.
Qed.
Lemma cut_options n o : Forall (fun c => c <> 44) n -> options o ->
  fst (fst (cut 44 (n ++ o))) = n.
Proof.
  intros F O. destruct o as [|c o]; cbn [options] in O.
  - rewrite app_nil_r, cut_none by exact F. reflexivity.
  - subst. rewrite cut_found by exact F. reflexivity.
Qed.
Definition unmarked (s : str) : Prop := Forall (fun c => c <> 44 /\ c <> 63 /\ c <> 61) s.
Lemma unmarked_ne sep s : In sep [44; 63; 61] -> unmarked s -> Forall (fun c => c <> sep) s.
Proof.
  intros I F. eapply Forall_impl; [|exact F]. cbn. intros c (A & B & C). cbn [In] in I.
  destruct I as [<-|[<-|[<-|[]]]]; assumption.
Qed.
Ltac unm := apply unmarked_ne; [cbn; auto|assumption].
(** the parts of [n?f=v] *)
Lemma cut_const n f v : unmarked n -> unmarked f -> Forall (fun c => c <> 44) v ->
  Forall (fun c => c <> 44) (n ++ 63 :: f ++ 61 :: v) /\
  cut 63 (n ++ 63 :: f ++ 61 :: v) = (n, f ++ 61 :: v, true) /\
  cut 61 (f ++ 61 :: v) = (f, v, true).
Proof.
  intros N F V. split; [|split].
  - apply Forall_app. split; [unm|]. constructor; [lia|]. apply Forall_app. split; [unm|]. constructor; [lia|exact V].
  - apply cut_found. unm.
  - apply cut_found. unm.
Qed.

(** ** Accessors *)
Definition made (k : stype) (c : case) (a : accessor) : Prop :=
  name a = cname c /\ text a = (match ctxt c with Some t => t | None => [] end) /\ json_tag a = cjson c /\
  rtyp a = ctype c /\ fmts a = has_percent (text a) /\
  zero a = (match ctxt c with Some [] => true | _ => false end) /\ safe a = true /\
  (forall e, cxyz c = Some e -> enum a = e).
Lemma accessors_nth k cs : forall n l, accessors_from k n cs = Ok l -> length l = length cs /\
  forall i c, nth_error cs i = Some c -> exists a, nth_error l i = Some a /\ make_accessor k (n + i) c = Ok a.
Proof.
  induction cs as [|c0 cs IH]; intros n l E; cbn [accessors_from] in E.
  - injection E as <-. split; [reflexivity|]. intros [|i] c Q; discriminate.
  - destruct (make_accessor k n c0) as [a|] eqn:M; [|discriminate]. cbn [obind] in E.
    destruct (accessors_from k (S n) cs) as [l'|] eqn:A; [|discriminate]. cbn [obind] in E. injection E as <-.
    destruct (IH (S n) l' A) as (L & H). split; [cbn [length]; congruence|].
    intros [|i] c Q; cbn [nth_error] in *.
    + injection Q as ->. exists a. split; [reflexivity|]. rewrite Nat.add_0_r. exact M.
    + destruct (H i c Q) as (b & B1 & B2). exists b. split; [exact B1|]. replace (n + S i)%nat with (S n + i)%nat by lia. exact B2.
Qed.
Lemma values_nth k cs l : values k cs = Ok l -> length l = length cs /\
  forall i c, nth_error cs i = Some c -> exists a, nth_error l i = Some a /\ made k c a.
Proof.
  unfold values, accessors. intros E. destruct (accessors_from k 0 cs) as [l'|] eqn:A; [|discriminate]. cbn [obind] in E.
  destruct (forallb safe l') eqn:S0; [|discriminate]. injection E as <-.
  destruct (accessors_nth k cs 0 l' A) as (L & H). split; [exact L|]. intros i c Q.
  destruct (H i c Q) as (a & N & M). exists a. split; [exact N|].
  rewrite forallb_forall in S0. specialize (S0 a (nth_error_In _ _ N)).
  unfold make_accessor in M. destruct (Nat.ltb 255 (0 + i)); [discriminate|]. cbv zeta in M.
  destruct (negb _ && _) in M; [discriminate|]. injection M as <-. unfold made. cbn [name text json_tag rtyp fmts zero safe enum] in *.
  split; [reflexivity|]. split; [reflexivity|]. split; [reflexivity|]. split; [reflexivity|]. split; [reflexivity|].
  split; [destruct (ctxt c) as [[|]|]; reflexivity|]. split; [exact S0|]. intros e Z0. rewrite Z0. reflexivity.
Qed.
Lemma values_back k cs l i a : values k cs = Ok l -> nth_error l i = Some a -> exists c, nth_error cs i = Some c /\ made k c a.
Proof.
  intros V N. destruct (values_nth k cs l V) as (L & H). destruct (nth_error cs i) as [c|] eqn:E.
  - exists c. split; [reflexivity|]. destruct (H i c E) as (a' & N' & M). congruence.
  - apply nth_error_None in E. assert (i < length l)%nat by (apply nth_error_Some; congruence). lia.
Qed.
Lemma is_text_iff k c a : made k c a -> is_text a = match ctxt c with Some _ => true | None => false end.
Proof.
  intros (_ & T & _ & _ & _ & Z0 & _). unfold is_text. rewrite T, Z0. destruct (ctxt c) as [[|]|]; reflexivity.
Qed.

(** ** As and Get *)
Lemma no_percent s : Forall (fun x => x <> 37) s -> has_percent s = false.
Proof. induction 1 as [|b s B F IH]; [reflexivity|]. unfold has_percent in *. cbn [existsb]. apply Z.eqb_neq in B. rewrite B. exact IH. Qed.
Section AsGet.
Variable fi : Z -> Z -> bytes.
Variable sp : str -> pval -> str.
Variable sc : ptype -> str -> str -> bytes.
Lemma get_other k l i j v : tag v = Some i -> j <> i -> case_get sc k l j v = Panic.
Proof.
  intros T N. unfold case_get, get. destruct (nth_error l j) as [a|]; [|reflexivity]. rewrite T.
  apply Nat.eqb_neq in N. rewrite N. destruct (safe a); reflexivity.
Qed.
Lemma as_tag k l i x v : as_ fi sp k l i x = Ok v -> tag v = Some i.
Proof.
  unfold as_. destruct (nth_error l i) as [a|]; [|discriminate]. destruct (as_ram _ _ _ _ _ _) as [r|]; [|discriminate].
  intros E. injection E as <-. reflexivity.
Qed.
Lemma firstn_overwrite img m : firstn (length img) (overwrite img m) = img.
Proof. unfold overwrite. rewrite firstn_app, firstn_all, Nat.sub_diag, firstn_O, app_nil_r. reflexivity. Qed.
Lemma get_made k l i a r : nth_error l i = Some a -> safe a = true ->
  get sc k l i {| tag := Some i; ram_of := r |} =
  match rtyp a with
  | None => Ok PNil
  | Some t =>
    match k, r with
    | KString, RStr s => Ok (PVal t (sc t s (text a)))
    | KUnsafe, RPtr (Some m) => Ok (PVal t (firstn (Z.to_nat (psize t)) m))
    | KIface _, RIface p => Ok p
    | KSlice _, RSlice (Some m) => Ok (PVal t (firstn (Z.to_nat (psize t)) m))
    | _, RMem m => Ok (PVal t (firstn (Z.to_nat (psize t)) m))
    | _, _ => Panic
    end
  end.
Proof. intros N S0. unfold get. rewrite N, S0. cbn [negb tag ram_of]. rewrite Nat.eqb_refl. reflexivity. Qed.
Lemma as_made k l i a t img : nth_error l i = Some a -> safe a = true -> rtyp a = Some t ->
  as_ fi sp k l i (PVal t img) =
  let! r := (match k, ram0 k with
      | KBool, RMem m => Ok (if 0 <? enum a then RMem [1] else ram0 k)
      | KInt w, RMem _ | KUint w, RMem _ => Ok (RMem (le_image (Z.to_nat (w / 8)) (enum a)))
      | KFloat w, RMem _ | KComplex w, RMem _ => Ok (RMem (fi w (enum a)))
      | KArray _ _, RMem m => Ok (RMem (overwrite img m))
      | KString, RStr _ => Ok (RStr (if fmts a then sp (text a) (PVal t img) else text a))
      | KIface impl, RIface _ => if impl (pid t) then Ok (RIface (PVal t img)) else Panic
      | KUnsafe, RPtr _ => Ok (RPtr (Some img))
      | _, _ => Panic
      end) in Ok {| tag := Some i; ram_of := r |}.
Proof.
  intros N S0 R. unfold as_, as_ram. rewrite N, S0, R. cbn [negb]. rewrite Z.eqb_refl. cbn [negb]. rewrite andb_false_r.
  destruct k; reflexivity.
Qed.
Lemma as_iface impl l i a p : nth_error l i = Some a -> safe a = true ->
  as_ fi sp (KIface impl) l i p = let! r := (match p with PNil => Ok (RIface PNil) | PVal t _ => if impl (pid t) then Ok (RIface p) else Panic end) in
    Ok {| tag := Some i; ram_of := r |}.
Proof. intros N S0. unfold as_, as_ram. rewrite N, S0. cbn [negb andb]. destruct p; reflexivity. Qed.
Lemma memory_round k cs l i c t img : values k cs = Ok l -> nth_error cs i = Some c -> ctype c = Some t ->
  match k with KArray _ _ | KUnsafe => True | _ => False end -> zlen img = psize t ->
  exists v, as_ fi sp k l i (PVal t img) = Ok v /\ tag v = Some i /\ case_get sc k l i v = Ok (PVal t img).
Proof.
  intros V N T K L. destruct (values_nth k cs l V) as (_ & H). destruct (H i c N) as (a & A & M).
  destruct M as (_ & _ & _ & R & _ & _ & S0 & _). rewrite T in R.
  assert (W : Z.to_nat (psize t) = length img) by (unfold zlen in L; lia).
  destruct k; try contradiction; rewrite (as_made _ l i a t img A S0 R); cbn [ram0 obind]; eexists; (split; [reflexivity|split; [reflexivity|]]);
    unfold case_get; rewrite (get_made _ l i a _ A S0), R, A; cbn [obind].
  - rewrite R, W, firstn_overwrite, Z.eqb_refl, orb_true_r. reflexivity.
  - rewrite R, W, firstn_all, Z.eqb_refl, orb_true_r. reflexivity.
Qed.
Lemma iface_round impl cs l i c t dt img : values (KIface impl) cs = Ok l -> nth_error cs i = Some c -> ctype c = Some t ->
  piface t = true \/ dt = t -> impl (pid dt) = true ->
  exists v, as_ fi sp (KIface impl) l i (PVal dt img) = Ok v /\ tag v = Some i /\ case_get sc (KIface impl) l i v = Ok (PVal dt img).
Proof.
  intros V N T D I. destruct (values_nth _ cs l V) as (_ & H). destruct (H i c N) as (a & A & M).
  destruct M as (_ & _ & _ & R & _ & _ & S0 & _). rewrite T in R.
  rewrite (as_iface impl l i a _ A S0), I. cbn [obind]. eexists. split; [reflexivity|split; [reflexivity|]].
  unfold case_get. rewrite (get_made _ l i a _ A S0), R, A. cbn [obind]. rewrite R. destruct D as [->| ->]; [reflexivity|].
  rewrite Z.eqb_refl, orb_true_r. reflexivity.
Qed.
Lemma numeric_forgets k cs l i c t x y : memory_kind k -> values k cs = Ok l -> nth_error cs i = Some c -> ctype c = Some t ->
  as_ fi sp k l i (PVal t x) = as_ fi sp k l i (PVal t y) /\ exists v, as_ fi sp k l i (PVal t x) = Ok v.
Proof.
  intros K V N T. destruct (values_nth _ cs l V) as (_ & H). destruct (H i c N) as (a & A & M).
  destruct M as (_ & _ & _ & R & _ & _ & S0 & _). rewrite T in R.
  rewrite !(as_made _ l i a _ _ A S0 R). destruct k; try contradiction; cbn [ram0 obind]; split; try reflexivity; eauto.
Qed.
Lemma slice_panics k cs l i c t x : match k with KSlice _ | KStruct _ _ => True | _ => False end ->
  values k cs = Ok l -> nth_error cs i = Some c -> ctype c = Some t -> as_ fi sp k l i (PVal t x) = Panic.
Proof.
  intros K V N T. destruct (values_nth _ cs l V) as (_ & H). destruct (H i c N) as (a & A & M).
  destruct M as (_ & _ & _ & R & _ & _ & S0 & _). rewrite T in R.
  rewrite !(as_made _ l i a _ _ A S0 R). destruct k; try contradiction; reflexivity.
Qed.
Lemma string_forgets cs l i c t s x y : values KString cs = Ok l -> nth_error cs i = Some c -> ctype c = Some t ->
  ctxt c = Some s -> Forall (fun b => b <> 37) s ->
  as_ fi sp KString l i (PVal t x) = as_ fi sp KString l i (PVal t y) /\ exists v, as_ fi sp KString l i (PVal t x) = Ok v.
Proof.
  intros V N T C F. destruct (values_nth _ cs l V) as (_ & H). destruct (H i c N) as (a & A & M).
  destruct M as (_ & X & _ & R & P & _ & S0 & _). rewrite T in R. rewrite C in X.
  assert (P0 : fmts a = false) by (rewrite P, X; apply no_percent; exact F).
  rewrite !(as_made _ l i a _ _ A S0 R), P0. cbn [ram0 obind]. eauto.
Qed.
Lemma string_round cs l i c t s x : values KString cs = Ok l -> nth_error cs i = Some c -> ctype c = Some t ->
  ctxt c = Some s -> In 37 s -> sc t (sp s (PVal t x)) s = x ->
  exists v, as_ fi sp KString l i (PVal t x) = Ok v /\ tag v = Some i /\ case_get sc KString l i v = Ok (PVal t x).
Proof.
  intros V N T C F Q. destruct (values_nth _ cs l V) as (_ & H). destruct (H i c N) as (a & A & M).
  destruct M as (_ & X & _ & R & P & _ & S0 & _). rewrite T in R. rewrite C in X.
  assert (P1 : fmts a = true). { rewrite P, X. unfold has_percent. apply existsb_exists. exists 37. split; [exact F|reflexivity]. }
  rewrite (as_made _ l i a _ _ A S0 R), P1. cbn [ram0 obind]. eexists. split; [reflexivity|split; [reflexivity|]].
  unfold case_get. rewrite (get_made _ l i a _ A S0), R, A. cbn [obind]. rewrite R, X, Q, Z.eqb_refl, orb_true_r. reflexivity.
Qed.
Lemma nil_panics impl cs l i c t : values (KIface impl) cs = Ok l -> nth_error cs i = Some c -> ctype c = Some t ->
  exists v, as_ fi sp (KIface impl) l i PNil = Ok v /\ case_get sc (KIface impl) l i v = Panic.
Proof.
  intros V N T. destruct (values_nth _ cs l V) as (_ & H). destruct (H i c N) as (a & A & M).
  destruct M as (_ & _ & _ & R & _ & _ & S0 & _). rewrite T in R.
  rewrite (as_iface impl l i a _ A S0). cbn [obind]. eexists. split; [reflexivity|].
  unfold case_get. rewrite (get_made _ l i a _ A S0), R, A. cbn [obind]. rewrite R. reflexivity.
Qed.

End AsGet.

(** ** Pairs *)
(** the parts that the code cuts out of the tag: name, key, const *)
Definition parts (a : accessor) (nm key val : str) : Prop :=
  json_tag a <> [] /\
  let base := fst (fst (cut 44 (json_tag a))) in
  let base := match base with [] => name a | _ => base end in
  exists rule b1 b2, cut 63 base = (nm, rule, b1) /\ cut 61 rule = (key, val, b2).
Lemma keyed_parts k c a key : made k c a -> keyed c key ->
  (is_text a = true /\ text a = key /\ fmts a = false /\ json_tag a = []) \/
  (is_text a = false /\ text a = [] /\ exists nm q val, parts a nm q val /\
     ((q <> [] /\ val <> [] /\ val = key /\ also_named c nm) \/ (q = [] /\ nm = key))).
Proof.
  intros M K. pose proof (is_text_iff k c a M) as IT. destruct M as (NA & T & J & R & P & Z0 & _).
  destruct K as [t C J0 F|n o C E (NE & U) O|o C E (NE & U)|n f v o C E (NF & UF) (NV & UV) UN O]; rewrite C in *.
  - left. split; [exact IT|]. split; [exact T|]. split; [rewrite P, T; apply no_percent; exact F|congruence].
  - right. split; [exact IT|]. split; [exact T|]. exists n, [], []. split; [|right; auto].
    unfold parts. rewrite J, E. split; [intros Q; apply app_eq_nil in Q; tauto|]. rewrite cut_options; [|unm|exact O]. cbv zeta.
    destruct n as [|b n]; [congruence|]. exists [], false, false. split; [apply cut_none; unm|reflexivity].
  - right. split; [exact IT|]. split; [exact T|]. exists (cname c), [], []. split; [|right; auto].
    unfold parts. rewrite J, E. split; [discriminate|]. cbn [cut]. change (44 =? 44) with true. cbn [fst]. rewrite NA.
    exists [], false, false. split; [apply cut_none; unm|reflexivity].
  - right. split; [exact IT|]. split; [exact T|]. exists n, f, v.
    destruct (cut_const n f v UN UF ltac:(unm)) as (A & B & D). split.
    + unfold parts. rewrite J, E. split; [intros Q; apply app_eq_nil in Q; destruct Q; discriminate|].
      replace (n ++ 63 :: f ++ 61 :: v ++ o) with ((n ++ 63 :: f ++ 61 :: v) ++ o) by (rewrite <- app_assoc; cbn [app]; rewrite <- app_assoc; reflexivity).
      rewrite cut_options by assumption. cbv zeta. destruct (n ++ 63 :: f ++ 61 :: v) as [|b q] eqn:Q; [destruct n; discriminate|].
      exists (f ++ 61 :: v), true, true. split; assumption.
    + left. split; [assumption|]. split; [assumption|]. split; [reflexivity|]. econstructor; [exact E|exact UN].
Qed.
Lemma takes_parts a nm key val s : is_text a = false -> parts a nm key val ->
  takes_key a s = (match key, val with _ :: _, _ :: _ => str_eqb val s | _, _ => false end) || str_eqb nm s.
Proof.
  intros T (NE & rule & b1 & b2 & B & C). unfold takes_key. rewrite T. cbn [andb orb].
  destruct (json_tag a) as [|x j]; [congruence|]. cbv zeta in B. cbv zeta. rewrite B, C. reflexivity.
Qed.
Lemma takes_text a s : is_text a = true -> text a <> s -> json_tag a = [] -> takes_key a s = false.
Proof. intros T N J. unfold takes_key. rewrite T, J, str_eqb_neq by exact N. reflexivity. Qed.
