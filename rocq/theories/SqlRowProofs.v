(** Proofs about the row codec. *)
From Verif Require Import GoBase SqlRowModel SqlRowSpec.

Section TyInd.
Variable P : ty -> Prop.
Hypothesis hb : P TBool.
Hypothesis hi : forall w, P (TInt w).
Hypothesis hu : forall w, P (TUint w).
Hypothesis hf : forall w, P (TFloat w).
Hypothesis hs : P TString.
Hypothesis hy : P TBytes.
Hypothesis ht : P TTime.
Hypothesis hst : forall fs, Forall (fun f : field => P (snd f)) fs -> P (TStruct fs).
Hypothesis ha : forall n t, P t -> P (TArray n t).
Hypothesis hp : forall t, P t -> P (TPtr t).
Hypothesis ho : P TOther.
Fixpoint ty_induct (t : ty) : P t :=
  match t with
  | TBool => hb | TInt w => hi w | TUint w => hu w | TFloat w => hf w | TString => hs
  | TBytes => hy | TTime => ht
  | TStruct fs => hst fs ((fix go fs : Forall (fun f : field => P (snd f)) fs :=
      match fs with
      | [] => Forall_nil _
      | f :: fs' => Forall_cons f (ty_induct (snd f)) (go fs')
      end) fs)
  | TArray n t => ha n t (ty_induct t)
  | TPtr t => hp t (ty_induct t)
  | TOther => ho
  end.
End TyInd.

Lemma size0_zero : forall t v, size0 t = true -> has_ty v t -> v = zero t.
Proof.
  induction t as [ | w | w | w | | | | fs IH | n t IH | t IH | ] using ty_induct;
    intros v S H; try discriminate.
  - inversion H as [| | | | | | | fs' vs F | | | | ]; subst. cbn [zero]. f_equal.
    cbn [size0] in S. clear H.
    revert fs IH S F. induction vs as [|v vs I]; intros fs IH S F; inversion F; subst; [reflexivity|].
    cbn [forallb map] in *. apply andb_prop in S as [S1 S2]. inversion IH; subst.
    f_equal; [auto|]. apply I; auto.
  - inversion H as [| | | | | | | | n' t' vs L F | | | ]; subst. cbn [zero]. f_equal.
    cbn [size0] in S. apply orb_prop in S as [S|S].
    + apply Nat.eqb_eq in S. destruct vs; [reflexivity|discriminate].
    + clear H. induction F as [|v vs Hv F I]; [reflexivity|]. cbn [List.length repeat].
      f_equal; [auto|]. exact I.
Qed.

(** A zero-sized plain type has no columns and no values. *)
Lemma size0_values : forall t, plain t -> exported_only t -> size0 t = true ->
  forall v, has_ty v t -> values_of t v = Ok [].
Proof.
  induction t as [ | w | w | w | | | | fs IH | n t IH | t IH | ] using ty_induct;
    intros P E S v H; try discriminate.
  - inversion H as [| | | | | | | fs' vs F | | | | ]; subst. cbn [values_of size0] in *.
    inversion P as [| | | | | | | fs' PF | ]; inversion E as [| | | | | | | fs'' EF | | | ]; subst.
    clear H P E. revert fs IH S PF EF F.
    induction vs as [|v vs I]; intros fs IH S PF EF F;
      inversion F as [|? [[[nm ex] em] t] ? fs' Hv F']; subst; [reflexivity|].
    cbn [forallb] in S. apply andb_prop in S as [S1 S2].
    inversion IH as [|? ? IHt IHf]; inversion PF as [|? ? Pt PFt]; inversion EF as [|? ? [X1 X2] EFt]; subst.
    cbn [fst snd values_fields] in *. subst ex.
    rewrite (IHt Pt X2 S1 v Hv). cbn [obind]. rewrite I by auto. reflexivity.
  - inversion H as [| | | | | | | | n' t' vs L F | | | ]; subst. cbn [values_of size0] in *.
    inversion P as [| | | | | | | |? ? Pt]; inversion E as [| | | | | | | |? ? Et| |]; subst. apply orb_prop in S as [S|S].
    + apply Nat.eqb_eq in S. destruct vs; [reflexivity|discriminate].
    + clear H P E. induction F as [|v vs Hv F I]; [reflexivity|]. cbn [values_elems].
      rewrite IH by auto. cbn [obind]. cbn in I. rewrite I by auto. reflexivity.
Qed.

Lemma zero_list_map : forall fs : list field,
  match zero (TStruct fs) with VList vs => vs | _ => [] end = map (fun f => zero (snd f)) fs.
Proof. reflexivity. Qed.

Lemma round_trip : forall t, plain t -> exported_only t ->
  forall v, has_ty v t -> forall rest,
  exists vs, values_of t v = Ok vs /\ decode t (zero t) (vs ++ rest) = Ok (v, rest).
Proof.
  induction t as [ | w | w | w | | | | fs IH | n t IH | t IH | ] using ty_induct;
    intros P E v H rest; try (inversion P; fail);
    try (inversion H; subst; eexists; split; [reflexivity|]; cbn; rewrite ?Z.eqb_refl; reflexivity).
  - destruct (size0 (TStruct fs)) eqn:S.
    { exists []. split; [apply size0_values; auto|].
      pose proof (size0_zero _ _ S H) as ->. cbn [decode]. rewrite S. reflexivity. }
    inversion H as [| | | | | | | fs' vs F | | | | ]; subst.
    assert (G : exists ds, values_fields values_of fs vs = Ok ds /\
      forall rest, decode_fields decode fs (map (fun f => zero (snd f)) fs) (ds ++ rest) = Ok (vs, rest)).
    { inversion P as [| | | | | | | fs' PF | ]; inversion E as [| | | | | | | fs'' EF | | | ]; subst.
      clear H P E S rest. revert fs IH PF EF F.
      induction vs as [|v vs I]; intros fs IH PF EF F; inversion F as [|? [[[nm ex] em] t] ? fs' Hv F']; subst.
      { exists []. split; reflexivity. }
      inversion IH as [|? ? IHt IHf]; inversion PF as [|? ? Pt PFt]; inversion EF as [|? ? [X1 X2] EFt]; subst.
      cbn [fst snd] in *. subst ex.
      destruct (I fs' IHf PFt EFt F') as (ds & D1 & D2).
      assert (exists a, values_of t v = Ok a) as (a & A).
      { destruct (IHt Pt X2 v Hv []) as (a & A & _). eauto. }
      exists (a ++ ds). cbn [values_fields]. rewrite A. cbn [obind]. rewrite D1. cbn [obind].
      split; [reflexivity|]. intros rest. cbn [map decode_fields].
      destruct (IHt Pt X2 v Hv (ds ++ rest)) as (a' & A' & B). rewrite A in A'. injection A' as <-.
      rewrite <- app_assoc. cbn [snd]. rewrite B. cbn [obind snd fst]. rewrite D2. reflexivity. }
    destruct G as (ds & G1 & G2). exists ds. split; [exact G1|].
    cbn [decode]. rewrite S. cbn [zero]. rewrite G2. reflexivity.
  - destruct (size0 (TArray n t)) eqn:S.
    { exists []. split; [apply size0_values; auto|].
      pose proof (size0_zero _ _ S H) as ->. cbn [decode]. rewrite S. reflexivity. }
    inversion H as [| | | | | | | | n' t' vs L F | | | ]; subst.
    assert (G : exists ds, values_elems values_of t vs = Ok ds /\
      forall rest, decode_elems t decode (repeat (zero t) (List.length vs)) (ds ++ rest) = Ok (vs, rest)).
    { inversion P as [| | | | | | | |? ? Pt]; inversion E as [| | | | | | | |? ? Et| |]; subst. clear H P E S rest.
      induction F as [|v vs Hv F I].
      { exists []. split; reflexivity. }
      destruct I as (ds & D1 & D2).
      assert (exists a, values_of t v = Ok a) as (a & A).
      { destruct (IH Pt Et v Hv []) as (a & A & _). eauto. }
      exists (a ++ ds). cbn [values_elems]. rewrite A. cbn [obind]. rewrite D1. cbn [obind].
      split; [reflexivity|]. intros rest. cbn [List.length repeat decode_elems].
      destruct (IH Pt Et v Hv (ds ++ rest)) as (a' & A' & B). rewrite A in A'. injection A' as <-.
      rewrite <- app_assoc, B. cbn [obind snd fst]. rewrite D2. reflexivity. }
    destruct G as (ds & G1 & G2). exists ds. split; [exact G1|].
    cbn [decode]. rewrite S. cbn [zero]. rewrite G2. reflexivity.
Qed.

Lemma columns_ok : forall t, plain t -> exported_only t ->
  forall v, has_ty v t -> forall path name emb,
  exists vs cs, values_of t v = Ok vs /\ columns_of path name emb t = Ok cs /\
    map snd cs = map kind_of vs.
Proof.
  induction t as [ | w | w | w | | | | fs IH | n t IH | t IH | ] using ty_induct;
    intros P E v H path name emb; try (inversion P; fail);
    try (inversion H; subst; do 2 eexists; repeat split; reflexivity).
  - inversion H as [| | | | | | | fs' vs F | | | | ]; subst.
    inversion P as [| | | | | | | fs' PF | ]; inversion E as [| | | | | | | fs'' EF | | | ]; subst.
    cbn [values_of columns_of]. set (pr := if emb then _ else _). clearbody pr.
    clear H P E path name emb. revert fs IH PF EF F.
    induction vs as [|v vs I]; intros fs IH PF EF F; inversion F as [|? [[[nm ex] em] t] ? fs' Hv F']; subst.
    { exists [], []. repeat split. }
    inversion IH as [|? ? IHt IHf]; inversion PF as [|? ? Pt PFt]; inversion EF as [|? ? [X1 X2] EFt]; subst.
    cbn [fst snd] in *. subst ex.
    destruct (I fs' IHf PFt EFt F') as (ds & cs & D1 & D2 & D3).
    destruct (IHt Pt X2 v Hv pr nm em) as (a & c & A & B & C).
    exists (a ++ ds), (c ++ cs). cbn [values_fields columns_fields]. rewrite A, B. cbn [obind].
    rewrite D1, D2. cbn [obind]. repeat split. rewrite !map_app. apply f_equal2; assumption.
  - inversion H as [| | | | | | | | n' t' vs L F | | | ]; subst.
    inversion P as [| | | | | | | |? ? Pt]; inversion E as [| | | | | | | |? ? Et| |]; subst. cbn [values_of columns_of].
    set (nm := prefixed path name). clearbody nm. generalize 1%nat as i. clear H P E.
    induction F as [|v vs Hv F I]; intro i.
    { exists [], []. repeat split. }
    destruct (I (S i)) as (ds & cs & D1 & D2 & D3).
    destruct (IH Pt Et v Hv path (nm ++ dec i)%string false) as (a & c & A & B & C).
    exists (a ++ ds), (c ++ cs). cbn [values_elems columns_elems List.length]. rewrite A, B. cbn [obind].
    rewrite D1, D2. cbn [obind]. repeat split. rewrite !map_app. apply f_equal2; assumption.
Qed.

Lemma writes_inv n s : writes n s ->
  ((n < 10)%nat /\ s = String (Ascii.ascii_of_nat (48 + n)) "") \/
  ((10 <= n)%nat /\ exists s', s = (s' ++ String (Ascii.ascii_of_nat (48 + Nat.modulo n 10)) "")%string /\ writes (Nat.div n 10) s').
Proof.
  destruct 1 as [d H|n d s P H W]; [left; auto|right]. split; [lia|]. exists s.
  replace (10 * n + d)%nat with (d + n * 10)%nat by lia.
  rewrite Nat.mod_add, Nat.mod_small, Nat.div_add, Nat.div_small by lia. split; [reflexivity|exact W].
Qed.
Lemma writes_fun n : forall s s', writes n s -> writes n s' -> s = s'.
Proof.
  induction n as [n IH] using (well_founded_induction Wf_nat.lt_wf). intros s s' A B.
  apply writes_inv in A. apply writes_inv in B.
  destruct A as [[LA ->]|[LA (a & -> & WA)]], B as [[LB ->]|[LB (b & -> & WB)]]; try lia; [reflexivity|].
  f_equal. apply (IH (Nat.div n 10)); [apply Nat.div_lt; lia|assumption|assumption].
Qed.
Lemma app_assoc_str (a b c : string) : ((a ++ b) ++ c = a ++ (b ++ c))%string.
Proof. induction a as [|x a IH]; cbn; [reflexivity|now rewrite IH]. Qed.
Lemma dec_digits_writes f : forall n acc, (n < f)%nat ->
  exists s, dec_digits f n acc = (s ++ acc)%string /\ writes n s.
Proof.
  induction f as [|f IH]; intros n acc L; [lia|]. cbn [dec_digits].
  destruct (Nat.ltb_spec n 10) as [C|C].
  - rewrite Nat.mod_small by lia. exists (String (Ascii.ascii_of_nat (48 + n)) ""). split; [reflexivity|].
    now constructor.
  - assert (D : (Nat.div n 10 < n)%nat) by (apply Nat.div_lt; lia).
    destruct (IH (Nat.div n 10) (String (Ascii.ascii_of_nat (48 + Nat.modulo n 10)) acc)) as (s & E & W); [lia|].
    exists (s ++ String (Ascii.ascii_of_nat (48 + Nat.modulo n 10)) "")%string. split.
    + rewrite E, app_assoc_str. reflexivity.
    + pose proof (Nat.div_mod n 10 ltac:(lia)) as DM.
      replace n with (10 * Nat.div n 10 + Nat.modulo n 10)%nat at 1 by lia.
      apply WMore; [|apply Nat.mod_upper_bound; lia|exact W]. 
      apply Nat.div_str_pos. lia.
Qed.
Lemma dec_writes n : writes n (dec n).
Proof.
  unfold dec. destruct (dec_digits_writes (S n) n "" ltac:(lia)) as (s & E & W). rewrite E.
  assert (X : (s ++ "")%string = s) by (clear; induction s as [|x s IH]; cbn; [reflexivity|now rewrite IH]).
  now rewrite X.
Qed.

Lemma names_ok : forall t inside emb, shallow inside emb t -> plain t ->
  forall path name, (if inside then List.length path <= 1 else path = [])%nat ->
  exists cs, columns_of path name emb t = Ok cs /\ doc_names path name emb t (map fst cs).
Proof.
  induction t as [ | w | w | w | | | | fs IH | n t IH | t IH | ] using ty_induct;
    intros inside emb S P path name HP; try (inversion P; fail);
    try (eexists; split; [reflexivity|]; cbn [map fst];
         replace (prefixed path name) with (String.concat "_" (path ++ [name])); [now constructor|];
         destruct path as [|p [|q r]]; try reflexivity; destruct inside; cbn in HP; [lia|discriminate]).
  - inversion P as [| | | | | | | fs' PF | ]; subst. cbn [columns_of].
    assert (G : forall ins pr, Forall (fun f : field => shallow ins (snd (fst f)) (snd f)) fs ->
      (if ins then List.length pr <= 1 else pr = [])%nat ->
      exists cs, columns_fields (columns_of pr) fs = Ok cs /\ doc_fields pr fs (map fst cs)).
    { clear S P HP. intros ins pr SF HP. revert IH PF SF.
      induction fs as [|[[[nm ex] em] t] fs I]; intros IH PF SF.
      { exists []. split; [reflexivity|constructor]. }
      inversion IH as [|? ? IHt IHf]; inversion PF as [|? ? Pt PFt]; inversion SF as [|? ? St SFt]; subst. cbn [fst snd] in *.
      destruct (I IHf PFt SFt) as (cs & C1 & C2).
      destruct (IHt _ _ St Pt pr nm HP) as (c & B1 & B2).
      exists (c ++ cs). cbn [columns_fields]. rewrite B1. cbn [obind]. rewrite C1. cbn [obind].
      split; [reflexivity|]. rewrite map_app. now constructor. }
    inversion S as [? ? ? X|? ? SF|? SF|]; subst; [destruct X| |].
    + destruct (G inside path SF HP) as (cs & C1 & C2). exists cs. split; [exact C1|now constructor].
    + subst path. cbn [app prefixed].
      destruct (G true [name] SF) as (cs & C1 & C2); [cbn; lia|].
      exists cs. split; [exact C1|]. now constructor.
  - inversion S as [? ? ? X| | |? ? ? ST]; subst; [destruct X|]. inversion P as [| | | | | | | |? ? Pt]; subst.
    cbn [columns_of prefixed]. 
    assert (G : forall i, exists cs,
      columns_elems (fun i => columns_of [] (name ++ dec i)%string false t) i n = Ok cs /\
      doc_elems [] name i n t (map fst cs)).
    { clear S P. induction n as [|k I]; intro i.
      { exists []. split; [reflexivity|constructor]. }
      destruct (I (S i)) as (cs & C1 & C2).
      destruct (IH _ _ ST Pt [] (name ++ dec i)%string eq_refl) as (c & B1 & B2).
      exists (c ++ cs). cbn [columns_elems]. rewrite B1. cbn [obind]. rewrite C1. cbn [obind].
      split; [reflexivity|]. rewrite map_app. now apply DECons with (s := dec i); [apply dec_writes| |]. }
    destruct (G 1%nat) as (cs & C1 & C2). exists cs. split; [exact C1|now constructor].
Qed.

Scheme doc_names_mind := Induction for doc_names Sort Prop
with doc_fields_mind := Induction for doc_fields Sort Prop
with doc_elems_mind := Induction for doc_elems Sort Prop.

(** The documented names of a type are unique. *)
Lemma doc_names_fun : forall path n emb t ns, doc_names path n emb t ns ->
  forall ns', doc_names path n emb t ns' -> ns = ns'.
Proof.
  intros path n emb t ns D.
  induction D using doc_names_mind with
    (P0 := fun path fs ns _ => forall ns', doc_fields path fs ns' -> ns = ns')
    (P1 := fun path n i k t ns _ => forall ns', doc_elems path n i k t ns' -> ns = ns');
    intros ns'' D'; inversion D'; subst; try reflexivity; try contradiction; try (now auto);
    repeat match goal with A : writes ?n ?s, B : writes ?n ?s' |- _ =>
      rewrite (writes_fun n s s' A B) in *; clear A end;
    f_equal; auto.
Qed.

Lemma unexported_panics : forall fs, Exists (fun f : field => snd (fst (fst f)) = false) fs ->
  forall vs ds, decode_fields decode fs vs ds = Panic.
Proof.
  induction 1 as [[[[nm ex] em] t] fs H|[[[nm ex] em] t] fs H I]; intros vs ds;
    destruct vs as [|v vs]; cbn [decode_fields]; try reflexivity.
  - cbn in H. subst ex. reflexivity.
  - destruct ex; [|reflexivity]. destruct (decode t v ds); [|reflexivity]. cbn [obind].
    now rewrite I.
Qed.

Lemma struct_unexported_panics : forall fs, Exists (fun f : field => snd (fst (fst f)) = false) fs ->
  size0 (TStruct fs) = false ->
  forall init ds, decode (TStruct fs) init ds = Panic.
Proof.
  intros fs H S init ds. cbn [decode]. rewrite S. now rewrite unexported_panics.
Qed.
