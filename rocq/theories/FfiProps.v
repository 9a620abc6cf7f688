(** Properties C55 to C57 and C86 to C88 of package ffi. *)
From Verif Require Import GoBase BaseLemmas FfiModel FfiSpec FfiProofs FfiApi.

(** ** C55: handles *)
(** For any goroutines in any interleaving: Get of a handle that New returned gives the value. *)
Theorem C55_resolves_partial V (class_of : V -> class) es t c id r st t' v :
  csteps class_of cstart (es ++ [EGet t c id r]) st -> Z.of_nat (allocations es) < 2 ^ 64 -> In (ENew t' id v) es ->
  (class_of v = c -> r = Ok v) /\ (class_of v <> c -> r = Panic).
Proof.
  intros S0 B X. destruct (get_after class_of es t c id r st S0 B) as (st1 & I & ->).
  assert (M : hm (ctab st1) (HUint64 id) = Some v) by (apply (i_map _ _ I); exists t'; exact X).
  unfold typed_get, h_get. rewrite M. cbn [obind]. destruct (class_of v), c; cbn; split; congruence.
Qed.
Theorem C55_distinct V (class_of : V -> class) a t p v b st : csteps class_of cstart (a ++ ENew t p v :: b) st ->
  Z.of_nat (allocations (a ++ ENew t p v :: b)) < 2 ^ 64 -> ~ returned p a.
Proof.
  intros S0 B (t' & v' & X). destruct (steps_app class_of _ _ _ _ S0) as (st1 & S1 & S2). rewrite allocations_app in B.
  pose proof (inv_steps class_of [] cstart a st1 (inv_start) S1 ltac:(cbn [app]; lia)) as I.
  inversion S2 as [|? ? s3 ? ? S3 S4]; subst. inversion S3; subst.
  match goal with P : cpend st1 t = _ |- _ => destruct (i_pend _ _ I _ _ _ P) as (_ & M & _) end.
  assert (Y : hm (ctab st1) (HUint64 p) = Some v') by (apply (i_map _ _ I); exists t'; exact X). congruence.
Qed.
Theorem C55_unknown V (class_of : V -> class) es t c id r st :
  csteps class_of cstart (es ++ [EGet t c id r]) st -> Z.of_nat (allocations es) < 2 ^ 64 -> ~ returned id es -> r = Panic.
Proof.
  intros S0 B X. destruct (get_after class_of es t c id r st S0 B) as (st1 & I & ->). unfold typed_get, h_get.
  destruct (hm (ctab st1) (HUint64 id)) as [v|] eqn:E; [|reflexivity]. exfalso. apply X.
  apply (i_map _ _ I) in E. destruct E as (t' & E). exists t', v. exact E.
Qed.
Theorem C55_zero V (class_of : V -> class) es t c r st :
  csteps class_of cstart (es ++ [EGet t c 0 r]) st -> Z.of_nat (allocations es) < 2 ^ 64 -> r = Panic.
Proof.
  intros S0 B. destruct (get_after class_of es t c 0 r st S0 B) as (st1 & I & ->). unfold typed_get, h_get.
  destruct (hm (ctab st1) (HUint64 0)) as [v|] eqn:E; [|reflexivity]. apply (i_range _ _ I) in E. lia.
Qed.
(** Freeing does nothing: a freed handle still gives its value. *)
Theorem C55_free_refuted V (class_of : V -> class) es t id r st t' v :
  csteps class_of cstart (es ++ [EGet t (class_of v) id r]) st -> Z.of_nat (allocations es) < 2 ^ 64 -> In (ENew t' id v) es ->
  freed id es -> r = Ok v.
Proof. intros S0 B X _. apply (C55_resolves_partial V class_of es t (class_of v) id r st t' v S0 B X). reflexivity. Qed.
Example C55_case : exists st, csteps (fun _ : Z => CValue) cstart
  ([EAdd 0; EAdd 1; ENew 1 2 20; ENew 0 1 10; EFree 0 1] ++ [EGet 1 CValue 1 (Ok 10)]) st /\
  freed 1 [EAdd 0; EAdd 1; ENew 1 2 20; ENew 0 1 10; @EFree Z 0 1].
Proof.
  eexists. split; [|exists 0%nat; cbn; auto 8]. cbn [app].
  eapply csteps_cons; [apply (StepAdd _ cstart 0 10); reflexivity|].
  eapply csteps_cons; [eapply (StepAdd _ _ 1 20); reflexivity|].
  eapply csteps_cons; [eapply (StepStore _ _ 1); reflexivity|].
  eapply csteps_cons; [eapply (StepStore _ _ 0); reflexivity|].
  eapply csteps_cons; [eapply (StepFree _ _ 0 1); reflexivity|].
  eapply csteps_cons; [|apply csteps_nil].
  match goal with |- cstep _ ?s _ _ => exact (StepGet (fun _ : Z => CValue) s 1 CValue 1 eq_refl) end.
Qed.

(** ** C56: sizes *)
(** The bytes of a value are written at the offset, they are as many as announced, nothing else
    in the buffer changes, and the handles among them stand for the references of the value. *)
Theorem C56_size_partial t v buf i h : of_type t v -> plain t -> 0 <= i -> i + sizeOf t <= zlen buf -> 0 <= hn h -> hn h + sizeOf t < 2 ^ 64 ->
  exists before b after os h', buf = before ++ firstn (length b) (skipn (length before) buf) ++ after /\ zlen before = i /\
    read t v buf i h = Ok (before ++ b ++ after, sizeOf t, h') /\ zlen b = sizeOf t /\ flattened t v (hn h) b os /\
    forall k o, nth_error os k = Some o -> h_get h' (hn h + 1 + Z.of_nat k) = Ok o.
Proof.
  intros O P I L N B. destruct (read_flat t v O P buf i h I L N B) as (b & os & h' & A1 & A2 & A3 & A4 & A5 & A6 & A7).
  assert (S0 := sizeOf_pos t v O). assert (T : zlen (ztake i buf) = i) by (apply zlen_ztake; lia).
  exists (ztake i buf), b, (zskip (i + zlen b) buf), os, h'. split.
  - unfold ztake, zskip. unfold zlen in T. unfold ztake in T.
    replace (length (firstn (Z.to_nat i) buf)) with (Z.to_nat i) by lia.
    rewrite <- (firstn_skipn (Z.to_nat i) buf) at 1. f_equal.
    rewrite <- (firstn_skipn (length b) (skipn (Z.to_nat i) buf)) at 1. f_equal. rewrite skip_skip. f_equal. unfold zlen. lia.
  - split; [exact T|]. split; [exact A4|]. split; [exact A2|]. split; [exact A1|].
    intros k o X. unfold h_get. rewrite (A6 k o X). reflexivity.
Qed.
Definition sample_type : ftype := FStruct [FInt 16; FRef; FArray 2 (FUint 8); FComplex 128].
Definition sample_value : fval := VStruct [VInt (-2); VRef 7; VArray [VUint 1; VUint 255]; VComplex 1 2].
Example C56_hypotheses : of_type sample_type sample_value /\ plain sample_type /\ sizeOf sample_type = 28 /\
  exists h, read sample_type sample_value (repeat 9 30) 1 table0 =
    Ok ([9] ++ [254; 255] ++ [1;0;0;0;0;0;0;0] ++ [1; 255] ++ [1;0;0;0;0;0;0;0;2;0;0;0;0;0;0;0] ++ [9], 28, h).
Proof.
  split; [|split; [repeat constructor|split; [reflexivity|eexists; reflexivity]]].
  apply of_struct. constructor; [|constructor; [|constructor; [|constructor; [|constructor]]]].
  - apply of_int; [cbn; auto|lia].
  - apply of_ref.
  - apply of_array; [reflexivity|]. constructor; [|constructor; [|constructor]]; (apply of_uint; [cbn; auto|lia]).
  - apply of_complex; [cbn; auto|cbn; lia|cbn; lia].
Qed.
(** A complex64 is announced with 8 bytes and counted as 16. *)
Theorem C56_complex64_refuted re im buf i h : 0 <= i -> i + 8 <= zlen buf ->
  sizeOf (FComplex 64) = 8 /\ exists buf', read (FComplex 64) (VComplex re im) buf i h = Ok (buf', 16, h).
Proof.
  intros I L. split; [reflexivity|]. cbn [read]. change (64 =? 64) with true. cbv zeta iota. change (Z.to_nat 4) with 4%nat.
  rewrite put_splice by lia. cbn [obind]. rewrite put_splice by (rewrite ?zlen_splice; rewrite ?zlen_le; cbn [Z.of_nat]; lia). cbn [obind]. eauto.
Qed.
(** A bool is announced with one byte and panics. *)
Theorem C56_bool_refuted b buf i h : sizeOf FBool = 1 /\ read FBool (VBool b) buf i h = Panic.
Proof. split; reflexivity. Qed.

(** ** C57: slices *)
(** Reads of one element and of two *)
Theorem C57_one_partial e elems buf j h v : plain e -> 0 < sizeOf e -> 0 <= j -> nth_error elems (Z.to_nat j) = Some v ->
  of_type e v -> zlen buf = sizeOf e -> 0 <= hn h -> hn h + sizeOf e < 2 ^ 64 ->
  exists b os h', read_at e elems buf (j * sizeOf e) h = Ok (b, 1, h') /\ flattened e v (hn h) b os.
Proof.
  intros P S0 J X O L N B. unfold read_at. replace (sizeOf e =? 0) with false by lia.
  rewrite Z.rem_mul by lia. rewrite L, Z.mod_same, Z.div_same by lia. cbn [negb orb Z.eqb]. cbv zeta. rewrite Z.quot_mul by lia.
  change (Z.to_nat 1) with 1%nat. cbn [read_slice]. unfold index.
  assert (j < zlen elems) by (unfold zlen; assert (Z.to_nat j < length elems)%nat by (apply nth_error_Some; congruence); lia).
  replace ((0 <=? j) && (j <? zlen elems)) with true by lia. rewrite X. cbn [obind].
  destruct (read_flat e v O P buf 0 h ltac:(lia) ltac:(lia) N B) as (b & os & h' & A1 & A2 & A3 & A4 & _).
  exists b, os, h'. rewrite A4. cbn [obind]. split; [|exact A1]. do 3 f_equal. unfold splice, ztake, zskip. cbn [Z.to_nat firstn app].
  rewrite skipn_all2 by (unfold zlen in *; lia). apply app_nil_r.
Qed.
Theorem C57_two_partial e elems buf j h v w : plain e -> 0 < sizeOf e -> 0 <= j -> nth_error elems (Z.to_nat j) = Some v ->
  nth_error elems (Z.to_nat (j + 1)) = Some w -> of_type e v -> of_type e w -> zlen buf = 2 * sizeOf e -> 0 <= hn h -> hn h + 2 * sizeOf e < 2 ^ 64 ->
  exists b1 b2 os1 os2 h', read_at e elems buf (j * sizeOf e) h = Ok (b1 ++ b2, 2, h') /\ flattened e v (hn h) b1 os1 /\
    flattened e w (hn h + zlen os1) b2 os2 /\ zlen b1 = sizeOf e.
Proof.
  intros P S0 J X Y O1 O2 L N B. unfold read_at. replace (sizeOf e =? 0) with false by lia.
  rewrite Z.rem_mul by lia. rewrite L, Z.mod_mul, Z.div_mul by lia. cbn [negb orb Z.eqb]. cbv zeta. rewrite Z.quot_mul by lia.
  change (Z.to_nat 2) with 2%nat. cbn [read_slice]. unfold index.
  assert (j + 1 < zlen elems) by (unfold zlen; assert (Z.to_nat (j + 1) < length elems)%nat by (apply nth_error_Some; congruence); lia).
  replace ((0 <=? j) && (j <? zlen elems)) with true by lia. rewrite X. cbn [obind].
  destruct (read_flat e v O1 P buf 0 h ltac:(lia) ltac:(lia) N ltac:(lia)) as (b1 & os1 & h1 & A1 & A2 & A3 & A4 & A5 & _).
  rewrite A4. cbn [obind]. replace ((0 <=? j + 1) && (j + 1 <? zlen elems)) with true by lia. rewrite Y. cbn [obind].
  destruct (read_flat e w O2 P (splice 0 b1 buf) (sizeOf e) h1 ltac:(lia) ltac:(rewrite zlen_splice by lia; lia) ltac:(unfold zlen in *; lia) ltac:(lia))
    as (b2 & os2 & h2 & B1 & B2 & B3 & B4 & _).
  rewrite B4. cbn [obind]. exists b1, b2, os1, os2, h2. split; [|split; [exact A1|split; [rewrite <- A5; exact B1|exact A2]]].
  do 3 f_equal. replace (sizeOf e) with (0 + zlen b1) by lia. rewrite splice_splice by lia. unfold splice, ztake, zskip. cbn [Z.to_nat firstn app].
  rewrite zlen_app. rewrite skipn_all2 by (unfold zlen in *; lia). apply app_nil_r.
Qed.
(** Three or more: all but the first are put in the second place; the rest of the buffer keeps
    what it held; the number returned counts elements, not bytes. *)
Theorem C57_more_refuted e elems buf j h n : plain e -> 0 < sizeOf e -> 0 <= j -> (forall v, In v elems -> of_type e v) ->
  zlen buf = Z.of_nat (3 + n) * sizeOf e -> j + Z.of_nat (3 + n) <= zlen elems -> 0 <= hn h -> hn h + zlen buf < 2 ^ 64 ->
  exists b1 b2 c os h' v w, nth_error elems (Z.to_nat j) = Some v /\ nth_error elems (Z.to_nat (j + Z.of_nat (2 + n))) = Some w /\
    flattened e v (hn h) b1 os /\ (exists os', flattened e w c b2 os') /\ zlen b1 = sizeOf e /\ zlen b2 = sizeOf e /\
    read_at e elems buf (j * sizeOf e) h = Ok (b1 ++ b2 ++ zskip (2 * sizeOf e) buf, Z.of_nat (3 + n), h').
Proof.
  intros P S0 J T L JL N B.
  assert (X : exists v, nth_error elems (Z.to_nat j) = Some v).
  { destruct (nth_error elems (Z.to_nat j)) as [v|] eqn:E; [eauto|]. apply nth_error_None in E. unfold zlen in *. lia. }
  destruct X as (v & X). assert (O : of_type e v) by (apply T; eapply nth_error_In; exact X).
  destruct (read_flat e v O P buf 0 h ltac:(lia) ltac:(nia) N ltac:(nia)) as (b1 & os1 & h1 & A1 & A2 & A3 & A4 & A5 & _).
  assert (L1 : zlen (splice 0 b1 buf) = zlen buf) by (apply zlen_splice; nia).
  destruct (slice_rest e elems P S0 (1 + n) (j + 1) (splice 0 b1 buf) h1) as (b2 & c & os & w & h' & B1 & B2 & B3 & B4 & B5).
  - lia.
  - lia.
  - exact T.
  - rewrite L1. nia.
  - unfold zlen in *. lia.
  - nia.
  - exists b1, b2, c, os1, h', v, w. split; [exact X|]. split; [rewrite <- B1; do 2 f_equal; lia|]. split; [exact A1|]. split; [eauto|].
    split; [exact A2|]. split; [exact B3|]. unfold read_at. replace (sizeOf e =? 0) with false by lia.
    rewrite Z.rem_mul by lia. rewrite L, Z.mod_mul, Z.div_mul by lia. cbn [negb orb Z.eqb]. cbv zeta. rewrite Z.quot_mul by lia.
    replace (Z.to_nat (Z.of_nat (3 + n))) with (S (S (1 + n))) by lia. remember (S (1 + n)) as m. cbn [read_slice]. unfold index.
    replace ((0 <=? j) && (j <? zlen elems)) with true by lia. rewrite X. cbn [obind]. rewrite A4. cbn [obind]. rewrite B5. cbn [obind].
    do 3 f_equal. replace (sizeOf e) with (0 + zlen b1) at 1 by lia. rewrite splice_splice by nia.
    unfold splice, ztake. cbn [Z.to_nat firstn app]. rewrite zlen_app, A2, B3, <- app_assoc. do 3 f_equal. lia.
Qed.
Example C57_case : read_at (FUint 8) [VUint 1; VUint 2; VUint 3; VUint 4] [0; 0; 0; 0] 0 table0 = Ok ([1; 4; 0; 0], 4, table0) /\ plain (FUint 8).
Proof. split; [reflexivity|constructor]. Qed.

(** ** C86: numbers through handles *)
Section API.
Variables (fsem : nat -> list result) (other : rv -> bytes).
Notation run := (run fsem other).
Notation after := (after fsem other).
(** what an operation returns after a history *)
Definition returns (pre : list op) (o : op) : outcome ret := fst (run (after state0 pre) o).
Lemma enough_pre a b : enough_handles (a ++ b) -> enough_handles a.
Proof. unfold enough_handles. rewrite app_length. lia. Qed.
Lemma pointer_made g a1 a2 t p : enough_handles (a1 ++ TypeOf g :: a2 ++ [PointerNew t]) ->
  returns a1 (TypeOf g) = Ok (RHandle t) -> returns (a1 ++ TypeOf g :: a2) (PointerNew t) = Ok (RHandle p) ->
  let s := after state0 (a1 ++ TypeOf g :: a2 ++ [PointerNew t]) in
  exists l, wf s /\ hn (tab s) <= Z.of_nat (length (a1 ++ TypeOf g :: a2 ++ [PointerNew t])) /\ value s p = Ok (RVar l) /\ nth_error (vars s) l = Some (zero_cell g).
Proof.
  intros B R1 R2. cbv zeta.
  assert (BA : enough_handles a1) by (apply (enough_pre _ _ B)).
  destruct (after0 fsem other a1 BA) as (W1 & N1). unfold enough_handles in *. rewrite !app_length in B. cbn [length] in B. rewrite app_length in B. cbn [length] in B.
  set (s1 := after state0 a1) in *. unfold returns in R1. fold s1 in R1.
  assert (E1 : run s1 (TypeOf g) = new s1 (OType g)) by reflexivity.
  destruct (run s1 (TypeOf g)) as [r1 s2] eqn:Q1. cbn [fst] in R1. subst r1. symmetry in E1.
  pose proof (new_value s1 (OType g) t s2 E1 ltac:(lia) ltac:(lia)) as H1.
  assert (S2 : after state0 (a1 ++ TypeOf g :: a2) = after s2 a2).
  { rewrite after_app. fold s1. rewrite run_after, Q1. reflexivity. }
  assert (W2 : wf s2 /\ hn (tab s2) = hn (tab s1) + 1).
  { rewrite new_eq in E1 by lia. injection E1 as <- <-. split; [|reflexivity].
    pose proof (wf_harmless s1 (OType g) W1 ltac:(lia) I) as X. rewrite new_eq in X by lia. exact X. }
  destruct W2 as (W2 & N2).
  destruct (after_wf fsem other s2 a2 W2 ltac:(lia)) as (W3 & N3 & K3).
  unfold returns in R2. rewrite S2 in R2. set (s3 := after s2 a2) in *.
  assert (H3 : hm (tab s3) (HUint64 t) = Some (OType g)) by (rewrite K3; [exact H1|apply (w_range s2 W2) in H1; lia]).
  assert (FIN : after state0 (a1 ++ TypeOf g :: a2 ++ [PointerNew t]) = snd (run s3 (PointerNew t))).
  { replace (a1 ++ TypeOf g :: a2 ++ [PointerNew t]) with ((a1 ++ TypeOf g :: a2) ++ [PointerNew t]) by (rewrite <- app_assoc; reflexivity).
    rewrite after_snoc, S2. reflexivity. }
  rewrite FIN. pose proof (run_effect fsem other s3 (PointerNew t) W3) as EF.
  pose proof (effect_wf fsem other s3 _ _ W3 ltac:(lia) EF) as W4. pose proof (effect_grows fsem other s3 _ _ W3 ltac:(lia) EF) as [G1 _].
  cbn [FfiModel.run] in *. replace (h_get (tab s3) t) with (@Ok object (OType g)) in * by (symmetry; apply h_get_some; exact H3).
  exists (length (vars s3)). split; [exact W4|]. split; [rewrite !app_length; cbn [length]; rewrite app_length; cbn [length]; lia|].
  destruct (new (set_vars s3 (vars s3 ++ [zero_cell g])) (OValue (RVar (length (vars s3))))) as [r s4] eqn:Q. cbn [fst snd] in *. subst r.
  pose proof (new_value _ _ _ _ Q ltac:(cbn [tab set_vars]; lia) ltac:(cbn [tab set_vars]; lia)) as H4. split; [apply value_some; exact H4|].
  replace s4 with (snd (new (set_vars s3 (vars s3 ++ [zero_cell g])) (OValue (RVar (length (vars s3)))))) by (rewrite Q; reflexivity).
  rewrite vars_new. cbn [vars set_vars]. rewrite nth_error_app2 by lia. rewrite Nat.sub_diag. reflexivity.
Qed.
(** A number set through a pointer handle is what a later read gives, whatever else was done. *)
Theorem C86_numbers k a1 a2 b t p : enough_handles (a1 ++ TypeOf (TScalar k) :: a2 ++ [PointerNew t] ++ b) ->
  returns a1 (TypeOf (TScalar k)) = Ok (RHandle t) ->
  returns (a1 ++ TypeOf (TScalar k) :: a2) (PointerNew t) = Ok (RHandle p) ->
  returns (a1 ++ TypeOf (TScalar k) :: a2 ++ [PointerNew t] ++ b) (Decode k p) = Ok (RNum (last_number k p b)).
Proof.
  intros B R1 R2.
  replace (a1 ++ TypeOf (TScalar k) :: a2 ++ [PointerNew t] ++ b) with ((a1 ++ TypeOf (TScalar k) :: a2 ++ [PointerNew t]) ++ b) in *
    by (rewrite <- app_assoc; cbn [app]; rewrite <- app_assoc; reflexivity).
  destruct (pointer_made (TScalar k) a1 a2 t p (enough_pre _ _ B) R1 R2) as (l & W & N & V & C).
  set (pre := a1 ++ TypeOf (TScalar k) :: a2 ++ [PointerNew t]) in *. unfold enough_handles in B. rewrite app_length in B.
  unfold returns. rewrite after_app. set (s := after state0 pre) in *.
  pose proof (value_after fsem other s b p _ W ltac:(lia) V) as V2.
  pose proof (number_after fsem other s b p l k W ltac:(lia) V C) as C2.
  cbn [FfiModel.run]. rewrite V2. cbn [content]. rewrite C2. destruct (kind_dec k k); [reflexivity|congruence].
Qed.
(** Every such setting succeeds. *)
Theorem C86_settable k a1 a2 b t p z : enough_handles (a1 ++ TypeOf (TScalar k) :: a2 ++ [PointerNew t] ++ b) ->
  returns a1 (TypeOf (TScalar k)) = Ok (RHandle t) ->
  returns (a1 ++ TypeOf (TScalar k) :: a2) (PointerNew t) = Ok (RHandle p) ->
  returns (a1 ++ TypeOf (TScalar k) :: a2 ++ [PointerNew t] ++ b) (Encode k p z) = Ok RNone.
Proof.
  intros B R1 R2.
  replace (a1 ++ TypeOf (TScalar k) :: a2 ++ [PointerNew t] ++ b) with ((a1 ++ TypeOf (TScalar k) :: a2 ++ [PointerNew t]) ++ b) in *
    by (rewrite <- app_assoc; cbn [app]; rewrite <- app_assoc; reflexivity).
  destruct (pointer_made (TScalar k) a1 a2 t p (enough_pre _ _ B) R1 R2) as (l & W & N & V & C).
  set (pre := a1 ++ TypeOf (TScalar k) :: a2 ++ [PointerNew t]) in *. unfold enough_handles in B. rewrite app_length in B.
  unfold returns. rewrite after_app. set (s := after state0 pre) in *.
  pose proof (value_after fsem other s b p _ W ltac:(lia) V) as V2.
  pose proof (number_after fsem other s b p l k W ltac:(lia) V C) as C2.
  cbn [FfiModel.run]. rewrite V2, C2. destruct (kind_dec k k); [reflexivity|congruence].
Qed.
(** Asking whether such a pointer is nil panics. *)
Theorem C86_nil_refuted k a1 a2 b t p : enough_handles (a1 ++ TypeOf (TScalar k) :: a2 ++ [PointerNew t] ++ b) ->
  returns a1 (TypeOf (TScalar k)) = Ok (RHandle t) ->
  returns (a1 ++ TypeOf (TScalar k) :: a2) (PointerNew t) = Ok (RHandle p) ->
  returns (a1 ++ TypeOf (TScalar k) :: a2 ++ [PointerNew t] ++ b) (PointerNil p) = Panic.
Proof.
  intros B R1 R2.
  replace (a1 ++ TypeOf (TScalar k) :: a2 ++ [PointerNew t] ++ b) with ((a1 ++ TypeOf (TScalar k) :: a2 ++ [PointerNew t]) ++ b) in *
    by (rewrite <- app_assoc; cbn [app]; rewrite <- app_assoc; reflexivity).
  destruct (pointer_made (TScalar k) a1 a2 t p (enough_pre _ _ B) R1 R2) as (l & W & N & V & C).
  set (pre := a1 ++ TypeOf (TScalar k) :: a2 ++ [PointerNew t]) in *. unfold enough_handles in B. rewrite app_length in B.
  unfold returns. rewrite after_app. set (s := after state0 pre) in *.
  pose proof (value_after fsem other s b p _ W ltac:(lia) V) as V2.
  pose proof (number_after fsem other s b p l k W ltac:(lia) V C) as C2.
  cbn [FfiModel.run]. rewrite V2, C2. reflexivity.
Qed.

(** ** C87: strings *)
Lemma made_by a b o x h : enough_handles (a ++ o :: b) -> (forall s, run s o = new s x) -> harmless x -> returns a o = Ok (RHandle h) ->
  let s := after state0 (a ++ o :: b) in wf s /\ hn (tab s) <= Z.of_nat (length (a ++ o :: b)) /\ hm (tab s) (HUint64 h) = Some x.
Proof.
  intros B E HX R. cbv zeta. destruct (after0 fsem other _ B) as (W & N). split; [exact W|]. split; [lia|].
  destruct (after0 fsem other a (enough_pre _ _ B)) as (W1 & N1). unfold enough_handles in B. rewrite app_length in *. cbn [length] in *.
  unfold returns in R. rewrite after_app, run_after. set (s1 := after state0 a) in *. rewrite E in *.
  destruct (new s1 x) as [r s2] eqn:Q. cbn [fst snd] in *. subst r. pose proof (new_value _ _ _ _ Q ltac:(lia) ltac:(lia)) as H1.
  assert (W2 : wf s2 /\ hn (tab s2) = hn (tab s1) + 1).
  { rewrite new_eq in Q by lia. injection Q as <- <-. split; [|reflexivity].
    pose proof (wf_harmless s1 x W1 ltac:(lia) HX) as X. rewrite new_eq in X by lia. exact X. }
  destruct W2 as (W2 & N2). destruct (after_wf fsem other s2 b W2 ltac:(lia)) as (_ & _ & K). rewrite K; [exact H1|].
  apply (w_range s2 W2) in H1. lia.
Qed.
Theorem C87_length data n a b s : 0 <= n < 2 ^ 32 -> enough_handles (a ++ StringNew data n :: b) ->
  returns a (StringNew data n) = Ok (RHandle s) ->
  returns (a ++ StringNew data n :: b) (StringLen s) = Ok (RNum (Z.min n (zlen data))).
Proof.
  intros D B R. destruct (made_by a b _ (OValue (RString (ztake n data))) s B ltac:(reflexivity) I R) as (W & N & H).
  apply value_some in H. unfold returns. cbn [FfiModel.run]. rewrite H. cbn [content fst]. do 2 f_equal.
  assert (L : zlen (ztake n data) = Z.min n (zlen data)) by (unfold zlen, ztake; rewrite firstn_length; lia).
  rewrite L. unfold u32. apply Z.mod_small. unfold zlen in *. lia.
Qed.
(** The bytes come one by one and in order, whatever is done in between. *)
Theorem C87_bytes data n a b c s d : 0 <= n < 2 ^ 32 -> enough_handles (a ++ StringNew data n :: b ++ StringData s :: c) ->
  returns a (StringNew data n) = Ok (RHandle s) -> returns (a ++ StringNew data n :: b) (StringData s) = Ok (RHandle d) ->
  returns (a ++ StringNew data n :: b ++ StringData s :: c) (Decode KUint8 d) =
    match nth_error (firstn (Z.to_nat n) data) (decodings d c) with Some x => Ok (RNum x) | None => Panic end.
Proof.
  intros D B R1 R2. replace (a ++ StringNew data n :: b ++ StringData s :: c) with ((a ++ StringNew data n :: b) ++ StringData s :: c) in * by (rewrite <- app_assoc; reflexivity).
  destruct (made_by a b _ (OValue (RString (ztake n data))) s (enough_pre _ _ B) ltac:(reflexivity) I R1) as (W & N & H).
  set (pre := a ++ StringNew data n :: b) in *. unfold enough_handles in B. rewrite app_length in B. cbn [length] in B.
  unfold returns in *. rewrite after_app, run_after. set (s1 := after state0 pre) in *.
  pose proof (run_effect fsem other s1 (StringData s) W) as EF.
  pose proof (effect_wf fsem other s1 _ _ W ltac:(lia) EF) as W2. pose proof (effect_grows fsem other s1 _ _ W ltac:(lia) EF) as [G1 _].
  apply value_some in H. pose proof (w_n s1 W) as NN.
  assert (V2 : value (snd (run s1 (StringData s))) d = Ok (RDecoder (length (decs s1))) /\
     nth_error (decs (snd (run s1 (StringData s)))) (length (decs s1)) = Some (RString (ztake n data), 0%nat)).
  { cbn [FfiModel.run] in *. rewrite H in *. destruct (new _ _) as [r s2] eqn:Q in R2. cbn [fst] in R2. subst r. rewrite Q. cbn [snd].
    pose proof (new_value _ _ _ _ Q ltac:(cbn [tab set_decs]; lia) ltac:(cbn [tab set_decs]; lia)) as H1. split; [apply value_some; exact H1|].
    replace s2 with (snd (new (set_decs s1 (decs s1 ++ [(RString (ztake n data), 0%nat)])) (OValue (RDecoder (length (decs s1)))))) by (rewrite Q; reflexivity).
    rewrite decs_new. cbn [decs set_decs]. rewrite nth_error_app2 by lia. rewrite Nat.sub_diag. reflexivity. }
  destruct V2 as (V2 & D2). set (s2 := snd (run s1 (StringData s))) in *.
  destruct (after_wf fsem other s2 c W2 ltac:(lia)) as (W3 & _ & _).
  pose proof (value_after fsem other s2 c d _ W2 ltac:(lia) V2) as V3.
  pose proof (decoder_after fsem other s2 c d _ _ _ W2 ltac:(lia) V2 D2) as D3.
  exact (read_one fsem other _ d _ _ _ W3 V3 D3).
Qed.
(** Decode into a Go string gives the whole string. *)
Theorem C87_decode data n a b s : 0 <= n < 2 ^ 32 -> Z.of_nat (length (a ++ StringNew data n :: b)) + zlen data + 5 < 2 ^ 64 ->
  returns a (StringNew data n) = Ok (RHandle s) ->
  fst (decode_go_string fsem other (after state0 (a ++ StringNew data n :: b)) s) = Ok (firstn (Z.to_nat n) data).
Proof.
  intros D B R. assert (B' : enough_handles (a ++ StringNew data n :: b)) by (unfold enough_handles, zlen in *; lia).
  destruct (made_by a b _ (OValue (RString (ztake n data))) s B' ltac:(reflexivity) I R) as (W & N & H).
  assert (L : zlen (ztake n data) = Z.min n (zlen data)) by (unfold zlen, ztake; rewrite firstn_length; lia).
  apply value_some in H. apply (decode_string_all fsem other _ (RString (ztake n data)) _ (ztake n data)); [exact W|lia|lia|exact H|reflexivity].
Qed.
(** A string variable holds the last string set, until the next is. *)
Theorem C87_copy a1 a2 b c t p str v data : enough_handles (a1 ++ TypeOf TString :: a2 ++ [PointerNew t] ++ b ++ EncodeString p str :: c) ->
  returns a1 (TypeOf TString) = Ok (RHandle t) ->
  returns (a1 ++ TypeOf TString :: a2) (PointerNew t) = Ok (RHandle p) ->
  value (after state0 (a1 ++ TypeOf TString :: a2 ++ [PointerNew t] ++ b)) str = Ok v -> v = RString data ->
  (forall str', ~ In (EncodeString p str') (b ++ c)) -> zlen data < 2 ^ 32 ->
  Z.of_nat (length (a1 ++ TypeOf TString :: a2 ++ [PointerNew t] ++ b ++ EncodeString p str :: c)) + zlen data + 5 < 2 ^ 64 ->
  fst (decode_go_string fsem other (after state0 (a1 ++ TypeOf TString :: a2 ++ [PointerNew t] ++ b ++ EncodeString p str :: c)) p) = Ok data.
Proof.
  intros B R1 R2 VS -> NI LD LL.
  replace (a1 ++ TypeOf TString :: a2 ++ [PointerNew t] ++ b ++ EncodeString p str :: c)
    with ((a1 ++ TypeOf TString :: a2 ++ [PointerNew t]) ++ b ++ EncodeString p str :: c) in * by (rewrite <- app_assoc; cbn [app]; rewrite <- app_assoc; reflexivity).
  replace (a1 ++ TypeOf TString :: a2 ++ [PointerNew t] ++ b) with ((a1 ++ TypeOf TString :: a2 ++ [PointerNew t]) ++ b) in * by (rewrite <- app_assoc; cbn [app]; rewrite <- app_assoc; reflexivity).
  destruct (pointer_made TString a1 a2 t p (enough_pre _ _ B) R1 R2) as (l & W & N & V & C).
  set (pre := a1 ++ TypeOf TString :: a2 ++ [PointerNew t]) in *. unfold enough_handles in B. rewrite !app_length in B, LL. cbn [length] in B, LL.
  rewrite !after_app in *. rewrite run_after. set (s := after state0 pre) in *. cbn [zero_cell] in C.
  destruct (after_wf fsem other s b W ltac:(lia)) as (W2 & N2 & _).
  pose proof (value_after fsem other s b p _ W ltac:(lia) V) as V2.
  pose proof (string_after fsem other s b p l [] W ltac:(lia) V C ltac:(intros q X; apply (NI q); apply in_or_app; auto)) as C2.
  set (s2 := after s b) in *. pose proof (run_effect fsem other s2 (EncodeString p str) W2) as EF.
  pose proof (effect_wf fsem other s2 _ _ W2 ltac:(lia) EF) as W3. pose proof (effect_grows fsem other s2 _ _ W2 ltac:(lia) EF) as [G1 G2].
  assert (C3 : nth_error (vars (snd (run s2 (EncodeString p str)))) l = Some (CString data)).
  { cbn [FfiModel.run]. rewrite V2, C2, VS. cbn [content snd vars set_vars]. apply (nth_upd_same fsem). apply nth_error_Some. congruence. }
  assert (V3 : value (snd (run s2 (EncodeString p str))) p = Ok (RVar l)).
  { apply value_some. apply value_some in V2. rewrite G2; [exact V2|]. apply (w_range s2 W2) in V2. lia. }
  set (s3 := snd (run s2 (EncodeString p str))) in *.
  destruct (after_wf fsem other s3 c W3 ltac:(lia)) as (W4 & N4 & _).
  pose proof (value_after fsem other s3 c p _ W3 ltac:(lia) V3) as V4.
  pose proof (string_after fsem other s3 c p l data W3 ltac:(lia) V3 C3 ltac:(intros q X; apply (NI q); apply in_or_app; auto)) as C4.
  apply (decode_string_all fsem other _ (RVar l) _ data); [exact W4|lia|exact LD|exact V4|]. cbn [content]. rewrite C4. reflexivity.
Qed.

(** ** C88: function calls *)
(** A function that has parameters cannot be called: every call panics, whatever is passed. *)
Theorem C88_args_refuted f ins outs a b h args : ins <> 0%nat -> enough_handles (a ++ FunctionNew f ins outs :: b) ->
  returns a (FunctionNew f ins outs) = Ok (RHandle h) -> returns (a ++ FunctionNew f ins outs :: b) (FunctionCall h args) = Panic.
Proof.
  intros NZ B R. destruct (made_by a b _ (OValue (RFunc f ins outs)) h B ltac:(reflexivity) I R) as (W & N & H).
  apply value_some in H. unfold returns. set (s := after state0 (a ++ FunctionNew f ins outs :: b)) in *. cbn [FfiModel.run]. rewrite H.
  replace (Nat.eqb ins 0) with false by (symmetry; apply Nat.eqb_neq; exact NZ). cbn [andb].
  destruct (value s args) as [v|] eqn:E; [|reflexivity]. destruct v; try reflexivity. apply value_some in E. rewrite (w_vals s W _ _ E).
  destruct ins; [congruence|]. reflexivity.
Qed.
Lemma called f outs a b c h args r : outs <> 0%nat -> enough_handles (a ++ FunctionNew f 0 outs :: b ++ FunctionCall h args :: c) ->
  returns a (FunctionNew f 0 outs) = Ok (RHandle h) -> returns (a ++ FunctionNew f 0 outs :: b) (FunctionCall h args) = Ok (RHandle r) ->
  let s := after state0 (a ++ FunctionNew f 0 outs :: b ++ FunctionCall h args :: c) in
  exists l, wf s /\ hn (tab s) <= Z.of_nat (length (a ++ FunctionNew f 0 outs :: b ++ FunctionCall h args :: c)) /\ value s r = Ok (RDecoder l) /\ nth_error (decs s) l = Some (RValues (map to_rv (fsem f)), decodings r c).
Proof.
  intros NZ B R1 R2. cbv zeta. replace (a ++ FunctionNew f 0 outs :: b ++ FunctionCall h args :: c) with ((a ++ FunctionNew f 0 outs :: b) ++ FunctionCall h args :: c) in * by (rewrite <- app_assoc; reflexivity).
  destruct (made_by a b _ (OValue (RFunc f 0 outs)) h (enough_pre _ _ B) ltac:(reflexivity) I R1) as (W & N & H).
  set (pre := a ++ FunctionNew f 0 outs :: b) in *. unfold enough_handles in B. rewrite app_length in B. cbn [length] in B.
  unfold returns in *. rewrite after_app, run_after. set (s1 := after state0 pre) in *.
  pose proof (run_effect fsem other s1 (FunctionCall h args) W) as EF.
  pose proof (effect_wf fsem other s1 _ _ W ltac:(lia) EF) as W2. pose proof (effect_grows fsem other s1 _ _ W ltac:(lia) EF) as [G1 _].
  apply value_some in H. pose proof (w_n s1 W) as NN.
  assert (V2 : value (snd (run s1 (FunctionCall h args))) r = Ok (RDecoder (length (decs s1))) /\
     nth_error (decs (snd (run s1 (FunctionCall h args)))) (length (decs s1)) = Some (RValues (map to_rv (fsem f)), 0%nat)).
  { cbn [FfiModel.run] in *. rewrite H in *. replace (Nat.eqb outs 0) with false in * by (symmetry; apply Nat.eqb_neq; exact NZ). cbn [Nat.eqb andb] in *.
    destruct (value s1 args) as [v|]; [|discriminate R2]. destruct v; try discriminate R2. destruct (Nat.eqb (length vs) 0); [|discriminate R2].
    destruct (new _ _) as [q s2] eqn:Q in R2. cbn [fst] in R2. subst q. rewrite Q. cbn [snd].
    pose proof (new_value _ _ _ _ Q ltac:(cbn [tab set_decs]; lia) ltac:(cbn [tab set_decs]; lia)) as H1. split; [apply value_some; exact H1|].
    replace s2 with (snd (new (set_decs s1 (decs s1 ++ [(RValues (map to_rv (fsem f)), 0%nat)])) (OValue (RDecoder (length (decs s1)))))) by (rewrite Q; reflexivity).
    rewrite decs_new. cbn [decs set_decs]. rewrite nth_error_app2 by lia. rewrite Nat.sub_diag. reflexivity. }
  destruct V2 as (V2 & D2). set (s2 := snd (run s1 (FunctionCall h args))) in *. exists (length (decs s1)).
  destruct (after_wf fsem other s2 c W2 ltac:(lia)) as (W3 & N3 & _).
  split; [exact W3|]. split; [rewrite app_length; cbn [length]; lia|]. split; [apply value_after; [exact W2|lia|exact V2]|].
  apply (decoder_after fsem other s2 c r _ _ _ W2 ltac:(lia) V2 D2).
Qed.
(** Numbers among the results cannot be read: every attempt panics. *)
Theorem C88_numbers_refuted f outs a b c h args r k : outs <> 0%nat -> enough_handles (a ++ FunctionNew f 0 outs :: b ++ FunctionCall h args :: c) ->
  returns a (FunctionNew f 0 outs) = Ok (RHandle h) -> returns (a ++ FunctionNew f 0 outs :: b) (FunctionCall h args) = Ok (RHandle r) ->
  returns (a ++ FunctionNew f 0 outs :: b ++ FunctionCall h args :: c) (Decode k r) = Panic.
Proof.
  intros NZ B R1 R2. destruct (called f outs a b c h args r NZ B R1 R2) as (l & W & N & V & D). unfold returns.
  set (s := after state0 _) in *. cbn [FfiModel.run]. rewrite V. cbn [content decode_other]. rewrite D. reflexivity.
Qed.
(** Strings among the results are read in order. *)
Theorem C88_strings_partial f outs a b c h args r s : outs <> 0%nat -> enough_handles (a ++ FunctionNew f 0 outs :: b ++ FunctionCall h args :: c ++ [DecodeString r]) ->
  returns a (FunctionNew f 0 outs) = Ok (RHandle h) -> returns (a ++ FunctionNew f 0 outs :: b) (FunctionCall h args) = Ok (RHandle r) ->
  nth_error (fsem f) (decodings r c) = Some (ResString s) -> zlen s < 2 ^ 32 ->
  Z.of_nat (length (a ++ FunctionNew f 0 outs :: b ++ FunctionCall h args :: c ++ [DecodeString r])) + zlen s + 6 < 2 ^ 64 ->
  exists h', returns (a ++ FunctionNew f 0 outs :: b ++ FunctionCall h args :: c) (DecodeString r) = Ok (RHandle h') /\
    fst (decode_go_string fsem other (after state0 (a ++ FunctionNew f 0 outs :: b ++ FunctionCall h args :: c ++ [DecodeString r])) h') = Ok s.
Proof.
  intros NZ B R1 R2 X LS LL.
  replace (a ++ FunctionNew f 0 outs :: b ++ FunctionCall h args :: c ++ [DecodeString r]) with ((a ++ FunctionNew f 0 outs :: b ++ FunctionCall h args :: c) ++ [DecodeString r]) in *
    by (rewrite <- app_assoc; cbn [app]; rewrite <- app_assoc; reflexivity).
  destruct (called f outs a b c h args r NZ (enough_pre _ _ B) R1 R2) as (l & W & N & V & D). unfold returns. rewrite after_snoc.
  unfold enough_handles in B. rewrite app_length in B, LL. cbn [length] in B, LL.
  set (s1 := after state0 _) in *. pose proof (w_n s1 W) as NN. assert (LS0 : 0 <= zlen s) by (unfold zlen; lia).
  pose proof (run_effect fsem other s1 (DecodeString r) W) as EF. pose proof (effect_wf fsem other s1 _ _ W ltac:(lia) EF) as W2.
  pose proof (effect_grows fsem other s1 _ _ W ltac:(lia) EF) as [G1 _].
  cbn [FfiModel.run] in *. rewrite V in *. cbn [content decode_ref] in *. rewrite D in *. cbv zeta in *.
  rewrite nth_error_map, X in *. cbn [option_map to_rv] in *. unfold new_ref in *. cbn [content] in *.
  destruct (new _ _) as [q s2] eqn:Q. pose proof Q as Q'. rewrite new_eq in Q by (cbn [tab set_decs]; lia). injection Q as <- <-.
  cbn [fst snd] in *. eexists. split; [reflexivity|]. pose proof (new_value _ _ _ _ Q' ltac:(cbn [tab set_decs]; lia) ltac:(cbn [tab set_decs]; lia)) as H1.
  apply (decode_string_all fsem other _ (RString s)); [exact W2|lia|exact LS|apply value_some; exact H1|reflexivity].
Qed.
End API.

(** Concrete histories *)
Definition fs1 (f : nat) : list result := if Nat.eqb f 1 then [ResString [104; 105]; ResScalar KInt 5] else [].
Example C86_case : let ret := returns fs1 (fun _ => []) in
  ret [] (TypeOf (TScalar KInt)) = Ok (RHandle 1) /\ ret [TypeOf (TScalar KInt)] (PointerNew 1) = Ok (RHandle 2) /\
  ret [TypeOf (TScalar KInt); PointerNew 1; Encode KInt 2 7; PointerFree 2; Encode KBool 2 1] (Decode KInt 2) = Ok (RNum 7).
Proof. repeat split. Qed.
Example C87_case : let ret := returns fs1 (fun _ => []) in
  ret [] (StringNew [97; 98; 99] 2) = Ok (RHandle 1) /\ ret [StringNew [97; 98; 99] 2] (StringData 1) = Ok (RHandle 2) /\
  ret [StringNew [97; 98; 99] 2; StringData 1; Decode KUint8 2] (Decode KUint8 2) = Ok (RNum 98) /\
  ret [StringNew [97; 98; 99] 2; StringData 1; Decode KUint8 2; Decode KUint8 2] (Decode KUint8 2) = Panic.
Proof. repeat split. Qed.
Example C88_case : let ret := returns fs1 (fun _ => []) in
  ret [] (FunctionNew 1 0 2) = Ok (RHandle 1) /\ ret [FunctionNew 1 0 2] (FunctionArgs 1) = Ok (RHandle 2) /\
  ret [FunctionNew 1 0 2; FunctionArgs 1] (FunctionCall 1 2) = Ok (RHandle 3) /\
  ret [FunctionNew 1 0 2; FunctionArgs 1; FunctionCall 1 2] (DecodeString 3) = Ok (RHandle 4) /\
  ret [FunctionNew 1 0 2; FunctionArgs 1; FunctionCall 1 2; DecodeString 3] (Decode KInt 3) = Panic.
Proof. repeat split. Qed.
Print Assumptions C55_resolves_partial.
Print Assumptions C55_distinct.
Print Assumptions C55_unknown.
Print Assumptions C55_zero.
Print Assumptions C55_free_refuted.
Print Assumptions C56_size_partial.
Print Assumptions C56_complex64_refuted.
Print Assumptions C56_bool_refuted.
Print Assumptions C57_one_partial.
Print Assumptions C57_two_partial.
Print Assumptions C57_more_refuted.
Print Assumptions C86_numbers.
Print Assumptions C86_settable.
Print Assumptions C86_nil_refuted.
Print Assumptions C87_length.
Print Assumptions C87_bytes.
Print Assumptions C87_decode.
Print Assumptions C87_copy.
Print Assumptions C88_args_refuted.
Print Assumptions C88_numbers_refuted.
Print Assumptions C88_strings_partial.
