(** Proofs about package ffi. *)
From Verif Require Import GoBase BaseLemmas FfiModel FfiSpec.

(** ** Handles *)
Lemma hkey_eqb_iff a b : hkey_eqb a b = true <-> a = b.
Proof. destruct a, b; cbn; try (split; [discriminate|congruence]); rewrite Z.eqb_eq; split; congruence. Qed.
Lemma upd_key_same V (m : hkey -> option V) k v : upd_key m k v k = v.
Proof. unfold upd_key. replace (hkey_eqb k k) with true; [reflexivity|]. symmetry. apply hkey_eqb_iff. reflexivity. Qed.
Lemma upd_key_other V (m : hkey -> option V) k k' v : k <> k' -> upd_key m k v k' = m k'.
Proof. intros N. unfold upd_key. destruct (hkey_eqb k k') eqn:E; [|reflexivity]. apply hkey_eqb_iff in E. congruence. Qed.

Section Conc.
Context {V : Type} (class_of : V -> class).
Notation step := (cstep class_of).
Notation steps := (csteps class_of).
Record inv (es : list (@event V)) (st : @cstate V) : Prop := {
  i_n : hn (ctab st) = Z.of_nat (allocations es);
  i_pend : forall t p v, cpend st t = Some (p, v) -> 1 <= p <= hn (ctab st) /\ hm (ctab st) (HUint64 p) = None /\
             forall t' p' v', t' <> t -> cpend st t' = Some (p', v') -> p' <> p;
  i_map : forall p v, hm (ctab st) (HUint64 p) = Some v <-> exists t, In (ENew t p v) es;
  i_range : forall p v, hm (ctab st) (HUint64 p) = Some v -> 1 <= p <= hn (ctab st) }.
Lemma inv_start : inv [] cstart.
Proof. constructor; cbn; try discriminate; try reflexivity. intros p v. split; [discriminate|]. intros (t & []). Qed.
Lemma allocations_app (a b : list (@event V)) : allocations (a ++ b) = (allocations a + allocations b)%nat.
Proof. induction a as [|e a IH]; [reflexivity|]. destruct e; cbn; rewrite IH; reflexivity. Qed.
Lemma inv_step es st e st' : inv es st -> step st e st' -> Z.of_nat (allocations (es ++ [e])) < 2 ^ 64 -> inv (es ++ [e]) st'.
Proof.
  intros I S0 B. rewrite allocations_app in B. destruct I as [In_ Ip Im Ir].
  assert (NN : 0 <= hn (ctab st)) by lia.
  destruct S0 as [st t v P|st t p v P|st t c id P|st t id P].
  - cbn [allocations] in B. assert (U : u64 (hn (ctab st) + 1) = hn (ctab st) + 1) by (unfold u64; apply Z.mod_small; lia).
    constructor; cbn [ctab cpend snd fst h_add hn hm]; rewrite ?U.
    + rewrite allocations_app. cbn. lia.
    + intros t0 p0 v0 Q. unfold upd_pend in *. destruct (Nat.eqb t t0) eqn:E.
      * apply Nat.eqb_eq in E. subst t0. injection Q as <- <-. split; [lia|]. split.
        -- destruct (hm (ctab st) (HUint64 (hn (ctab st) + 1))) eqn:X; [|reflexivity]. apply Ir in X. lia.
        -- intros t' p' v' N Q'. destruct (Nat.eqb t t') eqn:E'; [apply Nat.eqb_eq in E'; congruence|].
           destruct (Ip _ _ _ Q') as (R & _). lia.
      * destruct (Ip _ _ _ Q) as (R & M & D). split; [lia|]. split; [exact M|]. intros t' p' v' N Q'.
        destruct (Nat.eqb t t'); [|eapply D; eassumption]. injection Q' as <- <-. lia.
    + intros p0 v0. rewrite Im. split; intros (t0 & X); exists t0; [apply in_or_app; auto|].
      apply in_app_or in X. destruct X as [X|[X|[]]]; [exact X|discriminate].
    + intros p0 v0 X. apply Ir in X. lia.
  - destruct (Ip _ _ _ P) as (R & M & D). constructor; cbn [ctab cpend h_store hn hm].
    + rewrite allocations_app. cbn. lia.
    + intros t0 p0 v0 Q. unfold upd_pend in *. destruct (Nat.eqb t t0) eqn:E; [discriminate|]. apply Nat.eqb_neq in E.
      destruct (Ip _ _ _ Q) as (R0 & M0 & D0). split; [exact R0|]. split.
      * rewrite upd_key_other; [exact M0|]. intros X. injection X as X. apply (D t0 p0 v0); auto.
      * intros t' p' v' N Q'. destruct (Nat.eqb t t'); [discriminate|]. eapply D0; eassumption.
    + intros p0 v0. destruct (Z.eq_dec p0 p) as [->|N].
      * rewrite upd_key_same. split.
        -- intros X. injection X as ->. exists t. apply in_or_app. right. left. reflexivity.
        -- intros (t0 & X). apply in_app_or in X. destruct X as [X|[X|[]]]; [|injection X as _ <-; reflexivity].
           assert (Y : hm (ctab st) (HUint64 p) = Some v0) by (apply Im; exists t0; exact X). congruence.
      * rewrite upd_key_other by congruence. rewrite Im. split; intros (t0 & X); exists t0; [apply in_or_app; auto|].
        apply in_app_or in X. destruct X as [X|[X|[]]]; [exact X|]. injection X as _ X _. congruence.
    + intros p0 v0. destruct (Z.eq_dec p0 p) as [->|N]; [intros _; exact R|]. rewrite upd_key_other by congruence. apply Ir.
  - constructor; cbn [ctab cpend].
    + rewrite allocations_app. cbn. lia.
    + exact Ip.
    + intros p0 v0. rewrite Im. split; intros (t0 & X); exists t0; [apply in_or_app; auto|].
      apply in_app_or in X. destruct X as [X|[X|[]]]; [exact X|discriminate].
    + exact Ir.
  - constructor; cbn [ctab cpend h_end hn hm].
    + rewrite allocations_app. cbn. lia.
    + intros t0 p0 v0 Q. rewrite upd_key_other by discriminate. apply (Ip _ _ _ Q).
    + intros p0 v0. rewrite upd_key_other by discriminate. rewrite Im. split; intros (t0 & X); exists t0; [apply in_or_app; auto|].
      apply in_app_or in X. destruct X as [X|[X|[]]]; [exact X|discriminate].
    + intros p0 v0. rewrite upd_key_other by discriminate. apply Ir.
Qed.
Lemma inv_steps es0 st es st' : inv es0 st -> steps st es st' -> Z.of_nat (allocations (es0 ++ es)) < 2 ^ 64 -> inv (es0 ++ es) st'.
Proof.
  intros I S0. revert es0 I. induction S0 as [st|st e st1 es st2 S1 S2 IH]; intros es0 I B; [rewrite app_nil_r; exact I|].
  change (e :: es) with ([e] ++ es) in *. rewrite app_assoc in *. apply IH; [|exact B]. apply (inv_step _ _ _ _ I S1).
  rewrite !allocations_app in *. lia.
Qed.
Lemma steps_app st a b st' : steps st (a ++ b) st' -> exists st1, steps st a st1 /\ steps st1 b st'.
Proof.
  revert st. induction a as [|e a IH]; intros st S0; [exists st; split; [constructor|exact S0]|].
  inversion S0 as [|? ? s1 ? ? S1 S2]; subst. destruct (IH _ S2) as (st1 & X & Y). exists st1. split; [econstructor; eassumption|exact Y].
Qed.
Lemma get_after es t c id r st : steps cstart (es ++ [EGet t c id r]) st -> Z.of_nat (allocations es) < 2 ^ 64 ->
  exists st1, inv es st1 /\ r = typed_get class_of (ctab st1) c id.
Proof.
  intros S0 B. destruct (steps_app _ _ _ _ S0) as (st1 & S1 & S2). exists st1. split; [apply (inv_steps [] cstart es st1 inv_start S1 B)|].
  inversion S2 as [|? ? s3 ? ? S3 S4]; subst. inversion S3; subst. reflexivity.
Qed.
End Conc.

(** ** Flattening *)
Definition splice (i : Z) (b buf : bytes) : bytes := ztake i buf ++ b ++ zskip (i + zlen b) buf.
Lemma zlen_app A (a b : list A) : zlen (a ++ b) = zlen a + zlen b.
Proof. unfold zlen. rewrite app_length. lia. Qed.
Lemma zlen_ztake A i (l : list A) : 0 <= i <= zlen l -> zlen (ztake i l) = i.
Proof. unfold zlen, ztake. intros H. rewrite firstn_length. lia. Qed.
Lemma zlen_splice i b buf : 0 <= i -> i + zlen b <= zlen buf -> zlen (splice i b buf) = zlen buf.
Proof.
  intros H1 H2. unfold splice. rewrite !zlen_app, zlen_ztake by (unfold zlen in *; lia).
  unfold zlen, zskip in *. rewrite skipn_length. lia.
Qed.
Lemma skip_skip A (m n : nat) (l : list A) : skipn m (skipn n l) = skipn (n + m) l.
Proof. revert l. induction n as [|n IH]; intros l; [reflexivity|]. destruct l as [|a l]; [rewrite !skipn_nil; reflexivity|]. cbn [skipn Nat.add]. apply IH. Qed.
Lemma splice_splice i b1 b2 buf : 0 <= i -> i + zlen b1 + zlen b2 <= zlen buf ->
  splice (i + zlen b1) b2 (splice i b1 buf) = splice i (b1 ++ b2) buf.
Proof.
  intros H1 H2. unfold splice at 1 3. assert (T : zlen (ztake i buf) = i) by (apply zlen_ztake; unfold zlen in *; lia).
  unfold splice. rewrite zlen_app.
  replace (ztake (i + zlen b1) (ztake i buf ++ b1 ++ zskip (i + zlen b1) buf)) with (ztake i buf ++ b1).
  2: { unfold ztake at 2. rewrite app_assoc, firstn_app. replace (Z.to_nat (i + zlen b1) - length (ztake i buf ++ b1))%nat with 0%nat.
       2: { rewrite app_length. unfold zlen in *. lia. }
       cbn [firstn]. rewrite app_nil_r, firstn_all2; [reflexivity|]. rewrite app_length. unfold zlen in *. lia. }
  rewrite <- !app_assoc. do 3 f_equal. unfold zskip at 1. rewrite app_assoc, skipn_app.
  replace (skipn (Z.to_nat (i + zlen b1 + zlen b2)) (ztake i buf ++ b1)) with (@nil Z).
  2: { symmetry. apply skipn_all2. rewrite app_length. unfold zlen in *. lia. }
  cbn [app]. unfold zskip. rewrite skip_skip. f_equal. rewrite app_length. unfold zlen in *. lia.
Qed.
Lemma splice_over i b1 b2 buf : 0 <= i -> i + zlen b1 <= zlen buf -> zlen b1 = zlen b2 ->
  splice i b2 (splice i b1 buf) = splice i b2 buf.
Proof.
  intros H1 H2 H3. unfold splice. assert (T : zlen (ztake i buf) = i) by (apply zlen_ztake; unfold zlen in *; lia).
  f_equal.
  - unfold ztake at 1. rewrite firstn_app. replace (Z.to_nat i - length (ztake i buf))%nat with 0%nat by (unfold zlen in *; lia).
    cbn [firstn]. rewrite app_nil_r, firstn_all2; [reflexivity|unfold zlen in *; lia].
  - f_equal. rewrite <- H3. unfold zskip at 1. rewrite app_assoc, skipn_app.
    replace (skipn (Z.to_nat (i + zlen b1)) (ztake i buf ++ b1)) with (@nil Z).
    2: { symmetry. apply skipn_all2. rewrite app_length. unfold zlen in *. lia. }
    cbn [app]. replace (Z.to_nat (i + zlen b1) - length (ztake i buf ++ b1))%nat with 0%nat by (rewrite app_length; unfold zlen in *; lia).
    reflexivity.
Qed.
Lemma zlen_le n x : zlen (le n x) = Z.of_nat n.
Proof. unfold zlen. f_equal. revert x. induction n as [|n IH]; intros x; [reflexivity|]. cbn. rewrite IH. reflexivity. Qed.
Lemma le_little n x : little_endian n x (le n x).
Proof.
  revert x. induction n as [|n IH]; intros x; [constructor|]. cbn [le]. constructor; [|reflexivity|apply IH].
  unfold is_byte. apply Z.mod_pos_bound. lia.
Qed.
Lemma put_splice n buf i x : 0 <= i -> i + Z.of_nat n <= zlen buf -> put n buf i x = Ok (splice i (le n x) buf).
Proof.
  intros H1 H2. unfold put. replace ((0 <=? i) && (i + Z.of_nat n <=? zlen buf)) with true by lia. unfold splice. rewrite zlen_le. reflexivity.
Qed.

Notation H := (table Z).
(** what a successful read gives *)
Definition reads_as (fl : Z -> bytes -> list Z -> Prop) (size : Z) (rd : bytes -> Z -> H -> outcome (bytes * Z * H)) : Prop :=
  forall buf i h, 0 <= i -> i + size <= zlen buf -> 0 <= hn h -> hn h + size < 2 ^ 64 ->
  exists b os h', fl (hn h) b os /\ zlen b = size /\ zlen os <= size /\ rd buf i h = Ok (splice i b buf, size, h') /\
    hn h' = hn h + zlen os /\
    (forall k o, nth_error os k = Some o -> hm h' (HUint64 (hn h + 1 + Z.of_nat k)) = Some o) /\
    (forall p, p <= hn h -> hm h' (HUint64 p) = hm h (HUint64 p)).
(** both loops at once *)
Fixpoint read_pairs (ps : list (ftype * fval)) (buf : bytes) (i n : Z) (h : H) : outcome (bytes * Z * H) :=
  match ps with
  | [] => Ok (buf, n, h)
  | (t, v) :: r => let! (buf, k, h) := read t v buf (i + n) h in read_pairs r buf i (n + k) h
  end.
Lemma read_elems_pairs e vs : forall buf i n h, read_elems (read e) vs buf i n h = read_pairs (map (fun v => (e, v)) vs) buf i n h.
Proof.
  induction vs as [|v r IH]; intros; [reflexivity|]. cbn [read_elems map read_pairs].
  destruct (read e v buf (i + n) h) as [[[b k] h1]|]; [|reflexivity]. cbn [obind]. apply IH.
Qed.
Definition total (ps : list (ftype * fval)) : Z := fold_right (fun p s => sizeOf (fst p) + s) 0 ps.
Lemma pairs_read ps : Forall (fun p => reads_as (flattened (fst p) (snd p)) (sizeOf (fst p)) (read (fst p) (snd p))) ps ->
  Forall (fun p => 0 <= sizeOf (fst p)) ps ->
  forall buf i n h, 0 <= i + n -> i + n + total ps <= zlen buf -> 0 <= hn h -> hn h + total ps < 2 ^ 64 ->
  exists b os h', flattened_all ps (hn h) b os /\ zlen b = total ps /\ zlen os <= total ps /\
    read_pairs ps buf i n h = Ok (splice (i + n) b buf, n + total ps, h') /\
    hn h' = hn h + zlen os /\
    (forall k o, nth_error os k = Some o -> hm h' (HUint64 (hn h + 1 + Z.of_nat k)) = Some o) /\
    (forall p, p <= hn h -> hm h' (HUint64 p) = hm h (HUint64 p)).
Proof.
  induction ps as [|[t v] r IH]; intros F P buf i n h I L N B.
  - exists [], [], h. cbn [total fold_right] in *. split; [constructor|]. split; [reflexivity|]. split; [cbn; lia|].
    split; [|split; [cbn; lia|split; [intros k o X; destruct k; discriminate|reflexivity]]].
    cbn [read_pairs]. replace (n + 0) with n by lia. unfold splice. cbn [app zlen length Z.of_nat]. rewrite Z.add_0_r.
    unfold ztake, zskip. rewrite firstn_skipn. reflexivity.
  - inversion F as [|x y F1 F2]; subst. inversion P as [|x y P1 P2]; subst. cbn [fst snd total fold_right] in *. fold (total r) in *.
    assert (TR : 0 <= total r) by (clear -P2; induction P2 as [|x l X Y IHY]; [cbn; lia|cbn [total fold_right]; fold (total l); lia]).
    destruct (F1 buf (i + n) h ltac:(lia) ltac:(lia) N ltac:(lia)) as (b1 & os1 & h1 & A1 & A2 & A3 & A4 & A5 & A6 & A7).
    assert (N1 : 0 <= hn h1) by (unfold zlen in *; lia).
    assert (LS : zlen (splice (i + n) b1 buf) = zlen buf) by (apply zlen_splice; lia).
    destruct (IH F2 P2 (splice (i + n) b1 buf) i (n + sizeOf t) h1 ltac:(lia) ltac:(lia) N1 ltac:(lia))
      as (b2 & os2 & h2 & B1 & B2 & B3 & B4 & B5 & B6 & B7).
    exists (b1 ++ b2), (os1 ++ os2), h2. split; [constructor; [exact A1|rewrite <- A5; exact B1]|].
    split; [rewrite zlen_app; lia|]. split; [rewrite zlen_app; lia|]. split.
    + cbn [read_pairs]. rewrite A4. cbn [obind]. rewrite B4.
      replace (i + (n + sizeOf t)) with (i + n + zlen b1) by lia. rewrite splice_splice by lia.
      replace (n + sizeOf t + total r) with (n + (sizeOf t + total r)) by lia. reflexivity.
    + split; [rewrite zlen_app; lia|]. split.
      * intros k o X. destruct (Nat.lt_ge_cases k (length os1)) as [K|K].
        -- rewrite nth_error_app1 in X by exact K. rewrite B7 by (rewrite A5; unfold zlen; lia). apply A6. exact X.
        -- rewrite nth_error_app2 in X by exact K. apply B6 in X. rewrite A5 in X. rewrite <- X. do 2 f_equal. unfold zlen. lia.
      * intros p Q. rewrite B7 by (unfold zlen in *; lia). apply A7. exact Q.
Qed.
Section FInd.
Variable P : ftype -> Prop.
Hypotheses (HB : P FBool) (HI : forall w, P (FInt w)) (HU : forall w, P (FUint w)) (HF : forall w, P (FFloat w))
  (HC : forall w, P (FComplex w)) (HR : P FRef) (HA : forall n e, P e -> P (FArray n e)) (HS : forall ts, Forall P ts -> P (FStruct ts)).
Fixpoint ftype_ind' (t : ftype) : P t :=
  match t with
  | FBool => HB | FInt w => HI w | FUint w => HU w | FFloat w => HF w | FComplex w => HC w | FRef => HR
  | FArray n e => HA n e (ftype_ind' e)
  | FStruct ts => HS ts ((fix go ts := match ts return Forall P ts with [] => Forall_nil P | t :: r => Forall_cons t (ftype_ind' t) (go r) end) ts)
  end.
End FInd.
Lemma sizeOf_pos t : forall v, of_type t v -> 0 <= sizeOf t.
Proof.
  induction t as [|w|w|w|w| |n e IH|ts IH] using ftype_ind'; intros v O; inversion O; subst; cbn [sizeOf]; try lia;
    try (match goal with W : width _ |- _ => unfold width in W; cbn [In] in W; repeat (destruct W as [<-|W]; [cbn; lia|]); contradiction end).
  - match goal with W : In _ _ |- _ => cbn [In] in W; repeat (destruct W as [<-|W]; [cbn; lia|]); contradiction end.
  - match goal with W : In _ _ |- _ => cbn [In] in W; repeat (destruct W as [<-|W]; [cbn; lia|]); contradiction end.
  - match goal with W : Forall _ _ |- _ => destruct W as [|x l W1 W2] end; [cbn; lia|]. specialize (IH _ W1). nia.
  - clear O. match goal with W : Forall2 _ _ _ |- _ => induction W as [|t v ts vs W1 W2 IHW] end; [cbn; lia|].
    inversion IH as [|? ? I1 I2]; subst. cbn [fold_right]. specialize (I1 _ W1). specialize (IHW I2). lia.
Qed.
Lemma fields_pairs i : forall ts vs, length ts = length vs -> forall buf n h,
  (fix fields (ts : list ftype) vs buf n h :=
       match ts, vs with
       | t :: ts, v :: vs => let! (buf, k, h) := read t v buf (i + n) h in fields ts vs buf (n + k) h
       | _, _ => Ok (buf, n, h)
       end) ts vs buf n h = read_pairs (combine ts vs) buf i n h.
Proof.
  induction ts as [|t ts IH]; intros [|v vs] L buf n h; try discriminate; [reflexivity|]. cbn [combine read_pairs].
  destruct (read t v buf (i + n) h) as [[[b k] h1]|]; [|reflexivity]. cbn [obind]. apply IH. injection L as L. exact L.
Qed.
Lemma Forall2_len A B (R : A -> B -> Prop) l l' : Forall2 R l l' -> length l = length l'.
Proof. induction 1; cbn; congruence. Qed.
Lemma read_flat t : forall v, of_type t v -> plain t -> reads_as (flattened t v) (sizeOf t) (read t v).
Proof.
  induction t as [|w|w|w|w| |n e IH|ts IH] using ftype_ind'; intros v O P; inversion P; subst; inversion O; subst.
  - (* int *)
    intros buf i h I L N B. cbn [sizeOf read] in *.
    assert (W8 : exists n, 8 * Z.of_nat n = w /\ w / 8 = Z.of_nat n).
    { match goal with W : width _ |- _ => unfold width in W; cbn [In] in W; destruct W as [<-|[<-|[<-|[<-|[]]]]] end;
        [exists 1%nat|exists 2%nat|exists 4%nat|exists 8%nat]; split; reflexivity. }
    destruct W8 as (n & W8 & W9). rewrite W9 in *. rewrite Nat2Z.id. rewrite put_splice by lia. cbn [obind].
    exists (le n (z mod 2 ^ w)), [], h. split; [econstructor; [exact W8|apply le_little]|]. rewrite zlen_le.
    split; [reflexivity|]. split; [cbn; lia|]. split; [reflexivity|]. split; [cbn; lia|]. split; [intros [|k]; discriminate|reflexivity].
  - intros buf i h I L N B. cbn [sizeOf read] in *.
    assert (W8 : exists n, 8 * Z.of_nat n = w /\ w / 8 = Z.of_nat n).
    { match goal with W : width _ |- _ => unfold width in W; cbn [In] in W; destruct W as [<-|[<-|[<-|[<-|[]]]]] end;
        [exists 1%nat|exists 2%nat|exists 4%nat|exists 8%nat]; split; reflexivity. }
    destruct W8 as (n & W8 & W9). rewrite W9 in *. rewrite Nat2Z.id. rewrite put_splice by lia. cbn [obind].
    exists (le n (z mod 2 ^ w)), [], h. split; [econstructor; [exact W8|rewrite Z.mod_small by assumption; apply le_little|assumption]|]. rewrite zlen_le.
    split; [reflexivity|]. split; [cbn; lia|]. split; [reflexivity|]. split; [cbn; lia|]. split; [intros [|k]; discriminate|reflexivity].
  - intros buf i h I L N B. cbn [sizeOf read] in *.
    assert (W8 : exists n, 8 * Z.of_nat n = w /\ w / 8 = Z.of_nat n).
    { match goal with W : In _ _ |- _ => cbn [In] in W; destruct W as [<-|[<-|[]]] end;
        [exists 4%nat|exists 8%nat]; split; reflexivity. }
    destruct W8 as (n & W8 & W9). rewrite W9 in *. rewrite Nat2Z.id. rewrite put_splice by lia. cbn [obind].
    exists (le n z), [], h. split; [econstructor; [exact W8|apply le_little]|]. rewrite zlen_le.
    split; [reflexivity|]. split; [cbn; lia|]. split; [reflexivity|]. split; [cbn; lia|]. split; [intros [|k]; discriminate|reflexivity].
  - intros buf i h I L N B. change (sizeOf (FComplex 128)) with 16 in *. cbn [read]. cbv zeta. change (128 =? 64) with false.
    cbv iota. change (Z.to_nat 8) with 8%nat.
    rewrite put_splice by lia. cbn [obind]. rewrite put_splice by (rewrite ?zlen_splice; rewrite ?zlen_le; cbn [Z.of_nat]; lia). cbn [obind].
    exists (le 8 re ++ le 8 im), [], h. split; [eapply (flat_complex 128 re im _ 8); [reflexivity|apply le_little|apply le_little]|].
    rewrite zlen_app, !zlen_le. split; [reflexivity|]. split; [cbn; lia|]. split.
    + pose proof (splice_splice i (le 8 re) (le 8 im) buf) as X. rewrite !zlen_le in X. change (Z.of_nat 8) with 8 in X. rewrite X by lia. reflexivity.
    + split; [cbn; lia|]. split; [intros [|k]; discriminate|reflexivity].
  - intros buf i h I L N B. cbn [sizeOf] in *. cbn [read]. unfold h_new, h_add.
    assert (U : u64 (hn h + 1) = hn h + 1) by (unfold u64; apply Z.mod_small; lia). rewrite !U.
    rewrite put_splice by lia. cbn [obind]. exists (le 8 (hn h + 1)), [o]. eexists.
    split; [constructor; apply le_little|]. rewrite zlen_le. split; [reflexivity|]. split; [cbn; lia|]. split; [reflexivity|].
    cbn [h_store hn hm]. split; [cbn; lia|]. split.
    + intros [|k] o' X; [|destruct k; discriminate X]. injection X as <-. cbn [Z.of_nat]. rewrite Z.add_0_r. apply upd_key_same.
    + intros p Q. apply upd_key_other. intros X. injection X as X. lia.
  - (* array *)
    intros buf i h I L N B. cbn [read]. rewrite read_elems_pairs.
    assert (T : sizeOf (FArray (length vs) e) = total (map (fun v => (e, v)) vs)).
    { cbn [sizeOf]. clear. induction vs as [|v vs IHv]; [reflexivity|]. cbn [map total fold_right length fst]. fold (total (map (fun v => (e, v)) vs)). lia. }
    rewrite T in *. destruct (pairs_read (map (fun v => (e, v)) vs)) with (buf := buf) (i := i) (n := 0) (h := h) as (b & os & h' & A1 & A2 & A3 & A4 & A5 & A6 & A7).
    + apply Forall_forall. intros p X. apply in_map_iff in X. destruct X as (v & <- & X). cbn [fst snd]. apply IH; [|assumption].
      match goal with F : Forall (of_type e) vs |- _ => rewrite Forall_forall in F; apply F; exact X end.
    + apply Forall_forall. intros p X. apply in_map_iff in X. destruct X as (v & <- & X). cbn [fst snd]. apply (sizeOf_pos e v).
      match goal with F : Forall (of_type e) vs |- _ => rewrite Forall_forall in F; apply F; exact X end.
    + lia.
    + lia.
    + exact N.
    + exact B.
    + exists b, os, h'. rewrite !Z.add_0_r in *. cbn [Z.add] in A4. split; [constructor; [reflexivity|exact A1]|]. auto 8.
  - intros buf i h I L N B. cbn [read]. match goal with F : Forall2 _ _ _ |- _ => pose proof (Forall2_len _ _ _ _ _ F) as LE end.
    rewrite (fields_pairs i ts vs LE).
    assert (T : sizeOf (FStruct ts) = total (combine ts vs)).
    { cbn [sizeOf]. clear -LE. revert vs LE. induction ts as [|t ts IHt]; intros [|v vs] LE; try discriminate; [reflexivity|].
      cbn [combine total fold_right fst]. fold (total (combine ts vs)). injection LE as LE. rewrite (IHt vs LE). reflexivity. }
    rewrite T in *.
    assert (FA : Forall (fun p => of_type (fst p) (snd p) /\ plain (fst p) /\ In (fst p) ts) (combine ts vs)).
    { match goal with F : Forall2 _ _ _, G : Forall plain _ |- _ => clear -F G; induction F as [|t v ts vs F1 F2 IHF] end; [constructor|].
      inversion H0 as [|? ? G1 G2]; subst. cbn [combine]. constructor; [cbn; auto|]. eapply Forall_impl; [|apply (IHF G2)]. cbn. tauto. }
    rewrite Forall_forall in IH.
    destruct (pairs_read (combine ts vs)) with (buf := buf) (i := i) (n := 0) (h := h) as (b & os & h' & A1 & A2 & A3 & A4 & A5 & A6 & A7).
    + eapply Forall_impl; [|exact FA]. cbn beta. intros p (X1 & X2 & X3). apply IH; assumption.
    + eapply Forall_impl; [|exact FA]. cbn beta. intros p (X1 & _). eapply sizeOf_pos; exact X1.
    + lia.
    + lia.
    + exact N.
    + exact B.
    + exists b, os, h'. rewrite !Z.add_0_r in *. cbn [Z.add] in A4. split; [constructor; [exact LE|exact A1]|]. auto 8.
Qed.
(** ** Slices *)
(** From the second element on everything is put at the same place. *)
Lemma slice_rest e elems : plain e -> 0 < sizeOf e -> forall count j buf h, 0 <= j -> j + Z.of_nat count < zlen elems ->
  (forall v, In v elems -> of_type e v) -> 2 * sizeOf e <= zlen buf -> 0 <= hn h -> hn h + Z.of_nat (S count) * sizeOf e < 2 ^ 64 ->
  exists b c os v h', nth_error elems (Z.to_nat (j + Z.of_nat count)) = Some v /\ flattened e v c b os /\ zlen b = sizeOf e /\
    hn h <= c /\ read_slice e (S count) elems j buf (sizeOf e) h = Ok (splice (sizeOf e) b buf, h').
Proof.
  intros P S0. induction count as [|count IH]; intros j buf h J L T B N C.
  - assert (X : exists v, nth_error elems (Z.to_nat j) = Some v).
    { destruct (nth_error elems (Z.to_nat j)) as [v|] eqn:E; [eauto|]. apply nth_error_None in E. unfold zlen in L. lia. }
    destruct X as (v & X). assert (O : of_type e v) by (apply T; eapply nth_error_In; exact X).
    destruct (read_flat e v O P buf (sizeOf e) h ltac:(lia) ltac:(lia) N ltac:(lia)) as (b & os & h' & A1 & A2 & A3 & A4 & _).
    exists b, (hn h), os, v, h'. rewrite Z.add_0_r. split; [exact X|]. split; [exact A1|]. split; [exact A2|]. split; [lia|].
    cbn [read_slice]. unfold index. replace ((0 <=? j) && (j <? zlen elems)) with true by lia. rewrite X. cbn [obind]. rewrite A4. reflexivity.
  - assert (X : exists v, nth_error elems (Z.to_nat j) = Some v).
    { destruct (nth_error elems (Z.to_nat j)) as [v|] eqn:E; [eauto|]. apply nth_error_None in E. unfold zlen in L. lia. }
    destruct X as (v & X). assert (O : of_type e v) by (apply T; eapply nth_error_In; exact X).
    destruct (read_flat e v O P buf (sizeOf e) h ltac:(lia) ltac:(lia) N ltac:(nia)) as (b1 & os1 & h1 & A1 & A2 & A3 & A4 & A5 & _).
    assert (N1 : 0 <= hn h1) by (unfold zlen in *; lia).
    destruct (IH (j + 1) (splice (sizeOf e) b1 buf) h1 ltac:(lia) ltac:(lia) T ltac:(rewrite zlen_splice by lia; lia) N1 ltac:(nia))
      as (b & c & os & v' & h' & B1 & B2 & B3 & B4 & B5).
    exists b, c, os, v', h'. split; [rewrite <- B1; do 2 f_equal; lia|]. split; [exact B2|]. split; [exact B3|]. split; [unfold zlen in *; lia|].
    change (S (S count)) with (S (S count)). remember (S count) as m. cbn [read_slice]. unfold index. replace ((0 <=? j) && (j <? zlen elems)) with true by lia.
    rewrite X. cbn [obind]. rewrite A4. cbn [obind]. rewrite B5. rewrite splice_over by lia. reflexivity.
Qed.
