From Verif Require Import BaseLemmas WireModel WireSpec WireProofs GrpcModel GrpcSpec.

(** ** Induction over values *)
Section gval_ind.
  Variable P : gval -> Prop.
  Hypothesis Hb : forall b, P (GBool b).
  Hypothesis Hi : forall z, P (GInt z).
  Hypothesis Hu : forall z, P (GUint z).
  Hypothesis Hf : forall z, P (GFloat32 z).
  Hypothesis Hg : forall z, P (GFloat64 z).
  Hypothesis Hs : forall z, P (GString z).
  Hypothesis Ha : forall vs, Forall P vs -> P (GArray vs).
  Hypothesis Hl : forall vs, Forall P vs -> P (GSlice vs).
  Hypothesis Hm : forall es, Forall (fun e => P (fst e) /\ P (snd e)) es -> P (GMap es).
  Hypothesis Hn : P GNil.
  Hypothesis Hp : forall v, P v -> P (GPtr v).
  Hypothesis Hst : forall vs, Forall P vs -> P (GStruct vs).
  Hypothesis Hx : P GUnsupported.
  Fixpoint gval_ind' (v : gval) : P v :=
    let list_ind := fix go (vs : list gval) : Forall P vs :=
      match vs with [] => Forall_nil _ | x :: r => Forall_cons _ (gval_ind' x) (go r) end in
    match v with
    | GBool b => Hb b | GInt z => Hi z | GUint z => Hu z | GFloat32 z => Hf z | GFloat64 z => Hg z
    | GString s => Hs s | GArray vs => Ha vs (list_ind vs) | GSlice vs => Hl vs (list_ind vs)
    | GMap es => Hm es ((fix go (es : list (gval * gval)) : Forall (fun e => P (fst e) /\ P (snd e)) es :=
        match es with [] => Forall_nil _ | e :: r => Forall_cons e (conj (gval_ind' (fst e)) (gval_ind' (snd e))) (go r) end) es)
    | GNil => Hn | GPtr x => Hp x (gval_ind' x) | GStruct vs => Hst vs (list_ind vs)
    | GUnsupported => Hx
    end.
End gval_ind.

(** ** The inner loops by name *)
Definition sizeFields := fix go (i : Z) (vs : list gval) : Z :=
        match vs with
        | [] => 0
        | x :: r => let '(head, body) := sizeof (fieldNumber i) x in head + body + go (i + 1) r
        end.
Definition sizeRep n := fix go (vs : list gval) : Z :=
        match vs with
        | [] => 0
        | x :: r => let '(head, body) := sizeof n x in head + body + go r
        end.
Definition sizeMap := fix go (es : list (gval * gval)) : Z :=
        match es with
        | [] => 0
        | (k, x) :: r =>
            let '(kh, kb) := sizeof 1 k in let '(xh, xb) := sizeof 2 x in
            kh + kb + xh + xb + go r
        end.
Definition encFields := fix go (w : writer) (i : Z) (vs : list gval) : outcome (writer * err) :=
          match vs with
          | [] => Ok (w, ENone)
          | x :: r => andThen (encode w (fieldNumber i) x) (fun w => go w (i + 1) r)
          end.
Definition encRep n := fix go (w : writer) (vs : list gval) : outcome (writer * err) :=
        match vs with
        | [] => Ok (w, ENone)
        | x :: r => andThen (encode w n x) (fun w => go w r)
        end.
Definition encMap n size := fix go (w : writer) (es : list (gval * gval)) : outcome (writer * err) :=
        match es with
        | [] => Ok (w, ENone)
        | (k, x) :: r =>
            andThen (Ok (write w (appendVarint (appendTag [] n typeBytes) (u64 size))))
              (fun w => andThen (encode w 1 k) (fun w => andThen (encode w 2 x) (fun w => go w r)))
        end.
Definition allg m := fix go (vs : list gval) : Prop := match vs with [] => True | x :: r => goval m x /\ go r end.
Definition allm m := fix go (es : list (gval * gval)) : Prop :=
         match es with [] => True | (k, x) :: r => goval m k /\ goval m x /\ go r end.
Lemma sizeof_struct n vs : sizeof n (GStruct vs) = (sizeTag n + sizeVarint (u64 (sizeFields 0 vs)), sizeFields 0 vs).
Proof. reflexivity. Qed.
Lemma sizeof_array n vs : sizeof n (GArray vs) = (sizeTag n + sizeVarint (u64 (sizeFields 0 vs)), sizeFields 0 vs).
Proof. reflexivity. Qed.
Lemma sizeof_slice n vs : sizeof n (GSlice vs) = (0, sizeRep n vs).
Proof. reflexivity. Qed.
Lemma sizeof_mapv n es : sizeof n (GMap es) = (sizeTag n + sizeVarint (u64 (sizeMap es)), sizeMap es).
Proof. reflexivity. Qed.
Lemma encode_struct w n vs : encode w n (GStruct vs) =
  andThen (Ok (write w (appendVarint (appendTag [] n typeBytes) (u64 (sizeFields 0 vs))))) (fun w => encFields w 0 vs).
Proof. reflexivity. Qed.
Lemma encode_array w n vs : encode w n (GArray vs) =
  andThen (Ok (write w (appendVarint (appendTag [] n typeBytes) (u64 (sizeFields 0 vs))))) (fun w => encFields w 0 vs).
Proof. reflexivity. Qed.
Lemma encode_slice w n vs : encode w n (GSlice vs) = encRep n w vs.
Proof. reflexivity. Qed.
Lemma encode_mapv w n es : encode w n (GMap es) =
  if zlen es =? 0 then Panic else encMap n (Z.quot (sizeMap es) (zlen es)) w es.
Proof. reflexivity. Qed.

(** ** Sizes are not negative *)
Lemma sizeVarint_nonneg v : 0 <= sizeVarint v.
Proof.
  unfold sizeVarint. apply Z.div_pos; [|lia]. unfold u32. pose proof (Z.mod_pos_bound (9 * Len64 v + 64) (2^32)). lia.
Qed.
Lemma sizeTag_nonneg n : 0 <= sizeTag n. Proof. apply sizeVarint_nonneg. Qed.
Definition total n v := fst (sizeof n v) + snd (sizeof n v).

Lemma sizes_nonneg m v : forall n, goval m v -> 0 <= fst (sizeof n v) /\ 0 <= snd (sizeof n v).
Proof.
  induction v as [b|z|z|z|z|s|vs IH|vs IH|es IH| |v IH|vs IH|] using gval_ind'; intros n H;
    pose proof (sizeTag_nonneg n);
    try (cbn [sizeof fst snd]; split; [lia|]; try lia; try apply sizeVarint_nonneg; fail).
  - cbn [sizeof fst snd]. pose proof (sizeVarint_nonneg (u64 (zlen s))). pose proof (zlen_nonneg s). lia.
  - rewrite sizeof_array. cbn [fst snd]. pose proof (sizeVarint_nonneg (u64 (sizeFields 0 vs))).
    split; [lia|]. change (goval m (GArray vs)) with (zlen vs < 2^31 - 1 /\ allg m vs) in H. destruct H as [_ H].
    assert (Q : forall i, 0 <= sizeFields i vs); [|apply Q].
    induction IH as [|x r Hx _ IHr]; intros i; cbn; [lia|]. destruct H as [G1 G2].
    specialize (Hx (fieldNumber i) G1). destruct (sizeof (fieldNumber i) x); cbn in *. specialize (IHr G2 (sizeVarint_nonneg _) (i + 1)). fold sizeFields. lia.
  - rewrite sizeof_slice. cbn [fst snd]. split; [lia|]. change (goval m (GSlice vs)) with (allg m vs) in H.
    induction IH as [|x r Hx _ IHr]; cbn; [lia|]. destruct H as [G1 G2].
    specialize (Hx n G1). destruct (sizeof n x); cbn in *. specialize (IHr G2). lia.
  - rewrite sizeof_mapv. cbn [fst snd]. pose proof (sizeVarint_nonneg (u64 (sizeMap es))).
    split; [lia|]. change (goval m (GMap es)) with (m (zlen es) /\ allm m es) in H. destruct H as [_ H].
    induction IH as [|[k x] r [Hk Hx] _ IHr]; cbn; [lia|]. destruct H as (G1 & G2 & G3). cbn in Hk, Hx.
    specialize (Hk 1 G1). specialize (Hx 2 G2). destruct (sizeof 1 k), (sizeof 2 x); cbn in *. specialize (IHr G3 (sizeVarint_nonneg _)). fold sizeMap. lia.
  - rewrite sizeof_struct. cbn [fst snd]. pose proof (sizeVarint_nonneg (u64 (sizeFields 0 vs))).
    split; [lia|]. change (goval m (GStruct vs)) with (zlen vs < 2^31 - 1 /\ allg m vs) in H. destruct H as [_ H].
    assert (Q : forall i, 0 <= sizeFields i vs); [|apply Q].
    induction IH as [|x r Hx _ IHr]; intros i; cbn; [lia|]. destruct H as [G1 G2].
    specialize (Hx (fieldNumber i) G1). destruct (sizeof (fieldNumber i) x); cbn in *. specialize (IHr G2 (sizeVarint_nonneg _) (i + 1)). fold sizeFields. lia.
  - destruct H.
Qed.
Lemma total_nonneg m n v : goval m v -> 0 <= total n v.
Proof. intros H. destruct (sizes_nonneg m v n H). unfold total. lia. Qed.

Lemma sizeFields_cons i x r : sizeFields i (x :: r) = total (fieldNumber i) x + sizeFields (i + 1) r.
Proof. cbn. unfold total. destruct (sizeof (fieldNumber i) x). reflexivity. Qed.
Lemma sizeRep_cons n x r : sizeRep n (x :: r) = total n x + sizeRep n r.
Proof. cbn. unfold total. destruct (sizeof n x). reflexivity. Qed.
Lemma sizeMap_cons k x r : sizeMap ((k, x) :: r) = total 1 k + total 2 x + sizeMap r.
Proof. cbn. unfold total. destruct (sizeof 1 k), (sizeof 2 x). cbn. lia. Qed.
Lemma sizeFields_nonneg m vs : forall i, allg m vs -> 0 <= sizeFields i vs.
Proof.
  induction vs as [|x r IH]; intros i H; [cbn; lia|]. rewrite sizeFields_cons. destruct H as [H1 H2].
  pose proof (total_nonneg m (fieldNumber i) x H1). specialize (IH (i + 1) H2). lia.
Qed.
Lemma sizeRep_nonneg m n vs : allg m vs -> 0 <= sizeRep n vs.
Proof.
  induction vs as [|x r IH]; intros H; [cbn; lia|]. rewrite sizeRep_cons. destruct H as [H1 H2].
  pose proof (total_nonneg m n x H1). specialize (IH H2). lia.
Qed.

(** ** Writing *)
Lemma appendTag_writes n typ : 1 <= n < 2^31 -> 0 <= typ < 8 ->
  exists p, appendTag [] n typ = p /\ tag p n typ /\ sizeTag n = zlen p.
Proof. intros H1 H2. destruct (appendTag_ok [] n typ H1 H2) as (p & E & H). exists p. auto. Qed.

Lemma scalar_varint n x : 1 <= n < 2^31 -> 0 <= x < 2^64 ->
  exists p q, appendVarint (appendTag [] n typeVarint) x = p ++ q /\ tag p n 0 /\ uvarint q x /\
     sizeTag n = zlen p /\ sizeVarint x = zlen q.
Proof.
  intros Hn Hx. destruct (appendTag_writes n typeVarint Hn) as (p & -> & Ht & Hs); [unfold typeVarint; lia|].
  exists p, (appendVarint [] x). rewrite appendVarint_app, sizeVarint_ok by lia.
  repeat match goal with |- _ /\ _ => split end; auto using appendVarint_varint.
Qed.
Lemma header n x : 1 <= n < 2^31 -> 0 <= x < 2^64 ->
  exists p q, appendVarint (appendTag [] n typeBytes) x = p ++ q /\ tag p n 2 /\ uvarint q x /\
     sizeTag n = zlen p /\ sizeVarint x = zlen q.
Proof.
  intros Hn Hx. destruct (appendTag_writes n typeBytes Hn) as (p & -> & Ht & Hs); [unfold typeBytes; lia|].
  exists p, (appendVarint [] x). rewrite appendVarint_app, sizeVarint_ok by lia.
  repeat match goal with |- _ /\ _ => split end; auto using appendVarint_varint.
Qed.

Definition okw (o b : bytes) : outcome (writer * err) := Ok (mkWriter None (o ++ b), ENone).

Definition encodes (o : bytes) (n : Z) (v : gval) : Prop :=
  exists bs, encode (mkWriter None o) n v = okw o bs /\ pb n v bs /\ zlen bs = total n v.

Lemma fieldNumber_ok i : 0 <= i < 2^31 - 1 -> fieldNumber i = i + 1.
Proof. intros H. unfold fieldNumber. rewrite (i32_small i) by lia. apply i32_small. lia. Qed.

Lemma fields_ok m vs : Forall (fun x => forall n o, 1 <= n < 2^31 -> goval m x -> total n x < 2^63 -> encodes o n x) vs ->
  forall i o, allg m vs -> 0 <= i -> i + zlen vs < 2^31 - 1 -> sizeFields i vs < 2^63 ->
  exists bs, encFields (mkWriter None o) i vs = okw o bs /\ pb_fields (i + 1) vs bs /\ zlen bs = sizeFields i vs.
Proof.
  induction 1 as [|x r Hx _ IH]; intros i o G Hi Hl Hs.
  - exists []. cbn. unfold okw. rewrite app_nil_r. repeat split; constructor.
  - destruct G as [G1 G2]. rewrite zlen_cons in Hl. pose proof (zlen_nonneg r).
    rewrite sizeFields_cons in *. pose proof (total_nonneg m (fieldNumber i) x G1).
    pose proof (sizeFields_nonneg m r (i + 1) G2).
    rewrite fieldNumber_ok in * by lia.
    destruct (Hx (i + 1) o) as (b & E & Hb & Hz); [lia|exact G1|lia|].
    destruct (IH (i + 1) (o ++ b) G2) as (bs & E2 & Hb2 & Hz2); [lia|lia|lia|].
    exists (b ++ bs). split; [|split].
    + cbn [encFields]. fold encFields. rewrite fieldNumber_ok by lia. rewrite E. unfold okw at 1. cbn [andThen].
      rewrite E2. unfold okw. rewrite app_assoc. reflexivity.
    + constructor; assumption.
    + rewrite zlen_app. lia.
Qed.

Lemma encode_ok v : forall n o, 1 <= n < 2^31 -> goval one_entry v -> total n v < 2^63 -> encodes o n v.
Proof.
  induction v as [b|z|z|z|z|s|vs IH|vs IH|es IH| |v IH|vs IH|] using gval_ind'; intros n o Hn G Hs; unfold encodes.
  - destruct (scalar_varint n (encodeBool b) Hn) as (p & q & E & Ht & Hu & S1 & S2); [destruct b; cbn; lia|].
    exists (p ++ [if b then 1 else 0]). split; [|split].
    + cbn. unfold okw. destruct (appendTag_writes n typeVarint Hn) as (p' & E' & _); [unfold typeVarint; lia|].
      assert (q = [if b then 1 else 0]).
      { rewrite appendVarint_app in E.
        assert (X : p = appendTag [] n typeVarint).
        { destruct (appendTag_writes n typeVarint Hn) as (p'' & Ep & Tp & _); [unfold typeVarint; lia|].
          rewrite Ep in *. destruct Ht as (_ & _ & Hp1 & _). destruct Tp as (_ & _ & Hp2 & _).
          symmetry. exact (proj1 (varint_det _ _ _ Hp2 _ _ _ Hp1 E)). }
        rewrite <- X in E. apply app_inv_head in E. rewrite <- E. destruct b; reflexivity. }
      subst q. rewrite E. reflexivity.
    + constructor. exact Ht.
    + rewrite zlen_app. unfold total. cbn [sizeof fst snd]. rewrite S1. reflexivity.
  - cbn [goval] in G.
    assert (0 <= encodeInt z < 2^64) by (unfold encodeInt, u64; apply Z.mod_pos_bound; lia).
    destruct (scalar_varint n (encodeInt z) Hn) as (p & q & E & Ht & Hu & S1 & S2); [lia|].
    exists (p ++ q). split; [cbn; unfold okw; rewrite E; reflexivity|]. split; [constructor; assumption|].
    rewrite zlen_app. unfold total. cbn [sizeof fst snd]. lia.
  - cbn [goval] in G. destruct (scalar_varint n z Hn G) as (p & q & E & Ht & Hu & S1 & S2).
    exists (p ++ q). split; [cbn; unfold okw; rewrite E; reflexivity|]. split; [constructor; assumption|].
    rewrite zlen_app. unfold total. cbn [sizeof fst snd]. lia.
  - cbn [goval] in G. destruct (appendTag_writes n typeFixed32 Hn) as (p & E & Ht & S1); [unfold typeFixed32; lia|].
    destruct (appendFixed32_ok p z G) as (q & E2 & Hq).
    exists (p ++ q). split; [cbn; unfold okw; rewrite E, E2; reflexivity|].
    split; [apply pb_f32; [exact Ht|apply Hq..]|].
    rewrite zlen_app. unfold total. cbn [sizeof fst snd]. rewrite S1. destruct Hq as (? & -> & ?). reflexivity.
  - cbn [goval] in G. destruct (appendTag_writes n typeFixed64 Hn) as (p & E & Ht & S1); [unfold typeFixed64; lia|].
    destruct (appendFixed64_ok p z G) as (q & E2 & Hq).
    exists (p ++ q). split; [cbn; unfold okw; rewrite E, E2; reflexivity|].
    split; [apply pb_f64; [exact Ht|apply Hq..]|].
    rewrite zlen_app. unfold total. cbn [sizeof fst snd]. rewrite S1. destruct Hq as (? & -> & ?). reflexivity.
  - cbn [goval] in G. unfold total in *. cbn [sizeof fst snd] in *. pose proof (zlen_nonneg s).
    pose proof (sizeTag_nonneg n). pose proof (sizeVarint_nonneg (u64 (zlen s))).
    assert (U : u64 (zlen s) = zlen s) by (apply u64_small; lia). rewrite U in *.
    destruct (header n (zlen s) Hn) as (p & q & E & Ht & Hu & S1 & S2); [lia|].
    exists (p ++ q ++ s). split; [|split; [constructor; assumption|]].
    + cbn [encode]. rewrite u64_small by lia. rewrite E. unfold write, andThen, okw. cbn [left out].
      rewrite <- !app_assoc. reflexivity.
    + rewrite !zlen_app. lia.
  - destruct G as [G1 G2]. fold (allg one_entry) in G2. unfold total in Hs |- *. rewrite sizeof_array in *. cbn [fst snd] in *.
    pose proof (sizeFields_nonneg one_entry vs 0 G2). pose proof (sizeTag_nonneg n).
    pose proof (sizeVarint_nonneg (u64 (sizeFields 0 vs))).
    assert (U : u64 (sizeFields 0 vs) = sizeFields 0 vs) by (apply u64_small; lia). rewrite U in *.
    destruct (header n (sizeFields 0 vs) Hn) as (p & q & E & Ht & Hu & S1 & S2); [lia|].
    destruct (fields_ok one_entry vs IH 0 (o ++ p ++ q) G2) as (bs & E2 & Hb & Hz); [lia|lia|lia|].
    exists (p ++ q ++ bs). split; [|split].
    + rewrite encode_array. rewrite u64_small by lia. rewrite E. unfold write, andThen. cbn [left out].
      rewrite E2. unfold okw. rewrite <- !app_assoc. reflexivity.
    + apply pb_array; [exact Ht|rewrite Hz; exact Hu|exact Hb].
    + rewrite !zlen_app. lia.
  - change (goval one_entry (GSlice vs)) with (allg one_entry vs) in G.
    unfold total in Hs |- *. rewrite sizeof_slice in *. cbn [fst snd] in *.
    assert (exists bs, encRep n (mkWriter None o) vs = okw o bs /\ pb_repeated n vs bs /\ zlen bs = sizeRep n vs) as (bs & E & Hb & Hz).
    { revert o. induction IH as [|x r Hx _ IHr]; intros o.
      - exists []. cbn. unfold okw. rewrite app_nil_r. repeat split; constructor.
      - destruct G as [G1 G2]. rewrite sizeRep_cons in *. pose proof (total_nonneg one_entry n x G1).
        pose proof (sizeRep_nonneg one_entry n r G2).
        destruct (Hx n o Hn G1) as (b & E & Hb & Hz); [lia|].
        destruct (IHr G2 ltac:(lia) (o ++ b)) as (bs & E2 & Hb2 & Hz2).
        exists (b ++ bs). split; [|split; [constructor; assumption|rewrite zlen_app; lia]].
        cbn [encRep]. fold (encRep n). rewrite E. unfold okw at 1. cbn [andThen]. rewrite E2. unfold okw.
        rewrite app_assoc. reflexivity. }
    exists bs. split; [rewrite encode_slice; exact E|]. split; [constructor; exact Hb|lia].
  - destruct G as [G1 G2]. fold (allm one_entry) in G2. unfold one_entry in G1.
    destruct es as [|[k x] [|e es]]; [discriminate G1| |rewrite !zlen_cons in G1; pose proof (zlen_nonneg es); lia].
    destruct G2 as (Gk & Gx & _). apply Forall_inv in IH. destruct IH as [IHk IHx]. cbn [fst snd] in *.
    unfold total in Hs. rewrite sizeof_mapv in Hs. cbn [fst snd] in Hs. rewrite sizeMap_cons in Hs. cbn [sizeMap] in Hs.
    pose proof (total_nonneg _ 1 k Gk). pose proof (total_nonneg _ 2 x Gx). pose proof (sizeTag_nonneg n).
    pose proof (sizeVarint_nonneg (u64 (total 1 k + total 2 x + 0))).
    destruct (header n (total 1 k + total 2 x + 0) Hn) as (p & q & E & Ht & Hu & S1 & S2); [lia|].
    destruct (IHk 1 (o ++ p ++ q)) as (bk & Ek & Hbk & Hzk); [lia|exact Gk|lia|].
    destruct (IHx 2 ((o ++ p ++ q) ++ bk)) as (bx & Ex & Hbx & Hzx); [lia|exact Gx|lia|].
    exists (p ++ q ++ (bk ++ bx) ++ []). split; [|split].
    + rewrite encode_mapv. replace (zlen [(k, x)]) with 1 by reflexivity. cbn [Z.eqb].
      rewrite Z.quot_1_r. cbn [encMap]. rewrite sizeMap_cons. cbn [sizeMap]. rewrite u64_small by lia. rewrite E.
      unfold write. cbn [left out andThen]. rewrite Ek. unfold okw at 1. cbn [andThen]. rewrite Ex. unfold okw at 1. cbn [andThen].
      unfold okw. rewrite app_nil_r, <- !app_assoc. reflexivity.
    + constructor. econstructor; try eassumption; [|constructor]. rewrite zlen_app, Hzk, Hzx.
      replace (total 1 k + total 2 x) with (total 1 k + total 2 x + 0) by lia. exact Hu.
    + unfold total at 1. rewrite sizeof_mapv. cbn [fst snd]. rewrite sizeMap_cons. cbn [sizeMap].
      rewrite u64_small by lia. rewrite app_nil_r, !zlen_app. lia.
  - exists []. cbn. unfold okw. rewrite app_nil_r. repeat split; constructor.
  - destruct (IH n o Hn G Hs) as (bs & E & Hb & Hz). exists bs. split; [exact E|]. split; [constructor; exact Hb|exact Hz].
  - destruct G as [G1 G2]. fold (allg one_entry) in G2. unfold total in Hs |- *. rewrite sizeof_struct in *. cbn [fst snd] in *.
    pose proof (sizeFields_nonneg one_entry vs 0 G2). pose proof (sizeTag_nonneg n).
    pose proof (sizeVarint_nonneg (u64 (sizeFields 0 vs))).
    assert (U : u64 (sizeFields 0 vs) = sizeFields 0 vs) by (apply u64_small; lia). rewrite U in *.
    destruct (header n (sizeFields 0 vs) Hn) as (p & q & E & Ht & Hu & S1 & S2); [lia|].
    destruct (fields_ok one_entry vs IH 0 (o ++ p ++ q) G2) as (bs & E2 & Hb & Hz); [lia|lia|lia|].
    exists (p ++ q ++ bs). split; [|split].
    + rewrite encode_struct. rewrite u64_small by lia. rewrite E. unfold write, andThen. cbn [left out].
      rewrite E2. unfold okw. rewrite <- !app_assoc. reflexivity.
    + apply pb_struct; [exact Ht|rewrite Hz; exact Hu|exact Hb].
    + rewrite !zlen_app. lia.
  - destruct G.
Qed.

(** ** Readability of the encoding *)
Scheme pb_mut := Minimality for pb Sort Prop
  with pbf_mut := Minimality for pb_fields Sort Prop
  with pbr_mut := Minimality for pb_repeated Sort Prop
  with pbe_mut := Minimality for pb_entries Sort Prop.
Combined Scheme pb_mutind from pb_mut, pbf_mut, pbr_mut, pbe_mut.

Lemma tag_bytes p n t : tag p n t -> is_bytes p.
Proof. intros (_ & _ & H & _). eapply varint_bytes; exact H. Qed.
Lemma uvarint_bytes p v : uvarint p v -> is_bytes p.
Proof. intros (H & _). eapply varint_bytes; exact H. Qed.
Ltac bytes_tac := repeat match goal with
  | |- is_bytes (_ ++ _) => apply is_bytes_app; split
  end; eauto using tag_bytes, uvarint_bytes.

Lemma pb_bytes :
  (forall n v bs, pb n v bs -> is_bytes bs) /\ (forall i vs bs, pb_fields i vs bs -> is_bytes bs) /\
  (forall n vs bs, pb_repeated n vs bs -> is_bytes bs) /\ (forall n es bs, pb_entries n es bs -> is_bytes bs).
Proof.
  apply pb_mutind; intros; bytes_tac; try constructor; try (destruct b; unfold is_byte; lia); try constructor.
Qed.

Lemma stream_app n a b : stream n a -> stream n b -> stream n (a ++ b).
Proof.
  induction 1 as [|typ p q rest Ht Hq Hs IH]; intros Hb; [exact Hb|].
  rewrite <- !app_assoc. econstructor; eauto.
Qed.
Lemma stream_one n typ p q : tag p n typ -> (forall d, fvalue d n typ q) -> stream n (p ++ q).
Proof. intros H1 H2. rewrite <- (app_nil_r q). econstructor; eauto. constructor. Qed.
Lemma pb_stream :
  (forall n v bs, pb n v bs -> stream n bs) /\ (forall i vs bs, pb_fields i vs bs -> True) /\
  (forall n vs bs, pb_repeated n vs bs -> stream n bs) /\ (forall n es bs, pb_entries n es bs -> stream n bs).
Proof.
  pose proof pb_bytes as (B1 & B2 & B3 & B4).
  apply pb_mutind; intros; auto; try (constructor; fail); try (apply stream_app; assumption).
  - eapply stream_one; [eassumption|]. intros d. apply (fv_varint d n _ (if b then 1 else 0)).
    split; [constructor; destruct b; lia|]. split; [cbn; lia|destruct b; lia].
  - eapply stream_one; [eassumption|]. intros d. econstructor; eassumption.
  - eapply stream_one; [eassumption|]. intros d. econstructor; eassumption.
  - eapply stream_one; [eassumption|]. intros d. constructor; assumption.
  - eapply stream_one; [eassumption|]. intros d. constructor; assumption.
  - eapply stream_one; [eassumption|]. intros d. constructor; assumption.
  - eapply stream_one; [eassumption|]. intros d. constructor; eauto.
  - eapply stream_one; [eassumption|]. intros d. constructor; eauto.
  - rewrite (app_assoc q). econstructor; [eassumption| |assumption]. intros d. constructor; [|assumption].
    apply is_bytes_app. eauto.
Qed.

Lemma stream_parses n bs : stream n bs -> zlen bs < 2^63 -> parses n bs.
Proof.
  induction 1 as [|typ p q rest Ht Hq Hs IH]; intros Hl; [constructor|].
  rewrite !zlen_app in Hl. pose proof (zlen_nonneg q). pose proof (zlen_nonneg rest).
  pose proof (tag_nonempty _ _ _ Ht).
  econstructor.
  - eapply consumeField_ok; [exact Ht|apply Hq|]. rewrite !zlen_app. lia.
  - rewrite zlen_app. lia.
  - rewrite app_assoc. apply slice_from_app.
  - apply IH. lia.
Qed.

Lemma encoder_exact v n o : 1 <= n < 2^31 -> goval one_entry v ->
  fst (sizeof n v) + snd (sizeof n v) < 2^63 ->
  exists bs, encode (mkWriter None o) n v = Ok (mkWriter None (o ++ bs), ENone) /\
    zlen bs = fst (sizeof n v) + snd (sizeof n v) /\ pb n v bs.
Proof. intros H1 H2 H3. destruct (encode_ok v n o H1 H2 H3) as (bs & A & B & C). exists bs. auto. Qed.
Lemma encoder_parses v n o bs : 1 <= n < 2^31 -> goval one_entry v ->
  fst (sizeof n v) + snd (sizeof n v) < 2^63 ->
  encode (mkWriter None o) n v = Ok (mkWriter None (o ++ bs), ENone) -> stream n bs /\ parses n bs.
Proof.
  intros H1 H2 H3 E. destruct (encode_ok v n o H1 H2 H3) as (bs' & A & B & C).
  unfold okw in A. rewrite A in E. injection E as E. apply app_inv_head in E. subst bs'.
  assert (S : stream n bs) by (eapply (proj1 pb_stream); exact B).
  split; [exact S|]. apply stream_parses; [exact S|]. unfold total in C. lia.
Qed.

(** ** Unique decoding *)
Lemma tag_det p1 n1 t1 r1 p2 n2 t2 r2 : tag p1 n1 t1 -> tag p2 n2 t2 -> p1 ++ r1 = p2 ++ r2 ->
  n1 = n2 /\ t1 = t2 /\ r1 = r2.
Proof.
  intros (A1 & B1 & C1 & _) (A2 & B2 & C2 & _) E.
  destruct (varint_det _ _ _ C1 _ _ _ C2 E) as [-> Hv].
  apply app_inv_head in E. repeat split; auto; lia.
Qed.
Lemma uvarint_det p1 v1 r1 p2 v2 r2 : uvarint p1 v1 -> uvarint p2 v2 -> p1 ++ r1 = p2 ++ r2 -> v1 = v2 /\ r1 = r2.
Proof.
  intros (C1 & _) (C2 & _) E. destruct (varint_det _ _ _ C1 _ _ _ C2 E) as [-> Hv].
  apply app_inv_head in E. auto.
Qed.
Lemma len_det {A} (a b r s : list A) : zlen a = zlen b -> a ++ r = b ++ s -> a = b /\ r = s.
Proof.
  unfold zlen. revert b. induction a as [|x a IH]; intros [|y b] H E; cbn [length] in H; try lia.
  - auto.
  - cbn in E. injection E as <- E. destruct (IH b) as [-> ->]; [lia|exact E|auto].
Qed.

(* bytes that start with a field numbered below n, or nothing, cannot start with n *)
Definition starts (n : Z) (bs : bytes) : Prop := bs = [] \/ exists p t r, bs = p ++ r /\ tag p n t.
Definition nostart (n : Z) (bs : bytes) : Prop := forall p t r, bs = p ++ r -> ~ tag p n t.
Lemma stream_starts n bs : stream n bs -> starts n bs.
Proof. destruct 1 as [|typ p q rest Ht _ _]; [left; reflexivity|right]. exists p, typ, (q ++ rest). auto. Qed.
Lemma tag_nonnil p n t : tag p n t -> p <> [].
Proof. intros H ->. apply tag_nonempty in H. cbn in H. lia. Qed.
Lemma fields_nostart i vs bs : pb_fields i vs bs -> forall j, j < i -> nostart j bs.
Proof.
  induction 1 as [i|i v vs b bs Hv Hvs IH]; intros j Hj p t r E Ht.
  - apply tag_nonnil in Ht. destruct p; [congruence|discriminate].
  - destruct (stream_starts _ _ (proj1 pb_stream _ _ _ Hv)) as [->|(p' & t' & r' & -> & Ht')].
    + cbn in E. exact (IH j ltac:(lia) p t r E Ht).
    + rewrite <- app_assoc in E. destruct (tag_det _ _ _ _ _ _ _ _ Ht' Ht E). lia.
Qed.
Lemma nostart_nil n : nostart n [].
Proof. intros p t r E Ht. apply tag_nonnil in Ht. destruct p; [congruence|discriminate]. Qed.

Section ty_ind.
  Variable P : ty -> Prop.
  Hypothesis Hb : P TBool.
  Hypothesis Hi : P TInt.
  Hypothesis Hu : P TUint.
  Hypothesis Hf : P TFloat32.
  Hypothesis Hg : P TFloat64.
  Hypothesis Hs : P TString.
  Hypothesis Ha : forall n t, P t -> P (TArray n t).
  Hypothesis Hst : forall ts, Forall P ts -> P (TStruct ts).
  Hypothesis Hl : forall t, P t -> P (TSlice t).
  Hypothesis Hp : forall t, P t -> P (TPtr t).
  Fixpoint ty_ind' (t : ty) : P t :=
    match t with
    | TBool => Hb | TInt => Hi | TUint => Hu | TFloat32 => Hf | TFloat64 => Hg | TString => Hs
    | TArray n t => Ha n t (ty_ind' t)
    | TStruct ts => Hst ts ((fix go (ts : list ty) : Forall P ts :=
        match ts with [] => Forall_nil _ | x :: r => Forall_cons _ (ty_ind' x) (go r) end) ts)
    | TSlice t => Hl t (ty_ind' t)
    | TPtr t => Hp t (ty_ind' t)
    end.
End ty_ind.

(* reading a value of type t as field n *)
Definition readable (t : ty) : Prop := forall n v1 v2 b1 b2 r1 r2,
  invertible t -> has_type t v1 -> has_type t v2 -> goval one_entry v1 -> goval one_entry v2 ->
  pb n v1 b1 -> pb n v2 b2 -> b1 ++ r1 = b2 ++ r2 ->
  (one_field t \/ (nostart n r1 /\ nostart n r2)) -> v1 = v2 /\ r1 = r2.

Lemma pb_one_tag t n v bs : one_field t -> has_type t v -> pb n v bs -> exists p k r, bs = p ++ r /\ tag p n k.
Proof. intros H1 H2 H3. destruct H2; cbn in H1; try tauto; inversion H3; subst; eauto. Qed.

(* members of a struct or array, in a message that ends with them *)
Lemma fields_readable ts : Forall readable ts -> Forall invertible ts -> forall i vs1 vs2 b,
  Forall2 has_type ts vs1 -> Forall2 has_type ts vs2 -> allg one_entry vs1 -> allg one_entry vs2 ->
  pb_fields i vs1 b -> pb_fields i vs2 b -> vs1 = vs2.
Proof.
  induction 1 as [|t ts Ht _ IH]; intros Hinv i vs1 vs2 b H1 H2 G1 G2 P1 P2.
  - inversion H1; inversion H2; reflexivity.
  - inversion H1 as [|? v1 ? w1 T1 T1' E1 E1']; subst. inversion H2 as [|? v2 ? w2 T2 T2' E2 E2']; subst.
    inversion P1 as [|? ? ? b1 c1 X1 Y1]; subst. inversion P2 as [|? ? ? b2 c2 X2 Y2 Q1 Q2 Q3]; subst.
    destruct G1 as [G1 G1']. destruct G2 as [G2 G2']. inversion Hinv; subst.
    destruct (Ht i v1 v2 b1 b2 c1 c2) as [-> ->]; auto.
    { right. split; eapply fields_nostart; eauto; lia. }
    f_equal. eapply IH; eauto.
Qed.

Lemma one_readable_list t n : readable t -> invertible t -> one_field t -> forall vs1 vs2 b1 b2 r1 r2,
  Forall (has_type t) vs1 -> Forall (has_type t) vs2 -> allg one_entry vs1 -> allg one_entry vs2 ->
  pb_repeated n vs1 b1 -> pb_repeated n vs2 b2 -> b1 ++ r1 = b2 ++ r2 -> nostart n r1 -> nostart n r2 ->
  vs1 = vs2 /\ r1 = r2.
Proof.
  intros Ht Hinv Hone. induction vs1 as [|v1 vs1 IH]; intros [|v2 vs2] b1 b2 r1 r2 T1 T2 G1 G2 P1 P2 E N1 N2.
  - inversion P1; inversion P2; subst. auto.
  - inversion P1; subst. inversion P2 as [|? ? ? bv bs X Y]; subst. apply Forall_inv in T2.
    destruct (pb_one_tag t n v2 bv Hone T2 X) as (p & k & r & -> & Hp). cbn in E.
    exfalso. eapply (N1 p k); [|exact Hp]. rewrite E, <- !app_assoc. reflexivity.
  - inversion P2; subst. inversion P1 as [|? ? ? bv bs X Y]; subst. apply Forall_inv in T1.
    destruct (pb_one_tag t n v1 bv Hone T1 X) as (p & k & r & -> & Hp). cbn in E.
    exfalso. eapply (N2 p k); [|exact Hp]. rewrite <- E, <- !app_assoc. reflexivity.
  - inversion P1 as [|? ? ? bv1 bs1 X1 Y1]; subst. inversion P2 as [|? ? ? bv2 bs2 X2 Y2]; subst.
    inversion T1; subst. inversion T2; subst. destruct G1 as [G1 G1']. destruct G2 as [G2 G2'].
    rewrite <- !app_assoc in E.
    destruct (Ht n v1 v2 bv1 bv2 (bs1 ++ r1) (bs2 ++ r2)) as [-> E']; auto.
    destruct (IH vs2 bs1 bs2 r1 r2) as [-> ->]; auto.
Qed.

Lemma types_readable t : readable t.
Proof.
  induction t as [| | | | | |len t IH|ts IH|t IH|t IH] using ty_ind'; intros n v1 v2 b1 b2 r1 r2 Hinv T1 T2 G1 G2 P1 P2 E N.
  - inversion T1; inversion T2; subst. inversion P1; inversion P2; subst. rewrite <- !app_assoc in E.
    match goal with A : tag ?p n 0, B : tag ?q n 0 |- _ => destruct (tag_det _ _ _ _ _ _ _ _ A B E) as (_ & _ & E') end.
    cbn in E'. injection E' as E1 E2. split; [|exact E2]. destruct b, b0; congruence || lia.
  - inversion T1; inversion T2; subst. inversion P1 as [|? ? p1 q1 A1 B1| | | | | | | | | |]; inversion P2 as [|? ? p2 q2 A2 B2| | | | | | | | | |]; subst.
    rewrite <- !app_assoc in E. destruct (tag_det _ _ _ _ _ _ _ _ A1 A2 E) as (_ & _ & E').
    destruct (uvarint_det _ _ _ _ _ _ B1 B2 E') as [Q1 Q2]. split; [|exact Q2]. f_equal.
    cbn [goval] in G1, G2. rewrite <- (i64_small z), <- (i64_small z0) by lia.
    unfold i64, sgn. rewrite Q1. reflexivity.
  - inversion T1; inversion T2; subst. inversion P1 as [| |? ? p1 q1 A1 B1| | | | | | | | |]; inversion P2 as [| |? ? p2 q2 A2 B2| | | | | | | | |]; subst.
    rewrite <- !app_assoc in E. destruct (tag_det _ _ _ _ _ _ _ _ A1 A2 E) as (_ & _ & E').
    destruct (uvarint_det _ _ _ _ _ _ B1 B2 E') as [Q1 Q2]. split; [|exact Q2]. congruence.
  - inversion T1; inversion T2; subst. inversion P1 as [| | |? ? p1 q1 A1 B1 C1 D1| | | | | | | |]; inversion P2 as [| | |? ? p2 q2 A2 B2 C2 D2| | | | | | | |]; subst.
    rewrite <- !app_assoc in E. destruct (tag_det _ _ _ _ _ _ _ _ A1 A2 E) as (_ & _ & E').
    destruct (len_det q1 q2 r1 r2) as [Q1 Q2]; [lia|exact E'|]. split; [|exact Q2]. congruence.
  - inversion T1; inversion T2; subst. inversion P1 as [| | | |? ? p1 q1 A1 B1 C1 D1| | | | | | |]; inversion P2 as [| | | |? ? p2 q2 A2 B2 C2 D2| | | | | | |]; subst.
    rewrite <- !app_assoc in E. destruct (tag_det _ _ _ _ _ _ _ _ A1 A2 E) as (_ & _ & E').
    destruct (len_det q1 q2 r1 r2) as [Q1 Q2]; [lia|exact E'|]. split; [|exact Q2]. congruence.
  - inversion T1; inversion T2; subst. inversion P1 as [| | | | |? ? p1 q1 A1 B1 C1| | | | | |]; inversion P2 as [| | | | |? ? p2 q2 A2 B2 C2| | | | | |]; subst.
    rewrite <- !app_assoc in E. destruct (tag_det _ _ _ _ _ _ _ _ A1 A2 E) as (_ & _ & E').
    destruct (uvarint_det _ _ _ _ _ _ B1 B2 E') as [Q1 Q2].
    destruct (len_det _ _ _ _ Q1 Q2) as [-> ->]. auto.
  - inversion T1 as [| | | | | |? vs1 F1| | | |]; inversion T2 as [| | | | | |? vs2 F2| | | |]; subst.
    inversion P1 as [| | | | | |? ? p1 q1 d1 A1 B1 C1| | | | |]; inversion P2 as [| | | | | |? ? p2 q2 d2 A2 B2 C2| | | | |]; subst.
    rewrite <- !app_assoc in E. destruct (tag_det _ _ _ _ _ _ _ _ A1 A2 E) as (_ & _ & E').
    destruct (uvarint_det _ _ _ _ _ _ B1 B2 E') as [Q1 Q2].
    destruct (len_det _ _ _ _ Q1 Q2) as [-> ->]. split; [|reflexivity]. f_equal.
    destruct G1 as [_ G1]. destruct G2 as [_ G2].
    match goal with H : length vs2 = length vs1 |- _ => rename H into HL end.
    assert (K : forall vs m, length vs = m -> Forall (has_type t) vs -> Forall2 has_type (repeat t m) vs).
    { induction vs as [|x vs IHv]; intros m Hm HF; cbn in Hm; subst m; [constructor|]. inversion HF; subst. cbn. constructor; auto. }
    eapply (fields_readable (repeat t (length vs1))); [| | | | | |exact C1|exact C2].
    + apply Forall_forall. intros x Hx. apply repeat_spec in Hx. subst x. exact IH.
    + apply Forall_forall. intros x Hx. apply repeat_spec in Hx. subst x. exact Hinv.
    + apply K; auto.
    + apply K; auto.
    + exact G1.
    + exact G2.
  - inversion T1 as [| | | | | | |? vs1 F1| | |]; inversion T2 as [| | | | | | |? vs2 F2| | |]; subst.
    inversion P1 as [| | | | | | |? ? p1 q1 d1 A1 B1 C1| | | |]; inversion P2 as [| | | | | | |? ? p2 q2 d2 A2 B2 C2| | | |]; subst.
    rewrite <- !app_assoc in E. destruct (tag_det _ _ _ _ _ _ _ _ A1 A2 E) as (_ & _ & E').
    destruct (uvarint_det _ _ _ _ _ _ B1 B2 E') as [Q1 Q2].
    destruct (len_det _ _ _ _ Q1 Q2) as [-> ->]. split; [|reflexivity]. f_equal.
    destruct G1 as [_ G1]. destruct G2 as [_ G2].
    eapply (fields_readable ts); [exact IH| |exact F1|exact F2|exact G1|exact G2|exact C1|exact C2].
    clear -Hinv. cbn in Hinv. induction ts as [|x ts IHts]; [constructor|]. destruct Hinv as [H1 H2]. constructor; auto.
  - inversion T1 as [| | | | | | | |? vs1 F1| |]; inversion T2 as [| | | | | | | |? vs2 F2| |]; subst.
    inversion P1; inversion P2; subst. cbn [invertible] in Hinv. destruct Hinv as [I1 I2].
    destruct N as [[]|[N1 N2]].
    match goal with A : pb_repeated n vs1 _, B : pb_repeated n vs2 _ |- _ =>
      destruct (one_readable_list t n IH I2 I1 vs1 vs2 b1 b2 r1 r2 F1 F2 G1 G2 A B E N1 N2) as [-> ->] end. auto.
  - cbn [invertible] in Hinv. destruct Hinv as [I1 I2]. destruct N as [[]|[N1 N2]].
    inversion T1 as [| | | | | | | | | ?|? w1 F1]; inversion T2 as [| | | | | | | | |?|? w2 F2]; subst; inversion P1; inversion P2; subst.
    + auto.
    + match goal with X : pb n w2 b2 |- _ => destruct (pb_one_tag t n w2 b2 I1 F2 X) as (p & k & r & -> & Hp) end.
      exfalso. cbn in E. eapply (N1 p k); [|exact Hp]. rewrite E, <- !app_assoc. reflexivity.
    + match goal with X : pb n w1 b1 |- _ => destruct (pb_one_tag t n w1 b1 I1 F1 X) as (p & k & r & -> & Hp) end.
      exfalso. cbn in E. eapply (N2 p k); [|exact Hp]. rewrite <- E, <- !app_assoc. reflexivity.
    + destruct (IH n w1 w2 b1 b2 r1 r2) as [-> ->]; auto.
Qed.

Lemma encoder_injective t n v1 v2 o bs : 1 <= n < 2^31 -> invertible t -> has_type t v1 -> has_type t v2 ->
  goval one_entry v1 -> goval one_entry v2 ->
  fst (sizeof n v1) + snd (sizeof n v1) < 2^63 -> fst (sizeof n v2) + snd (sizeof n v2) < 2^63 ->
  encode (mkWriter None o) n v1 = Ok (mkWriter None (o ++ bs), ENone) ->
  encode (mkWriter None o) n v2 = Ok (mkWriter None (o ++ bs), ENone) -> v1 = v2.
Proof.
  intros Hn Hi T1 T2 G1 G2 S1 S2 E1 E2.
  destruct (encode_ok v1 n o Hn G1 S1) as (b1 & A1 & B1 & _). destruct (encode_ok v2 n o Hn G2 S2) as (b2 & A2 & B2 & _).
  unfold okw in *. rewrite A1 in E1. injection E1 as E1. apply app_inv_head in E1.
  rewrite A2 in E2. injection E2 as E2. apply app_inv_head in E2. subst b1 b2.
  eapply (types_readable t n v1 v2 bs bs [] []); eauto. right. split; apply nostart_nil.
Qed.

(** ** A failing writer *)
Definition prefix_of (a b : bytes) : Prop := exists r, b = a ++ r.
(* running against a writer that accepts k writes, compared with one that accepts all *)
Definition cmp (ok : outcome (writer * err)) (lim : outcome (writer * err)) : Prop :=
  match ok, lim with
  | Panic, Panic => True
  | Ok (w1, e1), Ok (w2, e2) => left w1 = None /\ prefix_of (out w2) (out w1) /\
      ((e2 = EWrite /\ left w2 = Some O) \/ (e2 = e1 /\ out w1 = out w2 /\ e1 <> EWrite /\ exists k, left w2 = Some k))
  | Panic, Ok (w2, e2) => e2 = EWrite /\ left w2 = Some O
  | Ok _, Panic => False
  end.
Definition grows (f : writer -> outcome (writer * err)) : Prop :=
  forall w w' e, f w = Ok (w', e) -> prefix_of (out w) (out w').
Definition follows (f : writer -> outcome (writer * err)) : Prop :=
  forall k o, cmp (f (mkWriter None o)) (f (mkWriter (Some k) o)).
Lemma prefix_refl a : prefix_of a a. Proof. exists []. rewrite app_nil_r. reflexivity. Qed.
Lemma prefix_trans a b c : prefix_of a b -> prefix_of b c -> prefix_of a c.
Proof. intros (x & ->) (y & ->). exists (x ++ y). rewrite app_assoc. reflexivity. Qed.

Lemma write_grows b : grows (fun w => Ok (write w b)).
Proof.
  intros w w' e H. injection H as H. unfold write in H. destruct (left w) as [[|k]|]; injection H as <- <-; cbn;
  [apply prefix_refl|exists b; reflexivity..].
Qed.
Lemma andThen_grows f g : grows f -> (forall w, grows (fun _ => g w)) \/ True -> (forall w w' e, g w = Ok (w', e) -> prefix_of (out w) (out w')) ->
  grows (fun w => andThen (f w) g).
Proof.
  intros Hf _ Hg w w' e H. destruct (f w) as [[w1 e1]|] eqn:E; [|discriminate]. cbn in H.
  specialize (Hf _ _ _ E). destruct e1; try (injection H as <- <-; exact Hf).
  eapply prefix_trans; [exact Hf|eapply Hg; exact H].
Qed.
Lemma write_follows b : follows (fun w => Ok (write w b)).
Proof.
  intros [|k] o; cbn.
  - repeat split; [exists b; reflexivity|]. left. auto.
  - repeat split; [apply prefix_refl|]. right. repeat split; [discriminate|]. eauto.
Qed.
Lemma andThen_follows f g : follows f -> follows g -> grows g -> follows (fun w => andThen (f w) g).
Proof.
  intros Hf Hg Gg k o. specialize (Hf k o).
  destruct (f (mkWriter None o)) as [[w1 e1]|] eqn:E1, (f (mkWriter (Some k) o)) as [[w2 e2]|] eqn:E2; cbn in Hf |- *; try tauto.
  2: { destruct Hf as [-> H]. cbn. auto. }
  destruct Hf as (L1 & Hp & [[-> L2]|(-> & Ho & Hne & k' & L2)]).
  - cbn. destruct e1; cbn; auto. destruct (g w1) as [[w3 e3]|] eqn:E3; cbn; [|auto].
    repeat split; [|eapply prefix_trans; [exact Hp|eapply Gg; exact E3]|auto].
    destruct w1 as [l1 o1]. cbn in L1. subst l1. specialize (Hg 0%nat o1). rewrite E3 in Hg. cbn in Hg.
    destruct (g (mkWriter (Some 0%nat) o1)) as [[? ?]|]; tauto.
  - destruct e1; cbn; try congruence; [|repeat split; auto; right; repeat split; eauto].
    destruct w1 as [l1 o1], w2 as [l2 o2]. cbn in *. subst. apply Hg.
Qed.

Lemma follows_ext f g : (forall w, f w = g w) -> follows f -> follows g.
Proof. intros H Hf k o. rewrite <- !H. apply Hf. Qed.
Lemma grows_ext f g : (forall w, f w = g w) -> grows f -> grows g.
Proof. intros H Hf w w' e E. rewrite <- H in E. eapply Hf; exact E. Qed.

Definition good f := follows f /\ grows f.
Lemma good_write b : good (fun w => Ok (write w b)).
Proof. split; [apply write_follows|apply write_grows]. Qed.
Lemma good_then f g : good f -> good g -> good (fun w => andThen (f w) g).
Proof.
  intros [F1 F2] [G1 G2]. split; [apply andThen_follows; assumption|]. apply andThen_grows; auto.
Qed.
Lemma good_ret e : e <> EWrite -> good (fun w => Ok (w, e)).
Proof.
  intros He. split.
  - intros k o. cbn. repeat split; [apply prefix_refl|]. right. repeat split; eauto.
  - intros w w' e' H. injection H as <- <-. apply prefix_refl.
Qed.
Lemma good_panic : good (fun _ => Panic).
Proof. split; [intros k o; exact I|discriminate]. Qed.

Lemma encode_good v : forall n, good (fun w => encode w n v).
Proof.
  induction v as [b|z|z|z|z|s|vs IH|vs IH|es IH| |v IH|vs IH|] using gval_ind'; intros n;
    try (apply good_write); try (apply good_ret; discriminate); try apply IH.
  - apply (good_then (fun w => Ok (write w _)) (fun w => Ok (write w s))); apply good_write.
  - apply (good_then (fun w => Ok (write w _)) (fun w => encFields w 0 vs)); [apply good_write|].
    generalize 0. induction IH as [|x r Hx _ IHr]; intros i; [apply good_ret; discriminate|].
    apply (good_then (fun w => encode w (fieldNumber i) x) (fun w => encFields w (i + 1) r)); auto.
  - change (good (fun w => encRep n w vs)). induction IH as [|x r Hx _ IHr]; [apply good_ret; discriminate|].
    apply (good_then (fun w => encode w n x) (fun w => encRep n w r)); auto.
  - change (good (fun w => if zlen es =? 0 then Panic else encMap n (Z.quot (sizeMap es) (zlen es)) w es)).
    destruct (zlen es =? 0); [apply good_panic|]. generalize (Z.quot (sizeMap es) (zlen es)). intros sz.
    induction IH as [|[k x] r [Hk Hx] _ IHr]; [apply good_ret; discriminate|].
    apply (good_then (fun w => Ok (write w _)) (fun w => andThen (encode w 1 k) (fun w => andThen (encode w 2 x) (fun w => encMap n sz w r))));
      [apply good_write|].
    apply (good_then (fun w => encode w 1 k)); [apply Hk|]. apply (good_then (fun w => encode w 2 x)); [apply Hx|]. exact IHr.
  - apply (good_then (fun w => Ok (write w _)) (fun w => encFields w 0 vs)); [apply good_write|].
    generalize 0. induction IH as [|x r Hx _ IHr]; intros i; [apply good_ret; discriminate|].
    apply (good_then (fun w => encode w (fieldNumber i) x) (fun w => encFields w (i + 1) r)); auto.
Qed.

Lemma writer_failure n v k o w1 e1 w2 e2 :
  encode (mkWriter None o) n v = Ok (w1, e1) -> encode (mkWriter (Some k) o) n v = Ok (w2, e2) ->
  (exists rest, out w1 = out w2 ++ rest) /\
  ((e2 = EWrite /\ left w2 = Some O) \/ (e2 = e1 /\ out w2 = out w1)).
Proof.
  intros E1 E2. pose proof (proj1 (encode_good v n) k o) as H. cbn beta in H. rewrite E1, E2 in H. cbn in H.
  destruct H as (_ & Hp & H). split; [exact Hp|]. destruct H as [H|(H1 & H2 & _)]; [left; exact H|right; auto].
Qed.

(** ** Unsupported kinds *)
Definition never (e : err) (f : writer -> outcome (writer * err)) : Prop := forall w w', f w <> Ok (w', e).
Lemma never_none_l f g : never ENone f -> never ENone (fun w => andThen (f w) g).
Proof.
  intros H w w'. destruct (f w) as [[w1 []]|] eqn:E; cbn; try discriminate.
  destruct (H w w1 E).
Qed.
Lemma never_none_r f g : never ENone g -> never ENone (fun w => andThen (f w) g).
Proof.
  intros H w w'. destruct (f w) as [[w1 []]|] eqn:E; cbn; try discriminate. apply H.
Qed.
Lemma never_uns f g : never EUnsupported f -> never EUnsupported g -> never EUnsupported (fun w => andThen (f w) g).
Proof.
  intros Hf Hg w w'. destruct (f w) as [[w1 e1]|] eqn:E; cbn; try discriminate.
  destruct e1; [apply Hg|discriminate|]. intros _. exact (Hf w w1 E).
Qed.
Lemma never_uns_write b : never EUnsupported (fun w => Ok (write w b)).
Proof. intros w w' H. unfold write in H. destruct (left w) as [[|k]|]; discriminate. Qed.

Lemma encFields_none vs x : In x vs -> (forall n, never ENone (fun w => encode w n x)) ->
  forall i, never ENone (fun w => encFields w i vs).
Proof.
  intros Hin Hx. induction vs as [|y r IH]; [destruct Hin|]. intros i. destruct Hin as [->|Hin].
  - apply (never_none_l (fun w => encode w (fieldNumber i) x) (fun w => encFields w (i + 1) r)). apply Hx.
  - apply (never_none_r (fun w => encode w (fieldNumber i) y) (fun w => encFields w (i + 1) r)). apply IH, Hin.
Qed.
Lemma encRep_none n vs x : In x vs -> never ENone (fun w => encode w n x) -> never ENone (fun w => encRep n w vs).
Proof.
  intros Hin Hx. induction vs as [|y r IH]; [destruct Hin|]. destruct Hin as [->|Hin].
  - apply (never_none_l (fun w => encode w n x) (fun w => encRep n w r)). exact Hx.
  - apply (never_none_r (fun w => encode w n y) (fun w => encRep n w r)). apply IH, Hin.
Qed.
Lemma encMap_none n sz es k x : In (k, x) es ->
  never ENone (fun w => encode w 1 k) \/ never ENone (fun w => encode w 2 x) -> never ENone (fun w => encMap n sz w es).
Proof.
  intros Hin Hx. induction es as [|[k' y] r IH]; [destruct Hin|].
  apply (never_none_r (fun w => Ok (write w _)) (fun w => andThen (encode w 1 k') (fun w => andThen (encode w 2 y) (fun w => encMap n sz w r)))).
  destruct Hin as [E|Hin].
  - injection E as -> ->. destruct Hx as [Hx|Hx].
    + apply (never_none_l (fun w => encode w 1 k) (fun w => andThen (encode w 2 x) (fun w => encMap n sz w r))). exact Hx.
    + apply (never_none_r (fun w => encode w 1 k) (fun w => andThen (encode w 2 x) (fun w => encMap n sz w r))).
      apply (never_none_l (fun w => encode w 2 x) (fun w => encMap n sz w r)). exact Hx.
  - apply (never_none_r (fun w => encode w 1 k') (fun w => andThen (encode w 2 y) (fun w => encMap n sz w r))).
    apply (never_none_r (fun w => encode w 2 y) (fun w => encMap n sz w r)). apply IH, Hin.
Qed.
Lemma encode_unsupported v : has_unsupported v -> forall n, never ENone (fun w => encode w n v).
Proof.
  intros H. induction H as [|vs x Hin _ IH|vs x Hin _ IH|vs x Hin _ IH|es k x Hin _ IH|es k x Hin _ IH|x _ IH]; intros n.
  - intros w w'. discriminate.
  - apply (never_none_r (fun w => Ok (write w _)) (fun w => encFields w 0 vs)). apply (encFields_none vs x Hin IH).
  - apply (never_none_r (fun w => Ok (write w _)) (fun w => encFields w 0 vs)). apply (encFields_none vs x Hin IH).
  - apply (encRep_none n vs x Hin (IH n)).
  - change (never ENone (fun w => if zlen es =? 0 then Panic else encMap n (Z.quot (sizeMap es) (zlen es)) w es)).
    destruct (zlen es =? 0); [intros w w'; discriminate|]. eapply encMap_none; eauto.
  - change (never ENone (fun w => if zlen es =? 0 then Panic else encMap n (Z.quot (sizeMap es) (zlen es)) w es)).
    destruct (zlen es =? 0); [intros w w'; discriminate|]. eapply encMap_none; eauto.
  - exact (IH n).
Qed.
Lemma encode_supported v : ~ has_unsupported v -> forall n, never EUnsupported (fun w => encode w n v).
Proof.
  induction v as [b|z|z|z|z|s|vs IH|vs IH|es IH| |v IH|vs IH|] using gval_ind'; intros H n;
    try (apply never_uns_write).
  - apply (never_uns (fun w => Ok (write w _)) (fun w => Ok (write w s))); apply never_uns_write.
  - apply (never_uns (fun w => Ok (write w _)) (fun w => encFields w 0 vs)); [apply never_uns_write|].
    assert (X : forall x, In x vs -> ~ has_unsupported x) by (intros x Hx G; apply H; econstructor; eauto).
    clear H. generalize 0. induction IH as [|x r Hx _ IHr]; intros i; [intros w w'; discriminate|].
    apply (never_uns (fun w => encode w (fieldNumber i) x) (fun w => encFields w (i + 1) r)).
    + apply Hx, X. left; reflexivity.
    + apply IHr. intros y Hy. apply X. right; exact Hy.
  - change (never EUnsupported (fun w => encRep n w vs)).
    assert (X : forall x, In x vs -> ~ has_unsupported x) by (intros x Hx G; apply H; econstructor; eauto).
    clear H. induction IH as [|x r Hx _ IHr]; [intros w w'; discriminate|].
    apply (never_uns (fun w => encode w n x) (fun w => encRep n w r)).
    + apply Hx, X. left; reflexivity.
    + apply IHr. intros y Hy. apply X. right; exact Hy.
  - change (never EUnsupported (fun w => if zlen es =? 0 then Panic else encMap n (Z.quot (sizeMap es) (zlen es)) w es)).
    destruct (zlen es =? 0); [intros w w'; discriminate|]. generalize (Z.quot (sizeMap es) (zlen es)). intros sz.
    assert (X : forall k x, In (k, x) es -> ~ has_unsupported k /\ ~ has_unsupported x)
      by (intros k x Hx; split; intros G; apply H; [eapply hu_key|eapply hu_value]; eauto).
    clear H. induction IH as [|[k x] r [Hk Hx] _ IHr]; [intros w w'; discriminate|].
    destruct (X k x (or_introl eq_refl)) as [X1 X2].
    apply (never_uns (fun w => Ok (write w _)) (fun w => andThen (encode w 1 k) (fun w => andThen (encode w 2 x) (fun w => encMap n sz w r))));
      [apply never_uns_write|].
    apply (never_uns (fun w => encode w 1 k)); [apply Hk, X1|]. apply (never_uns (fun w => encode w 2 x)); [apply Hx, X2|].
    apply IHr. intros k' y Hy. apply X. right; exact Hy.
  - intros w w'. discriminate.
  - apply IH. intros G. apply H. constructor. exact G.
  - apply (never_uns (fun w => Ok (write w _)) (fun w => encFields w 0 vs)); [apply never_uns_write|].
    assert (X : forall x, In x vs -> ~ has_unsupported x) by (intros x Hx G; apply H; econstructor; eauto).
    clear H. generalize 0. induction IH as [|x r Hx _ IHr]; intros i; [intros w w'; discriminate|].
    apply (never_uns (fun w => encode w (fieldNumber i) x) (fun w => encFields w (i + 1) r)).
    + apply Hx, X. left; reflexivity.
    + apply IHr. intros y Hy. apply X. right; exact Hy.
  - destruct H. constructor.
Qed.
