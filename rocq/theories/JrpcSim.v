(** The decoder does not see how its input is cut, if it is cut at multiples of 256 bytes. *)
From Verif Require Import GoBase BaseLemmas JrpcModel JrpcSpec JrpcProofs.

Definition inv (d : dec) : Prop :=
  aligned (rd d) /\ (rd d <> [] -> (size d = 0 \/ size d = 256) /\ head d <= 255).
Definition sim (d1 d2 : dec) : Prop :=
  seg d1 = seg d2 /\ head d1 = head d2 /\ size d1 = size d2 /\ concat (rd d1) = concat (rd d2) /\
  head d1 <= 255 /\ inv d1 /\ inv d2.
Definition same {A} (x y : outcome (res A * dec)) : Prop :=
  match x, y with
  | Panic, Panic => True
  | Ok (r1, d1), Ok (r2, d2) => r1 = r2 /\ sim d1 d2
  | _, _ => False
  end.
Definition blind {A} (m : D A) : Prop := forall d1 d2, sim d1 d2 -> same (m d1) (m d2).

Lemma blind_ret {A} (a : A) : blind (dret a).
Proof. intros d1 d2 H. cbn. auto. Qed.
Lemma blind_fail {A} e : blind (A := A) (dfail e).
Proof. intros d1 d2 H. cbn. auto. Qed.
Lemma blind_panic {A} : blind (A := A) (fun _ => Panic).
Proof. intros d1 d2 H. cbn. auto. Qed.
Lemma blind_bind {A B} (m : D A) (f : A -> D B) : blind m -> (forall a, blind (f a)) -> blind (dbind m f).
Proof.
  intros H K d1 d2 X. specialize (H d1 d2 X). unfold dbind.
  destruct (m d1) as [[r1 e1]|], (m d2) as [[r2 e2]|]; cbn in H; try contradiction; [|exact I].
  destruct H as (-> & X'). destruct r2 as [a|e]; [apply K; exact X'|cbn; auto].
Qed.

Lemma aligned_cons c r : aligned (c :: r) -> c <> [] /\ aligned r /\ (r <> [] -> Nat.modulo (length c) 256 = 0%nat).
Proof. destruct r as [|c' r]; cbn; [|tauto]. intros; repeat split; auto; congruence. Qed.
Lemma aligned_concat r : aligned r -> concat r = [] -> r = [].
Proof. destruct r as [|c r]; [auto|]. intros A E. apply aligned_cons in A. cbn in E. apply app_eq_nil in E. tauto. Qed.

(** a read of up to 256 bytes takes the next 256 bytes, or all there is *)
Lemma read_block r : aligned r -> r <> [] -> exists c r', read_chunk 256 r = Some (c, r') /\
  c = firstn 256 (concat r) /\ concat r' = skipn 256 (concat r) /\ aligned r' /\
  (r' <> [] -> length c = 256%nat) /\ c <> [].
Proof.
  intros A N. destruct r as [|c r]; [congruence|]. apply aligned_cons in A. destruct A as (Nc & A & M).
  cbn [read_chunk concat]. destruct (Nat.leb (length c) 256) eqn:L.
  - apply Nat.leb_le in L. exists c, r. split; [reflexivity|].
    assert (P : (0 < length c)%nat) by (destruct c; [congruence|cbn; lia]).
    destruct r as [|c' r].
    + cbn [concat]. rewrite app_nil_r. rewrite firstn_all2, skipn_all2 by lia. repeat split; auto; congruence.
    + assert (length c = 256%nat) by (specialize (M ltac:(discriminate)); lia).
      rewrite firstn_app, skipn_app, H, Nat.sub_diag, firstn_O, app_nil_r.
      rewrite firstn_all2, (skipn_all2 (n := 256)) by lia. cbn [app]. repeat split; auto.
  - apply Nat.leb_gt in L. exists (firstn 256 c), (skipn 256 c :: r). split; [reflexivity|].
    rewrite firstn_app, skipn_app. replace (256 - length c)%nat with 0%nat by lia. rewrite firstn_O, app_nil_r.
    assert (Lf : length (firstn 256 c) = 256%nat) by (rewrite firstn_length; lia).
    assert (Ls : length (skipn 256 c) = (length c - 256)%nat) by apply skipn_length.
    assert (Nf : firstn 256 c <> []) by (intro Q; rewrite Q in Lf; discriminate Lf).
    assert (Ns : skipn 256 c <> []) by (intro Q; rewrite Q in Ls; change (length (@nil Z)) with 0%nat in Ls; lia).
    repeat split; auto.
    destruct r as [|c' r]; cbn [aligned]; [assumption|]. split; [assumption|]. split; [|exact A].
    specialize (M ltac:(discriminate)). rewrite Ls. rewrite Nat.mod_eq in M by lia.
    replace (length c - 256)%nat with (256 * (length c / 256 - 1))%nat by lia.
    rewrite Nat.mul_comm. apply Nat.mod_mul. lia.
Qed.

Lemma blind_fill : blind fill.
Proof.
  intros d1 d2 (S1 & S2 & S3 & S4 & S5 & (I1 & J1) & (I2 & J2)). unfold fill. rewrite <- S2, <- S3.
  destruct (head d1 =? size d1) eqn:E.
  2:{ cbn. split; [reflexivity|]. unfold sim, inv. auto 10. }
  destruct ((0 <=? head d1) && (head d1 <=? 256)) eqn:G; [|exact I].
  destruct (rd d1) as [|c1 r1] eqn:R1.
  { cbn [concat] in S4. symmetry in S4. pose proof (aligned_concat _ I2 S4) as R2. rewrite R2. cbn. split; [reflexivity|].
    unfold sim, inv. rewrite R1, R2. repeat match goal with |- _ /\ _ => split end; auto; intros; congruence. }
  assert (R2 : rd d2 <> []). { intro Q. rewrite Q in S4. apply aligned_concat in S4; [discriminate|assumption]. }
  assert (H0 : head d1 = 0). { destruct (J1 ltac:(discriminate)) as ([Q|Q] & _); lia. }
  rewrite <- R1 in *. rewrite H0. change (Z.to_nat 0) with 0%nat. rewrite Nat.sub_0_r.
  assert (R1' : rd d1 <> []) by (rewrite R1; discriminate).
  destruct (read_block _ I1 R1') as (x1 & y1 & Q1 & F1 & K1 & A1 & L1 & N1).
  destruct (read_block _ I2 R2) as (x2 & y2 & Q2 & F2 & K2 & A2 & L2 & N2).
  rewrite Q1, Q2. rewrite <- S4 in F2, K2. rewrite <- F1 in F2. subst x2. rewrite <- K1 in K2. cbn.
  split; [reflexivity|]. unfold sim, inv. cbn [seg head size rd]. rewrite S1.
  assert (size d1 = 0) by lia.
  repeat match goal with |- _ /\ _ => split end; auto; try lia.
  - intros Y. specialize (L1 Y). unfold zlen. lia.
  - intros Y. specialize (L2 Y). unfold zlen. lia.
Qed.
Lemma blind_index {A} (f : Z -> D A) : (forall b, blind (f b)) ->
  blind (fun d => match index (head d) (seg d) with Ok b => f b d | Panic => Panic end).
Proof.
  intros H d1 d2 X. destruct X as (S1 & S2 & X). pose proof (conj S1 (conj S2 X)) as Y.
  rewrite <- S1, <- S2. destruct (index (head d1) (seg d1)); [apply H; exact Y|exact I].
Qed.
Lemma blind_peek : blind peek.
Proof.
  unfold peek. apply blind_bind; [apply blind_fill|]. intros _. apply (blind_index (fun b d => Ok (Good b, d))).
  intros b d1 d2 X. cbn. auto.
Qed.
Lemma blind_scan : blind scan.
Proof.
  unfold scan. apply blind_bind; [apply blind_fill|]. intros _.
  apply (blind_index (fun b d => if head d + 1 =? 256 then Ok (Good b, {| seg := seg d; head := 0; size := 0; rd := rd d |})
    else Ok (Good b, {| seg := seg d; head := head d + 1; size := size d; rd := rd d |}))).
  intros b d1 d2 (S1 & S2 & S3 & S4 & S5 & (I1 & J1) & (I2 & J2)). rewrite <- S2.
  destruct (head d1 + 1 =? 256) eqn:E; cbn; (split; [reflexivity|]); unfold sim, inv; cbn [seg head size rd];
    repeat match goal with |- _ /\ _ => split end; auto; try lia; intros Y;
    first [destruct (J1 Y)|destruct (J2 Y)]; rewrite ?S3 in *; auto; try lia; split; auto; lia.
Qed.
Lemma blind_scan_or_eof : blind scan_or_eof.
Proof.
  intros d1 d2 X. pose proof (blind_scan d1 d2 X) as H. unfold scan_or_eof.
  destruct (scan d1) as [[r1 e1]|], (scan d2) as [[r2 e2]|]; cbn in H; try contradiction; [|exact I].
  destruct H as (-> & X'). destruct r2 as [a|[]]; cbn; auto.
Qed.
Lemma blind_set_head h : h <= 255 -> blind (set_head h).
Proof.
  intros L d1 d2 (S1 & S2 & S3 & S4 & S5 & (I1 & J1) & (I2 & J2)). cbn. split; [reflexivity|].
  unfold sim, inv; cbn [seg head size rd]. repeat match goal with |- _ /\ _ => split end; auto; intros Y; [destruct (J1 Y)|destruct (J2 Y)]; auto.
Qed.
Lemma blind_get_head {A} (f : Z -> D A) : (forall h, h <= 255 -> blind (f h)) -> blind (h <- get_head ;; f h).
Proof.
  intros H d1 d2 X. unfold dbind, get_head. pose proof X as (S1 & S2 & S3 & S4 & S5 & _). rewrite <- S2. apply H; assumption.
Qed.
Lemma blind_unread : blind unread.
Proof. unfold unread. apply blind_get_head. intros h L. apply blind_set_head. lia. Qed.
Lemma blind_null_loop w : blind (null_loop w).
Proof.
  induction w as [|x w IH]; cbn [null_loop]; [apply blind_ret|].
  apply blind_bind; [apply blind_scan|]. intros c. destruct (c =? x); [apply IH|apply blind_ret].
Qed.
Lemma blind_is_null : blind is_null.
Proof.
  unfold is_null. apply blind_get_head. intros h L. apply blind_bind; [apply blind_scan|]. intros c.
  apply blind_bind. { destruct (c =? 110); [apply blind_null_loop|apply blind_ret]. }
  intros [|]; [apply blind_ret|]. apply blind_bind; [apply blind_set_head; assumption|]. intros; apply blind_ret.
Qed.
Create HintDb blind.
Global Hint Resolve blind_ret blind_fail blind_panic blind_peek blind_scan blind_scan_or_eof blind_unread blind_is_null : blind.
Ltac blind1 := first
  [ solve [auto with blind]
  | apply blind_bind; [|intros ?]
  | match goal with |- blind (if ?b then _ else _) => destruct b
    | |- blind (match ?x with _ => _ end) => destruct x end ].
Ltac blinds := repeat blind1.

Lemma blind_space n : blind (skip_space n).
Proof. induction n; cbn [skip_space]; blinds. Qed.
Lemma blind_bool ws : forall i b, blind (bool_loop i ws b).
Proof. induction ws as [|[f t] ws IH]; intros; cbn [bool_loop]; blinds. Qed.
Lemma blind_int n : forall r g, blind (int_loop n r g).
Proof. induction n; intros; cbn [int_loop]; blinds. Qed.
Lemma blind_uint n : forall r, blind (uint_loop n r).
Proof. induction n; intros; cbn [uint_loop]; blinds. Qed.
Lemma blind_float n : forall w f e g, blind (float_loop n w f e g).
Proof. induction n; intros; cbn [float_loop]; blinds. Qed.
Lemma blind_unicode : blind scan_unicode.
Proof. unfold scan_unicode. blinds. Qed.
Global Hint Resolve blind_unicode blind_space blind_bool blind_int blind_uint blind_float : blind.
Lemma blind_string_loop n : forall b, blind (string_loop n b).
Proof. induction n; intros; cbn [string_loop]; blinds. Qed.
Global Hint Resolve blind_string_loop : blind.
Lemma blind_string n : blind (decode_string n).
Proof. unfold decode_string. blinds. Qed.
Global Hint Resolve blind_string : blind.
Lemma blind_nil_iface n : blind (decode_nil_iface n).
Proof. unfold decode_nil_iface. blinds. Qed.
Global Hint Resolve blind_nil_iface : blind.
Lemma blind_map_loop g dk dv : blind dk -> blind dv -> forall n m, blind (map_loop g dk dv n m).
Proof. intros H K. induction n; intros; cbn [map_loop]; blinds. Qed.
Lemma blind_elems_loop g de room old : (forall v, blind (de v)) -> forall n acc, blind (elems_loop g de room old n acc).
Proof. intros H. induction n; intros; cbn [elems_loop]; blinds. Qed.
Lemma blind_fields_loop g dkey upd skip fs : blind dkey -> blind skip -> (forall i vs, blind (upd i vs)) ->
  forall n vs, blind (fields_loop g dkey upd skip fs n vs).
Proof. intros H K L. induction n; intros; cbn [fields_loop]; blinds. Qed.
Lemma blind_upd_field dec1 : forall fs, (forall f v, In f fs -> blind (dec1 (snd f) v)) -> forall i vs, blind (upd_field dec1 fs i vs).
Proof.
  induction fs as [|f fs IH]; intros H i vs; cbn [upd_field]; [apply blind_panic|].
  destruct vs as [|v vs]; [apply blind_panic|]. destruct f as [[nm tg] t]. destruct i as [|i].
  - apply blind_bind; [apply (H (nm, tg, t)); left; reflexivity|]. intros; apply blind_ret.
  - apply blind_bind; [|intros; apply blind_ret]. apply IH. intros f w I. apply H. right. exact I.
Qed.

Lemma blind_decode n : forall t v, blind (decode n t v).
Proof.
  fix IH 1. intros t v.
  assert (HF : forall fs : list field, t = TStruct fs -> forall f w, In f fs -> blind (decode n (snd f) w)).
  { intros fs. destruct t; try discriminate. intros E. injection E as <-.
    revert fs0. fix IHl 1. intros [|[[a b] u] fs] f w I; cbn in I; [contradiction|].
    destruct I as [<-|I]; [apply IH|apply (IHl fs f w I)]. }
  destruct t; cbn [decode]; (apply blind_bind; [apply blind_space|intros _]).
  all: try solve [blinds].
  - (* slice *) blind1; [auto with blind|]. destruct (negb _); [auto with blind|]. blind1; [auto with blind|]. blind1; [auto with blind|].
    destruct (_ =? 93); [auto with blind|]. apply blind_bind; [apply blind_elems_loop; intros; apply IH|intros; auto with blind].
  - blind1; [auto with blind|]. destruct (negb _); [auto with blind|]. blind1; [auto with blind|]. blind1; [auto with blind|].
    destruct (_ =? 93); [auto with blind|]. apply blind_bind; [apply blind_elems_loop; intros; blinds|intros; auto with blind].
  - blind1; [auto with blind|]. destruct (negb _); [auto with blind|]. blind1; [auto with blind|]. blind1; [auto with blind|].
    destruct (_ =? 93); [auto with blind|]. apply blind_bind; [apply blind_elems_loop; intros; apply IH|intros; auto with blind].
  - blind1; [auto with blind|]. destruct (negb _); [auto with blind|]. blind1; [auto with blind|].
    destruct (_ =? 125); [auto with blind|]. apply blind_bind; [apply blind_map_loop; apply IH|intros; auto with blind].
  - blind1; [auto with blind|]. destruct (negb _); [auto with blind|]. blind1; [auto with blind|]. blind1; [auto with blind|].
    destruct (_ =? 125); [auto with blind|]. apply blind_bind; [|intros; auto with blind].
    apply blind_fields_loop; [blinds|auto with blind|]. apply blind_upd_field. apply HF. reflexivity.
Qed.

Lemma decode_chunks n r1 r2 t v : aligned r1 -> aligned r2 -> concat r1 = concat r2 ->
  decode_from n r1 t v = decode_from n r2 t v.
Proof.
  intros A1 A2 E. unfold decode_from.
  assert (X : sim (new_decoder r1) (new_decoder r2)).
  { unfold sim, inv, new_decoder. cbn [seg head size rd]. repeat match goal with |- _ /\ _ => split end; auto; try lia. }
  pose proof (blind_decode n t v _ _ X) as S1. unfold same in S1.
  destruct (decode n t v (new_decoder r1)) as [[a d1]|], (decode n t v (new_decoder r2)) as [[b d2]|]; try contradiction; [|reflexivity].
  cbn. destruct S1 as (-> & _). reflexivity.
Qed.
