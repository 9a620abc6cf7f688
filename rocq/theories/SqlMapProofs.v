(** Proofs about maps over a database: the methods. *)
From Verif Require Import GoBase SqlRowModel SqlRowSpec SqlRowProofs SqlDbModel SqlDbSpec SqlDbProofs.
Open Scope string_scope.
Open Scope list_scope.
Open Scope Z_scope.

Section EqIs.
Variables feq : Z -> Z -> Z -> bool.
Lemma go_eq_is : forall t, no_float t -> forall a b, has_ty a t -> has_ty b t -> (go_eq feq t a b = true <-> a = b).
Proof.
  induction t as [ | w | w | w | | | | fs IH | n t IH | t IH | ] using ty_induct;
    intros N a b Ha Hb; try (inversion N; fail).
  - inversion Ha; inversion Hb; subst. cbn [go_eq]. rewrite Bool.eqb_true_iff. split; congruence.
  - inversion Ha; inversion Hb; subst. cbn [go_eq]. rewrite Z.eqb_eq. split; congruence.
  - inversion Ha; inversion Hb; subst. cbn [go_eq]. rewrite Z.eqb_eq. split; congruence.
  - inversion Ha; inversion Hb; subst. cbn [go_eq]. unfold bytes_eqb.
    destruct (list_eq_dec Z.eq_dec _ _); split; congruence.
  - inversion Ha; inversion Hb; subst. cbn [go_eq]. rewrite Z.eqb_eq. split; congruence.
  - inversion N as [| | | | |fs0 NF|]; subst.
    inversion Ha as [| | | | | | | fsa va Fa | | | | ]; inversion Hb as [| | | | | | | fsb vb Fb | | | | ]; subst.
    cbn [go_eq]. enough (eq_fields (go_eq feq) fs va vb = true <-> va = vb) by (rewrite H; split; congruence).
    clear N Ha Hb. revert va vb Fa Fb. induction IH as [|f fs If IH J]; intros va vb Fa Fb;
      inversion Fa as [|xa ? va' ? Ha Fa']; inversion Fb as [|xb ? vb' ? Hb Fb']; subst; [now split|].
    inversion NF as [|? ? N0 N']; subst. cbn [eq_fields]. rewrite andb_true_iff, (If N0 xa xb Ha Hb), (J N' va' vb' Fa' Fb').
    split; [intros [-> ->]; reflexivity|]. intro Q. injection Q as -> ->. auto.
  - inversion N as [| | | | | |n0 t0 Nt]; subst.
    inversion Ha as [| | | | | | | | na ta va La Fa | | | ]; inversion Hb as [| | | | | | | | nb tb vb Lb Fb | | | ]; subst.
    cbn [go_eq]. enough (eq_elems (go_eq feq) t va vb = true <-> va = vb) by (rewrite H; split; congruence).
    clear N Ha Hb. revert vb Lb Fb. induction Fa as [|xa va Ha Fa J]; intros vb Lb Fb;
      destruct Fb as [|xb vb Hb Fb]; try discriminate Lb; [now split|].
    cbn [eq_elems]. injection Lb as Lb. rewrite andb_true_iff, (IH Nt xa xb Ha Hb), (J vb Lb Fb).
    split; [intros [-> ->]; reflexivity|]. intro Q. injection Q as -> ->. auto.
Qed.
End EqIs.
Lemma no_float_comparable : forall t, no_float t -> comparable t.
Proof.
  induction t as [ | w | w | w | | | | fs IH | n t IH | t IH | ] using ty_induct;
    intro N; try (inversion N; fail); constructor; inversion N as [| | | | |fs0 NF|n0 t0 Nt]; subst.
  - apply Forall_forall. intros f I. apply (proj1 (Forall_forall _ _) IH f I). exact (proj1 (Forall_forall _ _) NF f I).
  - auto.
Qed.

Lemma NoDup_app_one {A} (l : list A) x : NoDup l -> ~ In x l -> NoDup (l ++ [x]).
Proof.
  intros N I. induction N as [|y l Ny N IH]; cbn [app]; [repeat constructor; auto|].
  constructor.
  - intro J. apply in_app_or in J as [J|[->|[]]]; [now apply Ny|]. apply I. now left.
  - apply IH. intro J. apply I. now right.
Qed.

(** ** Marks *)
Section Marks.
Context {A B : Type}.
Lemma marks_ext (R : A -> B -> Prop) (f : A -> bool) (g : B -> bool) range : forall l m i,
  Forall2 R l m -> (forall a b, R a b -> f a = g b) -> marks f i range l = marks g i range m.
Proof.
  intros l m i F E. revert i. induction F as [|a b l m Rab F IH]; intro i; [reflexivity|].
  cbn [marks]. rewrite (E a b Rab). destruct (g b); now rewrite IH.
Qed.
Lemma marked_R (R : A -> B -> Prop) : forall l m ms, Forall2 R l m -> Forall2 R (marked ms l) (marked ms m).
Proof.
  intros l m ms F. revert ms. induction F as [|a b l m Rab F IH]; intros [|[] ms]; cbn [marked]; try constructor; auto.
Qed.
Lemma unmarked_R (R : A -> B -> Prop) : forall l m ms, Forall2 R l m -> Forall2 R (unmarked ms l) (unmarked ms m).
Proof.
  intros l m ms F. revert ms. induction F as [|a b l m Rab F IH]; intros [|[] ms]; cbn [unmarked]; try constructor; auto.
Qed.
Lemma change_R (R : A -> B -> Prop) f g : (forall a b, R a b -> R (f a) (g b)) ->
  forall l m ms, Forall2 R l m -> Forall2 R (change f ms l) (change g ms m).
Proof.
  intros E l m ms F. revert ms. induction F as [|a b l m Rab F IH]; intros [|[] ms]; cbn [change]; try constructor; auto.
Qed.
Lemma marked_in ms (l : list A) x : In x (marked ms l) -> In x l.
Proof.
  revert ms. induction l as [|a l IH]; intros [|b ms] I; try destruct I. destruct b; cbn [marked] in I.
  - destruct I as [<-|I]; [now left|right; eauto].
  - right; eauto.
Qed.
Lemma unmarked_in ms (l : list A) x : In x (unmarked ms l) -> In x l.
Proof.
  revert ms. induction l as [|a l IH]; intros [|b ms] I; try destruct I. destruct b; cbn [unmarked] in I.
  - right; eauto.
  - destruct I as [<-|I]; [now left|right; eauto].
Qed.
Lemma marked_map f (l : list A) : marked (map f l) l = filter f l.
Proof. induction l as [|a l IH]; cbn; [reflexivity|]. destruct (f a); now rewrite IH. Qed.
Lemma unmarked_map f (l : list A) : unmarked (map f l) l = filter (fun x => negb (f x)) l.
Proof. induction l as [|a l IH]; cbn; [reflexivity|]. destruct (f a); cbn; now rewrite IH. Qed.
Lemma change_map g f (l : list A) : change g (map f l) l = map (fun x => if f x then g x else x) l.
Proof. induction l as [|a l IH]; cbn; [reflexivity|]. now rewrite IH. Qed.
Lemma count_map f (l : list A) : (0 <? count (map f l)) = existsb f l.
Proof.
  unfold count. induction l as [|a l IH]; cbn; [reflexivity|]. destruct (f a); cbn [orb]; [|exact IH].
  apply Z.ltb_lt. cbn [List.length]. lia.
Qed.
(** at most one record satisfies the query *)
Definition at_most_one (f : A -> bool) (l : list A) : Prop :=
  forall l1 x l2, l = l1 ++ x :: l2 -> f x = true -> Forall (fun y => f y = false) (l1 ++ l2).
Lemma marks_none f range (l : list A) i : Forall (fun y => f y = false) l -> marks f i range l = map f l.
Proof. induction 1 as [|x l E F IH]; [reflexivity|]. cbn [marks map]. rewrite E, IH. reflexivity. Qed.
Lemma marks_one f (l : list A) : at_most_one f l -> marks f 0 (Some (0, 1)) l = map f l.
Proof.
  induction l as [|x l IH]; intro O; [reflexivity|]. cbn [marks map]. destruct (f x) eqn:E.
  - rewrite (marks_none f _ l (0 + 1)); [reflexivity|]. exact (O [] x l eq_refl E).
  - rewrite IH; [reflexivity|]. intros l1 y l2 -> Ey.
    specialize (O (x :: l1) y l2 eq_refl Ey). now inversion O.
Qed.
End Marks.

Section Methods.
Variables feq flt : Z -> Z -> Z -> bool.
Variable uncut : string -> string.
Hypothesis uncut_id : forall n, uncut n = n.
Variables K V : ty.
Hypothesis PK : plain K. Hypothesis EK : exported_only K.
Hypothesis PV : plain V. Hypothesis EV : exported_only V.
Hypothesis NK : no_float K.
Hypothesis IK : inhabited K = true.
Variable index : string.
Variable op : opened.
Hypothesis Op : open uncut index K V = Ok op.
Hypothesis Dist : NoDup (names op).

Lemma opened_all : exists kp vp, o_key_ptrs op = Some kp /\ o_val_ptrs op = Some vp /\
  (forall p, assoc p kp = cols_at p [] index (is_struct K) K) /\
  (forall p, assoc p vp = cols_at p [] "value" (is_struct V) V) /\
  columns_of [] index (is_struct K) K = Ok (o_index op) /\
  columns_of [] "value" (is_struct V) V = Ok (o_value op).
Proof.
  destruct (open_ok uncut uncut_id K V PK EK PV EV index) as (op' & kp & vp & O & R).
  rewrite Op in O. injection O as <-. exists kp, vp. exact R.
Qed.

Lemma compile_no_range kp vp c e : good K V c -> compile feq flt K V kp vp c = Ok e -> forall a b, e <> ERange a b.
Proof.
  intros G C a b ->. inversion G as [a1 t1 w1 I Cc Inh Hw|o1 a1 t1 z1 I N|m1 a1 s1 I|a1 t1 I Cc S|c1 Gc|l1 Nl Gl|l1 Nl Gl]; subst; cbn [compile] in C.
  - destruct (column_of kp vp a1) as [[|c cs]|]; try discriminate.
    destruct (values_of t1 w1); [|discriminate]. cbn [obind] in C. destruct (pairs (c :: cs) a0); discriminate.
  - destruct (column_of kp vp a1) as [[|c cs]|]; discriminate.
  - destruct (column_of kp vp a1) as [[|c cs]|]; discriminate.
  - destruct (column_of kp vp a1) as [[|c cs]|]; discriminate.
  - destruct (compile feq flt K V kp vp c1) as [e|]; [|discriminate]. cbn [obind] in C. injection C as C. destruct e; discriminate.
  - change ((let! es := compile_all feq flt K V kp vp l1 in Ok (cases es)) = Ok (ERange a b)) in C.
    destruct (compile_all feq flt K V kp vp l1) as [es|]; [|discriminate]. cbn [obind] in C. injection C as C.
    unfold cases in C. destruct es as [|e es]; [discriminate|]. remember (e :: es) as all. clear Heqall. revert C.
    induction all as [|x l IH] at 2; cbn [cases_loop]; [discriminate|]. destruct x as [b0| | | | | | | |]; try discriminate. destruct b0; [discriminate|exact IH].
  - change ((let! es := compile_all feq flt K V kp vp l1 in Ok (merge es)) = Ok (ERange a b)) in C.
    destruct (compile_all feq flt K V kp vp l1) as [es|]; [|discriminate]. cbn [obind] in C. injection C as C.
    unfold merge in C. destruct es as [|e es]; [discriminate|]. remember (e :: es) as all. clear Heqall. revert C.
    induction all as [|x l IH] at 2; cbn [merge_loop]; [discriminate|]. destruct x as [b0| | | | | | | |]; try discriminate. destruct b0; [exact IH|discriminate].
Qed.

(** the relation between a stored row and a record of the map *)
Definition enc (r : list dval) (x : val * val) : Prop :=
  has_ty (fst x) K /\ has_ty (snd x) V /\
  exists ks vs, values_of K (fst x) = Ok ks /\ values_of V (snd x) = Ok vs /\ r = ks ++ vs.
Lemma enc_of st m : is_map K V m -> holds_map K V st m -> Forall2 enc st m.
Proof.
  intros [_ T] H. revert T. induction H as [|r x st m E F IH]; intro T; [constructor|].
  inversion T as [|? ? [T1 T2] T']; subst. constructor; [|auto]. split; [exact T1|]. split; [exact T2|exact E].
Qed.
Lemma enc_holds st m : Forall2 enc st m -> holds_map K V st m.
Proof. induction 1 as [|r x st m (_ & _ & E) F IH]; constructor; auto. Qed.

Lemma compile_query q : good_query K V q -> exists kp vp es,
  o_key_ptrs op = Some kp /\ o_val_ptrs op = Some vp /\
  compile_all feq flt K V kp vp q = Ok es /\ range_of es = slice_of q /\
  forall r x, enc r x -> wanted feq flt op es r = all_hold feq flt q x.
Proof.
  intro G. destruct opened_all as (kp & vp & Okp & Ovp & Ak & Av & Ck & Cv). exists kp, vp.
  induction G as [|c q Gc G IH].
  - exists []. repeat (split; [auto|]). reflexivity.
  - destruct IH as (es & _ & _ & Es & Rg & W). destruct Gc as [Gc|(a & b & ->)].
    + destruct (compile_ok feq flt K V PK EK PV EV index op kp vp Ak Av Ck Cv Dist c Gc) as (e & E & M).
      exists (e :: es). split; [exact Okp|]. split; [exact Ovp|]. split; [cbn [compile_all]; rewrite E; cbn [obind]; now rewrite Es|].
      split.
      * pose proof (compile_no_range kp vp c e Gc E) as NR. cbn [range_of slice_of].
        destruct e; try (destruct (NR from upto); reflexivity); inversion Gc; subst; exact Rg.
      * intros r x (Hk & Hv & ks & vs & Vk & Vv & ->). unfold wanted, all_hold. cbn [forallb].
        apply f_equal2; [now apply M|]. apply W. split; [exact Hk|]. split; [exact Hv|]. eauto.
    + exists (ERange a b :: es). split; [exact Okp|]. split; [exact Ovp|]. split; [cbn [compile_all compile obind]; now rewrite Es|].
      split; [reflexivity|]. intros r x X. unfold wanted, all_hold. cbn [forallb eval holds andb]. now apply W.
Qed.

Lemma decode_row r x : enc r x ->
  exists k v, decode K (zero K) (firstn (List.length (o_index op)) r) = Ok (fst x, k) /\
              decode V (zero V) (skipn (List.length (o_index op)) r) = Ok (snd x, v).
Proof.
  intros (Hk & Hv & ks & vs & Vk & Vv & ->). destruct opened_all as (kp & vp & _ & _ & _ & _ & Ck & Cv).
  destruct (aligned K (fst x) PK EK Hk _ _ _ _ Ck) as (ks' & Vk' & Lk & _). rewrite Vk in Vk'. injection Vk' as <-.
  destruct (round_trip K PK EK (fst x) Hk []) as (d1 & D1 & R1). rewrite Vk in D1. injection D1 as <-.
  destruct (round_trip V PV EV (snd x) Hv []) as (d2 & D2 & R2). rewrite Vv in D2. injection D2 as <-.
  rewrite app_nil_r in R1, R2. rewrite <- Lk.
  rewrite firstn_app, Nat.sub_diag, firstn_all, app_nil_r. rewrite skipn_app, Nat.sub_diag, skipn_all. cbn [skipn app].
  eauto.
Qed.
Lemma decode_all st m : Forall2 enc st m -> decode_rows K V op st = Ok m.
Proof.
  induction 1 as [|r [k v] st m E F IH]; [reflexivity|]. cbn [decode_rows].
  destruct (decode_row r (k, v) E) as (k' & v' & Dk & Dv). rewrite Dk. cbn [obind]. rewrite Dv. cbn [obind]. rewrite IH. reflexivity.
Qed.

Notation search := (m_search feq flt K V op state (ref_search feq flt op)).
Lemma search_ok st m q : is_map K V m -> holds_map K V st m -> good_query K V q ->
  search st q = Ok (marked (selected feq flt q m) m).
Proof.
  intros M H G. pose proof (enc_of st m M H) as F.
  destruct (compile_query q G) as (kp & vp & es & Okp & Ovp & Es & Rg & W).
  unfold m_search, key_ptrs, val_ptrs. rewrite Okp, Ovp. cbn [obind]. rewrite Es. cbn [obind].
  unfold ref_search, selected. rewrite (marks_ext enc _ _ _ st m 0 F W), Rg.
  apply decode_all. now apply marked_R.
Qed.
Lemma unmarked_nodup {A} ms (m : list (val * A)) : NoDup (map fst m) -> NoDup (map fst (unmarked ms m)).
Proof.
  revert ms. induction m as [|x m IH]; intros [|[] ms] N; cbn [unmarked map]; try constructor; inversion N as [|? ? N1 N2]; subst; auto.
  intro I. apply N1. apply in_map_iff in I as (y & <- & I). apply in_map. now apply unmarked_in in I.
Qed.
Lemma delete_ok st m q : is_map K V m -> holds_map K V st m -> good_query K V q ->
  exists st', m_unsafe_delete feq flt K V op state (ref_delete feq flt op) st q = Ok (st', count (selected feq flt q m)) /\
    is_map K V (unmarked (selected feq flt q m) m) /\ holds_map K V st' (unmarked (selected feq flt q m) m).
Proof.
  intros M H G. pose proof (enc_of st m M H) as F.
  destruct (compile_query q G) as (kp & vp & es & Okp & Ovp & Es & Rg & W).
  unfold m_unsafe_delete, key_ptrs, val_ptrs. rewrite Okp, Ovp. cbn [obind]. rewrite Es. cbn [obind].
  unfold ref_delete, selected. rewrite (marks_ext enc _ _ _ st m 0 F W), Rg.
  eexists. split; [reflexivity|]. destruct M as [N T]. split.
  - split; [now apply unmarked_nodup|]. apply Forall_forall. intros x I. apply unmarked_in in I.
    exact (proj1 (Forall_forall _ _) T x I).
  - apply enc_holds. now apply unmarked_R.
Qed.
Definition patched (patch : list (addr * ty * val)) (x : val * val) : val * val := (fst x, puts patch (snd x)).
Lemma change_fst ms patch (m : amap) : List.length ms = List.length m -> map fst (change (patched patch) ms m) = map fst m.
Proof.
  revert ms. induction m as [|x m IH]; intros [|b ms] L; try discriminate; cbn [change map]; [reflexivity|].
  f_equal; [now destruct b|]. apply IH. now injection L.
Qed.
Lemma marks_length {A} f i range (l : list A) : List.length (marks f i range l) = List.length l.
Proof. revert i. induction l as [|x l IH]; intro i; [reflexivity|]. cbn [marks]. destruct (f x); cbn [List.length]; now rewrite IH. Qed.
Lemma combine_snd {A B} (a : list A) (b : list B) : List.length b = List.length a -> map snd (combine a b) = b.
Proof.
  revert b. induction a as [|x a IH]; intros [|y b] L; try discriminate; [reflexivity|]. cbn [combine map snd].
  f_equal. apply IH. now injection L.
Qed.
Lemma update_ok st m q patch : is_map K V m -> holds_map K V st m -> good_query K V q -> good_patch V patch ->
  let m' := change (patched patch) (selected feq flt q m) m in
  exists st', m_update feq flt K V op state (ref_update feq flt op) st q patch = Ok (st', count (selected feq flt q m)) /\
    is_map K V m' /\ holds_map K V st' m'.
Proof.
  intros M H G GP m'. pose proof (enc_of st m M H) as F.
  destruct (compile_query q G) as (kp & vp & es & Okp & Ovp & Es & Rg & W).
  destruct opened_all as (kp' & vp' & Okp' & Ovp' & Ak & Av & Ck & Cv).
  rewrite Okp in Okp'. injection Okp' as <-. rewrite Ovp in Ovp'. injection Ovp' as <-.
  destruct (patch_ok K V PK EK PV EV index op vp Av Ck Cv Dist patch GP) as (ms & Ms & P).
  unfold m_update, key_ptrs, val_ptrs. rewrite Okp, Ovp. cbn [obind]. rewrite Es. cbn [obind]. rewrite Ms. cbn [obind].
  unfold ref_update. rewrite (marks_ext enc _ _ _ st m 0 F W), Rg. fold (selected feq flt q m).
  eexists. split; [reflexivity|]. destruct M as [N T].
  assert (E : forall r x, enc r x -> enc (map snd (fold_left (fun r m => modify m r) ms (as_row op r))) (patched patch x)).
  { intros r [k v] (Hk & Hv & ks & vs & Vk & Vv & ->). cbn [fst snd] in *. destruct (P v Hv) as (P1 & P2).
    destruct (P2 k ks vs Hk Vk Vv) as (vs' & V1 & V2). split; [exact Hk|]. split; [exact P1|]. exists ks, vs'.
    split; [exact Vk|]. split; [exact V1|]. rewrite V2. apply combine_snd.
    destruct (aligned K k PK EK Hk _ _ _ _ Ck) as (ks2 & Vk2 & Lk & _). rewrite Vk in Vk2. injection Vk2 as <-.
    destruct (aligned V _ PV EV P1 _ _ _ _ Cv) as (vs2 & Vv2 & Lv & _). rewrite V1 in Vv2. injection Vv2 as <-.
    unfold names. rewrite map_length, !app_length, Lk, Lv. reflexivity. }
  assert (X : Forall2 enc (change (fun r => map snd (fold_left (fun r m => modify m r) ms (as_row op r))) (selected feq flt q m) st) m').
  { apply change_R; assumption. }
  split; [|now apply enc_holds]. split.
  - unfold m'. rewrite change_fst; [exact N|]. apply marks_length.
  - clear -X. induction X as [|r x st0 m0 (A & B & _) F0 IH]; constructor; auto.
Qed.

Lemma key_good k : has_ty k K -> good_query K V [Equals (InKey []) K k; Slice 0 1].
Proof.
  intro Hk. constructor; [left|constructor; [right; eauto|constructor]].
  constructor; [constructor|now apply no_float_comparable|exact IK|exact Hk].
Qed.
Lemma one_key k check m : is_map K V m -> has_ty k K ->
  at_most_one (all_hold feq flt ([Equals (InKey []) K k; Slice 0 1] ++ check)) m.
Proof.
  intros [N T] Hk l1 x l2 -> Ex. apply Forall_forall. intros y Iy.
  destruct (all_hold _ _ _ y) eqn:Ey; [|reflexivity]. exfalso.
  assert (Keq : forall z, In z (l1 ++ x :: l2) -> all_hold feq flt ([Equals (InKey []) K k; Slice 0 1] ++ check) z = true -> fst z = k).
  { intros z Iz Ez. unfold all_hold in Ez. cbn [app forallb holds look sub] in Ez. apply andb_true_iff in Ez as [Ez _].
    apply (go_eq_is feq K NK (fst z) k) in Ez; [exact Ez| |exact Hk].
    exact (proj1 (proj1 (Forall_forall _ _) T z Iz)). }
  assert (Iy' : In y (l1 ++ x :: l2)) by (apply in_app_or in Iy as [I|I]; apply in_or_app; [now left|right; now right]).
  assert (Q : fst y = fst x).
  { rewrite (Keq y Iy' Ey), (Keq x); auto. apply in_or_app. right. now left. }
  rewrite map_app in N. cbn [map] in N. apply NoDup_remove_2 in N. apply N. rewrite <- map_app, <- Q. now apply in_map.
Qed.
Lemma key_slice k check : slice_of ([Equals (InKey []) K k; Slice 0 1] ++ check) = Some (0, 1).
Proof. reflexivity. Qed.
Lemma key_hold k check x : all_hold feq flt ([Equals (InKey []) K k; Slice 0 1] ++ check) x =
  has_key feq K k x && all_hold feq flt check x.
Proof. reflexivity. Qed.
Lemma key_selected k check m : is_map K V m -> has_ty k K ->
  selected feq flt ([Equals (InKey []) K k; Slice 0 1] ++ check) m =
  map (fun x => has_key feq K k x && all_hold feq flt check x) m.
Proof.
  intros M Hk. unfold selected. rewrite key_slice, marks_one by now apply one_key.
  apply map_ext. intro x. apply key_hold.
Qed.
Lemma check_good k check : has_ty k K -> Forall (good K V) check ->
  good_query K V ([Equals (InKey []) K k; Slice 0 1] ++ check).
Proof.
  intros Hk G. apply Forall_app. split; [now apply key_good|]. eapply Forall_impl; [|exact G]. intros c; now left.
Qed.

Lemma same_key_ok k ks r x : enc r x -> has_ty k K -> values_of K k = Ok ks -> same_key feq ks r = has_key feq K k x.
Proof.
  intros (Hx & Hv & ks' & vs & Vk & Vv & ->) Hk Kk. unfold same_key, has_key.
  rewrite (eq_values feq K (no_float_comparable K NK) EK (fst x) k ks' ks Hx Hk Vk Kk). unfold all_eq. f_equal.
  destruct opened_all as (kp & vp & _ & _ & _ & _ & Ck & Cv).
  destruct (aligned K (fst x) PK EK Hx _ _ _ _ Ck) as (k1 & V1 & L1 & _). rewrite Vk in V1. injection V1 as <-.
  destruct (aligned K k PK EK Hk _ _ _ _ Ck) as (k2 & V2 & L2 & _). rewrite Kk in V2. injection V2 as <-.
  rewrite <- (app_nil_r ks) at 1. rewrite combine_app by congruence. now destruct vs; rewrite ?app_nil_r.
Qed.
Lemma exists_ext {A B} (R : A -> B -> Prop) f g l m : Forall2 R l m -> (forall a b, R a b -> f a = g b) -> existsb f l = existsb g m.
Proof. intros F E. induction F as [|a b l m X F IH]; [reflexivity|]. cbn [existsb]. now rewrite (E a b X), IH. Qed.

Definition stored (k : val) (flag : bool) (v : val) (m : amap) : amap :=
  if existsb (has_key feq K k) m
  then if flag then map (fun x => if has_key feq K k x then (k, v) else x) m else m
  else m ++ [(k, v)].
Lemma insert_ok st m k flag v : is_map K V m -> holds_map K V st m -> has_ty k K -> has_ty v V ->
  go_eq feq K k (zero K) = false ->
  exists st', m_insert feq K V state (ref_insert feq) st k flag v =
      Ok (st', if existsb (has_key feq K k) m && negb flag then Some ErrDuplicate else None) /\
    is_map K V (stored k flag v m) /\ holds_map K V st' (stored k flag v m).
Proof.
  intros M H Hk Hv Z. pose proof (enc_of st m M H) as F.
  destruct (columns_ok K PK EK k Hk [] "" false) as (ks & _ & Vk & _).
  destruct (columns_ok V PV EV v Hv [] "" false) as (vs & _ & Vv & _).
  unfold m_insert. rewrite Z, Vk. cbn [obind]. rewrite Vv. cbn [obind].
  assert (S : forall r x, enc r x -> same_key feq ks r = has_key feq K k x) by (intros r x X; now apply (same_key_ok k ks r x)).
  unfold ref_insert, stored. rewrite (exists_ext enc _ _ st m F S).
  assert (EN : enc (ks ++ vs) (k, v)) by (split; [exact Hk|]; split; [exact Hv|]; eauto).
  destruct M as [N T]. destruct (existsb (has_key feq K k) m) eqn:Ex; cbn [andb].
  - destruct flag; cbn [negb].
    + eexists. split; [reflexivity|].
      assert (X : Forall2 enc (map (fun r => if same_key feq ks r then ks ++ vs else r) st) (map (fun x => if has_key feq K k x then (k, v) else x) m)).
      { clear -F S EN. induction F as [|r x st m E F IH]; [constructor|]. cbn [map]. rewrite (S r x E).
        constructor; [|exact IH]. destruct (has_key feq K k x); [exact EN|exact E]. }
      split; [|now apply enc_holds]. split.
      * replace (map fst (map (fun x => if has_key feq K k x then (k, v) else x) m)) with (map fst m); [exact N|].
        clear -T Hk NK. induction T as [|x m [Tx _] T IH]; [reflexivity|]. cbn [map]. f_equal; [|exact IH].
        destruct (has_key feq K k x) eqn:E; [|reflexivity]. unfold has_key in E. apply (go_eq_is feq K NK) in E; auto.
      * clear -X. induction X as [|r x st0 m0 (A & B & _) X IH]; constructor; auto.
    + exists st. split; [reflexivity|]. split; [split; assumption|exact H].
  - eexists. split; [reflexivity|]. split.
    + split.
      * rewrite map_app. cbn [map fst]. apply NoDup_app_one; [exact N|].
        intro I. apply in_map_iff in I as (x & Q & I).
        assert (C : existsb (has_key feq K k) m = true).
        { apply existsb_exists. exists x. split; [exact I|]. unfold has_key.
          apply (go_eq_is feq K NK); [exact (proj1 (proj1 (Forall_forall _ _) T x I))|exact Hk|exact Q]. }
        congruence.
      * apply Forall_app. split; [exact T|]. constructor; [now split|constructor].
    + apply enc_holds. apply Forall2_app; [exact F|]. constructor; [exact EN|constructor].
Qed.
End Methods.
