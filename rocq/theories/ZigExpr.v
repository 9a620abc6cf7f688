(** * C129: what a Go expression means after zgo has printed it as Zig. *)
From Coq Require Import ZArith List Bool Lia.
From Verif Require Import ZigModel ZigParse.
Import ListNotations.
Open Scope Z_scope.

(** ** The tree the printer has in mind *)
Fixpoint ztree (ty : expr -> gty) (e : expr) : expr :=
  match e with
  | EParen e => EParen (ztree ty e)
  | EUn u e => EUn u (ztree ty e)
  | EBin o a b =>
      match o, ty a with
      | ONe, GyString => EParen (EUn UNot (EStrEq (ztree ty a) (ztree ty b)))
      | _, GyPointer => EBin o (EAddress (ztree ty a)) (EAddress (ztree ty b))
      | _, _ => EBin o (ztree ty a) (ztree ty b)
      end
  | EIdx x i =>
      match ty x with
      | GySlice => EMeth MIndex (ztree ty x) (ztree ty i)
      | GyMap => EMeth MGet (ztree ty x) (ztree ty i)
      | _ => EIdx (ztree ty x) (ztree ty i)
      end
  | _ => e
  end.

Lemma z_print_show : forall ty e ts, z_print ty e = Some ts -> ts = show zig_op (ztree ty e).
Proof.
  intros ty. induction e as [n | z | b | s | | e IH | u e IH | o a IHa b IHb | x IHx i IHi
                            | m x IHx i IHi | x IHx | a IHa b IHb]; intros ts H; cbn [z_print] in H.
  - injection H as <-; reflexivity.
  - injection H as <-; reflexivity.
  - destruct b; injection H as <-; reflexivity.
  - injection H as <-; reflexivity.
  - injection H as <-; reflexivity.
  - destruct (z_print ty e) as [t|]; [| discriminate]. injection H as <-.
    cbn [ztree show]. rewrite (IH t eq_refl). reflexivity.
  - destruct (z_print ty e) as [t|]; [| discriminate]. injection H as <-.
    cbn [ztree show]. rewrite (IH t eq_refl). reflexivity.
  - destruct (z_print ty a) as [ta|]; [| discriminate]. destruct (z_print ty b) as [tb|]; [| discriminate].
    specialize (IHa ta eq_refl). specialize (IHb tb eq_refl). subst ta tb. cbn [ztree].
    assert (D : o = ONe /\ ty a = GyString \/
                ty a = GyPointer \/
                (~ (o = ONe /\ ty a = GyString) /\ ty a <> GyPointer)).
    { destruct o; destruct (ty a); (left; split; reflexivity) || (right; left; reflexivity) ||
        (right; right; split; [intros [? ?]; discriminate | discriminate]). }
    destruct D as [[-> T] | [T | [N T]]].
    + rewrite T in *. injection H as <-. cbn [show app].
      rewrite <- ?app_assoc. cbn [app]. rewrite <- ?app_assoc. reflexivity.
    + rewrite T in *. assert (E : Some ts = Some (show zig_op (ztree ty a) ++ [TAddress; zig_op o] ++ show zig_op (ztree ty b) ++ [TAddress])).
      { rewrite <- H. destruct o; reflexivity. }
      injection E as ->.
      replace (match o with ONe => EBin o (EAddress (ztree ty a)) (EAddress (ztree ty b))
               | _ => EBin o (EAddress (ztree ty a)) (EAddress (ztree ty b)) end)
        with (EBin o (EAddress (ztree ty a)) (EAddress (ztree ty b))) by (destruct o; reflexivity).
      cbn [show app]. rewrite <- ?app_assoc. reflexivity.
    + assert (E : Some ts = Some (show zig_op (ztree ty a) ++ [zig_op o] ++ show zig_op (ztree ty b))).
      { rewrite <- H. destruct o; destruct (ty a); try reflexivity; exfalso; first [apply T; reflexivity | apply N; split; reflexivity]. }
      injection E as ->.
      assert (E2 : match o, ty a with
         | ONe, GyString => EParen (EUn UNot (EStrEq (ztree ty a) (ztree ty b)))
         | _, GyPointer => EBin o (EAddress (ztree ty a)) (EAddress (ztree ty b))
         | _, _ => EBin o (ztree ty a) (ztree ty b) end = EBin o (ztree ty a) (ztree ty b)).
      { destruct o; destruct (ty a); try reflexivity; exfalso; first [apply T; reflexivity | apply N; split; reflexivity]. }
      etransitivity; [| symmetry; apply (f_equal (show zig_op) E2)]. reflexivity.
  - destruct (z_print ty x) as [tx|]; [| discriminate]. destruct (z_print ty i) as [ti|]; [| discriminate].
    specialize (IHx tx eq_refl). specialize (IHi ti eq_refl). subst tx ti. cbn [ztree].
    destruct (ty x); try discriminate; injection H as <-; reflexivity.
  - discriminate.
  - discriminate.
  - discriminate.
Qed.

(** ** The expressions both languages group alike

    The bit operators and shifts are where the tables differ: Go puts [<< >> & &^]
    with [*] and [| ^] with [+], Zig puts all of them below [+].  So such an
    operator and another arithmetic operator may not stand next to each other
    without parentheses.  Zig also refuses chained comparisons. *)
Definition bit_op (o : binop) : bool :=
  match o with OShl | OShr | OAnd | OOr | OXor | OAndNot => true | _ => false end.
Definition cmp_op (o : binop) : bool :=
  match o with OEq | ONe | OLt | OLe | OGt | OGe => true | _ => false end.
Definition logic_op (o : binop) : bool :=
  match o with OLand | OLor => true | _ => false end.

(** [o'] is the operator of an unparenthesised operand of [o] *)
Definition may_nest (o o' : binop) : bool :=
  if bit_op o then false
  else if bit_op o' then cmp_op o || logic_op o
  else negb (cmp_op o && cmp_op o').
Definition operand_ok (o : binop) (a : expr) : bool :=
  match a with EBin o' _ _ => may_nest o o' | _ => true end.
Definition is_primary (e : expr) : bool :=
  match e with EUn _ _ | EBin _ _ _ => false | _ => true end.

(** every operator has a Zig counterpart, and no clash of precedences; the
    operands of a pointer comparison are names, indexed or in parentheses *)
Fixpoint plain (ty : expr -> gty) (e : expr) : bool :=
  match e with
  | EVar _ | EInt _ | EBool _ | EStr _ | ENil => true
  | EParen e => plain ty e
  | EUn u e => match u with UNeg | UNot => true | _ => false end && plain ty e
  | EBin o a b =>
      match o with OAndNot => false | _ => true end &&
      match ty a with GyPointer => is_primary a && is_primary b | _ => true end &&
      operand_ok o a && operand_ok o b && plain ty a && plain ty b
  | EIdx x i => plain ty x && plain ty i &&
      match ty x with GySlice | GyMap | GyArray => true | _ => false end
  | EMeth _ _ _ | EAddress _ | EStrEq _ _ => false
  end.

Lemma plain_prints : forall ty e, plain ty e = true -> exists ts, z_print ty e = Some ts.
Proof.
  intros ty. induction e as [n | z | b | s | | e IH | u e IH | o a IHa b IHb | x IHx i IHi
                            | m x IHx i IHi | x IHx | a IHa b IHb]; intros H; cbn [plain z_print] in *;
    try (eexists; reflexivity); try discriminate.
  - destruct b; eexists; reflexivity.
  - destruct (IH H) as [t ->]. eexists; reflexivity.
  - apply andb_prop in H as [_ H]. destruct (IH H) as [t ->]. eexists; reflexivity.
  - repeat (apply andb_prop in H as [H ?]).
    destruct IHa as [ta ->]; [assumption |]. destruct IHb as [tb ->]; [assumption |].
    destruct o; destruct (ty a); eexists; reflexivity.
  - repeat (apply andb_prop in H as [H ?]).
    destruct IHx as [tx ->]; [assumption |]. destruct IHi as [ti ->]; [assumption |].
    destruct (ty x); try discriminate; eexists; reflexivity.
Qed.

(** the binding strength an operand position of [o] asks for, left and right *)
Lemma ztree_fits : forall ty e p, plain ty e = true ->
  fits go TBin 0 e ->
  match e with EBin o _ _ => (p <= zig_prec o)%nat | EUn _ _ => (p <= UN)%nat | _ => True end ->
  fits zig zig_op p (ztree ty e).
Proof.
  intros ty. induction e as [n | z | b | s | | e IH | u e IH | o a IHa b IHb | x IHx i IHi
                            | m x IHx i IHi | x IHx | a IHa b IHb]; intros p H F Q; cbn [plain] in H;
    try exact I; try discriminate.
  - cbn [ztree fits] in *. apply IH; [exact H | exact F |]. destruct e; try exact I; unfold UN; lia.
  - cbn [ztree fits] in *. apply andb_prop in H as [U H]. destruct F as (_ & _ & F).
    split; [exact Q |]. split; [destruct u; reflexivity || discriminate |].
    apply IH; [exact H | apply fits_weaken with (q := UN); [unfold UN; lia | exact F] |].
    destruct e; try exact I; [unfold UN; lia |].
    (* a binary operand of a prefix operator does not fit Go *)
    cbn [fits] in F. destruct F as (F & _). lia.
  - apply andb_prop in H as [H Pb]. apply andb_prop in H as [H Pa].
    apply andb_prop in H as [H Ob]. apply andb_prop in H as [H Oa].
    apply andb_prop in H as [Hn Hp].
    cbn [fits] in F. destruct F as (R & _ & Fa & Fb).
    change (l_non go (l_prec go o)) with false in Fa. cbn iota in Fa.
    assert (Fa0 : fits go TBin 0 a) by (eapply fits_weaken; [| exact Fa]; lia).
    assert (Fb0 : fits go TBin 0 b) by (eapply fits_weaken; [| exact Fb]; lia).
    assert (Bin : l_bin zig (zig_op o) = Some o) by (destruct o; reflexivity || discriminate).
    assert (Lt : (zig_prec o < UN)%nat) by (destruct o; cbn; unfold UN; lia).
    (* the operands bind tightly enough for Zig *)
    assert (La : forall x, fits go TBin 0 a -> ztree ty a = x ->
                 (match a with EBin o' _ _ => (if l_non zig (zig_prec o) then S (zig_prec o) else zig_prec o) <= zig_prec o' | _ => True end)%nat).
    { intros _ _ _. destruct a as [| | | | | | | o' a1 a2 | | | | ]; try exact I.
      cbn [fits] in Fa. destruct Fa as (Fr & _). cbn [l_prec go] in Fr.
      cbn [operand_ok] in Oa. cbn [l_non zig].
      destruct o; destruct o'; cbn in *; try discriminate; lia. }
    assert (Lb : (match b with EBin o' _ _ => S (zig_prec o) <= zig_prec o' | _ => True end)%nat).
    { destruct b as [| | | | | | | o' b1 b2 | | | | ]; try exact I.
      cbn [fits] in Fb. destruct Fb as (Fr & _). cbn [l_prec go] in Fr.
      cbn [operand_ok] in Ob.
      destruct o; destruct o'; cbn in *; try discriminate; lia. }
    specialize (La _ Fa0 eq_refl).
    assert (D : o = ONe /\ ty a = GyString \/
                ty a = GyPointer \/
                (~ (o = ONe /\ ty a = GyString) /\ ty a <> GyPointer)).
    { destruct o; destruct (ty a); (left; split; reflexivity) || (right; left; reflexivity) ||
        (right; right; split; [intros [? ?]; discriminate | discriminate]). }
    destruct D as [[-> T] | [T | [N T]]].
    + cbn [ztree]. rewrite T. cbn [fits]. split; [unfold UN; lia |]. split; [reflexivity |].
      split.
      * apply IHa; [exact Pa | exact Fa0 |]. destruct a; try exact I; unfold UN; lia.
      * apply IHb; [exact Pb | exact Fb0 |]. destruct b; try exact I; unfold UN; lia.
    + rewrite T in Hp. apply andb_prop in Hp as [Ia Ib].
      replace (ztree ty (EBin o a b)) with (EBin o (EAddress (ztree ty a)) (EAddress (ztree ty b)))
        by (cbn [ztree]; rewrite T; destruct o; reflexivity).
      cbn [fits]. split; [split; [exact Q | exact Lt] |]. split; [exact Bin |].
      split.
      * apply IHa; [exact Pa | exact Fa0 |]. destruct a; try exact I; discriminate.
      * apply IHb; [exact Pb | exact Fb0 |]. destruct b; try exact I; discriminate.
    + assert (E2 : ztree ty (EBin o a b) = EBin o (ztree ty a) (ztree ty b)).
      { cbn [ztree]. destruct o; destruct (ty a); try reflexivity; exfalso; first [apply T; reflexivity | apply N; split; reflexivity]. }
      rewrite E2. cbn [fits]. split; [split; [exact Q | exact Lt] |]. split; [exact Bin |].
      cbn [l_prec zig]. split.
      * apply IHa; [exact Pa | exact Fa0 |]. destruct a; try exact I; [| exact La].
        destruct (l_non zig (zig_prec o)); unfold UN in *; lia.
      * apply IHb; [exact Pb | exact Fb0 |]. destruct b; try exact I; [| exact Lb].
        unfold UN in *; lia.
  - apply andb_prop in H as [H Ht]. apply andb_prop in H as [Hx Hi].
    cbn [fits] in F. destruct F as [Fx Fi].
    assert (X : fits zig zig_op PR (ztree ty x)).
    { apply IHx; [exact Hx | apply fits_weaken with (q := PR); [unfold PR; lia | exact Fx] |].
      destruct x; try exact I; cbn [fits] in Fx; destruct Fx as (A & _); unfold PR, UN in *; lia. }
    assert (Y : fits zig zig_op 0 (ztree ty i)).
    { apply IHi; [exact Hi | exact Fi |]. destruct i; try exact I; unfold UN; lia. }
    cbn [ztree]. destruct (ty x); try discriminate; split; assumption.
Qed.

(** The text zgo prints for a plain Go expression is read by Zig with the grouping
    it has in Go. *)
Theorem zig_reads_plain : forall ty src e,
  read go src = Some e -> plain ty e = true ->
  exists ts, z_print ty e = Some ts /\ read zig ts = Some (ztree ty e).
Proof.
  intros ty src e R P. destruct (plain_prints ty e P) as [ts T]. exists ts. split; [exact T |].
  rewrite (z_print_show ty e ts T). apply read_show; [exact zig_ok |].
  apply ztree_fits; [exact P | exact (go_read_fits _ _ R) |].
  destruct e; try exact I; unfold UN; lia.
Qed.

(** ** Values *)
Definition good (v : val) : Prop :=
  match v with
  | VInt k z => in_range k z = true
  | VSlice k l | VArr k l => Forall (fun z => in_range k z = true) l
  | _ => True
  end.
Definition good_env (s : env) : Prop := forall n v, s n = Some v -> good v.

Lemma in_range_spec : forall k z, in_range k z = true <-> k_min k <= z <= k_max k.
Proof.
  intros k z. unfold in_range. rewrite andb_true_iff, !Z.leb_le. tauto.
Qed.

Lemma wrap_id : forall k z, in_range k z = true -> wrap k z = z.
Proof.
  intros k z H. apply in_range_spec in H. unfold wrap, k_min, k_max in *.
  destruct (Z.lt_ge_cases (ik_bits k) 1) as [B|B].
  - (* no width: only 0 is possible *)
    destruct (ik_signed k).
    + rewrite (Z.pow_neg_r 2 (ik_bits k - 1)) in * by lia. lia.
    + destruct (Z.eq_dec (ik_bits k) 0) as [E|E].
      * rewrite E in *. change (2 ^ 0) with 1 in *. cbn [andb]. assert (z = 0) by lia. subst. reflexivity.
      * rewrite (Z.pow_neg_r 2 (ik_bits k)) in * by lia. lia.
  - assert (P : 2 ^ ik_bits k = 2 * 2 ^ (ik_bits k - 1)).
    { replace (ik_bits k) with (Z.succ (ik_bits k - 1)) at 1 by lia. rewrite Z.pow_succ_r by lia. reflexivity. }
    assert (P0 : 0 < 2 ^ (ik_bits k - 1)) by (apply Z.pow_pos_nonneg; lia).
    destruct (ik_signed k); cbn [andb].
    + destruct (Z.lt_ge_cases z 0) as [N|N].
      * assert (M : z mod 2 ^ ik_bits k = z + 2 ^ ik_bits k).
        { symmetry. apply Z.mod_unique with (q := -1); lia. }
        rewrite M. destruct (Z.leb_spec (2 ^ (ik_bits k - 1)) (z + 2 ^ ik_bits k)); lia.
      * rewrite Z.mod_small by lia. destruct (Z.leb_spec (2 ^ (ik_bits k - 1)) z); lia.
    + rewrite Z.mod_small by lia. reflexivity.
Qed.

Lemma trapping_wrapping : forall k z r, trapping k z = Val r -> wrapping k z = Val r.
Proof.
  intros k z r H. unfold trapping in H. destruct (in_range k z) eqn:E; [| discriminate].
  injection H as <-. unfold wrapping. rewrite wrap_id by exact E. reflexivity.
Qed.

(** stopping Go at the first overflow only stops it: as long as it goes on, it
    computes what Go computes *)
Definition stops {A} (t w : res A) : Prop := t = Trap \/ t = w.
Lemma stops_refl : forall A (r : res A), stops r r.
Proof. intros; right; reflexivity. Qed.
Lemma stops_bind : forall A B (t w : res A) (f h : A -> res B),
  stops t w -> (forall v, stops (f v) (h v)) -> stops (bind t f) (bind w h).
Proof.
  intros A B t w f h [-> | ->] F; [left; reflexivity |].
  destruct w as [v| |]; cbn [bind]; [apply F | left; reflexivity | right; reflexivity].
Qed.

Lemma int_of_stop : forall k z, stops (int_of k (trapping k z)) (int_of k (wrapping k z)).
Proof.
  intros k z. unfold int_of, trapping. destruct (in_range k z) eqn:E; [right | left; reflexivity].
  unfold wrapping. rewrite wrap_id by exact E. reflexivity.
Qed.

Lemma go_arith_stop : forall o k a b, stops (go_arith trapping o k a b) (go_arith wrapping o k a b).
Proof.
  intros o k a b. destruct o; cbn [go_arith]; try apply stops_refl; try apply int_of_stop;
    destruct (b =? 0); try apply stops_refl; apply int_of_stop.
Qed.

Lemma go_bin_stop : forall o va vb, stops (go_bin trapping o va vb) (go_bin wrapping o va vb).
Proof.
  intros o va vb. destruct va, vb; cbn [go_bin]; try apply stops_refl;
    destruct o; try apply stops_refl; apply stops_bind; try apply stops_refl; intros; apply go_arith_stop.
Qed.

Lemma go_un_stop : forall u v, stops (go_un trapping u v) (go_un wrapping u v).
Proof. intros u v. destruct u, v; cbn [go_un]; try apply stops_refl; apply int_of_stop. Qed.

Lemma bind_val : forall A B (r : res A) (f : A -> res B) b, bind r f = Val b ->
  exists a, r = Val a /\ f a = Val b.
Proof. intros A B [a| |] f b H; cbn in H; try discriminate. exists a. split; [reflexivity | exact H]. Qed.

Theorem go_eval_stop : forall s e, stops (go_eval trapping s e) (go_eval wrapping s e).
Proof.
  intros s. induction e as [n | z | b | t | | e IH | u e IH | o a IHa b IHb | x IHx i IHi
                           | m x IHx i IHi | x IHx | a IHa b IHb];
    cbn [go_eval]; try apply stops_refl.
  - exact IH.
  - apply stops_bind; [exact IH |]. intros v. apply go_un_stop.
  - assert (G : forall o, stops (bind (go_eval trapping s a) (fun va => bind (go_eval trapping s b) (go_bin trapping o va)))
               (bind (go_eval wrapping s a) (fun va => bind (go_eval wrapping s b) (go_bin wrapping o va)))).
    { intros o'. apply stops_bind; [exact IHa |]. intros va. apply stops_bind; [exact IHb |].
      intros vb. apply go_bin_stop. }
    destruct o; try apply G.
    + apply stops_bind; [exact IHa |]. intros va. destruct va as [| |[]| | | | | |]; try apply stops_refl.
      apply stops_bind; [exact IHb | intros; apply stops_refl].
    + apply stops_bind; [exact IHa |]. intros va. destruct va as [| |[]| | | | | |]; try apply stops_refl.
      apply stops_bind; [exact IHb | intros; apply stops_refl].
  - apply stops_bind; [exact IHx |]. intros va. apply stops_bind; [exact IHi | intros; apply stops_refl].
Qed.

(** ** Zig computes what Go computes, if it computes anything *)

Lemma unsigned_pos : forall k z, in_range k z = true -> ik_signed k = false -> 0 <= z.
Proof. intros k z H U. apply in_range_spec in H. unfold k_min in H. rewrite U in H. lia. Qed.

Lemma arith_sim : forall o k a b, in_range k a = true -> in_range k b = true ->
  zig_arith o k a b = Refused \/ zig_arith o k a b = go_arith trapping o k a b.
Proof.
  intros o k a b Ha Hb. destruct o; cbn [zig_arith go_arith];
    try (right; reflexivity); try (left; reflexivity).
  - destruct (ik_signed k) eqn:U; [left; reflexivity | right].
    destruct (Z.eqb_spec b 0) as [|N]; [reflexivity |].
    pose proof (unsigned_pos _ _ Ha U). pose proof (unsigned_pos _ _ Hb U).
    rewrite Z.quot_div_nonneg by lia. unfold trapping.
    replace (in_range k (a / b)) with true; [reflexivity |]. symmetry. apply in_range_spec.
    apply in_range_spec in Ha. unfold k_min in *. rewrite U in *.
    pose proof (Z.div_pos a b). pose proof (Z.div_le_upper_bound a b a). nia.
  - destruct (ik_signed k) eqn:U; [left; reflexivity | right].
    destruct (Z.eqb_spec b 0) as [|N]; [reflexivity |].
    pose proof (unsigned_pos _ _ Ha U). pose proof (unsigned_pos _ _ Hb U).
    rewrite Z.rem_mod_nonneg by lia. unfold trapping.
    replace (in_range k (a mod b)) with true; [reflexivity |]. symmetry. apply in_range_spec.
    apply in_range_spec in Ha. unfold k_min in *. rewrite U in *.
    pose proof (Z.mod_pos_bound a b). pose proof (Z.mod_le a b). lia.
Qed.

Lemma as_kind_good : forall k v z, good v -> as_kind k v = Val z -> in_range k z = true.
Proof.
  intros k v z G H. destruct v as [z'|k' z'| | | | | | |]; cbn in H; try discriminate.
  - destruct (in_range k z') eqn:E; [| discriminate]. congruence.
  - destruct (ik_eqb k k') eqn:E; [| discriminate]. injection H as <-.
    unfold ik_eqb in E. apply andb_prop in E as [E1 E2]. apply eqb_prop in E1. apply Z.eqb_eq in E2.
    cbn in G. destruct k, k'; cbn in *. subst. exact G.
Qed.

Lemma const_sim : forall o a b, zig_const o a b = Refused \/ zig_const o a b = go_const o a b.
Proof.
  intros o a b. destruct o; cbn [zig_const go_const]; try (right; reflexivity); try (left; reflexivity).
  - destruct (Z.leb_spec 0 a); destruct (Z.ltb_spec 0 b); cbn [andb]; try (left; reflexivity).
    right. destruct (Z.eqb_spec b 0); [lia |]. rewrite Z.quot_div_nonneg by lia. reflexivity.
  - destruct (Z.leb_spec 0 a); destruct (Z.ltb_spec 0 b); cbn [andb]; try (left; reflexivity).
    right. destruct (Z.eqb_spec b 0); [lia |]. rewrite Z.rem_mod_nonneg by lia. reflexivity.
Qed.

Lemma shift_lit : forall o k a b, o = OShl \/ o = OShr ->
  zig_bin o (VInt k a) (VLit b) = Refused \/
  zig_bin o (VInt k a) (VLit b) = go_bin trapping o (VInt k a) (VLit b).
Proof.
  intros o k a b H. destruct H as [-> | ->]; cbn [zig_bin go_bin].
  - destruct (Z.leb_spec 0 b); cbn [andb]; [| left; reflexivity].
    destruct (b <? ik_bits k); [right | left; reflexivity].
    unfold go_shift. destruct (Z.ltb_spec b 0); [lia | reflexivity].
  - destruct (Z.leb_spec 0 b); cbn [andb]; [| left; reflexivity].
    destruct (b <? ik_bits k); [right | left; reflexivity].
    unfold go_shift. destruct (Z.ltb_spec b 0); [lia | reflexivity].
Qed.

(** values that Go cannot have *)
Definition go_val (v : val) : Prop := match v with VRaw _ => False | _ => True end.

Lemma bin_sim : forall o va vb, good va -> good vb -> go_val va -> go_val vb ->
  zig_bin o va vb = Refused \/ zig_bin o va vb = go_bin trapping o va vb.
Proof.
  intros o va vb Ga Gb Ra Rb.
  assert (K : forall k a v, good v -> in_range k a = true ->
    bind (as_kind k v) (fun b => zig_arith o k a b) = Refused \/
    bind (as_kind k v) (fun b => zig_arith o k a b) = bind (as_kind k v) (fun b => go_arith trapping o k a b)).
  { intros k a v Gv Ia. destruct (as_kind k v) as [b| |] eqn:E; cbn [bind]; try (right; reflexivity).
    apply arith_sim; [exact Ia | exact (as_kind_good _ _ _ Gv E)]. }
  assert (K' : forall k b v, good v -> in_range k b = true ->
    bind (as_kind k v) (fun a => zig_arith o k a b) = Refused \/
    bind (as_kind k v) (fun a => zig_arith o k a b) = bind (as_kind k v) (fun a => go_arith trapping o k a b)).
  { intros k b v Gv Ib. destruct (as_kind k v) as [a| |] eqn:E; cbn [bind]; try (right; reflexivity).
    apply arith_sim; [exact (as_kind_good _ _ _ Gv E) | exact Ib]. }
  destruct va as [a|ka a|a|a|a|a| |ka a|ka a]; destruct vb as [b|kb b|b|b|b|b| |kb b|kb b];
    cbn [go_val] in *; try contradiction; try (left; reflexivity).
  - apply const_sim.
  - destruct o; try (left; reflexivity); exact (K' kb b (VLit a) I Gb).
  - destruct o; try (apply shift_lit; auto; fail); exact (K ka a (VLit b) I Ga).
  - destruct o; try (left; reflexivity); exact (K ka a (VInt kb b) Gb Ga).
  - right. reflexivity.
Qed.

Lemma un_sim : forall u v, u = UNeg \/ u = UNot ->
  zig_unary u v = Refused \/ zig_unary u v = go_un trapping u v.
Proof.
  intros u v [-> | ->]; destruct v as [z|k z|b| | | | | |]; cbn [zig_unary go_un];
    try (left; reflexivity); try (right; reflexivity).
  destruct (ik_signed k); [right | left]; reflexivity.
Qed.

(** *** good values stay good *)
Lemma trapping_good : forall k z v, int_of k (trapping k z) = Val v -> good v /\ go_val v.
Proof.
  intros k z v H. unfold int_of, trapping in H. destruct (in_range k z) eqn:E; [| discriminate].
  injection H as <-. split; [exact E | exact I].
Qed.

(** two's complement numbers of [n + 1] bits are those whose high part is 0 or -1 *)
Lemma signed_range : forall n z, 0 <= n -> (- 2 ^ n <= z < 2 ^ n <-> Z.shiftr z n = 0 \/ Z.shiftr z n = -1).
Proof.
  intros n z N. rewrite Z.shiftr_div_pow2 by exact N.
  assert (P : 0 < 2 ^ n) by (apply Z.pow_pos_nonneg; lia).
  pose proof (Z.div_mod z (2 ^ n)). pose proof (Z.mod_pos_bound z (2 ^ n)).
  split.
  - intros R. nia.
  - intros [E | E]; rewrite E in *; nia.
Qed.
Lemma unsigned_range : forall n z, 0 <= n -> (0 <= z < 2 ^ n <-> Z.shiftr z n = 0).
Proof.
  intros n z N. rewrite Z.shiftr_div_pow2 by exact N.
  assert (P : 0 < 2 ^ n) by (apply Z.pow_pos_nonneg; lia).
  pose proof (Z.div_mod z (2 ^ n)). pose proof (Z.mod_pos_bound z (2 ^ n)).
  split; intros R; [nia | rewrite R in *; nia].
Qed.

Lemma bit_closed : forall (f : Z -> Z -> Z) k a b,
  (forall x y n, Z.shiftr (f x y) n = f (Z.shiftr x n) (Z.shiftr y n)) ->
  f 0 0 = 0 -> (f 0 (-1) = 0 \/ f 0 (-1) = -1) -> (f (-1) 0 = 0 \/ f (-1) 0 = -1) ->
  (f (-1) (-1) = 0 \/ f (-1) (-1) = -1) ->
  in_range k a = true -> in_range k b = true -> in_range k (f a b) = true.
Proof.
  intros f k a b D F00 F01 F10 F11 Ha Hb. apply in_range_spec in Ha, Hb. apply in_range_spec.
  unfold k_min, k_max in *. destruct (ik_signed k).
  - destruct (Z.lt_ge_cases (ik_bits k - 1) 0) as [N|N].
    { rewrite (Z.pow_neg_r 2 (ik_bits k - 1)) in * by lia. lia. }
    assert (Ra : - 2 ^ (ik_bits k - 1) <= a < 2 ^ (ik_bits k - 1)) by lia.
    assert (Rb : - 2 ^ (ik_bits k - 1) <= b < 2 ^ (ik_bits k - 1)) by lia.
    apply signed_range in Ra, Rb; try lia.
    assert (R : Z.shiftr (f a b) (ik_bits k - 1) = 0 \/ Z.shiftr (f a b) (ik_bits k - 1) = -1).
    { rewrite D. destruct Ra as [-> | ->]; destruct Rb as [-> | ->]; auto. }
    apply signed_range in R; lia.
  - destruct (Z.lt_ge_cases (ik_bits k) 0) as [N|N].
    { rewrite (Z.pow_neg_r 2 (ik_bits k)) in * by lia. lia. }
    assert (Ra : 0 <= a < 2 ^ ik_bits k) by lia.
    assert (Rb : 0 <= b < 2 ^ ik_bits k) by lia.
    apply unsigned_range in Ra, Rb; try lia.
    assert (R : Z.shiftr (f a b) (ik_bits k) = 0) by (rewrite D, Ra, Rb; exact F00).
    apply unsigned_range in R; lia.
Qed.

Lemma wrap_range : forall k z, 1 <= ik_bits k -> in_range k (wrap k z) = true.
Proof.
  intros k z B. apply in_range_spec. unfold wrap, k_min, k_max.
  assert (P : 2 ^ ik_bits k = 2 * 2 ^ (ik_bits k - 1)).
  { replace (ik_bits k) with (Z.succ (ik_bits k - 1)) at 1 by lia. rewrite Z.pow_succ_r by lia. reflexivity. }
  assert (P0 : 0 < 2 ^ (ik_bits k - 1)) by (apply Z.pow_pos_nonneg; lia).
  pose proof (Z.mod_pos_bound z (2 ^ ik_bits k)).
  destruct (ik_signed k); cbn [andb].
  - destruct (Z.leb_spec (2 ^ (ik_bits k - 1)) (z mod 2 ^ ik_bits k)); lia.
  - lia.
Qed.

Lemma range_bits : forall k z, in_range k z = true -> ik_signed k = true -> 1 <= ik_bits k.
Proof.
  intros k z H S. apply in_range_spec in H. unfold k_min, k_max in H. rewrite S in H.
  destruct (Z.lt_ge_cases (ik_bits k - 1) 0) as [N|N]; [| lia].
  rewrite (Z.pow_neg_r 2 (ik_bits k - 1)) in H by lia. lia.
Qed.

Lemma wrap_range' : forall k a z, in_range k a = true -> in_range k (wrap k z) = true.
Proof.
  intros k a z H. destruct (Z.lt_ge_cases (ik_bits k) 1) as [B|B]; [| apply wrap_range; lia].
  apply in_range_spec in H. apply in_range_spec. unfold wrap, k_min, k_max in *.
  destruct (ik_signed k) eqn:S.
  - rewrite (Z.pow_neg_r 2 (ik_bits k - 1)) in H by lia. lia.
  - cbn [andb]. destruct (Z.eq_dec (ik_bits k) 0) as [E|E].
    + rewrite E in *. change (2 ^ 0) with 1 in *. rewrite Z.mod_1_r. lia.
    + rewrite (Z.pow_neg_r 2 (ik_bits k)) in H by lia. lia.
Qed.

Lemma shiftr_range : forall k a b, 0 <= b -> in_range k a = true -> in_range k (Z.shiftr a b) = true.
Proof.
  intros k a b B H. apply in_range_spec in H. apply in_range_spec.
  rewrite Z.shiftr_div_pow2 by exact B.
  assert (P : 0 < 2 ^ b) by (apply Z.pow_pos_nonneg; lia).
  pose proof (Z.div_mod a (2 ^ b)). pose proof (Z.mod_pos_bound a (2 ^ b)).
  unfold k_min, k_max in *. destruct (ik_signed k).
  - assert (M : 0 <= 2 ^ (ik_bits k - 1)) by (apply Z.pow_nonneg; lia). nia.
  - assert (M : 0 <= 2 ^ ik_bits k) by (apply Z.pow_nonneg; lia). nia.
Qed.

Lemma go_arith_good : forall o k a b v, in_range k a = true -> in_range k b = true ->
  go_arith trapping o k a b = Val v -> good v /\ go_val v.
Proof.
  intros o k a b v Ha Hb H.
  assert (BC : forall f, (forall x y n, Z.shiftr (f x y) n = f (Z.shiftr x n) (Z.shiftr y n)) ->
     f 0 0 = 0 -> (f 0 (-1) = 0 \/ f 0 (-1) = -1) -> (f (-1) 0 = 0 \/ f (-1) 0 = -1) ->
     (f (-1) (-1) = 0 \/ f (-1) (-1) = -1) ->
     int_of k (Val (f a b)) = Val v -> good v /\ go_val v).
  { intros f D A B C E G. unfold int_of in G. cbn [bind] in G. injection G as <-.
    split; [| exact I]. cbn. apply bit_closed; assumption. }
  destruct o; cbn [go_arith cmp] in H;
    try (injection H as <-; split; exact I); try discriminate;
    try (eapply trapping_good; exact H).
  - destruct (b =? 0); [discriminate |]. eapply trapping_good; exact H.
  - destruct (b =? 0); [discriminate |]. eapply trapping_good; exact H.
  - apply (BC Z.land); auto; intros; apply Z.shiftr_land.
  - apply (BC (fun x y => Z.land x (Z.lnot y))); auto; cbn; auto.
    intros x y n. destruct (Z.lt_ge_cases n 0) as [N|N].
    + rewrite <- !Z.ldiff_land. apply Z.shiftr_ldiff.
    + rewrite <- !Z.ldiff_land. apply Z.shiftr_ldiff.
  - apply (BC Z.lor); auto; intros; apply Z.shiftr_lor.
  - apply (BC Z.lxor); auto; intros; apply Z.shiftr_lxor.
Qed.

Lemma go_shift_good : forall o k a b v, in_range k a = true -> go_shift o k a b = Val v -> good v /\ go_val v.
Proof.
  intros o k a b v Ha H. unfold go_shift in H. destruct (Z.ltb_spec b 0) as [|B]; [discriminate |].
  destruct o; injection H as <-; (split; [| exact I]); cbn [good];
    first [exact (wrap_range' k a _ Ha) | exact (shiftr_range k a b B Ha)].
Qed.

Lemma go_bin_good : forall o va vb v, good va -> good vb ->
  go_bin trapping o va vb = Val v -> good v /\ go_val v.
Proof.
  intros o va vb v Ga Gb H.
  assert (CC : forall a b, go_const o a b = Val v -> good v /\ go_val v).
  { intros a b G. destruct o; cbn [go_const cmp] in G;
      try (injection G as <-; split; exact I); try discriminate;
      repeat match type of G with (if ?c then _ else _) = _ => destruct c end;
      try discriminate; injection G as <-; split; exact I. }
  destruct va as [a|ka a|a|a|a|a| |ka a|ka a]; destruct vb as [b|kb b|b|b|b|b| |kb b|kb b];
    try discriminate; cbn [go_bin] in H.
  - eapply CC; exact H.
  - assert (A : forall o', bind (as_kind kb (VLit a)) (fun a => go_arith trapping o' kb a b) = Val v -> good v /\ go_val v).
    { intros o' G. apply bind_val in G as (z & E & G).
      eapply go_arith_good; [exact (as_kind_good kb (VLit a) _ I E) | exact Gb | exact G]. }
    assert (S : forall o', bind (as_kind k_int (VLit a)) (fun a => go_shift o' k_int a b) = Val v -> good v /\ go_val v).
    { intros o' G. apply bind_val in G as (z & E & G).
      eapply go_shift_good; [exact (as_kind_good k_int (VLit a) _ I E) | exact G]. }
    destruct o; first [exact (A _ H) | exact (S _ H)].
  - assert (A : forall o', bind (as_kind ka (VLit b)) (fun b => go_arith trapping o' ka a b) = Val v -> good v /\ go_val v).
    { intros o' G. apply bind_val in G as (z & E & G).
      eapply go_arith_good; [exact Ga | exact (as_kind_good ka (VLit b) _ I E) | exact G]. }
    assert (S : forall o', (if 0 <=? b then go_shift o' ka a b else Refused) = Val v -> good v /\ go_val v).
    { intros o' G. destruct (0 <=? b); [| discriminate]. eapply go_shift_good; [exact Ga | exact G]. }
    destruct o; first [exact (A _ H) | exact (S _ H)].
  - assert (A : forall o', bind (as_kind ka (VInt kb b)) (fun b => go_arith trapping o' ka a b) = Val v -> good v /\ go_val v).
    { intros o' G. apply bind_val in G as (z & E & G).
      eapply go_arith_good; [exact Ga | exact (as_kind_good ka (VInt kb b) _ Gb E) | exact G]. }
    assert (S : forall o', go_shift o' ka a b = Val v -> good v /\ go_val v).
    { intros o' G. eapply go_shift_good; [exact Ga | exact G]. }
    destruct o; first [exact (A _ H) | exact (S _ H)].
  - destruct o; try discriminate; injection H as <-; split; exact I.
  - destruct o; try discriminate; injection H as <-; split; exact I.
  - destruct o; try discriminate; injection H as <-; split; exact I.
  - destruct o; try discriminate; injection H as <-; split; exact I.
  - destruct o; try discriminate; injection H as <-; split; exact I.
Qed.

Lemma go_un_good : forall u a v, good a -> go_un trapping u a = Val v -> good v /\ go_val v.
Proof.
  intros u a v G H. destruct u; destruct a as [z|k z|b| | | | | |]; cbn [go_un] in H; try discriminate;
    try (injection H as <-; split; exact I).
  - eapply trapping_good; exact H.
  - injection H as <-. split; [exact G | exact I].
  - injection H as <-. split; [exact (wrap_range' k z _ G) | exact I].
Qed.

Lemma nth_val_good : forall k l i v, Forall (fun z => in_range k z = true) l ->
  nth_val k l i = Val v -> good v /\ go_val v.
Proof.
  intros k l i v F H. unfold nth_val in H.
  destruct (Z.leb_spec 0 i); destruct (Z.ltb_spec i (Z.of_nat (length l))); try discriminate.
  injection H as <-. split; [| exact I]. cbn [good].
  rewrite Forall_forall in F. apply F. apply nth_In. lia.
Qed.

Lemma go_index_good : forall x i v, good x -> go_index x i = Val v -> good v /\ go_val v.
Proof.
  intros x i v G H. destruct x; try discriminate; destruct i; try discriminate;
    cbn [go_index] in H; eapply nth_val_good; try exact H; exact G.
Qed.

Definition go_env (s : env) : Prop := forall n v, s n = Some v -> good v /\ go_val v.

Theorem go_eval_good : forall s e v, go_env s -> go_eval trapping s e = Val v -> good v /\ go_val v.
Proof.
  intros s e v GE. revert v.
  induction e as [n | z | b | t | | e IH | u e IH | o a IHa b IHb | x IHx i IHi
                 | m x IHx i IHi | x IHx | a IHa b IHb]; intros v H;
    cbn [go_eval] in *; try discriminate; try (injection H as <-; split; exact I).
  - destruct (s n) as [w|] eqn:E; [| discriminate]. injection H as <-. exact (GE _ _ E).
  - apply IH, H.
  - apply bind_val in H as (a & Ha & H). eapply go_un_good; [apply (IH _ Ha) | exact H].
  - assert (A : forall o', bind (go_eval trapping s a) (fun va => bind (go_eval trapping s b) (go_bin trapping o' va)) = Val v ->
                good v /\ go_val v).
    { intros o' G. apply bind_val in G as (va & Ha & G). apply bind_val in G as (vb & Hb & G).
      eapply go_bin_good; [apply (IHa _ Ha) | apply (IHb _ Hb) | exact G]. }
    destruct o; try (apply (A _ H)).
    + apply bind_val in H as (va & Ha & H). destruct va as [| |[]| | | | | |]; try discriminate.
      * apply bind_val in H as (vb & Hb & H). destruct vb; try discriminate. injection H as <-. split; exact I.
      * injection H as <-. split; exact I.
    + apply bind_val in H as (va & Ha & H). destruct va as [| |[]| | | | | |]; try discriminate.
      * injection H as <-. split; exact I.
      * apply bind_val in H as (vb & Hb & H). destruct vb; try discriminate. injection H as <-. split; exact I.
  - apply bind_val in H as (va & Ha & H). apply bind_val in H as (vb & Hb & H).
    eapply go_index_good; [apply (IHx _ Ha) | exact H].
Qed.

(** *** the simulation *)
Lemma index_sim : forall x i, zig_index x i = Refused \/ zig_index x i = go_index x i.
Proof.
  intros x i. destruct x; try (left; reflexivity). destruct i; try (left; reflexivity); cbn [zig_index go_index].
  - destruct (0 <=? z); [right | left]; reflexivity.
  - destruct (ik_eqb k0 k_uint); [right | left]; reflexivity.
Qed.
Lemma meth_sim : forall m x i, zig_meth m x i = Refused \/ zig_meth m x i = go_index x i.
Proof.
  intros m x i. destruct m; [| left; reflexivity]. destruct x; try (left; reflexivity).
  destruct i as [z|k' z| | | | | | |]; cbn [zig_meth go_index as_kind]; try (left; reflexivity).
  - destruct (in_range k_int z); [right | left]; reflexivity.
  - destruct (ik_eqb k_int k'); [right | left]; reflexivity.
Qed.

(** [z] is the outcome in Zig, [g] in Go: the same unless a compiler refuses *)
Definition agree {A} (z g : res A) : Prop := z = Refused \/ g = Refused \/ z = g.

Lemma agree_refl : forall A (r : res A), agree r r.
Proof. intros; right; right; reflexivity. Qed.
Lemma agree_bind : forall A B (z g : res A) (f h : A -> res B),
  agree z g -> (forall v, g = Val v -> agree (f v) (h v)) -> agree (bind z f) (bind g h).
Proof.
  intros A B z g f h [-> | [-> | ->]] F; [left; reflexivity | right; left; reflexivity |].
  destruct g as [v| |]; cbn [bind]; [apply F; reflexivity | apply agree_refl | apply agree_refl].
Qed.
Lemma agree_or : forall A (z g : res A), z = Refused \/ z = g -> agree z g.
Proof. intros A z g [H | H]; [left; exact H | right; right; exact H]. Qed.

(** what the operators do once their operands have been evaluated *)
Definition go_op (o : binop) (g : val) (r : res val) : res val :=
  match o with
  | OLand => match g with
             | VBool false => Val (VBool false)
             | VBool true => bind r (fun vb => match vb with VBool _ => Val vb | _ => Refused end)
             | _ => Refused end
  | OLor => match g with
            | VBool true => Val (VBool true)
            | VBool false => bind r (fun vb => match vb with VBool _ => Val vb | _ => Refused end)
            | _ => Refused end
  | _ => bind r (go_bin trapping o g)
  end.
Definition zig_oper (o : binop) (g : val) (r : res val) : res val :=
  match o with
  | OLand => match g with
             | VBool false => Val (VBool false)
             | VBool true => bind r (fun vb => match vb with VBool _ => Val vb | _ => Refused end)
             | _ => Refused end
  | OLor => match g with
            | VBool true => Val (VBool true)
            | VBool false => bind r (fun vb => match vb with VBool _ => Val vb | _ => Refused end)
            | _ => Refused end
  | _ => bind r (zig_bin o g)
  end.
Lemma go_eval_bin : forall s o a b, go_eval trapping s (EBin o a b) =
  bind (go_eval trapping s a) (fun va => go_op o va (go_eval trapping s b)).
Proof. intros s o a b. destruct o; reflexivity. Qed.
Lemma zig_eval_bin : forall s o a b, zig_eval s (EBin o a b) =
  bind (zig_eval s a) (fun va => zig_oper o va (zig_eval s b)).
Proof. intros s o a b. destruct o; reflexivity. Qed.

Lemma oper_agree : forall o va z g, good va -> go_val va ->
  (forall v, g = Val v -> good v /\ go_val v) -> agree z g ->
  agree (zig_oper o va z) (go_op o va g).
Proof.
  intros o va z g Ga Ra G A.
  assert (B : forall o', agree (bind z (zig_bin o' va)) (bind g (go_bin trapping o' va))).
  { intros o'. apply agree_bind; [exact A |]. intros v E. destruct (G _ E). apply agree_or, bin_sim; assumption. }
  destruct o; try (apply B); cbn [zig_oper go_op]; destruct va as [| |[]| | | | | |];
    try apply agree_refl; apply agree_bind; try exact A; intros v E; apply agree_refl.
Qed.

Lemma address_agree : forall o va vb, go_val va -> go_val vb ->
  o <> OLand -> o <> OLor ->
  agree (bind (zig_address va) (fun x => bind (zig_address vb) (zig_bin o x))) (go_bin trapping o va vb).
Proof.
  intros o va vb Ra Rb N1 N2.
  destruct va; try (left; reflexivity); destruct vb; try (left; reflexivity); cbn.
  - destruct o; try (left; reflexivity); apply agree_refl.
  - destruct o; try (left; reflexivity); apply agree_refl.
  - destruct o; try (left; reflexivity); destruct p; apply agree_refl.
  - right; left; reflexivity.
Qed.

Theorem eval_sim : forall ty s e, go_env s -> plain ty e = true ->
  agree (zig_eval s (ztree ty e)) (go_eval trapping s e).
Proof.
  intros ty s e GE.
  induction e as [n | z | b | t | | e IH | u e IH | o a IHa b IHb | x IHx i IHi
                 | m x IHx i IHi | x IHx | a IHa b IHb]; intros P; cbn [plain] in P;
    try apply agree_refl; try discriminate.
  - cbn [ztree zig_eval go_eval]. apply IH, P.
  - apply andb_prop in P as [U P]. cbn [ztree zig_eval go_eval].
    apply agree_bind; [exact (IH P) |]. intros v E. apply agree_or, un_sim. destruct u; auto; discriminate.
  - apply andb_prop in P as [P Pb]. apply andb_prop in P as [P Pa]. clear P.
    specialize (IHa Pa). specialize (IHb Pb).
    assert (GA : forall v, go_eval trapping s a = Val v -> good v /\ go_val v) by (intros; eapply go_eval_good; eauto).
    assert (GB : forall v, go_eval trapping s b = Val v -> good v /\ go_val v) by (intros; eapply go_eval_good; eauto).
    assert (D : o = ONe /\ ty a = GyString \/
                ty a = GyPointer \/
                (~ (o = ONe /\ ty a = GyString) /\ ty a <> GyPointer)).
    { destruct o; destruct (ty a); (left; split; reflexivity) || (right; left; reflexivity) ||
        (right; right; split; [intros [? ?]; discriminate | discriminate]). }
    destruct D as [[-> T] | [T | [N T]]].
    + rewrite go_eval_bin. cbn [ztree]. rewrite T. cbn [zig_eval].
      destruct IHa as [-> | [-> | ->]]; [left; reflexivity | right; left; reflexivity |].
      destruct (go_eval trapping s a) as [va| |]; cbn [bind]; try apply agree_refl. cbn [go_op].
      destruct IHb as [-> | [-> | ->]]; [left; reflexivity | right; left; reflexivity |].
      destruct (go_eval trapping s b) as [vb| |]; cbn [bind]; try apply agree_refl.
      destruct va; try (left; reflexivity); destruct vb; try (left; reflexivity). apply agree_refl.
    + replace (ztree ty (EBin o a b)) with (EBin o (EAddress (ztree ty a)) (EAddress (ztree ty b)))
        by (cbn [ztree]; rewrite T; destruct o; reflexivity).
      rewrite go_eval_bin, zig_eval_bin. cbn [zig_eval].
      destruct IHa as [-> | [-> | ->]]; [left; reflexivity | right; left; reflexivity |].
      destruct (go_eval trapping s a) as [va| |]; cbn [bind]; try apply agree_refl.
      assert (C : o = OLand \/ o = OLor \/ (o <> OLand /\ o <> OLor)).
      { destruct o; auto; right; right; split; discriminate. }
      destruct C as [-> | [-> | [N1 N2]]].
      * left. destruct va; reflexivity.
      * left. destruct va; reflexivity.
      * replace (go_op o va (go_eval trapping s b)) with (bind (go_eval trapping s b) (go_bin trapping o va))
          by (destruct o; reflexivity || congruence).
        replace (fun va0 => zig_oper o va0 (bind (zig_eval s (ztree ty b)) zig_address))
          with (fun va0 => bind (bind (zig_eval s (ztree ty b)) zig_address) (zig_bin o va0))
          by (destruct o; reflexivity || congruence).
        destruct (GA va eq_refl) as [_ Ra].
        destruct IHb as [-> | [-> | ->]]; [| right; left; reflexivity |].
        { left. destruct va; reflexivity. }
        destruct (go_eval trapping s b) as [vb| |]; cbn [bind].
        -- apply address_agree; [exact Ra | apply (GB vb eq_refl) | exact N1 | exact N2].
        -- destruct va; (left; reflexivity) || apply agree_refl.
        -- right; left; reflexivity.
    + assert (E2 : ztree ty (EBin o a b) = EBin o (ztree ty a) (ztree ty b)).
      { cbn [ztree]. destruct o; destruct (ty a); try reflexivity; exfalso; first [apply T; reflexivity | apply N; split; reflexivity]. }
      rewrite E2, go_eval_bin, zig_eval_bin. apply agree_bind; [exact IHa |].
      intros va E. destruct (GA _ E). apply oper_agree; assumption.
  - apply andb_prop in P as [P Ht]. apply andb_prop in P as [Hx Hi].
    specialize (IHx Hx). specialize (IHi Hi). cbn [ztree go_eval].
    destruct (ty x); try discriminate; cbn [zig_eval];
      (apply agree_bind; [exact IHx |]; intros vx _; apply agree_bind; [exact IHi |]; intros vi _;
       apply agree_or; first [apply index_sim | apply meth_sim]).
Qed.

(** ** C129 *)

(** The full property: the Zig program computes the value the Go program computes,
    or stops, or is not accepted. *)
Definition C129_full : Prop := forall ty src e s, read go src = Some e -> go_env s ->
  forall v, zig_meaning ty s e = Val v ->
  go_eval wrapping s e = Val v \/ go_eval wrapping s e = Refused.

(** ... holds for plain expressions ... *)
Theorem C129_plain_partial : forall ty src e s, read go src = Some e -> plain ty e = true -> go_env s ->
  forall v, zig_meaning ty s e = Val v ->
  go_eval wrapping s e = Val v \/ go_eval wrapping s e = Refused.
Proof.
  intros ty src e s R P GE v H. unfold zig_meaning in H.
  destruct (zig_reads_plain ty src e R P) as (ts & T & Z). rewrite T, Z in H.
  destruct (eval_sim ty s e GE P) as [A | [A | A]].
  - rewrite A in H. discriminate.
  - right. destruct (go_eval_stop s e) as [B | B]; congruence.
  - left. destruct (go_eval_stop s e) as [B | B]; congruence.
Qed.

(** ... and conversely such a Go expression that computes [v] without any
    intermediate result overflowing its type computes [v] in Zig, if Zig accepts it;
    and a Go expression that panics does not go on in Zig. *)
Theorem C129_no_overflow_partial : forall ty src e s, read go src = Some e -> plain ty e = true -> go_env s ->
  zig_meaning ty s e <> Refused ->
  forall v, go_eval trapping s e = Val v -> zig_meaning ty s e = Val v.
Proof.
  intros ty src e s R P GE N v H. unfold zig_meaning in *.
  destruct (zig_reads_plain ty src e R P) as (ts & T & Z). rewrite T, Z in *.
  destruct (eval_sim ty s e GE P) as [A | [A | A]]; congruence.
Qed.

Theorem C129_panics_partial : forall ty src e s, read go src = Some e -> plain ty e = true -> go_env s ->
  go_eval wrapping s e = Trap -> zig_meaning ty s e = Trap \/ zig_meaning ty s e = Refused.
Proof.
  intros ty src e s R P GE H. destruct (zig_meaning ty s e) as [v| |] eqn:E; auto.
  destruct (C129_plain_partial ty src e s R P GE v E); congruence.
Qed.

(** *** Non-vacuity: [a * 2 + -b == c && x[1] < 10], with [a, b, c : int] and
    [x : []int] *)
Definition ex_ty (e : expr) : gty := match e with EVar 3 => GySlice | _ => GyOther end%nat.
Definition ex_src : list tok :=
  [TName 0; TBin OMul; TInt 2; TBin OAdd; TBin OSub; TName 1; TBin OEq; TName 2; TBin OLand;
   TName 3; TLb; TInt 1; TRb; TBin OLt; TInt 10]%nat.
Definition ex_expr : expr :=
  EBin OLand
    (EBin OEq (EBin OAdd (EBin OMul (EVar 0) (EInt 2)) (EUn UNeg (EVar 1))) (EVar 2))
    (EBin OLt (EIdx (EVar 3) (EInt 1)) (EInt 10)).
Definition ex_env : env := fun n =>
  match n with
  | 0 => Some (VInt k_int 20) | 1 => Some (VInt k_int 5) | 2 => Some (VInt k_int 35)
  | 3 => Some (VSlice k_int [7; 9]%Z) | _ => None
  end%nat.
Theorem C129_example :
  read go ex_src = Some ex_expr /\ plain ex_ty ex_expr = true /\ go_env ex_env /\
  zig_meaning ex_ty ex_env ex_expr = Val (VBool true) /\
  z_print ex_ty ex_expr = Some [TName 0; TBin OMul; TInt 2; TBin OAdd; TBin OSub; TName 1; TBin OEq; TName 2; TAnd;
     TName 3; TMeth MIndex; TLp; TInt 1; TRp; TBin OLt; TInt 10]%nat.
Proof.
  split; [vm_compute; reflexivity |]. split; [vm_compute; reflexivity |].
  split.
  - intros n v H. destruct n as [|[|[|[|n]]]]; try discriminate; injection H as <-;
      (split; [| exact I]); try reflexivity.
    constructor; [reflexivity | constructor; [reflexivity | constructor]].
  - split; vm_compute; reflexivity.
Qed.

(** ** Where the two grammars part: Zig accepts the text, and means something else.
    All variables are of type [int]. *)
Definition int_env (a b c : Z) : env := fun n =>
  match n with
  | 0 => Some (VInt k_int a) | 1 => Some (VInt k_int b) | 2 => Some (VInt k_int c) | _ => None
  end%nat.
Definition ints (_ : expr) : gty := GyOther.

(** [a | b + c]: Go adds last, Zig adds first.  1|1+1 is 2 in Go and 3 in Zig. *)
Theorem C129_or_plus_refuted :
  exists e, read go [TName 0; TBin OOr; TName 1; TBin OAdd; TName 2]%nat = Some e /\
    go_eval wrapping (int_env 1 1 1) e = Val (VInt k_int 2) /\
    zig_meaning ints (int_env 1 1 1) e = Val (VInt k_int 3).
Proof. eexists. split; [vm_compute; reflexivity |]. split; vm_compute; reflexivity. Qed.

(** [a + b & c]: Go takes [b & c] first, Zig the sum. *)
Theorem C129_plus_and_refuted :
  exists e, read go [TName 0; TBin OAdd; TName 1; TBin OAnd; TName 2]%nat = Some e /\
    go_eval wrapping (int_env 1 2 4) e = Val (VInt k_int 1) /\
    zig_meaning ints (int_env 1 2 4) e = Val (VInt k_int 0).
Proof. eexists. split; [vm_compute; reflexivity |]. split; vm_compute; reflexivity. Qed.

(** [a + b << 3]: Go shifts first, Zig adds first. *)
Theorem C129_plus_shift_refuted :
  exists e, read go [TName 0; TBin OAdd; TName 1; TBin OShl; TInt 3]%nat = Some e /\
    go_eval wrapping (int_env 1 1 0) e = Val (VInt k_int 9) /\
    zig_meaning ints (int_env 1 1 0) e = Val (VInt k_int 16).
Proof. eexists. split; [vm_compute; reflexivity |]. split; vm_compute; reflexivity. Qed.

(** [a | b & c]: Go takes the [&] first, Zig reads from left to right. *)
Theorem C129_or_and_refuted :
  exists e, read go [TName 0; TBin OOr; TName 1; TBin OAnd; TName 2]%nat = Some e /\
    go_eval wrapping (int_env 1 2 4) e = Val (VInt k_int 1) /\
    zig_meaning ints (int_env 1 2 4) e = Val (VInt k_int 0).
Proof. eexists. split; [vm_compute; reflexivity |]. split; vm_compute; reflexivity. Qed.

Theorem C129_full_refuted : ~ C129_full.
Proof.
  intros F. destruct C129_or_plus_refuted as (e & R & G & Z).
  assert (GE : go_env (int_env 1 1 1)).
  { intros n v H. destruct n as [|[|[|n]]]; try discriminate; injection H as <-; split; reflexivity || exact I. }
  destruct (F ints _ e _ R GE _ Z) as [A | A]; rewrite G in A; discriminate.
Qed.

(** ** Programs Go runs and Zig does not accept *)

(** [a &^ b], [^a] and [+a] have no Zig reading, whatever the operands are *)
Theorem C129_andnot_refused : forall ty s a b, zig_meaning ty s (EBin OAndNot (EVar a) (EVar b)) = Refused.
Proof.
  intros ty s a b. unfold zig_meaning. cbn [z_print zig_op app].
  destruct (ty (EVar a)); vm_compute; reflexivity.
Qed.
Theorem C129_complement_refused : forall ty s a, zig_meaning ty s (EUn UCompl (EVar a)) = Refused.
Proof. intros ty s a. vm_compute. reflexivity. Qed.
Theorem C129_plus_refused : forall ty s a, zig_meaning ty s (EUn UPos (EVar a)) = Refused.
Proof. intros ty s a. vm_compute. reflexivity. Qed.

(** [a == b == c] on booleans: chained comparisons *)
Theorem C129_chain_refused : forall s a b c,
  zig_meaning ints s (EBin OEq (EBin OEq (EVar a) (EVar b)) (EVar c)) = Refused.
Proof. intros s a b c. vm_compute. reflexivity. Qed.

(** dividing signed integers that are not constants *)
Theorem C129_signed_division_refused : forall s a b x y,
  s a = Some (VInt k_int x) -> s b = Some (VInt k_int y) ->
  zig_meaning ints s (EBin ODiv (EVar a) (EVar b)) = Refused.
Proof.
  intros s a b x y A B. unfold zig_meaning. cbn [z_print ints zig_op app].
  replace (read zig [TName a; TBin ODiv; TName b]) with (Some (EBin ODiv (EVar a) (EVar b)))
    by (vm_compute; reflexivity).
  cbn [zig_eval]. rewrite A, B. reflexivity.
Qed.

(** comparing strings with [==]: only [!=] is translated *)
Theorem C129_string_equal_refused : forall ty s a b x y,
  ty (EVar a) = GyString -> s a = Some (VStr x) -> s b = Some (VStr y) ->
  zig_meaning ty s (EBin OEq (EVar a) (EVar b)) = Refused /\
  zig_meaning ty s (EBin ONe (EVar a) (EVar b)) = Val (VBool (negb (bytes_eqb x y))).
Proof.
  intros ty s a b x y T A B. unfold zig_meaning. cbn [z_print zig_op app]. rewrite T.
  replace (read zig [TName a; TBin OEq; TName b]) with (Some (EBin OEq (EVar a) (EVar b)))
    by (vm_compute; reflexivity).
  replace (read zig [TLp; TBang; TEquality; TLp; TGoString; TComma; TName a; TComma; TName b; TRp; TRp])
    with (Some (EParen (EUn UNot (EStrEq (EVar a) (EVar b))))) by (vm_compute; reflexivity).
  cbn [zig_eval]. rewrite A, B. split; reflexivity.
Qed.

(** ... and overflow: Go wraps around, the Zig program stops *)
Theorem C129_overflow_traps :
  go_eval wrapping (int_env (2 ^ 63 - 1) 1 0) (EBin OAdd (EVar 0) (EVar 1)) = Val (VInt k_int (- 2 ^ 63)) /\
  zig_meaning ints (int_env (2 ^ 63 - 1) 1 0) (EBin OAdd (EVar 0) (EVar 1)) = Trap.
Proof. split; vm_compute; reflexivity. Qed.
