(** * C143: compiled calls call the same functions with the same arguments, once and in order. *)
From Coq Require Import List Bool Arith Lia.
Import ListNotations.
From Verif Require Import ZigCallModel.

(** ** The calls that are compiled correctly *)
Section Fine.
Context (byptr : nat -> nat -> bool).
(** Not variadic; or at least one argument for the variadic parameter, and no slice spread over it. *)
Definition sig_ok (sig : variadic) (spread : bool) (args : exprs) : Prop :=
  spread = false /\ match sig with None => True | Some (fixed, _) => fixed < elen args end.
Fixpoint fine (e : expr) : Prop :=
  match e with
  | EName _ => True
  | ECall c sig spread args => match c with CGlobal _ => False | _ => True end /\ sig_ok sig spread args /\ fine_all args
  | EMethod t m b p x sig spread args => b = byptr t m /\ p = b /\ fine x /\ sig_ok sig spread args /\ fine_all args
  | EIface _ x sig spread args => match x with EName _ => True | _ => False end /\ sig_ok sig spread args /\ fine_all args
  | EConv _ _ => False
  end
with fine_all (l : exprs) : Prop := match l with Enil => True | Econs e r => fine e /\ fine_all r end.
End Fine.

(** ** The tree that is read *)
Fixpoint z_of (e : expr) : z :=
  let fix z_all (l : exprs) : zs := match l with Enil => Znil | Econs e r => Zcons (z_of e) (z_all r) end in
  let fix z_args (sig : variadic) (i total : nat) (l : exprs) : zs :=
    match l with
    | Enil => Znil
    | Econs e r =>
        match sig with
        | Some (fixed, t) => if fixed <=? i then Zcons (ZCall ZVariadic (Zcons (ZNum (total - fixed)) (Zcons (ZType t) (Zcons (ZTuple (z_all l)) Znil)))) Znil
                             else Zcons (z_of e) (z_args sig (S i) total r)
        | None => Zcons (z_of e) (z_args sig (S i) total r)
        end
    end in
  match e with
  | EName n => ZVar n
  | ECall (CLocal v) sig _ args => ZCall (ZField (ZVar v) FCall) (Zcons (ZTuple (Zcons ZGoto (z_args sig 0 (elen args) args))) Znil)
  | ECall (CFun f) sig _ args => ZCall (ZFun f) (Zcons ZGoto (z_args sig 0 (elen args) args))
  | ECall (CGlobal v) sig _ args => ZCall (ZGlobal v) (Zcons ZGoto (z_args sig 0 (elen args) args))
  | EMethod t m _ _ x sig _ args => ZCall (ZMethod t m) (Zcons ZGoto (Zcons (z_of x) (z_args sig 0 (elen args) args)))
  | EIface m x sig _ args => ZCall (ZField (ZField (z_of x) FItype) (FName m)) (Zcons ZGoto (Zcons (ZField (z_of x) FValue) (z_args sig 0 (elen args) args)))
  | EConv t _ => ZCall ZAs (Zcons (ZType t) Znil)
  end.
Fixpoint z_all (l : exprs) : zs := match l with Enil => Znil | Econs e r => Zcons (z_of e) (z_all r) end.
Fixpoint z_args (sig : variadic) (i total : nat) (l : exprs) : zs :=
  match l with
  | Enil => Znil
  | Econs e r =>
      match sig with
      | Some (fixed, t) => if fixed <=? i then Zcons (ZCall ZVariadic (Zcons (ZNum (total - fixed)) (Zcons (ZType t) (Zcons (ZTuple (z_all l)) Znil)))) Znil
                           else Zcons (z_of e) (z_args sig (S i) total r)
      | None => Zcons (z_of e) (z_args sig (S i) total r)
      end
  end.

(** ** Reading *)
Lemma r_mono f :
  (forall ts x, r_expr f ts = Some x -> r_expr (S f) ts = Some x) /\
  (forall y ts x, r_suffix f y ts = Some x -> r_suffix (S f) y ts = Some x) /\
  (forall c ts x, r_list f c ts = Some x -> r_list (S f) c ts = Some x).
Proof.
  induction f as [|f (IE & IS & IL)]; [split; [|split]; discriminate|]. split; [|split].
  - intros ts x E. cbn [r_expr] in E. change (r_expr (S (S f)) ts) with
      (match ts with
       | [] => None
       | TDotLc :: r => match r_list (S f) CRc r with Some (l, r) => r_suffix (S f) (ZTuple l) r | None => None end
       | t :: r => match operand t with Some x => r_suffix (S f) x r | None => None end
       end).
    destruct ts as [|t r]; [discriminate|]. destruct t; cbn [operand] in *; try discriminate; try (apply IS; exact E).
    destruct (r_list f CRc r) as [[l q]|] eqn:L; [|discriminate]. rewrite (IL _ _ _ L). apply IS. exact E.
  - intros y ts x E. cbn [r_suffix] in E. change (r_suffix (S (S f)) y ts) with
      (match ts with
       | [] => Some (y, [])
       | TLp :: r => match r_list (S f) CRp r with Some (l, r) => r_suffix (S f) (ZCall y l) r | None => None end
       | t :: r => match suffix t with Some g => r_suffix (S f) (ZField y g) r | None => Some (y, ts) end
       end).
    destruct ts as [|t r]; [exact E|]. destruct t; cbn [suffix] in *; try exact E; try (apply IS; exact E).
    destruct (r_list f CRp r) as [[l q]|] eqn:L; [|discriminate]. rewrite (IL _ _ _ L). apply IS. exact E.
  - intros c ts x E. cbn [r_list] in E. change (r_list (S (S f)) c ts) with
      (match ts with
       | [] => None
       | t :: r => if is_closer c t then Some (Znil, r) else
           match r_expr (S f) ts with
           | Some (x, TComma :: r) => match r_list (S f) c r with Some (l, r) => Some (Zcons x l, r) | None => None end
           | Some (x, t :: r) => if is_closer c t then Some (Zcons x Znil, r) else None
           | _ => None
           end
       end).
    destruct ts as [|t r]; [discriminate|]. destruct (is_closer c t); [exact E|].
    destruct (r_expr f (t :: r)) as [[y q]|] eqn:X; [|discriminate]. rewrite (IE _ _ X).
    destruct q as [|u q]; [exact E|]. destruct u; try exact E.
    destruct (r_list f c q) as [[l w]|] eqn:L; [|discriminate]. rewrite (IL _ _ _ L). exact E.
Qed.
Lemma le_up (P : nat -> Prop) f g : (forall n, P n -> P (S n)) -> f <= g -> P f -> P g.
Proof. intros U L. induction L; [tauto|]. intros H. apply U. apply IHL. exact H. Qed.
Lemma e_up f g ts x : f <= g -> r_expr f ts = Some x -> r_expr g ts = Some x.
Proof. intros L. apply (le_up (fun n => r_expr n ts = Some x)); [intros n; apply r_mono|exact L]. Qed.
Lemma s_up f g y ts x : f <= g -> r_suffix f y ts = Some x -> r_suffix g y ts = Some x.
Proof. intros L. apply (le_up (fun n => r_suffix n y ts = Some x)); [intros n; apply r_mono|exact L]. Qed.
Lemma l_up f g c ts x : f <= g -> r_list f c ts = Some x -> r_list g c ts = Some x.
Proof. intros L. apply (le_up (fun n => r_list n c ts = Some x)); [intros n; apply r_mono|exact L]. Qed.
(** A text is read in one way. *)
Lemma reads_one ts x y : reads ts x -> reads ts y -> x = y.
Proof.
  intros [f F] [g G]. apply (e_up f (max f g)) in F; [|lia]. apply (e_up g (max f g)) in G; [|lia]. congruence.
Qed.

Definition Rexpr ts res := exists f, r_expr f ts = Some res.
Definition Rsuf x ts res := exists f, r_suffix f x ts = Some res.
Definition Rlist c ts res := exists f, r_list f c ts = Some res.
(** the rest of a list, after an element *)
Definition Rtail (c : closer) (ts : list tok) (res : zs * list tok) : Prop :=
  match ts with
  | [] => False
  | TComma :: r => Rlist c r res
  | t :: r => is_closer c t = true /\ res = (Znil, r)
  end.
Lemma Rexpr_op t x r res : operand t = Some x -> Rsuf x r res -> Rexpr (t :: r) res.
Proof. intros O [f F]. exists (S f). cbn [r_expr]. destruct t; try discriminate; rewrite O; exact F. Qed.
Lemma Rexpr_tuple l r r' res : Rlist CRc r (l, r') -> Rsuf (ZTuple l) r' res -> Rexpr (TDotLc :: r) res.
Proof.
  intros [f F] [g G]. exists (S (max f g)). cbn [r_expr]. rewrite (l_up _ (max f g) _ _ _ (Nat.le_max_l f g) F). apply (s_up g); [lia|exact G].
Qed.
Lemma Rsuf_call x l r r' res : Rlist CRp r (l, r') -> Rsuf (ZCall x l) r' res -> Rsuf x (TLp :: r) res.
Proof.
  intros [f F] [g G]. exists (S (max f g)). cbn [r_suffix]. rewrite (l_up _ (max f g) _ _ _ (Nat.le_max_l f g) F). apply (s_up g); [lia|exact G].
Qed.
Lemma Rsuf_field x t g r res : suffix t = Some g -> Rsuf (ZField x g) r res -> Rsuf x (t :: r) res.
Proof. intros O [f F]. exists (S f). cbn [r_suffix]. destruct t; try discriminate; rewrite O; exact F. Qed.
Definition stops (ts : list tok) : Prop := match ts with [] => True | TLp :: _ => False | t :: _ => suffix t = None end.
Lemma Rsuf_stop x ts : stops ts -> Rsuf x ts (x, ts).
Proof. intros O. exists 1. cbn [r_suffix]. destruct ts as [|t r]; [reflexivity|]. cbn in O. destruct t; try contradiction; rewrite ?O; try discriminate; reflexivity. Qed.
Lemma Rlist_cons c ts x ts' l r : Rexpr ts (x, ts') -> Rtail c ts' (l, r) -> Rlist c ts (Zcons x l, r).
Proof.
  intros [f F] T. destruct ts as [|t q]; [destruct f; discriminate|].
  assert (C : is_closer c t = false).
  { destruct f; [discriminate|]. cbn [r_expr] in F. destruct c, t; try reflexivity; discriminate. }
  destruct ts' as [|u w]; [contradiction|]. destruct u;
    try (destruct T as [T E]; inversion E; subst; exists (S f); cbn [r_list]; rewrite C, F, T; reflexivity).
  destruct T as [g G]. exists (S (max f g)). cbn [r_list]. rewrite C, (e_up f (max f g) _ _ (Nat.le_max_l f g) F), (l_up g (max f g) _ _ _ (Nat.le_max_r f g) G). reflexivity.
Qed.
Lemma Rtail_stop c ts res : Rtail c ts res -> stops ts.
Proof. destruct ts as [|t r]; [exact (fun _ => I)|]. destruct t; cbn; try (intros _; reflexivity); intros [X _]; destruct c; discriminate. Qed.
Lemma Rtail_close_p r : Rtail CRp (TRp :: r) (Znil, r). Proof. split; reflexivity. Qed.
Lemma Rtail_close_c r : Rtail CRc (TRc :: r) (Znil, r). Proof. split; reflexivity. Qed.

(** The arguments that are printed are read as the tree. *)
Lemma print_call c sig spread args : print (ECall c sig spread args) =
  (if is_variable c then [p_name c; TDotCall; TLp; TDotLc; TGoto] else [p_name c; TLp; TGoto]) ++ p_args sig false 0 (elen args) args ++ (if is_variable c then [TRc; TRp] else [TRp]).
Proof. reflexivity. Qed.
Lemma print_method t m b p x sig spread args : print (EMethod t m b p x sig spread args) =
  [TMethod t m; TLp; TGoto; TComma] ++ print x ++ p_args sig false 0 (elen args) args ++ [TRp].
Proof. reflexivity. Qed.
Lemma print_iface m x sig spread args : print (EIface m x sig spread args) =
  print x ++ [TDotItype; TDotName m; TLp; TGoto; TComma] ++ print x ++ [TDotValue] ++ p_args sig false 0 (elen args) args ++ [TRp].
Proof. reflexivity. Qed.

Section Read.
Context (byptr : nat -> nat -> bool).
Lemma read_all :
  (forall e, fine byptr e -> forall rest res, Rsuf (z_of e) rest res -> Rexpr (print e ++ rest) res) /\
  (forall l, fine_all byptr l ->
    (* all in the wrapper *)
    (forall s i total rest, Rtail CRc (p_args (Some s) true i total l ++ rest) (z_all l, TRp :: rest)) /\
    (* or some before it *)
    (forall sig i total c rest, match sig with None => True | Some (fixed, _) => fixed < i + elen l \/ fixed < i end ->
       match sig with Some (fixed, _) => i <= fixed | None => True end ->
       forall r, Rtail c rest (Znil, r) -> Rtail c (p_args sig false i total l ++ rest) (z_args sig i total l, r))).
Proof.
  apply expr_exprs.
  - intros n _ rest res R. cbn [print app]. apply (Rexpr_op _ (ZVar n)); [reflexivity|exact R].
  - intros c sig spread args IH F rest res R. cbn [fine] in F. destruct F as (C & [_ S] & F). specialize (IH F). destruct IH as [_ IH].
    rewrite print_call. destruct c as [f|v|v]; [| |contradiction]; cbn [is_variable p_name]; rewrite <- !app_assoc; cbn [app].
    + apply (Rexpr_op _ (ZFun f)); [reflexivity|]. eapply Rsuf_call; [|exact R].
      apply (Rlist_cons _ _ ZGoto (p_args sig false 0 (elen args) args ++ TRp :: rest)).
      * apply (Rexpr_op _ ZGoto); [reflexivity|]. apply Rsuf_stop. eapply (Rtail_stop CRp). apply IH; [destruct sig as [[fx t]|]; [left; exact S|exact I]|destruct sig as [[fx t]|]; [lia|exact I]|apply Rtail_close_p].
      * apply IH; [destruct sig as [[fx t]|]; [left; exact S|exact I]|destruct sig as [[fx t]|]; [lia|exact I]|apply Rtail_close_p].
    + apply (Rexpr_op _ (ZVar v)); [reflexivity|]. apply (Rsuf_field _ _ FCall); [reflexivity|]. eapply Rsuf_call; [|exact R].
      apply (Rlist_cons _ _ _ (TRp :: rest)); [|apply Rtail_close_p]. eapply Rexpr_tuple; [|apply Rsuf_stop; reflexivity].
      apply (Rlist_cons _ _ ZGoto (p_args sig false 0 (elen args) args ++ TRc :: TRp :: rest)).
      * apply (Rexpr_op _ ZGoto); [reflexivity|]. apply Rsuf_stop. eapply (Rtail_stop CRc). apply IH; [destruct sig as [[fx t]|]; [left; exact S|exact I]|destruct sig as [[fx t]|]; [lia|exact I]|apply Rtail_close_c].
      * apply IH; [destruct sig as [[fx t]|]; [left; exact S|exact I]|destruct sig as [[fx t]|]; [lia|exact I]|apply Rtail_close_c].
  - intros t m b p x IX sig spread args IH F rest res R. cbn [fine] in F. destruct F as (_ & _ & X & [_ S] & F). specialize (IH F). destruct IH as [_ IH].
    rewrite print_method. rewrite <- !app_assoc. cbn [app].
    assert (T : Rtail CRp (p_args sig false 0 (elen args) args ++ TRp :: rest) (z_args sig 0 (elen args) args, rest)).
    { apply IH; [destruct sig as [[fx u]|]; [left; exact S|exact I]|destruct sig as [[fx u]|]; [lia|exact I]|apply Rtail_close_p]. }
    apply (Rexpr_op _ (ZMethod t m)); [reflexivity|]. eapply Rsuf_call; [|exact R].
    eapply Rlist_cons; [apply (Rexpr_op _ ZGoto); [reflexivity|apply Rsuf_stop; reflexivity]|]. cbn [Rtail].
    eapply Rlist_cons; [|exact T]. apply (IX X). apply Rsuf_stop. eapply Rtail_stop. exact T.
  - intros m x IX sig spread args IH F rest res R. cbn [fine] in F. destruct F as (X & [_ S] & F). specialize (IH F). destruct IH as [_ IH].
    rewrite print_iface. rewrite <- !app_assoc. cbn [app].
    assert (T : Rtail CRp (p_args sig false 0 (elen args) args ++ TRp :: rest) (z_args sig 0 (elen args) args, rest)).
    { apply IH; [destruct sig as [[fx u]|]; [left; exact S|exact I]|destruct sig as [[fx u]|]; [lia|exact I]|apply Rtail_close_p]. }
    assert (FX : fine byptr x) by (destruct x; try contradiction; exact I).
    apply (IX FX). apply (Rsuf_field _ _ FItype); [reflexivity|]. apply (Rsuf_field _ _ (FName m)); [reflexivity|]. eapply Rsuf_call; [|exact R].
    eapply Rlist_cons; [apply (Rexpr_op _ ZGoto); [reflexivity|apply Rsuf_stop; reflexivity]|]. cbn [Rtail].
    eapply Rlist_cons; [|exact T]. apply (IX FX). apply (Rsuf_field _ _ FValue); [reflexivity|]. apply Rsuf_stop. eapply Rtail_stop. exact T.
  - intros t x _ F. contradiction.
  - intros _. split.
    + intros s i total rest. cbn. split; reflexivity.
    + intros sig i total c rest A B r T. cbn [p_args elen] in *. destruct sig as [[fixed t]|]; [exfalso; destruct A; lia|]. exact T.
  - intros e IE l IL F. cbn [fine_all] in F. destruct F as [F1 F2]. specialize (IE F1). specialize (IL F2). destruct IL as [ILo ILn]. split.
    + intros s i total rest. destruct s as [fixed t]. cbn [p_args p_open negb andb app]. rewrite <- app_assoc. cbn [Rtail].
      eapply Rlist_cons; [|apply ILo]. apply IE. apply Rsuf_stop. eapply Rtail_stop. apply ILo.
    + intros sig i total c rest A B r T. destruct sig as [[fixed t]|].
      * cbn [p_args p_open negb andb z_args]. destruct (Nat.leb_spec fixed i) as [L|L].
        -- cbn [app]. rewrite <- app_assoc. cbn [Rtail].
           eapply (Rlist_cons _ _ _ rest); [|exact T]. apply (Rexpr_op _ ZVariadic); [reflexivity|]. 
           eapply Rsuf_call; [|apply Rsuf_stop; eapply Rtail_stop; exact T].
           eapply Rlist_cons; [apply (Rexpr_op _ (ZNum (total - fixed))); [reflexivity|apply Rsuf_stop; reflexivity]|]. cbn [Rtail].
           eapply Rlist_cons; [apply (Rexpr_op _ (ZType t)); [reflexivity|apply Rsuf_stop; reflexivity]|]. cbn [Rtail].
           eapply (Rlist_cons _ _ _ (TRp :: rest)); [|apply Rtail_close_p]. eapply Rexpr_tuple; [|apply Rsuf_stop; reflexivity].
           cbn [z_all]. eapply Rlist_cons; [|apply ILo]. apply IE. apply Rsuf_stop. eapply Rtail_stop. apply ILo.
        -- cbn [app]. rewrite <- app_assoc. cbn [Rtail].
           assert (Q : Rtail c (p_args (Some (fixed, t)) false (S i) total l ++ rest) (z_args (Some (fixed, t)) (S i) total l, r)).
           { apply ILn; [|lia|exact T]. cbn [elen] in A. destruct A; [left|right]; lia. }
           eapply Rlist_cons; [|exact Q]. apply IE. apply Rsuf_stop. eapply Rtail_stop. exact Q.
      * cbn [p_args p_open z_args app]. rewrite <- app_assoc. cbn [Rtail].
        assert (Q : Rtail c (p_args None false (S i) total l ++ rest) (z_args None (S i) total l, r)) by (apply ILn; [exact I|exact I|exact T]).
        eapply Rlist_cons; [|exact Q]. apply IE. apply Rsuf_stop. eapply Rtail_stop. exact Q.
Qed.
Lemma reads_print e : fine byptr e -> reads (print e) (z_of e).
Proof.
  intros F. destruct (proj1 read_all e F [] (z_of e, [])) as [f H]; [apply Rsuf_stop; exact I|]. rewrite app_nil_r in H. exists f. exact H.
Qed.
End Read.

(** ** Running *)
Section Run.
Context (byptr : nat -> nat -> bool) (env : nat -> value) (ret : trace -> value).
Notation ge := (g_eval env ret). Notation ga := (g_args env ret). Notation ze := (z_eval env ret byptr). Notation zl := (z_list env ret byptr).
Lemma values_map vs : values (map ZV vs) = Some vs.
Proof. induction vs as [|v vs IH]; [reflexivity|]. cbn [map values]. rewrite IH. reflexivity. Qed.
Lemma ga_length l : forall h vs h', ga l h = Some (vs, h') -> length vs = elen l.
Proof.
  induction l as [|e l IH]; intros h vs h' E; cbn [g_args] in E; [inversion E; reflexivity|].
  destruct (ge e h) as [[v h1]|]; [|discriminate]. destruct (ga l h1) as [[ws h2]|] eqn:G; [|discriminate]. inversion E; subst. cbn [length elen]. f_equal. eapply IH. exact G.
Qed.
Lemma ge_call c sig spread args h : ge (ECall c sig spread args) h =
  match ga args h with None => None | Some (vs, h) => match g_pack sig spread vs with None => None | Some vs =>
  made ret (Waits (match c with CFun f => OfName f | CLocal v | CGlobal v => OfValue (env v) end) vs) h end end.
Proof. reflexivity. Qed.
Lemma ge_method t m b p x sig spread args h : ge (EMethod t m b p x sig spread args) h =
      match ge x h with None => None | Some (v, h) =>
      match g_receiver b p v with None => None | Some v =>
      match ga args h with None => None | Some (vs, h) =>
      match g_pack sig spread vs with None => None | Some vs => made ret (Waits (OfMethod t m) (v :: vs)) h end end end end.
Proof. reflexivity. Qed.
Lemma ge_iface m x sig spread args h : ge (EIface m x sig spread args) h =
      match ge x h with None => None | Some (v, h) =>
      match ga args h with None => None | Some (vs, h) =>
      match g_pack sig spread vs with None => None | Some vs => made ret (Waits (OfIface v m) (v :: vs)) h end end end.
Proof. reflexivity. Qed.
Lemma ze_call x l h : ze (ZCall x l) h = match ze x h with Some (v, h) => match zl l h with Some (vs, h) => z_call ret byptr v vs h | None => None end | None => None end.
Proof. reflexivity. Qed.
Lemma ze_tuple l h : ze (ZTuple l) h = match zl l h with Some (vs, h) => Some (ZVTuple vs, h) | None => None end.
Proof. reflexivity. Qed.
Lemma zl_cons x l h : zl (Zcons x l) h = match ze x h with None => None | Some (v, h) => match zl l h with None => None | Some (vs, h) => Some (v :: vs, h) end end.
Proof. reflexivity. Qed.

Lemma run_all :
  (forall e, fine byptr e -> forall h v h', ge e h = Some (v, h') -> ze (z_of e) h = Some (ZV v, h')) /\
  (forall l, fine_all byptr l -> forall h vs h', ga l h = Some (vs, h') ->
    zl (z_all l) h = Some (map ZV vs, h') /\
    (forall i total, zl (z_args None i total l) h = Some (map ZV vs, h')) /\
    (forall fixed t i, i <= fixed -> fixed < i + elen l -> forallb (type_is t) (skipn (fixed - i) vs) = true ->
       zl (z_args (Some (fixed, t)) i (i + elen l) l) h = Some (map ZV (firstn (fixed - i) vs ++ [VSlice t (skipn (fixed - i) vs)]), h'))).
Proof.
  assert (P : forall sig spread args vs h h', sig_ok sig spread args -> fine_all byptr args -> ga args h = Some (vs, h') ->
     (zl (z_all args) h = Some (map ZV vs, h') /\ (forall i total, zl (z_args None i total args) h = Some (map ZV vs, h')) /\
      (forall fixed t i, i <= fixed -> fixed < i + elen args -> forallb (type_is t) (skipn (fixed - i) vs) = true ->
       zl (z_args (Some (fixed, t)) i (i + elen args) args) h = Some (map ZV (firstn (fixed - i) vs ++ [VSlice t (skipn (fixed - i) vs)]), h'))) ->
     forall ws, g_pack sig spread vs = Some ws -> zl (z_args sig 0 (elen args) args) h = Some (map ZV ws, h')).
  { intros sig spread args vs h h' [-> S] F G (_ & N & O) ws K. destruct sig as [[fixed t]|]; cbn [g_pack] in K.
    - destruct (length vs <? fixed); [discriminate|]. destruct (forallb (type_is t) (skipn fixed vs)) eqn:T; [|discriminate]. inversion K; subst.
      pose proof (O fixed t 0 (Nat.le_0_l _) S) as Q. rewrite Nat.sub_0_r in Q. cbn [plus] in Q. apply Q. exact T.
    - inversion K; subst. apply N. }
  apply expr_exprs.
  - intros n _ h v h' E. cbn in E. inversion E; subst. reflexivity.
  - intros c sig spread args IH F h v h' E. cbn [fine] in F. destruct F as (C & S & F). rewrite ge_call in E.
    destruct (ga args h) as [[vs h1]|] eqn:G; [|discriminate]. destruct (g_pack sig spread vs) as [ws|] eqn:K; [|discriminate].
    pose proof (P sig spread args vs h h1 S F G (IH F h vs h1 G) ws K) as Z. destruct c as [f|x|x]; [| |contradiction].
    + change (z_of (ECall (CFun f) sig spread args)) with (ZCall (ZFun f) (Zcons ZGoto (z_args sig 0 (elen args) args))). rewrite ze_call. cbn [z_eval]. rewrite zl_cons. cbn [z_eval]. rewrite Z.
      cbn [z_call]. rewrite values_map. rewrite E. reflexivity.
    + change (z_of (ECall (CLocal x) sig spread args)) with (ZCall (ZField (ZVar x) FCall) (Zcons (ZTuple (Zcons ZGoto (z_args sig 0 (elen args) args))) Znil)).
      rewrite ze_call. cbn [z_eval z_field]. rewrite zl_cons, ze_tuple, zl_cons. cbn [z_eval]. rewrite Z. cbn [z_list z_call]. rewrite values_map. rewrite E. reflexivity.
  - intros t m b p x IX sig spread args IH F h v h' E. cbn [fine] in F. destruct F as (Eb & -> & X & S & F). rewrite ge_method in E.
    destruct (ge x h) as [[u h0]|] eqn:GX; [|discriminate]. destruct (g_receiver b b u) as [u'|] eqn:GR; [|discriminate].
    destruct (ga args h0) as [[vs h1]|] eqn:G; [|discriminate]. destruct (g_pack sig spread vs) as [ws|] eqn:K; [|discriminate].
    pose proof (P sig spread args vs h0 h1 S F G (IH F h0 vs h1 G) ws K) as Z.
    assert (R : u' = u /\ is_ref u = b).
    { unfold g_receiver in GR. destruct b, u; cbn in GR; inversion GR; subst; split; reflexivity. }
    destruct R as [-> R].
    change (z_of (EMethod t m b b x sig spread args)) with (ZCall (ZMethod t m) (Zcons ZGoto (Zcons (z_of x) (z_args sig 0 (elen args) args)))).
    rewrite ze_call. cbn [z_eval]. rewrite zl_cons. cbn [z_eval]. rewrite zl_cons, (IX X _ _ _ GX), Z. cbn [z_call]. rewrite R, Eb, eqb_reflx, values_map. rewrite E. reflexivity.
  - intros m x IX sig spread args IH F h v h' E. cbn [fine] in F. destruct F as (X & S & F). rewrite ge_iface in E. destruct x as [n| | | |]; try contradiction.
    cbn [g_eval] in E. destruct (ga args h) as [[vs h1]|] eqn:G; [|discriminate]. destruct (g_pack sig spread vs) as [ws|] eqn:K; [|discriminate].
    pose proof (P sig spread args vs h h1 S F G (IH F h vs h1 G) ws K) as Z.
    change (z_of (EIface m (EName n) sig spread args)) with (ZCall (ZField (ZField (ZVar n) FItype) (FName m)) (Zcons ZGoto (Zcons (ZField (ZVar n) FValue) (z_args sig 0 (elen args) args)))).
    rewrite ze_call. cbn [z_eval z_field]. rewrite zl_cons. cbn [z_eval]. rewrite zl_cons. cbn [z_eval z_field]. rewrite Z. cbn [z_call]. rewrite values_map. rewrite E. reflexivity.
  - intros t x _ F. contradiction.
  - intros _ h vs h' E. cbn in E. inversion E; subst. split; [reflexivity|]. split; [reflexivity|]. intros fixed t i A B. cbn [elen] in B. lia.
  - intros e IE l IL F h vs h' E. cbn [fine_all] in F. destruct F as [F1 F2]. pose proof (ga_length (Econs e l) h vs h' E) as LV. cbn [g_args] in E.
    destruct (ge e h) as [[v h1]|] eqn:GE; [|discriminate]. destruct (ga l h1) as [[ws h2]|] eqn:GA; [|discriminate]. inversion E; subst.
    specialize (IE F1 _ _ _ GE). specialize (IL F2 _ _ _ GA). destruct IL as (I1 & I2 & I3).
    assert (A1 : zl (z_all (Econs e l)) h = Some (map ZV (v :: ws), h')) by (cbn [z_all]; rewrite zl_cons, IE, I1; reflexivity).
    split; [exact A1|]. split.
    + intros i total. cbn [z_args]. rewrite zl_cons, IE, I2. reflexivity.
    + intros fixed t i A B T. cbn [z_args]. destruct (Nat.leb_spec fixed i) as [L|L].
      * assert (fixed = i) by lia. subst i. rewrite Nat.sub_diag in *. cbn [skipn firstn app] in *. rewrite zl_cons, ze_call. cbn [z_eval]. rewrite zl_cons. cbn [z_eval]. rewrite zl_cons. cbn [z_eval].
        rewrite zl_cons, ze_tuple, A1. cbn [z_list z_call]. rewrite values_map, T, LV. replace (fixed + elen (Econs e l) - fixed) with (elen (Econs e l)) by lia. rewrite Nat.eqb_refl. cbn [andb map]. reflexivity.
      * replace (fixed - i) with (S (fixed - S i)) in * by lia. cbn [skipn firstn app map] in *. rewrite zl_cons, IE. cbn [elen] in *.
        replace (i + S (elen l)) with (S i + elen l) by lia. rewrite I3; [reflexivity|lia|lia|exact T].
Qed.
End Run.

(** ** C143 *)
(** The printed text is Zig, and the calls it makes, with their arguments and in their order,
    and the result, are those of Go. *)
Theorem C143_calls_partial byptr e : fine byptr e ->
  exists x, reads (print e) x /\
    forall env ret h v h', g_eval env ret e h = Some (v, h') -> z_eval env ret byptr x h = Some (ZV v, h').
Proof.
  intros F. exists (z_of e). split; [apply (reads_print byptr); exact F|]. intros env ret h v h' E. apply (proj1 (run_all byptr env ret) e F). exact E.
Qed.
(** A function value is started as a goroutine with its arguments. *)
Theorem C143_go_partial byptr v sig spread args : sig_ok sig spread args -> fine_all byptr args ->
  exists x, reads (print_go (ECall (CLocal v) sig spread args)) x /\
    forall env ret h h', g_go env ret (ECall (CLocal v) sig spread args) h = Some h' -> z_eval env ret byptr x h = Some (ZVVoid, h').
Proof.
  intros S F. exists (ZCall (ZField (ZVar v) FGo) (Zcons (ZTuple (Zcons ZNull (z_args sig 0 (elen args) args))) Znil)). split.
  - pose proof (proj2 (proj2 (read_all byptr) args F) sig 0 (elen args) CRc [TRc; TRp]) as T. destruct S as [_ S].
    specialize (T (match sig return match sig with None => True | Some (fixed, _) => fixed < elen args end -> match sig with None => True | Some (fixed, _) => fixed < 0 + elen args \/ fixed < 0 end with Some (f, t) => fun H => or_introl H | None => fun H => H end S)).
    assert (Z0 : match sig with Some (fixed, _) => 0 <= fixed | None => True end) by (destruct sig as [[f t]|]; [lia|exact I]). specialize (T Z0 [TRp] (Rtail_close_c _)).
    unfold reads, print_go. change (exists f, r_expr f ?t = Some ?r) with (Rexpr t r). cbn [app].
    apply (Rexpr_op _ (ZVar v)); [reflexivity|]. apply (Rsuf_field _ _ FGo); [reflexivity|]. eapply Rsuf_call; [|apply Rsuf_stop; exact I].
    eapply (Rlist_cons _ _ _ [TRp]); [|apply Rtail_close_p]. eapply Rexpr_tuple; [|apply Rsuf_stop; reflexivity].
    eapply Rlist_cons; [|exact T]. apply (Rexpr_op _ ZNull); [reflexivity|]. apply Rsuf_stop. eapply Rtail_stop. exact T.
  - intros env ret h h' E. unfold g_go in E. rewrite ge_call in E.
    destruct (g_args env ret args h) as [[vs h1]|] eqn:G; [|discriminate]. destruct (g_pack sig spread vs) as [ws|] eqn:K; [|discriminate].
    unfold made, runs in E. rewrite rev_unit in E. inversion E; subst. rewrite rev_involutive.
    rewrite ze_call. cbn [z_eval z_field]. rewrite zl_cons, ze_tuple, zl_cons. cbn [z_eval].
    destruct (proj2 (run_all byptr env ret) args F h vs h1 G) as (_ & N & O). destruct S as [-> S].
    assert (Z : z_list env ret byptr (z_args sig 0 (elen args) args) h = Some (map ZV ws, h1)).
    { destruct sig as [[fixed t]|]; cbn [g_pack] in K.
      - destruct (length vs <? fixed); [discriminate|]. destruct (forallb (type_is t) (skipn fixed vs)) eqn:T; [|discriminate]. inversion K; subst.
        pose proof (O fixed t 0 (Nat.le_0_l _) S) as Q. rewrite Nat.sub_0_r in Q. cbn [plus] in Q. apply Q. exact T.
      - inversion K; subst. apply N. }
    rewrite Z. cbn [z_list z_call]. rewrite values_map. reflexivity.
Qed.
(** f(a, g(b), h(c, a, b)) where h is variadic after its first parameter, then v.m(x) and a
    function value. *)
Definition sample : expr :=
  ECall (CFun 1) None false (Econs (EName 10) (Econs (ECall (CLocal 2) None false (Econs (EName 11) Enil))
    (Econs (ECall (CFun 3) (Some (1, 0)) false (Econs (EName 12) (Econs (EName 10) (Econs (EName 11) Enil))))
    (Econs (EMethod 4 5 true true (EName 20) None false (Econs (EIface 6 (EName 11) None false Enil) Enil)) Enil)))).
Theorem C143_example :
  let env := fun n => if n =? 20 then VRef (VBase 20 0) else VBase n 0 in
  fine (fun _ _ => true) sample /\
  g_eval env (fun h => VBase (length h) 7) sample [] = Some (VBase 5 7,
    [Waits (OfValue (VBase 2 0)) [VBase 11 0];
     Waits (OfName 3) [VBase 12 0; VSlice 0 [VBase 10 0; VBase 11 0]];
     Waits (OfIface (VBase 11 0) 6) [VBase 11 0];
     Waits (OfMethod 4 5) [VRef (VBase 20 0); VBase 3 7];
     Waits (OfName 1) [VBase 10 0; VBase 1 7; VBase 2 7; VBase 4 7]]).
Proof. cbv zeta. split; [cbn; unfold sig_ok; cbn; repeat split; lia|reflexivity]. Qed.

(** ** Refuted *)
(** The receiver of a method of an interface is evaluated twice: f().m() calls f twice. *)
Theorem C143_interface_refuted byptr f m env ret :
  exists x, reads (print (EIface m (ECall (CFun f) None false Enil) None false Enil)) x /\
  exists v h, g_eval env ret (EIface m (ECall (CFun f) None false Enil) None false Enil) [] = Some (v, h) /\ length h = 2 /\
  exists v' h', z_eval env ret byptr x [] = Some (v', h') /\ length h' = 3 /\ firstn 2 h' = [Waits (OfName f) []; Waits (OfName f) []].
Proof.
  eexists. split; [exists 20; reflexivity|]. eexists. eexists. split; [reflexivity|]. split; [reflexivity|]. eexists. eexists. split; [reflexivity|]. split; reflexivity.
Qed.
(** go f(x) of a function of a package waits for it, whatever the arguments. *)
Theorem C143_go_refuted byptr f sig args : sig_ok sig false args -> fine_all byptr args ->
  exists x, reads (print_go (ECall (CFun f) sig false args)) x /\
  forall env ret h h', g_go env ret (ECall (CFun f) sig false args) h = Some h' ->
    exists a vs v, h' = a ++ [Runs (OfName f) vs] /\ z_eval env ret byptr x h = Some (ZV v, a ++ [Waits (OfName f) vs]).
Proof.
  intros S F. assert (FI : fine byptr (ECall (CFun f) sig false args)) by (split; [exact I|split; assumption]).
  destruct (C143_calls_partial byptr _ FI) as (x & R & Z). exists x. split; [exact R|]. intros env ret h h' E. unfold g_go in E.
  destruct (g_eval env ret (ECall (CFun f) sig false args) h) as [[v h1]|] eqn:G; [|discriminate]. apply Z in G as G'.
  rewrite ge_call in G. destruct (g_args env ret args h) as [[vs h2]|]; [|discriminate]. destruct (g_pack sig false vs) as [ws|]; [|discriminate].
  unfold made in G. inversion G; subst. unfold runs in E. rewrite rev_unit, rev_involutive in E. inversion E; subst. exists h2, ws. eexists. split; [reflexivity|exact G'].
Qed.
(** A variadic function called without an argument for it is not Zig; nor is a slice spread over
    it accepted, a function value of the package called, or a receiver addressed or followed. *)
Theorem C143_none_refuted f t x : ~ reads (print (ECall (CFun f) (Some (0, t)) false Enil)) x.
Proof. intros [n H]. do 6 (destruct n as [|n]; [discriminate|]). discriminate. Qed.
Theorem C143_spread_refuted byptr f t l s env ret : env s = VSlice t l ->
  let e := ECall (CFun f) (Some (0, t)) true (Econs (EName s) Enil) in
  g_eval env ret e [] = Some (ret [Waits (OfName f) [VSlice t l]], [Waits (OfName f) [VSlice t l]]) /\
  forall x, reads (print e) x -> z_eval env ret byptr x [] = None.
Proof.
  intros E e. split; [cbn; rewrite E; cbn; rewrite Nat.eqb_refl; reflexivity|]. intros x R.
  assert (R0 : reads (print e) (ZCall (ZFun f) (Zcons ZGoto (Zcons (ZCall ZVariadic (Zcons (ZNum 1) (Zcons (ZType t) (Zcons (ZTuple (Zcons (ZVar s) Znil)) Znil)))) Znil)))) by (exists 20; reflexivity).
  rewrite (reads_one _ _ _ R R0). cbn. rewrite E. reflexivity.
Qed.
Theorem C143_global_refuted byptr v env ret x : reads (print (ECall (CGlobal v) None false Enil)) x ->
  g_eval env ret (ECall (CGlobal v) None false Enil) [] <> None /\ z_eval env ret byptr x [] = None.
Proof.
  intros R. split; [discriminate|]. assert (R0 : reads (print (ECall (CGlobal v) None false Enil)) (ZCall (ZGlobal v) (Zcons ZGoto Znil))) by (exists 20; reflexivity).
  rewrite (reads_one _ _ _ R R0). reflexivity.
Qed.
Theorem C143_receiver_refuted byptr t m n env ret x : reads (print (EMethod t m (byptr t m) (negb (byptr t m)) (EName n) None false Enil)) x -> is_ref (env n) = negb (byptr t m) ->
  g_eval env ret (EMethod t m (byptr t m) (negb (byptr t m)) (EName n) None false Enil) [] <> None /\ z_eval env ret byptr x [] = None.
Proof.
  intros R I. assert (R0 : reads (print (EMethod t m (byptr t m) (negb (byptr t m)) (EName n) None false Enil)) (ZCall (ZMethod t m) (Zcons ZGoto (Zcons (ZVar n) Znil)))) by (exists 20; reflexivity).
  rewrite (reads_one _ _ _ R R0). split.
  - rewrite ge_method. cbn [g_eval]. unfold g_receiver. rewrite I, eqb_reflx. cbn [negb]. destruct (byptr t m), (env n); discriminate.
  - rewrite ze_call. cbn [z_eval]. rewrite zl_cons. cbn [z_eval]. rewrite zl_cons. cbn [z_eval z_list z_call]. rewrite I. destruct (byptr t m); reflexivity.
Qed.
(** A conversion loses its operand, so Zig refuses it. *)
Theorem C143_conversion_refuted byptr t x env ret y : reads (print (EConv t x)) y -> z_eval env ret byptr y [] = None.
Proof.
  intros R. assert (R0 : reads (print (EConv t x)) (ZCall ZAs (Zcons (ZType t) Znil))) by (exists 20; reflexivity).
  rewrite (reads_one _ _ _ R R0). reflexivity.
Qed.
