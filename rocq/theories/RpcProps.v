(** Properties C60 and C89 of package rpc. *)
From Verif Require Import GoBase BaseLemmas RpcModel RpcSpec.

Section GInd.
Variable P : gty -> Prop.
Hypotheses (H1 : forall i, P (GStr i)) (H2 : P GAny) (H3 : forall i, P (GOther i)) (H4 : forall i o, Forall P i -> Forall P o -> P (GFunc i o)).
Fixpoint gty_rect' (t : gty) : P t :=
  let all := fix all (l : list gty) : Forall P l := match l with [] => Forall_nil _ | x :: r => Forall_cons x (gty_rect' x) (all r) end in
  match t with GStr i => H1 i | GAny => H2 | GOther i => H3 i | GFunc i o => H4 i o (all i) (all o) end.
End GInd.
Lemma gty_eqb_iff a b : gty_eqb a b = true <-> a = b.
Proof.
  revert b. induction a as [i| |i|is os IHi IHo] using gty_rect'; intros b; destruct b as [j| |j|is' os']; cbn [gty_eqb]; try (split; [discriminate|congruence]).
  - rewrite Z.eqb_eq. split; congruence.
  - split; reflexivity.
  - rewrite Z.eqb_eq. split; congruence.
  - set (all := fix all (l m : list gty) : bool := match l, m with [], [] => true | x :: l, y :: m => gty_eqb x y && all l m | _, _ => false end).
    assert (A : forall l, Forall (fun a => forall b, gty_eqb a b = true <-> a = b) l -> forall m, all l m = true <-> l = m).
    { induction 1 as [|x l X F IH]; intros m; destruct m as [|y m]; cbn [all]; try (split; [discriminate|congruence]); [split; reflexivity|].
      rewrite andb_true_iff, X, IH. split; [intros [-> ->]; reflexivity|intros E; injection E as -> ->; auto]. }
    rewrite andb_true_iff, (A is IHi), (A os IHo). split; [intros [-> ->]; reflexivity|intros E; injection E as -> ->; auto].
Qed.
Lemma gty_eqb_refl a : gty_eqb a a = true.
Proof. apply gty_eqb_iff. reflexivity. Qed.
Lemma gty_eqb_neq a b : a <> b -> gty_eqb a b = false.
Proof. intros N. destruct (gty_eqb a b) eqn:E; [apply gty_eqb_iff in E; congruence|reflexivity]. Qed.

Section Facts.
Variable fname : Z -> outcome str.
Notation register := (register fname).
Notation registers := (registers fname).
Lemma registers_snoc w l v : registers w (l ++ [v]) = fst (register (registers w l) v).
Proof. unfold RpcModel.registers. rewrite fold_left_app. reflexivity. Qed.
(** what one registration does to the two maps of the transport *)
Lemma register_byname w v n : byname (fst (fst (register w v))) n =
  match v with
  | Some x => match vty x with
              | GFunc [_; _] (GStr _ :: _) => match fname (vid x) with Ok m => if str_dec m n then Some (vty x) else byname (fst w) n | Panic => byname (fst w) n end
              | _ => byname (fst w) n
              end
  | None => byname (fst w) n
  end.
Proof.
  destruct v as [x|]; [|reflexivity]. cbn [RpcModel.register]. destruct (vty x) as [i| |i|is os] eqn:T; try reflexivity.
  destruct is as [|i0 [|i1 [|i2 is]]]; try reflexivity. destruct os as [|o0 os]; [reflexivity|]. destruct o0 as [s| |s|a b]; cbn [is_string]; try reflexivity.
  destruct (fname (vid x)) as [m|]; [|reflexivity]. destruct os as [|o1 os]; cbn [fst snd byname set_value set_name]; rewrite ?T; destruct (str_dec m n); reflexivity.
Qed.
Lemma register_values w v ty : values (fst (fst (register w v))) ty =
  match v with
  | Some x => match snd (register w v) with Ok _ => if gty_eqb (vty x) ty then Some x else values (fst w) ty | Panic => values (fst w) ty end
  | None => values (fst w) ty
  end.
Proof.
  destruct v as [x|]; [|reflexivity]. cbn [RpcModel.register]. destruct (vty x) as [i| |i|is os] eqn:T; try (cbn [fst snd values set_value]; rewrite T; reflexivity).
  destruct is as [|i0 [|i1 [|i2 is]]]; try (cbn [fst snd values set_value]; rewrite T; reflexivity).
  destruct os as [|o0 os]; [cbn [fst snd values set_value]; rewrite T; reflexivity|].
  destruct o0 as [s| |s|a b]; cbn [is_string]; try (cbn [fst snd values set_value]; rewrite T; reflexivity).
  destruct (fname (vid x)) as [m|]; [|reflexivity]. destruct os as [|o1 os]; cbn [fst snd values set_value set_name]; rewrite ?T; reflexivity.
Qed.
(** what the maps hold was registered *)
Lemma registered_name l n ty : byname (fst (registers (transport0, registry0) l)) n = Some ty ->
  exists v, In (Some v) l /\ vty v = ty /\ named fname n v.
Proof.
  induction l as [|v l IH] using rev_ind; [discriminate|]. rewrite registers_snoc, register_byname.
  assert (K : byname (fst (registers (transport0, registry0) l)) n = Some ty -> exists v0, In (Some v0) (l ++ [v]) /\ vty v0 = ty /\ named fname n v0).
  { intros E. destruct (IH E) as (v0 & I & Q). exists v0. split; [apply in_or_app; auto|exact Q]. }
  destruct v as [x|]; [|exact K]. destruct (vty x) as [i| |i|is os] eqn:T; try exact K.
  destruct is as [|i0 [|i1 [|i2 is]]]; try exact K. destruct os as [|o0 os]; [exact K|]. destruct o0 as [s| |s|a b]; try exact K.
  destruct (fname (vid x)) as [m|] eqn:F; [|exact K]. destruct (str_dec m n) as [->|]; [|exact K].
  intros E. injection E as <-. exists x. split; [apply in_or_app; right; left; reflexivity|]. split; [exact T|].
  exists i0, i1, s, os. split; assumption.
Qed.
Lemma registered_value l ty v : values (fst (registers (transport0, registry0) l)) ty = Some v -> In (Some v) l /\ vty v = ty.
Proof.
  induction l as [|x l IH] using rev_ind; [discriminate|]. rewrite registers_snoc, register_values.
  assert (K : values (fst (registers (transport0, registry0) l)) ty = Some v -> In (Some v) (l ++ [x]) /\ vty v = ty).
  { intros E. destruct (IH E) as (I & Q). split; [apply in_or_app; auto|exact Q]. }
  destruct x as [x|]; [|exact K]. destruct (snd _); [|exact K]. destruct (gty_eqb (vty x) ty) eqn:G; [|exact K].
  apply gty_eqb_iff in G. intros E. injection E as <-. split; [apply in_or_app; right; left; reflexivity|exact G].
Qed.
(** a callable function whose name is known is found *)
Lemma callable_found w v recv run T n : callable v = Some (recv, run, T) -> fname (vid v) = Ok n ->
  byname (fst (fst (register w (Some v)))) n = Some (vty v) /\ values (fst (fst (register w (Some v)))) (vty v) = Some v.
Proof.
  unfold callable. intros C F. rewrite register_byname, register_values. cbn [RpcModel.register].
  destruct (vty v) as [i| |i|is os] eqn:TY; try discriminate C. destruct is as [|i0 [|i1 [|i2 is]]]; try discriminate C.
  destruct os as [|o0 [|o1 [|o2 os]]]; try discriminate C; destruct o0; try discriminate C.
  rewrite F. cbn [is_string snd]. destruct (str_dec n n); [|congruence]. rewrite gty_eqb_refl. split; reflexivity.
Qed.
End Facts.

(** ** C60 *)
(** JSON keeps the name and the arguments; arguments that could not be encoded become null. *)
Theorem C60_json_partial coerce fold_eqb fn old : coerce (call fn) = call fn ->
  (forall k, fold_eqb k k = true) -> fold_eqb [97; 114; 103; 115] [99; 97; 108; 108] = false ->
  exists fn', unmarshal fold_eqb old (marshal coerce fn) = Some fn' /\ call fn' = call fn /\
    args fn' = Some (match args fn with Some j => j | None => JNull end).
Proof.
  intros C R N. unfold unmarshal, marshal. cbn [members]. rewrite R. unfold k_args, k_call in *. rewrite N, R, C.
  eexists. split; [reflexivity|]. split; reflexivity.
Qed.
(** The two members may come in any order, among members with other names. *)
Theorem C60_order_partial fold_eqb fn old l1 l2 l3 : (forall k k', fold_eqb k k' = true <-> k = k') -> args fn <> None ->
  Forall (fun m => fst m <> k_call /\ fst m <> k_args) (l1 ++ l2 ++ l3) ->
  unmarshal fold_eqb old (JObj (l1 ++ [(k_args, match args fn with Some j => j | None => JNull end)] ++ l2 ++ [(k_call, JStr (call fn))] ++ l3)) = Some fn.
Proof.
  intros FE A F. apply Forall_app in F. destruct F as [F1 F]. apply Forall_app in F. destruct F as [F2 F3].
  assert (SK : forall l r acc, Forall (fun m : str * json => fst m <> k_call /\ fst m <> k_args) l -> members fold_eqb (l ++ r) acc = members fold_eqb r acc).
  { intros l r acc H. induction H as [|[k j] l (N1 & N2) H IH]; [reflexivity|]. cbn [app members fst] in *.
    destruct (fold_eqb k k_call) eqn:E1; [apply FE in E1; contradiction|]. destruct (fold_eqb k k_args) eqn:E2; [apply FE in E2; contradiction|]. exact IH. }
  cbn [unmarshal]. rewrite SK by exact F1. cbn [app members].
  destruct (fold_eqb k_args k_call) eqn:E1; [apply FE in E1; discriminate|]. replace (fold_eqb k_args k_args) with true by (symmetry; apply FE; reflexivity).
  rewrite SK by exact F2. cbn [app members]. replace (fold_eqb k_call k_call) with true by (symmetry; apply FE; reflexivity). cbn [call args].
  rewrite <- (app_nil_r l3), SK by exact F3. cbn [members]. destruct fn as [c [j|]]; cbn [args call] in *; [reflexivity|congruence].
Qed.
(** A function that was never registered under the name, or whose runtime was not, gives nil. *)
Theorem C60_unregistered_partial fname l T fn : let t := fst (registers fname (transport0, registry0) l) in
  (call fn = [] \/ (forall v, In (Some v) l -> ~ named fname (call fn) v) \/
   (forall v recv run U, In (Some v) l -> named fname (call fn) v -> callable v = Some (recv, run, U) ->
      U <> T \/ forall r, In (Some r) l -> vty r <> run)) ->
  call_fn t T fn = Ok None.
Proof.
  cbv zeta. intros H. unfold call_fn. destruct (call fn) as [|c n] eqn:E; [reflexivity|]. set (name := c :: n) in *.
  set (t := fst _) in *. destruct (byname t name) as [ty|] eqn:B; [|reflexivity].
  destruct (registered_name fname l name ty B) as (v & I & TV & NM).
  destruct H as [H|[H|H]]; [discriminate H|exfalso; exact (H v I NM)|].
  destruct ty as [i| |i|is os]; try reflexivity. destruct is as [|i0 [|i1 [|i2 is]]]; try reflexivity.
  destruct os as [|o0 [|o1 [|o2 os]]]; try reflexivity. destruct o0 as [s| |s|a b]; try reflexivity. cbn [is_string negb orb].
  destruct (gty_eqb o1 T) eqn:G; [|reflexivity]. cbn [negb]. apply gty_eqb_iff in G. subst o1.
  destruct (values t _) as [f|]; [|reflexivity]. destruct (values t i1) as [r|] eqn:VR; [|reflexivity]. exfalso.
  destruct (H v i0 i1 T I NM) as [X|X]; [unfold callable; rewrite TV; reflexivity|congruence|].
  destruct (registered_value fname l i1 r VR) as (IR & TR). exact (X r IR TR).
Qed.
(** The call: with a receiver that is not of type any, a registered function whose runtime is
    registered panics when it is called, whatever the arguments. *)
Theorem C60_call_refuted fname l v recv run T n r a : callable v = Some (recv, run, T) -> fname (vid v) = Ok n -> n <> [] -> recv <> GAny ->
  In (Some r) l -> vty r = run -> match run with GFunc _ _ => False | _ => True end ->
  call_fn (fst (registers fname (transport0, registry0) (l ++ [Some v]))) T {| call := n; args := a |} = Panic.
Proof.
  intros C F NE NA IR TR NF. rewrite registers_snoc. set (w := registers fname _ l). destruct (callable_found fname w v recv run T n C F) as (B & V).
  assert (VR : exists r', values (fst w) run = Some r').
  { unfold w. clear - IR TR NF. induction l as [|x l IH] using rev_ind; [destruct IR|]. rewrite registers_snoc, register_values.
    apply in_app_or in IR. destruct IR as [IR|[->|[]]].
    - destruct (IH IR) as (r' & E). destruct x as [x|]; [|eauto]. destruct (snd _); [|eauto]. destruct (gty_eqb (vty x) run); eauto.
    - assert (O : snd (register fname (registers fname (transport0, registry0) l) (Some r)) = Ok tt).
      { cbn [register]. rewrite TR. destruct run; try reflexivity. destruct NF. }
      rewrite O. rewrite TR, gty_eqb_refl. eauto. }
  destruct VR as (r' & VR).
  assert (VR2 : exists r2, values (fst (fst (register fname w (Some v)))) run = Some r2).
  { rewrite register_values. destruct (snd _); [|eauto]. destruct (gty_eqb (vty v) run); eauto. }
  destruct VR2 as (r2 & VR2). unfold call_fn. cbn [call args]. destruct n as [|c n]; [congruence|]. rewrite B.
  unfold callable in C. destruct (vty v) as [i| |i|is os] eqn:TY; try discriminate C. destruct is as [|i0 [|i1 [|i2 is]]]; try discriminate C.
  destruct os as [|o0 [|o1 [|o2 os]]]; try discriminate C; destruct o0 as [s| |s|x y]; try discriminate C. injection C as -> -> ->.
  cbn [is_string negb orb]. rewrite gty_eqb_refl. cbn [negb]. rewrite V, VR2. destruct recv; try reflexivity. congruence.
Qed.
(** Nothing but functions on a receiver of type any can ever be called through a transport. *)
Theorem C60_only_any fname l T fn c : call_fn (fst (registers fname (transport0, registry0) l)) T fn = Ok (Some c) ->
  exists run, callable (cfun c) = Some (GAny, run, T) /\ vty (crun c) = run /\ In (Some (cfun c)) l /\ In (Some (crun c)) l /\ crecv c = PointerTo GAny (args fn).
Proof.
  unfold call_fn. destruct (call fn) as [|x n] eqn:E; [discriminate|]. set (t := fst _). destruct (byname t (x :: n)) as [ty|]; [|discriminate].
  destruct ty as [i| |i|is os]; try discriminate. destruct is as [|i0 [|i1 [|i2 is]]]; try discriminate.
  destruct os as [|o0 [|o1 [|o2 os]]]; try discriminate. destruct o0 as [s| |s|a b]; try discriminate. cbn [is_string negb orb].
  destruct (gty_eqb o1 T) eqn:G; [|discriminate]. cbn [negb]. apply gty_eqb_iff in G. subst o1.
  destruct (values t _) as [f|] eqn:VF; [|discriminate]. destruct (values t i1) as [r|] eqn:VR; [|discriminate]. destruct i0; try discriminate.
  intros Q. injection Q as <-. cbn [cfun crun crecv]. destruct (registered_value fname l _ _ VF) as (I1 & T1). destruct (registered_value fname l _ _ VR) as (I2 & T2).
  exists i1. unfold callable. rewrite T1. repeat match goal with |- _ /\ _ => split end; auto.
Qed.
(** ... and they are given the arguments, through a pointer, and the runtime. *)
Theorem C60_any_partial fname l v run T n r a : callable v = Some (GAny, run, T) -> fname (vid v) = Ok n -> n <> [] -> vty r = run ->
  match run with GFunc _ _ => False | _ => True end ->
  call_fn (fst (registers fname (transport0, registry0) (l ++ [Some r; Some v]))) T {| call := n; args := a |} =
    Ok (Some {| cfun := v; crecv := PointerTo GAny a; crun := r |}).
Proof.
  intros C F NE TR NF. change [Some r; Some v] with ([Some r] ++ [Some v]). rewrite app_assoc, registers_snoc. set (w := registers fname _ (l ++ [Some r])).
  destruct (callable_found fname w v GAny run T n C F) as (B & V).
  assert (VR : values (fst (fst (register fname w (Some v)))) run = Some r).
  { assert (W : values (fst w) run = Some r).
    { unfold w. rewrite registers_snoc, register_values.
      assert (O : snd (register fname (registers fname (transport0, registry0) l) (Some r)) = Ok tt).
      { cbn [register]. rewrite TR. destruct run; try reflexivity. destruct NF. }
      rewrite O, TR, gty_eqb_refl. reflexivity. }
    rewrite register_values. destruct (snd _); [|exact W]. rewrite gty_eqb_neq; [exact W|].
    unfold callable in C. destruct (vty v); try discriminate C. destruct run; try discriminate. destruct NF. }
  unfold call_fn. cbn [call args]. destruct n as [|c n]; [congruence|]. rewrite B.
  unfold callable in C. destruct (vty v) as [i| |i|is os] eqn:TY; try discriminate C. destruct is as [|i0 [|i1 [|i2 is]]]; try discriminate C.
  destruct os as [|o0 [|o1 [|o2 os]]]; try discriminate C; destruct o0 as [s| |s|x y]; try discriminate C. injection C as -> -> ->.
  cbn [is_string negb orb]. rewrite gty_eqb_refl. cbn [negb]. rewrite V, VR. reflexivity.
Qed.
(** Of two functions of the same type the last registered is called under both names. *)
Theorem C60_same_type_refuted fname l f g run T n m r a : callable f = Some (GAny, run, T) -> vty g = vty f -> fname (vid f) = Ok n -> fname (vid g) = Ok m ->
  n <> [] -> n <> m -> vty r = run -> match run with GFunc _ _ => False | _ => True end ->
  call_fn (fst (registers fname (transport0, registry0) (l ++ [Some r; Some f; Some g]))) T {| call := n; args := a |} =
    Ok (Some {| cfun := g; crecv := PointerTo GAny a; crun := r |}).
Proof.
  intros C TG F G NE NM TR NF. change [Some r; Some f; Some g] with ([Some r; Some f] ++ [Some g]). rewrite app_assoc, registers_snoc.
  set (w := registers fname _ (l ++ [Some r; Some f])).
  pose proof (C60_any_partial fname l f run T n r a C F NE TR NF) as P. fold w in P.
  assert (CG : callable g = Some (GAny, run, T)) by (unfold callable in *; rewrite TG; exact C).
  destruct (callable_found fname w g GAny run T m CG G) as (_ & VG).
  unfold call_fn in *. cbn [call args] in *. destruct n as [|c n]; [congruence|].
  assert (B : byname (fst (fst (register fname w (Some g)))) (c :: n) = byname (fst w) (c :: n)).
  { rewrite register_byname. unfold callable in CG. destruct (vty g) as [i| |i|is os]; try reflexivity. destruct is as [|i0 [|i1 [|i2 is]]]; try reflexivity.
    destruct os as [|o0 os]; try reflexivity. destruct o0; try reflexivity. rewrite G. destruct (str_dec m (c :: n)); congruence. }
  rewrite B. destruct (byname (fst w) (c :: n)) as [ty|] eqn:BW; [|discriminate P].
  assert (TY : ty = vty g).
  { unfold w in BW. change [Some r; Some f] with ([Some r] ++ [Some f]) in BW. rewrite app_assoc, registers_snoc in BW.
    destruct (callable_found fname (registers fname (transport0, registry0) (l ++ [Some r])) f GAny run T (c :: n) C F) as (BF & _). congruence. }
  subst ty. destruct (vty g) as [i| |i|is os] eqn:TYG; try discriminate P. destruct is as [|i0 [|i1 [|i2 is]]]; try discriminate P.
  destruct os as [|o0 [|o1 [|o2 os]]]; try discriminate P. destruct (negb (is_string o0) || negb (gty_eqb o1 T)); [discriminate P|].
  rewrite VG. destruct (values (fst w) (GFunc _ _)) as [f'|]; [|discriminate P]. destruct (values (fst w) i1) as [r'|] eqn:VR; [|discriminate P].
  assert (VR2 : values (fst (fst (register fname w (Some g)))) i1 = Some r').
  { rewrite register_values. destruct (snd _); [|exact VR]. rewrite gty_eqb_neq; [exact VR|].
    unfold callable in CG. rewrite TYG in CG |- *. destruct o0; try discriminate CG. injection CG as _ -> _. intros E. rewrite <- E in NF. exact NF. }
  rewrite VR2. destruct (assignable_pointer i0); [|discriminate P]. injection P as _ Q1 Q2. rewrite Q1, Q2. reflexivity.
Qed.
(** A registered type, its names *)
Definition names (i : Z) : outcome str := Ok [i].
Definition hello : rval := {| vty := GFunc [GOther 1; GOther 2] [GStr 0; GFunc [] []]; vid := 104 |}.
Definition hello_any : rval := {| vty := GFunc [GAny; GOther 2] [GStr 0; GFunc [] []]; vid := 105 |}.
Definition runtime : rval := {| vty := GOther 2; vid := 7 |}.
Example C60_case : callable hello = Some (GOther 1, GOther 2, GFunc [] []) /\ callable hello_any = Some (GAny, GOther 2, GFunc [] []) /\
  call_fn (fst (registers names (transport0, registry0) [Some runtime; Some hello])) (GFunc [] []) {| call := [104]; args := Some (JObj []) |} = Panic /\
  call_fn (fst (registers names (transport0, registry0) [Some hello])) (GFunc [] []) {| call := [104]; args := Some (JObj []) |} = Ok None /\
  exists c, call_fn (fst (registers names (transport0, registry0) [Some runtime; Some hello_any])) (GFunc [] []) {| call := [105]; args := Some (JObj []) |} = Ok (Some c).
Proof. repeat match goal with |- _ /\ _ => split end; try reflexivity. eexists. reflexivity. Qed.

(** ** C89: the listing of the functions of a type *)
Theorem C89_types_json fname T l : listing fname T l (types_json (snd (registers fname (transport0, registry0) l)) T).
Proof.
  assert (S0 : forall l r v, listing fname T l r ->
     (forall e, listed fname T v e -> listing fname T (l ++ [Some v]) (r ++ [e])) /\ ((forall e, ~ listed fname T v e) -> listing fname T (l ++ [Some v]) r)).
  { clear l. intros l r v L. induction L as [|v0 e0 l r E0 L IH|v0 l r E0 L IH].
    - split; [intros e E; apply listing_yes; [exact E|constructor]|]. intros N. apply listing_no; [|constructor]. intros v' e Q. injection Q as <-. apply N.
    - destruct IH as (A & B). split; [intros e E; apply listing_yes; [exact E0|apply A; exact E]|]. intros N. apply listing_yes; [exact E0|apply B; exact N].
    - destruct IH as (A & B). split; [intros e E; apply listing_no; [exact E0|apply A; exact E]|]. intros N. apply listing_no; [exact E0|apply B; exact N]. }
  assert (S1 : forall l r, listing fname T l r -> listing fname T (l ++ [None]) r).
  { intros l' r L. induction L; cbn [app]; [apply listing_no; [discriminate|constructor]|apply listing_yes; assumption|apply listing_no; assumption]. }
  unfold types_json. induction l as [|v l IH] using rev_ind; [constructor|]. rewrite registers_snoc. set (w := registers fname _ l) in *.
  destruct v as [v|]; [|apply S1; exact IH]. destruct (S0 l (snd w T) v IH) as (A & B). cbn [register].
  assert (N : (forall i0 i1 s o1 more, vty v <> GFunc [i0; i1] (GStr s :: o1 :: more)) -> listing fname T (l ++ [Some v]) (snd w T)).
  { intros N. apply B. intros e (recv & run & s & more & E & _). exact (N _ _ _ _ _ E). }
  destruct (vty v) as [i| |i|is os] eqn:TY; try (apply N; intros; discriminate).
  destruct is as [|i0 [|i1 [|i2 is]]]; try (apply N; intros; discriminate). destruct os as [|o0 os]; [apply N; intros; discriminate|].
  destruct o0 as [s| |s|a b]; cbn [is_string]; try (apply N; intros; discriminate).
  destruct (fname (vid v)) as [n|] eqn:F.
  - destruct os as [|o1 os]; [apply N; intros; discriminate|]. cbn [fst snd]. unfold append. destruct (gty_eqb o1 T) eqn:G.
    + apply gty_eqb_iff in G. subst o1. apply A. exists i0, i1, s, os. repeat split; try assumption; reflexivity.
    + apply B. intros e (recv & run & s' & more & E & _). rewrite TY in E. injection E as _ _ _ E _. subst o1. rewrite gty_eqb_refl in G. discriminate.
  - apply B. intros e (recv & run & s' & more & E & F' & _). congruence.
Qed.
Example C89_case : types_json (snd (registers names (transport0, registry0) [Some hello; None; Some runtime; Some hello_any])) (GFunc [] []) = [([104], GOther 1); ([105], GAny)].
Proof. reflexivity. Qed.
Print Assumptions C60_json_partial.
Print Assumptions C60_order_partial.
Print Assumptions C60_unregistered_partial.
Print Assumptions C60_call_refuted.
Print Assumptions C60_only_any.
Print Assumptions C60_any_partial.
Print Assumptions C60_same_type_refuted.
Print Assumptions C89_types_json.
