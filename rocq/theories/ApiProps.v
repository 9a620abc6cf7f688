(** Properties C104 to C107: package api. *)
From Coq Require Import String Permutation Sorting.Sorted.
From Verif Require Import GoBase BaseLemmas GoText ApiModel ApiSpec.
Local Open Scope Z_scope.
Local Open Scope list_scope.

(** ** Types *)
Lemma nats_eqb_true a b : nats_eqb a b = true <-> a = b.
Proof.
  revert b. induction a as [|x a IH]; intros [|y b]; cbn; split; intros H; try reflexivity; try discriminate.
  - apply andb_true_iff in H. destruct H as (A & B). apply Nat.eqb_eq in A. apply IH in B. congruence.
  - injection H as -> ->. rewrite Nat.eqb_refl. apply IH. reflexivity.
Qed.
Lemma gtype_eqb_true a b : gtype_eqb a b = true <-> a = b.
Proof.
  revert b. induction a as [i f m|a IH]; intros [j g n|b]; cbn; split; intros H; try discriminate.
  - apply andb_true_iff in H. destruct H as (H & C). apply andb_true_iff in H. destruct H as (A & B). apply Nat.eqb_eq in A. apply Bool.eqb_prop in B. apply nats_eqb_true in C. congruence.
  - injection H as -> -> ->. rewrite Nat.eqb_refl, Bool.eqb_reflx. apply nats_eqb_true. reflexivity.
  - apply IH in H. congruence.
  - injection H as ->. apply IH. reflexivity.
Qed.
Lemma gtype_eqb_refl a : gtype_eqb a a = true.
Proof. apply gtype_eqb_true. reflexivity. Qed.
Lemma gtype_eqb_false a b : a <> b -> gtype_eqb a b = false.
Proof. intros N. apply not_true_iff_false. rewrite gtype_eqb_true. exact N. Qed.
Lemma assign_same v t : has_type v t -> assign (Some v) t = Some v.
Proof. intros (E & _). unfold assign. rewrite E, gtype_eqb_refl. reflexivity. Qed.
Lemma assign_all_same vs ts : Forall2 has_type vs ts -> assign_all (map Some vs) ts = Some vs.
Proof. induction 1 as [|v t vs ts H _ IH]; [reflexivity|]. cbn [map assign_all]. rewrite (assign_same v t H), IH. reflexivity. Qed.
Lemma assign_all_app a b ts us : length a = length ts ->
  assign_all (a ++ b) (ts ++ us) = match assign_all a ts, assign_all b us with Some x, Some y => Some (x ++ y) | _, _ => None end.
Proof.
  revert ts. induction a as [|v a IH]; intros [|t ts] L; try discriminate; cbn [app assign_all].
  - destruct (assign_all b us); reflexivity.
  - injection L as L. rewrite (IH ts L). destruct (assign v t); [|reflexivity]. destruct (assign_all a ts); [|reflexivity]. destruct (assign_all b us); reflexivity.
Qed.
Lemma assign_all_length a ts x : assign_all a ts = Some x -> length a = length ts.
Proof.
  revert ts x. induction a as [|v a IH]; intros [|t ts] x; cbn [assign_all]; try discriminate; intros H; [reflexivity|].
  destruct (assign v t); [|discriminate]. destruct (assign_all a ts) as [y|] eqn:E; [|discriminate]. cbn. f_equal. exact (IH ts y E).
Qed.
Lemma assign_error e : is_error e -> assign (value_of (Some e)) error_type = Some {| vtype := error_type; vdata := Some e |}.
Proof.
  intros (N & I). unfold assign, value_of. cbn [vtype vdata]. rewrite gtype_eqb_false; [|intros Q; rewrite Q in N; discriminate]. rewrite I. reflexivity.
Qed.
Lemma zero_typed t : has_type (zero t) t.
Proof. split; [reflexivity|]. unfold zero. cbn [vdata]. destruct (is_interface t) eqn:I; [reflexivity|]. destruct t as [i f m|e]; cbn in *; [rewrite I|]; split; reflexivity. Qed.
Lemma zeros_typed ts : Forall2 has_type (map zero ts) ts.
Proof. induction ts; constructor; [apply zero_typed|assumption]. Qed.
Lemma has_error_true ft : returns_error ft -> has_error ft = true /\ last_out ft = error_type.
Proof.
  intros (rs & E). unfold has_error, last_out. rewrite E, last_last. destruct (rs ++ [error_type]) eqn:Q; [destruct rs; discriminate|]. split; reflexivity.
Qed.
Lemma has_error_false ft : without_error ft -> has_error ft = false.
Proof.
  unfold has_error, last_out. intros [E|(rs & t & E & I)]; rewrite E; [reflexivity|]. destruct (rs ++ [t]) eqn:Q; [reflexivity|]. rewrite <- Q, last_last. exact I.
Qed.
Lemma results_error ft : returns_error ft -> outs ft = results ft ++ [error_type].
Proof. intros R. destruct (has_error_true ft R) as (H & _). destruct R as (rs & E). unfold results. rewrite H, E, removelast_last. reflexivity. Qed.
Lemma results_plain ft : without_error ft -> outs ft = results ft.
Proof. intros W. unfold results. rewrite (has_error_false ft W). reflexivity. Qed.
Lemma firstn_results ft : returns_error ft \/ without_error ft -> firstn (num_out ft) (outs ft) = results ft.
Proof.
  intros [R|W].
  - destruct (has_error_true ft R) as (H & _). unfold num_out. rewrite H. rewrite (results_error ft R) at 1 2. rewrite app_length. cbn [List.length]. replace (length (results ft) + 1 - 1)%nat with (length (results ft)) by lia.
    rewrite firstn_app, firstn_all, Nat.sub_diag. cbn [firstn]. rewrite app_nil_r. reflexivity.
  - unfold num_out. rewrite (has_error_false ft W). rewrite firstn_all. apply results_plain. exact W.
Qed.
Lemma Forall2_length {A B} {R : A -> B -> Prop} {l m} : Forall2 R l m -> length l = length m.
Proof. intros F. induction F; cbn; congruence. Qed.
Lemma last_data vs v : last (map vdata (vs ++ [v])) None = vdata v.
Proof. rewrite map_app. cbn [map]. apply last_last. Qed.
(** Calling with the right arguments. *)
Definition passed (ft : ftype) (ctx : dyn) (args : list rvalue) : list rvalue :=
  (if has_context ft then [{| vtype := context_type; vdata := Some ctx |}] else []) ++ args.
Lemma call_passes ft g ctx args : variadic ft = false -> is_context ctx -> Forall2 has_type args (params ft) ->
  reflect_call ft g ((if has_context ft then [value_of (Some ctx)] else []) ++ map Some args) = g (passed ft ctx args).
Proof.
  intros V C A. unfold reflect_call, call_args, passed. rewrite V. unfold params in A. change (takes_context ft) with (has_context ft) in A.
  destruct (has_context ft) eqn:H.
  - unfold has_context in H. destruct (ins ft) as [|t ts]; [discriminate|]. apply gtype_eqb_true in H. subst t. cbn [tl] in A. cbn [app assign_all].
    destruct C as (N & I). unfold assign at 1, value_of. cbn [vtype vdata]. rewrite gtype_eqb_false by (intros Q; rewrite Q in N; discriminate). rewrite I. cbn [is_interface context_type andb].
    rewrite (assign_all_same _ _ A). reflexivity.
  - cbn [app]. rewrite (assign_all_same _ _ A). reflexivity.
Qed.
Lemma split_passed ft ctx args : Forall2 has_type args (params ft) -> split_context (passed ft ctx args) = Ret (if has_context ft then ctx else background, args).
Proof.
  intros A. unfold passed. destruct (has_context ft) eqn:H; [reflexivity|]. cbn [app]. unfold params in A. change (takes_context ft) with (has_context ft) in A. rewrite H in A.
  unfold has_context in H. destruct (ins ft) as [|t ts]; inversion A as [|v u vs us HT B E1 E2]; [reflexivity|]. cbn [split_context]. rewrite (proj1 HT). rewrite H. reflexivity.
Qed.
(** ** C104 *)
(** Calling a function made from an implementation is calling the implementation: with the context and
    the arguments, and with its results or its error. *)
Theorem C104_call_made_partial ft f ctx args : variadic ft = false -> returns_error ft \/ without_error ft -> well_typed ft f -> is_context ctx -> Forall2 has_type args (params ft) ->
  call ft (Some (make_values ft f)) (Some ctx) args =
  match f (if takes_context ft then ctx else background) args with
  | Pan p => Pan p
  | Ret (Some rs, None) => Ret (rs, None)
  | Ret (None, None) => Ret (map zero (results ft), None)
  | Ret (_, Some e) => if has_error ft then Ret ([], Some e) else Pan (Some e)
  end.
Proof.
  intros V E W C A. unfold call. rewrite (call_passes ft _ ctx args V C A). unfold make_values, make_func. rewrite (split_passed ft ctx args A). change (takes_context ft) with (has_context ft).
  destruct (f (if has_context ft then ctx else background) args) as [[rs err]|p] eqn:F; [|reflexivity]. destruct (W _ _ _ _ F) as (WR & WE).
  assert (RT : exists l, (match rs with Some r => r | None => zeros ft end) = l /\ Forall2 has_type l (results ft) /\ (match rs with Some rs0 => Ret (rs0, @None dyn) | None => Ret (map zero (results ft), None) end) = Ret (l, None)).
  { destruct rs as [l|]; [exists l|exists (zeros ft)]; (split; [reflexivity|]).
    - split; [apply WR; reflexivity|reflexivity].
    - unfold zeros. rewrite (firstn_results ft E). split; [apply zeros_typed|reflexivity]. }
  destruct RT as (l & EL & TL & RL). rewrite EL. unfold finish. destruct E as [E|E].
  - destruct (has_error_true ft E) as (H & LO). rewrite H, LO. destruct err as [e|].
    + rewrite (results_error ft E). rewrite assign_all_app by (rewrite map_length; exact (Forall2_length TL)). rewrite (assign_all_same l _ TL). cbn [assign_all]. rewrite (assign_error e (WE e eq_refl)).
      rewrite last_data. cbn [vdata]. destruct rs; reflexivity.
    + rewrite (results_error ft E). rewrite assign_all_app by (rewrite map_length; exact (Forall2_length TL)). rewrite (assign_all_same l _ TL). cbn [assign_all]. rewrite (assign_same _ _ (zero_typed error_type)).
      rewrite last_data. cbn [zero vdata]. change (is_interface error_type) with true. cbv iota. rewrite removelast_last. destruct rs; congruence.
  - rewrite (has_error_false ft E). destruct err as [e|]; [destruct rs; reflexivity|]. rewrite (results_plain ft E), (assign_all_same l _ TL). destruct rs; congruence.
Qed.
Definition int_type := T 10 false [].
Definition int_value (z : Z) : rvalue := {| vtype := int_type; vdata := Some (DAtom int_type z) |}.
Definition an_error : dyn := DAtom (T 11 false [0%nat]) 7.
Example C104_call_made_case : call {| ins := [context_type; int_type]; outs := [int_type; error_type]; variadic := false |}
    (Some (make_values {| ins := [context_type; int_type]; outs := [int_type; error_type]; variadic := false |} (fun _ args => Ret (Some args, None)))) (Some background) [int_value 3] = Ret ([int_value 3], None) /\
  returns_error {| ins := [context_type; int_type]; outs := [int_type; error_type]; variadic := false |} /\ is_context background /\ Forall2 has_type [int_value 3] [int_type] /\ is_error an_error.
Proof. split; [reflexivity|]. split; [exists [int_type]; reflexivity|]. split; [split; reflexivity|]. split; [constructor; [split; [reflexivity|split; reflexivity]|constructor]|split; reflexivity]. Qed.
(** The parameters that In and NumIn describe are the ones without the context. *)
Theorem C104_params ft i : (i < num_in ft)%nat -> num_in ft = length (params ft) /\ in_type ft i = nth i (params ft) any_type.
Proof.
  unfold num_in, in_type, params. change (takes_context ft) with (has_context ft). unfold num_in. destruct (has_context ft) eqn:H; intros L.
  - unfold has_context in H. destruct (ins ft) as [|t ts]; [discriminate|]. cbn [tl List.length] in *. split; [lia|]. replace (i + S (length ts) - (S (length ts) - 1))%nat with (S i) by lia. reflexivity.
  - split; [reflexivity|]. f_equal. lia.
Qed.
(** A function that has been made an error returns that error, or panics with it. *)
Theorem C104_made_error_partial ft e ctx args : variadic ft = false -> returns_error ft \/ without_error ft -> is_error e -> is_context ctx -> Forall2 has_type args (params ft) ->
  call ft (Some (make_error ft e)) (Some ctx) args = if has_error ft then Ret ([], Some e) else Pan (Some e).
Proof.
  intros V E ER C A. unfold call. rewrite (call_passes ft _ ctx args V C A). unfold make_error, make_func. destruct E as [E|E].
  - destruct (has_error_true ft E) as (H & LO). rewrite H. rewrite (results_error ft E). rewrite removelast_last. rewrite assign_all_app by (rewrite map_length; reflexivity).
    replace (map (fun t => Some (zero t)) (results ft)) with (map Some (map zero (results ft))) by (rewrite map_map; reflexivity). rewrite (assign_all_same _ _ (zeros_typed (results ft))).
    cbn [assign_all]. rewrite (assign_error e ER). rewrite last_data. reflexivity.
  - rewrite (has_error_false ft E). reflexivity.
Qed.
Theorem C104_not_implemented ft ctx args : call ft None ctx args = Ret ([], Some not_implemented).
Proof. reflexivity. Qed.
Lemma list_eqb_true l m : (fix go (l m : list gtype) := match l, m with [], [] => true | x :: r, y :: s => gtype_eqb x y && go r s | _, _ => false end) l m = true <-> l = m.
Proof.
  revert m. induction l as [|x l IH]; intros [|y m]; split; intros H; try reflexivity; try discriminate.
  - apply andb_true_iff in H. destruct H as (A & B). apply gtype_eqb_true in A. apply IH in B. congruence.
  - injection H as -> ->. rewrite gtype_eqb_refl. apply IH. reflexivity.
Qed.
Lemma ftype_eqb_true a b : ftype_eqb a b = true <-> a = b.
Proof.
  unfold ftype_eqb. rewrite !andb_true_iff, !list_eqb_true. destruct a, b; cbn. split.
  - intros ((-> & ->) & V). apply Bool.eqb_prop in V. congruence.
  - intros Q. injection Q as -> -> ->. rewrite Bool.eqb_reflx. repeat split.
Qed.
(** An implementation of another type is never called. *)
Theorem C104_wrong_type_partial ft it impl ctx args : it <> ft -> variadic ft = false -> returns_error ft \/ without_error ft -> is_context ctx -> Forall2 has_type args (params ft) ->
  call ft (Some (make_impl ft it impl)) (Some ctx) args = if has_error ft then Ret ([], Some wrong_type) else Pan (Some wrong_type).
Proof.
  intros N V E C A. unfold make_impl. replace (ftype_eqb it ft) with false by (symmetry; apply not_true_iff_false; rewrite ftype_eqb_true; exact N).
  apply C104_made_error_partial; try assumption. split; reflexivity.
Qed.
Theorem C104_right_type ft impl : make_impl ft ft impl = impl.
Proof. unfold make_impl. rewrite (proj2 (ftype_eqb_true ft ft) eq_refl). reflexivity. Qed.
(** Return gives what a function of this type returns for these results and this error. *)
Lemma pad_full n z l : length l = n -> pad n z l = l.
Proof. revert l. induction n as [|n IH]; intros [|v l] L; try discriminate; [reflexivity|]. cbn. f_equal. apply IH. cbn in L. lia. Qed.
Lemma pad_one n z l : length l = n -> pad (S n) z l = l ++ [Some z].
Proof. revert l. induction n as [|n IH]; intros [|v l] L; try discriminate; [reflexivity|]. cbn [pad app]. f_equal. apply IH. cbn in L. lia. Qed.
Lemma set_last_app {A} n (l : list A) x y : length l = n -> set_last n x (l ++ [y]) = l ++ [x].
Proof. revert l. induction n as [|n IH]; intros [|v l] L; try discriminate; [reflexivity|]. cbn. f_equal. apply IH. cbn in L. lia. Qed.
Theorem C104_return_partial ft rs err args : returns_error ft \/ without_error ft -> (forall l, rs = Some l -> Forall2 has_type l (results ft)) -> (forall e, err = Some e -> is_error e) ->
  make_func ft (fun _ => return_ ft rs err) args =
  match err with
  | None => Ret (match rs with Some l => l | None => map zero (results ft) end ++ (if has_error ft then [zero error_type] else []))
  | Some e => if has_error ft then Ret (match rs with Some l => l | None => map zero (results ft) end ++ [{| vtype := error_type; vdata := Some e |}]) else Pan (Some e)
  end.
Proof.
  intros E WR WE. unfold make_func, return_. destruct E as [E|E].
  - destruct (has_error_true ft E) as (H & LO). rewrite H, LO.
    assert (P : exists l, pad (length (outs ft)) (zero error_type) (map Some (match rs with Some r => r | None => map zero (outs ft) end)) = map Some l ++ [Some (zero error_type)] /\
      Forall2 has_type l (results ft) /\ match rs with Some l0 => l0 | None => map zero (results ft) end = l).
    { pose proof (results_error ft E) as RE. destruct rs as [l|].
      - specialize (WR l eq_refl). exists l. split; [|split; [exact WR|reflexivity]]. rewrite RE, app_length. cbn [List.length]. rewrite Nat.add_1_r. apply pad_one. rewrite map_length. exact (Forall2_length WR).
      - exists (map zero (results ft)). split; [|split; [apply zeros_typed|reflexivity]]. rewrite pad_full by (rewrite !map_length; reflexivity). rewrite RE. rewrite !map_app. reflexivity. }
    destruct P as (l & P & TL & ->). rewrite P. pose proof (results_error ft E) as RE. destruct err as [e|].
    + rewrite set_last_app by (rewrite map_length, RE, app_length; cbn [List.length]; rewrite (Forall2_length TL); lia).
      rewrite RE, assign_all_app by (rewrite map_length; exact (Forall2_length TL)). rewrite (assign_all_same l _ TL). cbn [assign_all]. rewrite (assign_error e (WE e eq_refl)). reflexivity.
    + rewrite RE, assign_all_app by (rewrite map_length; exact (Forall2_length TL)). rewrite (assign_all_same l _ TL). cbn [assign_all]. rewrite (assign_same _ _ (zero_typed error_type)). reflexivity.
  - rewrite (has_error_false ft E). destruct err as [e|]; [reflexivity|]. pose proof (results_plain ft E) as RE.
    assert (P : exists l, pad (length (outs ft)) (zero (last_out ft)) (map Some (match rs with Some r => r | None => map zero (outs ft) end)) = map Some l /\
      Forall2 has_type l (outs ft) /\ match rs with Some l0 => l0 | None => map zero (results ft) end = l).
    { destruct rs as [l|].
      - specialize (WR l eq_refl). rewrite <- RE in WR. exists l. split; [|split; [exact WR|reflexivity]]. apply pad_full. rewrite map_length. exact (Forall2_length WR).
      - exists (map zero (outs ft)). rewrite <- RE. split; [|split; [apply zeros_typed|reflexivity]]. apply pad_full. rewrite !map_length. reflexivity. }
    destruct P as (l & P & TL & ->). rewrite P, (assign_all_same l _ TL), app_nil_r. reflexivity.
Qed.
(** An implementation over []any that returns no results and an error, of a function with a result: the
    call panics. *)
Theorem C104_any_error_refuted ft e args : returns_error ft -> (1 <= length (results ft))%nat -> (forall a r, args = a :: r -> vtype a = context_type -> vdata a <> None) ->
  make_any ft (fun _ _ => Ret ([], Some e)) args = Pan None.
Proof.
  intros E L N. unfold make_any, make_func. destruct (has_error_true ft E) as (H & LO).
  assert (S' : exists c r, split_context args = Ret (c, r)).
  { destruct args as [|a r]; [eexists; eexists; reflexivity|]. cbn [split_context]. destruct (gtype_eqb (vtype a) context_type) eqn:Q; [|eexists; eexists; reflexivity]. apply gtype_eqb_true in Q.
    destruct (vdata a) as [c|] eqn:D; [eexists; eexists; reflexivity|]. exfalso. exact (N a r eq_refl Q D). }
  destruct S' as (c & r & ->). unfold finish. rewrite H. cbn [map app].
  destruct (assign_all [value_of (Some e)] (outs ft)) as [x|] eqn:A; [|reflexivity]. apply assign_all_length in A. rewrite (results_error ft E), app_length in A. cbn in A. lia.
Qed.
(** ... and so it does when it returns a nil for a result, such as a nil interface. *)
Theorem C104_any_nil_refuted t e : make_any {| ins := []; outs := [t; error_type]; variadic := false |} (fun _ _ => Ret ([None], e)) [] = Pan None /\
  make_values {| ins := []; outs := [any_type; error_type]; variadic := false |} (fun _ _ => Ret (Some [zero any_type], None)) [] = Ret [zero any_type; zero error_type].
Proof. split; [|reflexivity]. unfold make_any, make_func. cbn [split_context map]. unfold finish, has_error, last_out. cbn [outs last]. change (implements error_type error_type) with true. destruct e; reflexivity. Qed.
(** A function whose error is of a type of its own, not an interface: each call is an error, also with
    the zero error. *)
Theorem C104_concrete_error_refuted ft t rs g ctx args : variadic ft = false -> outs ft = rs ++ [t] -> implements t error_type = true -> is_interface t = false ->
  (forall a, exists vs, g a = Ret vs /\ Forall2 has_type vs (outs ft)) -> is_context ctx -> Forall2 has_type args (params ft) ->
  exists e, call ft (Some g) (Some ctx) args = Ret ([], Some e).
Proof.
  intros V O I NI G C A. unfold call. rewrite (call_passes ft g ctx args V C A). destruct (G (passed ft ctx args)) as (vs & -> & T').
  assert (H : has_error ft = true). { unfold has_error, last_out. rewrite O, last_last. destruct (rs ++ [t]) eqn:Q; [destruct rs; discriminate|exact I]. }
  rewrite H. rewrite O in T'. apply Forall2_app_inv_r in T'. destruct T' as (a & b & _ & B & ->). inversion B as [|v ? b' ? (_ & D) B']; subst. inversion B'; subst.
  rewrite last_data. destruct (vdata v) as [d|]; [exists d; reflexivity|]. congruence.
Qed.
(** Variadic functions: a function that hands on its arguments (as Copy is for) panics... *)
Definition forward (ft : ftype) (g : gofunc) : gofunc :=
  make_values ft (fun ctx args => match call ft (Some g) (Some ctx) args with Ret (rs, err) => Ret (Some rs, err) | Pan p => Pan p end).
Definition variadic_type (e : gtype) (os : list gtype) : ftype := {| ins := [TSlice e]; outs := os; variadic := true |}.
Definition slice_value (e : gtype) (l : list (option dyn)) : rvalue := {| vtype := TSlice e; vdata := Some (DSlice e l) |}.
Lemma slice_not e : TSlice e <> e.
Proof. induction e as [i f m|e IH]; [discriminate|]. intros Q. injection Q as Q. exact (IH Q). Qed.
Theorem C104_variadic_refuted e os g l : is_interface e = false -> forward (variadic_type e os) g [slice_value e l] = Pan None.
Proof.
  intros NI. unfold forward, make_values, make_func. cbn [split_context slice_value vtype gtype_eqb context_type]. unfold call, reflect_call, call_args, variadic_type. cbn [has_context ins gtype_eqb context_type variadic List.length Nat.sub firstn skipn last elem map app repeat assign_all].
  unfold assign. cbn [vtype slice_value]. rewrite (gtype_eqb_false _ _ (slice_not e)), NI. reflexivity.
Qed.
(** ... or, for ...any, gets all of them as a single argument. *)
Theorem C104_variadic_any_refuted l : let first := fun args : list rvalue => Ret [{| vtype := any_type; vdata := match args with a :: _ => vdata a | [] => None end |}] in
  first [slice_value any_type l] = Ret [{| vtype := any_type; vdata := Some (DSlice any_type l) |}] /\
  forward (variadic_type any_type [any_type]) first [slice_value any_type l] = Ret [{| vtype := any_type; vdata := Some (DSlice any_type [Some (DSlice any_type l)]) |}].
Proof. split; reflexivity. Qed.
