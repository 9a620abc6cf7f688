(** * println of compiled programs (C163) *)
From Coq Require Import Ascii String List Arith ZArith Bool Lia.
From Verif Require Import ZigPrintModel.
Import ListNotations.

(** The property in full. *)
Definition C163_full : Prop := forall sh args, zig_println sh args = Some (go_println sh args).

Definition basic (a : arg) : Prop := forall t, a <> AOther t.
(** What Zig prints for a value: what Go does but for floats *)
Definition zig_text (sh : show) (a : arg) : text := match a with AFloat f => zig_float sh f | _ => go_text sh a end.
Fixpoint rest_joined (l : list text) : text := match l with [] => [] | x :: r => text_of " " ++ x ++ rest_joined r end.
Lemma joined_rest : forall x l, joined (x :: l) = x ++ rest_joined l.
Proof.
  intros x l. revert x. induction l as [|y l IH]; intro x; [cbn; now rewrite app_nil_r|].
  change (joined (x :: y :: l)) with (x ++ text_of " " ++ joined (y :: l)). now rewrite IH.
Qed.
Lemma format_piece : forall sh a p f q, piece a = Some p ->
  zig_format sh None (p ++ f) (a :: q) = option_map (app (zig_text sh a)) (zig_format sh None f q).
Proof. intros sh a p f q E. destruct a; try discriminate; injection E as <-; cbn; destruct (zig_format sh None f q); reflexivity. Qed.
Lemma format_space : forall sh f q, zig_format sh None (text_of " " ++ f) q = option_map (app (text_of " ")) (zig_format sh None f q).
Proof. intros sh f q. cbn. destruct (zig_format sh None f q); reflexivity. Qed.
Lemma format_basic : forall first args, Forall basic args -> exists f, format first args = Some f.
Proof.
  intros first args B. revert first. induction B as [|a args A B IH]; intro first; [now exists []|]. cbn [format].
  destruct (IH false) as (f & ->). assert (P : exists p, piece a = Some p) by (destruct a; cbn; eauto; now destruct (A t)).
  destruct P as (p & ->). eauto.
Qed.
Lemma format_rest : forall sh args f, format false args = Some f -> zig_format sh None f args = Some (rest_joined (map (zig_text sh) args)).
Proof.
  intros sh args. induction args as [|a args IH]; intros f E; cbn [format] in E; [now injection E as <-|].
  destruct (piece a) as [p|] eqn:P; [|discriminate]. destruct (format false args) as [g|] eqn:G; [|discriminate]. injection E as <-.
  change (zig_format sh None (text_of " " ++ (p ++ g)) (a :: args) = Some (rest_joined (map (zig_text sh) (a :: args)))).
  rewrite format_space, (format_piece _ _ _ _ _ P), (IH _ eq_refl). cbn [option_map map rest_joined]. reflexivity.
Qed.
Lemma format_all : forall sh args f, format true args = Some f -> zig_format sh None f args = Some (joined (map (zig_text sh) args)).
Proof.
  intros sh [|a args] f E; cbn [format] in E; [now injection E as <-|].
  destruct (piece a) as [p|] eqn:P; [|discriminate]. destruct (format false args) as [g|] eqn:G; [|discriminate]. injection E as <-.
  cbn [app]. rewrite (format_piece _ _ _ _ _ P), (format_rest _ _ _ G). cbn [option_map map]. now rewrite joined_rest.
Qed.
Lemma zig_all : forall sh args, Forall basic args -> length args <= max_args ->
  zig_println sh args = Some (joined (map (zig_text sh) args) ++ newline).
Proof.
  intros sh args B L. unfold zig_println. destruct (format_basic true args B) as (f & E). rewrite E, (format_all _ _ _ E).
  apply Nat.leb_le in L. now rewrite L.
Qed.

(** Integers, texts and truth values, at most 32: what Go prints, braces in texts included. *)
Theorem C163_println_partial : forall sh args, Forall basic args -> length args <= max_args -> (forall f, ~ In (AFloat f) args) ->
  zig_println sh args = Some (go_println sh args).
Proof.
  intros sh args B L N. rewrite zig_all by assumption. unfold go_println. do 3 f_equal. apply map_ext_in.
  intros a I. destruct a; try reflexivity. now destruct (N f).
Qed.
(** With floats too if they were printed the same. *)
Theorem C163_floats_partial : forall sh args, Forall basic args -> length args <= max_args -> (forall f, In (AFloat f) args -> zig_float sh f = go_float sh f) ->
  zig_println sh args = Some (go_println sh args).
Proof.
  intros sh args B L N. rewrite zig_all by assumption. unfold go_println. do 3 f_equal. apply map_ext_in.
  intros a I. destruct a; try reflexivity. cbn. auto.
Qed.
(** What compiles. *)
Theorem C163_exactly : forall sh args, (exists t, zig_println sh args = Some t) <-> Forall basic args /\ length args <= max_args.
Proof.
  intros sh args. split.
  - intros [t E]. unfold zig_println in E. destruct (format true args) as [f|] eqn:F; [|discriminate].
    destruct (Nat.leb_spec (length args) max_args) as [L|]; [|discriminate]. split; [|assumption].
    clear E L t. revert F. generalize true. intros b. revert b f. induction args as [|a args IH]; intros b f F; [constructor|]. cbn [format] in F.
    destruct (piece a) as [p|] eqn:P; [|discriminate]. destruct (format false args) as [g|] eqn:G; [|discriminate].
    constructor; [intros t ->; discriminate|eauto].
  - intros [B L]. rewrite zig_all by assumption. eauto.
Qed.
Theorem C163_named_refuted : forall sh args t, In (AOther t) args -> zig_println sh args = None.
Proof.
  intros sh args t I. destruct (zig_println sh args) as [x|] eqn:E; [|reflexivity].
  destruct (proj1 (C163_exactly sh args) (ex_intro _ x E)) as [B _]. rewrite Forall_forall in B. now destruct (B _ I t).
Qed.
Theorem C163_many_refuted : forall sh args, max_args < length args -> zig_println sh args = None.
Proof.
  intros sh args L. destruct (zig_println sh args) as [x|] eqn:E; [|reflexivity].
  destruct (proj1 (C163_exactly sh args) (ex_intro _ x E)) as [_ M]. lia.
Qed.
(** println(1.0): Go prints +1.000000e+000, Zig 1e0. *)
Definition real : show :=
  {| dec := fun z => match z with 7%Z => text_of "7" | _ => text_of "-1" end; go_float := fun _ => text_of "+1.000000e+000"; zig_float := fun _ => text_of "1e0" |}.
Theorem C163_floats_refuted : forall sh f, zig_float sh f <> go_float sh f ->
  zig_println sh [AFloat f] = Some (zig_float sh f ++ newline) /\ zig_println sh [AFloat f] <> Some (go_println sh [AFloat f]).
Proof.
  intros sh f N. assert (E : zig_println sh [AFloat f] = Some (zig_float sh f ++ newline)).
  { rewrite zig_all; [reflexivity|repeat constructor; discriminate|cbn; unfold max_args; lia]. }
  split; [exact E|]. rewrite E. unfold go_println. cbn [map joined go_text]. intro Q. apply N.
  injection Q as Q. apply app_inv_tail in Q. exact Q.
Qed.
Theorem C163_full_refuted : ~ C163_full.
Proof. intro F. apply (C163_floats_refuted real 0%Z); [discriminate|apply F]. Qed.
Definition example : list arg := [AInt 7; AStr (text_of "{d} }"); ABool true; AInt (-1)].
Theorem C163_example : Forall basic example /\ length example <= max_args /\ (forall f, ~ In (AFloat f) example) /\
  zig_println real example = Some (text_of "7 {d} } true -1" ++ newline).
Proof.
  split; [repeat constructor; discriminate|]. split; [cbn; unfold max_args; lia|]. split; [cbn; intuition discriminate|reflexivity].
Qed.
