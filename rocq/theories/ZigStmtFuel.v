(** * zgo: the Zig statement parser of the model does not depend on its fuel. *)
From Coq Require Import ZArith List Bool Lia.
From Verif Require Import ZigModel ZigParse ZigExpr ZigStmtModel ZigStmtParse.
Import ListNotations.
Open Scope nat_scope.

Lemma rd_shorter : forall ts e r, rd ts = Some (e, r) -> length r < length ts.
Proof. intros ts e r H. unfold rd in H. exact (proj1 (p_shorter zig _) _ _ _ _ H). Qed.
Lemma rd_list_shorter : forall f ts es r, rd_list f ts = Some (es, r) -> length r < length ts.
Proof.
  induction f as [|f IH]; intros ts es r H; cbn [rd_list] in H; [discriminate |].
  destruct (rd ts) as [[e r1]|] eqn:E; [| discriminate]. apply rd_shorter in E.
  destruct r1 as [|t r1]; [injection H as <- <-; exact E |].
  destruct t; try (injection H as <- <-; exact E).
  destruct (rd_list f r1) as [[es' r2]|] eqn:E2; [| discriminate].
  apply IH in E2. injection H as <- <-. cbn [length] in E. lia.
Qed.
Lemma rd_assign_shorter : forall ts x o e r, rd_assign ts = Some (x, o, e, r) -> length r < length ts.
Proof.
  intros ts x o e r H. unfold rd_assign in H.
  destruct ts as [|t ts]; [discriminate |]. destruct t; try discriminate.
  destruct ts as [|t ts]; [discriminate |]. destruct t; try discriminate.
  - destruct (rd ts) as [[e' r']|] eqn:E; [| discriminate]. apply rd_shorter in E.
    injection H as <- <- <- <-. cbn [length]. lia.
  - destruct (zig_opasg o0); [| discriminate].
    destruct (rd ts) as [[e' r']|] eqn:E; [| discriminate]. apply rd_shorter in E.
    injection H as <- <- <- <-. cbn [length]. lia.
Qed.
Lemma rd_type_shorter : forall ts t r, rd_type ts = Some (t, r) -> length r < length ts.
Proof.
  intros ts t r H. unfold rd_type in H. destruct ts as [|k ts]; [discriminate |].
  destruct k; try discriminate; injection H as <- <-; cbn [length]; lia.
Qed.
Lemma rd_label_shorter : forall ts l r, rd_label ts = (l, r) -> length r <= length ts.
Proof.
  intros ts l r H. unfold rd_label in H.
  destruct ts as [|t ts]; [injection H as <- <-; lia |].
  destruct t; try (injection H as <- <-; lia).
  destruct ts as [|t ts]; [injection H as <- <-; lia |].
  destruct t; try (injection H as <- <-; lia).
  injection H as <- <-. cbn [length]. lia.
Qed.

Lemma rd_block_label_shorter : forall ts l r, rd_block_label ts = (l, r) -> length r <= length ts.
Proof.
  intros ts l r H. unfold rd_block_label in H.
  destruct ts as [|t ts]; [injection H as <- <-; lia |].
  destruct t; try (injection H as <- <-; lia).
  destruct ts as [|t ts]; [injection H as <- <-; lia |].
  destruct t; try (injection H as <- <-; lia).
  injection H as <- <-. cbn [length]. lia.
Qed.

Definition head_rest (h : shead) : list tok :=
  match h with
  | HDecl _ r | HPrint0 r | HPrint r | HBlock _ r | HWhile _ r | HIf r | HFor _ r | HSwitch r
  | HBreak r | HCont r | HRet0 r | HRet r => r
  | HOther => []
  end.
Lemma s_head_shorter : forall ts, ts <> [] -> length (head_rest (s_head ts)) < length ts.
Proof.
  intros ts NE. destruct ts as [|t ts]; [contradiction |]. clear NE.
  destruct t; cbn [s_head head_rest length]; try lia.
  all: repeat match goal with
       | |- context [match ?x with _ => _ end] => is_var x; destruct x; cbn [head_rest length]; try lia
       end.
Qed.
Lemma w_head_shorter : forall ts r, w_head ts = WPost r \/ w_head ts = WBody r -> length r < length ts.
Proof.
  intros ts r H. unfold w_head in H. destruct ts as [|t ts]; [destruct H; discriminate |].
  destruct t; try (destruct H; discriminate).
  destruct ts as [|t ts]; [destruct H; discriminate |]. destruct t; try (destruct H; discriminate).
  - destruct ts as [|t ts]; [destruct H; discriminate |]. destruct t; try (destruct H; discriminate).
    destruct H as [H | H]; [injection H as <- | discriminate]. cbn [length]. lia.
  - destruct H as [H | H]; [discriminate | injection H as <-]. cbn [length]. lia.
Qed.
Lemma p_head_shorter : forall ts r, p_head ts = PElse r -> length r < length ts.
Proof.
  intros ts r H. unfold p_head in H. destruct ts as [|t ts]; [discriminate |].
  destruct t; try discriminate. destruct ts as [|t ts]; [discriminate |].
  destruct t; try discriminate. destruct ts as [|t ts]; [discriminate |].
  destruct t; try discriminate. injection H as <-. cbn [length]. lia.
Qed.
Lemma rd_capture_shorter : forall ts key r, rd_capture ts = Some (key, r) -> length r < length ts.
Proof.
  intros ts key r H. unfold rd_capture in H. destruct ts as [|t ts]; [discriminate |].
  destruct t; try discriminate. destruct ts as [|t ts]; [discriminate |].
  destruct t; try discriminate. destruct ts as [|t ts]; [discriminate |].
  destruct t; try discriminate. destruct ts as [|t ts]; [discriminate |].
  destruct t; try discriminate; (destruct ts as [|t ts]; [discriminate |]);
  destruct t; try discriminate; injection H as <- <-; cbn [length]; lia.
Qed.
Lemma expect1_shorter : forall ok ts r, expect1 ok ts = Some r -> length r < length ts.
Proof.
  intros ok ts r H. destruct ts as [|t ts]; [discriminate |]. cbn [expect1] in H.
  destruct (ok t); [| discriminate]. injection H as <-. cbn [length]. lia.
Qed.
Lemma expect2_shorter : forall a b ts r, expect2 a b ts = Some r -> length r < length ts.
Proof.
  intros a b ts r H. unfold expect2 in H. destruct (expect1 a ts) as [r1|] eqn:E; [| discriminate].
  apply expect1_shorter in E. apply expect1_shorter in H. lia.
Qed.

Definition ok_s (f : nat) (ts : list tok) : Prop := forall z r, z_stmt_p f ts = Some (z, r) ->
  length r < length ts /\ forall f', 6 * length ts <= f' -> z_stmt_p f' ts = Some (z, r).
Definition ok_w (f : nat) (ts : list tok) : Prop := forall lab z r, z_while_p f lab ts = Some (z, r) ->
  length r < length ts /\ forall f', 6 * length ts <= f' -> z_while_p f' lab ts = Some (z, r).
Definition ok_l (f : nat) (ts : list tok) : Prop := forall z r, z_list_p f ts = Some (z, r) ->
  length r <= length ts /\ forall f', 6 * length ts + 1 <= f' -> z_list_p f' ts = Some (z, r).
Definition ok_b (f : nat) (ts : list tok) : Prop := forall z r, z_block_p f ts = Some (z, r) ->
  length r < length ts /\ forall f', 6 * length ts + 2 <= f' -> z_block_p f' ts = Some (z, r).
Definition ok_p (f : nat) (ts : list tok) : Prop := forall z r, z_prongs_p f ts = Some (z, r) ->
  length r <= length ts /\ forall f', 6 * length ts + 1 <= f' -> z_prongs_p f' ts = Some (z, r).

Ltac facts IHs IHw IHb IHl IHp :=
  repeat match goal with
  | H : rd _ = Some _ |- _ => let K := fresh "K" in pose proof (rd_shorter _ _ _ H) as K; cbn [length] in K; revert H
  | H : rd_list _ _ = Some _ |- _ => let K := fresh "K" in pose proof (rd_list_shorter _ _ _ _ H) as K; cbn [length] in K; revert H
  | H : rd_assign _ = Some _ |- _ => let K := fresh "K" in pose proof (rd_assign_shorter _ _ _ _ _ H) as K; cbn [length] in K; revert H
  | H : rd_type _ = Some _ |- _ => let K := fresh "K" in pose proof (rd_type_shorter _ _ _ H) as K; cbn [length] in K; revert H
  | H : rd_label _ = _ |- _ => let K := fresh "K" in pose proof (rd_label_shorter _ _ _ H) as K; cbn [length] in K; revert H
  | H : rd_block_label _ = _ |- _ => let K := fresh "K" in pose proof (rd_block_label_shorter _ _ _ H) as K; cbn [length] in K; revert H
  | H : rd_capture _ = Some _ |- _ => let K := fresh "K" in pose proof (rd_capture_shorter _ _ _ H) as K; cbn [length] in K; revert H
  | H : expect1 _ _ = Some _ |- _ => let K := fresh "K" in pose proof (expect1_shorter _ _ _ H) as K; cbn [length] in K; revert H
  | H : expect2 _ _ _ = Some _ |- _ => let K := fresh "K" in pose proof (expect2_shorter _ _ _ _ H) as K; cbn [length] in K; revert H
  | H : w_head _ = WPost _ |- _ => let K := fresh "K" in pose proof (w_head_shorter _ _ (or_introl H)) as K; cbn [length] in K; revert H
  | H : w_head _ = WBody _ |- _ => let K := fresh "K" in pose proof (w_head_shorter _ _ (or_intror H)) as K; cbn [length] in K; revert H
  | H : p_head _ = PElse _ |- _ => let K := fresh "K" in pose proof (p_head_shorter _ _ H) as K; cbn [length] in K; revert H
  | H : z_stmt_p _ _ = Some _ |- _ =>
      let K := fresh "K" in let M := fresh "M" in destruct (IHs _ _ _ H) as [K M]; cbn [length] in K, M; clear H
  | H : z_while_p _ _ _ = Some _ |- _ =>
      let K := fresh "K" in let M := fresh "M" in destruct (IHw _ _ _ _ H) as [K M]; cbn [length] in K, M; clear H
  | H : z_block_p _ _ = Some _ |- _ =>
      let K := fresh "K" in let M := fresh "M" in destruct (IHb _ _ _ H) as [K M]; cbn [length] in K, M; clear H
  | H : z_list_p _ _ = Some _ |- _ =>
      let K := fresh "K" in let M := fresh "M" in destruct (IHl _ _ _ H) as [K M]; cbn [length] in K, M; clear H
  | H : z_prongs_p _ _ = Some _ |- _ =>
      let K := fresh "K" in let M := fresh "M" in destruct (IHp _ _ _ H) as [K M]; cbn [length] in K, M; clear H
  end; intros.

(* split on what the parser looks at, in the hypothesis *)
Ltac look H :=
  repeat match type of H with
  | match ?x with _ => _ end = Some _ =>
      first [is_var x; destruct x | let E := fresh "E" in destruct x eqn:E]; try discriminate H
  end.

Ltac finish :=
  repeat match goal with
  | M : forall f', _ -> ?P f' ?ts = Some _ |- context [?P ?g ?ts] => rewrite (M g) by lia
  | M : forall f', _ -> ?P f' ?l ?ts = Some _ |- context [?P ?g ?l ?ts] => rewrite (M g) by lia
  | H : ?x = ?v |- context [match ?x with _ => _ end] => rewrite H
  end.

Lemma all_fuel : forall f, (forall ts, ok_s f ts) /\ (forall ts, ok_w f ts) /\
  (forall ts, ok_b f ts) /\ (forall ts, ok_l f ts) /\ (forall ts, ok_p f ts).
Proof.
  induction f as [|f (IHs & IHw & IHb & IHl & IHp)].
  { split; [| split; [| split; [| split]]]; intros ts; intros ? *; cbn; intros; discriminate. }
  split; [| split; [| split; [| split]]].
  - intros ts z r H. cbn [z_stmt_p] in H.
    cut (length r < length ts /\ forall f', 6 * length ts <= S f' -> z_stmt_p (S f') ts = Some (z, r)).
    { intros [A B]. split; [exact A |]. intros f' Hf. destruct f' as [|f']; [lia |]. apply B, Hf. }
    cbn [z_stmt_p].
    assert (NE : ts <> []) by (intros ->; discriminate H).
    pose proof (s_head_shorter ts NE) as HS.
    destruct (s_head ts) eqn:EH; cbn [head_rest] in HS; look H.
    all: try (injection H as <- <-); facts IHs IHw IHb IHl IHp; (split; [lia |]);
      intros f' Hf; finish; reflexivity.
  - intros ts lab z r H. cbn [z_while_p] in H.
    cut (length r < length ts /\ forall f', 6 * length ts <= S f' -> z_while_p (S f') lab ts = Some (z, r)).
    { intros [A B]. split; [exact A |]. intros f' Hf. destruct f' as [|f']; [lia |]. apply B, Hf. }
    cbn [z_while_p]. look H.
    all: injection H as <- <-; facts IHs IHw IHb IHl IHp; cbn [length]; (split; [lia |]);
      intros f' Hf; finish; reflexivity.
  - intros ts z r H. cbn [z_block_p] in H.
    cut (length r < length ts /\ forall f', 6 * length ts + 2 <= S f' -> z_block_p (S f') ts = Some (z, r)).
    { intros [A B]. split; [exact A |]. intros f' Hf. destruct f' as [|f']; [lia |]. apply B, Hf. }
    cbn [z_block_p]. look H.
    all: injection H as <- <-; facts IHs IHw IHb IHl IHp; (split; [lia |]);
      intros f' Hf; finish; reflexivity.
  - intros ts z r H. cbn [z_list_p] in H.
    cut (length r <= length ts /\ forall f', 6 * length ts + 1 <= S f' -> z_list_p (S f') ts = Some (z, r)).
    { intros [A B]. split; [exact A |]. intros f' Hf. destruct f' as [|f']; [lia |]. apply B, Hf. }
    cbn [z_list_p]. look H.
    all: injection H as <- <-; facts IHs IHw IHb IHl IHp; (split; [lia |]);
      intros f' Hf; finish; reflexivity.
  - intros ts z r H. cbn [z_prongs_p] in H.
    cut (length r <= length ts /\ forall f', 6 * length ts + 1 <= S f' -> z_prongs_p (S f') ts = Some (z, r)).
    { intros [A B]. split; [exact A |]. intros f' Hf. destruct f' as [|f']; [lia |]. apply B, Hf. }
    cbn [z_prongs_p]. look H.
    all: injection H as <- <-; facts IHs IHw IHb IHl IHp; (split; [lia |]);
      intros f' Hf; finish; reflexivity.
Qed.

(** ** What is read does not depend on the fuel *)
Theorem read_stmts_ev : forall ts l, ev (fun f => z_list_p f ts) (Some (l, [])) -> read_stmts ts = Some l.
Proof.
  intros ts l [n H]. specialize (H n (le_n n)).
  destruct (all_fuel n) as (_ & _ & _ & L & _). destruct (L ts l [] H) as [_ M].
  unfold read_stmts. rewrite M by lia. reflexivity.
Qed.

Theorem fine_reads : forall ty l, fine_l ty l ->
  exists ts, pr_list ty l = Some ts /\ read_stmts ts = Some (ztr_l ty l).
Proof.
  intros ty l F. destruct (list_parse ty l F) as (ts & T & E).
  exists ts. split; [exact T | apply read_stmts_ev, E].
Qed.
