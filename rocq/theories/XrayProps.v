(** Proofs about package xray (api/xray/xray.go). *)
From Verif Require Import GoBase XrayModel.
Local Open Scope Z_scope.
Local Open Scope list_scope.

Section Queue.
Variables (Ty V : Type).
Variable ty_eqb : Ty -> Ty -> bool.
Hypothesis ty_eqb_eq : forall a b, ty_eqb a b = true <-> a = b.
Variable type_of : V -> Ty.
Notation values := (values Ty V).
Notation lookup := (lookup Ty V ty_eqb).
Notation assign := (assign Ty V ty_eqb).
Notation add := (add Ty V ty_eqb type_of).
Notation get := (get Ty V ty_eqb).
Notation has := (has Ty V ty_eqb).
(** ** What is recorded for a type *)
Definition recorded (s : values) (t : Ty) : list V := match lookup t s with Some c => elems V c | None => [] end.
(** No channel has more elements than room, and there is always some room. *)
Definition sound (s : values) : Prop := forall t c, lookup t s = Some c -> (length (elems V c) <= cap V c /\ 1 <= cap V c)%nat.
Lemma eqb_refl t : ty_eqb t t = true.
Proof. apply ty_eqb_eq. reflexivity. Qed.
Lemma eqb_neq a b : a <> b -> ty_eqb a b = false.
Proof. intros N. apply not_true_iff_false. rewrite ty_eqb_eq. exact N. Qed.
Lemma lookup_assign t c s u : lookup u (assign t c s) = if ty_eqb t u then Some c else lookup u s.
Proof.
  induction s as [|(x & d) s IH]; cbn [XrayModel.assign XrayModel.lookup]; [reflexivity|]. destruct (ty_eqb x t) eqn:E.
  - apply ty_eqb_eq in E. subst x. cbn [XrayModel.lookup]. destruct (ty_eqb t u); reflexivity.
  - cbn [XrayModel.lookup]. rewrite IH. destruct (ty_eqb x u) eqn:E2; [|reflexivity]. apply ty_eqb_eq in E2. subst x. rewrite eqb_neq; [reflexivity|]. intros ->. rewrite eqb_refl in E. discriminate.
Qed.
Lemma send_all_room vs : forall c, (length (elems V c) + length vs <= cap V c)%nat -> send_all V c vs = Some {| elems := elems V c ++ vs; cap := cap V c |}.
Proof.
  induction vs as [|v vs IH]; intros c L; cbn [send_all]; [rewrite app_nil_r; destruct c; reflexivity|]. cbn [length] in L. unfold send. replace (Nat.ltb (length (elems V c)) (cap V c)) with true by (symmetry; apply Nat.ltb_lt; lia).
  rewrite IH by (cbn [elems cap]; rewrite app_length; cbn [length]; lia). cbn [elems cap]. rewrite <- app_assoc. reflexivity.
Qed.
Lemma add_spec s v : sound s -> exists s', add s v = Some s' /\ sound s' /\ forall t, recorded s' t = recorded s t ++ (if ty_eqb (type_of v) t then [v] else []).
Proof.
  intros SN. unfold XrayModel.add. set (t := type_of v).
  assert (C : exists c, match lookup t s with Some c => c | None => {| elems := []; cap := 1%nat |} end = c /\ elems V c = recorded s t /\ (length (elems V c) <= cap V c)%nat /\ (1 <= cap V c)%nat).
  { unfold recorded. destruct (lookup t s) as [c|] eqn:L; eexists; (split; [reflexivity|]); [destruct (SN t c L); auto|]. cbn. repeat split; lia. }
  destruct C as (c & -> & EC & LC & PC).
  assert (D : exists d, (if Nat.eqb (length (elems V c)) (cap V c) then send_all V {| elems := []; cap := (cap V c * 2)%nat |} (elems V c) else Some c) = Some d /\ elems V d = recorded s t /\ (length (elems V d) < cap V d)%nat).
  { destruct (Nat.eqb (length (elems V c)) (cap V c)) eqn:F.
    - apply Nat.eqb_eq in F. rewrite send_all_room by (cbn [elems cap length]; lia). eexists. split; [reflexivity|]. cbn [elems cap]. split; [exact EC|]. cbn [app]. lia.
    - apply Nat.eqb_neq in F. exists c. split; [reflexivity|]. split; [exact EC|lia]. }
  destruct D as (d & -> & ED & LD). unfold send. replace (Nat.ltb (length (elems V d)) (cap V d)) with true by (symmetry; apply Nat.ltb_lt; exact LD). eexists. split; [reflexivity|]. split.
  - intros u e. rewrite lookup_assign. destruct (ty_eqb t u); [|apply SN]. intros Q. injection Q as <-. cbn [elems cap]. rewrite app_length. cbn [length]. lia.
  - intros u. unfold recorded at 1. rewrite lookup_assign. destruct (ty_eqb t u) eqn:E; [|rewrite app_nil_r; reflexivity]. apply ty_eqb_eq in E. subst u. cbn [elems]. rewrite ED. reflexivity.
Qed.
Lemma get_spec s t : sound s -> sound (snd (get s t)) /\ fst (get s t) = hd_error (recorded s t) /\ forall u, recorded (snd (get s t)) u = if ty_eqb t u then tl (recorded s t) else recorded s u.
Proof.
  intros SN. unfold XrayModel.get, recorded. destruct (lookup t s) as [[[|v r] n]|] eqn:L; cbn [fst snd elems hd_error tl].
  - split; [exact SN|]. split; [reflexivity|]. intros u. destruct (ty_eqb t u) eqn:E; [|reflexivity]. apply ty_eqb_eq in E. subst u. rewrite L. reflexivity.
  - split; [|split; [reflexivity|]].
    + intros u c. rewrite lookup_assign. destruct (ty_eqb t u); [|apply SN]. intros Q. injection Q as <-. destruct (SN t _ L) as (A & B). cbn [elems cap length] in *. lia.
    + intros u. rewrite lookup_assign. destruct (ty_eqb t u); reflexivity.
  - split; [exact SN|]. split; [reflexivity|]. intros u. destruct (ty_eqb t u) eqn:E; [|reflexivity]. apply ty_eqb_eq in E. subst u. rewrite L. reflexivity.
Qed.
(** ** C111 *)
(** Calls one after the other. *)
Inductive call := CAdd (v : V) | CGet (t : Ty) | CHas (t : Ty).
Inductive answer := AGot (v : option V) | AHas (b : bool) | ANone.
Fixpoint run (s : values) (cs : list call) : option (list answer) :=
  match cs with
  | [] => Some []
  | CAdd v :: r => match add s v with None => None | Some s => option_map (cons ANone) (run s r) end
  | CGet t :: r => let '(v, s) := get s t in option_map (cons (AGot v)) (run s r)
  | CHas t :: r => option_map (cons (AHas (has s t))) (run s r)
  end.
(** A queue for each type. *)
Fixpoint queues (q : Ty -> list V) (cs : list call) : list answer :=
  match cs with
  | [] => []
  | CAdd v :: r => ANone :: queues (fun t => q t ++ (if ty_eqb (type_of v) t then [v] else [])) r
  | CGet t :: r => AGot (hd_error (q t)) :: queues (fun u => if ty_eqb t u then tl (q t) else q u) r
  | CHas t :: r => AHas (match q t with [] => false | _ :: _ => true end) :: queues q r
  end.
(** Each call of Add returns, and each type's values come out in the order they were added, each once. *)
Lemma queues_ext cs : forall q q', (forall t, q t = q' t) -> queues q cs = queues q' cs.
Proof.
  induction cs as [|[v|t|t] cs IH]; intros q q' E; cbn [queues]; [reflexivity| | |].
  - f_equal. apply IH. intros t. rewrite E. reflexivity.
  - rewrite E. f_equal. apply IH. intros u. rewrite !E. reflexivity.
  - rewrite E. f_equal. apply IH. exact E.
Qed.
Lemma run_queues cs : forall s, sound s -> run s cs = Some (queues (recorded s) cs).
Proof.
  induction cs as [|[v|t|t] cs IH]; intros s SN; cbn [run queues]; [reflexivity| | |].
  - destruct (add_spec s v SN) as (s' & -> & SN' & R). rewrite (IH s' SN'). cbn [option_map]. do 2 f_equal. apply queues_ext. exact R.
  - destruct (get_spec s t SN) as (SN' & F & R). destruct (get s t) as [v s']. cbn [fst snd] in *. rewrite (IH s' SN'). cbn [option_map]. rewrite F. do 2 f_equal. apply queues_ext. exact R.
  - rewrite (IH s SN). cbn [option_map]. do 3 f_equal. unfold XrayModel.has, recorded. destruct (lookup t s) as [[[|x r] n]|]; reflexivity.
Qed.
Theorem C111_sequential cs : run [] cs = Some (queues (fun _ => []) cs).
Proof. rewrite run_queues; [reflexivity|]. intros t c Q. discriminate. Qed.
(** Without an xray, getting a value panics (it is documented to give the zero value). *)
Theorem C111_no_xray_refuted t v : context_add Ty V ty_eqb type_of None v = Some None /\ context_has Ty V ty_eqb None t = false /\ context_get Ty V ty_eqb None t = None.
Proof. repeat split. Qed.
(** A type no value has, such as an interface, is never found. *)
Theorem C111_interface_refuted t cs : (forall v, type_of v <> t) -> forall s, sound s -> recorded s t = [] ->
  Forall (fun ca => forall u v, ca = (CGet u, AGot (Some v)) -> u <> t) (combine cs (queues (recorded s) cs)).
Proof.
  intros NT s _ R. assert (G : forall cs q, q t = [] -> Forall (fun ca => forall u v, ca = (CGet u, AGot (Some v)) -> u <> t) (combine cs (queues q cs))).
  { clear s R cs. induction cs as [|[v|u|u] cs IH]; intros q R; cbn [queues combine]; constructor; try (intros u' v' Q; discriminate).
    - apply IH. rewrite R, eqb_neq by apply NT. reflexivity.
    - intros u' v' Q. injection Q as -> Q. intros ->. rewrite R in Q. discriminate.
    - apply IH. destruct (ty_eqb u t) eqn:E; [|exact R]. apply ty_eqb_eq in E. subst u. rewrite R. reflexivity.
    - apply IH. exact R. }
  apply G. exact R.
Qed.
(** ** Concurrent use *)
Notation state := (state V).
Notation steps := (steps V).
Notation step := (step V).
Definition somes (l : list (option V)) : list V := flat_map (fun o => match o with Some v => [v] | None => [] end) l.
(** Whatever the schedule: the values got so far, in order, and then those still there, are the values
    added, in order. *)
Theorem C111_fifo c ts s : steps c (start V ts) s -> somes (log_got V s) ++ queue V s = log_added V s.
Proof.
  assert (G : forall a b, steps c a b -> somes (log_got V a) ++ queue V a = log_added V a -> somes (log_got V b) ++ queue V b = log_added V b).
  { intros a b H. induction H as [s0|a b d ST H IH]; [auto|]. intros I. apply IH. unfold somes in *.
    destruct ST as [z i v T R|z i T|z i T Q|z i T Q|z i v r T Q|z i T Q]; cbn [queue log_got log_added]; try exact I.
    - rewrite app_assoc, I. reflexivity.
    - rewrite flat_map_app. cbn [flat_map app]. rewrite <- I, Q, app_nil_r. reflexivity.
    - rewrite flat_map_app. cbn [flat_map app]. rewrite <- I, Q, <- app_assoc. reflexivity.
    - rewrite flat_map_app. cbn [flat_map app]. rewrite app_nil_r. exact I. }
  intros H. apply (G _ _ H). reflexivity.
Qed.
(** Two calls of Get for one value, and no end of the context: one of them waits forever, and so does any
    Add. *)
Theorem C111_stuck_refuted v w : exists s, steps false (start V [Add V v; Get V; Get V; Add V w]) s /\ In (Add V w) (threads V s) /\ forall t, ~ step false s t.
Proof.
  exists {| queue := []; threads := [Done V; Done V; Receive V; Add V w]; log_added := [v]; log_got := [Some v] |}. split; [|split].
  - eapply steps_step; [apply (step_add V false _ 0 v); reflexivity|]. cbn.
    eapply steps_step; [apply (step_lock V false _ 1); reflexivity|]. cbn.
    eapply steps_step; [apply (step_lock V false _ 2); reflexivity|]. cbn.
    eapply steps_step; [apply (step_some V false _ 1); [reflexivity|discriminate]|]. cbn.
    eapply steps_step; [apply (step_some V false _ 2); [reflexivity|discriminate]|]. cbn.
    eapply steps_step; [apply (step_receive V false _ 1 v []); reflexivity|]. cbn. apply steps_refl.
  - cbn. tauto.
  - intros t H. inversion H as [z i x T R|z i T|z i T Q|z i T Q|z i x r T Q|z i T Q]; subst; cbn [threads queue] in *; try discriminate; destruct i as [|[|[|[|i]]]]; cbn in T; try discriminate; destruct i; discriminate.
Qed.
(** A single goroutine is never stuck: some step is possible as long as it is not done. *)
Theorem C111_alone_partial c s t : threads V s = [t] -> t <> Done V -> (t = Receive V -> queue V s <> []) -> exists s', step c s s'.
Proof.
  intros T N R. destruct t as [v| | | |]; [| | | |congruence].
  - eexists. apply (step_add V c s 0 v); rewrite T; reflexivity.
  - eexists. apply (step_lock V c s 0); rewrite T; reflexivity.
  - destruct (queue V s) as [|x r] eqn:Q; eexists; [apply (step_none V c s 0); [rewrite T; reflexivity|exact Q]|apply (step_some V c s 0); [rewrite T; reflexivity|rewrite Q; discriminate]].
  - destruct (queue V s) as [|x r] eqn:Q; [destruct (R eq_refl eq_refl)|]. eexists. apply (step_receive V c s 0 x r); [rewrite T; reflexivity|exact Q].
Qed.
End Queue.
Example C111_case : run nat nat Nat.eqb (fun v => Nat.modulo v 2) [] [CAdd nat nat 2; CAdd nat nat 4; CAdd nat nat 3; CGet nat nat 0; CHas nat nat 1; CGet nat nat 0; CGet nat nat 0]%nat
  = Some [ANone nat; ANone nat; ANone nat; AGot nat (Some 2%nat); AHas nat true; AGot nat (Some 4%nat); AGot nat None].
Proof. reflexivity. Qed.

(** ** C112 *)
(** A reader reads what its source has, and shows it, with an xray. *)
Theorem C112_reader s : fails s = false -> r_read (new_reader true s) = (content s, false) /\ r_string (new_reader true s) = content s.
Proof. intros F. unfold new_reader, read_all. rewrite F. split; reflexivity. Qed.
Theorem C112_reader_off s : r_read (new_reader false s) = (content s, fails s) /\ closed (r_close (new_reader false s)) = true.
Proof. split; reflexivity. Qed.
(** With an xray, what a source has before it fails is lost, and closing the reader does not close it. *)
Theorem C112_reader_failure_refuted s : fails s = true -> r_read (new_reader true s) = ([], true) /\ r_read (new_reader false s) = (content s, true).
Proof. intros F. unfold new_reader, read_all. rewrite F. split; reflexivity. Qed.
Theorem C112_close_refuted s : r_close (new_reader true s) = s.
Proof. unfold new_reader, read_all. destruct (fails s); reflexivity. Qed.
(** A writer hands on each write, and shows all of them. *)
Theorem C112_writer sink n ws : let '(taken, shown, oks) := write_all sink n ws in
  shown = concat ws /\ length oks = length ws /\ (Forall (fun ok => ok = true) oks -> taken = concat ws).
Proof.
  revert n. induction ws as [|w ws IH]; intros n; cbn [write_all concat]; [repeat split|]. specialize (IH (S n)). destruct (write_all sink (S n) ws) as [[t r] o]. destruct IH as (-> & L & T).
  split; [reflexivity|]. split; [cbn; congruence|]. intros F. inversion F as [|? ? H1 H2]; subst. rewrite H1, (T H2). reflexivity.
Qed.
(** ... also those that failed. *)
Theorem C112_writer_failure_refuted w : write_all (fun _ _ => false) 0 [w] = ([], w ++ [], [false]).
Proof. reflexivity. Qed.
Print Assumptions C111_sequential.
Print Assumptions C111_fifo.
Print Assumptions C111_stuck_refuted.
Print Assumptions C112_writer.
