(** Properties C13-C17 and C61: qnq channels, for every schedule of any number of goroutines. *)
From Coq Require Import List Arith Bool Lia.
Import ListNotations.
From Verif Require Import QnqModel QnqSpec QnqProofs.

(** C13.  Listener l's Listen returned before Send t started, and its context had not been
    cancelled when the Send returned nil: t has invoked l exactly once. *)
Theorem C13_every_live_listener_exactly_once s log l1 l2 t l c :
  execution s log -> log = l1 ++ ESent t RNil :: l2 ->
  before l1 (EListened l) (ESend t) -> In (EListen l c) l1 -> ~ In (ECancel c) l1 ->
  calls t l log = 1.
Proof. exact (qnq_delivery s log l1 l2 t l c). Qed.

(** C13, at-most-once part: no listener, whatever its state, is invoked twice by one Send. *)
Theorem C13_never_twice s log t l : execution s log -> calls t l log <= 1.
Proof. exact (calls_at_most_one s log t l). Qed.

(** C14. *)
Theorem C14_empty_only_if_none_invoked s log t :
  execution s log -> In (ESent t REmpty) log -> forall l, ~ In (ECall t l) log.
Proof. exact (qnq_empty_no_calls s log t). Qed.
Theorem C14_nil_only_if_some_invoked s log t :
  execution s log -> In (ESent t RNil) log -> exists l, In (ECall t l) log.
Proof. exact (qnq_nil_some_call s log t). Qed.
Theorem C14_live_listener_never_empty s log l1 l2 t r l c :
  execution s log -> log = l1 ++ ESent t r :: l2 ->
  before l1 (EListened l) (ESend t) -> In (EListen l c) l1 -> ~ In (ECancel c) l1 ->
  r <> REmpty.
Proof. exact (qnq_live_not_empty s log l1 l2 t r l c). Qed.
(** Chan.Send around it: without an external implementation the result is the in-process one;
    with one, an external failure is returned as is and an empty channel is not an error. *)
Theorem C14_send_wrapper impl fast :
  (chanSend impl fast = OkSend <->
     (impl = None \/ impl = Some None) /\ (fast = RNil \/ (fast = REmpty /\ impl = Some None))) /\
  (forall e, chanSend impl fast = FailImpl e <-> impl = Some (Some e)) /\
  (forall r, chanSend impl fast = FailFast r <->
     r = fast /\ ((impl = None /\ fast <> RNil) \/ (impl = Some None /\ exists e, fast = RErr e))).
Proof.
  destruct impl as [[e|]|], fast as [| |e']; cbn; (split; [|split]); intros; split; intros H;
    repeat match goal with
    | H : _ /\ _ |- _ => destruct H
    | H : _ \/ _ |- _ => destruct H
    | H : exists _, _ |- _ => destruct H
    end; subst; try discriminate; try congruence; try tauto; try (inversion H; subst; tauto);
    repeat split; try (inversion H; subst; eauto; fail); eauto;
    try (inversion H; subst; left; split; [reflexivity|discriminate]).
Qed.

(** C15, refuted: a cancelled listener can still be invoked by a Send that starts later. *)
Definition log_of (acts : list action) : list event :=
  match runAll init [] acts with Some (_, l) => l | None => [] end.
Definition steps (t n : nat) : list action := repeat (ARun t None) n.
Lemma log_of_execution acts : log_of acts <> [] -> exists s, execution s (log_of acts).
Proof.
  unfold log_of. destruct (runAll init [] acts) as [[s l]|] eqn:E; [|congruence]. intros _.
  exists s. eapply runAll_execution; [constructor|exact E].
Qed.
(* the first listener, registered with a cancellable context, sits in the head of the list *)
Definition head_schedule : list action :=
  AListen 1 5 :: steps 1 5 ++ ACancel 5 :: ASend 2 :: steps 2 7.
(* two neighbouring cancelled listeners behind a live one *)
Definition neighbours_schedule : list action :=
  AListen 1 background :: steps 1 4 ++ AListen 2 5 :: steps 2 7 ++ AListen 3 6 :: steps 3 10 ++
  ACancel 5 :: ACancel 6 :: ASend 4 :: steps 4 15.
(* one cancelled listener, two Sends racing to unlink it *)
Definition race_schedule : list action :=
  AListen 1 background :: steps 1 4 ++ AListen 2 5 :: steps 2 7 ++ ACancel 5 ::
  ASend 3 :: ASend 4 :: steps 3 7 ++ steps 4 7 ++ steps 3 1 ++ steps 4 4.
Theorem C15_cancelled_listener_invoked_refuted :
  exists s log t l c, execution s log /\ In (EListen l c) log /\ before log (EListened l) (ECancel c) /\
    before log (ECancel c) (ESend t) /\ In (ECall t l) log.
Proof.
  destruct (log_of_execution head_schedule) as [s H]; [vm_compute; discriminate|].
  exists s, (log_of head_schedule), 2, 1, 5. split; [exact H|]. vm_compute.
  repeat match goal with |- _ /\ _ => split end; auto.
  - exists [EListen 1 5], [], [ESend 2; ECall 2 1; EReply 2 1 None; ESent 2 RNil]. reflexivity.
  - exists [EListen 1 5; EListened 1], [], [ECall 2 1; EReply 2 1 None; ESent 2 RNil]. reflexivity.
  - tauto.
Qed.
Theorem C15_neighbours_refuted :
  exists s log, execution s log /\ before log (ECancel 6) (ESend 4) /\ In (EListen 3 6) log /\
    In (EListen 1 background) log /\ In (ECall 4 1) log /\ In (ECall 4 3) log.
Proof.
  destruct (log_of_execution neighbours_schedule) as [s H]; [vm_compute; discriminate|].
  exists s, (log_of neighbours_schedule). split; [exact H|]. vm_compute.
  repeat match goal with |- _ /\ _ => split end; try tauto.
  eexists [_; _; _; _; _; _; _], [], _. reflexivity.
Qed.
Theorem C15_race_refuted :
  exists s log, execution s log /\ before log (ECancel 5) (ESend 4) /\ In (EListen 2 5) log /\
    In (EListen 1 background) log /\ In (ECall 4 2) log.
Proof.
  destruct (log_of_execution race_schedule) as [s H]; [vm_compute; discriminate|].
  exists s, (log_of race_schedule). split; [exact H|]. vm_compute.
  repeat match goal with |- _ /\ _ => split end; try tauto.
  eexists [_; _; _; _], [_], _. reflexivity.
Qed.
(** C15, what does hold: a Send that no other goroutine interrupts, when no cancelled listener is
    first or directly behind another cancelled one, invokes exactly the live ones, in order. *)
Theorem C15_uninterrupted_send_partial s log t ls :
  execution s log -> threads s t = None ->
  registered s 0 ls -> ls <> [] -> isolated s true ls ->
  exists N s', runAll s log (ASend t :: repeat (ARun t None) N) =
    Some (s', log ++ ESend t :: delivery_log t (live s ls) ++ [ESent t RNil]).
Proof. exact (qnq_sequential s log t ls). Qed.
(** ... where the listeners met are those whose Listen returned, each with the context it was
    given, and nobody whose context is live is missing. *)
Theorem C15_list_is_the_log s log ls :
  execution s log -> registered s 0 ls ->
  (forall l c, In (l, c) ls ->
     In (EListen l c) log /\ In (EListened l) log /\ (cancelled s c = true <-> In (ECancel c) log)) /\
  (forall l c, In (EListened l) log -> In (EListen l c) log -> ~ In (ECancel c) log -> In (l, c) ls).
Proof.
  intros H R. split; [exact (qnq_registered_log s log 0 ls H R)|].
  intros l c. exact (qnq_registered_all s log ls l c H R).
Qed.

(** C16. *)
Theorem C16_error_stops_and_is_returned s log l1 l2 t l e :
  execution s log -> log = l1 ++ EReply t l (Some e) :: l2 ->
  (forall x, ~ In (ECall t x) l2) /\ In (ESent t (RErr e)) log /\
  (forall r, In (ESent t r) log -> r = RErr e).
Proof. exact (qnq_error s log l1 l2 t l e). Qed.
Theorem C16_earlier_listeners_served s log l1 l2 t l l' e c c' :
  execution s log -> log = l1 ++ EReply t l (Some e) :: l2 ->
  before l1 (EListened l') (EListen l c) -> before l1 (EListened l') (ESend t) ->
  In (EListen l' c') l1 -> ~ In (ECancel c') l1 -> calls t l' log = 1.
Proof. exact (qnq_order_error s log l1 l2 t l l' e c c'). Qed.

(** C17. *)
Theorem C17_registrations_never_lost s log l c :
  execution s log -> In (EListened l) log -> In (EListen l c) log -> ~ In (ECancel c) log ->
  exists n, linked s n /\ nread (nodes s n) = true /\ nhandler (nodes s n) = Some l.
Proof. exact (qnq_linked s log l c). Qed.

(** C61.  Listeners are invoked in the order in which they were registered. *)
Theorem C61_registration_order s log l1 l2 t l l' c c' :
  execution s log -> log = l1 ++ ECall t l :: l2 ->
  before l1 (EListened l') (EListen l c) -> before l1 (EListened l') (ESend t) ->
  In (EListen l' c') l1 -> ~ In (ECancel c') l1 -> calls t l' l1 = 1.
Proof. exact (qnq_order_call s log l1 l2 t l l' c c'). Qed.
Theorem C61_never_reads_unset_listener s log t c :
  execution s log -> threads s t <> Some (mkThread c PPanic).
Proof. exact (qnq_no_panic s log t c). Qed.

(** The hypotheses are met: concurrent Listens and Sends, one failing. *)
Definition busy_schedule : list action :=
  AListen 1 background :: AListen 2 7 :: steps 2 2 ++ steps 1 1 ++ steps 2 3 ++ steps 1 7 ++
  ASend 3 :: ASend 4 :: steps 3 3 ++ steps 4 9 ++ [ARun 4 (Some 8)] ++ steps 3 10.
Example busy : exists s, execution s (log_of busy_schedule).
Proof. apply log_of_execution. vm_compute. discriminate. Qed.
Example busy_log : log_of busy_schedule =
  [EListen 1 0; EListen 2 7; EListened 2; EListened 1; ESend 3; ESend 4; ECall 3 2; ECall 4 2; EReply 4 2 None;
   ECall 4 1; EReply 4 1 (Some 8); ESent 4 (RErr 8); EReply 3 2 None; ECall 3 1; EReply 3 1 None; ESent 3 RNil].
Proof. vm_compute. reflexivity. Qed.

(* a live listener on each side of a cancelled one: what C15_uninterrupted_send_partial assumes *)
Example isolated_case : exists s log, execution s log /\ threads s 9 = None /\
  registered s 0 [(1, 0); (2, 5); (3, 6)] /\ isolated s true [(1, 0); (2, 5); (3, 6)] /\
  live s [(1, 0); (2, 5); (3, 6)] = [(1, 0); (3, 6)].
Proof.
  destruct (runAll init [] (AListen 1 background :: steps 1 4 ++ AListen 2 5 :: steps 2 7 ++
     AListen 3 6 :: steps 3 10 ++ [ACancel 5])) as [[s log]|] eqn:E; [|vm_compute in E; discriminate].
  exists s, log. split; [eapply runAll_execution; [constructor|exact E]|].
  vm_compute in E. injection E as <- <-.
  split; [reflexivity|]. split; [|split; [cbn; repeat split; discriminate|reflexivity]].
  do 3 (eapply reg_cons; [reflexivity|reflexivity|reflexivity|reflexivity|]). apply reg_end; reflexivity.
Qed.

Print Assumptions C13_every_live_listener_exactly_once.
Print Assumptions C13_never_twice.
Print Assumptions C14_empty_only_if_none_invoked.
Print Assumptions C14_nil_only_if_some_invoked.
Print Assumptions C14_live_listener_never_empty.
Print Assumptions C14_send_wrapper.
Print Assumptions C15_cancelled_listener_invoked_refuted.
Print Assumptions C15_neighbours_refuted.
Print Assumptions C15_race_refuted.
Print Assumptions C15_uninterrupted_send_partial.
Print Assumptions C15_list_is_the_log.
Print Assumptions C16_error_stops_and_is_returned.
Print Assumptions C16_earlier_listeners_served.
Print Assumptions C17_registrations_never_lost.
Print Assumptions C61_registration_order.
Print Assumptions C61_never_reads_unset_listener.
