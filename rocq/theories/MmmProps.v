(** C18-C23, C63, C64: manually managed memory (mmm). *)
From Verif Require Import BaseLemmas MmmModel MmmSpec MmmProofs MmmStack.

(** C18: once a pointer with a non-zero raw value has been ended, or freed, every use of it panics and changes nothing,
    after every further history (of fewer than 2^62-1 revision increments). *)
Theorem C18_use_after_end_detected : forall w s1 ps ls p v s2 s3 ps3 ls3 o,
  reaches any (start w) (s1, ps, ls) -> In p ps -> run (OEnd p) s1 = Some (Ok (RVal v), s2) -> v <> 0 ->
  reaches any (s2, ps, ls) (s3, ps3, ls3) -> counter_ok s3 -> uses p o -> rejected o s3.
Proof. exact use_after_end. Qed.
Theorem C18_use_after_free_detected : forall w s1 ps ls p v s2 s3 ps3 ls3 o,
  reaches any (start w) (s1, ps, ls) -> In p ps -> run (OGet p) s1 = Some (Ok (RVal v), s1) -> v <> 0 ->
  run (OFree p) s1 = Some (Ok RUnit, s2) ->
  reaches any (s2, ps, ls) (s3, ps3, ls3) -> counter_ok s3 -> uses p o -> rejected o s3.
Proof. exact use_after_free. Qed.
Theorem C18_detected_forever : forall w s1 ps ls p s2 ps2 ls2 o,
  reaches any (start w) (s1, ps, ls) -> In p ps -> p <> None -> rejected (OGet p) s1 ->
  reaches any (s1, ps, ls) (s2, ps2, ls2) -> counter_ok s2 -> uses p o -> rejected o s2.
Proof. exact detected_forever. Qed.
Print Assumptions C18_use_after_end_detected.
Print Assumptions C18_use_after_free_detected.
Print Assumptions C18_detected_forever.

(** C19, restricted to histories that free by hand only the newest pointer of a lifetime and use APIs that are not nil:
    ending a lifetime terminates, frees exactly its remaining pointers, once each, newest first, makes them stale, and
    leaves the pointers of the other lifetimes alone. *)
Theorem C19_end_frees_each_once_partial : forall s before after l st, disciplined s (before ++ (l, st) :: after) ->
  exists s', (forall fuel, (length st < fuel)%nat -> run (OEndLifetime fuel l) s = Some (Ok RUnit, s')) /\
    released s' = released s ++ map snd st /\
    (forall p v, In (p, v) st -> v <> 0 -> rejected (OGet p) s' /\ rejected (OFree p) s') /\
    (forall l' st' p v, In (l', st') (before ++ after) -> In (p, v) st' -> run (OGet p) s' = Some (Ok (RVal v), s')).
Proof. exact end_frees_all. Qed.
Theorem C19_free_newest_partial : forall s before after l st p v, disciplined s (before ++ (l, (p, v) :: st) :: after) ->
  exists s', run (OFree p) s = Some (Ok RUnit, s') /\ released s' = released s ++ [v] /\
    (forall l' st' q w, In (l', st') (before ++ (l, st) :: after) -> In (q, w) st' -> run (OGet q) s' = Some (Ok (RVal w), s')).
Proof. exact free_newest. Qed.
Print Assumptions C19_end_frees_each_once_partial.
Print Assumptions C19_free_newest_partial.

Definition w0 : nat -> Z * Z := fun _ => (0, 0).
Definition L1 := mkLifetime 0 1.
Definition P2 : ptr := Some (0, 2%nat).
Definition P3 : ptr := Some (0, 3%nat).
(** Freeing the older of two pointers makes the lifetime forget the newer one: it is never freed. *)
Theorem C19_older_freed_first_leaks_refuted :
  let os := [ONewLifetime None; ONew L1 1 10 None; ONew L1 1 20 None; OFree P2; OEndLifetime 10 L1; OGet P3] in
  replies os (init w0) = Some [Ok (RLife L1); Ok (RPtr P2); Ok (RPtr P3); Ok RUnit; Ok RUnit; Ok (RVal 20)] /\
  final released os (init w0) = Some [10].
Proof. vm_compute. split; reflexivity. Qed.
(** Freeing both by hand in the order of creation makes End panic. *)
Theorem C19_both_freed_end_panics_refuted :
  replies [ONewLifetime None; ONew L1 1 10 None; ONew L1 1 20 None; OFree P2; OFree P3; OEndLifetime 10 L1] (init w0)
  = Some [Ok (RLife L1); Ok (RPtr P2); Ok (RPtr P3); Ok RUnit; Ok RUnit; Panic].
Proof. vm_compute. reflexivity. Qed.
(** ... and if the first block is meanwhile recycled for another lifetime, End frees that lifetime's pointer. *)
Theorem C19_end_frees_foreign_pointer_refuted :
  let L4 := mkLifetime 0 4 in let Q : ptr := Some (1, 2%nat) in
  let os := [ONewLifetime None; ONew L1 1 10 None; ONew L1 1 20 None; OFree P2; ONewLifetime None; ONew L4 1 30 (Some 0%nat);
             OFree P3; OGet Q] in
  replies os (init w0) = Some [Ok (RLife L1); Ok (RPtr P2); Ok (RPtr P3); Ok RUnit; Ok (RLife L4); Ok (RPtr Q); Ok RUnit; Ok (RVal 30)] /\
  replies (os ++ [OEndLifetime 10 L1; OGet Q]) (init w0) =
    Some [Ok (RLife L1); Ok (RPtr P2); Ok (RPtr P3); Ok RUnit; Ok (RLife L4); Ok (RPtr Q); Ok RUnit; Ok (RVal 30); Ok RUnit; Panic] /\
  final released (os ++ [OEndLifetime 10 L1]) (init w0) = Some [10; 20; 30].
Proof. vm_compute. repeat split; reflexivity. Qed.
(** A pointer with a nil API is never freed. *)
Theorem C19_nil_api_leaks_refuted :
  let os := [ONewLifetime None; ONew L1 0 10 None; OEndLifetime 10 L1; OGet P2] in
  replies os (init w0) = Some [Ok (RLife L1); Ok (RPtr P2); Ok RUnit; Ok (RVal 10)] /\ final released os (init w0) = Some [].
Proof. vm_compute. split; reflexivity. Qed.

(** C20: double free is detected unless the raw value is zero. *)
Theorem C20_double_free_detected_partial : forall w s1 ps ls p v s2 s3 ps3 ls3,
  reaches any (start w) (s1, ps, ls) -> In p ps -> run (OGet p) s1 = Some (Ok (RVal v), s1) -> v <> 0 ->
  run (OFree p) s1 = Some (Ok RUnit, s2) ->
  reaches any (s2, ps, ls) (s3, ps3, ls3) -> counter_ok s3 -> rejected (OFree p) s3 /\ rejected (OEnd p) s3.
Proof. intros. split; eapply use_after_free; eauto; reflexivity. Qed.
Print Assumptions C20_double_free_detected_partial.
(** For the raw value zero a second Free succeeds, the block is pooled twice, and two later pointers share it. *)
Theorem C20_zero_value_double_free_refuted :
  let os := [ONewLifetime None; ONew L1 1 0 None; OFree P2; OFree P2; ONew L1 1 7 (Some 0%nat); ONew L1 1 8 (Some 0%nat); OGet P2] in
  replies os (init w0) = Some [Ok (RLife L1); Ok (RPtr P2); Ok RUnit; Ok RUnit; Ok (RPtr P2); Ok (RPtr P2); Ok (RVal 8)].
Proof. vm_compute. reflexivity. Qed.

(** C21: Copy writes to the user's API object, and both copies are freed. *)
Theorem C21_copy_changes_api_object_refuted :
  let os := [ONewLifetime None; ONew L1 1 10 None; OCopy P2 L1 None] in
  replies os (init w0) = Some [Ok (RLife L1); Ok (RPtr P2); Ok (RPtr P3)] /\
  words (init w0) 1%nat = (0, 0) /\ final (fun s => words s 1%nat) os (init w0) = Some (1, 0).
Proof. vm_compute. repeat split; reflexivity. Qed.
Theorem C21_copies_freed_twice_refuted :
  let L3 := mkLifetime 0 3 in let Q : ptr := Some (0, 4%nat) in
  let os := [ONewLifetime None; ONew L1 1 10 None; ONewLifetime None; OCopy P2 L3 None; OEndLifetime 10 L1; OEndLifetime 10 L3] in
  replies os (init w0) = Some [Ok (RLife L1); Ok (RPtr P2); Ok (RLife L3); Ok (RPtr Q); Ok RUnit; Ok RUnit] /\
  final released os (init w0) = Some [10; 10].
Proof. vm_compute. split; reflexivity. Qed.

(** C22 *)
Theorem C22_pinned_never_moved_or_copied : forall w s1 ps ls o p s2 s3 ps3 ls3 l pick,
  reaches any (start w) (s1, ps, ls) -> args_ok ps ls o ->
  (exists l a v pick, o = OPin l a v pick \/ o = OLet l a v pick) -> run o s1 = Some (Ok (RPtr p), s2) ->
  reaches any (s2, p :: ps, ls) (s3, ps3, ls3) -> counter_ok s3 ->
  rejected (OMove p l pick) s3 /\ rejected (OCopy p l pick) s3.
Proof. exact pinned_rejected. Qed.
Print Assumptions C22_pinned_never_moved_or_copied.

(** C23, for lifetimes made by NewLifetime, in histories that do not use pinned pointers as lifetimes. *)
Theorem C23_end_twice_harmless_partial : forall w s1 ps ls l fuel s2 s3 ps3 ls3 fuel',
  reaches no_life (start w) (s1, ps, ls) -> In l ls -> run (OEndLifetime fuel l) s1 = Some (Ok RUnit, s2) ->
  reaches no_life (s2, ps, ls) (s3, ps3, ls3) -> counter_ok s3 ->
  run (OEndLifetime fuel' l) s3 = Some (Ok RUnit, s3).
Proof. exact end_twice. Qed.
Print Assumptions C23_end_twice_harmless_partial.

(** The lifetime of a pinned pointer whose raw value is zero is not protected: its second End panics. *)
Theorem C23_pinned_zero_lifetime_refuted :
  let LP := mkLifetime (2^63) 2 in
  replies [ONewLifetime None; OPin L1 1 0 None; OLife P2; OEndLifetime 10 LP; OEndLifetime 10 LP] (init w0)
  = Some [Ok (RLife L1); Ok (RPtr P2); Ok (RLife LP); Ok RUnit; Panic].
Proof. vm_compute. reflexivity. Qed.

(** C63: Move makes the pointer unusable, and the moved pointer is not handed out. *)
Theorem C63_moved_pointer_unusable_refuted :
  let L3 := mkLifetime 0 3 in
  replies [ONewLifetime None; ONew L1 1 10 None; ONewLifetime None; OMove P2 L3 None; OGet P2] (init w0)
  = Some [Ok (RLife L1); Ok (RPtr P2); Ok (RLife L3); Ok RUnit; Panic].
Proof. vm_compute. reflexivity. Qed.

(** C64: Copy of a stale pointer panics, but first marks the block's new owner as copied, so that it can no longer be moved. *)
Theorem C64_stale_copy_changes_other_pointer_refuted :
  let Q : ptr := Some (1, 2%nat) in
  let os := [ONewLifetime None; ONew L1 1 10 None; OFree P2; ONew L1 1 20 (Some 0%nat)] in
  replies (os ++ [OMove Q L1 None]) (init w0) = Some [Ok (RLife L1); Ok (RPtr P2); Ok RUnit; Ok (RPtr Q); Ok RUnit] /\
  replies (os ++ [OCopy P2 L1 None; OMove Q L1 None]) (init w0) = Some [Ok (RLife L1); Ok (RPtr P2); Ok RUnit; Ok (RPtr Q); Panic; Panic].
Proof. vm_compute. split; reflexivity. Qed.

(** C81: in the same histories a pointer that is not freed reads the value it was made with or was last set to, whatever
    happened to the others; New always succeeds and hands out a pointer distinct from the live ones, with the API given. *)
Theorem C81_get_returns_last_set_partial : forall s open l st p v, disciplined s open -> In (l, st) open -> In (p, v) st ->
  run (OGet p) s = Some (Ok (RVal v), s).
Proof. exact get_live. Qed.
Theorem C81_set_succeeds_partial : forall s open l st p v v', disciplined s open -> In (l, st) open -> In (p, v) st ->
  exists s', run (OSet p v') s = Some (Ok RUnit, s') /\ released s' = released s.
Proof. exact set_live. Qed.
Theorem C81_new_succeeds_partial : forall s before after l st a v pick, disciplined s (before ++ (l, st) :: after) -> a <> O ->
  exists p s', run (ONew l a v pick) s = Some (Ok (RPtr p), s') /\ released s' = released s /\
    run (OApi p) s' = Some (Ok (RVal (Z.of_nat a)), s') /\
    (forall l' st' q w, In (l', st') (before ++ (l, st) :: after) -> In (q, w) st' -> q <> p).
Proof. exact new_live. Qed.

(** The hypotheses are met by concrete histories. *)
Definition after_ops (os : list op) : state := match script os (init w0) with Some (_, s) => s | None => init w0 end.
(* a block is ended, recycled, and the old pointer is used *)
Example C18_example : exists s1 s2 s3,
  reaches any (start w0) (s1, [P2; None], [L1]) /\ run (OEnd P2) s1 = Some (Ok (RVal 10), s2) /\
  reaches any (s2, [P2; None], [L1]) (s3, [Some (1, 2%nat); P2; None], [L1]) /\ counter_ok s3 /\ rejected (OGet P2) s3 /\
  run (OGet (Some (1, 2%nat))) s3 = Some (Ok (RVal 20), s3).
Proof.
  exists (after_ops [ONewLifetime None; ONew L1 1 10 None]), (after_ops [ONewLifetime None; ONew L1 1 10 None; OEnd P2]),
    (after_ops [ONewLifetime None; ONew L1 1 10 None; OEnd P2; ONew L1 1 20 (Some 0%nat)]).
  split; [|split; [|split; [|split; [|split]]]].
  - eapply (reaches_step any _ (after_ops [ONewLifetime None]) [None] [L1] (ONew L1 1 10 None) (Ok (RPtr P2))); [|left; reflexivity|exact Logic.I|vm_compute; reflexivity].
    eapply (reaches_step any _ (init w0) [None] [] (ONewLifetime None) (Ok (RLife L1))); [apply reaches_refl|exact Logic.I|exact Logic.I|vm_compute; reflexivity].
  - vm_compute. reflexivity.
  - eapply (reaches_step any _ _ [P2; None] [L1] (ONew L1 1 20 (Some 0%nat)) (Ok (RPtr (Some (1, 2%nat))))); [apply reaches_refl|left; reflexivity|exact Logic.I|vm_compute; reflexivity].
  - vm_compute. reflexivity.
  - vm_compute. reflexivity.
  - vm_compute. reflexivity.
Qed.
Example C19_example : exists s, disciplined s ([] ++ (L1, [(P3, 20); (P2, 10)]) :: []).
Proof.
  exists (after_ops [ONewLifetime None; OPin L1 1 10 None; ONew L1 1 20 None]).
  apply (disc_new (after_ops [ONewLifetime None; OPin L1 1 10 None]) [] [] L1 [(P2, 10)] 1%nat 20 None); [|discriminate|vm_compute; reflexivity].
  apply (disc_pin (after_ops [ONewLifetime None]) [] [] L1 [] 1%nat 10 None); [|discriminate|vm_compute; reflexivity].
  apply (disc_lifetime (init w0) [] None); [apply (disc_start w0)|vm_compute; reflexivity].
Qed.
Example C81_example : exists s, disciplined s ([] ++ (L1, [] ++ [(P3, 20)] ++ (P2, 99) :: []) :: []).
Proof.
  exists (after_ops [ONewLifetime None; OPin L1 1 10 None; ONew L1 1 20 None; OSet P2 99]).
  apply (disc_set (after_ops [ONewLifetime None; OPin L1 1 10 None; ONew L1 1 20 None]) [] [] L1 [(P3, 20)] [] P2 10 99); [|vm_compute; reflexivity].
  apply (disc_new (after_ops [ONewLifetime None; OPin L1 1 10 None]) [] [] L1 [(P2, 10)] 1%nat 20 None); [|discriminate|vm_compute; reflexivity].
  apply (disc_pin (after_ops [ONewLifetime None]) [] [] L1 [] 1%nat 10 None); [|discriminate|vm_compute; reflexivity].
  apply (disc_lifetime (init w0) [] None); [apply (disc_start w0)|vm_compute; reflexivity].
Qed.
Example C22_example : exists s1 s2, reaches any (start w0) (s1, [None], [L1]) /\ run (OPin L1 1 10 None) s1 = Some (Ok (RPtr P2), s2) /\
  counter_ok s2 /\ rejected (OMove P2 L1 None) s2 /\ rejected (OCopy P2 L1 None) s2 /\ run (OGet P2) s2 = Some (Ok (RVal 10), s2).
Proof.
  exists (after_ops [ONewLifetime None]), (after_ops [ONewLifetime None; OPin L1 1 10 None]).
  split; [|split; [vm_compute; reflexivity|repeat split; vm_compute; reflexivity]].
  apply (reaches_step any _ (init w0) [None] [] (ONewLifetime None) (Ok (RLife L1))); [apply reaches_refl|exact Logic.I|exact Logic.I|vm_compute; reflexivity].
Qed.
(** Values that were lent with Let stay their owner's: ending the lifetime makes the pointer
    stale and releases nothing. *)
Theorem C19_lent_not_released_partial : forall a v,
  let s := after_ops [ONewLifetime None; OLet L1 (S a) v None; OEndLifetime 10 L1] in
  released s = [] /\ (v <> 0 -> rejected (OGet P2) s) /\
  released (after_ops [ONewLifetime None; ONew L1 (S a) v None; OEndLifetime 10 L1]) = [v].
Proof.
  intros a v s. subst s. destruct v as [|v|v].
  - split; [vm_compute; reflexivity|]. split; [intros H; exfalso; apply H; reflexivity|vm_compute; reflexivity].
  - split; [vm_compute; reflexivity|]. split; [intros _; vm_compute; reflexivity|vm_compute; reflexivity].
  - split; [vm_compute; reflexivity|]. split; [intros _; vm_compute; reflexivity|vm_compute; reflexivity].
Qed.
(* the root is recycled for a new lifetime; ending the old one again does not touch it *)
Example C23_example :
  let M1 := mkLifetime 1 1 in
  replies [ONewLifetime None; OEndLifetime 10 L1; ONewLifetime (Some 0%nat); ONew M1 1 10 None; OEndLifetime 10 L1; OGet P2] (init w0)
  = Some [Ok (RLife L1); Ok RUnit; Ok (RLife M1); Ok (RPtr P2); Ok RUnit; Ok (RVal 10)].
Proof. vm_compute. reflexivity. Qed.
Print Assumptions C81_get_returns_last_set_partial.
Print Assumptions C81_set_succeeds_partial.
Print Assumptions C81_new_succeeds_partial.
