(** Properties C29 to C33, C36 and C65 to C68: the in-memory database. *)
From Verif Require Import GoBase BaseLemmas KvsModel KvsProofs SqlRamModel SqlRamSpec SqlRamProofs
  SqlConcModel SqlConcProofs.
From Coq Require Import Permutation Sorting.Sorted.

(** C29: every history of Insert, Set, Delete, Mutate, Add and Lookup answers
    and changes the map as the abstract map does. *)
Theorem C29_refines_abstract_map :
  forall (K V : Type) (keq : forall a b : K, {a = b} + {a <> b}) (zk : K) (zv : V)
         (key_of : Z -> option K) (os : list op) (r : ram K V),
  ahist zv (load keq (r_map r)) os
        (load keq (r_map (fst (do_ops keq zk zv key_of r os))))
        (snd (do_ops keq zk zv key_of r os)).
Proof. exact @do_ops_refine. Qed.

(** ... and the abstract map leaves no freedom: answers and effects of each
    operation (other than the key Add chooses) are determined. *)
Theorem C29_abstract_map_deterministic :
  forall (K V : Type) (keq : forall a b : K, {a = b} + {a <> b}) (zv : V) (o : @op K V),
  no_add o -> forall m n m' n' r s,
  (forall k, m k = n k) -> astep zv m o m' r -> astep zv n o n' s ->
  r = s /\ forall k, m' k = n' k.
Proof. exact @astep_fun. Qed.

(** C30, any number of goroutines, any schedule, any mix with the other
    operations: the keys returned by Add without error are distinct, as long as
    no more than 2^w keys have been drawn for keys of width w (and fewer than
    2^64).  Missing: after that the counter wraps. *)
Theorem C30_keys_distinct_uint_partial :
  forall (V : Type) (zv : V) (w : Z) allowed (m0 : table) n c,
  0 <= w <= 64 -> n <= 2^w -> n < 2^64 ->
  steps_n Z.eq_dec 0 zv (fun i => i mod 2^w) allowed (start m0) n c ->
  NoDup (added (c_log c)).
Proof.
  intros V zv w allowed m0 n c W N B H.
  eapply (added_distinct Z.eq_dec 0 zv (fun i => i mod 2^w)); [exact H|exact B|].
  exact (key_uint_inj w n W N).
Qed.
Theorem C30_keys_distinct_int_partial :
  forall (V : Type) (zv : V) (w : Z) allowed (m0 : table) n c,
  0 < w <= 64 -> n <= 2^w -> n < 2^64 ->
  steps_n Z.eq_dec 0 zv (fun i => sgn w i) allowed (start m0) n c ->
  NoDup (added (c_log c)).
Proof.
  intros V zv w allowed m0 n c W N B H.
  eapply (added_distinct Z.eq_dec 0 zv (fun i => sgn w i)); [exact H|exact B|].
  intros i j Hi Hj E. apply sgn_inj in E; [|lia].
  eapply (key_uint_inj w n ltac:(lia) N i j Hi Hj E).
Qed.

(** Add never overwrites: success means the key was absent at that moment and
    now holds the value; failure changes nothing. *)
Theorem C30_add_never_overwrites :
  forall (K V : Type) (keq : forall a b : K, {a = b} + {a <> b}) (zk : K) (zv : V) key_of allowed c c' e v k,
  step keq zk zv key_of allowed c c' -> c_log c' = c_log c ++ [e] ->
  e_op e = OAdd v -> e_res e = RKey k None ->
  load keq (c_map c) k = None /\ load keq (c_map c') k = Some v /\
  same_but k (load keq (c_map c)) (load keq (c_map c')).
Proof. exact @add_step_effect. Qed.
Theorem C30_add_failure_changes_nothing :
  forall (K V : Type) (keq : forall a b : K, {a = b} + {a <> b}) (zk : K) (zv : V) key_of allowed c c' e v k er,
  step keq zk zv key_of allowed c c' -> c_log c' = c_log c ++ [e] ->
  e_op e = OAdd v -> e_res e = RKey k (Some er) ->
  load keq (c_map c) k <> None /\ c_map c' = c_map c.
Proof. exact @add_failure_harmless. Qed.

(** Add answers with the key made from the next value of the counter, without an error exactly when that key is
    free; it refuses exactly the key types that are not integers. *)
Theorem C30_add_answers :
  forall (K V : Type) (keq : forall a b : K, {a = b} + {a <> b}) (zk : K) key_of (r : ram K V) v,
  match key_of (u64 (r_id r + 1)) with
  | None => add keq zk key_of r v = (r, (zk, Some ErrInsertOnly))
  | Some k => exists r' e, add keq zk key_of r v = (r', (k, e)) /\ e <> Some ErrInsertOnly /\
      r_id r' = u64 (r_id r + 1) /\ (e = None <-> load keq (r_map r) k = None)
  end.
Proof. intros. apply add_answers. Qed.

(** With uint8 keys, a key that was returned and deleted is returned again. *)
Theorem C30_keys_repeat_refuted :
  let os := OAdd 7 :: ODelete 1 None :: repeat (OAdd 7) 256 in
  let rs := snd (do_ops Z.eq_dec 0 0 (key_uint 8) empty_ram os) in
  nth_error rs 0 = Some (RKey 1 None) /\ nth_error rs 257 = Some (RKey 1 None).
Proof. vm_compute. split; reflexivity. Qed.

(** C31.  For a query whose range is [f,u) with u >= 1, exactly the selected
    records with ordinal in the range are deleted; the count is right when f = 0.
    Missing: u = 0, the count when f > 0, and the refusal without a range. *)
Theorem C31_delete_respects_slice_partial :
  forall (K V : Type) (keq : forall a b : K, {a = b} + {a <> b}) (zk : K) (zv : V)
         order (q : K -> V -> list (expr K V)) r f u m,
  Permutation (r_map r) order -> range_is (q zk zv) f u -> 1 <= u ->
  selects (Some q) order m ->
  exists r', unsafe_delete keq zk zv order (Some q) r = Ok (r', Z.min (zlen m) u) /\
    (forall k v, in_slice f u m (k, v) -> load keq (r_map r') k = None) /\
    (forall k, (forall v, ~ in_slice f u m (k, v)) -> load keq (r_map r') k = load keq (r_map r) k).
Proof. intros K V keq zk zv order q r f u m P R. apply unsafe_delete_spec; [exact P|]. apply first_range_is, R. Qed.
Theorem C31_update_respects_slice_partial :
  forall (K V : Type) (keq : forall a b : K, {a = b} + {a <> b}) (zk : K) (zv : V)
         order (q : K -> V -> list (expr K V)) patch r f u m,
  NoDup (map fst (r_map r)) ->
  Permutation (r_map r) order -> range_is (q zk zv) f u -> 1 <= u ->
  selects (Some q) order m ->
  exists r', update keq zk zv order (Some q) patch r = Ok (r', Z.min (zlen m) u) /\
    (forall k v, in_slice f u m (k, v) -> load keq (r_map r') k = Some (patch v)) /\
    (forall k, (forall v, ~ in_slice f u m (k, v)) -> load keq (r_map r') k = load keq (r_map r) k).
Proof. intros K V keq zk zv order q patch r f u m N P R. apply update_spec; [exact N|exact P|]. apply first_range_is, R. Qed.
Theorem C31_count_right_from_zero_partial :
  forall n u, 0 <= n -> 1 <= u -> Z.min n u = slice_count 0 u n.
Proof. intros. unfold slice_count. lia. Qed.

(** The operations are not refused without a range: one record is deleted. *)
Theorem C31_no_range_deletes_refuted :
  forall (K V : Type) (keq : forall a b : K, {a = b} + {a <> b}) (zk : K) (zv : V)
         order (q : K -> V -> list (expr K V)) r k v m,
  no_range (q zk zv) -> selects (Some q) order ((k, v) :: m) ->
  exists r', unsafe_delete keq zk zv order (Some q) r = Ok (r', 1) /\ load keq (r_map r') k = None.
Proof. intros K V keq zk zv order q r k v m R. apply unsafe_delete_no_range. apply first_range_none, R. Qed.
(** A nil query is a panic, not a refusal. *)
Theorem C31_nil_query_panics_refuted :
  forall (K V : Type) (keq : forall a b : K, {a = b} + {a <> b}) (zk : K) (zv : V) order patch r,
  unsafe_delete keq zk zv order None r = Panic /\ update keq zk zv order None patch r = Panic.
Proof. exact @nil_query_panics. Qed.
(** Slice(0, 0) deletes one record; Slice(1, 2) of two records deletes one and reports two. *)
Theorem C31_empty_slice_deletes_refuted :
  unsafe_delete Z.eq_dec 0 0 [(5, 50)] (Some (fun _ _ => [ERange 0 0])) {| r_map := [(5, 50)]; r_id := 0 |}
  = Ok ({| r_map := []; r_id := 0 |}, 1).
Proof. reflexivity. Qed.
Theorem C31_count_includes_skipped_refuted :
  unsafe_delete Z.eq_dec 0 0 [(5, 50); (6, 60)] (Some (fun _ _ => [ERange 1 2]))
                {| r_map := [(5, 50); (6, 60)]; r_id := 0 |}
  = Ok ({| r_map := [(5, 50)]; r_id := 0 |}, 2) /\ slice_count 1 2 2 = 1.
Proof. split; reflexivity. Qed.

(** C32 without a Slice condition: whatever order the table is visited in and
    however sort.Slice sorts, Search yields the selected records, each once; and
    a consumer that stops after n sees the first n of them.  Missing: the Slice. *)
Theorem C32_search_exact_partial :
  forall (K V : Type) (keq : forall a b : K, {a = b} + {a <> b}) (zk : K) (zv : V) (s : sorter),
  sort_contract s -> forall order r (q : option (K -> V -> list (expr K V))) m,
  NoDup (map fst (r_map r)) -> Permutation (r_map r) order -> selects q order m ->
  Permutation m (search keq zk zv s order r q collect []).
Proof. exact @search_exact. Qed.
Theorem C32_search_stops_early :
  forall (K V : Type) (keq : forall a b : K, {a = b} + {a <> b}) (zk : K) (zv : V) (s : sorter)
         order r (q : option (K -> V -> list (expr K V))) n, (0 < n)%nat ->
  search keq zk zv s order r q (collect_n n) [] = firstn n (search keq zk zv s order r q collect []).
Proof. exact @search_prefix. Qed.
(** all reachable tables have distinct keys, as C32 assumes *)
Theorem C32_tables_have_distinct_keys :
  forall (K V : Type) (keq : forall a b : K, {a = b} + {a <> b}) (zk : K) (zv : V) key_of os,
  NoDup (map fst (r_map (fst (do_ops keq zk zv key_of empty_ram os)))).
Proof. intros. apply do_ops_nodup. constructor. Qed.
Theorem C32_slice_ignored_refuted :
  search Z.eq_dec 0 0 insertion_sort [(1, 1); (2, 2); (3, 3)] {| r_map := [(1, 1); (2, 2); (3, 3)]; r_id := 0 |}
    (Some (fun _ _ => [ERange 0 1])) collect [] = [(1, 1); (2, 2); (3, 3)].
Proof. reflexivity. Qed.

(** C33 for one Order condition on (part of) the key.  Missing: orders on the
    value, and several orders. *)
Theorem C33_key_order_sorted_partial :
  forall (K V : Type) (keq : forall a b : K, {a = b} + {a <> b}) (zk : K) (zv : V) (s : sorter),
  sort_contract s -> forall order r (q : K -> V -> list (expr K V)) (klt : K -> K -> bool),
  NoDup (map fst (r_map r)) -> Permutation (r_map r) order -> strict_weak klt ->
  only_order (q zk zv) (fun a b => klt (fst a) (fst b)) ->
  sorted_by (fun a b => klt (fst a) (fst b)) (search keq zk zv s order r (Some q) collect []).
Proof. intros K V keq zk zv s C order r q klt N P W O. apply search_sorted; try assumption. apply orders_only, O. Qed.
(** Go's sort of up to 12 elements meets the contract. *)
Theorem C33_sort_contract_met : forall A, sort_contract (@insertion_sort A).
Proof. exact @insertion_contract. Qed.
(** Ordering by value: not sorted. *)
Theorem C33_value_order_refuted :
  exists t : list (Z * Z), NoDup (map fst t) /\
  ~ sorted_by (fun a b => snd a <? snd b)
     (search Z.eq_dec 0 0 insertion_sort t {| r_map := t; r_id := 0 |}
        (Some (fun _ _ => [EOrder (fun a b => snd a <? snd b)])) collect []).
Proof.
  exists [(0, 3); (1, 1); (2, 2)]. split.
  - repeat constructor; cbn; intuition congruence.
  - vm_compute. intros H. inversion H as [|? ? H1 H2]; subst. inversion H1 as [|? ? H3 H4]; subst.
    inversion H4; subst. discriminate.
Qed.
(** Two orders, both on the key: not lexicographic. *)
Theorem C33_two_orders_refuted :
  let o1 (a b : (Z * Z) * Z) := fst (fst a) <? fst (fst b) in
  let o2 (a b : (Z * Z) * Z) := snd (fst a) <? snd (fst b) in
  exists (keq : forall a b : Z * Z, {a = b} + {a <> b}) (t : list ((Z * Z) * Z)),
  NoDup (map fst t) /\
  ~ sorted_by (lex [o1; o2])
     (search keq (0, 0) 0 insertion_sort t {| r_map := t; r_id := 0 |}
        (Some (fun _ _ => [EOrder o1; EOrder o2])) collect []).
Proof.
  intros o1 o2.
  assert (keq : forall a b : Z * Z, {a = b} + {a <> b}) by (intros [] []; repeat decide equality).
  exists keq. exists [((1, 5), 0); ((1, 3), 0)]. split.
  - repeat constructor; cbn; intuition congruence.
  - intros H. cbn -[sorted_by] in H.
    destruct (keq (1, 5) (1, 5)) as [_|N]; [|congruence].
    destruct (keq (1, 3) (1, 5)) as [E|_]; [congruence|].
    destruct (keq (1, 3) (1, 3)) as [_|N]; [|congruence].
    inversion H as [|? ? H1 H2]; subst. inversion H2 as [|? ? H3 H4]; subst. discriminate.
Qed.

(** C36: nested conditions built with Merge, Cases and Avoid are the boolean
    algebra, and a query matches iff all its conditions hold. *)
Theorem C36_combinators_are_boolean :
  forall (K V : Type) (c : cond), @build K V c = EValue (holds c).
Proof. exact @build_spec. Qed.
Theorem C36_query_is_conjunction :
  forall (K V : Type) (l : list cond),
  match_ (map (@build K V) l) = true <-> Forall (fun c => holds c = true) l.
Proof. exact @match_conds. Qed.
(** Conditions mixed with a Slice in one Merge are all ignored. *)
Theorem C36_merge_with_slice_ignores_conditions_refuted :
  match_ [merge [@ERange Z Z 0 10; EValue false]] = true.
Proof. reflexivity. Qed.

(** C65: with any number of goroutines calling Mutate, Delete and Lookup in any
    interleaving, the operations take effect one at a time in the order of the
    log, each with the answer the sequential map gives.  Missing: Insert, Set,
    Add, UnsafeDelete and Update, which do not take the lock. *)
Theorem C65_mutate_atomic_partial :
  forall (K V : Type) (keq : forall a b : K, {a = b} + {a <> b}) (zk : K) (zv : V) key_of m0 c,
  steps keq zk zv key_of locked_only (start m0) c ->
  do_ops keq zk zv (fun d => Some (key_of d)) {| r_map := m0; r_id := 0 |} (map e_op (c_log c))
  = ({| r_map := c_map c; r_id := 0 |}, map e_res (c_log c)).
Proof. intros K V keq zk zv key_of m0 c H. exact (i_seq _ _ _ _ _ _ (inv_steps keq zk zv key_of m0 c H)). Qed.
Theorem C65_mutual_exclusion :
  forall (K V : Type) (keq : forall a b : K, {a = b} + {a <> b}) (zk : K) (zv : V) key_of m0 c t t',
  steps keq zk zv key_of locked_only (start m0) c ->
  critical (c_threads c t) -> critical (c_threads c t') -> t = t'.
Proof. exact @mutual_exclusion. Qed.
(** A Set that runs inside a Mutate is lost: the outcome is that of no serial order. *)
Theorem C65_set_lost_refuted :
  let inc := OMutate 1 None (fun v => v + 1) in
  let put := OSet 1 10 in
  exists c, steps Z.eq_dec 0 0 (fun i => i) (fun _ => True) (start [(1, 0)]) c /\
    Permutation (map e_op (c_log c)) [inc; put] /\
    load Z.eq_dec (c_map c) 1 = Some 1 /\
    (forall os, Permutation os [inc; put] ->
       load Z.eq_dec (r_map (fst (do_ops Z.eq_dec 0 0 (fun d => Some d) {| r_map := [(1, 0)]; r_id := 0 |} os))) 1
       <> Some 1).
Proof.
  intros inc put. eexists. split; [|split; [|split]].
  - eapply steps_snoc. eapply steps_snoc. eapply steps_snoc. eapply steps_snoc. eapply steps_refl.
    + eapply step_lock with (t := 0%nat) (o := inc); [exact I|exact I|reflexivity].
    + eapply step_load_ok with (t := 0%nat) (o := inc); [reflexivity|reflexivity].
    + eapply step_atomic with (t := 1%nat) (o := put); [exact I|reflexivity|exact I|reflexivity].
    + eapply step_store with (t := 0%nat); reflexivity.
  - cbn. apply perm_swap.
  - reflexivity.
  - intros os P. apply Permutation_sym in P. apply Permutation_length_2_inv in P.
    destruct P as [->| ->]; vm_compute; discriminate.
Qed.

(** C66: Count and Length. *)
Theorem C66_count_exact :
  forall (K V : Type) (order : list (K * V)) (r : ram K V) q m,
  Permutation (r_map r) order -> selects q (r_map r) m -> count order q = Ok (zlen m).
Proof. exact @count_spec. Qed.
Theorem C66_length_exact :
  forall (K V : Type) (order : list (K * V)) (r : ram K V),
  Permutation (r_map r) order -> length_ order = Ok (zlen (r_map r)).
Proof. exact @length_spec. Qed.

(** C67: First returns a matching record, or nothing exactly when there is none. *)
Theorem C67_first_exact :
  forall (K V : Type) (keq : forall a b : K, {a = b} + {a <> b}) (zk : K) (zv : V) (s : sorter),
  sort_contract s -> forall order r (q : option (K -> V -> list (expr K V))) m,
  NoDup (map fst (r_map r)) -> Permutation (r_map r) order -> selects q order m ->
  match first keq zk zv s order r q with
  | Some (k, v) => In (k, v) m
  | None => m = []
  end.
Proof. exact @first_spec. Qed.

(** C68: Sum panics on every in-memory table with a matching record. *)
Theorem C68_sum_panics_refuted :
  forall (K V : Type) (col : K -> V -> Z) q (order : list (K * V)) n,
  (exists k v, In (k, v) order /\ wanted q k v) ->
  output_loop order q (stat_sum col) n = Panic.
Proof. exact @sum_panics. Qed.

(** Non-vacuity *)
Example C29_case :
  do_ops Z.eq_dec 0 0 (key_int 64) empty_ram
    [OInsert 5 false 50; OInsert 5 false 51; OLookup 5; OMutate 5 (Some (fun v => [EValue (v =? 50)])) (fun v => v + 1);
     ODelete 5 (Some (fun v => [EValue (v =? 50)])); OAdd 9; OLookup 5; OLookup 77]
  = ({| r_map := [(1, 9); (5, 51)]; r_id := 1 |},
     [RErr None; RErr (Some ErrDuplicate); RVal 50 true; RBool true; RBool false; RKey 1 None;
      RVal 51 true; RVal 0 false]).
Proof. reflexivity. Qed.
Example C30_case : exists c,
  steps_n Z.eq_dec 0 0 (fun i => i mod 2^8) (fun _ => True) (start []) 2 c /\
  map e_res (c_log c) = [RKey 2 None; RKey 1 None].
Proof.
  eexists. split.
  - change 2 with (0 + 1 + 1).
    eapply sn_other. eapply sn_other. eapply sn_draw. eapply sn_draw. eapply sn_refl.
    + eapply step_draw with (t := 0%nat) (v := 70); [exact I|reflexivity].
    + discriminate.
    + eapply step_draw with (t := 1%nat) (v := 71); [exact I|reflexivity].
    + discriminate.
    + eapply step_add_store with (t := 1%nat); reflexivity.
    + reflexivity.
    + eapply step_add_store with (t := 0%nat); reflexivity.
    + reflexivity.
  - reflexivity.
Qed.
Definition ex_q : Z -> Z -> list (expr Z Z) := fun k v => [ERange 0 2; EValue (10 <? v); EOrder (fun a b => fst b <? fst a)].
Definition ex_t : list (Z * Z) := [(1, 20); (2, 5); (3, 30); (4, 40)].
Example C31_range : range_is (ex_q 0 0) 0 2 /\ only_order (ex_q 0 0) (fun a b => fst b <? fst a).
Proof.
  split.
  - exists [], [EValue (10 <? 0); EOrder (fun a b => fst b <? fst a)]. split; [reflexivity|constructor].
  - exists [ERange 0 2; EValue (10 <? 0)], []. split; [reflexivity|]. repeat constructor; intros [].
Qed.
Example C31_case :
  unsafe_delete Z.eq_dec 0 0 ex_t (Some ex_q) {| r_map := ex_t; r_id := 0 |}
  = Ok ({| r_map := [(2, 5); (4, 40)]; r_id := 0 |}, 2).
Proof. reflexivity. Qed.
Example C33_case :
  strict_weak (fun a b => b <? a) /\
  search Z.eq_dec 0 0 insertion_sort ex_t {| r_map := ex_t; r_id := 0 |} (Some ex_q) collect []
  = [(4, 40); (3, 30); (1, 20)].
Proof.
  split; [|reflexivity]. split; [|split]; intros.
  - apply Z.ltb_irrefl.
  - apply Z.ltb_lt in H, H0. apply Z.ltb_lt. lia.
  - apply Z.ltb_lt in H. destruct (Z.ltb_spec b a); [now left|right; apply Z.ltb_lt; lia].
Qed.
Example C36_case :
  holds (CAnd [COr [CVal false; CNot (CVal false)]; CAnd []; COr []]) = true /\
  @build Z Z (CAnd [COr [CVal false; CNot (CVal false)]; CAnd []; COr []]) = EValue true.
Proof. split; reflexivity. Qed.
Example C66_case : count ex_t (Some ex_q) = Ok 3 /\ selects (Some ex_q) ex_t [(1, 20); (3, 30); (4, 40)].
Proof.
  split; [reflexivity|].
  assert (E : [(1, 20); (3, 30); (4, 40)] = filter_q (Some ex_q) ex_t) by reflexivity.
  rewrite E. apply selects_filter.
Qed.

Print Assumptions C29_refines_abstract_map.
Print Assumptions C29_abstract_map_deterministic.
Print Assumptions C30_keys_distinct_uint_partial.
Print Assumptions C30_keys_distinct_int_partial.
Print Assumptions C30_add_never_overwrites.
Print Assumptions C30_add_failure_changes_nothing.
Print Assumptions C30_keys_repeat_refuted.
Print Assumptions C31_delete_respects_slice_partial.
Print Assumptions C31_update_respects_slice_partial.
Print Assumptions C31_count_right_from_zero_partial.
Print Assumptions C31_no_range_deletes_refuted.
Print Assumptions C31_nil_query_panics_refuted.
Print Assumptions C31_empty_slice_deletes_refuted.
Print Assumptions C31_count_includes_skipped_refuted.
Print Assumptions C32_search_exact_partial.
Print Assumptions C32_search_stops_early.
Print Assumptions C32_tables_have_distinct_keys.
Print Assumptions C32_slice_ignored_refuted.
Print Assumptions C33_key_order_sorted_partial.
Print Assumptions C33_sort_contract_met.
Print Assumptions C33_value_order_refuted.
Print Assumptions C33_two_orders_refuted.
Print Assumptions C36_combinators_are_boolean.
Print Assumptions C36_query_is_conjunction.
Print Assumptions C36_merge_with_slice_ignores_conditions_refuted.
Print Assumptions C65_mutate_atomic_partial.
Print Assumptions C65_mutual_exclusion.
Print Assumptions C65_set_lost_refuted.
Print Assumptions C66_count_exact.
Print Assumptions C66_length_exact.
Print Assumptions C67_first_exact.
Print Assumptions C68_sum_panics_refuted.
Print Assumptions C30_add_answers.
