(** Properties C58 and C59 of package via. *)
From Verif Require Import GoBase BaseLemmas ViaModel ViaSpec.

(** ** C58: cached state *)
(** Every type that can be cached fits. *)
Theorem C58_fits n : cacheable_size n -> 1 <= n <= 16.
Proof.
  intros (size & bare & most & I & X). cbn [cacheable_rows In] in I.
  repeat (destruct I as [I|I]; [injection I as <- <- <-; destruct X as [[? ->]|(k & K & ->)]; lia|]). destruct I.
Qed.
Lemma type_for_eqb p q : iface_eqb (type_for p) (type_for q) = (p =? q).
Proof. reflexivity. Qed.
(** What is stored under a type comes back under it, bit by bit, and panics under any other. *)
Theorem C58_round_trip p q n b : cacheable_size n -> zlen b = n ->
  cached_of q n (new_cache p b) = if p =? q then Ok b else Panic.
Proof.
  intros F L. apply C58_fits in F. unfold cached_of, new_cache. cbn [rtype_tab rtype_data value]. rewrite <- surjective_pairing, type_for_eqb.
  destruct (p =? q); cbn [negb]; [|reflexivity]. f_equal. replace (Z.to_nat n) with (length b) by (unfold zlen in L; lia).
  rewrite firstn_app, firstn_all, Nat.sub_diag, firstn_O, app_nil_r. reflexivity.
Qed.
(** The state is always 16 bytes and nothing outside is written. *)
Theorem C58_sixteen p n b : cacheable_size n -> zlen b = n -> zlen (value (new_cache p b)) = 16 /\
  skipn (length b) (value (new_cache p b)) = repeat 0 (16 - length b).
Proof.
  intros F L. apply C58_fits in F. unfold new_cache, zlen in *. cbn [value]. rewrite app_length, skipn_length. split.
  - change (length (zeros 16)) with 16%nat. lia.
  - rewrite skipn_app, skipn_all, Nat.sub_diag. cbn [skipn app]. remember (length b) as k. clear Heqk.
    do 17 (destruct k as [|k]; [reflexivity|]). lia.
Qed.
Example C58_case : cacheable_size 12 /\ cached_of 7 12 (new_cache 7 [1;2;3;4;5;6;7;8;9;10;11;12]) = Ok [1;2;3;4;5;6;7;8;9;10;11;12] /\
  cached_of 8 12 (new_cache 7 [1;2;3;4;5;6;7;8;9;10;11;12]) = Panic.
Proof.
  split; [|split; reflexivity]. exists 4, true, 4. split; [cbn; auto 8|]. right. exists 3. lia.
Qed.
(** The type of the value itself is not recorded: under the right type another Cacheable T reads
    the bits of the stored one. *)
Theorem C58_value_type_refuted p n m b : cacheable_size n -> cacheable_size m -> zlen b = n ->
  exists r, cached_of p m (new_cache p b) = Ok r /\ zlen r = m.
Proof.
  intros F G L. destruct (C58_sixteen p n b F L) as (X & _). apply C58_fits in F. apply C58_fits in G. unfold cached_of.
  replace (iface_eqb (rtype_tab (new_cache p b), rtype_data (new_cache p b)) (type_for p)) with true
    by (symmetry; unfold new_cache; cbn [rtype_tab rtype_data]; rewrite <- surjective_pairing, type_for_eqb; apply Z.eqb_refl).
  cbn [negb]. eexists. split; [reflexivity|]. unfold zlen in *. rewrite firstn_length. lia.
Qed.
(** A state of TryCache cannot be used: Cached panics for every type, and the bits in it do not
    depend on the value. *)
Theorem C58_try_refuted t id addr mem p n : snd (try_cache (AVal t id addr) mem) = true ->
  cached_of p n (fst (try_cache (AVal t id addr) mem)) = Panic /\
  forall t' id' addr', snd (try_cache (AVal t' id' addr') mem) = true ->
    value (fst (try_cache (AVal t' id' addr') mem)) = value (fst (try_cache (AVal t id addr) mem)).
Proof.
  cbn [try_cache]. destruct (can_cache t); [|discriminate]. intros _. split; [reflexivity|]. intros t' id' addr'. cbn [try_cache].
  destruct (can_cache t'); [reflexivity|discriminate].
Qed.
Section VInd.
Variable P : vtype -> Prop.
Hypotheses (HP : forall s, P (TPlain s)) (HR : forall s, P (TRef s)) (HS : forall s fs, Forall P fs -> P (TStruct s fs))
  (HA : forall s n e, P e -> P (TArray s n e)).
Fixpoint vtype_rect' (t : vtype) : P t :=
  match t with
  | TPlain s => HP s
  | TRef s => HR s
  | TStruct s fs => HS s fs ((fix go l : Forall P l := match l with [] => Forall_nil _ | x :: r => Forall_cons x (vtype_rect' x) (go r) end) fs)
  | TArray s n e => HA s n e (vtype_rect' e)
  end.
End VInd.
(** What canCache accepts has at most 16 bytes and, without arrays, hides no pointer; without
    arrays it accepts exactly those all of whose parts have at most 16 bytes. *)
Theorem C58_can_partial t : can_cache t = true -> vsize t <= 16 /\ (array_free t -> pointer_free t).
Proof.
  induction t as [s|s|s fs IH|s n e IH] using vtype_rect'; cbn [can_cache vsize]; destruct (16 <? s) eqn:L; try discriminate; intros H; (split; [lia|]); intros A.
  - constructor.
  - constructor. inversion A as [| |? ? F]; subst. rewrite forallb_forall in H. rewrite Forall_forall in *. intros x X.
    destruct (IH x X (H x X)) as (_ & Q). apply Q. apply F. exact X.
  - inversion A.
Qed.
Theorem C58_refuses t : ~ pointer_free t -> array_free t -> can_cache t = false.
Proof.
  intros N A. destruct (can_cache t) eqn:E; [|reflexivity]. exfalso. apply N. apply (C58_can_partial t E). exact A.
Qed.
Theorem C58_large t : 16 < vsize t -> can_cache t = false.
Proof. intros L. destruct (can_cache t) eqn:E; [|reflexivity]. apply C58_can_partial in E. lia. Qed.
(** An array of pointers is accepted. *)
Theorem C58_array_refuted s n r : s <= 16 -> n <> 0%nat -> can_cache (TArray s n (TRef r)) = true /\ ~ pointer_free (TArray s n (TRef r)).
Proof.
  intros S0 N. split; [cbn [can_cache vsize]; replace (16 <? s) with false by lia; reflexivity|].
  intros P. inversion P as [| |? ? ? H]; subst. destruct H as [H|H]; [congruence|inversion H].
Qed.
Example C58_types : can_cache (TStruct 16 [TPlain 8; TStruct 8 [TPlain 4; TPlain 4]]) = true /\ can_cache (TStruct 16 [TPlain 8; TRef 8]) = false /\
  snd (try_cache (AVal (TPlain 8) 3 4096) (repeat 1 16)) = true.
Proof. repeat split. Qed.

(** ** C59: proxies *)
(** A live proxy of the right kind is returned with its state; nothing is allocated and nobody told. *)
Theorem C59_live is_v is_i alloc a p : live is_v a p ->
  exists es, proxy_of is_v is_i alloc a = (es, Ok (Some p, internal a)) /\ allocations es = 0%nat /\ notifications es = 0%nat.
Proof.
  intros (I & V & A). unfold proxy_of. rewrite I, V, A. eexists. split; [reflexivity|]. split; reflexivity.
Qed.
(** Otherwise the allocator is called exactly once, with the value, and its results are returned; the old
    proxy, if it wants to know, is told exactly once, after that, of a value with the new proxy and state. *)
Theorem C59_otherwise_partial is_v is_i alloc a np st : (forall p, ~ live is_v a p) -> alloc a = (Some np, st) -> is_i (ptype np) = true ->
  exists es, proxy_of is_v is_i alloc a = (es, Ok (Some np, st)) /\ allocations es = 1%nat /\ In (Allocated a) es /\
    match impl a with
    | Some old => if translator old then exists pre, es = pre ++ [Allocated a; Notified old {| state := value st; impl := Some np |}] /\ notifications pre = 0%nat
                  else notifications es = 0%nat
    | None => notifications es = 0%nat
    end.
Proof.
  intros N A I. unfold proxy_of. rewrite A. destruct (impl a) as [old|] eqn:IA.
  - destruct (is_v (ptype old)) eqn:V; [destruct (alive old (internal a)) eqn:L; [exfalso; apply (N old); repeat split; assumption|]|];
      (destruct (translator old); [rewrite I|]); eexists; (split; [reflexivity|split; [reflexivity|split; [cbn; auto|]]]); try reflexivity;
      [exists [Asked old (internal a)]|exists []]; split; reflexivity.
  - eexists. split; [reflexivity|]. split; [reflexivity|]. split; [cbn; auto|reflexivity].
Qed.
(** The new proxy is lost when it does not implement the API of the old value and the old proxy
    wants to know of it: the allocator is called and then it panics. *)
Theorem C59_other_api_refuted is_v is_i alloc a old np st : (forall p, ~ live is_v a p) -> impl a = Some old -> translator old = true ->
  alloc a = (Some np, st) -> is_i (ptype np) = false ->
  exists es, proxy_of is_v is_i alloc a = (es, Panic) /\ allocations es = 1%nat /\ notifications es = 0%nat.
Proof.
  intros N IA T A I. unfold proxy_of. rewrite A, IA, T, I.
  destruct (is_v (ptype old)) eqn:V; [destruct (alive old (internal a)) eqn:L; [exfalso; apply (N old); repeat split; assumption|]|];
    eexists; repeat split; reflexivity.
Qed.
(** The value made for the old proxy holds the new state under the type of the new proxy, whatever
    type the allocator gave to the state; when they agree a later use of the value finds the state. *)
Theorem C59_state np p n b : cacheable_size n -> zlen b = n ->
  cached_of (ptype np) n (internal (new_any (Some np) (new_cache p b))) = Ok b /\ methods (new_any (Some np) (new_cache p b)) = Some np.
Proof.
  intros F L. split; [|reflexivity].
  pose proof (C58_round_trip (ptype np) (ptype np) n b F L) as X. rewrite Z.eqb_refl in X. exact X.
Qed.
(** Used again, the replacement is live when its proxy is a V that is alive: no second allocation. *)
Theorem C59_again is_v is_i alloc a np st : (forall p, ~ live is_v a p) -> alloc a = (Some np, st) -> is_v (ptype np) = true ->
  alive np (internal {| state := value st; impl := Some np |}) = true ->
  exists es s, proxy_of is_v is_i alloc (new_any (Some np) st) = (es, Ok (Some np, s)) /\ value s = value st /\ allocations es = 0%nat.
Proof.
  intros _ A V L. destruct (C59_live is_v is_i alloc (new_any (Some np) st) np) as (es & E & X & _); [repeat split; assumption|].
  exists es, (internal (new_any (Some np) st)). split; [exact E|]. split; [reflexivity|exact X].
Qed.
Definition p1 : proxy := {| ptype := 1; alive := fun s => match value s with 1 :: _ => true | _ => false end; translator := true |}.
Definition p2 : proxy := {| ptype := 2; alive := fun _ => true; translator := false |}.
Example C59_case : live (fun t => t =? 1) {| state := [1]; impl := Some p1 |} p1 /\
  (forall p, ~ live (fun t => t =? 1) {| state := [0]; impl := Some p1 |} p) /\
  exists es, proxy_of (fun t => t =? 1) (fun _ => true) (fun _ => (Some p2, new_cache 2 [5])) {| state := [0]; impl := Some p1 |} = (es, Ok (Some p2, new_cache 2 [5])) /\
    length es = 3%nat.
Proof.
  split; [repeat split|]. split; [|eexists; split; reflexivity]. intros p (I & _ & A). cbn [impl] in I. injection I as <-. discriminate A.
Qed.
Print Assumptions C58_fits.
Print Assumptions C58_round_trip.
Print Assumptions C58_sixteen.
Print Assumptions C58_value_type_refuted.
Print Assumptions C58_try_refuted.
Print Assumptions C58_can_partial.
Print Assumptions C58_refuses.
Print Assumptions C58_large.
Print Assumptions C58_array_refuted.
Print Assumptions C59_live.
Print Assumptions C59_otherwise_partial.
Print Assumptions C59_other_api_refuted.
Print Assumptions C59_state.
Print Assumptions C59_again.
