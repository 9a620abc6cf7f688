(** Properties C26 to C28 of package kvs. *)
From Verif Require Import GoBase BaseLemmas KvsModel KvsSpec KvsProofs.
From Coq Require Import Permutation.

(** C26.  [no_nil]: V is not an interface type, or no nil interface value is stored. *)
Theorem C26_lookup_last_committed :
  forall (K V : Type) (keq : forall a b : K, {a = b} + {a <> b}) (is_nil : V -> bool)
         (os : list op) (m : amap),
  no_nil is_nil os -> Forall op_ok os -> ahist os aempty m ->
  forall k v, m k = Some v ->
    new_lookup keq is_nil (do_ops keq os) k = Ok (v, true) /\
    new_get keq is_nil (do_ops keq os) k = Ok v.
Proof. exact @lookup_refines. Qed.

Theorem C26_values_exact :
  forall (K V : Type) (keq : forall a b : K, {a = b} + {a <> b}) (is_nil : V -> bool)
         (os : list op) (m : amap),
  no_nil is_nil os -> Forall op_ok os -> ahist os aempty m ->
  forall order, Permutation (do_ops keq os) order ->
  exists got, new_values is_nil order collect [] = Ok got /\
    NoDup (map fst got) /\ forall k v, In (k, v) got <-> m k = Some v.
Proof. exact @values_refines. Qed.

(** The abstract map of a history exists and is unique. *)
Theorem C26_abstract_map_exists :
  forall (K V : Type) (keq : forall a b : K, {a = b} + {a <> b}) (os : list (@op K V)),
  Forall op_ok os -> exists m, ahist os aempty m.
Proof. intros K V keq os. exact (ahist_exists keq (fun _ => false) os). Qed.
Theorem C26_abstract_map_unique :
  forall (K V : Type) (keq : forall a b : K, {a = b} + {a <> b}) (os : list (@op K V)) m m',
  Forall op_ok os -> ahist os aempty m -> ahist os aempty m' -> forall k, m k = m' k.
Proof.
  intros K V keq os m m' F A A'.
  exact (ahist_fun keq os F aempty m A aempty m' (fun _ => eq_refl) A').
Qed.

(** The caller of Values may stop early and then sees that many pairs, no more. *)
Theorem C26_values_stops_early :
  forall (K V : Type) (is_nil : V -> bool) (n : nat) (order : list (K * V)),
  (0 < n)%nat -> (forall e, In e order -> is_nil (snd e) = false) ->
  new_values is_nil order (collect_n n) [] = Ok (firstn n order).
Proof.
  intros K V is_nil n order H1 H2. rewrite new_values_n; [|exact H1|exact H2].
  cbn [length app]. now rewrite Nat.sub_0_r.
Qed.

(** C27 does not hold of the map made by New: in every state, looking up or
    getting an absent key panics. *)
Theorem C27_absent_key_panics_refuted :
  forall (K V : Type) (keq : forall a b : K, {a = b} + {a <> b}) (is_nil : V -> bool)
         (os : list op) (m : amap),
  Forall op_ok os -> ahist os aempty m ->
  forall k, m k = None ->
    new_lookup keq is_nil (do_ops keq os) k = Panic /\
    new_get keq is_nil (do_ops keq os) k = Panic.
Proof. exact @absent_panics. Qed.

(** On a map opened on a database, an absent key gives what the database says,
    with the zero value when the database left the destination untouched. *)
Theorem C27_opened_absent_key_partial :
  forall (K V S : Type) (zero : V) (db : @database K V S) (s : S) (k : K),
  db_lookup db s k = (None, false, None) -> lookup zero db s k = (zero, false, None).
Proof. intros K V S zero db s k H. unfold lookup. now rewrite H. Qed.

(** In general: the found flag and the error are the database's own, and so is the value unless
    the database left the destination untouched, when it is the zero value. *)
Theorem C27_opened_lookup_transparent :
  forall (K V S : Type) (zero : V) (db : @database K V S) (s : S) (k : K) v ok e,
  lookup zero db s k = (v, ok, e) <->
  exists o, db_lookup db s k = (o, ok, e) /\ v = match o with Some x => x | None => zero end.
Proof.
  intros K V S zero db s k v ok e. unfold lookup. destruct (db_lookup db s k) as [[[x|] ok'] e']; split.
  - intros H. injection H as <- <- <-. eauto.
  - intros (o & H & ->). injection H as <- <- <-. reflexivity.
  - intros H. injection H as <- <- <-. eauto.
  - intros (o & H & ->). injection H as <- <- <-. reflexivity.
Qed.

(** C28: whatever the database does, the actions it sees are a prefix of all
    inserts followed by all deletes; without a failure it sees all of them and
    Commit returns nil; otherwise Commit returns the error of the last action
    seen, and every earlier one succeeded. *)
Theorem C28_commit_order_and_errors :
  forall (K V : Type) (fails : list action -> action -> option error)
         (s : list action) (ins : list (K * V)) (del : list K),
  let all := map (fun kv => AIns (fst kv) (snd kv)) ins ++ map (fun k => ADel k) del in
  exists seen,
    fst (commit (logger fails) s ins del) = s ++ seen /\
    match snd (commit (logger fails) s ins del) with
    | None => seen = all /\ all_ok fails s all
    | Some e => exists before failed after,
        all = before ++ failed :: after /\ seen = before ++ [failed] /\
        all_ok fails s before /\ fails (s ++ before) failed = Some e
    end.
Proof.
  intros. rewrite (commit_run fails s ins del). exact (run_spec fails all s).
Qed.

(** ... and on a database that is a map and does not fail, the effect is the
    abstract one: deleted keys gone (even if also inserted), inserted keys
    there, all others untouched. *)
Theorem C28_commit_effect :
  forall (K V : Type) (keq : forall a b : K, {a = b} + {a <> b})
         (S : Type) (db : @database K V S) (view : S -> amap), good_db db view ->
  forall ins del s, NoDup (map fst ins) ->
  exists s', commit db s ins del = (s', None) /\ aeffect ins del (view s) (view s').
Proof. exact @commit_good. Qed.

(** Set and Del of an opened map are exactly one action of the database. *)
Theorem C28_set_and_del_of_an_opened_map :
  forall (K V S : Type) (db : @database K V S) (s : S) (k : K) (v : V),
  set db s k v = db_insert db s k v /\ del db s k = db_delete db s k.
Proof.
  intros. unfold set, del, commit. cbn [insert_all delete_all]. split.
  - destruct (db_insert db s k v) as [s' [e|]]; reflexivity.
  - destruct (db_delete db s k) as [s' [e|]]; reflexivity.
Qed.

(** C80: iterating an opened map hands over the pairs the database has, in its order, and
    stops as soon as the consumer says so. *)
Theorem C80_opened_values_in_order :
  forall (K V S : Type) (db : @database K V S) (s : S),
  values db s collect [] = db_values db s /\
  forall n, (0 < n)%nat -> values db s (collect_n n) [] = firstn n (db_values db s).
Proof.
  intros K V S db s. unfold values. split.
  - assert (H : forall l acc, values_loop l (@collect K V) acc = acc ++ l).
    { induction l as [|[k v] l IH]; intros acc; cbn; [now rewrite app_nil_r|].
      rewrite IH, <- app_assoc. reflexivity. }
    apply (H _ []).
  - intros n Hn.
    assert (H : forall l acc, (length acc < n)%nat -> values_loop l (@collect_n K V n) acc = acc ++ firstn (n - length acc) l).
    { induction l as [|[k v] l IH]; intros acc Ha; cbn [values_loop]; [rewrite firstn_nil; now rewrite app_nil_r|].
      unfold collect_n at 1. destruct (n - length acc)%nat as [|m] eqn:E; [lia|]. cbn [firstn].
      destruct (Nat.ltb_spec (length acc + 1) n) as [L|L].
      - rewrite IH by (rewrite app_length; cbn; lia). rewrite <- app_assoc. cbn [app].
        rewrite app_length. cbn [length]. replace (n - (length acc + 1))%nat with m by lia. reflexivity.
      - assert (m = O) as -> by lia. reflexivity. }
    rewrite (H _ []) by (cbn; lia). cbn [length app]. now rewrite Nat.sub_0_r.
Qed.

(** Non-vacuity *)
Definition ex_ops : list (@op Z Z) :=
  [Set_ 1 10; Set_ 2 20; Commit_ [(1, 11); (3, 30)] [2; 3]; Del_ 7; Set_ 4 40].
Example C26_case :
  Forall op_ok ex_ops /\ no_nil (fun _ => false) ex_ops /\
  new_lookup Z.eq_dec (fun _ => false) (do_ops Z.eq_dec ex_ops) 1 = Ok (11, true) /\
  do_ops Z.eq_dec ex_ops = [(4, 40); (1, 11)].
Proof.
  split; [|split; [|split]].
  - repeat constructor; cbn; intuition congruence.
  - intros o v _ _. reflexivity.
  - reflexivity.
  - reflexivity.
Qed.
Example C27_case : new_lookup Z.eq_dec (fun _ => false) (do_ops Z.eq_dec ex_ops) 3 = Panic.
Proof. reflexivity. Qed.
(** storing a nil interface value makes Lookup panic: why C26 needs [no_nil] *)
Example C26_nil_interface :
  new_lookup Z.eq_dec (fun v => v =? 0) (do_ops Z.eq_dec [Set_ 5 0]) 5 = Panic.
Proof. reflexivity. Qed.
Example C28_good_db_exists :
  good_db (Build_database (fun t k => (load Z.eq_dec t k, true, None))
             (fun t k v => (store Z.eq_dec t k v, None)) (fun t k => (remove Z.eq_dec t k, None))
             (fun t : list (Z * Z) => t)) (load Z.eq_dec).
Proof.
  split; intros; (eexists; split; [reflexivity|]).
  - split; [|intros k' N]; rewrite load_store; destruct (Z.eq_dec _ _); congruence.
  - split; [|intros k' N]; rewrite load_remove; destruct (Z.eq_dec _ _); congruence.
Qed.
Example C28_case :
  commit (logger (fun s a => match a with ADel 2 => Some 9 | _ => None end)) []
         [(1, 1); (2, 2)] [1; 2; 3]
  = ([AIns 1 1; AIns 2 2; ADel 1; ADel 2], Some 9).
Proof. reflexivity. Qed.

Print Assumptions C26_lookup_last_committed.
Print Assumptions C26_values_exact.
Print Assumptions C26_abstract_map_exists.
Print Assumptions C26_abstract_map_unique.
Print Assumptions C26_values_stops_early.
Print Assumptions C27_absent_key_panics_refuted.
Print Assumptions C27_opened_absent_key_partial.
Print Assumptions C28_commit_order_and_errors.
Print Assumptions C28_commit_effect.
Print Assumptions C27_opened_lookup_transparent.
Print Assumptions C28_set_and_del_of_an_opened_map.
Print Assumptions C80_opened_values_in_order.
