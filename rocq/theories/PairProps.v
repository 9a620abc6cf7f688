(** Properties C96 and C97: api/pair. *)
From Verif Require Import GoBase BaseLemmas PairModel PairSpec.

(** ** Places *)
Lemma apart_sym p q : apart p q -> apart q p.
Proof. intros [A B]. split; assumption. Qed.
Lemma apart_cons i p q : apart (i :: p) (i :: q) -> apart p q.
Proof. intros [A B]. split; intros (r & ->); [apply A|apply B]; exists r; reflexivity. Qed.
Lemma apart_nil_l q : ~ apart [] q.
Proof. intros [A _]. apply A. exists q. reflexivity. Qed.
Lemma apart_nil_r p : ~ apart p [].
Proof. intros [_ B]. apply B. exists p. reflexivity. Qed.
Lemma nth_set i j x l : nth_error (set_nth i x l) j = if Nat.eqb i j then (match nth_error l j with Some _ => Some x | None => None end) else nth_error l j.
Proof.
  revert i j. induction l as [|y l IH]; intros i j; cbn [set_nth]; [destruct j; cbn; destruct (Nat.eqb i _); reflexivity|].
  destruct i as [|i], j as [|j]; cbn; try reflexivity. apply IH.
Qed.
Lemma get_put_same p x v : get p v <> None -> get p (put p x v) = Some x.
Proof.
  revert v. induction p as [|i p IH]; intros v; cbn [get put]; [reflexivity|]. destruct v as [| | | |fs]; try congruence.
  destruct (nth_error fs i) as [f|] eqn:Q; [|congruence]. intros N. cbn [get]. rewrite nth_set, Nat.eqb_refl, Q. apply IH. exact N.
Qed.
Lemma get_put_apart p q x v : apart p q -> get q (put p x v) = get q v.
Proof.
  revert q v. induction p as [|i p IH]; intros q v A; [destruct (apart_nil_l _ A)|]. destruct q as [|j q]; [destruct (apart_nil_r _ A)|].
  cbn [put]. destruct v as [| | | |fs]; try reflexivity. destruct (nth_error fs i) as [f|] eqn:Q; [|reflexivity].
  cbn [get]. rewrite nth_set. destruct (Nat.eqb i j) eqn:E; [|reflexivity]. apply Nat.eqb_eq in E. subst j. rewrite Q. apply IH. exact (apart_cons _ _ _ A).
Qed.
Lemma get_put_valid p q x v : apart p q -> get q v <> None -> get q (put p x v) <> None.
Proof. intros A N. rewrite get_put_apart by exact A. exact N. Qed.

(** One side of the conversion, for any choice of target pointer and value. *)
Section Fold.
  Context (target : pairing -> pointer) (val : pairing -> value).
  Let run (m : mapping) (z : value) : value := fold_left (fun s f => store (target f) (val f) s) m z.
  Lemma fold_apart m q z : Forall (fun f => match target f with Field p => apart p q | Constant _ => True end) m -> get q (run m z) = get q z.
  Proof.
    intros F. revert z. induction F as [|f m A _ IH]; intros z; cbn; [reflexivity|]. fold (run m (store (target f) (val f) z)). rewrite IH.
    destruct (target f); cbn [store]; [apply get_put_apart; exact A|reflexivity].
  Qed.
  Lemma fold_hit m f q z : ForallOrdPairs (fun f g => pointers_apart (target f) (target g)) m -> In f m -> target f = Field q -> get q z <> None -> get q (run m z) = Some (val f).
  Proof.
    intros O. revert z. induction O as [|g m A _ IH]; intros z; [intros []|]. intros [->|I] T N; cbn; fold (run m (store (target f) (val f) z)).
    - fold (run m (store (target f) (val f) z)). rewrite fold_apart.
      + rewrite T. cbn [store]. apply get_put_same. exact N.
      + rewrite Forall_forall in *. intros h H. specialize (A h H). rewrite T in A. destruct (target h); [apply apart_sym; exact A|exact I].
    - fold (run m (store (target g) (val g) z)). apply IH; [exact I|exact T|]. destruct (target g) as [p|] eqn:G; cbn [store]; [|exact N].
      apply get_put_valid; [|exact N]. rewrite Forall_forall in A. specialize (A f I). rewrite T in A. exact A.
  Qed.
End Fold.

(** ** Rules *)
Lemma alike_refl_list l : Forall2 alike l l.
Proof. induction l; constructor; [constructor|assumption]. Qed.
Lemma convert_alike r v : no_maps r -> alike v (convert r v).
Proof.
  revert v. induction r as [| |r IH|k _ e _]; intros v N; cbn [no_maps] in N; try (destruct v; constructor; fail); [|destruct N].
  destruct v as [| |l| |]; try constructor. destruct l as [l|]; cbn [convert]; [|constructor].
  induction l; cbn [map]; constructor; [apply IH; exact N|assumption].
Qed.
Lemma convert_full r v : full r v -> convert r v = v.
Proof.
  revert v. induction r as [| |r IH|k _ e _]; intros v F; inversion F; subst; try reflexivity. cbn [convert]. do 2 f_equal.
  rewrite <- (map_id l) at 2. apply map_ext_in. intros x I. apply IH. rewrite Forall_forall in H0. exact (H0 x I).
Qed.
Lemma convert_twice r v : no_maps r -> typed r v -> convert r (convert r v) = convert r v /\ alike v (convert r v).
Proof.
  intros N T. split; [|apply convert_alike; exact N]. apply convert_full. revert v N T. induction r as [| |r IH|k _ e _]; intros v N T; inversion T; subst; cbn [convert]; try constructor.
  - constructor.
  - rewrite Forall_forall in *. intros x I. apply in_map_iff in I. destruct I as (y & <- & I). apply IH; [exact N|exact (H0 y I)].
  - destruct N.
Qed.

(** ** C96 *)
Lemma pairs_into m : one_to_one m -> ForallOrdPairs (fun f g => pointers_apart (into_ptr f) (into_ptr g)) m.
Proof. induction 1 as [|f m A _ IH]; constructor; [|exact IH]. rewrite Forall_forall in *. intros g G. exact (proj1 (A g G)). Qed.
Lemma pairs_from m : one_to_one m -> ForallOrdPairs (fun f g => pointers_apart (from_ptr f) (from_ptr g)) m.
Proof. induction 1 as [|f m A _ IH]; constructor; [|exact IH]. rewrite Forall_forall in *. intros g G. exact (proj2 (A g G)). Qed.
Lemma into_hit m zf zi from f q : one_to_one m -> well_placed zf zi m -> In f m -> into_ptr f = Field q ->
  get q (to_into m zi from) = Some (convert (how f) (load (from_ptr f) from)).
Proof.
  intros O W I T. apply (fold_hit into_ptr (fun f => convert (how f) (load (from_ptr f) from)) m f q zi (pairs_into m O) I T).
  unfold well_placed in W. rewrite Forall_forall in W. destruct (W f I) as (_ & V). rewrite T in V. exact V.
Qed.
Lemma from_hit m zf zi into f q : one_to_one m -> well_placed zf zi m -> In f m -> from_ptr f = Field q ->
  get q (to_from m zf into) = Some (convert (how f) (load (into_ptr f) into)).
Proof.
  intros O W I T. apply (fold_hit from_ptr (fun f => convert (how f) (load (into_ptr f) into)) m f q zf (pairs_from m O) I T).
  unfold well_placed in W. rewrite Forall_forall in W. destruct (W f I) as (V & _). rewrite T in V. exact V.
Qed.
(** Every paired place of Into gets the value of its partner in From (or of its constant), and
    places that are not paired keep their zero value. *)
Theorem C96_into_partial m zf zi from : one_to_one m -> well_placed zf zi m ->
  (forall f q, In f m -> no_maps (how f) -> into_ptr f = Field q ->
     exists v, get q (to_into m zi from) = Some v /\ alike (load (from_ptr f) from) v /\
       (full (how f) (load (from_ptr f) from) -> v = load (from_ptr f) from)) /\
  (forall q, (forall f p, In f m -> into_ptr f = Field p -> apart p q) -> get q (to_into m zi from) = get q zi).
Proof.
  intros O W. split.
  - intros f q I N T. exists (convert (how f) (load (from_ptr f) from)). split; [exact (into_hit m zf zi from f q O W I T)|].
    split; [apply convert_alike; exact N|apply convert_full].
  - intros q A. apply (fold_apart into_ptr (fun f => convert (how f) (load (from_ptr f) from))). apply Forall_forall. intros f I.
    destruct (into_ptr f) as [p|] eqn:T; [|exact Logic.I]. exact (A f p I T).
Qed.
(** The same the other way. *)
Theorem C96_from_partial m zf zi into : one_to_one m -> well_placed zf zi m ->
  (forall f q, In f m -> no_maps (how f) -> from_ptr f = Field q ->
     exists v, get q (to_from m zf into) = Some v /\ alike (load (into_ptr f) into) v /\
       (full (how f) (load (into_ptr f) into) -> v = load (into_ptr f) into)) /\
  (forall q, (forall f p, In f m -> from_ptr f = Field p -> apart p q) -> get q (to_from m zf into) = get q zf).
Proof.
  intros O W. split.
  - intros f q I N T. exists (convert (how f) (load (into_ptr f) into)). split; [exact (from_hit m zf zi into f q O W I T)|].
    split; [apply convert_alike; exact N|apply convert_full].
  - intros q A. apply (fold_apart from_ptr (fun f => convert (how f) (load (into_ptr f) into))). apply Forall_forall. intros f I.
    destruct (from_ptr f) as [p|] eqn:T; [|exact Logic.I]. exact (A f p I T).
Qed.
(** There and back: a place of From that is paired with one of Into has its old value again, a nil
    slice as an empty one. *)
Theorem C96_round_trip_partial m zf zi from f p q v : one_to_one m -> well_placed zf zi m -> In f m ->
  from_ptr f = Field p -> into_ptr f = Field q -> no_maps (how f) -> get p from = Some v -> typed (how f) v ->
  exists w, get p (to_from m zf (to_into m zi from)) = Some w /\ alike v w /\ (full (how f) v -> w = v).
Proof.
  intros O W I P Q N G T. exists (convert (how f) v). rewrite (from_hit m zf zi _ f p O W I P). rewrite Q. cbn [load].
  rewrite (into_hit m zf zi from f q O W I Q). rewrite P. cbn [load]. rewrite G. destruct (convert_twice (how f) v N T) as (C & A). rewrite C.
  split; [reflexivity|]. split; [exact A|apply convert_full].
Qed.
Lemma set_nth_length i x l : length (set_nth i x l) = length l.
Proof. revert i. induction l as [|y l IH]; intros [|i]; cbn; auto. Qed.
Lemma fold_struct (target : pairing -> pointer) val m : Forall (fun f => target f <> Field []) m -> forall zs,
  exists rs, fold_left (fun s f => store (target f) (val f) s) m (VStruct zs) = VStruct rs /\ length rs = length zs.
Proof.
  induction 1 as [|f m N _ IH]; intros zs; cbn [fold_left]; [exists zs; auto|].
  assert (S' : exists ys, store (target f) (val f) (VStruct zs) = VStruct ys /\ length ys = length zs).
  { destruct (target f) as [[|i p]|]; cbn [store put]; [congruence| |exists zs; auto].
    destruct (nth_error zs i); [|exists zs; auto]. eexists. split; [reflexivity|apply set_nth_length]. }
  destruct S' as (ys & -> & L). destruct (IH ys) as (rs & Q & L'). exists rs. split; [exact Q|congruence].
Qed.
(** A whole struct whose every field is paired comes back as it was. *)
Theorem C96_struct_partial m zs zi fs : one_to_one m -> well_placed (VStruct zs) zi m -> length zs = length fs ->
  Forall (fun f => from_ptr f <> Field []) m ->
  (forall i v, nth_error fs i = Some v -> exists f q, In f m /\ from_ptr f = Field [i] /\ into_ptr f = Field q /\ full (how f) v) ->
  to_from m (VStruct zs) (to_into m zi (VStruct fs)) = VStruct fs.
Proof.
  intros O W L NE A. remember (to_into m zi (VStruct fs)) as into.
  destruct (fold_struct from_ptr (fun f => convert (how f) (load (into_ptr f) into)) m NE zs) as (rs & Q & LR).
  change (to_from m (VStruct zs) into = VStruct rs) in Q. rewrite Q. f_equal.
  assert (N : forall i, nth_error rs i = nth_error fs i).
  { intros i. destruct (nth_error fs i) as [v|] eqn:G.
    - destruct (A i v G) as (f & q & I & P & T & F). pose proof (from_hit m (VStruct zs) zi into f [i] O W I P) as H.
      rewrite Q, T in H. cbn [get load] in H. destruct (nth_error rs i) as [r|]; [|discriminate]. rewrite Heqinto in H.
      rewrite (into_hit m (VStruct zs) zi (VStruct fs) f q O W I T), P in H. cbn [load get] in H. rewrite G in H.
      rewrite !(convert_full _ v F) in H. exact H.
    - apply nth_error_None in G. apply nth_error_None. lia. }
  clear - N LR L. assert (LL : length rs = length fs) by lia. clear LR L. revert fs N LL. induction rs as [|r rs IH]; intros [|f fs] N LL; try discriminate; [reflexivity|].
  f_equal; [specialize (N O); injection N; auto|]. apply IH; [intros i; exact (N (S i))|injection LL; auto].
Qed.
(** A struct with a number, a nested string paired with a field at another place, and a slice of
    slices; Into also has a constant and a field that is not paired. *)
Definition example_mapping : mapping :=
  [ {| how := RNum; from_ptr := Field [0]%nat; into_ptr := Field [2]%nat |};
    {| how := RStr; from_ptr := Field [1; 0]%nat; into_ptr := Field [0]%nat |};
    {| how := RSlice (RSlice RNum); from_ptr := Field [2]%nat; into_ptr := Field [1]%nat |};
    {| how := RStr; from_ptr := Constant (VStr [118; 49]); into_ptr := Field [3]%nat |} ].
Definition example_zf := VStruct [VNum 0; VStruct [VStr []]; VSlice None].
Definition example_zi := VStruct [VStr []; VSlice None; VNum 0; VStr []; VNum 0].
Definition example_from := VStruct [VNum 7; VStruct [VStr [97]]; VSlice (Some [VSlice None; VSlice (Some [VNum 1; VNum 2])])].
Ltac apart_tac := split; intros (r & Q); discriminate.
Example C96_case : one_to_one example_mapping /\ well_placed example_zf example_zi example_mapping /\
  to_into example_mapping example_zi example_from =
    VStruct [VStr [97]; VSlice (Some [VSlice (Some []); VSlice (Some [VNum 1; VNum 2])]); VNum 7; VStr [118; 49]; VNum 0] /\
  to_from example_mapping example_zf (to_into example_mapping example_zi example_from) =
    VStruct [VNum 7; VStruct [VStr [97]]; VSlice (Some [VSlice (Some []); VSlice (Some [VNum 1; VNum 2])])].
Proof.
  split; [|split; [|split; reflexivity]].
  - unfold one_to_one, example_mapping. repeat (apply FOP_cons || apply FOP_nil); repeat (apply Forall_cons || apply Forall_nil); cbn; (split; try exact Logic.I; apart_tac).
  - unfold well_placed, example_mapping. repeat (apply Forall_cons || apply Forall_nil); cbn; (split; try exact Logic.I; discriminate).
Qed.
(** A nil slice arrives as an empty one. *)
Theorem C96_nil_refuted m zf zi from f q r : one_to_one m -> well_placed zf zi m -> In f m -> into_ptr f = Field q ->
  how f = RSlice r -> load (from_ptr f) from = VSlice None -> get q (to_into m zi from) = Some (VSlice (Some [])).
Proof. intros O W I T H L. rewrite (into_hit m zf zi from f q O W I T), H, L. reflexivity. Qed.
(** Maps lose everything: whatever the entries of a map that is not empty, its partner has one zero
    value under a zero key. *)
Theorem C96_map_refuted m zf zi from f q k e x xs : one_to_one m -> well_placed zf zi m -> In f m -> into_ptr f = Field q ->
  how f = RMap k e -> load (from_ptr f) from = VMap (Some (x :: xs)) -> get q (to_into m zi from) = Some (VMap (Some [(zero_of k, zero_of e)])).
Proof. intros O W I T H L. rewrite (into_hit m zf zi from f q O W I T), H, L. reflexivity. Qed.
Theorem C96_map_empty_partial m zf zi from f q k e l : one_to_one m -> well_placed zf zi m -> In f m -> into_ptr f = Field q ->
  how f = RMap k e -> load (from_ptr f) from = VMap l -> l = None \/ l = Some [] -> get q (to_into m zi from) = Some (VMap (Some [])).
Proof. intros O W I T H L [->| ->]; rewrite (into_hit m zf zi from f q O W I T), H, L; reflexivity. Qed.

(** ** C97: errors *)
Lemma bytes_eqb_true a b : bytes_eqb a b = true <-> a = b.
Proof. unfold bytes_eqb. destruct (list_eq_dec Z.eq_dec a b); split; congruence. Qed.
Lemma bytes_eqb_refl a : bytes_eqb a a = true.
Proof. apply bytes_eqb_true. reflexivity. Qed.
Lemma points_to_iff p i : points_to p i = true <-> p = Field [i].
Proof.
  destruct p as [[|j [|k r]]|v]; cbn; try (split; [discriminate|intros Q; discriminate]).
  rewrite Nat.eqb_eq. split; [intros ->; reflexivity|intros Q; injection Q; auto].
Qed.
Lemma find_from_hit p k fs i f : Forall (fun f => exported f = true) fs -> p = Field [(k + i)%nat] -> nth_error fs i = Some f -> find_from p k fs = Ok (Some (fname f)).
Proof.
  intros E. revert k i. induction E as [|g fs X _ IH]; intros k i P N; [destruct i; discriminate|]. cbn [find_from]. rewrite X. cbn [negb].
  destruct i as [|i]; cbn [nth_error] in N.
  - injection N as ->. replace (points_to p k) with true; [reflexivity|]. symmetry. apply points_to_iff. rewrite P. rewrite Nat.add_0_r. reflexivity.
  - replace (points_to p k) with false. 2:{ symmetry. apply not_true_iff_false. rewrite points_to_iff, P. intros Q. injection Q. lia. }
    apply (IH (S k) i); [rewrite P; replace (k + S i)%nat with (S k + i)%nat by lia; reflexivity|exact N].
Qed.
Lemma find_from_none p k fs : Forall (fun f => exported f = true) fs -> (forall i, (i < length fs)%nat -> p <> Field [(k + i)%nat]) -> find_from p k fs = Ok None.
Proof.
  intros E. revert k. induction E as [|g fs X _ IH]; intros k N; [reflexivity|]. cbn [find_from]. rewrite X. cbn [negb].
  replace (points_to p k) with false. 2:{ symmetry. apply not_true_iff_false. rewrite points_to_iff. replace k with (k + 0)%nat by lia. apply N. cbn. lia. }
  apply IH. intros i I. replace (S k + i)%nat with (k + S i)%nat by lia. apply N. cbn. lia.
Qed.
(** the pairing that counts *)
Lemma find_pairing_hit m i fs f j g : Forall (fun f => exported f = true) fs -> one_to_one m -> In f m -> into_ptr f = Field [i] -> from_ptr f = Field [j] ->
  nth_error fs j = Some g -> find_pairing m i fs = Ok (Some (fname g)).
Proof.
  intros E O. induction O as [|h m A _ IH]; intros I T P N; [destruct I|]. cbn [find_pairing]. destruct I as [->|I].
  - rewrite (proj2 (points_to_iff _ _) T). rewrite (find_from_hit (from_ptr f) 0 fs j g E P N). reflexivity.
  - rewrite Forall_forall in A. destruct (A f I) as (Q & _). rewrite T in Q.
    replace (points_to (into_ptr h) i) with false; [exact (IH I T P N)|]. symmetry. apply not_true_iff_false. rewrite points_to_iff. intros R. rewrite R in Q. destruct Q as [Q _]. apply Q. exists []. reflexivity.
Qed.
Lemma find_pairing_none m i fs : Forall (fun f => exported f = true) fs ->
  (forall f j, In f m -> into_ptr f = Field [i] -> from_ptr f = Field [j] -> (length fs <= j)%nat) -> find_pairing m i fs = Ok None.
Proof.
  intros E. induction m as [|h m IH]; intros A; [reflexivity|]. cbn [find_pairing].
  assert (R : find_pairing m i fs = Ok None) by (apply IH; intros f j I; apply A; right; exact I). rewrite R.
  destruct (points_to (into_ptr h) i) eqn:T; [|reflexivity]. apply points_to_iff in T. rewrite find_from_none; [reflexivity|exact E|].
  intros j L Q. specialize (A h j (or_introl eq_refl) T Q). lia.
Qed.
Lemma find_into_at m k fs gs name i f : (forall j g, nth_error fs j = Some g -> j <> i -> fname g <> name) -> nth_error fs i = Some f -> fname f = name -> exported f = true ->
  find_into m k fs gs name = match find_pairing m (k + i) gs with Panic => Panic | Ok (Some n) => Ok (Some n) | Ok None => Ok None end.
Proof.
  intros U N F X. revert k i U N. induction fs as [|h fs IH]; intros k i U N; [destruct i; discriminate|]. cbn [find_into]. destruct i as [|i].
  - injection N as ->. rewrite (proj2 (bytes_eqb_true _ _) F), X. cbn [negb andb]. rewrite Nat.add_0_r.
    destruct (find_pairing m k gs) as [[n|]|]; try reflexivity.
    assert (R : forall k, find_into m k fs gs name = Ok None).
    { assert (V : forall g, In g fs -> fname g <> name). { intros g G. apply In_nth_error in G. destruct G as (j & G). exact (U (S j) g G ltac:(lia)). }
      clear - V. induction fs as [|g fs IH]; intros k; [reflexivity|]. cbn [find_into]. destruct (bytes_eqb (fname g) name) eqn:B.
      - apply bytes_eqb_true in B. destruct (V g (or_introl eq_refl) B).
      - apply IH. intros x I. apply V. right. exact I. }
    apply R.
  - replace (bytes_eqb (fname h) name) with false. 2:{ symmetry. apply not_true_iff_false. rewrite bytes_eqb_true. apply (U O h eq_refl). lia. }
    rewrite (IH (S k) i); [replace (S k + i)%nat with (k + S i)%nat by lia; reflexivity| |exact N]. intros j g G J. exact (U (S j) g G ltac:(lia)).
Qed.
Lemma find_into_none m k fs gs name : (forall g, In g fs -> fname g <> name) -> find_into m k fs gs name = Ok None.
Proof.
  revert k. induction fs as [|g fs IH]; intros k V; [reflexivity|]. cbn [find_into]. destruct (bytes_eqb (fname g) name) eqn:B.
  - apply bytes_eqb_true in B. destruct (V g (or_introl eq_refl) B).
  - apply IH. intros x I. apply V. right. exact I.
Qed.
Section Errors.
  Context {E X : Type} (as_error : E -> option X) (name_of : X -> bytes) (renamed : X -> bytes -> E).
  Notation wrap := (wrap as_error name_of renamed).
  (** The field error that an error stands for: itself, or what the last function of the registry
      that knows it makes of it. *)
  Definition stands_for (reg : list (E -> option X)) (e : E) (x : X) : Prop :=
    as_error e = Some x \/
    as_error e = None /\ exists before f after, reg = before ++ f :: after /\ f e = Some x /\ Forall (fun g => g e = None) after.
  Definition stands_for_none (reg : list (E -> option X)) (e : E) : Prop := as_error e = None /\ Forall (fun g => g e = None) reg.
  Lemma registered_last (before : list (E -> option X)) f after e x : f e = Some x -> Forall (fun g => g e = None) after -> registered (before ++ f :: after) e = Some x.
  Proof.
    intros F A. unfold registered. rewrite fold_left_app. cbn [fold_left]. rewrite F. induction A as [|g after G _ IH]; cbn [fold_left]; [reflexivity|]. rewrite G. exact IH.
  Qed.
  Lemma registered_none (reg : list (E -> option X)) e : Forall (fun g => g e = None) reg -> registered reg e = None.
  Proof. unfold registered. induction 1 as [|g reg G _ IH]; cbn [fold_left]; [reflexivity|]. rewrite G. exact IH. Qed.
  Lemma stands reg e x : stands_for reg e x -> (match as_error e with Some x => Some x | None => registered reg e end) = Some x.
  Proof. intros [->|(-> & b & f & a & -> & F & A)]; [reflexivity|]. exact (registered_last b f a e x F A). Qed.
  (** An error about a field of Into that is paired with a field of From is turned into the same
      error about that field of From. *)
  Theorem C97_renamed_partial reg m ifs ffs e x i j f g p : stands_for reg e x -> one_to_one m ->
    (forall k h, nth_error ifs k = Some h -> k <> i -> fname h <> fname f) -> nth_error ifs i = Some f -> exported f = true -> name_of x = fname f ->
    Forall (fun f => exported f = true) ffs -> nth_error ffs j = Some g -> In p m -> into_ptr p = Field [i] -> from_ptr p = Field [j] ->
    wrap reg m ifs ffs (Some e) = Ok (Some (renamed x (fname g))).
  Proof.
    intros SF O U N XP NM EX G I T P. unfold PairModel.wrap. rewrite (stands reg e x SF), NM. rewrite (find_into_at m 0 ifs ffs (fname f) i f U N eq_refl XP). cbn [Nat.add].
    rewrite (find_pairing_hit m i ffs p j g EX O I T P G). reflexivity.
  Qed.
  (** Every other error is handed on as it is: nil, an error that is about no field, about a field
      that Into does not have, about one that is not paired or paired with a constant. *)
  Theorem C97_nil reg m ifs ffs : wrap reg m ifs ffs None = Ok None.
  Proof. reflexivity. Qed.
  Theorem C97_no_field reg m ifs ffs e : stands_for_none reg e -> wrap reg m ifs ffs (Some e) = Ok (Some e).
  Proof. intros (A & R). unfold PairModel.wrap. rewrite A, (registered_none reg e R). reflexivity. Qed.
  Theorem C97_unknown reg m ifs ffs e x : stands_for reg e x -> (forall g, In g ifs -> fname g <> name_of x) -> wrap reg m ifs ffs (Some e) = Ok (Some e).
  Proof. intros SF V. unfold PairModel.wrap. rewrite (stands reg e x SF), (find_into_none m 0 ifs ffs (name_of x) V). reflexivity. Qed.
  Theorem C97_unpaired_partial reg m ifs ffs e x i f : stands_for reg e x ->
    (forall k h, nth_error ifs k = Some h -> k <> i -> fname h <> fname f) -> nth_error ifs i = Some f -> exported f = true -> name_of x = fname f ->
    Forall (fun f => exported f = true) ffs -> (forall p, In p m -> into_ptr p = Field [i] -> exists c, from_ptr p = Constant c) ->
    wrap reg m ifs ffs (Some e) = Ok (Some e).
  Proof.
    intros SF U N XP NM EX A. unfold PairModel.wrap. rewrite (stands reg e x SF), NM. rewrite (find_into_at m 0 ifs ffs (fname f) i f U N eq_refl XP). cbn [Nat.add].
    rewrite find_pairing_none; [reflexivity|exact EX|]. intros p j I T P. destruct (A p I T) as (c & C). congruence.
  Qed.
  (** A field that is paired with a field inside a nested struct: the error keeps the name of Into. *)
  Theorem C97_nested_refuted reg m ifs ffs e x i f : stands_for reg e x ->
    (forall k h, nth_error ifs k = Some h -> k <> i -> fname h <> fname f) -> nth_error ifs i = Some f -> exported f = true -> name_of x = fname f ->
    Forall (fun f => exported f = true) ffs -> (forall p, In p m -> into_ptr p = Field [i] -> exists a b path, from_ptr p = Field (a :: b :: path)) ->
    wrap reg m ifs ffs (Some e) = Ok (Some e).
  Proof.
    intros SF U N XP NM EX A. unfold PairModel.wrap. rewrite (stands reg e x SF), NM. rewrite (find_into_at m 0 ifs ffs (fname f) i f U N eq_refl XP). cbn [Nat.add].
    rewrite find_pairing_none; [reflexivity|exact EX|]. intros p j I T P. destruct (A p I T) as (a & b & q & C). congruence.
  Qed.
  (** When the first field of From is not exported there is no error to be had: wrap panics. *)
  Theorem C97_unexported_refuted reg m ifs g ffs e x i f p : stands_for reg e x -> one_to_one m ->
    (forall k h, nth_error ifs k = Some h -> k <> i -> fname h <> fname f) -> nth_error ifs i = Some f -> exported f = true -> name_of x = fname f ->
    exported g = false -> In p m -> into_ptr p = Field [i] -> wrap reg m ifs (g :: ffs) (Some e) = Panic.
  Proof.
    intros SF O U N XP NM G I T. unfold PairModel.wrap. rewrite (stands reg e x SF), NM. rewrite (find_into_at m 0 ifs (g :: ffs) (fname f) i f U N eq_refl XP). cbn [Nat.add].
    assert (Q : find_pairing m i (g :: ffs) = Panic).
    { induction O as [|h m A _ IH]; [destruct I|]. cbn [find_pairing]. destruct I as [->|I].
      - rewrite (proj2 (points_to_iff _ _) T). cbn [find_from]. rewrite G. reflexivity.
      - destruct (points_to (into_ptr h) i); [cbn [find_from]; rewrite G; reflexivity|exact (IH I)]. }
    rewrite Q. reflexivity.
  Qed.
End Errors.
(** The error of field B of Into ("B") becomes one of field X of From. *)
Example C97_case : wrap (fun e : bytes * Z => if snd e =? 0 then Some (fst e) else None) (fun x => x) (fun _ n => (n, 0)) [fun e => Some (fst e)] example_mapping
    [{| fname := [65]; exported := true |}; {| fname := [66]; exported := true |}; {| fname := [67]; exported := true |}]
    [{| fname := [88]; exported := true |}; {| fname := [89]; exported := true |}; {| fname := [90]; exported := true |}] (Some ([66], 1)) = Ok (Some ([90], 0)).
Proof. reflexivity. Qed.
Print Assumptions C96_into_partial.
Print Assumptions C96_from_partial.
Print Assumptions C96_round_trip_partial.
Print Assumptions C96_struct_partial.
Print Assumptions C96_nil_refuted.
Print Assumptions C96_map_refuted.
Print Assumptions C96_map_empty_partial.
Print Assumptions C97_renamed_partial.
Print Assumptions C97_nil.
Print Assumptions C97_no_field.
Print Assumptions C97_unknown.
Print Assumptions C97_unpaired_partial.
Print Assumptions C97_nested_refuted.
Print Assumptions C97_unexported_refuted.
