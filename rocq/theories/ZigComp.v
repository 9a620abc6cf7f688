(** * C157: composite literals of compiled programs *)
From Coq Require Import List ZArith Bool Arith Lia.
From Verif Require Import ZigCompModel ZigCompSpec.
Import ListNotations.

Scheme expr_i := Induction for expr Sort Prop
with elems_i := Induction for elems Sort Prop
with key_i := Induction for key Sort Prop.
Combined Scheme lit_ind from expr_i, elems_i, key_i.

Section Proofs.
Variable W : Type.
Variable call : nat -> W -> option val * W.
Variable same : val -> val -> bool.
Variable escapes : nat -> bool.
Notation go := (go W call same).
Notation go_elems := (go_elems W call same).
Notation zig := (zig W call same).
Notation zig_items := (zig_items W call same).
Notation emit := (emit escapes).
Notation emit_items := (emit_items escapes).

(** ** Fields *)
Lemma value_of_once : forall q (start : list (nat * val)), once (map fst q) = true ->
  fold_left (fun a p => set_field (fst p) (snd p) a) q start =
  map (fun p => (fst p, if existsb (Nat.eqb (fst p)) (map fst q) then value_of (fst p) q else snd p)) start.
Proof.
  induction q as [|[x v] q IH]; intros start O; cbn [fold_left map fst snd existsb value_of].
  - rewrite <- map_id at 1. apply map_ext. intros [a b]. reflexivity.
  - cbn [map fst once] in O. apply andb_true_iff in O. destruct O as [N O].
    rewrite (IH _ O). unfold set_field. rewrite map_map. apply map_ext. intros [y u]. cbn [fst snd].
    rewrite (Nat.eqb_sym x y). destruct (Nat.eqb_spec y x) as [->|D]; cbn [fst snd orb].
    + apply negb_true_iff in N. rewrite N. reflexivity.
    + reflexivity.
Qed.
Definition ins (r : list (place * val)) : list (nat * val) :=
  flat_map (fun p => match fst p with In y => [(y, snd p)] | _ => [] end) r.
Lemma in_fields_ins : forall r start, in_fields r start = fold_left (fun a p => set_field (fst p) (snd p) a) (ins r) start.
Proof.
  induction r as [|[p v] r IH]; intros start; [reflexivity|]. unfold in_fields in *. cbn [fold_left fst snd ins flat_map].
  destruct p; cbn [app]; exact (IH _).
Qed.
Lemma zero_names : forall fs, map fst (zero_fields fs) = names fs.
Proof. fix IH 1. intros [|x t r]; [reflexivity|]. cbn [zero_fields map fst names]. f_equal. apply IH. Qed.
Lemma fields_same : forall fs r, all_once (names fs) (map fst (ins r)) = true ->
  in_fields r (zero_fields fs) = map (fun x => (x, value_of x (ins r))) (names fs).
Proof.
  intros fs r A. unfold all_once in A. apply andb_true_iff in A. destruct A as [A _]. apply andb_true_iff in A. destruct A as [O C].
  rewrite in_fields_ins, (value_of_once _ _ O), <- zero_names, map_map. apply map_ext_in.
  intros [x v] I. cbn [fst snd]. rewrite forallb_forall in C.
  rewrite (C x); [reflexivity|]. rewrite <- zero_names. apply in_map_iff. exists (x, v). split; [reflexivity|exact I].
Qed.

(** ** Elements one after the other *)
Fixpoint row (i : nat) (vs : list val) : list (place * val) :=
  match vs with [] => [] | v :: r => (At i, v) :: row (S i) r end.
Lemma snd_row : forall vs i, map snd (row i vs) = vs.
Proof. induction vs as [|v vs IH]; intros i; cbn [row map snd]; [reflexivity|]. f_equal. apply IH. Qed.
Lemma at_row : forall vs a b, length b = length vs -> at_places (row (length a) vs) (a ++ b) = a ++ vs.
Proof.
  induction vs as [|v vs IH]; intros a b L; cbn [row].
  - destruct b; [|discriminate]. reflexivity.
  - destruct b as [|y b]; [discriminate|]. unfold at_places in *. cbn [fold_left fst snd].
    assert (E : set_nth (length a) v (a ++ y :: b) = (a ++ [v]) ++ b).
    { unfold set_nth. rewrite firstn_app, firstn_all, Nat.sub_diag, firstn_O, app_nil_r.
      rewrite skipn_app, skipn_all2 by lia. replace (S (length a) - length a) with 1 by lia. cbn [skipn app].
      rewrite <- app_assoc. reflexivity. }
    rewrite E. replace (S (length a)) with (length (a ++ [v])) by (rewrite app_length; cbn; lia).
    rewrite IH by (cbn in L; lia). rewrite <- app_assoc. reflexivity.
Qed.
Lemma at_row_all : forall vs n z, length vs = n -> at_places (row 0 vs) (repeat z n) = vs.
Proof.
  intros vs n z <-. replace (repeat z (length vs)) with (@nil val ++ repeat z (length vs)) by reflexivity.
  change 0 with (length (@nil val)). rewrite at_row by apply repeat_length. reflexivity.
Qed.
Lemma length_row : forall vs i n, n <= i -> fold_left (fun n (p : place * val) => match fst p with At i => max n (S i) | _ => n end) (row i vs) n = match vs with [] => n | _ => i + length vs end.
Proof.
  induction vs as [|v vs IH]; intros i n L; [reflexivity|]. cbn [row fold_left fst]. rewrite IH by lia.
  destruct vs; cbn [length]; lia.
Qed.
Lemma length_of_row : forall vs, length_of (row 0 vs) = length vs.
Proof. intros vs. unfold length_of. rewrite length_row by lia. destruct vs; reflexivity. Qed.

(** ** The steps of both evaluations *)
Lemma zig_cons : forall n a r w, zig_items n (ZCons a r) w =
  (let '(x, w) := zig_item W call same n a w in
   match x with
   | None => (None, w)
   | Some x => let '(b, w) := zig_items (S n) r w in (match b with Some b => Some (x :: b) | None => None end, w)
   end).
Proof. reflexivity. Qed.
Lemma zi_elem : forall n e w, zig_item W call same n (ZElem e) w = (let '(v, w) := zig e w in (match v with Some v => Some (At n, v) | None => None end, w)).
Proof. reflexivity. Qed.
Lemma zi_field : forall n x e w, zig_item W call same n (ZField x e) w = (let '(v, w) := zig e w in (match v with Some v => Some (In x, v) | None => None end, w)).
Proof. reflexivity. Qed.
Lemma zi_pair : forall n k e w, zig_item W call same n (ZPair k e) w =
  (let '(kv, w) := zig k w in match kv with None => (None, w) | Some kv => let '(v, w) := zig e w in (match v with Some v => Some (Under kv, v) | None => None end, w) end).
Proof. reflexivity. Qed.
Lemma go_cons : forall t p k e r w, go_elems t p (LCons k e r) w =
  (let '(x, w) :=
      match k with
      | KNone => (Some (match t with TStruct fs => In (nth_name p fs) | _ => At p end, S p), w)
      | KIndex i => (Some (At i, S i), w)
      | KField x => (Some (In x, S p), w)
      | KExpr ke => let '(kv, w) := go TInt ke w in (match kv with Some kv => Some (Under kv, S p) | None => None end, w)
      end in
    match x with
    | None => (None, w)
    | Some (x, p') =>
      let '(v, w) := go (inner t p k) e w in
      match v with
      | None => (None, w)
      | Some v =>
        let '(vs, w) := go_elems t p' r w in
        (match vs with Some vs => Some ((x, v) :: vs) | None => None end, w)
      end
    end).
Proof. reflexivity. Qed.
Definition item_of (t : ty) (i : nat) (k : key) (e : expr) : option zitem :=
  match t, k with
  | TMap _, KExpr ke => match emit ke, emit e with Some a, Some b => Some (ZPair a b) | _, _ => None end
  | TStruct _, KField x => match emit e with Some a => Some (if escapes x then ZNoItem else ZField x a) | None => None end
  | TStruct fs, _ => match emit e with Some a => Some (ZField (nth_name i fs) a) | None => None end
  | _, KNone => match emit e with Some a => Some (ZElem a) | None => None end
  | _, _ => match emit e with Some _ => Some ZNoItem | None => None end
  end.
Lemma emit_cons : forall t i k e r, emit_items t i (LCons k e r) =
  match item_of t i k e, emit_items t (S i) r with Some a, Some b => Some (ZCons a b) | _, _ => None end.
Proof. reflexivity. Qed.

Lemma elements_row : forall l i es r w w', elements l = Some es -> zig_items i l w = (Some r, w') ->
  exists vs, r = row i vs /\ length vs = length es.
Proof.
  induction l as [|a l IH]; intros i es r w w' E Z.
  - injection E as <-. change ((Some (@nil (place * val)), w) = (Some r, w')) in Z. inversion Z; subst. exists []. split; reflexivity.
  - destruct a as [e| | |]; try discriminate. cbn [elements] in E. destruct (elements l) as [es'|] eqn:El; [|discriminate].
    injection E as <-. rewrite zig_cons, zi_elem in Z.
    destruct (zig e w) as [[v|] w1]; [|inversion Z].
    destruct (zig_items (S i) l w1) as [[b|] w2] eqn:Zb; [|inversion Z]. inversion Z; subst.
    destruct (IH _ _ _ _ _ eq_refl Zb) as (vs & -> & Lv). exists (v :: vs). split; [reflexivity|cbn [length]; lia].
Qed.
Lemma named_ins : forall l i xs r w w', named l = Some xs -> zig_items i l w = (Some r, w') -> map fst (ins r) = xs.
Proof.
  induction l as [|a l IH]; intros i xs r w w' E Z.
  - injection E as <-. change ((Some (@nil (place * val)), w) = (Some r, w')) in Z. inversion Z; subst. reflexivity.
  - destruct a as [|x e| |]; try discriminate. cbn [named] in E. destruct (named l) as [xs'|] eqn:El; [|discriminate].
    injection E as <-. rewrite zig_cons, zi_field in Z.
    destruct (zig e w) as [[v|] w1]; [|inversion Z].
    destruct (zig_items (S i) l w1) as [[b|] w2] eqn:Zb; [|inversion Z]. inversion Z; subst.
    unfold ins in *. cbn [flat_map fst snd app map]. f_equal. eapply IH; [reflexivity|exact Zb].
Qed.

(** The keys of a struct are names: Go's type checker sees to that. *)
Definition struct_keys (t : ty) (k : key) : Prop :=
  match t, k with TStruct _, KIndex _ | TStruct _, KExpr _ => False | _, _ => True end.
Lemma admitted_struct : forall t ks k, admitted t ks -> List.In k ks -> struct_keys t k.
Proof.
  intros [] ks k A I; cbn [struct_keys]; auto. destruct k; auto; destruct A as [_ [[A _]|[A _]]]; specialize (A _ I); try discriminate; destruct A; discriminate.
Qed.
Fixpoint keys_fit (t : ty) (l : elems) : Prop := match l with LNil => True | LCons k _ r => struct_keys t k /\ keys_fit t r end.
Lemma admitted_fit : forall t l, admitted t (keys l) -> keys_fit t l.
Proof.
  intros t l A. assert (H : forall k, List.In k (keys l) -> struct_keys t k) by (intros k; apply admitted_struct; exact A).
  clear A. induction l as [|k e r IH]; cbn [keys_fit]; [exact I|].
  split; [apply H; left; reflexivity|]. apply IH. intros k' I'. apply H. right. exact I'.
Qed.

Lemma same_all :
  (forall e t z w, typed t e -> emit e = Some z -> accepts z = true -> zig z w = go t e w) /\
  (forall l t i is w, every_of admitted True t i l -> keys_fit t l -> emit_items t i l = Some is -> accepts_all is = true ->
     zig_items i is w = go_elems t i l w) /\
  (forall k ke z w, k = KExpr ke -> typed TInt ke -> emit ke = Some z -> accepts z = true -> zig z w = go TInt ke w).
Proof.
  apply (lit_ind
    (fun e => forall t z w, typed t e -> emit e = Some z -> accepts z = true -> zig z w = go t e w)
    (fun l => forall t i is w, every_of admitted True t i l -> keys_fit t l -> emit_items t i l = Some is -> accepts_all is = true ->
       zig_items i is w = go_elems t i l w)
    (fun k => forall ke z w, k = KExpr ke -> typed TInt ke -> emit ke = Some z -> accepts z = true -> zig z w = go TInt ke w)).
  - intros n t z w _ E _. injection E as <-. reflexivity.
  - intros f t z w _ E _. injection E as <-. reflexivity.
  - intros [t'|] l IH t z w T E A; [|discriminate]. destruct T as [K T]. change (every_of admitted True t' 0 l) in T.
    change (match emit_items t' 0 l with None => None | Some is =>
      match t' with TArray _ _ | TStruct _ => Some (ZInit t' is) | TSlice t => Some (ZSlice t (count l) is)
      | TMap t => Some (ZMap t (count l) is) | TInt => None end end = Some z) in E.
    destruct (emit_items t' 0 l) as [is|] eqn:Ei; [|discriminate].
    assert (F : keys_fit t' l) by (apply admitted_fit; exact K).
    change (go t (ELit (Some t') l) w) with (let '(r, w) := go_elems t' 0 l w in (match r with Some r => Some (made same t' r) | None => None end, w)).
    destruct t' as [|n t0|t0|t0|fs]; [discriminate| | | |]; injection E as <-.
    + change ((match elements is with Some es => Nat.eqb (length es) n | None => false end && accepts_all is) = true) in A.
      apply andb_true_iff in A. destruct A as [A B]. rewrite <- (IH _ 0 is w T F Ei B).
      change (zig (ZInit (TArray n t0) is) w) with (let '(r, w) := zig_items 0 is w in (match r with None => None | Some r => Some (VArray (map snd r)) end, w)).
      destruct (zig_items 0 is w) as [[r|] w'] eqn:Z; [|reflexivity].
      destruct (elements is) as [es|] eqn:Ee; [|discriminate]. apply Nat.eqb_eq in A.
      destruct (elements_row _ _ _ _ _ _ Ee Z) as (vs & -> & Lv). cbn [made]. rewrite snd_row, at_row_all by lia. reflexivity.
    + change ((match elements is with Some es => Nat.eqb (length es) (count l) | None => false end && accepts_all is) = true) in A.
      apply andb_true_iff in A. destruct A as [A B]. rewrite <- (IH _ 0 is w T F Ei B).
      change (zig (ZSlice t0 (count l) is) w) with (let '(r, w) := zig_items 0 is w in (match r with Some r => Some (VSlice (map snd r)) | None => None end, w)).
      destruct (zig_items 0 is w) as [[r|] w'] eqn:Z; [|reflexivity].
      destruct (elements is) as [es|] eqn:Ee; [|discriminate].
      destruct (elements_row _ _ _ _ _ _ Ee Z) as (vs & -> & Lv). cbn [made]. rewrite snd_row, length_of_row, at_row_all by reflexivity. reflexivity.
    + change ((match pairs is with Some m => Nat.eqb m (count l) | None => false end && accepts_all is) = true) in A.
      apply andb_true_iff in A. destruct A as [A B]. rewrite <- (IH _ 0 is w T F Ei B).
      change (zig (ZMap t0 (count l) is) w) with (let '(r, w) := zig_items 0 is w in (match r with Some r => Some (VMap (under_keys same r)) | None => None end, w)).
      destruct (zig_items 0 is w) as [[r|] w'] eqn:Z; reflexivity.
    + change ((match named is with Some xs => all_once (names fs) xs | None => false end && accepts_all is) = true) in A.
      apply andb_true_iff in A. destruct A as [A B]. rewrite <- (IH _ 0 is w T F Ei B).
      change (zig (ZInit (TStruct fs) is) w) with (let '(r, w) := zig_items 0 is w in (match r with None => None | Some r => Some (VStruct (map (fun x => (x, value_of x (ins r))) (names fs))) end, w)).
      destruct (zig_items 0 is w) as [[r|] w'] eqn:Z; [|reflexivity].
      destruct (named is) as [xs|] eqn:En; [|discriminate]. cbn [made].
      rewrite fields_same; [reflexivity|]. rewrite (named_ins _ _ _ _ _ _ En Z). exact A.
  - intros t i is w _ _ E _. injection E as <-. reflexivity.
  - intros k IHk e IHe r IHr t i is w T F E A. destruct T as (Tk & Te & Tr). change (typed (inner t i k) e) in Te. change (every_of admitted True t (S i) r) in Tr. destruct F as [Fk Fr]. change (keys_fit t r) in Fr.
    rewrite emit_cons in E. destruct (item_of t i k e) as [a|] eqn:Ea; [|discriminate].
    destruct (emit_items t (S i) r) as [b|] eqn:Eb; [|discriminate]. injection E as <-.
    change (accepts_item a && accepts_all b = true) in A. apply andb_true_iff in A. destruct A as [Aa Ab].
    rewrite zig_cons, go_cons.
    assert (R : forall w, zig_items (S i) b w = go_elems t (S i) r w) by (intros w0; apply IHr; assumption).
    assert (X : forall z, emit e = Some z -> accepts z = true -> forall w, zig z w = go (inner t i k) e w)
      by (intros z Ez Az w0; apply IHe; [exact Te|exact Ez|exact Az]).
    assert (N : forall o : option zexpr, (match o with Some _ => Some ZNoItem | None => None end) = Some a -> False).
    { intros [o|] Eo; [injection Eo as <-; discriminate|discriminate]. }
    destruct (emit e) as [ze|] eqn:Ee; [|destruct t, k; try discriminate; cbn [item_of] in Ea; rewrite ?Ee in Ea; try discriminate; destruct (emit e0); discriminate].
    assert (Elem : a = ZElem ze -> k = KNone -> (match t with TStruct _ => False | _ => True end) ->
       (let '(x, w0) := zig_item W call same i a w in
        match x with None => (None, w0) | Some x0 => let '(b0, w1) := zig_items (S i) b w0 in (match b0 with Some b1 => Some (x0 :: b1) | None => None end, w1) end) =
       (let '(v, w0) := go (inner t i k) e w in
        match v with None => (None, w0) | Some v => let '(vs, w1) := go_elems t (S i) r w0 in (match vs with Some vs => Some ((At i, v) :: vs) | None => None end, w1) end)).
    { intros -> -> _. rewrite zi_elem, (X ze eq_refl Aa). destruct (go (inner t i KNone) e w) as [[v|] w1]; [|reflexivity]. rewrite R. reflexivity. }
    assert (Fld : forall x, a = ZField x ze ->
       (let '(x, w0) := zig_item W call same i a w in
        match x with None => (None, w0) | Some x0 => let '(b0, w1) := zig_items (S i) b w0 in (match b0 with Some b1 => Some (x0 :: b1) | None => None end, w1) end) =
       (let '(v, w0) := go (inner t i k) e w in
        match v with None => (None, w0) | Some v => let '(vs, w1) := go_elems t (S i) r w0 in (match vs with Some vs => Some ((In x, v) :: vs) | None => None end, w1) end)).
    { intros x ->. rewrite zi_field, (X ze eq_refl Aa). destruct (go (inner t i k) e w) as [[v|] w1]; [|reflexivity]. rewrite R. reflexivity. }
    unfold item_of in Ea.
    destruct t as [|n t0|t0|t0|fs]; destruct k as [|j|x|ke]; cbn [struct_keys] in Fk; try contradiction;
      rewrite ?Ee in Ea; try (exfalso; exact (N (Some ze) Ea)).
    + injection Ea as <-. exact (Elem eq_refl eq_refl I).
    + injection Ea as <-. exact (Elem eq_refl eq_refl I).
    + injection Ea as <-. exact (Elem eq_refl eq_refl I).
    + injection Ea as <-. exact (Elem eq_refl eq_refl I).
    + destruct (emit ke) as [zk|] eqn:Ek; [|discriminate]. injection Ea as <-.
      change (accepts zk && accepts ze = true) in Aa. apply andb_true_iff in Aa. destruct Aa as [A1 A2].
      rewrite zi_pair, (IHk ke zk w eq_refl Tk Ek A1). destruct (go TInt ke w) as [[kv|] w1]; [|reflexivity].
      rewrite (X ze eq_refl A2). destruct (go (inner (TMap t0) i (KExpr ke)) e w1) as [[v|] w2]; [|reflexivity]. rewrite R. reflexivity.
    + injection Ea as <-. exact (Fld _ eq_refl).
    + destruct (escapes x); injection Ea as <-; [discriminate|]. exact (Fld _ eq_refl).
  - intros ke z w E. discriminate.
  - intros j ke z w E. discriminate.
  - intros x ke z w E. discriminate.
  - intros e IHe ke z w E T Ez A. injection E as ->. exact (IHe _ _ _ T Ez A).
Qed.

(** A program with literals, if it is a program of Zig, evaluates them as Go does: the same
    calls in the same order, the same panics, the same value. *)
Theorem C157_sound_partial : forall t e z w, typed t e -> emit e = Some z -> accepts z = true -> zig z w = go t e w.
Proof. intros t e. exact (proj1 same_all e t). Qed.

(** ** Which literals are programs *)
Definition good (t : ty) (k : key) : Prop :=
  match t with
  | TInt => False
  | TArray _ _ | TSlice _ => k = KNone
  | TMap _ => exists e, k = KExpr e
  | TStruct _ => match k with KField x => escapes x = false | KNone => True | _ => False end
  end.
Fixpoint names_at (fs : fields) (i : nat) (ks : list key) : list nat :=
  match ks with [] => [] | KField x :: r => x :: names_at fs (S i) r | _ :: r => nth_name i fs :: names_at fs (S i) r end.
Lemma shape : forall l t i is, emit_items t i l = Some is -> Forall (good t) (keys l) ->
  match t with
  | TArray _ _ | TSlice _ => exists es, elements is = Some es /\ length es = count l
  | TMap _ => pairs is = Some (count l)
  | TStruct fs => named is = Some (names_at fs i (keys l))
  | TInt => True
  end.
Proof.
  induction l as [|k e r IH]; intros t i is E G.
  - injection E as <-. destruct t; try exact I; try reflexivity; exists []; split; reflexivity.
  - rewrite emit_cons in E. destruct (item_of t i k e) as [a|] eqn:Ea; [|discriminate].
    destruct (emit_items t (S i) r) as [b|] eqn:Eb; [|discriminate]. injection E as <-.
    cbn [keys] in G. inversion G as [|? ? Gk Gr]; subst. specialize (IH t (S i) b Eb Gr).
    destruct t as [|n t0|t0|t0|fs]; [exact I| | | |]; cbn [good] in Gk; unfold item_of in Ea.
    + subst k. destruct (emit e) as [z|]; [|discriminate]. injection Ea as <-. destruct IH as (es & E1 & E2).
      cbn [elements]. rewrite E1. exists (z :: es). split; [reflexivity|]. cbn [length count]. rewrite E2. reflexivity.
    + subst k. destruct (emit e) as [z|]; [|discriminate]. injection Ea as <-. destruct IH as (es & E1 & E2).
      cbn [elements]. rewrite E1. exists (z :: es). split; [reflexivity|]. cbn [length count]. rewrite E2. reflexivity.
    + destruct Gk as [ke ->]. destruct (emit ke) as [zk|]; [|discriminate]. destruct (emit e) as [z|]; [|discriminate]. injection Ea as <-.
      cbn [pairs]. rewrite IH. reflexivity.
    + destruct k as [|j|x|ke]; try contradiction.
      * destruct (emit e) as [z|]; [|discriminate]. injection Ea as <-. cbn [named keys names_at]. rewrite IH. reflexivity.
      * rewrite Gk in Ea. destruct (emit e) as [z|]; [|discriminate]. injection Ea as <-. cbn [named keys names_at]. rewrite IH. reflexivity.
Qed.

Lemma once_NoDup : forall l, once l = true <-> NoDup l.
Proof.
  induction l as [|x l IH]; cbn [once]; [split; [constructor|reflexivity]|].
  rewrite andb_true_iff, negb_true_iff, IH. split.
  - intros [N D]. constructor; [|exact D]. intros I. enough (existsb (Nat.eqb x) l = true) by congruence.
    apply existsb_exists. exists x. split; [exact I|apply Nat.eqb_refl].
  - intros D. inversion D as [|? ? N D']; subst. split; [|exact D'].
    destruct (existsb (Nat.eqb x) l) eqn:E; [|reflexivity]. apply existsb_exists in E. destruct E as (y & I & Q). apply Nat.eqb_eq in Q. subst y. contradiction.
Qed.
Lemma forallb_incl : forall a b, forallb (fun x => existsb (Nat.eqb x) b) a = true <-> incl a b.
Proof.
  intros a b. rewrite forallb_forall. unfold incl. split; intros H x I.
  - specialize (H x I). apply existsb_exists in H. destruct H as (y & J & Q). apply Nat.eqb_eq in Q. subst y. exact J.
  - apply existsb_exists. exists x. split; [exact (H x I)|apply Nat.eqb_refl].
Qed.
Lemma all_once_iff : forall fs l, all_once fs l = true <-> NoDup l /\ incl fs l /\ incl l fs.
Proof. intros fs l. unfold all_once. rewrite !andb_true_iff, once_NoDup, !forallb_incl. tauto. Qed.
Lemma skipn_nth : forall (l : list nat) i, i < length l -> skipn i l = nth i l 0 :: skipn (S i) l.
Proof.
  induction l as [|y l IH]; intros [|i] L; cbn [length] in L; try lia; [reflexivity|].
  change (skipn i l = nth i l 0 :: skipn (S i) l). apply IH. lia.
Qed.
Lemma names_at_none : forall ks fs i, (forall k, List.In k ks -> k = KNone) -> i + length ks <= length (names fs) ->
  names_at fs i ks = firstn (length ks) (skipn i (names fs)).
Proof.
  induction ks as [|k ks IH]; intros fs i N L; [reflexivity|].
  rewrite (N k) by (left; reflexivity). cbn [names_at length firstn].
  rewrite IH; [|intros k' I; apply N; right; exact I|cbn [length] in L; lia].
  unfold nth_name. cbn [length] in L. rewrite (skipn_nth (names fs) i) by lia. reflexivity.
Qed.
Lemma names_at_field : forall ks fs i, (forall k, List.In k ks -> exists x, k = KField x) -> names_at fs i ks = field_names ks /\ length (field_names ks) = length ks.
Proof.
  induction ks as [|k ks IH]; intros fs i N; [split; reflexivity|].
  destruct (N k (or_introl eq_refl)) as [x ->]. destruct (IH fs (S i)) as [H1 H2]; [intros k I; apply N; right; exact I|].
  cbn [names_at]. rewrite H1. unfold field_names in *. cbn [flat_map app length]. rewrite H2. split; reflexivity.
Qed.
Lemma struct_complete : forall fs ks, admitted (TStruct fs) ks ->
  (all_once (names fs) (names_at fs 0 ks) = true <-> length ks = length (names fs)).
Proof. clear call same.
  intros fs ks [D [[N L]|(N & X & Y)]].
  - destruct L as [L|L].
    + split; [intros _; exact L|]. intros _. rewrite (names_at_none ks fs 0 N) by lia. cbn [skipn]. rewrite L, firstn_all.
      apply all_once_iff. split; [exact D|]. split; apply incl_refl.
    + subst ks. cbn [names_at length]. rewrite all_once_iff. split.
      * intros (_ & H & _). apply incl_l_nil in H. rewrite H. reflexivity.
      * intros H. destruct (names fs); [|discriminate]. split; [constructor|]. split; apply incl_refl.
  - destruct (names_at_field ks fs 0 N) as [-> E]. rewrite <- E, all_once_iff. split.
    + intros (_ & H & _). apply Nat.le_antisymm; apply NoDup_incl_length; assumption.
    + intros H. split; [exact X|]. split; [|exact Y]. apply NoDup_length_incl; [exact X|lia|exact Y].
Qed.

Lemma emit_lit : forall t l, emit (ELit (Some t) l) = match emit_items t 0 l with None => None | Some is =>
      match t with TArray _ _ | TStruct _ => Some (ZInit t is) | TSlice t => Some (ZSlice t (count l) is)
      | TMap t => Some (ZMap t (count l) is) | TInt => None end end.
Proof. reflexivity. Qed.
Lemma count_keys : forall l, count l = length (keys l).
Proof. fix IH 1. intros [|k e r]; [reflexivity|]. cbn [count keys length]. f_equal. apply IH. Qed.

(** What is in full has good keys; and good keys it must have. *)
Lemma accepts_top : forall t l is z, admitted t (keys l) -> emit_items t 0 l = Some is -> Forall (good t) (keys l) ->
  emit (ELit (Some t) l) = Some z -> (accepts z = true <-> in_full escapes t (keys l) /\ accepts_all is = true).
Proof. clear call same.
  intros t l is z A Ei G E. rewrite emit_lit, Ei in E. pose proof (shape l t 0 is Ei G) as S.
  destruct t as [|n t0|t0|t0|fs]; [discriminate| | | |]; injection E as <-; cbn [in_full].
  - destruct S as (es & E1 & E2).
    change ((match elements is with Some es => Nat.eqb (length es) n | None => false end && accepts_all is) = true <-> ((forall k, List.In k (keys l) -> k = KNone) /\ length (keys l) = n) /\ accepts_all is = true).
    rewrite E1, andb_true_iff, Nat.eqb_eq, E2, count_keys. rewrite Forall_forall in G. cbn [good] in G. tauto.
  - destruct S as (es & E1 & E2).
    change ((match elements is with Some es => Nat.eqb (length es) (count l) | None => false end && accepts_all is) = true <-> (forall k, List.In k (keys l) -> k = KNone) /\ accepts_all is = true).
    rewrite E1, andb_true_iff, Nat.eqb_eq, E2. rewrite Forall_forall in G. cbn [good] in G. tauto.
  - change ((match pairs is with Some m => Nat.eqb m (count l) | None => false end && accepts_all is) = true <-> True /\ accepts_all is = true).
    rewrite S, andb_true_iff, Nat.eqb_eq. tauto.
  - change ((match named is with Some xs => all_once (names fs) xs | None => false end && accepts_all is) = true <->
      (length (keys l) = length (names fs) /\ (forall x, List.In x (field_names (keys l)) -> escapes x = false)) /\ accepts_all is = true).
    rewrite S, andb_true_iff, (struct_complete fs (keys l) A).
    assert (X : forall x, List.In x (field_names (keys l)) -> escapes x = false).
    { intros x I. unfold field_names in I. apply in_flat_map in I. destruct I as (k & I & J). rewrite Forall_forall in G. specialize (G k I).
      destruct k; cbn in J; try contradiction. destruct J as [->|[]]. exact G. }
    tauto.
Qed.
Lemma full_good : forall t ks, admitted t ks -> in_full escapes t ks -> Forall (good t) ks.
Proof. clear call same.
  intros t ks A F. apply Forall_forall. intros k I. destruct t; cbn [admitted in_full good] in *; try tauto.
  - apply F. exact I.
  - apply F. exact I.
  - apply A. exact I.
  - destruct F as [_ F]. destruct A as [_ [[A _]|[A _]]]; specialize (A k I).
    + subst k. exact Logic.I.
    + destruct A as [x ->]. apply F. unfold field_names. apply in_flat_map. exists (KField x). split; [exact I|left; reflexivity].
Qed.
Definition kind (t : ty) (k : key) : Prop :=
  match t with
  | TInt => False
  | TArray _ _ | TSlice _ => k = KNone \/ exists i, k = KIndex i
  | TMap _ => exists e, k = KExpr e
  | TStruct _ => match k with KField _ | KNone => True | _ => False end
  end.
Lemma admitted_kind : forall t ks, admitted t ks -> Forall (kind t) ks.
Proof. clear call same.
  intros t ks A. apply Forall_forall. intros k I. destruct t; cbn [admitted kind] in *; try tauto.
  - apply A. exact I.
  - apply A. exact I.
  - apply A. exact I.
  - destruct A as [_ [[A _]|[A _]]]; specialize (A k I); [subst k; exact Logic.I|destruct A as [x ->]; exact Logic.I].
Qed.

Definition program (e : expr) : Prop := exists z, emit e = Some z /\ accepts z = true.
Definition programs (t : ty) (i : nat) (l : elems) : Prop := exists is, emit_items t i l = Some is /\ accepts_all is = true.
Lemma programs_cons : forall t i k e r, programs t i (LCons k e r) <->
  (exists a, item_of t i k e = Some a /\ accepts_item a = true) /\ programs t (S i) r.
Proof.
  intros t i k e r. unfold programs. rewrite emit_cons. split.
  - intros (is & E & A). destruct (item_of t i k e) as [a|]; [|discriminate]. destruct (emit_items t (S i) r) as [b|]; [|discriminate].
    injection E as <-. change (accepts_item a && accepts_all b = true) in A. apply andb_true_iff in A. destruct A as [A1 A2].
    split; [exists a|exists b]; split; try reflexivity; assumption.
  - intros [(a & -> & A) (b & -> & B)]. exists (ZCons a b). split; [reflexivity|].
    change (accepts_item a && accepts_all b = true). rewrite A, B. reflexivity.
Qed.
Lemma item_program : forall t i k e, kind t k ->
  ((exists a, item_of t i k e = Some a /\ accepts_item a = true) <-> good t k /\ match k with KExpr ke => program ke | _ => True end /\ program e).
Proof. clear call same.
  intros t i k e K. unfold program.
  destruct t as [|n t0|t0|t0|fs]; [contradiction| | | |]; cbn [kind good] in *.
  - destruct K as [->|[j ->]]; cbn [item_of].
    + split.
      * intros (a & E & A). destruct (emit e) as [z|]; [|discriminate]. injection E as <-. split; [reflexivity|]. split; [exact I|]. exists z. split; [reflexivity|exact A].
      * intros (_ & _ & z & -> & A). exists (ZElem z). split; [reflexivity|exact A].
    + split; [|intros (H & _); discriminate]. intros (a & E & A). destruct (emit e); [|discriminate]. injection E as <-. discriminate.
  - destruct K as [->|[j ->]]; cbn [item_of].
    + split.
      * intros (a & E & A). destruct (emit e) as [z|]; [|discriminate]. injection E as <-. split; [reflexivity|]. split; [exact I|]. exists z. split; [reflexivity|exact A].
      * intros (_ & _ & z & -> & A). exists (ZElem z). split; [reflexivity|exact A].
    + split; [|intros (H & _); discriminate]. intros (a & E & A). destruct (emit e); [|discriminate]. injection E as <-. discriminate.
  - destruct K as [ke ->]. cbn [item_of]. split.
    + intros (a & E & A). destruct (emit ke) as [zk|]; [|discriminate]. destruct (emit e) as [z|]; [|discriminate]. injection E as <-.
      change (accepts zk && accepts z = true) in A. apply andb_true_iff in A. destruct A as [A1 A2].
      split; [exists ke; reflexivity|]. split; [exists zk|exists z]; split; try reflexivity; assumption.
    + intros (_ & (zk & -> & A1) & z & -> & A2). exists (ZPair zk z). split; [reflexivity|]. change (accepts zk && accepts z = true). rewrite A1, A2. reflexivity.
  - destruct k as [|j|x|ke]; try contradiction; cbn [item_of].
    + split.
      * intros (a & E & A). destruct (emit e) as [z|]; [|discriminate]. injection E as <-. split; [exact I|]. split; [exact I|]. exists z. split; [reflexivity|exact A].
      * intros (_ & _ & z & -> & A). eexists. split; [reflexivity|exact A].
    + destruct (escapes x); split.
      * intros (a & E & A). destruct (emit e); [|discriminate]. injection E as <-. discriminate.
      * intros (H & _). discriminate.
      * intros (a & E & A). destruct (emit e) as [z|]; [|discriminate]. injection E as <-. split; [reflexivity|]. split; [exact I|]. exists z. split; [reflexivity|exact A].
      * intros (_ & _ & z & -> & A). eexists. split; [reflexivity|exact A].
Qed.

Lemma exactly_all :
  (forall e t, typed t e -> (program e <-> full escapes t e)) /\
  (forall l t i, every_of admitted True t i l -> Forall (kind t) (keys l) ->
     (programs t i l <-> every_of (in_full escapes) False t i l /\ Forall (good t) (keys l))) /\
  (forall k ke, k = KExpr ke -> typed TInt ke -> (program ke <-> full escapes TInt ke)).
Proof. clear call same.
  apply (lit_ind
    (fun e => forall t, typed t e -> (program e <-> full escapes t e))
    (fun l => forall t i, every_of admitted True t i l -> Forall (kind t) (keys l) ->
       (programs t i l <-> every_of (in_full escapes) False t i l /\ Forall (good t) (keys l)))
    (fun k => forall ke, k = KExpr ke -> typed TInt ke -> (program ke <-> full escapes TInt ke))).
  - intros n t _. split; [intros _; exact I|]. intros _. exists (ZInt n). split; reflexivity.
  - intros f t _. split; [intros _; exact I|]. intros _. exists (ZCall f). split; reflexivity.
  - intros [t'|] l IH t T.
    + destruct T as [K T]. change (every_of admitted True t' 0 l) in T.
      specialize (IH t' 0 T (admitted_kind _ _ K)).
      change (full escapes t (ELit (Some t') l)) with (in_full escapes t' (keys l) /\ every_of (in_full escapes) False t' 0 l).
      split.
      * intros (z & E & A). pose proof E as E0. rewrite emit_lit in E0.
        destruct (emit_items t' 0 l) as [is|] eqn:Ei; [|discriminate].
        assert (B : accepts_all is = true).
        { destruct t'; try discriminate; injection E0 as <-; cbn [accepts] in A; apply andb_true_iff in A; apply A. }
        assert (Pr : programs t' 0 l) by (exists is; split; assumption).
        destruct (proj1 IH Pr) as [F G]. split; [|exact F].
        apply (proj1 (accepts_top t' l is z K Ei G E)). exact A.
      * intros [F F']. pose proof (full_good _ _ K F) as G.
        destruct (proj2 IH (conj F' G)) as (is & Ei & B).
        assert (exists z, emit (ELit (Some t') l) = Some z) as [z E].
        { rewrite emit_lit, Ei. destruct t'; [contradiction| | | |]; eexists; reflexivity. }
        exists z. split; [exact E|]. apply (accepts_top t' l is z K Ei G E). split; assumption.
    + split; [intros (z & E & _); discriminate|intros [[] _]].
  - intros t i _ _. split; [intros _; split; [exact I|constructor]|]. intros _. exists ZNil. split; reflexivity.
  - intros k IHk e IHe r IHr t i T K. destruct T as (Tk & Te & Tr). change (typed (inner t i k) e) in Te. change (every_of admitted True t (S i) r) in Tr.
    cbn [keys] in K. inversion K as [|? ? Kk Kr]; subst.
    rewrite programs_cons, (item_program t i k e Kk), (IHr t (S i) Tr Kr), (IHe _ Te).
    change (every_of (in_full escapes) False t i (LCons k e r)) with
      (match k with KExpr ke => full escapes TInt ke | _ => True end /\ full escapes (inner t i k) e /\ every_of (in_full escapes) False t (S i) r).
    change (keys (LCons k e r)) with (k :: keys r). rewrite Forall_cons_iff.
    assert (X : match k with KExpr ke => program ke | _ => True end <-> match k with KExpr ke => full escapes TInt ke | _ => True end).
    { destruct k as [| | |ke]; try tauto. apply IHk; [reflexivity|exact Tk]. }
    rewrite X. tauto.
  - intros ke E. discriminate.
  - intros j ke E. discriminate.
  - intros x ke E. discriminate.
  - intros e IHe ke E T. injection E as ->. exact (IHe _ T).
Qed.

(** The literals that are programs are exactly those written in full: every element of an
    array, every field, no index, no type left out. *)
Theorem C157_exactly : forall t e, typed t e ->
  ((exists z, emit e = Some z /\ accepts z = true) <-> full escapes t e).
Proof. intros t e. exact (proj1 exactly_all e t). Qed.

(** Literals written in full have the value Go gives them. *)
Theorem C157_full_partial : forall t e, typed t e -> full escapes t e ->
  exists z, emit e = Some z /\ accepts z = true /\ forall w, zig z w = go t e w.
Proof.
  intros t e T F. destruct (proj2 (C157_exactly t e T) F) as (z & E & A). exists z. split; [exact E|]. split; [exact A|].
  intros w. apply C157_sound_partial; assumption.
Qed.
End Proofs.

(** The full claim: Go's literals are programs. *)
Definition C157_full : Prop := forall escapes t e, typed t e -> exists z, emit escapes e = Some z /\ accepts z = true.
Section Refuted.
Variable escapes : nat -> bool.
Notation program e := (exists z, emit escapes e = Some z /\ accepts z = true).
(** An array with fewer elements than it has places, a struct without one of its fields, an
    element with an index and a literal without its type are no programs. *)
Theorem C157_short_refuted : forall n t l, admitted (TArray n t) (keys l) -> every_of admitted True (TArray n t) 0 l -> count l < n ->
  ~ program (ELit (Some (TArray n t)) l).
Proof.
  intros n t l A T L P. apply (C157_exactly escapes TInt) in P; [|split; assumption].
  destruct P as [[_ P] _]. rewrite <- count_keys in P. lia.
Qed.
Theorem C157_field_refuted : forall fs l, admitted (TStruct fs) (keys l) -> every_of admitted True (TStruct fs) 0 l -> count l < length (names fs) ->
  ~ program (ELit (Some (TStruct fs)) l).
Proof.
  intros fs l A T L P. apply (C157_exactly escapes TInt) in P; [|split; assumption].
  destruct P as [[P _] _]. rewrite <- count_keys in P. lia.
Qed.
Theorem C157_index_refuted : forall t i e, typed t e -> ~ program (ELit (Some (TSlice t)) (LCons (KIndex i) e LNil)).
Proof.
  intros t i e T P. apply (C157_exactly escapes TInt) in P.
  - destruct P as [P _]. specialize (P _ (or_introl eq_refl)). discriminate.
  - split; [|split; [exact I|split; [exact T|exact I]]]. cbn [admitted keys places]. split.
    + intros k [<-|[]]. right. exists i. reflexivity.
    + constructor; [intros []|constructor].
Qed.
Theorem C157_elided_refuted : forall l t r, ~ program (ELit (Some (TSlice t)) (LCons KNone (ELit None l) r)).
Proof. intros l t r (z & E & _). discriminate. Qed.
End Refuted.
Theorem C157_full_refuted : ~ C157_full.
Proof.
  intros F. apply (C157_short_refuted (fun _ => false) 1 TInt LNil); [|exact I|cbn; lia|].
  - cbn. split; [intros k []|]. split; [constructor|intros i []].
  - apply (F (fun _ => false) TInt). split; [|exact I]. cbn. split; [intros k []|]. split; [constructor|intros i []].
Qed.

(** Slices of structs with an array and a map; the second element calls, and the fields are not in the
    order of the type. *)
Definition point : ty := TStruct (FCons 0 TInt (FCons 1 (TArray 2 TInt) (FCons 2 (TMap TInt) FNil))).
Definition example : expr :=
  ELit (Some (TSlice point))
    (LCons KNone (ELit (Some point) (LCons KNone (EInt 1) (LCons KNone (ELit (Some (TArray 2 TInt)) (LCons KNone (EInt 2) (LCons KNone (EInt 3) LNil)))
       (LCons KNone (ELit (Some (TMap TInt)) (LCons (KExpr (EInt 5)) (ECall 0) (LCons (KExpr (EInt 5)) (EInt 8) LNil))) LNil))))
    (LCons KNone (ELit (Some point) (LCons (KField 2) (ELit (Some (TMap TInt)) LNil) (LCons (KField 0) (ECall 1)
       (LCons (KField 1) (ELit (Some (TArray 2 TInt)) (LCons KNone (ECall 2) (LCons KNone (EInt 9) LNil))) LNil)))) LNil)).
Definition counting (f : nat) (w : list nat) : option val * list nat := (Some (VInt (Z.of_nat f)), w ++ [f]).
Definition same_int (a b : val) : bool := match a, b with VInt x, VInt y => Z.eqb x y | _, _ => false end.
Ltac every_key := intros ? ?; cbn in *; repeat match goal with H : _ \/ _ |- _ => destruct H as [H|H] end; try contradiction; subst.
Ltac no_dup := cbn; repeat (constructor; [cbn; intros ?; repeat match goal with H : _ \/ _ |- _ => destruct H as [H|H] end; try contradiction; try discriminate|]); try constructor.
Ltac fits :=
  match goal with
  | |- _ /\ _ => split; fits
  | |- True => exact I
  | |- NoDup _ => no_dup
  | |- incl _ _ => every_key; tauto
  | |- _ = _ => reflexivity
  | |- (_ /\ _) \/ (_ /\ _) => first [left; solve [fits] | right; solve [fits]]
  | |- _ = _ \/ _ = _ => left; reflexivity
  | |- forall _, _ => every_key; try reflexivity; try (left; reflexivity); try (eexists; reflexivity); try lia; try (constructor; fail)
  end.
Theorem C157_example : typed (TSlice point) example /\ full (fun _ => false) (TSlice point) example /\
  match emit (fun _ => false) example with Some z => accepts z | None => false end = true /\
  go _ counting same_int (TSlice point) example [] =
    (Some (VSlice [VStruct [(0, VInt 1); (1, VArray [VInt 2; VInt 3]); (2, VMap [(VInt 5, VInt 8)])];
                   VStruct [(0, VInt 1); (1, VArray [VInt 2; VInt 9]); (2, VMap [])]]), [0; 1; 2]).
Proof.
  split; [|split; [|split; vm_compute; reflexivity]].
  - unfold example, typed. cbn. fits.
  - unfold example, full. cbn. fits.
Qed.

(** What Go says of the literals that are no programs: what is left out is the zero value, an
    index moves on to its place. *)
Theorem C157_example_go :
  go _ counting same_int TInt (ELit (Some (TArray 2 (TArray 2 TInt))) (LCons KNone (ELit None (LCons KNone (EInt 5) LNil)) LNil)) [] =
    (Some (VArray [VArray [VInt 5; VInt 0]; VArray [VInt 0; VInt 0]]), []) /\
  go _ counting same_int TInt (ELit (Some (TSlice TInt)) (LCons (KIndex 2) (EInt 5) (LCons KNone (ECall 1) (LCons (KIndex 0) (ECall 2) LNil)))) [] =
    (Some (VSlice [VInt 2; VInt 0; VInt 5; VInt 1]), [1; 2]) /\
  go _ counting same_int TInt (ELit (Some point) (LCons (KField 0) (EInt 5) LNil)) [] =
    (Some (VStruct [(0, VInt 5); (1, VArray [VInt 0; VInt 0]); (2, VNil)]), []).
Proof. split; [|split]; vm_compute; reflexivity. Qed.
