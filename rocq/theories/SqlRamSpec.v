(** What the properties of the in-memory database talk about. *)
From Verif Require Import GoBase KvsModel SqlRamModel.
From Coq Require Import Permutation Sorting.Sorted.

Section Spec.
Context {K V : Type}.
Local Notation expr := (expr K V).

(** A record passes a list of expressions when none of them is a condition that
    came out false. *)
Definition satisfies (es : list expr) : Prop := ~ In (EValue false) es.
Definition passes (check : option (V -> list expr)) (v : V) : Prop :=
  match check with None => True | Some c => satisfies (c v) end.
Definition wanted (q : option (K -> V -> list expr)) (k : K) (v : V) : Prop :=
  match q with None => True | Some q => satisfies (q k v) end.

(** ** Histories *)
Inductive op :=
| OInsert (k : K) (upsert : bool) (v : V)
| OSet (k : K) (v : V)
| ODelete (k : K) (check : option (V -> list expr))
| OMutate (k : K) (check : option (V -> list expr)) (patch : V -> V)
| OAdd (v : V)
| OLookup (k : K).

Inductive res :=
| RErr (e : option err)
| RBool (b : bool)
| RKey (k : K) (e : option err)
| RVal (v : V) (found : bool).

Definition amap := K -> option V.
Definition same_but (k : K) (m m' : amap) : Prop := forall k', k' <> k -> m' k' = m k'.
Definition same (m m' : amap) : Prop := forall k, m' k = m k.

(** The abstract map: what each operation answers and does. *)
Definition astep (zv : V) (m : amap) (o : op) (m' : amap) (r : res) : Prop :=
  match o, r with
  | OInsert k true v, RErr e => e = None /\ m' k = Some v /\ same_but k m m'
  | OInsert k false v, RErr e =>
      (e = Some ErrDuplicate /\ m k <> None /\ same m m') \/
      (e = None /\ m k = None /\ m' k = Some v /\ same_but k m m')
  | OSet k v, RErr e => e = None /\ m' k = Some v /\ same_but k m m'
  | ODelete k check, RBool b =>
      (b = true /\ (exists v, m k = Some v /\ passes check v) /\ m' k = None /\ same_but k m m') \/
      (b = false /\ (forall v, m k = Some v -> ~ passes check v) /\ same m m')
  | OMutate k check patch, RBool b =>
      (b = true /\ (exists v, m k = Some v /\ passes check v /\ m' k = Some (patch v)) /\ same_but k m m') \/
      (b = false /\ (forall v, m k = Some v -> ~ passes check v) /\ same m m')
  | OAdd v, RKey k e =>
      (e = None /\ m k = None /\ m' k = Some v /\ same_but k m m') \/
      (e = Some ErrDuplicate /\ m k <> None /\ same m m') \/
      (e = Some ErrInsertOnly /\ same m m')
  | OLookup k, RVal v found =>
      same m m' /\ ((found = true /\ m k = Some v) \/ (found = false /\ m k = None /\ v = zv))
  | _, _ => False
  end.

Inductive ahist (zv : V) : amap -> list op -> amap -> list res -> Prop :=
| ah_nil m m' : same m m' -> ahist zv m [] m' []
| ah_cons m o m1 r os m2 rs :
    astep zv m o m1 r -> ahist zv m1 os m2 rs -> ahist zv m (o :: os) m2 (r :: rs).

(** The same on the code. *)
Definition do_op keq zk zv key_of (r : ram K V) (o : op) : ram K V * res :=
  match o with
  | OInsert k f v => let '(r', e) := insert keq r k f v in (r', RErr e)
  | OSet k v => let '(r', e) := set keq r k v in (r', RErr e)
  | ODelete k c => let '(r', b) := delete keq r k c in (r', RBool b)
  | OMutate k c p => let '(r', b) := mutate keq r k c p in (r', RBool b)
  | OAdd v => let '(r', (k, e)) := add keq zk key_of r v in (r', RKey k e)
  | OLookup k => let '(v, b) := lookup keq zv r k in (r, RVal v b)
  end.
Fixpoint do_ops keq zk zv key_of (r : ram K V) (os : list op) : ram K V * list res :=
  match os with
  | [] => (r, [])
  | o :: os' =>
    let '(r1, x) := do_op keq zk zv key_of r o in
    let '(r2, xs) := do_ops keq zk zv key_of r1 os' in
    (r2, x :: xs)
  end.

(** ** Bulk operations.  The records the query selects, in enumeration order, as
    an inductive relation; and the half open slice of them. *)
Inductive selects (q : option (K -> V -> list expr)) : list (K * V) -> list (K * V) -> Prop :=
| sel_nil : selects q [] []
| sel_yes k v l m : wanted q k v -> selects q l m -> selects q ((k, v) :: l) ((k, v) :: m)
| sel_no k v l m : ~ wanted q k v -> selects q l m -> selects q ((k, v) :: l) m.

(** record number i (from 0) of [m] with from <= i < upto *)
Definition in_slice {A} (from upto : Z) (m : list A) (x : A) : Prop :=
  exists i, from <= Z.of_nat i < upto /\ nth_error m i = Some x.

(** number of elements of the slice *)
Definition slice_count (from upto n : Z) : Z := Z.max 0 (Z.min n upto - Z.max 0 from).

(** The range of a query is that of the first Slice among its conditions; the orders of a query
    are those of its Order conditions, as given. *)
Definition is_range (e : expr) : Prop := match e with ERange _ _ => True | _ => False end.
Definition is_order (e : expr) : Prop := match e with EOrder _ => True | _ => False end.
Definition range_is (es : list expr) (f u : Z) : Prop :=
  exists pre post, es = pre ++ ERange f u :: post /\ Forall (fun e => ~ is_range e) pre.
Definition no_range (es : list expr) : Prop := Forall (fun e => ~ is_range e) es.
Definition only_order (es : list expr) (lt : K * V -> K * V -> bool) : Prop :=
  exists pre post, es = pre ++ EOrder lt :: post /\ Forall (fun e => ~ is_order e) (pre ++ post).

(** ** Search: a consumer that collects everything; one that stops after n. *)
Definition collect (l : list (K * V)) (k : K) (v : V) : list (K * V) * bool := (l ++ [(k, v)], true).
Definition collect_n (n : nat) (l : list (K * V)) (k : K) (v : V) : list (K * V) * bool :=
  (l ++ [(k, v)], (length l + 1 <? n)%nat).

(** ** Sorting *)
Definition strict_weak {A} (lt : A -> A -> bool) : Prop :=
  (forall a, lt a a = false) /\
  (forall a b c, lt a b = true -> lt b c = true -> lt a c = true) /\
  (forall a b c, lt a c = true -> lt a b = true \/ lt b c = true).

Definition sorted_by {A} (lt : A -> A -> bool) (l : list A) : Prop :=
  StronglySorted (fun a b => lt b a = false) l.

(** The contract of sort.Slice: if less compares the elements found at its two
    positions by a strict weak order, the result is a sorted permutation; and
    whatever less does, the result is a permutation. *)
Definition sort_contract {A} (s : (list A -> nat -> nat -> bool) -> list A -> list A) : Prop :=
  (forall less l, Permutation l (s less l)) /\
  (forall less lt l, strict_weak lt ->
     (forall l' i j a b, nth_error l' i = Some a -> nth_error l' j = Some b ->
        Permutation l l' -> less l' i j = lt a b) ->
     sorted_by lt (s less l)).

(** lexicographic comparison by several strict orders *)
Fixpoint lex {A} (orders : list (A -> A -> bool)) (a b : A) : bool :=
  match orders with
  | [] => false
  | lt :: rest => if lt a b then true else if lt b a then false else lex rest a b
  end.

(** ** Conditions: the boolean algebra they should denote. *)
Inductive cond := CVal (b : bool) | CAnd (l : list cond) | COr (l : list cond) | CNot (c : cond).

Fixpoint holds (c : cond) : bool :=
  match c with
  | CVal b => b
  | CAnd l => (fix all l := match l with [] => true | c :: l' => holds c && all l' end) l
  | COr [] => true
  | COr l => (fix any l := match l with [] => false | c :: l' => holds c || any l' end) l
  | CNot c => negb (holds c)
  end.

(** The program a user writes for it. *)
Fixpoint build (c : cond) : expr :=
  match c with
  | CVal b => EValue b
  | CAnd l => merge (map build l)
  | COr l => cases (map build l)
  | CNot c => avoid (build c)
  end.
End Spec.
