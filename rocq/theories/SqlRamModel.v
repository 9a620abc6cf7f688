(** Model of the in-memory database of package sql: sql/ram.go, the parts of
    sql/map.go that forward to it (a [Map] with no database), and the query
    combinators of sql/sql.go on in-memory values.

    Simplifications: keys have Leibniz equality (no NaN); [V] is not an interface
    type (so [ival.(V)] cannot fail); query, check and patch functions are pure
    (a patch is the function from the old to the new value that the user's
    assignments through the pointer amount to); contexts are dropped.  The
    sync.Map is the table of KvsModel; Range visits a permutation of it chosen by
    the runtime (a parameter [order]); callbacks only touch the visited key. *)
From Verif Require Import GoBase KvsModel.

Section Ram.
Context {K V : Type}.
Context (keq : forall a b : K, {a = b} + {a <> b}).
Context (zk : K) (zv : V).  (* Go zero values *)
Local Notation table := (@KvsModel.table K V).

(** sql/std/sodium/sql.go:219-230 [Expression], as it occurs without a database:
    [Value]; [Range]; [Order] holding the functional ordering of
    sql/sql.go:487-518, where Load then Less compare record i with record j; and
    the composite forms.  The column forms (Index, Where, Match, Empty) only
    occur with a database and are collapsed into [EColumn]. *)
Inductive expr :=
| EValue (b : bool)
| ERange (from upto : Z)
| EOrder (less : K * V -> K * V -> bool)
| EAvoid (e : expr)
| ECases (es : list expr)
| EGroup (es : list expr)
| EColumn.

Definition query := K -> V -> list expr.

(** sql/ram.go:29-39 *)
Fixpoint match_ (es : list expr) : bool :=
  match es with
  | [] => true
  | EValue false :: _ => false
  | _ :: es' => match_ es'
  end.

(** sql/sql.go:66-75 [QueryFunc.limit]: the range of the first Range expression of
    the query at the zero record, else {0,0}. *)
Fixpoint first_range (es : list expr) : Z * Z :=
  match es with
  | [] => (0, 0)
  | ERange f u :: _ => (f, u)
  | _ :: es' => first_range es'
  end.
Definition limit (q : query) : Z * Z := first_range (q zk zv).

(** sql/sql.go:77-89 [QueryFunc.ordered] *)
Fixpoint orders_of (es : list expr) : list (K * V -> K * V -> bool) :=
  match es with
  | [] => []
  | EOrder l :: es' => l :: orders_of es'
  | _ :: es' => orders_of es'
  end.
Definition ordered (q : option query) : bool :=
  match q with
  | None => false
  | Some q => match orders_of (q zk zv) with [] => false | _ => true end
  end.

(** sql/sql.go:553-560 *)
Definition avoid (e : expr) : expr :=
  match e with EValue b => EValue (negb b) | _ => EAvoid e end.

(** sql/sql.go:562-579, the loop; [all] is the whole argument list *)
Fixpoint cases_loop (all es : list expr) : expr :=
  match es with
  | [] => EValue false
  | EValue true :: _ => EValue true
  | EValue false :: es' => cases_loop all es'
  | _ :: _ => ECases all
  end.
Definition cases (es : list expr) : expr :=
  match es with [] => EValue true | _ => cases_loop es es end.

(** sql/sql.go:581-598 *)
Fixpoint merge_loop (all es : list expr) : expr :=
  match es with
  | [] => EValue true
  | EValue false :: _ => EValue false
  | EValue true :: es' => merge_loop all es'
  | _ :: _ => EGroup all
  end.
Definition merge (es : list expr) : expr :=
  match es with [] => EValue true | _ => merge_loop es es end.

(** ** The store *)
Record ram := { r_map : table; r_id : Z }.
Definition empty_ram : ram := {| r_map := []; r_id := 0 |}.

Inductive err := ErrDuplicate | ErrInsertOnly.

(** sync.Map.LoadOrStore: the table afterwards and whether the key was there *)
Definition load_or_store (t : table) (k : K) (v : V) : table * bool :=
  match load keq t k with
  | Some _ => (t, true)
  | None => (store keq t k v, false)
  end.

(** sql/ram.go:41-60.  [key_of] is SetInt/SetUint of the counter into the key type,
    [None] when K is not of an integer kind. *)
Definition add (key_of : Z -> option K) (r : ram) (v : V) : ram * (K * option err) :=
  match key_of (u64 (r_id r + 1)) with
  | None => (r, (zk, Some ErrInsertOnly))
  | Some k =>
    let '(t, exists_) := load_or_store (r_map r) k v in
    ({| r_map := t; r_id := u64 (r_id r + 1) |},
     (k, if exists_ then Some ErrDuplicate else None))
  end.

(** sql/ram.go:62-72; [flag] is true for Upsert, false for Create. *)
Definition insert (r : ram) (k : K) (flag : bool) (v : V) : ram * option err :=
  if flag then ({| r_map := store keq (r_map r) k v; r_id := r_id r |}, None)
  else
    let '(t, exists_) := load_or_store (r_map r) k v in
    ({| r_map := t; r_id := r_id r |}, if exists_ then Some ErrDuplicate else None).

(** sql/map.go:166-168 *)
Definition set (r : ram) (k : K) (v : V) : ram * option err := insert r k true v.

(** sql/ram.go:74-85; stats is a state machine fed each matching record.  It is a
    function that may panic (see [stat_sum]). *)
Fixpoint output_loop {Y} (order : table) (q : option query)
    (stats : Y -> K -> V -> outcome Y) (y : Y) : outcome Y :=
  match order with
  | [] => Ok y
  | (k, v) :: rest =>
    let skip := match q with Some q => negb (match_ (q k v)) | None => false end in
    if skip then output_loop rest q stats y
    else match stats y k v with
         | Panic => Panic
         | Ok y' => output_loop rest q stats y'
         end
  end.

(** sql/sql.go:215-226 [Count] as a stats function: each call adds one. *)
Definition stat_count (n : Z) (_ : K) (_ : V) : outcome Z := Ok (n + 1).
(** sql/sql.go:333-345 [Sum] as a stats function when there is no database:
    [*ptr += *col], then [column[0]] of the nil column list. *)
Definition stat_sum (col : K -> V -> Z) (n : Z) (k : K) (v : V) : outcome Z :=
  let! _ := index 0 (@nil Z) in Ok (n + col k v).

(** sql/map.go:318-322 and 325-327 *)
Definition count (order : table) (q : option query) : outcome Z :=
  output_loop order q stat_count 0.
Definition length_ (order : table) : outcome Z := count order None.

(** sql/ram.go:87-103; [n] is the Go variable count.  A nil query panics in limit. *)
Fixpoint delete_loop (order : table) (q : query) (from upto n : Z) (t : table) : table * Z :=
  match order with
  | [] => (t, n)
  | (k, v) :: rest =>
    if negb (match_ (q k v)) then delete_loop rest q from upto n t
    else
      let t' := if from <=? n then remove keq t k else t in
      if n + 1 <? upto then delete_loop rest q from upto (n + 1) t' else (t', n + 1)
  end.
Definition unsafe_delete (order : table) (q : option query) (r : ram) : outcome (ram * Z) :=
  match q with
  | None => Panic
  | Some q =>
    let '(f, u) := limit q in
    let '(t, n) := delete_loop order q f u 0 (r_map r) in
    Ok ({| r_map := t; r_id := r_id r |}, n)
  end.

(** sql/ram.go:105-122 *)
Fixpoint update_loop (order : table) (q : query) (patch : V -> V) (from upto n : Z) (t : table)
  : table * Z :=
  match order with
  | [] => (t, n)
  | (k, v) :: rest =>
    if negb (match_ (q k v)) then update_loop rest q patch from upto n t
    else
      let t' := if from <=? n then store keq t k (patch v) else t in
      if n + 1 <? upto then update_loop rest q patch from upto (n + 1) t' else (t', n + 1)
  end.
Definition update (order : table) (q : option query) (patch : V -> V) (r : ram)
  : outcome (ram * Z) :=
  match q with
  | None => Panic
  | Some q =>
    let '(f, u) := limit q in
    let '(t, n) := update_loop order q patch f u 0 (r_map r) in
    Ok ({| r_map := t; r_id := r_id r |}, n)
  end.

(** sql/ram.go:124-138 *)
Definition mutate (r : ram) (k : K) (check : option (V -> list expr)) (patch : V -> V) : ram * bool :=
  match load keq (r_map r) k with
  | None => (r, false)
  | Some v =>
    let pass := match check with None => true | Some c => match_ (c v) end in
    if pass then ({| r_map := store keq (r_map r) k (patch v); r_id := r_id r |}, true)
    else (r, false)
  end.

(** sql/ram.go:140-153 *)
Definition delete (r : ram) (k : K) (check : option (V -> list expr)) : ram * bool :=
  match load keq (r_map r) k with
  | None => (r, false)
  | Some v =>
    let pass := match check with None => true | Some c => match_ (c v) end in
    if pass then ({| r_map := remove keq (r_map r) k; r_id := r_id r |}, true)
    else (r, false)
  end.

(** sql/ram.go:155-162 *)
Definition lookup (r : ram) (k : K) : V * bool :=
  match load keq (r_map r) k with Some v => (v, true) | None => (zv, false) end.

(** ** Search, sql/ram.go:164-215 *)

(** ram.go:170-183 when there is no ordering: yield as the table is visited. *)
Fixpoint search_plain {Y} (order : table) (q : option query)
    (yield : Y -> K -> V -> Y * bool) (y : Y) : Y :=
  match order with
  | [] => y
  | (k, v) :: rest =>
    let skip := match q with Some q => negb (match_ (q k v)) | None => false end in
    if skip then search_plain rest q yield y
    else let '(y', more) := yield y k v in
         if more then search_plain rest q yield y' else y'
  end.

(** ram.go:170-183 with an ordering: collect [matching] and [snapshot]. *)
Fixpoint gather (order : table) (q : query) : table :=
  match order with
  | [] => []
  | (k, v) :: rest => if match_ (q k v) then (k, v) :: gather rest q else gather rest q
  end.

(** ram.go:193-204, the less function given to sort.Slice.  [matching] is the
    slice being sorted, as it is at the time of the call; [snapshot] is never
    permuted.  Out of range indices do not occur and answer false. *)
Definition search_less (orders : list (K * V -> K * V -> bool)) (snapshot : list V)
    (matching : list K) (i j : nat) : bool :=
  match nth_error matching i, nth_error matching j, nth_error snapshot i, nth_error snapshot j with
  | Some ki, Some kj, Some vi, Some vj => forallb (fun less => less (ki, vi) (kj, vj)) orders
  | _, _, _, _ => false
  end.

(** ram.go:205-212 *)
Fixpoint search_emit {Y} (t : table) (keys : list K)
    (yield : Y -> K -> V -> Y * bool) (y : Y) : Y :=
  match keys with
  | [] => y
  | k :: rest =>
    match load keq t k with
    | None => search_emit t rest yield y
    | Some v => let '(y', more) := yield y k v in
                if more then search_emit t rest yield y' else y'
    end
  end.

(** [sort_slice less l] is the standard library's sort.Slice: it may call [less]
    on positions of the slice as it currently is. *)
Definition sorter := (list K -> nat -> nat -> bool) -> list K -> list K.

Definition search {Y} (sort_slice : sorter) (order : table) (r : ram) (q : option query)
    (yield : Y -> K -> V -> Y * bool) (y : Y) : Y :=
  match q with
  | Some q' =>
    if ordered q then
      let got := gather order q' in
      let orders := orders_of (q' zk zv) in
      search_emit (r_map r)
        (sort_slice (search_less orders (map snd got)) (map fst got)) yield y
    else search_plain order q yield y
  | None => search_plain order q yield y
  end.

(** sql/map.go:309-315: First stops at the first pair. *)
Definition first (sort_slice : sorter) (order : table) (r : ram) (q : option query)
  : option (K * V) :=
  search sort_slice order r q (fun _ k v => (Some (k, v), false)) None.

End Ram.
Arguments expr : clear implicits.
Arguments ram : clear implicits.

(** sql/ram.go:45-52 and reflect's SetInt/SetUint: the counter truncated to the
    key's width ([w] = 8, 16, 32 or 64). *)
Definition key_int (w : Z) (u : Z) : option Z := Some (sgn w u).
Definition key_uint (w : Z) (u : Z) : option Z := Some (u mod 2^w).

(** sort.Slice on at most 12 elements, as the Go standard library does it
    (sort/zsortfunc.go insertionSort_func): used only for concrete refutations and to
    show that the contract assumed of sort.Slice can be met. *)
Section Insertion.
Context {A : Type}.
Definition swap (l : list A) (i j : nat) : list A :=
  match nth_error l i, nth_error l j with
  | Some a, Some b =>
    map (fun n => if Nat.eqb n i then b else if Nat.eqb n j then a
                  else nth n l a) (seq 0 (length l))
  | _, _ => l
  end.
Fixpoint ins_inner (less : list A -> nat -> nat -> bool) (l : list A) (j : nat) : list A :=
  match j with
  | O => l
  | S j' => if less l j j' then ins_inner less (swap l j j') j' else l
  end.
Fixpoint ins_outer (less : list A -> nat -> nat -> bool) (n i : nat) (l : list A) : list A :=
  match n with
  | O => l
  | S n' => ins_outer less n' (S i) (ins_inner less l i)
  end.
Definition insertion_sort (less : list A -> nat -> nat -> bool) (l : list A) : list A :=
  ins_outer less (length l - 1) 1 l.
End Insertion.
