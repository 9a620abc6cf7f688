(** Model of kvs/kvs.go.

    Simplifications: [K] has a decidable equality that is Leibniz equality (so
    no NaN keys, and no interface keys holding uncomparable values, on which Go
    panics); contexts are dropped; [sync.Map] is a list of entries with distinct
    keys, each operation on it being atomic; the [Format] string is fixed. *)
From Verif Require Import GoBase.

Section Kvs.
Context {K V : Type}.
Context (keq : forall a b : K, {a = b} + {a <> b}).
(** [is_nil v] holds when [V] is an interface type and [v] is its nil value, the
    one value on which the assertion [any(v).(V)] panics. *)
Context (is_nil : V -> bool).

Definition table := list (K * V).

(** sync.Map.Load *)
Fixpoint load (t : table) (k : K) : option V :=
  match t with
  | [] => None
  | (k', v) :: t' => if keq k k' then Some v else load t' k
  end.

(** sync.Map.Delete *)
Fixpoint remove (t : table) (k : K) : table :=
  match t with
  | [] => []
  | (k', v) :: t' => if keq k k' then remove t' k else (k', v) :: remove t' k
  end.

(** sync.Map.Store *)
Definition store (t : table) (k : K) (v : V) : table := (k, v) :: remove t k.

(** kvs.go:79-82: Lookup of the map made by New.  [None] in [option V] is the
    zero value.  [val.(V)] on the nil [any] returned for an absent key panics. *)
Definition new_lookup (t : table) (k : K) : outcome (V * bool) :=
  match load t k with
  | None => Panic
  | Some v => if is_nil v then Panic else Ok (v, true)
  end.

(** kvs.go:83-91: Commit of the map made by New.  The Go map [insert] is a list
    with distinct keys in whatever order the runtime iterates it. *)
Definition new_commit (t : table) (insert : list (K * V)) (delete : list K) : table :=
  fold_left remove delete (fold_left (fun t kv => store t (fst kv) (snd kv)) insert t).

(** kvs.go:92-98: Values of the map made by New; [t] in the order Range visits
    it; yield is a state machine answering whether to continue.  The filter is
    ignored by the code. *)
Fixpoint new_values {Y} (order : table) (yield : Y -> K -> V -> Y * bool) (y : Y) : outcome Y :=
  match order with
  | [] => Ok y
  | (k, v) :: rest =>
    if is_nil v then Panic else
    let '(y', more) := yield y k v in
    if more then new_values rest yield y' else Ok y'
  end.

(** kvs.go:54-57 / 59-66 on the map made by New *)
Definition new_get (t : table) (k : K) : outcome V :=
  match new_lookup t k with Ok (v, _) => Ok v | Panic => Panic end.
(** kvs.go:59-61 *)
Definition new_set (t : table) (k : K) (v : V) : table := new_commit t [(k, v)] [].
(** kvs.go:63-65 *)
Definition new_del (t : table) (k : K) : table := new_commit t [] [k].

(** kvs.go:103-108: a Database is an arbitrary state machine. *)
Definition error := Z.
Record database (S : Type) := {
  db_lookup : S -> K -> option V * bool * option error;  (* what it left in *val, found, error *)
  db_insert : S -> K -> V -> S * option error;
  db_delete : S -> K -> S * option error;
  db_values : S -> list (K * V)  (* what the loaders load, in order *)
}.
Arguments db_lookup {S} d. Arguments db_insert {S} d.
Arguments db_delete {S} d. Arguments db_values {S} d.

(** kvs.go:24-28, the insert loop of Commit *)
Fixpoint insert_all {S} (db : database S) (s : S) (ins : list (K * V)) : S * option error :=
  match ins with
  | [] => (s, None)
  | (k, v) :: ins' =>
    match db_insert db s k v with
    | (s', Some e) => (s', Some e)
    | (s', None) => insert_all db s' ins'
    end
  end.

(** kvs.go:29-33, the delete loop of Commit *)
Fixpoint delete_all {S} (db : database S) (s : S) (del : list K) : S * option error :=
  match del with
  | [] => (s, None)
  | k :: del' =>
    match db_delete db s k with
    | (s', Some e) => (s', Some e)
    | (s', None) => delete_all db s' del'
    end
  end.

(** kvs.go:23-35 *)
Definition commit {S} (db : database S) (s : S) (ins : list (K * V)) (del : list K)
  : S * option error :=
  match insert_all db s ins with
  | (s', Some e) => (s', Some e)
  | (s', None) => delete_all db s' del
  end.

(** kvs.go:18-22: Lookup of a map opened on a database; [zero] is V's zero value. *)
Definition lookup {S} (zero : V) (db : database S) (s : S) (k : K) : V * bool * option error :=
  match db_lookup db s k with
  | (Some v, ok, e) => (v, ok, e)
  | (None, ok, e) => (zero, ok, e)
  end.

(** kvs.go:36-51 *)
Fixpoint values_loop {Y} (l : list (K * V)) (yield : Y -> K -> V -> Y * bool) (y : Y) : Y :=
  match l with
  | [] => y
  | (k, v) :: rest => let '(y', more) := yield y k v in
                      if more then values_loop rest yield y' else y'
  end.
Definition values {S Y} (db : database S) (s : S) (yield : Y -> K -> V -> Y * bool) (y : Y) : Y :=
  values_loop (db_values db s) yield y.

(** kvs.go:59-65 on an opened map *)
Definition set {S} (db : database S) (s : S) (k : K) (v : V) := commit db s [(k, v)] [].
Definition del {S} (db : database S) (s : S) (k : K) := commit db s [] [k].
End Kvs.
Arguments db_lookup {K V S} d. Arguments db_insert {K V S} d.
Arguments db_delete {K V S} d. Arguments db_values {K V S} d.
Arguments Build_database {K V S}.
