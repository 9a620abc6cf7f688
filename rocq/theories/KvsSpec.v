(** Abstract maps and operation histories for package kvs. *)
From Verif Require Import GoBase KvsModel.

Section Spec.
Context {K V : Type} (keq : forall a b : K, {a = b} + {a <> b}).

(** The abstract state is a partial function. *)
Definition amap := K -> option V.
Definition aempty : amap := fun _ => None.

(** One user operation. *)
Inductive op := Set_ (k : K) (v : V) | Del_ (k : K) | Commit_ (ins : list (K * V)) (del : list K).

(** A Go map literal has at most one value per key. *)
Definition op_ok (o : op) : Prop :=
  match o with Commit_ ins _ => NoDup (map fst ins) | _ => True end.

(** Abstract effect, given as a relation between the map before and after:
    deleted keys are gone, keys inserted and not deleted have the inserted
    value, all others are as before. *)
Definition aeffect (ins : list (K * V)) (del : list K) (m m' : amap) : Prop :=
  forall k,
    (In k del -> m' k = None) /\
    (~ In k del -> forall v, In (k, v) ins -> m' k = Some v) /\
    (~ In k del -> ~ In k (map fst ins) -> m' k = m k).

Definition aop (o : op) : amap -> amap -> Prop :=
  match o with
  | Set_ k v => fun m m' => m' k = Some v /\ forall k', k' <> k -> m' k' = m k'
  | Del_ k => fun m m' => m' k = None /\ forall k', k' <> k -> m' k' = m k'
  | Commit_ ins del => aeffect ins del
  end.

Inductive ahist : list op -> amap -> amap -> Prop :=
| ah_nil m : ahist [] m m
| ah_cons o os m m1 m2 : aop o m m1 -> ahist os m1 m2 -> ahist (o :: os) m m2.

(** The same history on the code. *)
Definition do_op (t : table) (o : op) : table :=
  match o with
  | Set_ k v => new_set keq t k v
  | Del_ k => new_del keq t k
  | Commit_ ins del => new_commit keq t ins del
  end.
Definition do_ops (os : list op) : table := fold_left do_op os [].

(** The values an operation stores. *)
Definition op_vals (o : op) : list V :=
  match o with Set_ _ v => [v] | Del_ _ => [] | Commit_ ins _ => map snd ins end.

(** A consumer that collects everything. *)
Definition collect (l : list (K * V)) (k : K) (v : V) : list (K * V) * bool := (l ++ [(k, v)], true).
(** A consumer that stops after n pairs. *)
Definition collect_n (n : nat) (l : list (K * V)) (k : K) (v : V) : list (K * V) * bool :=
  (l ++ [(k, v)], (length l + 1 <? n)%nat).

(** Database actions as seen by the database, each with its outcome. *)
Inductive action := AIns (k : K) (v : V) | ADel (k : K).

(** A database that logs what it is asked, failing as [fails] decides from the
    log so far. *)
Definition logger (fails : list action -> action -> option error) : database (list action) :=
  {| db_lookup := fun _ _ => (None, false, None);
     db_insert := fun s k v => (s ++ [AIns k v], fails s (AIns k v));
     db_delete := fun s k => (s ++ [ADel k], fails s (ADel k));
     db_values := fun _ => [] |}.

(** A database that is a correct map and never fails. *)
Definition good_db {S} (db : database S) (view : S -> amap) : Prop :=
  (forall s k v, exists s', db_insert db s k v = (s', None) /\
     view s' k = Some v /\ forall k', k' <> k -> view s' k' = view s k') /\
  (forall s k, exists s', db_delete db s k = (s', None) /\
     view s' k = None /\ forall k', k' <> k -> view s' k' = view s k').
End Spec.
