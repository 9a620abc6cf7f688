(** Goroutines sharing one in-memory map (sql/ram.go): the operations of
    SqlRamModel split at their accesses to shared memory.  Each sync.Map call, each
    atomic counter update and each Lock/Unlock is one step; steps of different
    goroutines interleave arbitrarily.  Memory is sequentially consistent. *)
From Verif Require Import GoBase KvsModel SqlRamModel SqlRamSpec.

Section Conc.
Context {K V : Type} (keq : forall a b : K, {a = b} + {a <> b}) (zk : K) (zv : V).
Context (key_of : Z -> K).
Local Notation op := (@op K V).
Local Notation res := (@res K V).
Local Notation table := (@KvsModel.table K V).

(** Where a goroutine is inside an operation. *)
Inductive tstate :=
| Idle
| AddGot (draw : Z) (v : V)          (* ram.go:54: after r.id.Add(1), which gave [draw] *)
| Locked (o : op)                    (* ram.go:125 / 141: holds the mutex, nothing read *)
| Loaded (o : op) (v : V)            (* ram.go:131-133 / 147-149: read v, check passed *)
| Finished.                          (* before the deferred Unlock *)

(** A completed operation; [e_draw] is a ghost: the counter value drawn by Add
    (0 for other operations). *)
Record event := { e_thread : nat; e_op : op; e_res : res; e_draw : Z }.

Record conf := {
  c_map : table;
  c_id : Z;                           (* ram.id *)
  c_lock : option nat;                (* ram.Mutex *)
  c_threads : nat -> tstate;
  c_log : list event                  (* oldest first; written at the effect *)
}.

Definition upd (f : nat -> tstate) (t : nat) (s : tstate) : nat -> tstate :=
  fun t' => if Nat.eqb t' t then s else f t'.

Definition locking (o : op) : Prop :=
  match o with ODelete _ _ | OMutate _ _ _ => True | _ => False end.
Definition op_key (o : op) : K :=
  match o with OInsert k _ _ | OSet k _ | ODelete k _ | OMutate k _ _ | OLookup k => k | OAdd _ => zk end.
Definition op_check (o : op) : option (V -> list (expr K V)) :=
  match o with ODelete _ c | OMutate _ c _ => c | _ => None end.
(** what ram.go:131-134 / 147-150 decide after the Load *)
Definition load_ok (t : table) (o : op) : option V :=
  match load keq t (op_key o) with
  | None => None
  | Some v => if match op_check o with None => true | Some c => match_ (c v) end
              then Some v else None
  end.

Context (allowed : op -> Prop).

Inductive step : conf -> conf -> Prop :=
(** ram.go:41-52: draw a key *)
| step_draw m i l th lg t v :
    allowed (OAdd v) -> th t = Idle ->
    step (Build_conf m i l th lg) (Build_conf m (u64 (i + 1)) l (upd th t (AddGot (u64 (i + 1)) v)) lg)
(** ram.go:55-59: LoadOrStore *)
| step_add_store m i l th lg t d v m' ex :
    th t = AddGot d v -> load_or_store keq m (key_of d) v = (m', ex) ->
    step (Build_conf m i l th lg)
         (Build_conf m' i l (upd th t Idle)
            (lg ++ [Build_event t (OAdd v) (RKey (key_of d) (if ex then Some ErrDuplicate else None)) d]))
(** ram.go:62-72 and 155-162: Insert, Set and Lookup are one access each *)
| step_atomic m i l th lg t o r' x :
    allowed o -> th t = Idle ->
    match o with OInsert _ _ _ | OSet _ _ | OLookup _ => True | _ => False end ->
    do_op keq zk zv (fun d => Some (key_of d)) (Build_ram m i) o = (r', x) ->
    step (Build_conf m i l th lg) (Build_conf (r_map r') i l th (lg ++ [Build_event t o x 0]))
(** ram.go:125 / 141: m.Lock() *)
| step_lock m i th lg t o :
    allowed o -> locking o -> th t = Idle ->
    step (Build_conf m i None th lg) (Build_conf m i (Some t) (upd th t (Locked o)) lg)
(** ram.go:127-133 / 143-149: Load, then absent or check failed *)
| step_load_fail m i l th lg t o :
    th t = Locked o -> load_ok m o = None ->
    step (Build_conf m i l th lg)
         (Build_conf m i l (upd th t Finished) (lg ++ [Build_event t o (RBool false) 0]))
(** ... or present and check passed *)
| step_load_ok m i l th lg t o v :
    th t = Locked o -> load_ok m o = Some v ->
    step (Build_conf m i l th lg) (Build_conf m i l (upd th t (Loaded o v)) lg)
(** ram.go:135-136: Store of the patched value *)
| step_store m i l th lg t k c p v :
    th t = Loaded (OMutate k c p) v ->
    step (Build_conf m i l th lg)
         (Build_conf (store keq m k (p v)) i l (upd th t Finished)
            (lg ++ [Build_event t (OMutate k c p) (RBool true) 0]))
(** ram.go:151 *)
| step_remove m i l th lg t k c v :
    th t = Loaded (ODelete k c) v ->
    step (Build_conf m i l th lg)
         (Build_conf (remove keq m k) i l (upd th t Finished)
            (lg ++ [Build_event t (ODelete k c) (RBool true) 0]))
(** deferred m.Unlock() *)
| step_unlock m i l th lg t :
    th t = Finished ->
    step (Build_conf m i l th lg) (Build_conf m i None (upd th t Idle) lg).

Inductive steps : conf -> conf -> Prop :=
| steps_refl c : steps c c
| steps_snoc c c1 c2 : steps c c1 -> step c1 c2 -> steps c c2.

(** all goroutines idle, any table *)
Definition start (m : table) : conf :=
  {| c_map := m; c_id := 0; c_lock := None; c_threads := fun _ => Idle; c_log := [] |}.
End Conc.
Arguments event : clear implicits.
Arguments conf : clear implicits.
Arguments tstate : clear implicits.
