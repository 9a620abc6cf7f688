(** Model of mmm/mmm.go (and mmm_fast.go, the default build): manually managed memory with
    revision-checked pointers and lifetimes.

    Simplifications:
    - one goroutine (the package says lifetimes are not goroutine safe);
    - one [Size] class: a raw pointer value is one integer, [zero] is 0; the three block pools
      become one;
    - sync.Pool.Get may return any pooled object or none: the caller of the model supplies the
      choice;
    - a user's Free method calls End on its pointer, as the documentation demands, and then
      releases the raw value: the release is recorded in [released];
    - [*API] is an object number (0 is nil) whose first two machine words are modelled, because
      the reference counting code overlays them;
    - a panic keeps the changes made so far (it can be recovered), so every operation returns
      a state also when it panics.
    [kind] and [ends] are ghost fields: they are never read by the code. *)
From Verif Require Import GoBase.

Inductive callback := NoCallback | UserFree | LeasedEnd.
Inductive kindT := KRoot | KBlock.
(* mmm/mmm_fast.go:10-19 freeable, mmm.go:109-112 freeableWith.ptr *)
Record cell := mkCell {
  prv : nat; nxt : nat;
  api : nat;                (* 0: nil *)
  cb : callback;            (* field "end" *)
  rev : Z;
  raw : Z;                  (* field "ptr" *)
  kind : kindT }.

Record state := mkState {
  heap : nat -> cell;
  fresh : nat;
  pool : list nat;          (* pools[...] *)
  roots : list nat;         (* roots *)
  words : nat -> Z * Z;     (* the first two words of each API object *)
  released : list Z;        (* raw values released by user Free methods, oldest first *)
  ends : Z }.               (* ghost: how often a revision was incremented *)

Definition init (w : nat -> Z * Z) : state :=
  mkState (fun _ => mkCell 0 0 0 NoCallback 0 0 KBlock) 1 [] [] w [] 0.

(** Operations: a panic keeps the state reached. *)
Definition M (A : Type) : Type := state -> outcome A * state.
Definition ret {A} (a : A) : M A := fun s => (Ok a, s).
Definition crash {A} : M A := fun s => (Panic, s).
Definition bind {A B} (m : M A) (k : A -> M B) : M B :=
  fun s => match m s with (Ok a, s') => k a s' | (Panic, s') => (Panic, s') end.
Notation "'do' x '<-' m ';' k" := (bind m (fun x => k)) (at level 200, x pattern, m at level 100, k at level 200).
Definition look (i : nat) : M cell := fun s => (Ok (heap s i), s).
Definition upd {A} (f : nat -> A) (i : nat) (a : A) : nat -> A := fun j => if Nat.eqb j i then a else f j.
Definition store (i : nat) (c : cell) : M unit :=
  fun s => (Ok tt, mkState (upd (heap s) i c) (fresh s) (pool s) (roots s) (words s) (released s) (ends s)).
Definition modify (i : nat) (f : cell -> cell) : M unit := do c <- look i; store i (f c).
Definition setNxt x c := mkCell (prv c) x (api c) (cb c) (rev c) (raw c) (kind c).
Definition setPrv x c := mkCell x (nxt c) (api c) (cb c) (rev c) (raw c) (kind c).
Definition setApi x c := mkCell (prv c) (nxt c) x (cb c) (rev c) (raw c) (kind c).
Definition setCb x c := mkCell (prv c) (nxt c) (api c) x (rev c) (raw c) (kind c).
Definition setRev x c := mkCell (prv c) (nxt c) (api c) (cb c) x (raw c) (kind c).
Definition setRaw x c := mkCell (prv c) (nxt c) (api c) (cb c) (rev c) x (kind c).
Definition countEnd : M unit :=
  fun s => (Ok tt, mkState (heap s) (fresh s) (pool s) (roots s) (words s) (released s) (ends s + 1)).
Definition release (v : Z) : M unit :=
  fun s => (Ok tt, mkState (heap s) (fresh s) (pool s) (roots s) (words s) (released s ++ [v]) (ends s)).
Definition putPool (i : nat) : M unit :=
  fun s => (Ok tt, mkState (heap s) (fresh s) (i :: pool s) (roots s) (words s) (released s) (ends s)).
Definition putRoot (i : nat) : M unit :=
  fun s => (Ok tt, mkState (heap s) (fresh s) (pool s) (i :: roots s) (words s) (released s) (ends s)).
Definition getWords (a : nat) : M (Z * Z) := fun s => (Ok (words s a), s).
Definition setWords (a : nat) (w : Z * Z) : M unit :=
  fun s => (Ok tt, mkState (heap s) (fresh s) (pool s) (roots s) (upd (words s) a w) (released s) (ends s)).
(* take the k-th pooled object *)
Fixpoint takeAt (k : nat) (l : list nat) : option (nat * list nat) :=
  match l, k with
  | [], _ => None
  | x :: r, O => Some (x, r)
  | x :: r, S k => match takeAt k r with Some (y, r') => Some (y, x :: r') | None => None end
  end.
(* mmm/mmm.go:114-121 newObjectWith, mmm/mmm.go:61-66; sync.Pool.Get: [pick] is the scheduler's choice, a failing choice allocates. *)
Definition allocBlock (pick : option nat) : M nat := fun s =>
  match match pick with Some k => takeAt k (pool s) | None => None end with
  | Some (b, rest) => (Ok b, mkState (heap s) (fresh s) rest (roots s) (words s) (released s) (ends s))
  | None => let b := fresh s in
      (Ok b, mkState (upd (heap s) b (mkCell 0 0 0 NoCallback 0 0 KBlock)) (S b) (pool s) (roots s) (words s) (released s) (ends s))
  end.
Definition allocRoot (pick : option nat) : M nat := fun s =>
  match match pick with Some k => takeAt k (roots s) | None => None end with
  | Some (b, rest) => (Ok b, mkState (heap s) (fresh s) (pool s) rest (words s) (released s) (ends s))
  | None => let b := fresh s in
      (Ok b, mkState (upd (heap s) b (mkCell b b 0 NoCallback 0 0 KRoot)) (S b) (pool s) (roots s) (words s) (released s) (ends s))
  end.

(* mmm/mmm.go:9-31  revision: bit 63 pinned, bit 62 reference counted *)
Definition maxRevision : Z := 4611686018427387904 - 1.
Definition isPinned (r : Z) : bool := Z.testbit r 63.
Definition isRefCounted (r : Z) : bool := Z.testbit r 62.
Definition pinRev (r : Z) : Z := Z.lor r (2^63).
Definition countRev (r : Z) : Z := Z.lor r (2^62).
Definition masked (r : Z) : Z := Z.ldiff r (Z.lor (2^62) (2^63)).
Definition matches (a b : Z) : bool := masked a =? masked b.

(* mmm/mmm.go:33-36 pointer; the zero pointer has no block *)
Definition ptr := option (Z * nat).
(* mmm/mmm.go:53-56 *)
Record lifetime := mkLifetime { lrev : Z; lroot : nat }.

(* rev++ on a uintptr *)
Definition bump (i : nat) : M unit := do _ <- modify i (fun c => setRev (u64 (rev c + 1)) c); countEnd.

(* mmm/mmm.go:260-285  End *)
Definition EndPtr (p : ptr) : M Z :=
  match p with
  | None => ret 0
  | Some (prev, b) =>
    do c <- look b;
    if negb (matches (rev c) prev) then crash else
    let tmp := raw c in
    do _ <- modify b (setCb NoCallback);
    do _ <- (if raw c =? 0 then ret tt else do _ <- modify b (setRaw 0); bump b);
    do c <- look b;
    let p0 := prv c in let n0 := nxt c in
    do _ <- modify p0 (setNxt n0);
    do _ <- modify n0 (setPrv p0);
    do c <- look b;
    do _ <- (if rev c <? maxRevision then putPool b else ret tt);
    ret tmp
  end.

(* A user's Free method: End, then release the raw value. *)
Definition UserFreeMethod (p : ptr) : M unit := do v <- EndPtr p; release v.

(* mmm/mmm.go:84-107  freeable.free *)
Definition freeObj (b : nat) : M unit :=
  do c <- look b;
  do _ <- modify (prv c) (setNxt (nxt c));
  do c <- look b;
  do _ <- modify (nxt c) (setPrv (prv c));
  do c <- look b;
  do live <- (if isRefCounted (rev c) then
      do w <- getWords (api c);
      let int := i64 (fst w - 1) in
      do _ <- setWords (api c) (int, if int =? 0 then 0 else snd w);
      ret (int >? 0)
    else ret false);
  if live then modify b (setCb NoCallback) else
  do _ <- (match cb c with
    | NoCallback => crash
    | UserFree => UserFreeMethod (Some (rev c, b))
    | LeasedEnd => do _ <- EndPtr (Some (rev c, b)); ret tt
    end);
  do c <- look b;
  match cb c with NoCallback => ret tt | _ => crash end.

(* mmm/mmm.go:60-72  NewLifetime *)
Definition NewLifetime (pick : option nat) : M lifetime :=
  do r <- allocRoot pick;
  do _ <- modify r (setApi 0);
  do c <- look r;
  ret (mkLifetime (rev c) r).

(* mmm/mmm.go:125-145  Lifetime.End; the loop is given [fuel] iterations, [None] when they
   do not suffice. *)
Fixpoint endLoop (fuel : nat) (root : nat) (s : state) : option (outcome unit * state) :=
  match fuel with
  | O => None
  | S fuel =>
    let next := nxt (heap s root) in
    if Nat.eqb (api (heap s next)) 0 then Some (Ok tt, s)
    else match freeObj next s with
         | (Ok _, s') => endLoop fuel root s'
         | (Panic, s') => Some (Panic, s')
         end
  end.
Definition EndLifetime (fuel : nat) (l : lifetime) (s : state) : option (outcome unit * state) :=
  let c := heap s (lroot l) in
  if negb (rev c =? lrev l) then Some (Ok tt, s)
  else if negb (Nat.eqb (api c) 0) then Some (freeObj (lroot l) s)
  else match endLoop fuel (lroot l) s with
       | None => None
       | Some (Panic, s') => Some (Panic, s')
       | Some (Ok _, s') =>
         Some ((do _ <- bump (lroot l);
                do c <- look (lroot l);
                if rev c <? maxRevision then putRoot (lroot l) else ret tt) s')
       end.

(* mmm/mmm.go:354-376  New; [f] is T.Free *)
Definition NewPtr (f : callback) (l : lifetime) (a : nat) (v : Z) (pick : option nat) : M ptr :=
  do b <- allocBlock pick;
  do _ <- modify b (fun c => setCb f (setRaw v (setApi a c)));
  do rt <- look (lroot l);
  let last := prv rt in
  do lc <- look last;
  let next := nxt lc in
  do _ <- modify last (setNxt b);
  do _ <- modify b (fun c => setApi a (setNxt next (setPrv last c)));
  do c <- look b;
  ret (Some (rev c, b)).

(* mmm/mmm.go:379-384  Pin *)
Definition PinPtr (l : lifetime) (a : nat) (v : Z) (pick : option nat) : M ptr :=
  do p <- NewPtr UserFree l a v pick;
  match p with
  | None => crash
  | Some (r, b) => do _ <- modify b (fun c => setRev (pinRev (rev c)) c); ret (Some (r, b))
  end.
(* mmm/mmm.go:336-345  Let *)
Definition LetPtr (l : lifetime) (a : nat) (v : Z) (pick : option nat) : M ptr :=
  do p <- NewPtr LeasedEnd l a v pick;
  match p with
  | None => crash
  | Some (r, b) => do _ <- modify b (fun c => setRev (pinRev (rev c)) (setApi a c)); ret (Some (r, b))
  end.

(* mmm/mmm.go:175-187  Get *)
Definition GetPtr (p : ptr) : M Z :=
  match p with
  | None => ret 0
  | Some (r, b) => do c <- look b; if negb (matches (rev c) r) then crash else ret (raw c)
  end.
(* mmm/mmm.go:248-255  Set (a zero pointer dereferences nil) *)
Definition SetPtr (p : ptr) (v : Z) : M unit :=
  match p with
  | None => crash
  | Some (r, b) => do c <- look b; if negb (matches (rev c) r) then crash else modify b (setRaw v)
  end.
(* mmm/mmm.go:288-312  API and getAPI: note that the pointer's own revision is tested for the
   reference counted bit *)
Definition ApiPtr (p : ptr) : M nat :=
  match p with
  | None => crash
  | Some (r, b) => do c <- look b;
      if negb (matches (rev c) r) then crash
      else if isRefCounted r then do w <- getWords (api c); ret (Z.to_nat (snd w)) else ret (api c)
  end.

(* mmm/mmm.go:194-204  Move: the pointer made by New is not returned *)
Definition MovePtr (p : ptr) (l : lifetime) (pick : option nat) : M unit :=
  match p with
  | None => crash
  | Some (r, b) =>
    do c <- look b;
    if isPinned (rev c) then crash
    else if isRefCounted (rev c) then crash
    else do a <- ApiPtr p;
         do v <- EndPtr p;
         do _ <- NewPtr UserFree l a v pick;
         ret tt
  end.

(* mmm/mmm.go:222-244  Copy.  The rc object obtained from the pool is dropped: val.ref.api is
   set to the API object itself, which is then used as the counter. *)
Definition CopyPtr (p : ptr) (l : lifetime) (pick : option nat) : M ptr :=
  match p with
  | None => crash
  | Some (r, b) =>
    do c <- look b;
    if isPinned (rev c) then crash else
    do _ <- (if negb (isRefCounted (rev c)) then modify b (fun c => setRev (countRev (rev c)) c) else ret tt);
    do a <- ApiPtr p;
    do v <- GetPtr p;
    do q <- NewPtr UserFree l a v pick;
    do c <- look b;
    do w <- getWords (api c);
    do _ <- setWords (api c) (i64 (fst w + 1), snd w);
    match q with
    | None => crash
    | Some (qr, qb) => do _ <- modify qb (setApi (api c)); ret q
    end
  end.

(* mmm/mmm.go:208-217  Life *)
Definition LifePtr (p : ptr) : M lifetime :=
  match p with
  | None => crash
  | Some (r, b) => do c <- look b;
      if isPinned (rev c) then ret (mkLifetime (rev c) b) else crash
  end.

(** All operations of the package. *)
Inductive op :=
| ONewLifetime (pick : option nat)
| OEndLifetime (fuel : nat) (l : lifetime)
| ONew (l : lifetime) (a : nat) (v : Z) (pick : option nat)
| OPin (l : lifetime) (a : nat) (v : Z) (pick : option nat)
| OLet (l : lifetime) (a : nat) (v : Z) (pick : option nat)
| OFree (p : ptr)      (* the user calls p.Free() *)
| OEnd (p : ptr)       (* the user calls mmm.End(p) *)
| OGet (p : ptr)
| OSet (p : ptr) (v : Z)
| OApi (p : ptr)
| OMove (p : ptr) (l : lifetime) (pick : option nat)
| OCopy (p : ptr) (l : lifetime) (pick : option nat)
| OLife (p : ptr).
Inductive reply := RUnit | RVal (v : Z) | RPtr (p : ptr) | RLife (l : lifetime).

Definition lift {A} (f : A -> reply) (m : M A) (s : state) : option (outcome reply * state) :=
  let '(r, s') := m s in Some (omap f r, s').
Definition run (o : op) (s : state) : option (outcome reply * state) :=
  match o with
  | ONewLifetime pick => lift RLife (NewLifetime pick) s
  | OEndLifetime fuel l =>
      match EndLifetime fuel l s with None => None | Some (r, s') => Some (omap (fun _ => RUnit) r, s') end
  | ONew l a v pick => lift RPtr (NewPtr UserFree l a v pick) s
  | OPin l a v pick => lift RPtr (PinPtr l a v pick) s
  | OLet l a v pick => lift RPtr (LetPtr l a v pick) s
  | OFree p => lift (fun _ => RUnit) (UserFreeMethod p) s
  | OEnd p => lift RVal (EndPtr p) s
  | OGet p => lift RVal (GetPtr p) s
  | OSet p v => lift (fun _ => RUnit) (SetPtr p v) s
  | OApi p => lift (fun a => RVal (Z.of_nat a)) (ApiPtr p) s
  | OMove p l pick => lift (fun _ => RUnit) (MovePtr p l pick) s
  | OCopy p l pick => lift RPtr (CopyPtr p l pick) s
  | OLife p => lift RLife (LifePtr p) s
  end.
