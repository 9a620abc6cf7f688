(** Model of qnq/qnq.go: the lock-free list of listeners behind [Chan].

    Granularity: every atomic Load / Store / CompareAndSwap, every plain write to a node,
    every handler invocation and every handler return is one step; a scheduler picks the
    next action arbitrarily (any number of goroutines).  A handler may itself call Listen,
    Send or cancel: while a Send is inside a handler any other thread may run.

    Simplifications (recorded here):
    - Listener nodes are numbered in the order in which they are linked: the node
      [zero = new(channel[T])] of qnq.go:177 is private to its goroutine until the
      CompareAndSwap that links it, so it is materialised by that step.
    - [pipe] (qnq.go:151, 171-174, 222-224) is never set by the package: those branches,
      and the nil receiver, are not modelled.
    - Memory is sequentially consistent for the atomics; the plain fields [context] and
      [handler] are separate steps, and reading them before they are written is [PPanic].
    - A context is a natural number; 0 is context.Background(), which is never cancelled. *)
From Coq Require Import List Arith Bool.
Import ListNotations.

Definition ctx := nat.
Definition tid := nat.
Definition background : ctx := 0.

(* qnq/qnq.go:147-163  channel[T]; a listener is identified by its Listen call's tid. *)
Record node := mkNode {
  nnext : option nat;      (* next atomic.Pointer *)
  nread : bool;            (* read atomic.Bool *)
  nctx  : option ctx;      (* context *)
  nhandler : option tid    (* handler *)
}.
Definition emptyNode : node := mkNode None false None None.

(* Result of Chan.Send's in-process part: nil, ErrEmptyChannel or the listener's error. *)
Inductive result := RNil | REmpty | RErr (e : nat).

(* Program points of register (L...) and send (S...). *)
Inductive pc :=
| LFast                               (* 184 *)
| LLoad (n : nat)                     (* 195 *)
| LCasTail (n : nat)                  (* 197 *)
| LWctx (n : nat)                     (* 185 / 198 *)
| LWhandler (n : nat)                 (* 186 / 199 *)
| LStore (n : nat)                    (* 187 / 200 *)
| LChkRead (n m : nat)                (* 206, read *)
| LChkCtx (n m : nat)                 (* 206, context.Err() *)
| LLoadNN (n m : nat)                 (* 207 *)
| LCas (n m k : nat)                  (* 208 *)
| LDone (n : nat)                     (* returned; n: the node it filled *)
| SLoadNext (n : nat) (sent : bool)   (* 234 *)
| SLoadRead (n : nat) (nx : option nat) (sent : bool)  (* 235 *)
| SCall (n : nat) (nx : option nat)   (* 236, call *)
| SRet (n : nat) (nx : option nat) (l : tid)  (* 236, return *)
| SChkRead (n m : nat)                (* 242, read *)
| SChkCtx (n m : nat)                 (* 242, context.Err() *)
| SLoadNN (n m : nat)                 (* 243 *)
| SCas (n m k : nat)                  (* 244 *)
| SDone (r : result)
| PPanic.

Record thread := mkThread { tctx : ctx; tpc : pc }.

(* Observable events. *)
Inductive event :=
| EListen (l : tid) (c : ctx)        (* Listen called with context c *)
| EListened (l : tid)                (* that Listen returned *)
| ESend (s : tid)                    (* Send called *)
| ECall (s l : tid)                  (* Send s invokes listener l *)
| EReply (s l : tid) (e : option nat)  (* that invocation returns *)
| ESent (s : tid) (r : result)       (* Send s returned *)
| ECancel (c : ctx).                 (* context c cancelled *)

Record state := mkState {
  nodes : nat -> node;
  tail : nat;                        (* index of the last linked node *)
  cancelled : ctx -> bool;
  threads : tid -> option thread
}.

Definition upd {A} (f : nat -> A) (i : nat) (a : A) : nat -> A :=
  fun j => if Nat.eqb j i then a else f j.

Definition setNode (s : state) (i : nat) (n : node) : state :=
  mkState (upd (nodes s) i n) (tail s) (cancelled s) (threads s).
Definition setPc (s : state) (t : tid) (c : ctx) (p : pc) : state :=
  mkState (nodes s) (tail s) (cancelled s) (upd (threads s) t (Some (mkThread c p))).

(* The zero value of Chan: one empty head node. *)
Definition init : state := mkState (fun _ => emptyNode) 0 (fun _ => false) (fun _ => None).

(* node.next.CompareAndSwap(nil, zero): links a new node after the last one.  *)
Definition casTail (s : state) (n : nat) : option state :=
  match nnext (nodes s n) with
  | Some _ => None
  | None =>
    let nd := nodes s n in
    Some (mkState (upd (nodes s) n (mkNode (Some (S (tail s))) (nread nd) (nctx nd) (nhandler nd)))
            (S (tail s)) (cancelled s) (threads s))
  end.

(* node.next.CompareAndSwap(next, nextnext) *)
Definition casSkip (s : state) (n m k : nat) : option state :=
  let nd := nodes s n in
  match nnext nd with
  | Some m' => if Nat.eqb m' m
      then Some (setNode s n (mkNode (Some k) (nread nd) (nctx nd) (nhandler nd))) else None
  | None => None
  end.

(* send, qnq.go:227-233: node = next, then the nil test. *)
Definition sendAdvance (nx : option nat) (sent : bool) : pc :=
  match nx with
  | Some m => SLoadNext m sent
  | None => SDone (if sent then RNil else REmpty)
  end.
Definition sentEvents (t : tid) (p : pc) : list event :=
  match p with SDone r => [ESent t r] | _ => [] end.

(* One step of thread t; [reply] is what the handler returns when the step is a return. *)
Definition runThread (s : state) (t : tid) (reply : option nat) : option (state * list event) :=
  match threads s t with
  | None => None
  | Some th =>
    let c := tctx th in
    let go (s : state) (p : pc) := Some (setPc s t c p, @nil event) in
    match tpc th with
    (* register *)
    | LFast =>
        match casTail s 0 with Some s' => go s' (LWctx 0) | None => go s (LLoad 0) end
    | LLoad n =>
        match nnext (nodes s n) with None => go s (LCasTail n) | Some m => go s (LChkRead n m) end
    | LCasTail n =>
        match casTail s n with Some s' => go s' (LWctx n) | None => go s (LLoad n) end
    | LWctx n => let nd := nodes s n in
        go (setNode s n (mkNode (nnext nd) (nread nd) (Some c) (nhandler nd))) (LWhandler n)
    | LWhandler n => let nd := nodes s n in
        go (setNode s n (mkNode (nnext nd) (nread nd) (nctx nd) (Some t))) (LStore n)
    | LStore n => let nd := nodes s n in
        Some (setPc (setNode s n (mkNode (nnext nd) true (nctx nd) (nhandler nd))) t c (LDone n),
              [EListened t])
    | LChkRead n m => if nread (nodes s m) then go s (LChkCtx n m) else go s (LLoad m)
    | LChkCtx n m =>
        match nctx (nodes s m) with
        | None => go s PPanic
        | Some d => if cancelled s d then go s (LLoadNN n m) else go s (LLoad m)
        end
    | LLoadNN n m =>
        match nnext (nodes s m) with Some k => go s (LCas n m k) | None => go s (LLoad m) end
    | LCas n m k =>
        match casSkip s n m k with Some s' => go s' (LLoad k) | None => go s (LLoad m) end
    | LDone _ => None
    (* send *)
    | SLoadNext n sent => go s (SLoadRead n (nnext (nodes s n)) sent)
    | SLoadRead n nx sent =>
        if nread (nodes s n) then go s (SCall n nx)
        else let p := sendAdvance nx sent in Some (setPc s t c p, sentEvents t p)
    | SCall n nx =>
        match nhandler (nodes s n) with
        | None => go s PPanic
        | Some l => Some (setPc s t c (SRet n nx l), [ECall t l])
        end
    | SRet n nx l =>
        match reply with
        | Some e => Some (setPc s t c (SDone (RErr e)), [EReply t l (Some e); ESent t (RErr e)])
        | None =>
          match nx with
          | Some m => Some (setPc s t c (SChkRead n m), [EReply t l None])
          | None => Some (setPc s t c (SDone RNil), [EReply t l None; ESent t RNil])
          end
        end
    | SChkRead n m => if nread (nodes s m) then go s (SChkCtx n m) else go s (SLoadNext m true)
    | SChkCtx n m =>
        match nctx (nodes s m) with
        | None => go s PPanic
        | Some d => if cancelled s d then go s (SLoadNN n m) else go s (SLoadNext m true)
        end
    | SLoadNN n m =>
        match nnext (nodes s m) with Some k => go s (SCas n m k) | None => go s (SLoadNext m true) end
    | SCas n m k =>
        match casSkip s n m k with Some s' => go s' (SLoadNext k true) | None => go s (SLoadNext m true) end
    | SDone _ => None
    | PPanic => None
    end
  end.

(* The scheduler's choices. *)
Inductive action :=
| AListen (t : tid) (c : ctx)   (* a goroutine calls Listen *)
| ASend (t : tid)               (* a goroutine calls Send *)
| ARun (t : tid) (reply : option nat)  (* goroutine t makes one step *)
| ACancel (c : ctx).            (* some goroutine cancels context c *)

Definition exec (s : state) (a : action) : option (state * list event) :=
  match a with
  | AListen t c =>
      match threads s t with
      | Some _ => None
      | None => Some (setPc s t c (if Nat.eqb c background then LFast else LLoad 0), [EListen t c])
      end
  | ASend t =>
      match threads s t with
      | Some _ => None
      | None => Some (setPc s t background (SLoadNext 0 false), [ESend t])
      end
  | ARun t reply => runThread s t reply
  | ACancel c =>
      if Nat.eqb c background then None
      else Some (mkState (nodes s) (tail s) (upd (cancelled s) c true) (threads s), [ECancel c])
  end.

(* Run a whole schedule (actions that are not enabled are refused). *)
Fixpoint runAll (s : state) (log : list event) (acts : list action) : option (state * list event) :=
  match acts with
  | [] => Some (s, log)
  | a :: rest =>
      match exec s a with
      | None => None
      | Some (s', ev) => runAll s' (log ++ ev) rest
      end
  end.

(* qnq/qnq.go:77-87  Chan.Send around the in-process list: [impl] is the result of the
   external Channels.Send when one is attached, [fast] the in-process result. *)
Inductive sendResult := OkSend | FailImpl (e : nat) | FailFast (r : result).
Definition chanSend (impl : option (option nat)) (fast : result) : sendResult :=
  match impl with
  | Some (Some e) => FailImpl e
  | Some None => match fast with RNil => OkSend | REmpty => OkSend | RErr e => FailFast (RErr e) end
  | None => match fast with RNil => OkSend | r => FailFast r end
  end.
