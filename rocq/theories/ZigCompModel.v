(** * zgo: composite literals of compiled programs (zgo/internal/target/zigc/composite.go:11-87,
    expressions.go:150-159; zgo/internal/parser/data.go:10-24; build_runtime.zig:167-175,
    305-314).

    Literals of arrays, slices, maps with string keys and structs, in each other. What else
    stands in them are calls; strings are numbered, and a name of a field is a number. Left
    out: &T{}, elements converted to an interface, names of fields that are words of Zig. *)
From Coq Require Import List ZArith Bool Arith.
Import ListNotations.

Inductive ty :=
| TInt
| TArray (n : nat) (t : ty)
| TSlice (t : ty)
| TMap (t : ty)
| TStruct (fs : fields)
with fields := FNil | FCons (x : nat) (t : ty) (r : fields).

(** Literals as the parser gives them: [LNone]: the type of an inner literal left out; the
    keys of elements. *)
Inductive expr :=
| EInt (z : Z)
| ECall (f : nat)                       (* f(), of the type that is needed *)
| ELit (t : option ty) (l : elems)
with elems := LNil | LCons (k : key) (e : expr) (r : elems)
with key :=
| KNone
| KIndex (i : nat)                      (* of an array or a slice *)
| KField (x : nat)
| KExpr (e : expr).                     (* of a map *)

Inductive val :=
| VInt (z : Z)
| VArray (l : list val)
| VSlice (l : list val)
| VMap (l : list (val * val))
| VStruct (l : list (nat * val))
| VNil.                                  (* of a slice or a map *)

(** What is put under a key replaces what was there. *)
Section World.
Variable W : Type.
(** what a call answers, and what it does; [None]: it panics *)
Variable call : nat -> W -> option val * W.
Variable same : val -> val -> bool.      (* of keys *)

Definition put (k v : val) (m : list (val * val)) : list (val * val) :=
  filter (fun p => negb (same (fst p) k)) m ++ [(k, v)].
Definition put_all (l : list (val * val)) : list (val * val) :=
  fold_left (fun m p => put (fst p) (snd p) m) l [].

(** ** Go *)
Fixpoint zero (t : ty) : val :=
  match t with
  | TInt => VInt 0
  | TArray n t => VArray (repeat (zero t) n)
  | TSlice _ | TMap _ => VNil
  | TStruct fs => VStruct (zero_fields fs)
  end
with zero_fields (fs : fields) : list (nat * val) :=
  match fs with FNil => [] | FCons x t r => (x, zero t) :: zero_fields r end.
Fixpoint field_type (x : nat) (fs : fields) : ty :=
  match fs with FNil => TInt | FCons y t r => if Nat.eqb y x then t else field_type x r end.
Fixpoint names (fs : fields) : list nat := match fs with FNil => [] | FCons x _ r => x :: names r end.
Definition nth_name (i : nat) (fs : fields) : nat := nth i (names fs) 0.

(** the place an element is for *)
Inductive place := At (i : nat) | In (x : nat) | Under (k : val).
(** the type of an element at a place *)
Definition inner (t : ty) (p : nat) (k : key) : ty :=
  match t with
  | TArray _ t | TSlice t | TMap t => t
  | TStruct fs => match k with KField x => field_type x fs | _ => field_type (nth_name p fs) fs end
  | TInt => TInt
  end.
Definition set_nth (i : nat) (v : val) (l : list val) : list val := firstn i l ++ [v] ++ skipn (S i) l.
Definition at_places (l : list (place * val)) (start : list val) : list val :=
  fold_left (fun a p => match fst p with At i => set_nth i (snd p) a | _ => a end) l start.
Definition length_of (l : list (place * val)) : nat :=
  fold_left (fun n p => match fst p with At i => max n (S i) | _ => n end) l 0.
Definition set_field (x : nat) (v : val) (l : list (nat * val)) : list (nat * val) :=
  map (fun p => if Nat.eqb (fst p) x then (x, v) else p) l.
Definition in_fields (l : list (place * val)) (start : list (nat * val)) : list (nat * val) :=
  fold_left (fun a p => match fst p with In x => set_field x (snd p) a | _ => a end) l start.
Definition under_keys (l : list (place * val)) : list (val * val) :=
  put_all (flat_map (fun p => match fst p with Under k => [(k, snd p)] | _ => [] end) l).
Definition made (t : ty) (l : list (place * val)) : val :=
  match t with
  | TInt => VInt 0
  | TArray n t => VArray (at_places l (repeat (zero t) n))
  | TSlice t => VSlice (at_places l (repeat (zero t) (length_of l)))
  | TMap _ => VMap (under_keys l)
  | TStruct fs => VStruct (in_fields l (zero_fields fs))
  end.

(** The elements are evaluated in the order they are written; an element without a key is
    for the place after the one before. *)
Fixpoint go (t : ty) (e : expr) (w : W) : option val * W :=
  match e with
  | EInt z => (Some (VInt z), w)
  | ECall f => call f w
  | ELit t' l =>
    let t := match t' with Some t' => t' | None => t end in
    let '(r, w) := go_elems t 0 l w in
    (match r with Some r => Some (made t r) | None => None end, w)
  end
with go_elems (t : ty) (p : nat) (l : elems) (w : W) : option (list (place * val)) * W :=
  match l with
  | LNil => (Some [], w)
  | LCons k e r =>
    let '(x, w) :=
      match k with
      | KNone => (Some (match t with TStruct fs => In (nth_name p fs) | _ => At p end, S p), w)
      | KIndex i => (Some (At i, S i), w)
      | KField x => (Some (In x, S p), w)
      | KExpr ke => let '(kv, w) := go TInt ke w in (match kv with Some kv => Some (Under kv, S p) | None => None end, w)
      end in
    match x with
    | None => (None, w)
    | Some (x, p') =>
      let '(v, w) := go (inner t p k) e w in
      match v with
      | None => (None, w)
      | Some v =>
        let '(vs, w) := go_elems t p' r w in
        (match vs with Some vs => Some ((x, v) :: vs) | None => None end, w)
      end
    end
  end.

(** ** What is printed, as Zig reads it *)
Inductive zexpr :=
| ZInt (z : Z)
| ZCall (f : nat)
| ZInit (t : ty) (l : zitems)                 (* T{ ... } *)
| ZSlice (t : ty) (n : nat) (l : zitems)      (* go.slice(T).literal(goto, n, .{ ... }) *)
| ZMap (t : ty) (n : nat) (l : zitems)        (* go.smap(T).literal(goto, n, .{ ... }) *)
with zitems := ZNil | ZCons (i : zitem) (r : zitems)
with zitem :=
| ZElem (e : zexpr)                           (* e *)
| ZField (x : nat) (e : zexpr)                (* .x=e *)
| ZPair (k v : zexpr)                         (* .{k, v} *)
| ZNoItem.                                    (* .3=e, .x.*=e: not Zig *)

(** The escape analysis (C127, C128) gives names of fields the mark of a variable that is
    not on the stack, or not: definitions.go:17-35. *)
Variable escapes : nat -> bool.

Fixpoint count (l : elems) : nat := match l with LNil => 0 | LCons _ _ r => S (count r) end.
(** composite.go:11-87; [None]: no program *)
Fixpoint emit (e : expr) : option zexpr :=
  match e with
  | EInt z => Some (ZInt z)
  | ECall f => Some (ZCall f)
  | ELit None _ => None                                    (* 12-15 *)
  | ELit (Some t) l =>
    match emit_items t 0 l with
    | None => None
    | Some is =>
      match t with
      | TArray _ _ | TStruct _ => Some (ZInit t is)        (* 18-29, 64-82 *)
      | TSlice t => Some (ZSlice t (count l) is)           (* 30-42 *)
      | TMap t => Some (ZMap t (count l) is)               (* 43-63 *)
      | TInt => None                                       (* 83-84 *)
      end
    end
  end
with emit_items (t : ty) (i : nat) (l : elems) : option zitems :=
  match l with
  | LNil => Some ZNil
  | LCons k e r =>
    let item :=
      match t, k with
      | TMap _, KExpr ke =>                                (* 50-60 *)
        match emit ke, emit e with Some a, Some b => Some (ZPair a b) | _, _ => None end
      | TStruct _, KField x =>                             (* 71-74, expressions.go:150-159 *)
        match emit e with Some a => Some (if escapes x then ZNoItem else ZField x a) | None => None end
      | TStruct fs, _ =>                                   (* 75-80 *)
        match emit e with Some a => Some (ZField (nth_name i fs) a) | None => None end
      | _, KNone => match emit e with Some a => Some (ZElem a) | None => None end
      | _, _ => match emit e with Some _ => Some ZNoItem | None => None end
      end in
    match item, emit_items t (S i) r with
    | Some a, Some b => Some (ZCons a b)
    | _, _ => None
    end
  end.

(** ** Zig: T{...} has every element, or every field once; the runtime's literal takes an
    array of n. *)
Fixpoint elements (l : zitems) : option (list zexpr) :=
  match l with
  | ZNil => Some []
  | ZCons (ZElem e) r => match elements r with Some r => Some (e :: r) | None => None end
  | _ => None
  end.
Fixpoint named (l : zitems) : option (list nat) :=
  match l with
  | ZNil => Some []
  | ZCons (ZField x _) r => match named r with Some r => Some (x :: r) | None => None end
  | _ => None
  end.
Fixpoint pairs (l : zitems) : option nat :=
  match l with
  | ZNil => Some 0
  | ZCons (ZPair _ _) r => match pairs r with Some n => Some (S n) | None => None end
  | _ => None
  end.
Fixpoint once (l : list nat) : bool :=
  match l with [] => true | x :: r => negb (existsb (Nat.eqb x) r) && once r end.
Definition all_once (fs l : list nat) : bool :=
  once l && forallb (fun x => existsb (Nat.eqb x) l) fs && forallb (fun x => existsb (Nat.eqb x) fs) l.
Fixpoint accepts (e : zexpr) : bool :=
  match e with
  | ZInt _ | ZCall _ => true
  | ZInit (TArray n _) l => match elements l with Some es => Nat.eqb (List.length es) n | None => false end && accepts_all l
  | ZInit (TStruct fs) l => match named l with Some xs => all_once (names fs) xs | None => false end && accepts_all l
  | ZInit _ _ => false
  | ZSlice _ n l => match elements l with Some es => Nat.eqb (List.length es) n | None => false end && accepts_all l
  | ZMap _ n l => match pairs l with Some m => Nat.eqb m n | None => false end && accepts_all l
  end
with accepts_all (l : zitems) : bool :=
  match l with ZNil => true | ZCons i r => accepts_item i && accepts_all r end
with accepts_item (i : zitem) : bool :=
  match i with ZElem e | ZField _ e => accepts e | ZPair k v => accepts k && accepts v | ZNoItem => false end.

(** Evaluation, in the order things are written. *)
Fixpoint value_of (x : nat) (l : list (nat * val)) : val :=
  match l with [] => VNil | (y, v) :: r => if Nat.eqb y x then v else value_of x r end.
Fixpoint zig (e : zexpr) (w : W) : option val * W :=
  match e with
  | ZInt z => (Some (VInt z), w)
  | ZCall f => call f w
  | ZInit t l =>
    let '(r, w) := zig_items 0 l w in
    (match r with
     | None => None
     | Some r => Some (match t with
        | TStruct fs => VStruct (map (fun x => (x, value_of x (flat_map (fun p => match fst p with In y => [(y, snd p)] | _ => [] end) r))) (names fs))
        | _ => VArray (map snd r)
        end)
     end, w)
  | ZSlice _ _ l =>
    let '(r, w) := zig_items 0 l w in (match r with Some r => Some (VSlice (map snd r)) | None => None end, w)
  | ZMap _ _ l =>
    let '(r, w) := zig_items 0 l w in (match r with Some r => Some (VMap (under_keys r)) | None => None end, w)
  end
with zig_items (i : nat) (l : zitems) (w : W) : option (list (place * val)) * W :=
  match l with
  | ZNil => (Some [], w)
  | ZCons a r =>
    let '(a, w) := zig_item i a w in
    match a with
    | None => (None, w)
    | Some a => let '(b, w) := zig_items (S i) r w in (match b with Some b => Some (a :: b) | None => None end, w)
    end
  end
with zig_item (n : nat) (i : zitem) (w : W) : option (place * val) * W :=
  match i with
  | ZElem e => let '(v, w) := zig e w in (match v with Some v => Some (At n, v) | None => None end, w)
  | ZField x e => let '(v, w) := zig e w in (match v with Some v => Some (In x, v) | None => None end, w)
  | ZPair k e =>
    let '(kv, w) := zig k w in
    match kv with
    | None => (None, w)
    | Some kv => let '(v, w) := zig e w in (match v with Some v => Some (Under kv, v) | None => None end, w)
    end
  | ZNoItem => (None, w)
  end.
End World.
