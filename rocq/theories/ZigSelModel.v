(** * zgo: fields of structs of compiled programs
    (zgo/internal/parser/parser.go:54-79; zgo/internal/target/zigc/zigc.go:45-54;
    types.go:141-154; assignment.go:96-133).

    Structs of ints and structs, held by variables; selectors on selectors; fields of
    embedded structs are promoted. Each selector carries the index that go/types gives it
    (Selection.Index). Pointers are left out: on one of them a selector is one on
    go.pointer(T), which has no such field. *)
From Coq Require Import List Arith ZArith Bool.
Import ListNotations.

(** name, embedded, type *)
Inductive ty := TInt | TStruct (fs : list (nat * bool * ty)).
Definition fields_of (t : ty) : list (nat * bool * ty) := match t with TStruct fs => fs | TInt => [] end.
Fixpoint type_at (t : ty) (idx : list nat) : option ty :=
  match idx with
  | [] => Some t
  | i :: r => match nth_error (fields_of t) i with Some (_, _, u) => type_at u r | None => None end
  end.
Inductive place := Var (x : nat) | Sel (p : place) (f : nat) (idx : list nat).
Inductive source := Int (z : Z) | From (p : place).
Inductive stmt :=
| Set_ (p : place) (e : source)       (* p = e *)
| Print (p : place).                  (* println(p), an int *)
Definition env := nat -> ty.
Fixpoint type_of (g : env) (p : place) : option ty :=
  match p with
  | Var x => Some (g x)
  | Sel p _ idx => match type_of g p with Some t => type_at t idx | None => None end
  end.
Fixpoint root (p : place) : nat := match p with Var x => x | Sel p _ _ => root p end.

(** ** Values: the fields of a struct one after the other; a place in one is the positions
    that lead to it. *)
Inductive val := VInt (z : Z) | VStruct (l : list val).
Fixpoint zero (t : ty) : val :=
  match t with TInt => VInt 0 | TStruct fs => VStruct (map (fun f => zero (snd f)) fs) end.
Fixpoint get (v : val) (idx : list nat) : option val :=
  match idx with
  | [] => Some v
  | i :: r => match v with VStruct l => match nth_error l i with Some w => get w r | None => None end | VInt _ => None end
  end.
Fixpoint change (i : nat) (f : val -> val) (l : list val) : list val :=
  match l, i with
  | [], _ => []
  | v :: r, O => f v :: r
  | v :: r, S i => v :: change i f r
  end.
Fixpoint put (idx : list nat) (w v : val) : val :=
  match idx with
  | [] => w
  | i :: r => match v with VStruct l => VStruct (change i (put r w) l) | VInt _ => v end
  end.
Record state := { vars : nat -> val; out : list val }.
Definition start (g : env) : state := {| vars := fun x => zero (g x); out := [] |}.
Definition write (x : nat) (v : val) (s : state) : state :=
  {| vars := fun y => if y =? x then v else vars s y; out := out s |}.

(** A statement, given where its places are. *)
Definition loc := (nat * list nat)%type.
Definition fetch (l : loc) (s : state) : option val := get (vars s (fst l)) (snd l).
Inductive cmd := CInt (l : loc) (z : Z) | CMove (l m : loc) | CPrint (l : loc).
Definition do (c : cmd) (s : state) : option state :=
  match c with
  | CInt l z => Some (write (fst l) (put (snd l) (VInt z) (vars s (fst l))) s)
  | CMove l m => match fetch m s with Some v => Some (write (fst l) (put (snd l) v (vars s (fst l))) s) | None => None end
  | CPrint l => match fetch l s with Some v => Some {| vars := vars s; out := out s ++ [v] |} | None => None end
  end.
Fixpoint do_all (cs : list cmd) (s : state) : option state :=
  match cs with [] => Some s | c :: r => match do c s with Some s' => do_all r s' | None => None end end.

(** ** Go: a selector is the field its index leads to. *)
Fixpoint go_place (p : place) : list nat := match p with Var _ => [] | Sel p _ idx => go_place p ++ idx end.
Definition go_loc (p : place) : loc := (root p, go_place p).
Definition go_cmd (c : stmt) : cmd :=
  match c with
  | Set_ p (Int z) => CInt (go_loc p) z
  | Set_ p (From q) => CMove (go_loc p) (go_loc q)
  | Print p => CPrint (go_loc p)
  end.
Definition go_run (g : env) (p : list stmt) : option state := do_all (map go_cmd p) (start g).

(** ** The names that are printed (parser.go:62-77): [for index := range meta.Index()[1:]]
    goes over positions, not over what is there. [None]: the parser panics. *)
Fixpoint path (t : ty) (positions : list nat) : option (list nat) :=
  match positions with
  | [] => Some []
  | i :: r =>
      match nth_error (fields_of t) i with
      | Some (n, _, u) => match path u r with Some l => Some (n :: l) | None => None end
      | None => None
      end
  end.
Fixpoint names (g : env) (p : place) : option (list nat) :=
  match p with
  | Var _ => Some []
  | Sel p f idx =>
      match names g p, type_of g p with
      | Some l, Some t => match path t (seq 0 (length idx - 1)) with Some m => Some (l ++ m ++ [f]) | None => None end   (* zigc.go:45-54 *)
      | _, _ => None
      end
  end.
(** Zig looks each name up in the struct before it; [None]: there is none *)
Fixpoint position (n : nat) (fs : list (nat * bool * ty)) : option nat :=
  match fs with [] => None | (m, _, _) :: r => if m =? n then Some 0 else option_map S (position n r) end.
Fixpoint zig_path (t : ty) (ns : list nat) : option (list nat * ty) :=
  match ns with
  | [] => Some ([], t)
  | n :: r =>
      match position n (fields_of t) with
      | Some i =>
          match nth_error (fields_of t) i with
          | Some (_, _, u) => match zig_path u r with Some (l, w) => Some (i :: l, w) | None => None end
          | None => None
          end
      | None => None
      end
  end.
(** Types are the same if they are written the same: which name a struct was defined with is
    left out. *)
Fixpoint same_type (t u : ty) : bool :=
  match t, u with
  | TInt, TInt => true
  | TStruct fs, TStruct gs =>
      (fix same fs gs := match fs, gs with
                         | [], [] => true
                         | (n, b, t) :: r, (m, c, u) :: q => (n =? m) && Bool.eqb b c && same_type t u && same r q
                         | _, _ => false
                         end) fs gs
  | _, _ => false
  end.
Definition zig_loc (g : env) (p : place) : option (loc * ty) :=
  match names g p with
  | Some ns => match zig_path (g (root p)) ns with Some (l, t) => Some ((root p, l), t) | None => None end
  | None => None
  end.
(** println has {d} for ints; a struct is assigned to one of its type. *)
Definition zig_cmd (g : env) (c : stmt) : option cmd :=
  match c with
  | Set_ p (Int z) => match zig_loc g p with Some (l, TInt) => Some (CInt l z) | _ => None end
  | Set_ p (From q) =>
      match zig_loc g p, zig_loc g q with Some (l, t), Some (m, u) => if same_type t u then Some (CMove l m) else None | _, _ => None end
  | Print p => match zig_loc g p with Some (l, TInt) => Some (CPrint l) | _ => None end
  end.
Fixpoint compile (g : env) (p : list stmt) : option (list cmd) :=
  match p with
  | [] => Some []
  | c :: r => match zig_cmd g c, compile g r with Some d, Some ds => Some (d :: ds) | _, _ => None end
  end.
Definition zig_run (g : env) (p : list stmt) : option (option state) := option_map (fun cs => do_all cs (start g)) (compile g p).
