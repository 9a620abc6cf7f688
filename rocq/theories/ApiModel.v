(** Model of the core of package api: function values (api/api.go:272-504), structures
    (api/api.go:46-270), their documentation, and the stub linker (api/stub/stub.go). *)
From Coq Require Import String.
From Verif Require Import GoBase GoText.
Local Open Scope Z_scope.
Local Open Scope list_scope.

(** ** Go types and reflect.Value *)
(** A type: an identity, whether it is an interface, and its methods; or a slice. *)
Inductive gtype := T (id : nat) (interface : bool) (methods : list nat) | TSlice (e : gtype).
Fixpoint nats_eqb (a b : list nat) : bool :=
  match a, b with [], [] => true | x :: r, y :: s => Nat.eqb x y && nats_eqb r s | _, _ => false end.
Fixpoint gtype_eqb (a b : gtype) : bool :=
  match a, b with
  | T i f m, T j g n => Nat.eqb i j && Bool.eqb f g && nats_eqb m n
  | TSlice a, TSlice b => gtype_eqb a b
  | _, _ => false
  end.
Definition methods (t : gtype) : list nat := match t with T _ _ m => m | TSlice _ => [] end.
Definition is_interface (t : gtype) : bool := match t with T _ i _ => i | TSlice _ => false end.
(** reflect.Type.Implements *)
Definition implements (u t : gtype) : bool := forallb (fun m => existsb (Nat.eqb m) (methods u)) (methods t).
(** error, context.Context, any *)
Definition error_type := T 0 true [0%nat].
Definition context_type := T 1 true [1%nat].
Definition any_type := T 2 true [].
(** The value in an interface: a value of a type that is not an interface. A nil slice and an empty one
    are the same here. *)
Inductive dyn := DAtom (t : gtype) (x : Z) | DSlice (e : gtype) (l : list (option dyn)).
Definition dtype (d : dyn) : gtype := match d with DAtom t _ => t | DSlice e _ => TSlice e end.
(** A valid reflect.Value: its type, and what Interface() gives ([None]: nil). The zero reflect.Value is
    [None] : option rvalue. *)
Record rvalue := { vtype : gtype; vdata : option dyn }.
(** reflect.ValueOf *)
Definition value_of (a : option dyn) : option rvalue :=
  match a with None => None | Some d => Some {| vtype := dtype d; vdata := Some d |} end.
(** reflect.Zero *)
Definition zero (t : gtype) : rvalue :=
  {| vtype := t; vdata := if is_interface t then None else Some (match t with TSlice e => DSlice e [] | t => DAtom t 0 end) |}.
(** reflect's assignTo: the value as one of type t; [None]: it panics. *)
Definition assign (v : option rvalue) (t : gtype) : option rvalue :=
  match v with
  | None => None
  | Some v => if gtype_eqb (vtype v) t then Some v
              else if is_interface t && implements (vtype v) t then Some {| vtype := t; vdata := vdata v |}
              else None
  end.
Fixpoint assign_all (vs : list (option rvalue)) (ts : list gtype) : option (list rvalue) :=
  match vs, ts with
  | [], [] => Some []
  | v :: vs, t :: ts => match assign v t, assign_all vs ts with Some w, Some ws => Some (w :: ws) | _, _ => None end
  | _, _ => None
  end.
(** Function types and what calling a function does: return, or panic with a value ([None]: a panic of
    package reflect or of the runtime). *)
Record ftype := { ins : list gtype; outs : list gtype; variadic : bool }.
Inductive fres (A : Type) := Ret (a : A) | Pan (p : option dyn).
Arguments Ret {A}. Arguments Pan {A}.
Definition gofunc := list rvalue -> fres (list rvalue).
(** reflect.MakeFunc *)
Definition make_func (ft : ftype) (f : list rvalue -> fres (list (option rvalue))) : gofunc := fun args =>
  match f args with
  | Pan p => Pan p
  | Ret rs => match assign_all rs (outs ft) with Some vs => Ret vs | None => Pan None end
  end.
(** reflect.Value.Call: the arguments beyond the last parameter of a variadic function are collected. *)
Definition elem (t : gtype) : gtype := match t with TSlice e => e | t => t end.
Definition call_args (ft : ftype) (args : list (option rvalue)) : option (list rvalue) :=
  if variadic ft then
    let n := (length (ins ft) - 1)%nat in
    let e := elem (last (ins ft) any_type) in
    match assign_all (firstn n args) (firstn n (ins ft)), assign_all (skipn n args) (repeat e (length args - n)) with
    | Some vs, Some rest => Some (vs ++ [{| vtype := TSlice e; vdata := Some (DSlice e (map vdata rest)) |}])
    | _, _ => None
    end
  else assign_all args (ins ft).
Definition reflect_call (ft : ftype) (g : gofunc) (args : list (option rvalue)) : fres (list rvalue) :=
  match call_args ft args with Some vs => g vs | None => Pan None end.

(** ** api.Function *)
Definition last_out (ft : ftype) : gtype := last (outs ft) any_type.
Definition has_error (ft : ftype) : bool := match outs ft with [] => false | _ => implements (last_out ft) error_type end.
(** api.go:419-426 [NumOut], 410-415 [NumIn] *)
Definition num_out (ft : ftype) : nat := if has_error ft then (length (outs ft) - 1)%nat else length (outs ft).
Definition has_context (ft : ftype) : bool := match ins ft with t :: _ => gtype_eqb t context_type | [] => false end.
Definition num_in (ft : ftype) : nat := if has_context ft then (length (ins ft) - 1)%nat else length (ins ft).
(** api.go:404-406 [In] *)
Definition in_type (ft : ftype) (i : nat) : gtype := nth (i + length (ins ft) - num_in ft) (ins ft) any_type.
(** context.Background() *)
Definition background : dyn := DAtom (T 4 false [1%nat]) 0.
(** api.go:300-304, 328-332: the context and the other arguments. *)
Definition split_context (args : list rvalue) : fres (dyn * list rvalue) :=
  match args with
  | a :: r => if gtype_eqb (vtype a) context_type then match vdata a with Some c => Ret (c, r) | None => Pan None end else Ret (background, args)
  | [] => Ret (background, args)
  end.
(** api.go:312-323, 347-358: the error is added to the results. *)
Definition finish (ft : ftype) (results : list (option rvalue)) (err : option dyn) : fres (list (option rvalue)) :=
  match err with
  | Some e => if has_error ft then Ret (results ++ [value_of (Some e)]) else Pan (Some e)
  | None => Ret (if has_error ft then results ++ [Some (zero (last_out ft))] else results)
  end.
Definition zeros (ft : ftype) : list rvalue := map zero (firstn (num_out ft) (outs ft)).
(** api.go:298-325 [Make] of a func(context.Context, []reflect.Value) ([]reflect.Value, error). [None] is
    a nil slice of results. *)
Definition make_values (ft : ftype) (f : dyn -> list rvalue -> fres (option (list rvalue) * option dyn)) : gofunc :=
  make_func ft (fun args =>
    match split_context args with
    | Pan p => Pan p
    | Ret (ctx, args) =>
      match f ctx args with
      | Pan p => Pan p
      | Ret (results, err) => finish ft (map Some (match results with Some r => r | None => zeros ft end)) err
      end
    end).
(** api.go:326-361 [Make] of a func(context.Context, []any) ([]any, error). The slice made from the
    results is never nil. *)
Definition make_any (ft : ftype) (f : dyn -> list (option dyn) -> fres (list (option dyn) * option dyn)) : gofunc :=
  make_func ft (fun args =>
    match split_context args with
    | Pan p => Pan p
    | Ret (ctx, args) =>
      match f ctx (map vdata args) with
      | Pan p => Pan p
      | Ret (results, err) => finish ft (map value_of results) err
      end
    end).
(** api.go:430-447 [MakeError] *)
Definition make_error (ft : ftype) (err : dyn) : gofunc :=
  if has_error ft then
    make_func ft (fun _ => Ret (map (fun t => Some (zero t)) (removelast (outs ft)) ++ [value_of (Some err)]))
  else make_func ft (fun _ => Pan (Some err)).
(** api.go:367-373: an implementation of any other type is used when its type is that of the function. *)
Definition ftype_eqb (a b : ftype) : bool :=
  (fix go (l m : list gtype) := match l, m with [], [] => true | x :: r, y :: s => gtype_eqb x y && go r s | _, _ => false end) (ins a) (ins b) &&
  (fix go (l m : list gtype) := match l, m with [], [] => true | x :: r, y :: s => gtype_eqb x y && go r s | _, _ => false end) (outs a) (outs b) &&
  Bool.eqb (variadic a) (variadic b).
Definition wrong_type : dyn := DAtom (T 5 false [0%nat]) 1.
Definition make_impl (ft it : ftype) (impl : gofunc) : gofunc := if ftype_eqb it ft then impl else make_error ft wrong_type.
(** ErrNotImplemented *)
Definition not_implemented : dyn := DAtom (T 6 false [0%nat]) 2.
(** api.go:387-402 [Call]; [impl = None]: a nil function. *)
Definition call (ft : ftype) (impl : option gofunc) (ctx : option dyn) (args : list rvalue) : fres (list rvalue * option dyn) :=
  match impl with
  | None => Ret ([], Some not_implemented)
  | Some g =>
    let args := (if has_context ft then [value_of ctx] else []) ++ map Some args in
    match reflect_call ft g args with
    | Pan p => Pan p
    | Ret results =>
      if has_error ft then
        match last (map vdata results) None with
        | Some e => Ret ([], Some e)
        | None => Ret (removelast results, None)
        end
      else Ret (results, None)
    end
  end.
(** api.go:485-504 [Return] *)
Fixpoint pad (n : nat) (z : rvalue) (l : list (option rvalue)) : list (option rvalue) :=
  match n with O => l | S n' => match l with [] => Some z :: pad n' z [] | v :: r => v :: pad n' z r end end.
Fixpoint set_last {A} (n : nat) (x : A) (l : list A) : list A :=
  match l with [] => [] | y :: r => match n with O => x :: r | S n' => y :: set_last n' x r end end.
Definition return_ (ft : ftype) (results : option (list rvalue)) (err : option dyn) : fres (list (option rvalue)) :=
  let results := map Some (match results with Some r => r | None => map zero (outs ft) end) in
  let results := pad (length (outs ft)) (zero (last_out ft)) results in
  match err with
  | Some e => if has_error ft then Ret (set_last (length (outs ft) - 1) (value_of (Some e)) results) else Pan (Some e)
  | None => Ret results
  end.

(** ** api.Structure *)
(** The fields of an API structure: functions, nested structures, others. Registered types, hosts and
    tags are left out. *)
Inductive afield := FFunc (name : bytes) (ft : ftype) | FStruct (name : bytes) (fs : list afield) | FOther.
(** A function: its name, its type, and where its variable is: the index of the field at each level. *)
Record func := { fn_name : bytes; fn_type : ftype; fn_loc : list nat }.
Inductive structure := Struct (fns : list func) (ns : list (bytes * structure)).
Definition functions (s : structure) : list func := match s with Struct f _ => f end.
Definition namespace (s : structure) : list (bytes * structure) := match s with Struct _ n => n end.
(** api.go:140-231 [StructureOf] *)
Fixpoint field_structure (loc : list nat) (f : afield) : structure :=
  match f with
  | FFunc name ft => Struct [{| fn_name := name; fn_type := ft; fn_loc := loc |}] []
  | FStruct name fs =>
    let s := (fix go (i : nat) (fs : list afield) : structure :=
                match fs with
                | [] => Struct [] []
                | f :: r => match field_structure (loc ++ [i]) f, go (S i) r with Struct a b, Struct c d => Struct (a ++ c) (b ++ d) end
                end) O fs in
    Struct [] [(name, s)]
  | FOther => Struct [] []
  end.
Definition structure_of (fs : list afield) : structure :=
  match namespace (field_structure [] (FStruct [] fs)) with (_, s) :: _ => s | [] => Struct [] [] end.
(** The order of strings, slices.Sorted *)
Fixpoint text_leb (a b : bytes) : bool :=
  match a, b with
  | [], _ => true
  | _, [] => false
  | x :: r, y :: s => if x <? y then true else if y <? x then false else text_leb r s
  end.
Fixpoint insert {A} (x : bytes * A) (l : list (bytes * A)) : list (bytes * A) :=
  match l with [] => [x] | y :: r => if text_leb (fst x) (fst y) then x :: l else y :: insert x r end.
Definition sort {A} (l : list (bytes * A)) : list (bytes * A) := fold_right insert [] l.
(** api.go:233-249 [Iter], to its end *)
Fixpoint iter (s : structure) : list func :=
  match s with
  | Struct fns ns =>
    fns ++ concat (map snd (sort ((fix go (l : list (bytes * structure)) : list (bytes * list func) := match l with [] => [] | (n, c) :: r => (n, iter c) :: go r end) ns)))
  end.
(** The function variables, and api.go:253-260 [Structure.MakeError] *)
Definition memory := list nat -> option gofunc.
Definition write (m : memory) (loc : list nat) (g : gofunc) : memory := fun l => if nats_eqb l loc then Some g else m l.
Fixpoint make_errors (s : structure) (err : dyn) (m : memory) : memory :=
  match s with
  | Struct fns ns =>
    (fix go (l : list (bytes * structure)) (m : memory) : memory := match l with [] => m | (_, c) :: r => go r (make_errors c err m) end) ns
      (fold_left (fun m f => write m (fn_loc f) (make_error (fn_type f) err)) fns m)
  end.
(** api.go:46-55 [Import]; the linker is any change of the function variables, and maybe an error. *)
Definition import (linker : structure -> memory -> memory * option dyn) (fs : list afield) : memory :=
  let s := structure_of fs in
  match linker s (fun _ => None) with
  | (m, None) => m
  | (m, Some err) => make_errors s err m
  end.

(** ** Paths of functions: api.go:225-229, 262-270 [link] *)
(** Slices of strings over arrays: append writes in place when there is room; the capacity of a new array
    is twice the length (for lengths below 256). *)
Record slice := { arr : nat; len : nat }.
Definition heap := list (list bytes).
Fixpoint set_nth {A} (i : nat) (x : A) (l : list A) : list A :=
  match l with [] => [] | y :: r => match i with O => x :: r | S j => y :: set_nth j x r end end.
Definition read_slice (h : heap) (s : slice) : list bytes := firstn (len s) (nth (arr s) h []).
Definition append (h : heap) (s : slice) (x : bytes) : heap * slice :=
  let a := nth (arr s) h [] in
  if Nat.ltb (len s) (length a) then (set_nth (arr s) (set_nth (len s) x a) h, {| arr := arr s; len := S (len s) |})
  else (h ++ [firstn (len s) a ++ [x] ++ repeat [] (len s - 1)], {| arr := length h; len := S (len s) |}).
(** Each function with its path; [ns] in the order in which the map is walked. *)
Fixpoint link (h : heap) (s : structure) (path : slice) : heap * list (list nat * slice) :=
  match s with
  | Struct fns ns =>
    (fix go (l : list (bytes * structure)) (h : heap) (acc : list (list nat * slice)) : heap * list (list nat * slice) :=
       match l with
       | [] => (h, acc)
       | (n, c) :: r => let '(h1, p) := append h path n in let '(h2, ps) := link h1 c p in go r h2 (acc ++ ps)
       end) ns h (map (fun f => (fn_loc f, path)) fns)
  end.
Definition link_root (s : structure) : list (list nat * list bytes) :=
  let '(h, ps) := fold_left (fun '(h, acc) '(n, c) => let '(h2, ps) := link (h ++ [[n]]) c {| arr := length h; len := 1 |} in (h2, acc ++ ps)) (namespace s) ([], []) in
  map (fun f => (fn_loc f, [])) (functions s) ++ map (fun '(l, p) => (l, read_slice h p)) ps.

(** ** api.go:451-463 [DocumentationOf] of a field with a tag of several lines *)
Definition nl := 10.
Definition tab := 9.
Fixpoint leading_tabs (s : bytes) : nat := match s with c :: r => if c =? tab then S (leading_tabs r) else O | [] => O end.
(** strings.ReplaceAll for a non-empty old *)
Fixpoint replace_all_n (fuel : nat) (s old new : bytes) : bytes :=
  match fuel with
  | O => s
  | S fuel' =>
    match s with
    | [] => []
    | c :: r => if has_prefix s old then new ++ replace_all_n fuel' (skipn (length old) s) old new else c :: replace_all_n fuel' r old new
    end
  end.
Definition replace_all (s old new : bytes) : bytes := replace_all_n (S (length s)) s old new.
Definition documentation (tag : bytes) : option bytes :=
  let '(_, rest, found) := cut tag nl in
  if found then Some (tl (replace_all (nl :: rest) (nl :: repeat tab (leading_tabs rest)) [nl])) else None.

(** ** api/stub/stub.go:28-60 *)
(** [read_closer]: the type io.ReadCloser and an empty reader. *)
Definition read_closer := T 7 true [2%nat; 3%nat].
Definition empty_reader : dyn := DAtom (T 8 false [2%nat; 3%nat]) 0.
Definition stub (ft : ftype) (err : option dyn) : gofunc :=
  let results := map (fun t => if gtype_eqb t read_closer then value_of (Some empty_reader) else Some (zero t)) (outs ft) in
  match err with
  | Some e => if has_error ft then make_func ft (fun _ => Ret (removelast results ++ [value_of (Some e)])) else make_func ft (fun _ => Pan (Some e))
  | None => make_func ft (fun _ => Ret results)
  end.
(** api/stub/stub.go:28-38 [Link] *)
Fixpoint stub_link (s : structure) (err : option dyn) (m : memory) : memory :=
  match s with
  | Struct fns ns =>
    (fix go (l : list (bytes * structure)) (m : memory) : memory := match l with [] => m | (_, c) :: r => go r (stub_link c err m) end) ns
      (fold_left (fun m f => write m (fn_loc f) (stub (fn_type f) err)) fns m)
  end.
