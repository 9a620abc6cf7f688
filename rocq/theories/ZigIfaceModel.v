(** * zgo: interfaces of compiled programs
    (zgo/internal/target/zigc/function_call.go:60-138; function.go:47-190; types.go:107-139;
    definitions.go:151-181; assignment.go:96-133; build_runtime.zig:62-67, 238-254).

    Types with methods on their values, variables of such types and of interfaces; a method
    prints what it is called on, or something made of it: [body]. Packages, results and
    pointers are left out. *)
From Coq Require Import List Arith ZArith Bool.
Import ListNotations.

(** the method, whether its receiver has a name, how many parameters it has *)
Record method := { name : nat; named : bool; params : nat }.
(** type Id int, or type Id struct { inner; fields }, with its methods *)
Inductive shape := Basic | Struct (fields : nat).
Inductive ty := Ty (id : nat) (sh : shape) (methods : list method) (inner : option ty).
Definition methods_of (t : ty) : list method := match t with Ty _ _ ms _ => ms end.
Inductive val := Val (own : list Z) (inner : option val).

Inductive stmt :=
| Set_ (x : nat) (v : val)            (* x = T{...} *)
| Conv (i x : nat)                    (* i = I(x), var i I = x *)
| Assign (i x : nat)                  (* i = x *)
| Zero (i : nat)                      (* var i I *)
| Copy (i j : nat)                    (* i = j *)
| Call (i m : nat)                    (* i.m() *)
| On (x m : nat).                     (* x.m() *)
(** The types of the variables; the interfaces that those of the variables of interfaces are;
    the methods of an interface. *)
Record env := { vtype : nat -> ty; itype : nat -> nat; imethods : nat -> list nat }.
Definition iface (g : env) (i : nat) : list nat := imethods g (itype g i).

Definition declares (t : ty) (m : nat) : bool := existsb (fun d => name d =? m) (methods_of t).

(** ** Go *)
Fixpoint find (t : ty) (m : nat) (v : val) : option (ty * val) :=
  if declares t m then Some (t, v)
  else match t, v with Ty _ _ _ (Some u), Val _ (Some w) => find u m w | _, _ => None end.
Record gstate := { gvars : nat -> val; gifaces : nat -> option (ty * val); gout : list Z }.
Definition change {A} (x : nat) (v : A) (f : nat -> A) : nat -> A := fun y => if y =? x then v else f y.
Definition gcall (body : ty -> nat -> val -> list Z) (t : ty) (m : nat) (v : val) (s : gstate) : option gstate :=
  match find t m v with
  | Some (u, w) => Some {| gvars := gvars s; gifaces := gifaces s; gout := gout s ++ body u m w |}
  | None => None
  end.
(** [None]: it panics *)
Definition go_do (body : ty -> nat -> val -> list Z) (g : env) (c : stmt) (s : gstate) : option gstate :=
  match c with
  | Set_ x v => Some {| gvars := change x v (gvars s); gifaces := gifaces s; gout := gout s |}
  | Conv i x | Assign i x => Some {| gvars := gvars s; gifaces := change i (Some (vtype g x, gvars s x)) (gifaces s); gout := gout s |}
  | Zero i => Some {| gvars := gvars s; gifaces := change i None (gifaces s); gout := gout s |}
  | Copy i j => Some {| gvars := gvars s; gifaces := change i (gifaces s j) (gifaces s); gout := gout s |}
  | Call i m => match gifaces s i with Some (t, v) => gcall body t m v s | None => None end
  | On x m => gcall body (vtype g x) m (gvars s x) s
  end.
Fixpoint go_all (body : ty -> nat -> val -> list Z) (g : env) (p : list stmt) (s : gstate) : option gstate :=
  match p with [] => Some s | c :: r => match go_do body g c s with Some s' => go_all body g r s' | None => None end end.

(** ** Zig: an interface value is the address of a copy and a table of functions
    (build_runtime.zig:238-254). A function is called by the type and the method in its name. *)
Definition fn := (ty * nat)%type.
Inductive cmd :=
| ZSet (x : nat) (v : val)
| ZMake (i x : nat) (tab : list (nat * fn))   (* i = I.make(goto, x, .{.m = &@"pkg.T.m.(itfc)"}) *)
| ZCopy (i j : nat)
| ZCall (i m : nat)                           (* i.itype.m(goto, i.value) *)
| ZOn (f : fn) (x : nat).                     (* pkg.@"T.m"(goto, x) *)
Record zstate := { zvars : nat -> val; heap : list val; zifaces : nat -> option (nat * list (nat * fn)); zout : list Z }.
Fixpoint entry (m : nat) (tab : list (nat * fn)) : option fn :=
  match tab with [] => None | (n, f) :: r => if n =? m then Some f else entry m r end.
Definition zig_do (body : ty -> nat -> val -> list Z) (c : cmd) (s : zstate) : option zstate :=
  match c with
  | ZSet x v => Some {| zvars := change x v (zvars s); heap := heap s; zifaces := zifaces s; zout := zout s |}
  | ZMake i x tab =>
      Some {| zvars := zvars s; heap := heap s ++ [zvars s x]; zifaces := change i (Some (length (heap s), tab)) (zifaces s); zout := zout s |}
  | ZCopy i j => Some {| zvars := zvars s; heap := heap s; zifaces := change i (zifaces s j) (zifaces s); zout := zout s |}
  | ZCall i m =>
      match zifaces s i with
      | Some (a, tab) =>
          match entry m tab, nth_error (heap s) a with   (* function.go:173: @as( *const T, @ptrCast(d)).* *)
          | Some (t, n), Some v => Some {| zvars := zvars s; heap := heap s; zifaces := zifaces s; zout := zout s ++ body t n v |}
          | _, _ => None
          end
      | None => None
      end
  | ZOn (t, m) x => Some {| zvars := zvars s; heap := heap s; zifaces := zifaces s; zout := zout s ++ body t m (zvars s x) |}
  end.
Fixpoint zig_all (body : ty -> nat -> val -> list Z) (p : list cmd) (s : zstate) : option zstate :=
  match p with [] => Some s | c :: r => match zig_do body c s with Some s' => zig_all body r s' | None => None end end.

(** ** Compiling. [None]: the compiler panics or Zig refuses. *)
(** The description of a type (definitions.go:72-100), used when it is put in an interface:
    that of a field has @offsetOf(T,"%[1]s"), after which %v prints the second and the third
    argument where booleans belong, and rdata has nothing for basic types but strings; for
    them and for what is aligned to more than a byte the @ptrCast of the wrapper would increase
    the alignment (function.go:173). A struct without fields has neither. *)
Definition described (t : ty) : bool := match t with Ty _ (Struct O) _ None => true | _ => false end.
(** The function of the table is for the type of the argument (function_call.go:116-126); it
    is there if the method is declared with it (function.go:143-186). *)
Definition wrapper (t : ty) (m : nat) : option fn := if declares t m && described t then Some (t, m) else None.
Fixpoint table (t : ty) (ms : list nat) : option (list (nat * fn)) :=
  match ms with
  | [] => Some []
  | m :: r => match wrapper t m, table t r with Some f, Some l => Some ((m, f) :: l) | _, _ => None end
  end.
Definition zig_cmd (g : env) (c : stmt) : option cmd :=
  match c with
  | Set_ x v => Some (ZSet x v)
  | Conv i x =>
      match iface g i with
      | [] => None                                     (* go.any has another make *)
      | ms => match table (vtype g x) ms with Some tab => Some (ZMake i x tab) | None => None end
      end
  | Assign _ _ => None                                 (* assignment.go:113-131: i = x, and x is no I *)
  | Zero _ => None                                     (* go.zero: a pointer that is not optional *)
  | Copy i j => if itype g i =? itype g j then Some (ZCopy i j) else None
  | Call i m => if existsb (Nat.eqb m) (iface g i) then Some (ZCall i m) else None
  | On x m => if declares (vtype g x) m then Some (ZOn (vtype g x, m) x) else None   (* function_call.go:76-93 *)
  end.
(** A wrapper is printed for each method (function.go:143-186): its receiver is named even if
    it is named _, and its parameters are printed with %v, which no Zig is. *)
Definition readable (t : ty) : bool := forallb (fun d => named d && (params d =? 0)) (methods_of t).
Fixpoint cmds (g : env) (p : list stmt) : option (list cmd) :=
  match p with
  | [] => Some []
  | c :: r => match zig_cmd g c, cmds g r with Some d, Some ds => Some (d :: ds) | _, _ => None end
  end.
Definition compile (g : env) (types : list ty) (p : list stmt) : option (list cmd) := if forallb readable types then cmds g p else None.

Definition go_start (init : nat -> val) : gstate := {| gvars := init; gifaces := fun _ => None; gout := [] |}.
Definition zig_start (init : nat -> val) : zstate := {| zvars := init; heap := []; zifaces := fun _ => None; zout := [] |}.
Definition go_run (body : ty -> nat -> val -> list Z) (g : env) (init : nat -> val) (p : list stmt) : option (list Z) :=
  option_map gout (go_all body g p (go_start init)).
Definition zig_run (body : ty -> nat -> val -> list Z) (g : env) (types : list ty) (init : nat -> val) (p : list stmt) : option (option (list Z)) :=
  option_map (fun cs => option_map zout (zig_all body cs (zig_start init))) (compile g types p).
