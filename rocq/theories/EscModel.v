(** Model of the escape analysis of zgo: the graph (zgo/internal/escape/analysis.go:21-127), the walk over the source that
    builds it (scanner.go, relation.go, analysis.go:129-213, scoping.go) and what the zig target asks of it
    (zgo/internal/target/zigc/allocations.go).

    Simplifications: syntax nodes and variables are numbers; a map from keys to plans is a list, the latest entry first;
    statements that are optional are lists of at most one. Expressions that are not walked (constants, types, nil, names
    of functions, types and packages) are one case. Labels and locations are left out, and so are the variables that a type
    switch defines anew in each clause. [map_key]: the key is that of a map, and can hold references. *)
From Verif Require Import GoBase.
Local Open Scope nat_scope.
Open Scope list_scope.

(** ** The graph *)
Inductive key := KNode (id : nat) | KVar (x : nat).
Definition key_eqb (a b : key) : bool := match a, b with KNode i, KNode j => Nat.eqb i j | KVar i, KVar j => Nat.eqb i j | _, _ => false end.
Inductive kind := Block | Function | Goroutine | Containment.
Record flags := { f_block : bool; f_function : bool; f_goroutine : bool; f_containment : bool }.
Definition flag (k : kind) (f : flags) : bool := match k with Block => f_block f | Function => f_function f | Goroutine => f_goroutine f | Containment => f_containment f end.
Definition no_flags : flags := {| f_block := false; f_function := false; f_goroutine := false; f_containment := false |}.
Definition or_flags (a b : flags) : flags :=
  {| f_block := f_block a || f_block b; f_function := f_function a || f_function b; f_goroutine := f_goroutine a || f_goroutine b; f_containment := f_containment a || f_containment b |}.
(** analysis.go:99-103 *)
Record plan := { p_flags : flags; p_with : list key }.
Definition no_plan : plan := {| p_flags := no_flags; p_with := [] |}.
Definition member (k : key) (l : list key) : bool := existsb (key_eqb k) l.
(** analysis.go:105-125 [plan.route] *)
Definition add_key (l : list key) (k : key) : list key := if member k l then l else l ++ [k].
Definition merge (p via : plan) : plan := {| p_flags := or_flags (p_flags p) (p_flags via); p_with := fold_left add_key (p_with via) (p_with p) |}.
Definition graph := list (key * plan).
Definition find_plan (g : graph) (k : key) : option plan := match find (fun e => key_eqb (fst e) k) g with Some e => Some (snd e) | None => None end.
Definition plan_of (g : graph) (k : key) : plan := match find_plan g k with Some p => p | None => no_plan end.
Definition set_plan (g : graph) (k : key) (p : plan) : graph := (k, p) :: g.
(** analysis.go:31-34 [Route] *)
Definition route (g : graph) (k : key) (f : flags) : graph := set_plan g k (merge (plan_of g k) {| p_flags := f; p_with := [] |}).
(** analysis.go:38-46 [Together], 50-53 of [InformationForDefinedVariable] (whose keys are never the same) *)
Definition together (g : graph) (a b : key) : graph :=
  if key_eqb a b then g
  else let g := set_plan g a (merge (plan_of g a) {| p_flags := no_flags; p_with := [b] |}) in
       set_plan g b (merge (plan_of g b) {| p_flags := no_flags; p_with := [a] |}).
(** analysis.go:82-97 [get]: the list of accomplices is that of before the loop, each answer is stored. [None]: out of fuel. *)
Fixpoint visit (get : graph -> key -> list key -> option (plan * graph * list key)) (l : list key) (p : plan) (g : graph) (seen : list key) : option (plan * graph * list key) :=
  match l with
  | [] => Some (p, g, seen)
  | a :: l => match get g a seen with None => None | Some (q, g, seen) => visit get l (merge p q) g seen end
  end.
Fixpoint get (fuel : nat) (g : graph) (k : key) (seen : list key) : option (plan * graph * list key) :=
  match fuel with
  | O => None
  | S f =>
      if member k seen then Some (no_plan, g, seen)
      else match find_plan g k with
      | None => Some (no_plan, g, k :: seen)
      | Some p => match visit (get f) (p_with p) p g (k :: seen) with None => None | Some (p, g, seen) => Some (p, set_plan g k p, seen) end
      end
  end.
(** analysis.go:54-79: the functions that answer, each with an empty set of nodes seen. *)
Definition ask (g : graph) (k : key) (q : kind) : option (bool * graph) :=
  match get (S (S (List.length g))) g k [] with None => None | Some (p, g, _) => Some (flag q (p_flags p), g) end.

(** ** Source *)
Inductive expr :=
| EConst (id : nat)
| EVar (id x : nat) (global : bool)
| EBinary (id : nat) (a b : expr) | EIndex (id : nat) (map_key : bool) (a i : expr) | EIndices (id : nat) (a : expr) (l : exprs)
| EKeyValue (id : nat) (map_key : bool) (k v : expr) | EParen (id : nat) (e : expr) | ESelect (id : nat) (e sel : expr)
| ESlice (id : nat) (e : expr) (bounds : exprs) | EStar (id : nat) (e : expr) | EAssert (id : nat) (e : expr) | EUnary (id : nat) (e : expr)
| EExpand (id : nat) (e : expr) | EComposite (id : nat) (l : exprs) | EFunc (id : nat) (body : stmts)
| EAwait (id : nat) (refs : bool) (e : expr)           (* refs: what is received can hold references *)
| ECall (id : nat) (refs : bool) (f : expr) (args : exprs) (* refs: the results can hold references *)
with exprs := ENil | ECons (e : expr) (l : exprs)
with stmt :=
| SNop | SAssign (l : pairs) (more : exprs) (* variables and values in pairs, more variables when the one value is a call's *) | SBlock (l : stmts) | SDefine (id x : nat) (v : exprs) | SExpr (e : expr)
| SDefer (refs : bool) (f : expr) (args : exprs) | SGo (refs : bool) (f : expr) (args : exprs)
| SIf (init : stmts) (c : expr) (body els : stmts) | SFor (init : stmts) (c : exprs) (post body : stmts) | SLabel (s : stmt)
| SRange (vars : list nat) (e : expr) (body : stmts) | SReturn (l : results) | SSend (ch v : expr)
| SSwitch (init : stmts) (v : exprs) (cases : clauses) (* switches, of values and of types, and select *)
with stmts := SNil | SCons (s : stmt) (l : stmts)
with pairs := PNil | PCons (x v : expr) (l : pairs)
with results := RNil | RCons (byref refs : bool) (e : expr) (l : results) (* byref: a kind analysis.go:183-189 lists; refs: can hold references *)
with clauses := CNil | CCons (l : exprs) (body : stmts) (r : clauses).
Definition id_of (e : expr) : nat :=
  match e with
  | EConst id | EVar id _ _ | EBinary id _ _ | EIndex id _ _ _ | EIndices id _ _ | EKeyValue id _ _ _ | EParen id _ | ESelect id _ _
  | ESlice id _ _ | EStar id _ | EAssert id _ | EUnary id _ | EExpand id _ | EComposite id _ | EFunc id _ | EAwait id _ _ | ECall id _ _ _ => id
  end.
Definition node (e : expr) : key := KNode (id_of e).
(** What the walk does to the graph. *)
Inductive op := ORoute (k : key) (f : flags) | OLink (a b : key).
Definition with_ (a b : expr) : op := OLink (node a) (node b).
Definition all_flags : flags := {| f_block := true; f_function := true; f_goroutine := true; f_containment := true |}.
Definition function_flag : flags := {| f_block := false; f_function := true; f_goroutine := false; f_containment := false |}.
(** scoping.go: not implemented *)
Definition is_outer_scope : bool := false.
Definition is_function_defined : bool := false.
(** analysis.go:199-213 [isGlobal] *)
Definition is_global (e : expr) : bool := match e with EVar _ _ g => g | ESelect _ _ (EVar _ _ g) => g | _ => false end.
(** scanner.go, relation.go, analysis.go:129-197: RoutesFor... *)
Fixpoint walk (e : expr) : list op :=
  match e with
  | EConst _ => []
  | EVar id x _ => [OLink (KVar x) (KNode id)]
  | EBinary _ a b => walk a ++ walk b ++ [with_ e a; with_ e b]
  | EIndex _ _ a i => walk a ++ walk i ++ [with_ e a]
  | EIndices _ a l => walk a ++ walks l ++ [with_ e a]
  | EKeyValue _ _ k v => walk k ++ walk v ++ [with_ e v]
  | EParen _ a => walk a ++ [with_ e a]
  | ESelect _ a sel => walk a ++ walk sel ++ [with_ e a; with_ e sel]
  | ESlice _ a l => walk a ++ walks l ++ [with_ e a]
  | EStar _ a => walk a ++ [with_ e a]
  | EAssert _ a => walk a ++ [with_ e a]
  | EUnary _ a => walk a ++ [with_ e a]
  | EExpand _ a => walk a ++ [with_ e a]
  | EComposite _ l => walk_elements e l
  | EFunc _ body => walk_stmts body
  | EAwait _ _ a => walk a
  | ECall _ _ f args => walk f ++ walk_args args
  end
with walks (l : exprs) : list op := match l with ENil => [] | ECons e l => walk e ++ walks l end
with walk_elements (c : expr) (l : exprs) : list op := match l with ENil => [] | ECons e l => with_ c e :: walk e ++ walk_elements c l end
with walk_args (l : exprs) : list op := match l with ENil => [] | ECons e l => ORoute (node e) all_flags :: walk e ++ walk_args l end
with walk_vars (l : pairs) : list op := match l with PNil => [] | PCons x _ l => walk x ++ walk_vars l end (* analysis.go:155-157 *)
with walk_values (l : pairs) : list op := (* analysis.go:158-166 *)
  match l with
  | PNil => []
  | PCons x v l =>
      ORoute (node v) {| f_block := is_outer_scope; f_function := is_function_defined; f_goroutine := false; f_containment := is_global x |} :: with_ x v :: walk v ++ walk_values l
  end
with walk_stmt (s : stmt) : list op :=
  match s with
  | SNop => []
  | SAssign l more => walk_vars l ++ walks more ++ walk_values l
  | SBlock l => walk_stmts l
  | SDefine id x _ => [OLink (KVar x) (KNode id)]
  | SExpr e => walk e
  | SDefer _ f args => walk f ++ walk_args args
  | SGo _ f args => walk f ++ walk_args args
  | SIf init c body els => walk_stmts init ++ walk c ++ walk_stmts body ++ walk_stmts els
  | SFor init c post body => walk_stmts init ++ walks c ++ walk_stmts post ++ walk_stmts body
  | SLabel s => walk_stmt s
  | SRange _ e body => walk e ++ walk_stmts body
  | SReturn l => walk_results l
  | SSend ch v => walk ch ++ walk v ++ [with_ ch v]
  | SSwitch init v cases => walk_stmts init ++ walks v ++ walk_clauses cases
  end
with walk_stmts (l : stmts) : list op := match l with SNil => [] | SCons s l => walk_stmt s ++ walk_stmts l end
with walk_results (l : results) : list op := match l with RNil => [] | RCons byref _ e l => (if byref then [ORoute (node e) function_flag] else []) ++ walk e ++ walk_results l end
with walk_clauses (c : clauses) : list op := match c with CNil => [] | CCons l body r => walks l ++ walk_stmts body ++ walk_clauses r end.
Definition apply (g : graph) (o : op) : graph := match o with ORoute k f => route g k f | OLink a b => together g a b end.
(** analysis.go:14-20 [Analysis] of the bodies of all functions of a package *)
Definition analysis (p : stmts) : graph := fold_left apply (walk_stmts p) [].
(** allocations.go:5-10 [StackAllocated] of a variable that is not global: four questions, one after the other *)
Definition stack_allocated (g : graph) (x : nat) : option (bool * graph) :=
  match ask g (KVar x) Function with
  | Some (true, g) => Some (false, g)
  | Some (false, g) =>
      match ask g (KVar x) Block with
      | Some (true, g) => Some (false, g)
      | Some (false, g) =>
          match ask g (KVar x) Goroutine with
          | Some (true, g) => Some (false, g)
          | Some (false, g) => match ask g (KVar x) Containment with Some (b, g) => Some (negb b, g) | None => None end
          | None => None
          end
      | None => None
      end
  | None => None
  end.
