(** C128: what it means for the storage of a variable to be referred to from where it must not be.

    The source of EscModel.v is read as a program that moves references about. Memory is made of the storage of variables, of
    what composite literals allocate, and of one place for everything outside of the package. What is known of it is which
    place can hold a reference to which. Atoms of the program take place in any order and any number of times: this covers
    every path through the functions of the package, loops, recursion and goroutines. *)
From Verif Require Import GoBase EscModel.
Local Open Scope nat_scope.
Open Scope list_scope.

Inductive place := PVar (x : nat) | PNew (id n : nat) | POutside.
Definition memory := place -> place -> Prop.
Inductive reach (s : memory) : place -> place -> Prop := reach_refl a : reach s a a | reach_step a b c : reach s a b -> s b c -> reach s a c.

(** The variables a piece of source mentions. *)
Fixpoint vars (e : expr) : list nat :=
  match e with
  | EConst _ => [] | EVar _ x _ => [x]
  | EBinary _ a b | EIndex _ _ a b | EKeyValue _ _ a b | ESelect _ a b => vars a ++ vars b
  | EIndices _ a l | ESlice _ a l | ECall _ _ a l => vars a ++ vars_list l
  | EParen _ a | EStar _ a | EAssert _ a | EUnary _ a | EExpand _ a | EAwait _ _ a => vars a
  | EComposite _ l => vars_list l | EFunc _ body => vars_stmts body
  end
with vars_list (l : exprs) : list nat := match l with ENil => [] | ECons e l => vars e ++ vars_list l end
with vars_stmt (s : stmt) : list nat :=
  match s with
  | SNop => [] | SAssign a b => vars_pairs a ++ vars_list b | SBlock l => vars_stmts l | SDefine _ x v => x :: vars_list v | SExpr e => vars e
  | SDefer _ f l | SGo _ f l => vars f ++ vars_list l
  | SIf a c b d => vars_stmts a ++ vars c ++ vars_stmts b ++ vars_stmts d | SFor a c b d => vars_stmts a ++ vars_list c ++ vars_stmts b ++ vars_stmts d
  | SLabel s => vars_stmt s | SRange l e b => l ++ vars e ++ vars_stmts b | SReturn l => vars_results l | SSend a b => vars a ++ vars b
  | SSwitch a v c => vars_stmts a ++ vars_list v ++ vars_clauses c
  end
with vars_stmts (l : stmts) : list nat := match l with SNil => [] | SCons s l => vars_stmt s ++ vars_stmts l end
with vars_pairs (l : pairs) : list nat := match l with PNil => [] | PCons x v l => vars x ++ vars v ++ vars_pairs l end
with vars_results (l : results) : list nat := match l with RNil => [] | RCons _ _ e l => vars e ++ vars_results l end
with vars_clauses (c : clauses) : list nat := match c with CNil => [] | CCons l b r => vars_list l ++ vars_stmts b ++ vars_clauses r end.

(** [value s e m]: the value of e can hold a reference to m. [storage s e m]: e can denote storage in m. *)
Definition contents (s : memory) (v : place -> Prop) (m : place) : Prop := exists k, v k /\ s k m.
Fixpoint value (s : memory) (e : expr) (m : place) : Prop :=
  match e with
  | EConst _ => False
  | EVar _ x _ => s (PVar x) m
  | EBinary _ a b => value s a m \/ value s b m
  | EIndex _ _ a _ => value s a m \/ contents s (value s a) m
  | EIndices _ a _ | EParen _ a | EAssert _ a | EExpand _ a => value s a m
  | EKeyValue _ map_key k v => value s v m \/ (map_key = true /\ value s k m)
  | ESelect _ a sel => value s a m \/ contents s (value s a) m \/ storage s a m \/ value s sel m (* of a field, of a pointer's field, of a method, of a package *)
  | ESlice _ a _ => value s a m \/ storage s a m (* of an array: its address *)
  | EStar _ a => contents s (value s a) m
  | EUnary _ a => value s a m \/ storage s a m (* & *)
  | EComposite id l => (exists n, m = PNew id n) \/ values s l m
  | EFunc _ body => exists x, In x (vars_stmts body) /\ m = PVar x (* captured *)
  | EAwait _ refs a => refs = true /\ contents s (value s a) m
  | ECall _ refs f l => refs = true /\ (m = POutside \/ exists k, (value s f k \/ values s l k) /\ reach s k m)
  end
with storage (s : memory) (e : expr) (m : place) : Prop :=
  match e with
  | EVar _ x _ => m = PVar x
  | EIndex _ _ a _ => storage s a m \/ value s a m
  | EParen _ a => storage s a m
  | ESelect _ a sel => storage s a m \/ value s a m \/ storage s sel m
  | EStar _ a => value s a m
  | EComposite id _ => exists n, m = PNew id n
  | _ => False
  end
with values (s : memory) (l : exprs) (m : place) : Prop := match l with ENil => False | ECons e l => value s e m \/ values s l m end.

(** What a program is made of. *)
Inductive atom := AAssign (x v : expr) | ADefine (x : nat) (v : exprs) | ARange (x : list nat) (e : expr) | ASend (ch v : expr)
  | ACall (f : expr) (l : exprs) | ANew (id : nat) (l : exprs) | AReturn (byref refs : bool) (e : expr).
Fixpoint atoms (e : expr) : list atom :=
  match e with
  | EConst _ | EVar _ _ _ => []
  | EBinary _ a b | EIndex _ _ a b | EKeyValue _ _ a b | ESelect _ a b => atoms a ++ atoms b
  | EIndices _ a l | ESlice _ a l => atoms a ++ atoms_list l
  | EParen _ a | EStar _ a | EAssert _ a | EUnary _ a | EExpand _ a | EAwait _ _ a => atoms a
  | EComposite id l => ANew id l :: atoms_list l
  | EFunc _ body => atoms_stmts body
  | ECall _ _ f l => ACall f l :: atoms f ++ atoms_list l
  end
with atoms_list (l : exprs) : list atom := match l with ENil => [] | ECons e l => atoms e ++ atoms_list l end
with atoms_stmt (s : stmt) : list atom :=
  match s with
  | SNop => [] | SAssign a b => atoms_pairs a ++ atoms_list b | SBlock l => atoms_stmts l
  | SDefine _ x v => ADefine x v :: atoms_list v | SExpr e => atoms e
  | SDefer _ f l | SGo _ f l => ACall f l :: atoms f ++ atoms_list l
  | SIf a c b d => atoms_stmts a ++ atoms c ++ atoms_stmts b ++ atoms_stmts d | SFor a c b d => atoms_stmts a ++ atoms_list c ++ atoms_stmts b ++ atoms_stmts d
  | SLabel s => atoms_stmt s | SRange l e b => ARange l e :: atoms e ++ atoms_stmts b | SReturn l => atoms_results l
  | SSend a b => ASend a b :: atoms a ++ atoms b
  | SSwitch a v c => atoms_stmts a ++ atoms_list v ++ atoms_clauses c
  end
with atoms_stmts (l : stmts) : list atom := match l with SNil => [] | SCons s l => atoms_stmt s ++ atoms_stmts l end
with atoms_pairs (l : pairs) : list atom := match l with PNil => [] | PCons x v l => AAssign x v :: atoms x ++ atoms v ++ atoms_pairs l end
with atoms_results (l : results) : list atom := match l with RNil => [] | RCons byref refs e l => AReturn byref refs e :: atoms e ++ atoms_results l end
with atoms_clauses (c : clauses) : list atom := match c with CNil => [] | CCons l b r => atoms_list l ++ atoms_stmts b ++ atoms_clauses r end.

Section Program.
(** Which variables are those of the package, which are parameters, results and receivers that can hold references. *)
Variable global param : nat -> bool.

Definition outer (m : place) : Prop := m = POutside \/ exists x, m = PVar x /\ global x = true.
(** What a function that is called can get at: what it is given and what is outside. *)
Definition given (s : memory) (f : expr) (l : exprs) (m : place) : Prop := exists k, (outer k \/ value s f k \/ values s l k) /\ reach s k m.
(** The key of a map that is assigned to is stored too. *)
Fixpoint stored_key (e : expr) : option expr := match e with EIndex _ true _ i => Some i | EParen _ e => stored_key e | _ => None end.
(** The references that an atom can store: [adds s a k m]: one to m in k. *)
Definition adds (s : memory) (a : atom) (k m : place) : Prop :=
  match a with
  | AAssign x v => storage s x k /\ (value s v m \/ exists i, stored_key x = Some i /\ value s i m)
  | ADefine x v => k = PVar x /\ values s v m
  | ARange l e => (exists x, In x l /\ k = PVar x) /\ (value s e m \/ contents s (value s e) m)
  | ASend ch v => value s ch k /\ value s v m
  | ACall f l => given s f l k /\ given s f l m
  | ANew id l => (exists n, k = PNew id n) /\ values s l m
  | AReturn _ _ _ => False
  end.
(** At first the variables of the package and the parameters refer to what is outside. *)
Definition initial (s : memory) : Prop := forall k m, s k m -> m = POutside /\ exists x, k = PVar x /\ (global x = true \/ param x = true).
Inductive reachable (p : stmts) : memory -> Prop :=
| reachable_initial s : initial s -> reachable p s
| reachable_step s (s' : memory) a : reachable p s -> In a (atoms_stmts p) -> (forall k m, s' k m -> s k m \/ adds s a k m) -> reachable p s'.
(** The storage of a variable is referred to from outside, is handed to a function, or is returned. *)
Definition leaked (p : stmts) (s : memory) (x : nat) : Prop :=
  (exists k, outer k /\ reach s k (PVar x))
  \/ (exists f l, In (ACall f l) (atoms_stmts p) /\ given s f l (PVar x))
  \/ (exists byref e k, In (AReturn byref true e) (atoms_stmts p) /\ value s e k /\ reach s k (PVar x)).
End Program.
