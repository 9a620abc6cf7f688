(** * api/rest/code.go, code.js: the JavaScript client of an API. *)
From Coq Require Import String Permutation.
From Verif Require Import GoBase GoText.
Open Scope list_scope.
Open Scope Z_scope.

Inductive meth := MGet | MPost | MPut | MDelete | MPatch | MOptions.
Definition meth_eqb (a b : meth) : bool :=
  match a, b with MGet, MGet | MPost, MPost | MPut, MPut | MDelete, MDelete | MPatch, MPatch | MOptions, MOptions => true | _, _ => false end.
Definition meth_text (m : meth) : bytes :=
  match m with MGet => text "GET" | MPost => text "POST" | MPut => text "PUT" | MDelete => text "DELETE" | MPatch => text "PATCH" | MOptions => text "OPTIONS" end.
(** a path item: which operations it has (code.go:39-59: the operations themselves are
    only compared with nil) *)
Definition item := meth -> bool.
(** code.go:17-22 [node]: path and base follow from the keys above it, so they are not kept *)
Inductive node := Node (it : item) (elem : list (bytes * node)).
Definition n_item (n : node) : item := match n with Node it _ => it end.
Definition n_elem (n : node) : list (bytes * node) := match n with Node _ e => e end.
Definition new_node : node := Node (fun _ => false) [].
(** a Go map from names to nodes *)
Fixpoint assoc (k : bytes) (l : list (bytes * node)) : option node :=
  match l with [] => None | (x, n) :: r => if beq x k then Some n else assoc k r end.
Fixpoint at_key (f : node -> node) (k : bytes) (l : list (bytes * node)) : list (bytes * node) :=
  match l with
  | [] => [(k, f new_node)]
  | (x, n) :: r => if beq x k then (x, f n) :: r else (x, n) :: at_key f k r
  end.
(** code.go:30-60 [addItem], on the elements of the path after the first *)
Fixpoint add_item (segs : list bytes) (it : item) (n : node) : node :=
  match segs with
  | [] => Node (fun m => n_item n m || it m) (n_elem n)
  | k :: r => Node (n_item n) (at_key (add_item r it) k (n_elem n))
  end.
(** code.go:73-81; the order of the paths does not matter. Simplification: a path is the list
    of its elements. *)
Definition document := list (list bytes * item).
Definition tree_of (d : document) : node := fold_left (fun n '(p, it) => add_item p it n) d new_node.

(** ** The program *)
(** The statements written: [client.a.b = {};], [client.a.b = function(value) {...};], and the
    functions of the methods with the URL after [path]. Simplification: statements, not their
    text (elements that are not JavaScript names make the text no program at all). *)
Inductive stmt :=
| SNew (p : list bytes)
| SVar (p : list bytes)
| SCall (p : list bytes) (m : meth) (url : bytes).
Definition variable (k : bytes) : bool := has_prefix k [123].
(** the path of a node: strings.Join(elems, "/") *)
Definition url_of (p : list bytes) : bytes := flat_map (fun k => 47 :: k) p.
Definition all_methods : list meth := [MGet; MPost; MPut; MDelete; MPatch; MOptions].
(** code.go:90-164, at nesting 0: what is written for one node before its elements *)
Definition head (p : list bytes) (n : node) : list stmt :=
  (match p with [] => [] | _ => [if existsb (fun kn => variable (fst kn)) (n_elem n) then SVar p else SNew p] end) ++
  map (fun m => SCall p m (url_of p)) (filter (n_item n) all_methods).
(** code.go:82-172 [walk]: Go visits the elements of a map in any order *)
Inductive walked : list bytes -> node -> list stmt -> Prop :=
| walked_node p n order prog :
    Permutation order (filter (fun kn => negb (variable (fst kn))) (n_elem n)) ->
    walked_all p order prog -> walked p n (head p n ++ prog)
with walked_all : list bytes -> list (bytes * node) -> list stmt -> Prop :=
| walked_none p : walked_all p [] []
| walked_one p k n r a b : walked (p ++ [k]) n a -> walked_all p r b -> walked_all p ((k, n) :: r) (a ++ b).

(** ** Running it *)
(** What is assigned: objects, the functions of parameters, the functions of methods. *)
Inductive val := VObj | VParam | VMeth (m : meth) (url : bytes).
Definition store := list (list bytes * val).
Fixpoint leqb (a b : list bytes) : bool :=
  match a, b with [], [] => true | x :: a, y :: b => beq x y && leqb a b | _, _ => false end.
Fixpoint under (a p : list bytes) : bool :=
  match a, p with [], _ => true | x :: a, y :: p => beq x y && under a p | _, _ => false end.
Fixpoint find_val (p : list bytes) (s : store) : option val :=
  match s with [] => None | (q, v) :: r => if leqb q p then Some v else find_val p r end.
(** An assignment needs the object above it, and what was below is lost. [None]: an error. *)
Definition assign (p : list bytes) (v : val) (s : store) : option store :=
  match removelast p, find_val (removelast p) s with
  | [], _ => Some ((p, v) :: filter (fun qv => negb (under p (fst qv))) s)
  | _, Some _ => Some ((p, v) :: filter (fun qv => negb (under p (fst qv))) s)
  | _, None => None
  end.
Definition target (st : stmt) : list bytes := match st with SNew p => p | SVar p => p | SCall p m _ => p ++ [meth_text m] end.
Definition value_of (st : stmt) : val := match st with SNew _ => VObj | SVar _ => VParam | SCall _ m u => VMeth m u end.
Fixpoint run (prog : list stmt) (s : store) : option store :=
  match prog with
  | [] => Some s
  | st :: r => match assign (target st) (value_of st) s with Some s => run r s | None => None end
  end.
(** Calling what is at a path: code.go:104-107 reads [path] in the declaration that hides it
    (a ReferenceError), code.go:127-134 reads [object], which is declared nowhere, and the
    other methods (code.go:147-163) fetch. *)
Inductive effect := Fetch (m : meth) (url : bytes) | ReferenceError | TypeError.
Definition call (host : bytes) (s : store) (p : list bytes) : effect :=
  match find_val p s with
  | Some (VMeth MGet _) => ReferenceError
  | Some (VMeth m u) => Fetch m (host ++ u)
  | Some VParam => ReferenceError
  | _ => TypeError
  end.
(** code.js: what becomes of a response *)
Inductive settled := Resolved | ResolvedNull | Rejected.
Definition wrap (status : Z) : settled :=
  if (200 <? status) && (status <? 300) then if status =? 204 then ResolvedNull else Resolved else Rejected.

(** ** Below a parameter (code.go:88-98): at a nesting above 0 the URL of a node is [path] and
    only its own element *)
Definition nested_url (value_path : bytes) (p : list bytes) : bytes :=
  value_path ++ match rev p with [] => [] | k :: _ => 47 :: k end.
