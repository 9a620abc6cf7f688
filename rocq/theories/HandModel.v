(** * api/rest/host.go: the endpoints [Handlers] yields. *)
From Coq Require Import String Permutation.
From Verif Require Import GoBase GoText.
Open Scope list_scope.
Open Scope Z_scope.

(** A format: the text around its one %s. Simplification: no other verbs. *)
Definition format := (bytes * bytes)%type.
Definition sprintf (f : format) (x : bytes) : bytes := fst f ++ x ++ snd f.
(** host.go:354-366: a segment in braces is formatted *)
Definition convert_part (param remainder : format) (part : bytes) : bytes :=
  if has_prefix part [123] && has_suffix part [125]
  then sprintf (if has_suffix part [42] then remainder else param) (firstn (List.length part - 2) (skipn 1 part))
  else part.
(** host.go:350-369: unless the format is "{%s}" *)
Definition braces : format := ([123], [125]).
Definition convert (param remainder : format) (pattern : bytes) : bytes :=
  if beq (fst param) (fst braces) && beq (snd param) (snd braces) then pattern else
  let '(method, path, _) := cut pattern 32 in
  method ++ 32 :: join (map (convert_part param remainder) (split path 47)) 47.

(** What serves an endpoint: the page of the API, that of an example, the operation, the
    answers to OPTIONS (host.go:646-649 and 939-943), and the form of a resource (948-951),
    which asks for no authentication. *)
Inductive handler := HIndex | HExample | HOp (path method : bytes) | HCors | HNoContent | HForm.
Definition pattern (method path : bytes) : bytes := method ++ 32 :: path.
Definition is_method (a b : bytes) : bool := beq a b.
(** host.go:634-934: an operation *)
Definition of_operation (path m : bytes) : list (bytes * handler) :=
  (if beq m (text "GET") then [(pattern (text "OPTIONS") path, HCors)] else []) ++ [(pattern m path, HOp path m)].
(** host.go:631-957 [attach]: a resource whose operations are visited in the order [ms] *)
Definition of_resource (path : bytes) (ms : list bytes) : list (bytes * handler) :=
  flat_map (of_operation path) ms ++
  (if existsb (beq (text "OPTIONS")) ms then [] else [(pattern (text "OPTIONS") path, HNoContent)]) ++
  (if existsb (beq (text "GET")) ms then [] else [(pattern (text "GET") path, HForm)]).
Definition of_resources (l : list (bytes * list bytes)) : list (bytes * handler) := flat_map (fun '(p, ms) => of_resource p ms) l.
(** host.go:328-530 [Handlers]: Go visits the maps in any order *)
Definition spec := list (bytes * list bytes).
Definition same_spec (a b : spec) : Prop := exists c, Permutation a c /\ Forall2 (fun x y => fst x = fst y /\ Permutation (snd x) (snd y)) c b.
Definition handlers (param remainder : format) (examples : bool) (order : spec) : list (bytes * handler) :=
  map (fun '(p, h) => (convert param remainder p, h))
    ((pattern (text "GET") (text "/"), HIndex) ::
     (if examples then [(pattern (text "GET") (text "/examples/{name}"), HExample)] else []) ++ of_resources order).
(** host.go:533-545, path.go:19-53 [Handler]: of several handlers of one pattern the last serves *)
Fixpoint serving (pat : bytes) (l : list (bytes * handler)) : option handler :=
  match l with
  | [] => None
  | (p, h) :: r => match serving pat r with Some h => Some h | None => if beq p pat then Some h else None end
  end.
