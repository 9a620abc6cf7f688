(** * api/rest: the forms of a resource
    (api/rest/form.go:22-86, 87-139; host.go:625-682, 925-957; rest.go:355-425, 455-478).

    A type is whatever is given for T, its schema (docs.go:443, C124, C125) whatever [sch]
    makes of it; names are numbers, that of an argument without one is 0. What the page has
    besides titles and forms (script, styles, documentation) and cross-origin headers are
    left out; errors of encoding too. *)
From Coq Require Import List Arith Bool.
Import ListNotations.

Inductive method := GET | POST | PUT | DELETE | Other (name : nat).   (* PATCH, HEAD, OPTIONS, ... *)
Definition method_eqb (a b : method) : bool :=
  match a, b with
  | GET, GET | POST, POST | PUT, PUT | DELETE, DELETE => true
  | Other x, Other y => x =? y
  | _, _ => false
  end.
Inductive location := Body | Elsewhere.     (* in the path or the query *)
Record param (T : Type) := { pname : nat; loc : location; ptype : T }.
Arguments pname {T}. Arguments loc {T}. Arguments ptype {T}.
Record operation (T : Type) := { oname : nat; params : list (param T); mapping : bool; html : bool }.
Arguments oname {T}. Arguments params {T}. Arguments mapping {T}. Arguments html {T}.

(** rest.go:455-478: the names of body arguments are those of the rules, in order *)
Fixpoint parse_body {T} (ps : list (param T)) (rules : list nat) : option (list (param T)) :=
  match ps with
  | [] => Some []
  | p :: r =>
      match loc p with
      | Elsewhere => option_map (cons p) (parse_body r rules)
      | Body =>
          match rules with
          | [] => None
          | n :: rest => option_map (cons {| pname := n; loc := Body; ptype := ptype p |}) (parse_body r rest)
          end
      end
  end.
Definition in_body {T} (ps : list (param T)) : list (param T) := filter (fun p => match loc p with Body => true | Elsewhere => false end) ps.
(** rest.go:361-421 *)
Definition load {T} (name : nat) (is_html : bool) (args : list (param T)) (rules : list nat) : option (operation T) :=
  match rules with
  | [] => Some {| oname := name; params := args; mapping := 1 <? length (in_body args); html := is_html |}
  | _ =>
      match parse_body args rules with
      | Some ps => if length rules =? length (in_body args) then Some {| oname := name; params := ps; mapping := true; html := is_html |} else None
      | None => None
      end
  end.

Definition resource (T : Type) := list (method * operation T).
Fixpoint lookup {T} (res : resource T) (m : method) : option (operation T) :=
  match res with [] => None | (k, o) :: r => if method_eqb k m then Some o else lookup r m end.
(** form.go:28-36 *)
Definition order : list method := [GET; POST; PUT; DELETE].
Definition shown {T} (res : resource T) : list (method * operation T) :=
  flat_map (fun m => match lookup res m with Some o => [(m, o)] | None => [] end) order.
(** A tab: checked, its title; a form: its method *)
Record page := { tabs : list (bool * nat); forms : list method }.
Definition page_of {T} (res : resource T) : page :=
  {| tabs := match shown res with [] => [] | (_, o) :: r => (true, oname o) :: map (fun x => (false, oname (snd x))) r end;   (* form.go:105-112 *)
     forms := map fst (shown res) |}.

(** An object, in which later properties of a name take the place of earlier ones; the schema
    of a type; one that says nothing. *)
Inductive schema (S : Type) := Object (props : list (nat * S)) | Whole (s : S) | Nothing.
Arguments Object {S}. Arguments Whole {S}. Arguments Nothing {S}.
(** form.go:42-64; the operation that is not there has no parameters *)
Definition form_schema {T S} (sch : T -> S) (o : option (operation T)) : schema S :=
  match o with
  | None => Nothing
  | Some o =>
      if mapping o then Object (map (fun p => (pname p, sch (ptype p))) (in_body (params o)))
      else match in_body (params o) with p :: _ => Whole (sch (ptype p)) | [] => Nothing end
  end.

(** What the Accept header contains; the method query parameter. *)
Record request := { wants_schema : bool; wants_html : bool; query : option method }.
Inductive response (T S : Type) := BadRequest | NotFound | NotAllowed | Denied | Schema (s : schema S) | Page (p : page) | Run (o : operation T).
Arguments BadRequest {T S}. Arguments NotFound {T S}. Arguments NotAllowed {T S}. Arguments Denied {T S}. Arguments Schema {T S}. Arguments Page {T S}. Arguments Run {T S}.
Definition form {T S} (sch : T -> S) (res : resource T) (r : request) : response T S :=
  if wants_schema r then match query r with None => BadRequest | Some m => Schema (form_schema sch (lookup res m)) end
  else if wants_html r then Page (page_of res) else NotFound.
(** host.go:671-682, 949-955; [allowed]: whether Authenticate lets this request at the
    operation *)
Definition serve {T S} (sch : T -> S) (allowed : operation T -> bool) (res : resource T) (m : method) (r : request) : response T S :=
  match lookup res m with
  | Some o =>
      if negb (allowed o) then Denied
      else if (negb (html o) && method_eqb m GET && wants_html r) || wants_schema r then form sch res r else Run o
  | None => if method_eqb m GET then form sch res r else NotAllowed
  end.
