(** Model of the OpenAPI document a REST server publishes: schemas of types (api/rest/docs.go:338-641 with
    the registry of api/internal/oas/oas.go:440-473), and encoding/json of values of those types.

    Simplifications: a defined type is a number in an environment that gives its package, its name and its
    underlying type; an embedded struct is given by its fields (Go has no struct that contains itself).
    Of a struct tag only the value under json is kept. Titles, descriptions, formats, examples, constants and
    the methods TypeJSON, TypesJSON, ValuesJSON, Min and Max are not modelled; a type that marshals itself as
    text is [TText]. Channels, iterators and has.Documentation fields are not modelled. Names of types
    have no type parameters. Bounds that are floating point numbers in the schema are integers here
    (18446744073709551615.0 is one more in the code). *)
From Coq Require Import String.
From Verif Require Import GoBase GoText.
Open Scope list_scope.

(** ** Types *)
Inductive ty :=
| TBool | TInt (signed : bool) (width : Z) (* width 0: int and uint *) | TFloat | TString | TText | TAny
| TNamed (id : nat) | TPtr (t : ty) | TSlice (t : ty) | TArray (n : nat) (t : ty) | TMap (k v : ty) | TStruct (fs : list field)
with field :=
| Field (exported : bool) (name tag : bytes) (t : ty)
| Embed (exported : bool) (name tag : bytes) (fs : list field).
Record decl := { d_pkg : bytes; d_name : bytes; d_under : ty }.

(** ** Schemas (oas.go:313-385) *)
Inductive jtype := JTBool | JTInteger | JTNumber | JTString | JTArray | JTObject.
Definition key := (bytes * bytes)%type.
Inductive schema := Schema (ref : option key) (typ : option jtype) (props : list (bytes * schema)) (required : list bytes)
  (items : option schema) (max_items : nat) (* 0: none *) (minimum maximum : option Z) (prop_names additional : option schema).
Definition empty_schema : schema := Schema None None [] [] None 0 None None None None.
Definition of_type (t : jtype) : schema := Schema None (Some t) [] [] None 0 None None None None.
Definition ranged (lo hi : option Z) : schema := Schema None (Some JTInteger) [] [] None 0 lo hi None None.
Definition ref_to (k : key) : schema := Schema (Some k) None [] [] None 0 None None None None.
Definition key_eqb (a b : key) : bool := beq (fst a) (fst b) && beq (snd a) (snd b).
Definition registry := list (key * schema).
Definition reg_get (r : registry) (k : key) : option schema :=
  match find (fun '(k', _) => key_eqb k' k) r with Some (_, s) => Some s | None => None end.
(** oas.go:459-473 [Document.Register]: a later registration is the one that counts *)
Definition reg_set (k : key) (s : schema) (r : registry) : registry := (k, s) :: r.
Definition prop_get (l : list (bytes * schema)) (n : bytes) : option schema :=
  match find (fun '(n', _) => beq n' n) l with Some (_, s) => Some s | None => None end.

(** docs.go:414-432 [cleanup] of a name without type parameters, 434-437 [namespaceName]; path.Base *)
Definition path_base (s : bytes) : bytes := match s with [] => [46] | _ => last (split s 47) [] end.
Definition cleanup (name : bytes) : bytes :=
  let parent := if contains name [47] then path_base name else name in
  fst (fst (cut parent 194)).  (* the middle dot is the bytes 194 183, and 194 starts no letter that is less than U+00C0 *)
Definition key_of (d : decl) : key := (path_base (d_pkg d), cleanup (d_name d)).

(** docs.go:351-357: the name of a property *)
Definition json_name (name tag : bytes) : bytes := match fst (fst (cut tag 44)) with [] => name | n => n end.
Definition skipped (tag : bytes) : bool := beq (fst (fst (cut tag 44))) (text "-").
Definition omits (tag : bytes) : bool := contains tag (text ",omitempty") || contains tag (text ",omitzero").
Section Env.
Context (env : nat -> decl).
(** Whether the kind is bool or pointer: never required (docs.go:376). *)
Definition never_required (t : ty) : bool :=
  match t with TNamed id => match d_under (env id) with TBool | TPtr _ => true | _ => false end | TBool | TPtr _ => true | _ => false end.
Definition acc := (list (bytes * schema) * list bytes)%type.
Definition object (a : acc) : schema := Schema None (Some JTObject) (fst a) (snd a) None 0 None None None None.
(** docs.go:549-583 *)
Definition int_schema (signed : bool) (w : Z) : schema :=
  if signed then if w =? 8 then ranged (Some (-128)) (Some 127) else if w =? 16 then ranged (Some (-32768)) (Some 32767) else ranged None None
  else if w =? 0 then ranged (Some 0) None else ranged (Some 0) (Some (2 ^ w - 1)).
(** docs.go:381: the names that are processed *)
Fixpoint own_names (fs : list field) : list bytes :=
  match fs with
  | [] => []
  | Field exported name tag _ :: fs => if negb exported || skipped tag then own_names fs else json_name name tag :: own_names fs
  | Embed _ _ _ _ :: fs => own_names fs
  end.
(** docs.go:440-641 [schemaFor] with a document as the registry, 544-612: the kinds ([body]), 338-393
    [addFieldsToSchema]: the fields of the struct itself ([add_own]) and those it embeds ([add_anon]). [None]: out of fuel. *)
Fixpoint schema_for (fuel : nat) (reg : registry) (t : ty) : option (schema * registry) :=
  match fuel with
  | O => None
  | S f =>
      match t with
      | TNamed id =>
          let k := key_of (env id) in
          match reg_get reg k with
          | Some _ => Some (ref_to k, reg)
          | None =>
              let reg := reg_set k empty_schema reg in
              match d_under (env id) with
              | TPtr t => schema_for f reg t
              | u => match body f reg u with Some (s, reg) => Some (ref_to k, reg_set k s reg) | None => None end
              end
          end
      | TPtr t => schema_for f reg t
      | t => body f reg t
      end
  end
with body (fuel : nat) (reg : registry) (t : ty) : option (schema * registry) :=
  match fuel with
  | O => None
  | S f =>
      match t with
      | TBool => Some (of_type JTBool, reg)
      | TInt signed w => Some (int_schema signed w, reg)
      | TFloat => Some (of_type JTNumber, reg)
      | TString | TText => Some (of_type JTString, reg)
      | TAny => Some (empty_schema, reg)
      | TSlice t => match schema_for f reg t with Some (s, reg) => Some (Schema None (Some JTArray) [] [] (Some s) 0 None None None None, reg) | None => None end
      | TArray n t => match schema_for f reg t with Some (s, reg) => Some (Schema None (Some JTArray) [] [] (Some s) n None None None None, reg) | None => None end
      | TMap kt vt =>
          match schema_for f reg kt with
          | Some (ks, reg) => match schema_for f reg vt with Some (vs, reg) => Some (Schema None (Some JTObject) [] [] None 0 None None (Some ks) (Some vs), reg) | None => None end
          | None => None
          end
      | TStruct fs => match add_fields f reg fs ([], []) with Some (a, reg) => Some (object a, reg) | None => None end
      | TNamed _ | TPtr _ => None
      end
  end
with add_fields (fuel : nat) (reg : registry) (fs : list field) (a : acc) : option (acc * registry) :=
  match fuel with
  | O => None
  | S f =>
      match add_own f reg fs a with
      | Some (a, reg) => add_anon f reg fs (own_names fs) a
      | None => None
      end
  end
with add_own (fuel : nat) (reg : registry) (fs : list field) (a : acc) : option (acc * registry) :=
  match fuel with
  | O => None
  | S f =>
      match fs with
      | [] => Some (a, reg)
      | Embed _ _ _ _ :: fs => add_own f reg fs a
      | Field exported name tag t :: fs =>
          if negb exported || skipped tag then add_own f reg fs a else
          match schema_for f reg t with
          | None => None
          | Some (s, reg) =>
              let n := json_name name tag in
              let req := if negb (omits tag) && negb (never_required t) then snd a ++ [n] else snd a in
              add_own f reg fs ((n, s) :: fst a, req)
          end
      end
  end
with add_anon (fuel : nat) (reg : registry) (fs : list field) (processed : list bytes) (a : acc) : option (acc * registry) :=
  match fuel with
  | O => None
  | S f =>
      match fs with
      | [] => Some (a, reg)
      | Field _ _ _ _ :: fs => add_anon f reg fs processed a
      | Embed exported name _ sub :: fs =>
          if negb exported || existsb (beq name) processed then add_anon f reg fs processed a else
          match add_fields f reg sub a with
          | None => None
          | Some (a, reg) => add_anon f reg fs processed a
          end
      end
  end.
(** Calls for the types of all parameters and results of the API, one after the other (docs.go:210-334). *)
Fixpoint schemas_for (fuel : nat) (reg : registry) (ts : list ty) : option (list schema * registry) :=
  match ts with
  | [] => Some ([], reg)
  | t :: ts =>
      match schema_for fuel reg t with
      | None => None
      | Some (s, reg) => match schemas_for fuel reg ts with Some (l, reg) => Some (s :: l, reg) | None => None end
      end
  end.
End Env.
