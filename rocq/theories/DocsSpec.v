(** What the published schemas have to be right about: the JSON of values (encoding/json), and JSON
    Schema validation (draft 2020-12, the keywords used). *)
From Coq Require Import String.
From Verif Require Import GoBase GoText DocsModel.
Open Scope list_scope.

Inductive json := JNull | JBool (b : bool) | JInt (z : Z) | JFloat (x : Z) | JStr (s : bytes) | JArr (l : list json) | JObj (o : list (bytes * json)).

(** ** encoding/json *)
(** The fields of a struct with those of embedded structs: how deep, the name, the options and the type. *)
Record ffield := { ff_depth : nat; ff_name : bytes; ff_omit : bool; ff_string : bool; ff_type : ty }.
(** encoding/json typeFields: unexported fields and those tagged "-" are left out; an embedded struct without a name in
    its tag gives its fields, and one with a name is a field like any other. *)
Definition tag_name (tag : bytes) : bytes := hd [] (split tag 44).
Definition option_in (o : bytes) (tag : bytes) : bool := existsb (beq o) (tl (split tag 44)).
Definition sent_name (name tag : bytes) : bytes := match tag_name tag with [] => name | n => n end.
Definition may_omit (tag : bytes) : bool := option_in (text "omitempty") tag || option_in (text "omitzero") tag.
Fixpoint flat_field (d : nat) (f : field) : list ffield :=
  match f with
  | Field exported name tag t =>
      if exported && negb (beq tag (text "-")) then
        [{| ff_depth := d; ff_name := sent_name name tag; ff_omit := may_omit tag; ff_string := option_in (text "string") tag; ff_type := t |}]
      else []
  | Embed exported name tag fs =>
      if beq tag (text "-") then []
      else match tag_name tag with
      | [] => (fix go l := match l with [] => [] | f :: l => flat_field (S d) f ++ go l end) fs
      | n => if exported then [{| ff_depth := d; ff_name := n; ff_omit := may_omit tag; ff_string := false; ff_type := TStruct fs |}] else []
      end
  end.
Definition flat (fs : list field) : list ffield := flat_map (flat_field 0) fs.
(** Of several fields of a name, the one that is less deep than the others, if there is one. (That a name from a tag counts more
    than one that is not, at the same depth, is left out.) *)
Definition dominant (l : list ffield) : list ffield :=
  filter (fun f => Nat.eqb (List.length (filter (fun g => beq (ff_name g) (ff_name f) && Nat.leb (ff_depth g) (ff_depth f)) l)) 1) l.

Section Env.
Context (env : nat -> decl).
Definition under (t : ty) : ty := match t with TNamed id => d_under (env id) | t => t end.
Definition is_byte_type (t : ty) : bool := match under t with TInt false 8 => true | _ => false end.
Definition is_string_type (t : ty) : bool := match under t with TString => true | _ => false end.
Definition in_int (signed : bool) (w : Z) (z : Z) : Prop :=
  let w := if w =? 0 then 64 else w in if signed then - 2 ^ (w - 1) <= z < 2 ^ (w - 1) else 0 <= z < 2 ^ w.
(** [json_of nils t j]: [j] is what encoding/json makes of some value of the type; without nil pointers, slices and maps unless [nils]. *)
Inductive json_of (nils : bool) : ty -> json -> Prop :=
| jo_bool b : json_of nils TBool (JBool b)
| jo_int s w z : in_int s w z -> json_of nils (TInt s w) (JInt z)
| jo_float x : json_of nils TFloat (JFloat x)
| jo_str s : json_of nils TString (JStr s)
| jo_text s : json_of nils TText (JStr s)
| jo_any j : json_of nils TAny j
| jo_named id j : json_of nils (d_under (env id)) j -> json_of nils (TNamed id) j
| jo_nil_ptr t : nils = true -> json_of nils (TPtr t) JNull
| jo_ptr t j : json_of nils t j -> json_of nils (TPtr t) j
| jo_nil_slice t : nils = true -> json_of nils (TSlice t) JNull
| jo_bytes t s : is_byte_type t = true -> json_of nils (TSlice t) (JStr s)
| jo_slice t l : is_byte_type t = false -> jsons_of nils t l -> json_of nils (TSlice t) (JArr l)
| jo_array n t l : List.length l = n -> jsons_of nils t l -> json_of nils (TArray n t) (JArr l)
| jo_nil_map k v : nils = true -> json_of nils (TMap k v) JNull
| jo_map k v o : pairs_of nils v o -> json_of nils (TMap k v) (JObj o)
| jo_struct fs o : fields_of nils (dominant (flat fs)) o -> json_of nils (TStruct fs) (JObj o)
with jsons_of (nils : bool) : ty -> list json -> Prop :=
| js_nil t : jsons_of nils t []
| js_cons t j l : json_of nils t j -> jsons_of nils t l -> jsons_of nils t (j :: l)
with pairs_of (nils : bool) : ty -> list (bytes * json) -> Prop :=
| jp_nil t : pairs_of nils t []
| jp_cons t k j o : json_of nils t j -> pairs_of nils t o -> pairs_of nils t ((k, j) :: o)
with fields_of (nils : bool) : list ffield -> list (bytes * json) -> Prop :=
| jf_nil : fields_of nils [] []
| jf_field f fs j o : ff_string f = false -> json_of nils (ff_type f) j -> fields_of nils fs o -> fields_of nils (f :: fs) ((ff_name f, j) :: o)
| jf_string f fs j s o : ff_string f = true -> json_of nils (ff_type f) j -> fields_of nils fs o -> fields_of nils (f :: fs) ((ff_name f, JStr s) :: o)
| jf_omitted f fs o : ff_omit f = true -> fields_of nils fs o -> fields_of nils (f :: fs) o.

(** ** JSON Schema *)
Definition type_ok (t : jtype) (j : json) : Prop :=
  match t, j with
  | JTBool, JBool _ | JTInteger, JInt _ | JTNumber, JInt _ | JTNumber, JFloat _ | JTString, JStr _ | JTArray, JArr _ | JTObject, JObj _ => True
  | _, _ => False
  end.
Inductive valid (doc : registry) : schema -> json -> Prop :=
| valid_intro ref typ props required items max_items minimum maximum prop_names additional j :
    (forall k, ref = Some k -> exists s, reg_get doc k = Some s /\ valid doc s j) ->
    (forall t, typ = Some t -> type_ok t j) ->
    (forall o n, j = JObj o -> In n required -> In n (map fst o)) ->
    (forall o n x s, j = JObj o -> In (n, x) o -> prop_get props n = Some s -> valid doc s x) ->
    (forall o n x s, j = JObj o -> In (n, x) o -> prop_get props n = None -> additional = Some s -> valid doc s x) ->
    (forall o n x s, j = JObj o -> In (n, x) o -> prop_names = Some s -> valid doc s (JStr n)) ->
    (forall l x s, j = JArr l -> In x l -> items = Some s -> valid doc s x) ->
    (forall l, j = JArr l -> max_items <> 0%nat -> (List.length l <= max_items)%nat) ->
    (forall z m, j = JInt z -> minimum = Some m -> m <= z) ->
    (forall z m, j = JInt z -> maximum = Some m -> z <= m) ->
    valid doc (Schema ref typ props required items max_items minimum maximum prop_names additional) j.
(** Every reference in a schema is to a schema of the document. *)
Inductive resolved (doc : registry) : schema -> Prop :=
| resolved_intro ref typ props required items max_items minimum maximum prop_names additional :
    (forall k, ref = Some k -> reg_get doc k <> None) ->
    (forall n s, In (n, s) props -> resolved doc s) ->
    (forall s, items = Some s -> resolved doc s) -> (forall s, prop_names = Some s -> resolved doc s) -> (forall s, additional = Some s -> resolved doc s) ->
    resolved doc (Schema ref typ props required items max_items minimum maximum prop_names additional).

(** ** Types the schemas are right about *)
(** Names are told apart: the fields of a struct and of the structs it embeds have different names, and no own
    field has the name of an embedded struct. *)
Inductive plain : ty -> Prop :=
| pl_bool : plain TBool | pl_int s w : w = 0 \/ w = 8 \/ w = 16 \/ w = 32 \/ w = 64 -> plain (TInt s w) | pl_float : plain TFloat | pl_string : plain TString | pl_text : plain TText | pl_any : plain TAny
| pl_named id : plain (TNamed id)
| pl_ptr t : plain t -> plain (TPtr t)
| pl_slice t : plain t -> is_byte_type t = false -> plain (TSlice t)
| pl_array n t : plain t -> plain (TArray n t)
| pl_map k v : plain k -> is_string_type k = true -> plain v -> plain (TMap k v)
| pl_struct fs : plain_fields fs -> NoDup (map ff_name (flat fs)) -> plain (TStruct fs)
with plain_fields : list field -> Prop :=
| pf_nil : plain_fields []
| pf_field e name tag t fs : plain t -> option_in (text "string") tag = false -> plain_fields fs -> plain_fields (Field e name tag t :: fs)
| pf_embed e name sub fs : plain_fields sub -> plain_fields fs -> plain_fields (Embed e name [] sub :: fs).
End Env.
Arguments json_of env nils t j.
Scheme json_of_mut := Minimality for json_of Sort Prop
with jsons_of_mut := Minimality for jsons_of Sort Prop
with pairs_of_mut := Minimality for pairs_of Sort Prop
with fields_of_mut := Minimality for fields_of Sort Prop.
Combined Scheme json_mutind from json_of_mut, jsons_of_mut, pairs_of_mut, fields_of_mut.
