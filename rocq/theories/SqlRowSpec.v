(** Vocabulary for the properties of the row codec (C34, C35, C69), independent of
    the code: which values a type has, which types are documented as supported, the
    kind of a database value, and the documented column names. *)
From Verif Require Import GoBase SqlRowModel.

(** [has_ty v t]: v is a value of type t. *)
Inductive has_ty : val -> ty -> Prop :=
| HBool b : has_ty (VBool b) TBool
| HInt w z : has_ty (VNum z) (TInt w)
| HUint w z : has_ty (VNum z) (TUint w)
| HFloat w z : has_ty (VNum z) (TFloat w)
| HString s : has_ty (VStr s) TString
| HBytes b : has_ty (VBytes b) TBytes
| HTime z : has_ty (VTime z) TTime
| HStruct fs vs : Forall2 (fun v (f : field) => has_ty v (snd f)) vs fs ->
    has_ty (VList vs) (TStruct fs)
| HArray n t vs : List.length vs = n -> Forall (fun v => has_ty v t) vs ->
    has_ty (VList vs) (TArray n t)
| HNil t : has_ty (VPtr None) (TPtr t)
| HPtr t v : has_ty v t -> has_ty (VPtr (Some v)) (TPtr t)
| HOther : has_ty VOther TOther.

(** No pointers, complex values, maps, functions or slices other than []byte. *)
Inductive plain : ty -> Prop :=
| PBool : plain TBool | PInt w : plain (TInt w) | PUint w : plain (TUint w)
| PFloat w : plain (TFloat w) | PString : plain TString | PBytes : plain TBytes
| PTime : plain TTime
| PStruct fs : Forall (fun f : field => plain (snd f)) fs -> plain (TStruct fs)
| PArray n t : plain t -> plain (TArray n t).

(** Every struct field, at any depth, is exported. *)
Inductive exported_only : ty -> Prop :=
| EBool : exported_only TBool | EInt w : exported_only (TInt w)
| EUint w : exported_only (TUint w) | EFloat w : exported_only (TFloat w)
| EString : exported_only TString | EBytes : exported_only TBytes
| ETime : exported_only TTime
| EStruct fs :
    Forall (fun f : field => snd (fst (fst f)) = true /\ exported_only (snd f)) fs ->
    exported_only (TStruct fs)
| EArray n t : exported_only t -> exported_only (TArray n t)
| EPtr t : exported_only t -> exported_only (TPtr t)
| EOther : exported_only TOther.

(** Kind of a database value. *)
Definition kind_of (d : dval) : kind :=
  match d with
  | DBool _ => KBool | DInt w _ => KInt w | DUint w _ => KUint w | DFloat w _ => KFloat w
  | DString _ => KString | DBytes _ => KBytes | DTime _ => KTime
  end.

(** [writes n s]: s is the number n in decimal, without leading zeros. *)
Inductive writes : nat -> string -> Prop :=
| WDigit d : (d < 10)%nat -> writes d (String (Ascii.ascii_of_nat (48 + d)) "")
| WMore n d s : (0 < n)%nat -> (d < 10)%nat -> writes n s ->
    writes (10 * n + d) (s ++ String (Ascii.ascii_of_nat (48 + d)) "")%string.

(** The documented column names (sql/map.go:67-77): the names on the path to the
    field joined with underscores; an embedded struct adds nothing to the path; an
    array element is named by the array's name followed by its index, from 1. *)
Inductive doc_names : list string -> string -> bool -> ty -> list string -> Prop :=
| DLeaf path n emb t :
    match t with TStruct _ | TArray _ _ | TPtr _ | TOther => False | _ => True end ->
    doc_names path n emb t [String.concat "_" (path ++ [n])]
| DEmbedded path n fs ns : doc_fields path fs ns -> doc_names path n true (TStruct fs) ns
| DStruct path n fs ns : doc_fields (path ++ [n]) fs ns -> doc_names path n false (TStruct fs) ns
| DArray path n emb k t ns : doc_elems path n 1 k t ns -> doc_names path n emb (TArray k t) ns
with doc_fields : list string -> list field -> list string -> Prop :=
| DFNil path : doc_fields path [] []
| DFCons path n ex emb t fs ns ns' :
    doc_names path n emb t ns -> doc_fields path fs ns' ->
    doc_fields path ((n, ex, emb, t) :: fs) (ns ++ ns')
with doc_elems : list string -> string -> nat -> nat -> ty -> list string -> Prop :=
| DENil path n i t : doc_elems path n i 0 t []
| DECons path n i s k t ns ns' :
    writes i s -> doc_names path (n ++ s)%string false t ns -> doc_elems path n (S i) k t ns' ->
    doc_elems path n i (S k) t (ns ++ ns').

(** Types in which a struct that is not embedded lies in no other such struct, and
    no array lies in one ([inside]: already within such a struct). *)
Inductive shallow : bool -> bool -> ty -> Prop :=
| SLeaf inside emb t :
    match t with TStruct _ | TArray _ _ | TPtr _ | TOther => False | _ => True end ->
    shallow inside emb t
| SEmb inside fs : Forall (fun f : field => shallow inside (snd (fst f)) (snd f)) fs ->
    shallow inside true (TStruct fs)
| SStr fs : Forall (fun f : field => shallow true (snd (fst f)) (snd f)) fs ->
    shallow false false (TStruct fs)
| SArr emb n t : shallow false false t -> shallow false emb (TArray n t).
