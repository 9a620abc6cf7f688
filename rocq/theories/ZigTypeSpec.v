(** * What C150 says: Go types that differ are different Zig types, and the other way round *)
From Coq Require Import List String.
Import ListNotations.
From Verif Require Import ZigTypeModel.
Local Open Scope string_scope.

(** two types that differ in nothing but the directions of channels, whether functions are
    variadic, whether fields are embedded, tags, the path of packages of one name, and
    which one they are of the types of one name *)
Inductive alike : ty -> ty -> Prop :=
| ABasic b : alike (Basic b) (Basic b)
| ANamed p p' name n n' : pkg_name p = pkg_name p' -> alike (Named p name n) (Named p' name n')
| AUniverse name : alike (Universe name) (Universe name)
| AArray n e e' : alike e e' -> alike (Array n e) (Array n e')
| ASlice e e' : alike e e' -> alike (Slice e) (Slice e')
| APointer e e' : alike e e' -> alike (Pointer e) (Pointer e')
| AChan d d' e e' : alike e e' -> alike (Chan d e) (Chan d' e')
| AMap k k' e e' : alike k k' -> alike e e' -> alike (Map k e) (Map k' e')
| AFunc v v' ps ps' rs rs' : alike_all ps ps' -> alike_all rs rs' -> alike (Func v ps rs) (Func v' ps' rs')
| AStruct fs fs' : alike_fields fs fs' -> alike (Struct fs) (Struct fs')
| AInterface ms ms' : alike_methods ms ms' -> alike (Interface ms) (Interface ms')
with alike_all : tys -> tys -> Prop :=
| ATNil : alike_all TNil TNil
| ATCons t t' r r' : alike t t' -> alike_all r r' -> alike_all (TCons t r) (TCons t' r')
with alike_fields : fields -> fields -> Prop :=
| AFNil : alike_fields FNil FNil
| AFCons name em em' tag tag' t t' r r' : alike t t' -> alike_fields r r' ->
    alike_fields (FCons name em tag t r) (FCons name em' tag' t' r')
with alike_methods : methods -> methods -> Prop :=
| AMNil : alike_methods MNil MNil
| AMCons name v v' ps ps' rs rs' r r' : alike_all ps ps' -> alike_all rs rs' -> alike_methods r r' ->
    alike_methods (MCons name v ps rs r) (MCons name v' ps' rs' r').

(** no type of the package that is compiled has a name Zig or the runtime uses *)
Definition good_name (s : string) : Prop := s <> "bool" /\ s <> "void" /\ s <> "go" /\ s <> "struct".
Fixpoint good (t : ty) : Prop :=
  match t with
  | Basic _ | Universe _ => True
  | Named p name _ => good_name name /\ pkg_name p <> "go"
  | Array _ e | Slice e | Pointer e | Chan _ e => good e
  | Map k e => good k /\ good e
  | Func _ ps rs => good_all ps /\ good_all rs
  | Struct fs => good_fields fs
  | Interface ms => good_methods ms
  end
with good_all (l : tys) : Prop := match l with TNil => True | TCons t r => good t /\ good_all r end
with good_fields (l : fields) : Prop := match l with FNil => True | FCons _ _ _ t r => good t /\ good_fields r end
with good_methods (l : methods) : Prop := match l with MNil => True | MCons _ _ ps rs r => good_all ps /\ good_all rs /\ good_methods r end.

(** what the compiler has no type for: functions of several results, unsafe.Pointer and
    untyped nil *)
Fixpoint typeable (t : ty) : Prop :=
  match t with
  | Basic b => b <> UnsafePointer /\ b <> UntypedNil
  | Named _ _ _ | Universe _ => True
  | Array _ e | Slice e | Pointer e | Chan _ e => typeable e
  | Map k e => typeable k /\ typeable e
  | Func _ ps rs => typeable_all ps /\ typeable_result rs
  | Struct fs => typeable_fields fs
  | Interface ms => typeable_methods ms
  end
with typeable_all (l : tys) : Prop := match l with TNil => True | TCons t r => typeable t /\ typeable_all r end
with typeable_result (l : tys) : Prop := match l with TNil => True | TCons t TNil => typeable t | _ => False end
with typeable_fields (l : fields) : Prop := match l with FNil => True | FCons _ _ _ t r => typeable t /\ typeable_fields r end
with typeable_methods (l : methods) : Prop := match l with MNil => True | MCons _ _ ps rs r => typeable_all ps /\ typeable_result rs /\ typeable_methods r end.
