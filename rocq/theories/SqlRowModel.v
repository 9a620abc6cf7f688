(** Model of the row codec of package sql: ValuesOf, columnsOf and decode in
    sql/sql.go, over a universe of Go types.

    Simplifications: types with an [Interface()]/[InterfaceAddr()] method are not
    modelled; floats are their bit patterns (conversion between float32 and float64
    and back is the identity); a time.Time is an opaque number; [int], [uint] and
    [uintptr] are 64 bits wide and share one kind with [int64]/[uint64] (as they
    share one column type).  Field names are given lower-cased (or as tagged). *)
From Verif Require Import GoBase.
From Coq Require Export String.
Open Scope string_scope.
Open Scope list_scope.
Open Scope Z_scope.

(** Go types.  A struct field has a name, whether it is exported, whether it is
    embedded (Anonymous), and a type. [TOther] stands for every other kind (map,
    func, chan, complex, interface, slices other than []byte). *)
Inductive ty :=
| TBool
| TInt (w : Z)
| TUint (w : Z)
| TFloat (w : Z)
| TString
| TBytes
| TTime
| TStruct (fs : list (string * bool * bool * ty))
| TArray (n : nat) (t : ty)
| TPtr (t : ty)
| TOther.

(** Go values *)
Inductive val :=
| VBool (b : bool)
| VNum (z : Z)                  (* integers and float bit patterns *)
| VStr (s : bytes)
| VBytes (b : option bytes)     (* None: nil slice *)
| VTime (z : Z)
| VList (vs : list val)         (* struct fields or array elements *)
| VPtr (v : option val)
| VOther.

(** Database values: sql/std/sodium/sql.go:48-63 [Value] *)
Inductive dval :=
| DBool (b : bool)
| DInt (w z : Z)
| DUint (w z : Z)
| DFloat (w z : Z)
| DString (s : bytes)
| DBytes (b : option bytes)
| DTime (z : Z).

(** Zero value of a type. *)
Fixpoint zero (t : ty) : val :=
  match t with
  | TBool => VBool false
  | TInt _ | TUint _ | TFloat _ => VNum 0
  | TString => VStr []
  | TBytes => VBytes None
  | TTime => VTime 0
  | TStruct fs => VList (map (fun f => zero (snd f)) fs)
  | TArray n t => VList (repeat (zero t) n)
  | TPtr _ => VPtr None
  | TOther => VOther
  end.

(** reflect.Type.Size() == 0 *)
Fixpoint size0 (t : ty) : bool :=
  match t with
  | TStruct fs => forallb (fun f => size0 (snd f)) fs
  | TArray n t => Nat.eqb n 0 || size0 t
  | _ => false
  end.

(** The loops over struct fields and array elements in [ValuesOf] (653-665),
    [columnsOf] (717-738) and [decode] (796-812), over the function they call. *)
Definition field := (string * bool * bool * ty)%type.
Section Loops.
Variable vo : ty -> val -> outcome (list dval).
(* an unexported field is skipped: CanInterface() is false (655-657) *)
Fixpoint values_fields (fs : list field) (vs : list val) : outcome (list dval) :=
  match fs, vs with
  | [], [] => Ok []
  | f :: fs', v :: vs' =>
    let '(_, exported, _, t) := f in
    if exported : bool then
      let! a := vo t v in let! b := values_fields fs' vs' in Ok (a ++ b)
    else values_fields fs' vs'
  | _, _ => Panic
  end.
Variable et : ty.
Fixpoint values_elems (vs : list val) : outcome (list dval) :=
  match vs with
  | [] => Ok []
  | v :: vs' => let! a := vo et v in let! b := values_elems vs' in Ok (a ++ b)
  end.
Variable A : Type.
Variable co : string -> bool -> ty -> outcome (list A).
Fixpoint columns_fields (fs : list field) : outcome (list A) :=
  match fs with
  | [] => Ok []
  | f :: fs' =>
    let '(n, _, emb, t) := f in
    let! a := co n emb t in let! b := columns_fields fs' in Ok (a ++ b)
  end.
Variable ce : nat -> outcome (list A).
Fixpoint columns_elems (i k : nat) : outcome (list A) :=
  match k with
  | O => Ok []
  | S k' => let! a := ce i in let! b := columns_elems (S i) k' in Ok (a ++ b)
  end.
Variable de : ty -> val -> list dval -> outcome (val * list dval).
(* [ptr.Interface()] (756) panics on the address of an unexported field *)
Fixpoint decode_fields (fs : list field) (vs : list val) (ds : list dval)
  : outcome (list val * list dval) :=
  match fs, vs with
  | [], [] => Ok ([], ds)
  | f :: fs', v :: vs' =>
    let '(_, exported, _, t) := f in
    if exported : bool then
      let! x := de t v ds in
      let! y := decode_fields fs' vs' (snd x) in Ok (fst x :: fst y, snd y)
    else Panic
  | _, _ => Panic
  end.
Fixpoint decode_elems (vs : list val) (ds : list dval)
  : outcome (list val * list dval) :=
  match vs with
  | [] => Ok ([], ds)
  | v :: vs' =>
    let! x := de et v ds in
    let! y := decode_elems vs' (snd x) in Ok (fst x :: fst y, snd y)
  end.
End Loops.
Arguments columns_fields {A}.
Arguments columns_elems {A}.

(** sql/sql.go:600-669 [ValuesOf].  A type/value mismatch cannot happen in Go; the
    model answers Panic. Pointers are followed (613-615); nil ends in the default. *)
Fixpoint values_of (t : ty) (v : val) {struct t} : outcome (list dval) :=
  match t, v with
  | TBool, VBool b => Ok [DBool b]
  | TInt w, VNum z => Ok [DInt w z]
  | TUint w, VNum z => Ok [DUint w z]
  | TFloat w, VNum z => Ok [DFloat w z]
  | TString, VStr s => Ok [DString s]
  | TBytes, VBytes b => Ok [DBytes b]
  | TTime, VTime z => Ok [DTime z]
  | TStruct fs, VList vs => values_fields values_of fs vs
  | TArray n t, VList vs => values_elems values_of t vs
  | TPtr t, VPtr (Some v) => values_of t v
  | _, _ => Panic
  end.

(** A column: its name and the kind of its values. *)
Inductive kind := KBool | KInt (w : Z) | KUint (w : Z) | KFloat (w : Z) | KString | KBytes | KTime.
Definition column := (string * kind)%type.

(** sql/sql.go:683-685: strings.Join(path, "_") + "_" + name, or name when the path
    is empty *)
Definition prefixed (path : list string) (name : string) : string :=
  match path with [] => name | _ => (String.concat "_" path ++ "_" ++ name)%string end.

(** decimal of a natural number, for fmt.Sprintf("%s%d", ...) *)
Fixpoint dec_digits (fuel n : nat) (acc : string) : string :=
  match fuel with
  | O => acc
  | S f => let acc' := String (Ascii.ascii_of_nat (48 + Nat.modulo n 10)) acc in
           if Nat.ltb n 10 then acc' else dec_digits f (Nat.div n 10) acc'
  end.
Definition dec (n : nat) : string := dec_digits (S n) n "".

(** sql/sql.go:674-753 [columnsOf].  [column.Name] already carries the path when
    it is appended to it (720) and when an array element is named (731). *)
Fixpoint columns_of (path : list string) (name : string) (embedded : bool) (t : ty) {struct t}
  : outcome (list column) :=
  let cname := prefixed path name in
  match t with
  | TBool => Ok [(cname, KBool)]
  | TInt w => Ok [(cname, KInt w)]
  | TUint w => Ok [(cname, KUint w)]
  | TFloat w => Ok [(cname, KFloat w)]
  | TString => Ok [(cname, KString)]
  | TBytes => Ok [(cname, KBytes)]
  | TTime => Ok [(cname, KTime)]
  | TStruct fs =>
    let promote := if embedded then path else path ++ [cname] in
    columns_fields (columns_of promote) fs
  | TArray k t =>
    columns_elems (fun i => columns_of path (cname ++ dec i)%string false t) 1%nat k
  | TPtr _ | TOther => Panic
  end.

(** sql/sql.go:755-822 [decode] into a location holding [init]. *)
Fixpoint decode (t : ty) (init : val) (ds : list dval) {struct t} : outcome (val * list dval) :=
  if size0 t then Ok (init, ds)
  else
  match t with
  | TBool => match ds with DBool b :: r => Ok (VBool b, r) | _ => Panic end
  | TInt w => match ds with DInt w' z :: r => if Z.eqb w w' then Ok (VNum z, r) else Panic | _ => Panic end
  | TUint w => match ds with DUint w' z :: r => if Z.eqb w w' then Ok (VNum z, r) else Panic | _ => Panic end
  | TFloat w => match ds with DFloat w' z :: r => if Z.eqb w w' then Ok (VNum z, r) else Panic | _ => Panic end
  | TString => match ds with DString s :: r => Ok (VStr s, r) | _ => Panic end
  | TBytes => match ds with DBytes b :: r => Ok (VBytes b, r) | _ => Panic end
  | TTime => match ds with DTime z :: r => Ok (VTime z, r) | _ => Panic end
  | TStruct fs =>
    let vs := match init with VList vs => vs | _ => [] end in
    let! x := decode_fields decode fs vs ds in Ok (VList (fst x), snd x)
  | TArray n t =>
    let vs := match init with VList vs => vs | _ => [] end in
    let! x := decode_elems t decode vs ds in Ok (VList (fst x), snd x)
  | TPtr _ | TOther => Ok (init, match ds with [] => [] | _ :: r => r end)
  end.
