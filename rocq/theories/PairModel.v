(** Model of api/pair/pair.go: 1:1 mappings between two API models. *)
From Verif Require Import GoBase.

(** ** Values *)
(** Field values: numbers (bool, integers, floats and complex numbers as the bits that hold them),
    strings, slices and maps (nil or not; the entries of a map in no particular order) and nested
    structs. *)
Inductive value :=
| VNum (z : Z)
| VStr (s : bytes)
| VSlice (l : option (list value))
| VMap (m : option (list (value * value)))
| VStruct (fs : list value).

(** The rules: the functions Bool to Complex128 (pair.go:94-249) are all [RNum], String
    (pair.go:305-312) is [RStr], Slice is pair.go:252-270 and Map is pair.go:273-302. The two types a
    rule pairs have the same shape. *)
Inductive rule :=
| RNum
| RStr
| RSlice (r : rule)
| RMap (k v : rule).
(** The zero value of the types a rule pairs. *)
Definition zero_of (r : rule) : value :=
  match r with RNum => VNum 0 | RStr => VStr [] | RSlice _ => VSlice None | RMap _ _ => VMap None end.

(** What the toInto (equally the toFrom) function of a rule puts into the other side. The two
    functions of every rule are mirror images, so one definition serves both. The map case is the
    source's: the key and the value are converted into fresh variables that are then dropped, and
    what is stored is a zero value under a zero key (pair.go:282-286, 291-295). *)
Fixpoint convert (r : rule) (v : value) {struct r} : value :=
  match r, v with
  | RSlice r', VSlice l =>
      VSlice (Some (map (convert r') (match l with Some l => l | None => [] end)))
  | RMap k e, VMap m =>
      VMap (Some (match m with Some (_ :: _) => [(zero_of k, zero_of e)] | _ => [] end))
  | _, v => v                                      (* the plain assignments *)
  end.

(** ** Structs and pointers into them *)
(** A pointer given to a rule: into the struct (the numbers of the fields on the way), or to a
    variable made by Const (pair.go:314-316), fresh on every call of the mapping function. *)
Inductive pointer :=
| Field (path : list nat)
| Constant (v : value).
Fixpoint get (path : list nat) (v : value) : option value :=
  match path with
  | [] => Some v
  | i :: p => match v with
              | VStruct fs => match nth_error fs i with Some f => get p f | None => None end
              | _ => None
              end
  end.
Fixpoint set_nth (i : nat) (x : value) (l : list value) {struct l} : list value :=
  match l with
  | [] => []
  | y :: r => match i with O => x :: r | S j => y :: set_nth j x r end
  end.
Fixpoint put (path : list nat) (x v : value) : value :=
  match path with
  | [] => x
  | i :: p => match v with
              | VStruct fs => match nth_error fs i with Some f => VStruct (set_nth i (put p x f) fs) | None => v end
              | _ => v
              end
  end.
(** Reading and writing through a pointer. Writing to a constant is lost when the mapping function's
    variables are dropped. *)
Definition load (p : pointer) (s : value) : value :=
  match p with Field path => match get path s with Some v => v | None => VNum 0 end | Constant v => v end.
Definition store (p : pointer) (x s : value) : value :=
  match p with Field path => put path x s | Constant _ => s end.

(** One Field of a mapping (pair.go:85-90): the rule and the two pointers. The mapping function is
    assumed to give the same list on every call (it gets no values, only the two pointers). *)
Record pairing := { how : rule; from_ptr : pointer; into_ptr : pointer }.
Definition mapping := list pairing.

(** pair.go:23-28 [toInto]: into starts as the zero value [z]; the fields are converted in order. *)
Definition to_into (m : mapping) (z : value) (from : value) : value :=
  fold_left (fun into f => store (into_ptr f) (convert (how f) (load (from_ptr f) from)) into) m z.
(** pair.go:29-34 [toFrom]. *)
Definition to_from (m : mapping) (z : value) (into : value) : value :=
  fold_left (fun from f => store (from_ptr f) (convert (how f) (load (into_ptr f) into)) from) m z.

(** ** Errors: pair.go:35-75 [wrap] *)
(** A field of a struct type, as reflect shows it. *)
Record field := { fname : bytes; exported : bool }.
Definition bytes_eqb (a b : bytes) : bool := if list_eq_dec Z.eq_dec a b then true else false.
(** [field.isInto == into.Field(i).Addr().Interface()]: the pointers are the same and of the same
    type, so only a pointer to the whole top level field will do. *)
Definition points_to (p : pointer) (i : nat) : bool :=
  match p with Field [j] => Nat.eqb j i | _ => false end.
(** pair.go:64-69: the first field of From that the pointer points to. Interface panics for a field
    that is not exported. [Ok None]: none. *)
Fixpoint find_from (p : pointer) (i : nat) (fs : list field) : outcome (option bytes) :=
  match fs with
  | [] => Ok None
  | f :: r => if negb (exported f) then Panic
              else if points_to p i then Ok (Some (fname f)) else find_from p (S i) r
  end.
(** pair.go:61-71: the pairings in order. *)
Fixpoint find_pairing (m : mapping) (i : nat) (from_fields : list field) : outcome (option bytes) :=
  match m with
  | [] => Ok None
  | f :: r =>
    if points_to (into_ptr f) i then
      match find_from (from_ptr f) 0 from_fields with
      | Panic => Panic
      | Ok (Some n) => Ok (Some n)
      | Ok None => find_pairing r i from_fields
      end
    else find_pairing r i from_fields
  end.
(** pair.go:58-73: the fields of Into. For a field that is not exported, Interface panics as soon as
    there is a pairing to compare. *)
Fixpoint find_into (m : mapping) (i : nat) (into_fields from_fields : list field) (name : bytes) : outcome (option bytes) :=
  match into_fields with
  | [] => Ok None
  | f :: r =>
    if bytes_eqb (fname f) name then
      if negb (exported f) && negb (match m with [] => true | _ => false end) then Panic else
      match find_pairing m i from_fields with
      | Panic => Panic
      | Ok (Some n) => Ok (Some n)
      | Ok None => find_into m (S i) r from_fields name
      end
    else find_into m (S i) r from_fields name
  end.

(** [E]: the values of type error; [X]: those of type Error. [as_error] is the type assertion of line
    39, [name_of] and [renamed] are the methods FieldName and WithFieldNameSetTo, the registry is a
    list of functions that may give nil. *)
Section Wrap.
  Context {E X : Type} (as_error : E -> option X) (name_of : X -> bytes) (renamed : X -> bytes -> E).
  (** pair.go:41-45: all functions are tried, the last one that gives something wins. *)
  Definition registered (reg : list (E -> option X)) (e : E) : option X :=
    fold_left (fun acc f => match f e with Some x => Some x | None => acc end) reg None.
  (** pair.go:35-75. [None] is the nil error. *)
  Definition wrap (reg : list (E -> option X)) (m : mapping) (into_fields from_fields : list field) (e : option E) : outcome (option E) :=
    match e with
    | None => Ok None
    | Some e =>
      match (match as_error e with Some x => Some x | None => registered reg e end) with
      | None => Ok (Some e)
      | Some x =>
        match find_into m 0 into_fields from_fields (name_of x) with
        | Panic => Panic
        | Ok (Some n) => Ok (Some (renamed x n))
        | Ok None => Ok (Some e)
        end
      end
    end.
End Wrap.
