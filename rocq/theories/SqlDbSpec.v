(** Vocabulary for C144-C147: what a query means on Go records, and what the SODIUM
    standard (sql/std/sodium/sql.go) asks of a database. *)
From Verif Require Import GoBase SqlRowModel SqlRowSpec SqlDbModel.
Open Scope string_scope.
Open Scope list_scope.
Open Scope Z_scope.

(** [typed p T t]: the address p inside a variable of type T is a variable of type t *)
Inductive typed : addr -> ty -> ty -> Prop :=
| THere t : typed [] t t
| TField i p fs (f : field) t : @nth_error field fs i = Some f -> typed p (snd f) t -> typed (i :: p) (TStruct fs) t
| TElem i p n e t : (i < n)%nat -> typed p e t -> typed (i :: p) (TArray n e) t.

(** the same through exported fields only *)
Inductive visible : addr -> ty -> Prop :=
| VHere t : visible [] t
| VField i p fs (f : field) : @nth_error field fs i = Some f -> snd (fst (fst f)) = true -> visible p (snd f) -> visible (i :: p) (TStruct fs)
| VElem i p n e : (i < n)%nat -> visible p e -> visible (i :: p) (TArray n e).
(** strings.HasPrefix, HasSuffix, Contains *)
Definition matches (m : mat) (s sub : bytes) : Prop :=
  match m with
  | HasPrefix => exists r, s = sub ++ r
  | HasSuffix => exists r, s = r ++ sub
  | Contains => exists a b, s = a ++ sub ++ b
  end.

(** Types that can be compared with == *)
Inductive comparable : ty -> Prop :=
| CBool : comparable TBool | CInt w : comparable (TInt w) | CUint w : comparable (TUint w)
| CFloat w : comparable (TFloat w) | CString : comparable TString | CTime : comparable TTime
| CStruct fs : Forall (fun f : field => comparable (snd f)) fs -> comparable (TStruct fs)
| CArray n t : comparable t -> comparable (TArray n t).
(** Types without floats, whose == is equality *)
Inductive no_float : ty -> Prop :=
| NBool : no_float TBool | NInt w : no_float (TInt w) | NUint w : no_float (TUint w)
| NString : no_float TString | NTime : no_float TTime
| NStruct fs : Forall (fun f : field => no_float (snd f)) fs -> no_float (TStruct fs)
| NArray n t : no_float t -> no_float (TArray n t).
(** Numbers; types that are not made of others; types with something in them *)
Definition numeric (t : ty) : Prop := match t with TInt _ | TUint _ | TFloat _ => True | _ => False end.
Definition simple (t : ty) : Prop := match t with TStruct _ | TArray _ _ => False | _ => True end.
Fixpoint inhabited (t : ty) : bool :=
  match t with
  | TStruct fs => existsb (fun f => inhabited (snd f)) fs
  | TArray n t => negb (Nat.eqb n 0) && inhabited t
  | _ => true
  end.

(** v with the part at p replaced by w *)
Fixpoint set_nth (i : nat) (x : val) (l : list val) : list val :=
  match l, i with
  | [], _ => []
  | _ :: l', O => x :: l'
  | y :: l', S i' => y :: set_nth i' x l'
  end.
Fixpoint put (p : addr) (w v : val) : val :=
  match p with
  | [] => w
  | i :: p' =>
    match v with
    | VList vs => match nth_error vs i with Some x => VList (set_nth i (put p' w x) vs) | None => v end
    | _ => v
    end
  end.
Definition puts (patch : list (addr * ty * val)) (v : val) : val :=
  fold_left (fun v x => put (fst (fst x)) (snd x) v) patch v.

Section Meaning.
Variables feq flt : Z -> Z -> Z -> bool.
Variables K V : ty.

(** ** What a query says about a record *)
Definition look (k v : val) (at_ : place) : option val :=
  match at_ with InKey p => sub p k | InVal p => sub p v | Outside x => Some x end.
Fixpoint holds (c : cond) (k v : val) {struct c} : bool :=
  match c with
  | Equals at_ t w => match look k v at_ with Some x => go_eq feq t x w | None => false end
  | Where o at_ t z => match look k v at_ with Some (VNum y) => go_compare feq flt o t y z | _ => false end
  | Match m at_ s => match look k v at_ with Some (VStr x) => go_match m x s | _ => false end
  | Empty at_ t => match look k v at_ with Some x => go_eq feq t x (zero t) | None => false end
  | Avoid c => negb (holds c k v)
  | Cases l => existsb (fun c => holds c k v) l
  | Merge l => forallb (fun c => holds c k v) l
  | Slice _ _ => true
  end.
(** Conditions as documented: every pointer points inside the arguments at a variable
    of the type its function accepts; Cases and Merge have at least one condition. *)
Definition inside (at_ : place) (t : ty) : Prop :=
  match at_ with InKey p => typed p K t | InVal p => typed p V t | Outside _ => False end.
Inductive good : cond -> Prop :=
| GEquals at_ t w : inside at_ t -> comparable t -> inhabited t = true -> has_ty w t -> good (Equals at_ t w)
| GWhere o at_ t z : inside at_ t -> numeric t -> good (Where o at_ t z)
| GMatch m at_ s : inside at_ TString -> good (Match m at_ s)
| GEmpty at_ t : inside at_ t -> comparable t -> simple t -> good (Empty at_ t)
| GAvoid c : good c -> good (Avoid c)
| GCases l : l <> [] -> Forall good l -> good (Cases l)
| GMerge l : l <> [] -> Forall good l -> good (Merge l).
Definition good_patch (patch : list (addr * ty * val)) : Prop :=
  Forall (fun x => typed (fst (fst x)) V (snd (fst x)) /\ inhabited (snd (fst x)) = true /\
                   has_ty (snd x) (snd (fst x))) patch.

(** ** What a database does *)
(** A row gives each column a value. *)
Definition row := list (string * dval).
Fixpoint cell (n : string) (r : row) : option dval :=
  match r with [] => None | (m, d) :: r' => if String.eqb n m then Some d else cell n r' end.
Definition deq (a b : dval) : bool :=
  match a, b with
  | DBool x, DBool y => Bool.eqb x y
  | DInt w x, DInt w' y | DUint w x, DUint w' y => (w =? w') && (x =? y)
  | DFloat w x, DFloat w' y => (w =? w') && feq w x y
  | DString x, DString y => bytes_eqb x y
  | DTime x, DTime y => x =? y
  | _, _ => false
  end.
Definition dlt (a b : dval) : bool :=
  match a, b with
  | DInt w x, DInt w' y | DUint w x, DUint w' y => (w =? w') && (x <? y)
  | DFloat w x, DFloat w' y => (w =? w') && flt w x y
  | _, _ => false
  end.
(** sodium/sql.go:106-141 [Value.IsZero] *)
Definition is_zero (d : dval) : bool :=
  match d with
  | DBool b => negb b
  | DInt _ z | DUint _ z | DTime z => z =? 0
  | DFloat w z => feq w z 0
  | DString s => match s with [] => true | _ => false end
  | DBytes b => match b with Some (_ :: _) => false | _ => true end
  end.
Fixpoint eval (e : expr) (r : row) {struct e} : bool :=
  match e with
  | EValue b => b
  | EIndex c d => match cell (fst c) r with Some x => deq x d | None => false end
  | EWhere o c d =>
    match cell (fst c) r with
    | Some x => match o with
                | Min => dlt d x || deq x d
                | Max => dlt x d || deq x d
                | MoreThan => dlt d x
                | LessThan => dlt x d
                end
    | None => false
    end
  | EMatch m c s => match cell (fst c) r with Some (DString x) => go_match m x s | _ => false end
  | EEmpty c => match cell (fst c) r with Some x => is_zero x | None => false end
  | EAvoid e => negb (eval e r)
  | ECases es => existsb (fun e => eval e r) es
  | EGroup es => forallb (fun e => eval e r) es
  | ERange _ _ => true
  end.
Fixpoint assign (c : column) (d : dval) (r : row) : row :=
  match r with
  | [] => []
  | (m, x) :: r' => if String.eqb (fst c) m then (m, d) :: r' else (m, x) :: assign c d r'
  end.
Fixpoint modify (m : modification) (r : row) {struct m} : row :=
  match m with
  | MSet c d => assign c d r
  | MArr ms => fold_left (fun r m => modify m r) ms r
  end.

(** A table: rows are the values of the index columns followed by those of the value
    columns.  Which rows a query selects: those for which every expression holds, and
    of these the ones in its range. *)
Section Table.
Variable op : opened.
Definition names : list string := map fst (o_index op ++ o_value op).
Definition as_row (r : list dval) : row := combine names r.
Definition wanted (es : list expr) (r : list dval) : bool := forallb (fun e => eval e (as_row r)) es.
Fixpoint range_of (es : list expr) : option (Z * Z) :=
  match es with [] => None | ERange a b :: _ => Some (a, b) | _ :: es' => range_of es' end.
Section Marks.
Context {A : Type}.
Variable pred : A -> bool.
Fixpoint marks (i : Z) (range : option (Z * Z)) (l : list A) : list bool :=
  match l with
  | [] => []
  | x :: l' =>
    if pred x
    then match range with Some (a, b) => (a <=? i) && (i <? b) | None => true end :: marks (i + 1) range l'
    else false :: marks i range l'
  end.
Fixpoint marked (ms : list bool) (l : list A) : list A :=
  match ms, l with m :: ms', x :: l' => if m then x :: marked ms' l' else marked ms' l' | _, _ => [] end.
Fixpoint unmarked (ms : list bool) (l : list A) : list A :=
  match ms, l with m :: ms', x :: l' => if m then unmarked ms' l' else x :: unmarked ms' l' | _, _ => [] end.
Fixpoint change (f : A -> A) (ms : list bool) (l : list A) : list A :=
  match ms, l with m :: ms', x :: l' => (if m then f x else x) :: change f ms' l' | _, _ => [] end.
End Marks.
Definition count (ms : list bool) : Z := Z.of_nat (List.length (filter (fun b : bool => b) ms)).

Definition state := list (list dval).
Definition ref_search (st : state) (es : list expr) : list (list dval) :=
  marked (marks (wanted es) 0 (range_of es) st) st.
Definition ref_delete (st : state) (es : list expr) : state * Z :=
  let ms := marks (wanted es) 0 (range_of es) st in (unmarked ms st, count ms).
Definition ref_update (st : state) (es : list expr) (mods : list modification) : state * Z :=
  let ms := marks (wanted es) 0 (range_of es) st in
  (change (fun r => map snd (fold_left (fun r m => modify m r) mods (as_row r))) ms st, count ms).
(** the answer -1 is a record that exists already *)
Definition same_key (ks : list dval) (r : list dval) : bool :=
  forallb (fun p => deq (fst p) (snd p)) (combine r ks).
Definition ref_insert (st : state) (ks : list dval) (flag : bool) (vs : list dval) : state * Z :=
  if existsb (same_key ks) st
  then if flag then (map (fun r => if same_key ks r then ks ++ vs else r) st, 1) else (st, -1)
  else (st ++ [ks ++ vs], 1).
End Table.

(** ** What a map is *)
Definition amap := list (val * val).
Definition is_map (m : amap) : Prop :=
  NoDup (map fst m) /\ Forall (fun x => has_ty (fst x) K /\ has_ty (snd x) V) m.
(** the table holds exactly the records of the map *)
Definition holds_map (st : state) (m : amap) : Prop :=
  Forall2 (fun r x => exists ks vs, values_of K (fst x) = Ok ks /\ values_of V (snd x) = Ok vs /\ r = ks ++ vs) st m.
Definition good_query (q : list cond) : Prop := Forall (fun c => good c \/ exists a b, c = Slice a b) q.
Fixpoint slice_of (q : list cond) : option (Z * Z) :=
  match q with [] => None | Slice a b :: _ => Some (a, b) | _ :: q' => slice_of q' end.
Definition all_hold (q : list cond) (x : val * val) : bool := forallb (fun c => holds c (fst x) (snd x)) q.
(** the records a query selects: those for which it holds, in its slice *)
Definition selected (q : list cond) (m : amap) : list bool := marks (all_hold q) 0 (slice_of q) m.
(** the record of this key *)
Definition has_key (k : val) (x : val * val) : bool := go_eq feq K (fst x) k.
End Meaning.
