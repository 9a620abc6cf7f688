(** Model of package sql over a database: sql/map.go and the query half of sql/sql.go.

    A pointer that a query function makes inside its arguments is the list of field
    and element numbers that leads to it from the key or the value; the map [mirror]
    from such pointers to columns is an association list.  Types, values, ValuesOf,
    columnsOf and decode are those of SqlRowModel; in particular methods named
    Interface, InterfaceAddr and RawPointer are left out.  Floats are bit patterns
    compared by parameters, the same in Go and in the database; instants are numbers. *)
From Verif Require Import GoBase SqlRowModel.
Open Scope string_scope.
Open Scope list_scope.
Open Scope Z_scope.

(** Addresses inside one argument *)
Definition addr := list nat.

(** ** The pointers a query function can use: map.go:533-569 [walk] *)
Section WalkLoops.
Context {A : Type}.
Variable wf : nat -> field -> outcome (list A).
Fixpoint walk_fields (i : nat) (fs : list field) : outcome (list A) :=
  match fs with
  | [] => Ok []
  | f :: fs' =>
    (* unexported fields are skipped (555-557) *)
    if snd (fst (fst f)) then
      let! a := wf i f in let! b := walk_fields (S i) fs' in Ok (a ++ b)
    else walk_fields (S i) fs'
  end.
Variable we : nat -> outcome (list A).
Fixpoint walk_elems (i k : nat) : outcome (list A) :=
  match k with
  | O => Ok []
  | S k' => let! a := we i in let! b := walk_elems (S i) k' in Ok (a ++ b)
  end.
End WalkLoops.

Section Walk.
(** the tag a column name was cut from (sql.go:680 cuts it at a comma, map.go:538-540
    does not) *)
Variable uncut : string -> string.
(** [name]: what columnsOf calls the field; [long]: what walk calls it *)
Fixpoint walk (path : list string) (name long : string) (embedded : bool) (t : ty) (here : addr)
  {struct t} : outcome (list (addr * list column)) :=
  let full := prefixed path long in
  let! cs := columns_of path name embedded t in
  let! rest :=
    match t with
    | TStruct fs =>
      let promote := if embedded then path else path ++ [full] in
      walk_fields (fun i f => let '(n, _, emb, t') := f in
                   walk promote n (uncut n) emb t' (here ++ [i])) 0 fs
    | TArray k t' =>
      walk_elems (fun i => let n := (full ++ dec (S i))%string in
                  walk path n n false t' (here ++ [i])) 0 k
    | _ => Ok []
    end in
  Ok ((here, cs) :: rest).
End Walk.

(** reflect.Struct is the kind of struct types and of time.Time *)
Definition is_struct (t : ty) : bool := match t with TStruct _ | TTime => true | _ => false end.

(** map.go:32-61 [open]: what is kept for a map from K to V under this index name.
    [None] for the pointers: OpenTable (99-107) keeps none. *)
Record opened := {
  o_index : list column;
  o_value : list column;
  o_key_ptrs : option (list (addr * list column));
  o_val_ptrs : option (list (addr * list column)) }.
Definition open (uncut : string -> string) (index : string) (K V : ty) : outcome opened :=
  let! kp := walk uncut [] index index (is_struct K) K [] in
  let! vp := walk uncut [] "value" "value" (is_struct V) V [] in
  let! ki := columns_of [] index (is_struct K) K in
  let! vi := columns_of [] "value" (is_struct V) V in
  Ok {| o_index := ki; o_value := vi; o_key_ptrs := Some kp; o_val_ptrs := Some vp |}.
Definition open_table (index value : list column) : opened :=
  {| o_index := index; o_value := value; o_key_ptrs := None; o_val_ptrs := None |}.

(** ** Expressions: std/sodium/sql.go:186-232 *)
Inductive cmp := Min | Max | MoreThan | LessThan.
Inductive mat := Contains | HasPrefix | HasSuffix.
Inductive expr :=
| EValue (b : bool)
| EIndex (c : column) (d : dval)
| EWhere (o : cmp) (c : column) (d : dval)
| EMatch (m : mat) (c : column) (s : bytes)
| ERange (from upto : Z)
| EEmpty (c : column)
| EAvoid (e : expr)
| ECases (es : list expr)
| EGroup (es : list expr).
Inductive modification :=
| MSet (c : column) (d : dval)
| MArr (ms : list modification).

(** Where a pointer of a query points: into the key, into the value, or at a
    variable elsewhere that now holds x. *)
Inductive place := InKey (p : addr) | InVal (p : addr) | Outside (x : val).

(** What a query function may return, as it is written; [t] is the Go type of the
    variable pointed at. *)
Inductive cond :=
| Equals (at_ : place) (t : ty) (v : val)          (* Index(p).Equals(v) *)
| Where (o : cmp) (at_ : place) (t : ty) (z : Z)   (* Where(p).Min(z), ... *)
| Match (m : mat) (at_ : place) (s : bytes)        (* Match(p).Contains(s), ... *)
| Empty (at_ : place) (t : ty)
| Avoid (c : cond)
| Cases (cs : list cond)
| Merge (cs : list cond)
| Slice (from upto : Z).

Section Query.
Variables feq flt : Z -> Z -> Z -> bool.  (* float comparison at a width *)
Variable K V : ty.
Variable op : opened.

(** Go's == at type t *)
Section EqLoops.
Variable eq : ty -> val -> val -> bool.
Fixpoint eq_fields (fs : list field) (a b : list val) : bool :=
  match fs, a, b with
  | f :: fs', x :: a', y :: b' => eq (snd f) x y && eq_fields fs' a' b'
  | _, _, _ => true
  end.
Variable et : ty.
Fixpoint eq_elems (a b : list val) : bool :=
  match a, b with
  | x :: a', y :: b' => eq et x y && eq_elems a' b'
  | _, _ => true
  end.
End EqLoops.
Definition bytes_eqb (a b : bytes) : bool := if list_eq_dec Z.eq_dec a b then true else false.
Fixpoint go_eq (t : ty) (a b : val) {struct t} : bool :=
  match t, a, b with
  | TBool, VBool x, VBool y => Bool.eqb x y
  | TFloat w, VNum x, VNum y => feq w x y
  | TInt _, VNum x, VNum y | TUint _, VNum x, VNum y => Z.eqb x y
  | TString, VStr x, VStr y => bytes_eqb x y
  | TTime, VTime x, VTime y => Z.eqb x y
  | TStruct fs, VList x, VList y => eq_fields go_eq fs x y
  | TArray _ t, VList x, VList y => eq_elems go_eq t x y
  | _, _, _ => false
  end.
(** Go's < at type t *)
Definition go_lt (t : ty) (a b : Z) : bool :=
  match t with TFloat w => flt w a b | _ => Z.ltb a b end.
Definition go_compare (o : cmp) (t : ty) (a z : Z) : bool :=
  match o with
  | Min => go_lt t z a || go_eq t (VNum a) (VNum z)
  | Max => go_lt t a z || go_eq t (VNum a) (VNum z)
  | MoreThan => go_lt t z a
  | LessThan => go_lt t a z
  end.
(** strings.HasPrefix, strings.HasSuffix, strings.Contains *)
Fixpoint has_prefix (s pre : bytes) : bool :=
  match pre, s with
  | [], _ => true
  | y :: pre', x :: s' => Z.eqb x y && has_prefix s' pre'
  | _, [] => false
  end.
Fixpoint contains (s sub : bytes) : bool :=
  has_prefix s sub || match s with [] => false | _ :: s' => contains s' sub end.
Definition go_match (m : mat) (s sub : bytes) : bool :=
  match m with
  | Contains => contains s sub
  | HasPrefix => has_prefix s sub
  | HasSuffix => has_prefix (rev s) (rev sub)
  end.

(** sql.go:124-129 [columnOf] *)
Fixpoint assoc (p : addr) (l : list (addr * list column)) : option (list column) :=
  match l with
  | [] => None
  | (q, c) :: l' => if list_eq_dec Nat.eq_dec p q then Some c else assoc p l'
  end.
(** map.go:212-213 and alike: the sentinels must have been kept; the conversion of
    the missing entry panics. *)
Definition key_ptrs : outcome (list (addr * list column)) :=
  match o_key_ptrs op with Some l => Ok l | None => Panic end.
Definition val_ptrs : outcome (list (addr * list column)) :=
  match o_val_ptrs op with Some l => Ok l | None => Panic end.
Definition column_of (kp vp : list (addr * list column)) (at_ : place) : option (list column) :=
  match at_ with InKey p => assoc p kp | InVal p => assoc p vp | Outside _ => None end.
(** what lies at an address *)
Fixpoint sub (p : addr) (v : val) : option val :=
  match p with
  | [] => Some v
  | i :: p' => match v with VList vs => match nth_error vs i with Some x => sub p' x | None => None end | _ => None end
  end.
(** *ptr while the query function runs: the sentinels are zero values *)
Definition deref (at_ : place) : val :=
  match at_ with
  | InKey p => match sub p (zero K) with Some x => x | None => VOther end
  | InVal p => match sub p (zero V) with Some x => x | None => VOther end
  | Outside x => x
  end.
Definition num (v : val) : Z := match v with VNum z => z | _ => 0 end.
Definition str (v : val) : bytes := match v with VStr s => s | _ => [] end.
(** sql.go:378-410 [normalise] inside Where *)
Definition normalise (t : ty) (z : Z) : dval :=
  match t with TInt w => DInt w z | TUint w => DUint w z | TFloat w => DFloat w z | _ => DBool false end.

(** columns and values side by side: values[i] panics past the end *)
Fixpoint pairs (cs : list column) (ds : list dval) : outcome (list (column * dval)) :=
  match cs, ds with
  | [], _ => Ok []
  | c :: cs', d :: ds' => let! r := pairs cs' ds' in Ok ((c, d) :: r)
  | _ :: _, [] => Panic
  end.
Definition is_value (e : expr) : option bool := match e with EValue b => Some b | _ => None end.
(** sql.go:555-560 *)
Definition avoid (e : expr) : expr := match e with EValue b => EValue (negb b) | _ => EAvoid e end.
(** sql.go:564-579, over the loop at 568-577 *)
Fixpoint cases_loop (all es : list expr) : expr :=
  match es with
  | [] => EValue false
  | e :: es' =>
    match e with
    | EValue b => if b then EValue true else cases_loop all es'
    | _ => ECases all
    end
  end.
Definition cases (es : list expr) : expr :=
  match es with [] => EValue true | _ => cases_loop es es end.
(** sql.go:583-598 *)
Fixpoint merge_loop (all es : list expr) : expr :=
  match es with
  | [] => EValue true
  | e :: es' =>
    match e with
    | EValue b => if b then merge_loop all es' else EValue false
    | _ => EGroup all
    end
  end.
Definition merge (es : list expr) : expr :=
  match es with [] => EValue true | _ => merge_loop es es end.

Section Compile.
Variables kp vp : list (addr * list column).
(** columns[0] *)
Definition first_column (cs : list column) : outcome column :=
  match cs with [] => Panic | c :: _ => Ok c end.
Fixpoint compile (c : cond) : outcome expr :=
  match c with
  | Equals at_ t v =>                                        (* sql.go:187-208 *)
    match column_of kp vp at_ with
    | None => Ok (EValue (go_eq t (deref at_) v))
    | Some [] => Panic
    | Some cs => let! ds := values_of t v in let! ps := pairs cs ds in
                 Ok (EGroup (map (fun p => EIndex (fst p) (snd p)) ps))
    end
  | Where o at_ t z =>                                       (* sql.go:373-445 *)
    match column_of kp vp at_ with
    | None => Ok (EValue (go_compare o t (num (deref at_)) z))
    | Some cs => let! c := first_column cs in Ok (EWhere o c (normalise t z))
    end
  | Match m at_ s =>                                         (* sql.go:451-487 *)
    match column_of kp vp at_ with
    | None => Ok (EValue (go_match m (str (deref at_)) s))
    | Some cs => let! c := first_column cs in Ok (EMatch m c s)
    end
  | Empty at_ t =>                                           (* sql.go:544-551 *)
    match column_of kp vp at_ with
    | None => Ok (EValue (go_eq t (deref at_) (zero t)))
    | Some cs => let! c := first_column cs in Ok (EEmpty c)
    end
  | Avoid c => let! e := compile c in Ok (avoid e)
  | Cases l => let! es := (fix all l := match l with [] => Ok [] | x :: l' => let! a := compile x in let! b := all l' in Ok (a :: b) end) l in
               Ok (cases es)
  | Merge l => let! es := (fix all l := match l with [] => Ok [] | x :: l' => let! a := compile x in let! b := all l' in Ok (a :: b) end) l in
               Ok (merge es)
  | Slice a b => Ok (ERange a b)                             (* sql.go:538-540 *)
  end.
Fixpoint compile_all (l : list cond) : outcome (list expr) :=
  match l with [] => Ok [] | x :: l' => let! a := compile x in let! b := compile_all l' in Ok (a :: b) end.

(** sql.go:349-367 [Set] on a pointer into the value; outside it assigns at once and
    answers the empty modification. *)
Definition set_column (p : addr) (t : ty) (v : val) : outcome (option modification) :=
  match assoc p vp with
  | None => Ok None
  | Some [] => Panic
  | Some cs => let! ds := values_of t v in let! ps := pairs cs ds in
               Ok (Some (MArr (map (fun p => MSet (fst p) (snd p)) ps)))
  end.
Fixpoint set_columns (l : list (addr * ty * val)) : outcome (list modification) :=
  match l with
  | [] => Ok []
  | (p, t, v) :: l' =>
    let! m := set_column p t v in let! ms := set_columns l' in
    Ok (match m with Some m => m :: ms | None => ms end)
  end.
End Compile.

(** ** The methods of Map over a database *)
Section Methods.
Variable S : Type.
(** std/sodium/sql.go:14-45 [Database], each call in a transaction of its own: the
    job and what its Wait answers *)
Variable db_search : S -> list expr -> list (list dval).
Variable db_insert : S -> list dval -> bool -> list dval -> S * Z.
Variable db_delete : S -> list expr -> S * Z.
Variable db_update : S -> list expr -> list modification -> S * Z.

Inductive err := ErrInvalidKey | ErrDuplicate | ErrNoQuery.

(** map.go:176-206 [Insert], 166-168 [Set] *)
Definition m_insert (st : S) (k : val) (flag : bool) (v : val) : outcome (S * option err) :=
  if go_eq K k (zero K) then Ok (st, Some ErrInvalidKey)
  else
    let! ks := values_of K k in let! vs := values_of V v in
    let '(st', n) := db_insert st ks flag vs in
    Ok (st', if n =? -1 then Some ErrDuplicate else None).
Definition m_set (st : S) (k v : val) := m_insert st k true v.

(** map.go:256-306 [Search]: a row is cut after the index columns *)
Fixpoint decode_rows (rows : list (list dval)) : outcome (list (val * val)) :=
  match rows with
  | [] => Ok []
  | r :: rows' =>
    let n := List.length (o_index op) in
    let! k := decode K (zero K) (firstn n r) in
    let! v := decode V (zero V) (skipn n r) in
    let! l := decode_rows rows' in Ok ((fst k, fst v) :: l)
  end.
Definition m_search (st : S) (q : list cond) : outcome (list (val * val)) :=
  let! kp := key_ptrs in let! vp := val_ptrs in
  let! es := compile_all kp vp q in decode_rows (db_search st es).
(** map.go:309-315 [First] *)
Definition m_first (st : S) (q : list cond) : outcome (option (val * val)) :=
  let! l := m_search st q in Ok (match l with [] => None | x :: _ => Some x end).
(** map.go:331-354 [Lookup] *)
Definition m_lookup (st : S) (k : val) : outcome (option val + err) :=
  if go_eq K k (zero K) then Ok (inr ErrInvalidKey)
  else
    let! l := m_search st [Equals (InKey []) K k; Slice 0 1] in
    Ok (inl (match l with [] => None | (_, v) :: _ => Some v end)).
(** map.go:388-411 [UnsafeDelete] with a query *)
Definition m_unsafe_delete (st : S) (q : list cond) : outcome (S * Z) :=
  let! kp := key_ptrs in let! vp := val_ptrs in
  let! es := compile_all kp vp q in Ok (db_delete st es).
(** map.go:358-381 [Delete] *)
Definition m_delete (st : S) (k : val) (check : list cond) : outcome (S * (bool + err)) :=
  if go_eq K k (zero K) then Ok (st, inr ErrInvalidKey)
  else
    let! x := m_unsafe_delete st ([Equals (InKey []) K k; Slice 0 1] ++ check) in
    Ok (fst x, inl (0 <? snd x)).
(** map.go:415-440 [Update] with a query *)
Definition m_update (st : S) (q : list cond) (patch : list (addr * ty * val)) : outcome (S * Z) :=
  let! kp := key_ptrs in let! vp := val_ptrs in
  let! es := compile_all kp vp q in
  let! ms := set_columns vp patch in Ok (db_update st es ms).
(** map.go:445-468 [Mutate] *)
Definition m_mutate (st : S) (k : val) (check : list cond) (patch : list (addr * ty * val))
  : outcome (S * (bool + err)) :=
  if go_eq K k (zero K) then Ok (st, inr ErrInvalidKey)
  else
    let! x := m_update st ([Equals (InKey []) K k; Slice 0 1] ++ check) patch in
    Ok (fst x, inl (0 <? snd x)).
End Methods.
End Query.

(** ** Reading rows from database/sql: sql.go:827-845 [NewResult], 887-920 [newPointerFor] *)
Definition ty_of_kind (k : kind) : ty :=
  match k with
  | KBool => TBool | KInt w => TInt w | KUint w => TUint w | KFloat w => TFloat w
  | KString => TString | KBytes => TBytes | KTime => TTime
  end.
(** [scanned]: what the scanner stored behind each pointer *)
Fixpoint new_result (cs : list column) (scanned : list val) : outcome (list dval) :=
  match cs, scanned with
  | [], [] => Ok []
  | c :: cs', x :: xs => let! a := values_of (TPtr (ty_of_kind (snd c))) (VPtr (Some x)) in
                         let! b := new_result cs' xs in Ok (a ++ b)
  | _, _ => Panic
  end.

(** ** Counting: sql.go:215-305 [Count] *)
Inductive counter := CInt32 | CInt64 | CUint32 | CUint64.
Definition wrap32 (z : Z) : Z := (z + 2^31) mod 2^32 - 2^31.
(** what the counter holds once the database answered d *)
Definition count_store (c : counter) (d : dval) : Z :=
  match c, d with
  | CInt32, DInt w z => if w =? 64 then (if 2^32 - 1 <? z then -1 else wrap32 z) else z
  | CInt32, DUint w z => if w =? 64 then (if 2^31 - 1 <? z then -1 else z) else -1
  | CInt32, _ => -1
  | CInt64, DInt _ z => z
  | CInt64, DUint w z => if w =? 64 then (if 2^63 - 1 <? z then -1 else z) else -1
  | CInt64, _ => -1
  | CUint32, DUint w z => if w =? 64 then (if 2^32 - 1 <? z then 0 else z) else z
  | CUint32, _ => 0
  | CUint64, DUint _ z => z
  | CUint64, _ => 0
  end.
(** map.go:318-321 [Count]: the counter is incremented when it is made (sql.go:216-225)
    and then holds what was answered, unless there is an error *)
Definition m_count (answer : option dval) : Z :=
  match answer with Some d => count_store CInt64 d | None => 1 end.

(** ** A second map over the same table: map.go:513-531 [assert] keeps the pointers of
    the first one when the table name and the type are the same; the columns of the
    table are its own (53-60). *)
Definition reopen (first second : opened) : opened :=
  {| o_index := o_index second; o_value := o_value second;
     o_key_ptrs := o_key_ptrs first; o_val_ptrs := o_val_ptrs first |}.

(** ** Adding without a key: map.go:114-153 [Add].  Randomize (119-123) is called on a
    copy of the zero key, so it changes nothing.  The database answers the number, and
    writes the key it chose into the slice it was given. *)
Section Add.
Variable feq : Z -> Z -> Z -> bool.
Variables K V : ty.
Variable S : Type.
Variable db_add : S -> list dval -> list dval -> S * Z * list dval.
Inductive add_answer := Added (k : val) | AddDuplicate (k : val) | InsertOnly (k : val).
Definition m_add (st : S) (v : val) : outcome (S * add_answer) :=
  let key := zero K in
  let! ks := values_of K key in let! vs := values_of V v in
  let '(st', n, ks') := db_add st ks vs in
  if n =? -1 then Ok (st', AddDuplicate key)
  else
    let! d := decode K key ks' in
    Ok (st', if go_eq feq K (fst d) (zero K) then InsertOnly (fst d) else Added (fst d)).
End Add.

(** ** Transactions: map.go:472-496 [manage] and [Manage]

    A transaction is a channel of jobs; closing it commits them (sodium/sql.go:41-45).
    Every operation sends its job and closes the channel (e.g. 188-194), whether the
    channel was made for it or is the one of an enclosing Manage.  Sending on a closed
    channel panics.  Simplification: the context is not cancelled. *)
Section Transactions.
Variable J : Type.
Record channel := { sent : list J; closed : bool }.
Definition made : channel := {| sent := []; closed := false |}.
Definition operate (c : channel) (j : J) : outcome channel :=
  if closed c then Panic else Ok {| sent := sent c ++ [j]; closed := true |}.
(** the operations a function makes with one context *)
Fixpoint operations (c : channel) (js : list J) : outcome channel :=
  match js with [] => Ok c | j :: js' => let! c' := operate c j in operations c' js' end.
Definition committed (c : channel) : list J := if closed c then sent c else [].
(** Manage with a function that makes these operations and answers an error or not:
    the channel when it returned, and the error *)
Definition manage (js : list J) (fails : bool) : outcome (channel * bool) :=
  let! c := operations made js in Ok (c, fails).
(** the same operations without Manage: a channel each *)
Fixpoint unmanaged (js : list J) : outcome (list channel) :=
  match js with
  | [] => Ok []
  | j :: js' => let! c := operate made j in let! cs := unmanaged js' in Ok (c :: cs)
  end.
End Transactions.
Arguments made {J}. Arguments sent {J}. Arguments closed {J}. Arguments committed {J}.
Arguments manage {J}. Arguments unmanaged {J}. Arguments operations {J}.

(** In memory (482-486): one lock for the whole program, taken for the time the
    function runs. [nest n] makes n calls of Manage inside each other; [None]: waits
    for ever. *)
Fixpoint nest (locked : bool) (n : nat) : option unit :=
  match n with
  | O => Some tt
  | S n' => if locked then None else nest true n'
  end.
