(** Model of package ffi: the handle table and the Go implementation of the API (ffi/src.go,
    ffi/enc.go, ffi/dec.go) and the flattening of values (ffi/mem.go), on a 64-bit machine.

    Simplifications: of the API the parts on strings, pointers, functions, scalars and the
    conversions between them are modelled; slices, maps, channels, fields and the other
    queries on types are not. Floating point numbers are their bits. A panic leaves the
    state as it was when it happened, as a recovered one does. *)
From Verif Require Import GoBase.

(** ** The handle table *)
(** sync.Map has keys of type any: a uint64 and a uintptr of the same value are different keys. *)
Inductive hkey := HUint64 (n : Z) | HUintptr (n : Z).
Definition hkey_eqb (a b : hkey) : bool :=
  match a, b with
  | HUint64 x, HUint64 y | HUintptr x, HUintptr y => x =? y
  | _, _ => false
  end.
Section Table.
Context {V : Type}.
Record table := { hn : Z; hm : hkey -> option V }.
Definition table0 : table := {| hn := 0; hm := fun _ => None |}.
Definition upd_key (m : hkey -> option V) (k : hkey) (v : option V) : hkey -> option V :=
  fun k' => if hkey_eqb k k' then v else m k'.
(** src.go:52: n.Add(1) *)
Definition h_add (h : table) : Z * table := (u64 (hn h + 1), {| hn := u64 (hn h + 1); hm := hm h |}).
(** src.go:53 *)
Definition h_store (h : table) (p : Z) (v : V) : table := {| hn := hn h; hm := upd_key (hm h) (HUint64 p) (Some v) |}.
(** src.go:51-55 [New], from a single goroutine *)
Definition h_new (h : table) (v : V) : Z * table := let '(p, h) := h_add h in (p, h_store h p v).
(** src.go:57-63 [Get] without the type assertion *)
Definition h_get (h : table) (id : Z) : outcome V :=
  match hm h (HUint64 id) with Some v => Ok v | None => Panic end.
(** src.go:65 [End] *)
Definition h_end (h : table) (id : Z) : table := {| hn := hn h; hm := upd_key (hm h) (HUintptr id) None |}.
End Table.
Arguments table : clear implicits.

(** Values of the table: a reflect.Value, a reflect.Type or a reflect.StructField; src.go:12-24:
    one table serves all, with a type assertion in Get (62) *)
Inductive class := CValue | CType | CField.
Definition class_eqb (a b : class) : bool :=
  match a, b with CValue, CValue | CType, CType | CField, CField => true | _, _ => false end.
(** Several goroutines: New is two atomic steps, the others one; [hpend] says who is between
    the two steps. *)
Section Concurrent.
Context {V : Type}.
Variable class_of : V -> class.
Record cstate := { ctab : table V; cpend : nat -> option (Z * V) }.
Definition cstart : cstate := {| ctab := table0; cpend := fun _ => None |}.
Definition upd_pend (f : nat -> option (Z * V)) (t : nat) (x : option (Z * V)) : nat -> option (Z * V) :=
  fun t' => if Nat.eqb t t' then x else f t'.
Inductive event :=
| EAdd (t : nat) | ENew (t : nat) (id : Z) (v : V) | EGet (t : nat) (c : class) (id : Z) (r : outcome V) | EFree (t : nat) (id : Z).
(** src.go:57-63 with the assertion *)
Definition typed_get (h : table V) (c : class) (id : Z) : outcome V :=
  let! v := h_get h id in if class_eqb (class_of v) c then Ok v else Panic.
Inductive cstep : cstate -> event -> cstate -> Prop :=
| StepAdd st t v : cpend st t = None ->
    cstep st (EAdd t) {| ctab := snd (h_add (ctab st)); cpend := upd_pend (cpend st) t (Some (fst (h_add (ctab st)), v)) |}
| StepStore st t p v : cpend st t = Some (p, v) ->
    cstep st (ENew t p v) {| ctab := h_store (ctab st) p v; cpend := upd_pend (cpend st) t None |}
| StepGet st t c id : cpend st t = None -> cstep st (EGet t c id (typed_get (ctab st) c id)) st
| StepFree st t id : cpend st t = None -> cstep st (EFree t id) {| ctab := h_end (ctab st) id; cpend := cpend st |}.
Inductive csteps : cstate -> list event -> cstate -> Prop :=
| csteps_nil st : csteps st [] st
| csteps_cons st e st1 es st2 : cstep st e st1 -> csteps st1 es st2 -> csteps st (e :: es) st2.
End Concurrent.

(** ** Flattening *)
(** Types, with the width in bits; FRef is any of string, slice, map, chan, func, pointer,
    unsafe pointer and interface; int, uint and uintptr are 64 bits wide *)
Inductive ftype :=
| FBool | FInt (w : Z) | FUint (w : Z) | FFloat (w : Z) | FComplex (w : Z) | FRef
| FArray (n : nat) (e : ftype) | FStruct (fs : list ftype).
(** Values; a reference is the value that the handle will stand for *)
Inductive fval :=
| VBool (b : bool) | VInt (z : Z) | VUint (z : Z) | VFloat (bits : Z) | VComplex (re im : Z) | VRef (o : Z)
| VArray (vs : list fval) | VStruct (vs : list fval).
(** mem.go:11-28 [sizeOf]; overflow of uintptr is out of reach of Go's types *)
Fixpoint sizeOf (t : ftype) : Z :=
  match t with
  | FRef => 8
  | FArray n e => Z.of_nat n * sizeOf e
  | FStruct fs => fold_right (fun f s => sizeOf f + s) 0 fs
  | FBool => 1
  | FInt w | FUint w | FFloat w | FComplex w => w / 8
  end.
(** binary.LittleEndian *)
Fixpoint le (n : nat) (z : Z) : bytes :=
  match n with O => [] | S n' => z mod 256 :: le n' (z / 256) end.
(** binary.LittleEndian.PutUintN(buf[i:], x), and buf[i] = x for one byte *)
Definition put (n : nat) (buf : bytes) (i x : Z) : outcome bytes :=
  if (0 <=? i) && (i + Z.of_nat n <=? zlen buf)
  then Ok (ztake i buf ++ le n x ++ zskip (i + Z.of_nat n) buf) else Panic.
Section Read.
Notation H := (table Z).
(** mem.go:38-109 [read]: the buffer, the number returned and the table *)
Section Loop.
Variable rd : fval -> bytes -> Z -> H -> outcome (bytes * Z * H).
(** mem.go:93-98 *)
Fixpoint read_elems (vs : list fval) (buf : bytes) (i n : Z) (h : H) : outcome (bytes * Z * H) :=
  match vs with
  | [] => Ok (buf, n, h)
  | v :: r => let! (buf, k, h) := rd v buf (i + n) h in read_elems r buf i (n + k) h
  end.
End Loop.
Fixpoint read (t : ftype) (v : fval) (buf : bytes) (i : Z) (h : H) {struct t} : outcome (bytes * Z * H) :=
  match t, v with
  | FRef, VRef o =>
    let '(id, h) := h_new h o in
    let! buf := put 8 buf i (u64 id) in Ok (buf, 8, h)
  | FInt w, VInt z | FUint w, VUint z =>
    let! buf := put (Z.to_nat (w / 8)) buf i (z mod 2 ^ w) in Ok (buf, w / 8, h)
  | FFloat w, VFloat z => let! buf := put (Z.to_nat (w / 8)) buf i z in Ok (buf, w / 8, h)
  | FComplex w, VComplex re im =>
    let k := if w =? 64 then 4 else 8 in
    let! buf := put (Z.to_nat k) buf i re in
    let! buf := put (Z.to_nat k) buf (i + k) im in Ok (buf, 16, h)
  | FArray _ e, VArray vs => read_elems (read e) vs buf i 0 h
  | FStruct ts, VStruct vs =>
    (* mem.go:99-104 *)
    (fix fields ts vs buf n h :=
       match ts, vs with
       | t :: ts, v :: vs => let! (buf, k, h) := read t v buf (i + n) h in fields ts vs buf (n + k) h
       | _, _ => Ok (buf, n, h)
       end) ts vs buf 0 h
  | _, _ => Panic
  end.
(** mem.go:125-131: the loop of ReadAt *)
Fixpoint read_slice (e : ftype) (count : nat) (elems : list fval) (index : Z) (buf : bytes) (n : Z) (h : H) : outcome (bytes * H) :=
  match count with
  | O => Ok (buf, h)
  | S count' =>
    let! v := GoBase.index index elems in
    let! (buf, k, h) := read e v buf n h in
    read_slice e count' elems (index + 1) buf k h
  end.
(** mem.go:120-132 [sliceReader.ReadAt]: the buffer and the count returned; division by zero panics *)
Definition read_at (e : ftype) (elems : list fval) (buf : bytes) (off : Z) (h : H) : outcome (bytes * Z * H) :=
  let size := sizeOf e in
  if size =? 0 then Panic
  else if negb (Z.rem off size =? 0) || negb (zlen buf mod size =? 0) then Panic
  else
    let count := zlen buf / size in
    let! (buf, h) := read_slice e (Z.to_nat count) elems (Z.quot off size) buf 0 h in
    Ok (buf, count, h).
End Read.

(** ** The API *)
(** reflect.Kind: the scalar ones *)
Inductive kind := KBool | KInt | KInt8 | KInt16 | KInt32 | KInt64 | KUint | KUint8 | KUint16 | KUint32 | KUint64
| KUptr | KFloat32 | KFloat64 | KComplex64 | KComplex128.
Definition kind_dec (a b : kind) : {a = b} + {a <> b}.
Proof. decide equality. Defined.
Inductive gtype := TScalar (k : kind) | TString | TFunc (ins outs : nat).
(** what a function returns *)
Inductive result := ResScalar (k : kind) (z : Z) | ResString (s : bytes).
(** reflect.Value: an addressable variable, a scalar or a string that is not addressable, a
    function (its body, the number of its parameters and results), a *statefulDecoder, a
    []reflect.Value *)
Inductive rv := RVar (l : nat) | RScalar (k : kind) (z : Z) | RString (s : bytes) | RFunc (f : nat) (ins outs : nat)
| RDecoder (l : nat) | RValues (vs : list rv).
Inductive object := OValue (v : rv) | OType (t : gtype) | OField.
(** variables *)
Inductive cell := CScalar (k : kind) (z : Z) | CString (s : bytes) | CFunc.
Record state := { tab : table object; vars : list cell; decs : list (rv * nat) }.
Definition state0 : state := {| tab := table0; vars := []; decs := [] |}.
(** Operations; their results are handles, numbers or nothing *)
Inductive op :=
| StringNew (data : bytes) (n : Z) | StringLen (s : Z) | StringData (s : Z) | StringFree (s : Z)
| TypeOf (t : gtype)                         (* a way to get a Type handle *)
| PointerNew (t : Z) | PointerNil (p : Z) | PointerFree (p : Z)
| FunctionNew (f : nat) (ins outs : nat) | FunctionArgs (f : Z) | FunctionCall (f args : Z) | FunctionFree (f : Z)
| StructureFree (s : Z)
| Encode (k : kind) (s : Z) (z : Z) | Decode (k : kind) (s : Z)
| EncodeString (s : Z) (str : Z) | DecodeString (s : Z).
Inductive ret := RHandle (id : Z) | RNum (z : Z) | RNone | RBool (b : bool).
Section API.
(** the results of the functions, when called *)
Variable fsem : nat -> list result.
(** reflect.Value.String of something that is not a string *)
Variable other_string : rv -> bytes.
Definition out A := (outcome A * state)%type.
Definition set_tab (s : state) (t : table object) : state := {| tab := t; vars := vars s; decs := decs s |}.
Definition set_decs (s : state) (d : list (rv * nat)) : state := {| tab := tab s; vars := vars s; decs := d |}.
Definition set_vars (s : state) (v : list cell) : state := {| tab := tab s; vars := v; decs := decs s |}.
(** New of a handle *)
Definition new (s : state) (o : object) : out ret :=
  let '(id, t) := h_new (tab s) o in (Ok (RHandle id), set_tab s t).
(** ref_....Get for a reflect.Value *)
Definition value (s : state) (id : Z) : outcome rv :=
  let! o := h_get (tab s) id in match o with OValue v => Ok v | _ => Panic end.
(** the contents of a variable *)
Definition content (s : state) (v : rv) : rv :=
  match v with
  | RVar l => match nth_error (vars s) l with
              | Some (CScalar k z) => RScalar k z | Some (CString b) => RString b | _ => v
              end
  | _ => v
  end.
Definition upd_nth {A} (i : nat) (a : A) (l : list A) : list A := firstn i l ++ match skipn i l with [] => [] | _ :: r => a :: r end.
(** src.go:36-44 [new_ref]: strings are copied *)
Definition new_ref (s : state) (v : rv) : out ret :=
  match content s v with RString b => new s (OValue (RString b)) | _ => new s (OValue v) end.
(** the zero value of a variable *)
Definition zero_cell (t : gtype) : cell :=
  match t with TScalar k => CScalar k 0 | TString => CString [] | TFunc _ _ => CFunc end.
Definition to_rv (r : result) : rv := match r with ResScalar k z => RScalar k z | ResString s => RString s end.
Definition fail {A} (s : state) : out A := (Panic, s).
(** dec.go:88-122 [decode], for a structure that is not of the wanted kind. Only the decoder
    can succeed: line 109 compares with the wrong type, so the values of a []reflect.Value
    never have type T. The index is counted first (107-108). *)
Definition decode_other (s : state) (k : kind) (v : rv) : out ret :=
  match v with
  | RDecoder l =>
    match nth_error (decs s) l with
    | Some (target, index) =>
      let s := set_decs s (upd_nth l (target, S index) (decs s)) in
      match content s target with
      | RString b =>
        match nth_error b index with
        | Some c => if kind_dec k KUint8 then (Ok (RNum c), s) else fail s
        | None => fail s
        end
      | _ => fail s
      end
    | None => fail s
    end
  | _ => fail s
  end.
(** dec.go:124-155 [decodeRef]; the deferred increment happens also when it panics *)
Definition decode_ref (s : state) (v : rv) : out ret :=
  match v with
  | RDecoder l =>
    match nth_error (decs s) l with
    | Some (target, index) =>
      let s' := set_decs s (upd_nth l (target, S index) (decs s)) in
      match target with
      | RValues vs => match nth_error vs index with Some v => new_ref s' v | None => fail s' end
      | _ => fail s'
      end
    | None => fail s
    end
  | _ => fail s
  end.
(** src.go:68-637 *)
Definition run (s : state) (o : op) : out ret :=
  match o with
  | StringNew data n => new s (OValue (RString (ztake n data)))             (* 71-75 *)
  | StringLen h =>                                                          (* 76-78 *)
    match value s h with
    | Ok v => match content s v with
              | RString b => (Ok (RNum (u32 (zlen b))), s)
              | RValues vs => (Ok (RNum (u32 (zlen vs))), s)
              | _ => fail s
              end
    | Panic => fail s
    end
  | StringData h =>                                                         (* 79-83 *)
    match value s h with
    | Ok v => new (set_decs s (decs s ++ [(v, O)])) (OValue (RDecoder (length (decs s))))
    | Panic => fail s
    end
  | StringFree h | PointerFree h | FunctionFree h => (Ok RNone, set_tab s (h_end (tab s) h))   (* 84, 108, 123 *)
  | TypeOf t => new s (OType t)
  | PointerNew t =>                                                         (* 103-105 *)
    match h_get (tab s) t with
    | Ok (OType t) => new (set_vars s (vars s ++ [zero_cell t])) (OValue (RVar (length (vars s))))
    | _ => fail s
    end
  | PointerNil p =>                                                         (* 107: IsNil of a number panics *)
    match value s p with
    | Ok (RVar l) => match nth_error (vars s) l with Some CFunc => (Ok (RBool true), s) | _ => fail s end
    | Ok (RFunc _ _ _) | Ok (RDecoder _) | Ok (RValues _) => (Ok (RBool false), s)
    | _ => fail s
    end
  | FunctionNew f i o => new s (OValue (RFunc f i o))                        (* 26-29 *)
  | FunctionArgs f =>                                                       (* 124-127 *)
    match value s f with
    | Ok (RFunc _ _ _) => new s (OValue (RValues []))
    | Ok (RVar l) => match nth_error (vars s) l with Some CFunc => new s (OValue (RValues [])) | _ => fail s end
    | _ => fail s
    end
  | FunctionCall f args =>                                                  (* 128-139; too few arguments panic *)
    match value s f with
    | Ok (RFunc f ins outs) =>
      if Nat.eqb ins 0 && Nat.eqb outs 0 then (Ok (RHandle 0), s)
      else
        match value s args with
        | Ok (RValues vs) =>
          if Nat.eqb (length vs) ins
          then new (set_decs s (decs s ++ [(RValues (map to_rv (fsem f)), O)])) (OValue (RDecoder (length (decs s))))
          else fail s
        | _ => fail s
        end
    | _ => fail s
    end
  | StructureFree h =>                                                      (* 160-165 *)
    match value s h with
    | Ok (RValues _) => (Ok RNone, set_tab s (h_end (tab s) h))
    | Ok _ => (Ok RNone, s)
    | Panic => fail s
    end
  | Encode k h z =>          (* 167-295 and enc.go:68-85: without a settable variable of the kind it panics *)
    match value s h with
    | Ok (RVar l) =>
      match nth_error (vars s) l with
      | Some (CScalar k' _) => if kind_dec k k' then (Ok RNone, set_vars s (upd_nth l (CScalar k z) (vars s))) else fail s
      | _ => fail s
      end
    | _ => fail s
    end
  | Decode k h =>                                                           (* 381-508 *)
    match value s h with
    | Ok v => match content s v with
              | RScalar k' z => if kind_dec k k' then (Ok (RNum z), s) else fail s
              | _ => decode_other s k v
              end
    | Panic => fail s
    end
  | EncodeString h str =>                                                   (* 344-351 *)
    match value s h with
    | Ok (RVar l) =>
      match nth_error (vars s) l with
      | Some (CString _) =>
        match value s str with
        | Ok v => let b := match content s v with RString b => b | c => other_string c end in
                  (Ok RNone, set_vars s (upd_nth l (CString b) (vars s)))
        | Panic => fail s
        end
      | _ => fail s
      end
    | _ => fail s
    end
  | DecodeString h =>                                                       (* 551-558 *)
    match value s h with
    | Ok v => match content s v with
              | RString b => new s (OValue (RString b))
              | _ => decode_ref s v
              end
    | Panic => fail s
    end
  end.
Definition after (s : state) (ops : list op) : state := fold_left (fun s o => snd (run s o)) ops s.
(** dec.go:80-83: the loop of Decode into a string *)
Fixpoint read_bytes (n : nat) (s : state) (d : Z) : out bytes :=
  match n with
  | O => (Ok [], s)
  | S n' =>
    match run s (Decode KUint8 d) with
    | (Ok (RNum c), s) => let '(r, s) := read_bytes n' s d in (omap (cons c) r, s)
    | (_, s) => (Panic, s)
    end
  end.
(** dec.go:74-84 [Decode] into a string *)
Definition decode_go_string (s : state) (v : Z) : out bytes :=
  match run s (DecodeString v) with
  | (Ok (RHandle str), s) =>
    match run s (StringData str) with
    | (Ok (RHandle data), s) =>
      match run s (StringLen str) with
      | (Ok (RNum n), s) =>
        let '(r, s) := read_bytes (Z.to_nat n) s data in
        let s := snd (run s (StructureFree data)) in
        (r, snd (run s (StringFree str)))
      | (_, s) => (Panic, s)
      end
    | (_, s) => (Panic, s)
    end
  | (_, s) => (Panic, s)
  end.
End API.
