(** * api/call/back.go: callbacks. *)
From Coq Require Import String.
From Verif Require Import GoBase GoText CallModel.
Open Scope list_scope.
Open Scope Z_scope.

(** ** Signatures *)
(** The types of parameters and results, as far as back.go tells them apart: a kind, a
    struct with one field, a [call.Back], a struct with a SetPointer method whose only
    field is a pointer. (Structs with other numbers of fields are [TKind KStruct].) *)
Inductive ty := TKind (k : kind) | TStruct1 (t : ty) | TBack | TSettable.
(** dyncall.go:14-32 *)
Inductive rune :=
| RVoid | RBool | RChar | RUChar | RShort | RUShort | RInt | RUint | RLong | RULong | RLongLong | RULongLong | RFloat | RDouble | RPointer | RString.
(** back.go:41-77 [sigRune]: the first case that matches; [None]: a panic. Linux on AMD64,
    as in CallModel. *)
Definition rune_of_kind (k : kind) : option rune :=
  if kind_eqb k (c_kind (text "bool")) then Some RBool
  else if kind_eqb k (c_kind (text "char")) then Some RChar
  else if kind_eqb k (c_kind (text "unsigned_char")) then Some RUChar
  else if kind_eqb k (c_kind (text "short")) then Some RShort
  else if kind_eqb k (c_kind (text "unsigned_short")) then Some RUShort
  else if kind_eqb k (c_kind (text "int")) then Some RInt
  else if kind_eqb k (c_kind (text "unsigned_int")) then Some RUint
  else if kind_eqb k (c_kind (text "long")) then Some RLong
  else if kind_eqb k (c_kind (text "unsigned_long")) then Some RULong
  else if kind_eqb k (c_kind (text "long_long")) then Some RLongLong
  else if kind_eqb k (c_kind (text "unsigned_long_long")) then Some RULongLong
  else if kind_eqb k (c_kind (text "float")) then Some RFloat
  else if kind_eqb k (c_kind (text "double")) then Some RDouble
  else if kind_eqb k KString then Some RString
  else if kind_eqb k KPointer || kind_eqb k KUintptr || kind_eqb k KUnsafePointer || kind_eqb k KFunc then Some RPointer
  else None.
Fixpoint sig_rune (t : ty) : option rune :=
  match t with
  | TKind k => rune_of_kind k
  | TStruct1 t => sig_rune t
  | TBack => Some RPointer
  | TSettable => Some RPointer
  end.
(** back.go:79-90 [newSignature]: of the results only the first *)
Fixpoint sig_args (ins : list ty) : option (list rune) :=
  match ins with
  | [] => Some []
  | t :: r => match sig_rune t, sig_args r with Some x, Some xs => Some (x :: xs) | _, _ => None end
  end.
Definition sig_returns (outs : list ty) : option rune := match outs with [] => Some RVoid | t :: _ => sig_rune t end.

(** ** Calls (back.go:92-201 [newCallback]) *)
(** A register holds a 64 bit number; C leaves the bits above the width of the type
    undefined. Floating point registers hold the bits of the number. Simplification: dyncall
    gives the registers in the order of the signature. *)
Definition kind_of (t : ty) : kind := match t with TKind k => k | _ => KStruct end.
Definition width (x : rune) : Z :=
  match x with
  | RChar | RUChar => 8 | RShort | RUShort => 16 | RInt | RUint | RFloat => 32
  | _ => 64
  end.
Definition signed (x : rune) : bool := match x with RChar | RShort | RInt | RLong | RLongLong => true | _ => false end.
(** reflect SetInt, SetUint, SetFloat, SetBool: a panic for another kind *)
Definition set_int (k : kind) (z : Z) : outcome value :=
  match int_kind k with Some (true, w) => Ok (VInt (sgn w z)) | _ => Panic end.
Definition set_uint (k : kind) (z : Z) : outcome value :=
  match int_kind k with Some (false, w) => Ok (VInt (z mod 2 ^ w)) | _ => Panic end.
Definition set_float (k : kind) (b : Z) : outcome value := if is_float k then Ok (VFloat b) else Panic.
Definition set_bool (k : kind) (b : bool) : outcome value := if kind_eqb k KBool then Ok (VBool b) else Panic.
(** back.go:99-148 *)
Definition read_arg (t : ty) (x : rune) (r : Z) : outcome value :=
  let k := kind_of t in
  match x with
  | RBool => set_bool k (r =? 1)
  | RChar | RShort | RInt | RLong | RLongLong => set_int k (sgn (width x) r)
  | RUChar | RUShort | RUint | RULong | RULongLong => set_uint k (r mod 2 ^ width x)
  | RFloat | RDouble => set_float k (r mod 2 ^ width x)
  | RPointer =>
      match k with
      | KUnsafePointer | KPointer => Ok (VPtr (PAddr r))
      | KUintptr => Ok (VInt r)
      | _ => match t with TSettable => Ok (VPtr (PAddr r)) | _ => Panic end
      end
  | RString | RVoid => Panic
  end.
Fixpoint read_args (ts : list ty) (xs : list rune) (rs : list Z) : outcome (list value) :=
  match ts, xs, rs with
  | t :: ts, x :: xs, r :: rs => let! v := read_arg t x r in let! vs := read_args ts xs rs in Ok (v :: vs)
  | [], [], _ => Ok []
  | _, _, _ => Panic
  end.
(** back.go:150-198: what is stored as the result: so many bits *)
Definition addr_of (p : pointer) : Z := match p with PAddr a => a | PMem _ => 0 end.
Definition write_result (t : ty) (x : rune) (v : value) : outcome (option Z) :=
  match x with
  | RVoid => Ok None
  | RBool => match t, v with TKind _, VBool b => Ok (Some (if b then 1 else 0)) | _, _ => Panic end
  | RChar | RShort | RInt | RLong | RLongLong | RUChar | RUShort | RUint | RULong | RULongLong =>
      match t, v with TKind _, VInt z => Ok (Some (z mod 2 ^ width x)) | _, _ => Panic end
  | RFloat | RDouble => match t, v with TKind _, VFloat b => Ok (Some b) | _, _ => Panic end
  | RPointer =>
      match (match t with TStruct1 t => t | t => t end), v with
      | TKind KUintptr, VInt z => Ok (Some z)
      | TKind (KPointer | KUnsafePointer | KFunc), VPtr p => Ok (Some (addr_of p))
      | (TBack | TSettable), VPtr p => Ok (Some (addr_of p))
      | _, _ => Panic
      end
  | RString => Panic
  end.
(** a call of the callback: [None] when it could not be made *)
Definition invoke (ins outs : list ty) (f : list value -> list value) (rs : list Z) : option (outcome (option Z)) :=
  match sig_args ins, sig_returns outs with
  | Some xs, Some x =>
      Some (let! vs := read_args ins xs rs in
            match outs, f vs with
            | [], _ => Ok None
            | t :: _, v :: _ => write_result t x v
            | _, [] => Panic
            end)
  | _, _ => None
  end.
(** what C makes of the bits of a result *)
Definition c_result (x : rune) (z : Z) : Z := if signed x then sgn (width x) z else z mod 2 ^ width x.

(** ** The table of callbacks (dyncall.go:39-44, dyncall_vm.go:96-102) *)
(** [functions] is a variable of the package; a callback holds its length after its own
    function was appended. A thread that makes a callback does three things: it reads the
    variable, stores the longer slice, and reads the length of what is stored then. *)
Inductive step := Load | Store | Number.
Record thread (H : Type) := { t_fn : H; t_seen : list H; t_id : nat; t_todo : list step }.
Arguments t_fn {H}. Arguments t_seen {H}. Arguments t_id {H}. Arguments t_todo {H}.
Definition starting {H} (h : H) : thread H := {| t_fn := h; t_seen := []; t_id := O; t_todo := [Load; Store; Number] |}.
Definition move {H} (fs : list H) (t : thread H) : list H * thread H :=
  match t_todo t with
  | Load :: r => (fs, {| t_fn := t_fn t; t_seen := fs; t_id := t_id t; t_todo := r |})
  | Store :: r => (t_seen t ++ [t_fn t], {| t_fn := t_fn t; t_seen := t_seen t; t_id := t_id t; t_todo := r |})
  | Number :: r => (fs, {| t_fn := t_fn t; t_seen := t_seen t; t_id := List.length fs; t_todo := r |})
  | [] => (fs, t)
  end.
Fixpoint update {A} (n : nat) (x : A) (l : list A) : list A :=
  match n, l with O, _ :: r => x :: r | S n, y :: r => y :: update n x r | _, [] => [] end.
Fixpoint run {H} (schedule : list nat) (fs : list H) (ts : list (thread H)) : list H * list (thread H) :=
  match schedule with
  | [] => (fs, ts)
  | i :: r => match nth_error ts i with
              | Some t => let '(fs, t) := move fs t in run r fs (update i t ts)
              | None => run r fs ts
              end
  end.
(** dyncall.go:42-44: the function a callback calls *)
Definition bridge {H} (fs : list H) (id : nat) : option H := match id with O => None | S i => nth_error fs i end.
