(** What package ffi promises, independently of the code (C55 to C57, C86 to C88). *)
From Verif Require Import GoBase FfiModel.

(** ** Handles *)
Section Events.
Context {V : Type}.
(** how many handles a trace has begun to make *)
Fixpoint allocations (es : list (@event V)) : nat :=
  match es with [] => 0 | EAdd _ :: r => S (allocations r) | _ :: r => allocations r end.
(** New returned this handle somewhere in the trace *)
Definition returned (id : Z) (es : list (@event V)) : Prop := exists t v, In (ENew t id v) es.
Definition freed (id : Z) (es : list (@event V)) : Prop := exists t, In (EFree t id) es.
End Events.

(** ** Flattening *)
(** [x] in [n] bytes, the least significant first *)
Inductive little_endian : nat -> Z -> bytes -> Prop :=
| le_none x : little_endian 0 x []
| le_more n x b r : is_byte b -> x mod 256 = b -> little_endian n (x / 256) r -> little_endian (S n) x (b :: r).
(** [flattened t v c b os]: the bytes of a value of the type when [c] handles were given out
    before; [os]: what the handles in it stand for, in order *)
Inductive flattened : ftype -> fval -> Z -> bytes -> list Z -> Prop :=
| flat_int w z c n b : 8 * Z.of_nat n = w -> little_endian n (z mod 2 ^ w) b -> flattened (FInt w) (VInt z) c b []
| flat_uint w z c n b : 8 * Z.of_nat n = w -> little_endian n z b -> 0 <= z < 2 ^ w -> flattened (FUint w) (VUint z) c b []
| flat_float w z c n b : 8 * Z.of_nat n = w -> little_endian n z b -> flattened (FFloat w) (VFloat z) c b []
| flat_complex w re im c n b1 b2 : 16 * Z.of_nat n = w -> little_endian n re b1 -> little_endian n im b2 ->
    flattened (FComplex w) (VComplex re im) c (b1 ++ b2) []
| flat_ref o c b : little_endian 8 (c + 1) b -> flattened FRef (VRef o) c b [o]
| flat_array n e vs c b os : length vs = n -> flattened_all (map (fun v => (e, v)) vs) c b os -> flattened (FArray n e) (VArray vs) c b os
| flat_struct ts vs c b os : length ts = length vs -> flattened_all (combine ts vs) c b os -> flattened (FStruct ts) (VStruct vs) c b os
with flattened_all : list (ftype * fval) -> Z -> bytes -> list Z -> Prop :=
| flat_nil c : flattened_all [] c [] []
| flat_cons t v r c b1 os1 b2 os2 : flattened t v c b1 os1 -> flattened_all r (c + zlen os1) b2 os2 ->
    flattened_all ((t, v) :: r) c (b1 ++ b2) (os1 ++ os2).
(** the values of a type *)
Definition width (w : Z) : Prop := In w [8; 16; 32; 64].
Inductive of_type : ftype -> fval -> Prop :=
| of_bool b : of_type FBool (VBool b)
| of_int w z : width w -> - 2 ^ (w - 1) <= z < 2 ^ (w - 1) -> of_type (FInt w) (VInt z)
| of_uint w z : width w -> 0 <= z < 2 ^ w -> of_type (FUint w) (VUint z)
| of_float w z : In w [32; 64] -> 0 <= z < 2 ^ w -> of_type (FFloat w) (VFloat z)
| of_complex w re im : In w [64; 128] -> 0 <= re < 2 ^ (w / 2) -> 0 <= im < 2 ^ (w / 2) -> of_type (FComplex w) (VComplex re im)
| of_ref o : of_type FRef (VRef o)
| of_array n e vs : length vs = n -> Forall (of_type e) vs -> of_type (FArray n e) (VArray vs)
| of_struct ts vs : Forall2 of_type ts vs -> of_type (FStruct ts) (VStruct vs).
(** no bool and no complex64 inside *)
Inductive plain : ftype -> Prop :=
| plain_int w : plain (FInt w) | plain_uint w : plain (FUint w) | plain_float w : plain (FFloat w)
| plain_complex : plain (FComplex 128) | plain_ref : plain FRef
| plain_array n e : plain e -> plain (FArray n e)
| plain_struct ts : Forall plain ts -> plain (FStruct ts).

(** ** The API *)
(** the last number of kind [k] set at [p], 0 before any *)
Definition last_number (k : kind) (p : Z) (ops : list op) : Z :=
  fold_left (fun acc o => match o with Encode k' h z => if kind_dec k k' then if h =? p then z else acc else acc | _ => acc end) ops 0.
(** how often something was decoded from [d] *)
Definition decodings (d : Z) (ops : list op) : nat :=
  length (filter (fun o => match o with Decode _ h | DecodeString h => h =? d | _ => false end) ops).
(** the number of operations does not exhaust the handles *)
Definition enough_handles (ops : list op) : Prop := Z.of_nat (length ops) < 2 ^ 64.
