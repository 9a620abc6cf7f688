(** Model of api/wasm: the words that arguments and results of functions called from WebAssembly are passed in
    (export.go), finding functions by name (export.go, import_wasm.go), and the life of a Runner (runner.go). *)
From Verif Require Import GoBase GoText.
Local Open Scope Z_scope.
Local Open Scope list_scope.

(** ** Types and values *)
(** A Go type: numbers by their width in bits (int and uint: 64), [PString], any other kind that is passed as one
    i64 (slices, maps, channels, functions, pointers, interfaces), structs with whether each field is exported,
    and arrays. *)
Inductive prim := PBool | PInt (w : Z) | PUint (w : Z) | PF32 | PF64 | PC64 | PC128 | PString | POther.
Inductive ty := Prim (p : prim) | Struct (fs : list (bool * ty)) | Array (n : nat) (t : ty).
(** Floats are their bits (that Go may quieten a signalling NaN is not modelled). *)
Inductive value := VBool (b : bool) | VInt (z : Z) | VBits (z : Z) | VComplex (re im : Z) | VString (s : bytes) | VOther | VStruct (vs : list value) | VArray (vs : list value).
(** t.Size() == 0 *)
Fixpoint size0 (t : ty) : bool :=
  match t with
  | Prim _ => false
  | Struct fs => (fix go (l : list (bool * ty)) : bool := match l with [] => true | (_, t) :: r => size0 t && go r end) fs
  | Array n t => Nat.eqb n 0 || size0 t
  end.
(** reflect.Zero, of types of size 0. *)
Fixpoint zero0 (t : ty) : value :=
  match t with
  | Prim _ => VOther
  | Struct fs => VStruct ((fix go (l : list (bool * ty)) : list value := match l with [] => [] | (_, t) :: r => zero0 t :: go r end) fs)
  | Array n t => VArray (repeat (zero0 t) n)
  end.
(** ** export.go:16-48 [goTypeToWasmTypes] *)
Inductive valtype := I32 | I64 | F32 | F64.
Definition valtypes_prim (p : prim) : list valtype :=
  match p with
  | PBool => [I32]
  | PInt w | PUint w => [if w =? 64 then I64 else I32]
  | PString | POther => [I64]
  | PF32 => [F32] | PF64 => [F64]
  | PC64 => [F32; F32] | PC128 => [F64; F64]
  end.
Fixpoint valtypes (t : ty) : list valtype :=
  match t with
  | Prim p => valtypes_prim p
  | Struct fs => (fix go (l : list (bool * ty)) : list valtype := match l with [] => [] | (_, t) :: r => valtypes t ++ go r end) fs
  | Array n t => concat (repeat (valtypes t) n)
  end.
(** ** export.go:50-106 [decodeGoValueFromWasmStack]; [None]: a panic *)
Definition signed (w x : Z) : Z := let m := x mod 2 ^ w in if m <? 2 ^ (w - 1) then m else m - 2 ^ w.
Definition decode_prim (p : prim) (st : list Z) : option (value * list Z) :=
  match p with
  | PString | POther => None
  | PC64 => match st with a :: b :: r => Some (VComplex (a mod 2 ^ 32) (b mod 2 ^ 32), r) | _ => None end
  | PC128 => match st with a :: b :: r => Some (VComplex a b, r) | _ => None end
  | _ =>
    match st with
    | [] => None
    | x :: r =>
      Some (match p with
      | PBool => VBool (negb (x =? 0))
      | PInt w => VInt (signed w x)
      | PUint w => VInt (x mod 2 ^ w)
      | PF32 => VBits (x mod 2 ^ 32)
      | _ => VBits x
      end, r)
    end
  end.
Fixpoint decode (t : ty) (st : list Z) : option (value * list Z) :=
  if size0 t then Some (zero0 t, st)
  else match t with
  | Prim p => decode_prim p st
  | Struct fs =>
    match (fix go (l : list (bool * ty)) (st : list Z) : option (list value * list Z) :=
      match l with
      | [] => Some ([], st)
      | (exported, t) :: r =>
        match decode t st with
        | None => None
        | Some (v, st) => if exported then match go r st with Some (vs, st) => Some (v :: vs, st) | None => None end else None
        end
      end) fs st with Some (vs, st) => Some (VStruct vs, st) | None => None end
  | Array n t =>
    match (fix go (n : nat) (st : list Z) : option (list value * list Z) :=
      match n with
      | O => Some ([], st)
      | S n => match decode t st with None => None | Some (v, st) => match go n st with Some (vs, st) => Some (v :: vs, st) | None => None end end
      end) n st with Some (vs, st) => Some (VArray vs, st) | None => None end
  end.
(** ** export.go:108-165 [encodeGoValueToWasmStack]: what the words are after it, and those not reached *)
Section Strings.
(** ffi.NewString: the handle of a string. *)
Variable new_string : bytes -> Z.
Definition encode_prim (p : prim) (v : value) (st : list Z) : option (list Z * list Z) :=
  match p, v with
  | PC64, VComplex re im | PC128, VComplex re im => match st with _ :: _ :: r => Some ([re; im], r) | _ => None end
  | POther, _ => None
  | _, _ =>
    match st with
    | [] => None
    | old :: r =>
      match p, v with
      | PBool, VBool b => Some ([if b then 1 else 0], r)
      | PInt w, VInt z =>
        if w =? 8 then Some ([old - old mod 2 ^ 8 + z mod 2 ^ 8], r)
        else if w =? 16 then Some ([old - old mod 2 ^ 16 + z mod 2 ^ 16], r)
        else Some ([z mod 2 ^ w], r)
      | PUint w, VInt z => Some ([z mod 2 ^ w], r)
      | PF32, VBits z | PF64, VBits z => Some ([z], r)
      | PString, VString s => Some ([new_string s], r)
      | _, _ => None
      end
    end
  end.
Fixpoint encode (t : ty) (v : value) (st : list Z) : option (list Z * list Z) :=
  match t, v with
  | Prim p, v => encode_prim p v st
  | Struct fs, VStruct vs =>
    (fix go (l : list (bool * ty)) (vs : list value) (st : list Z) : option (list Z * list Z) :=
      match l, vs with
      | [], [] => Some ([], st)
      | (_, t) :: r, v :: vs => match encode t v st with Some (w, st) => match go r vs st with Some (ws, st) => Some (w ++ ws, st) | None => None end | None => None end
      | _, _ => None
      end) fs vs st
  | Array n t, VArray vs =>
    (fix go (vs : list value) (st : list Z) : option (list Z * list Z) :=
      match vs with
      | [] => Some ([], st)
      | v :: vs => match encode t v st with Some (w, st) => match go vs st with Some (ws, st) => Some (w ++ ws, st) | None => None end | None => None end
      end) vs st
  | _, _ => None
  end.
(** ** export.go:167-209 [export_api], one function *)
(** Its signature: whether it takes a context and gives an error, and the others. *)
Record signature := { ctx : bool; ins : list ty; outs : list ty; err : bool }.
Definition params (s : signature) : list valtype := (if ctx s then [I64] else []) ++ concat (map valtypes (ins s)).
Definition results (s : signature) : list valtype :=
  let r := concat (map valtypes (outs s)) ++ (if err s then [I64] else []) in
  if Nat.ltb 1 (length r) then [I64] else r.
(** wazero: the words of the parameters, and room for the results. *)
Definition stack_length (s : signature) : nat := Nat.max (length (params s)) (length (results s)).
Fixpoint decode_all (ts : list ty) (st : list Z) : option (list value) :=
  match ts with [] => Some [] | t :: r => match decode t st with Some (v, st) => match decode_all r st with Some vs => Some (v :: vs) | None => None end | None => None end end.
(** A call with the words [st]; [None]: a panic. The implementation gives its results or an error. *)
Definition host_call {E} (s : signature) (impl : list value -> list value + E) (st : list Z) : option (list Z) :=
  match ins s, outs s with
  | [], [] => Some st
  | _, _ =>
    if ctx s then None
    else match decode_all (ins s) st with
    | None => None
    | Some args =>
      match impl args with
      | inr _ => None
      | inl vs =>
        match Nat.max (length vs) (length (results s)) with
        | O => Some st
        | S O => match vs, outs s with v :: _, t :: _ => match encode t v st with Some (ws, rest) => Some (ws ++ rest) | None => None end | _, _ => None end
        | _ => None
        end
      end
    end
  end.
End Strings.

(** ** Finding functions: export.go:211-269 [dynamic_link] *)
(** A library: its name and its functions; a handle is not 0. *)
Record library := { l_name : bytes; l_funcs : list (bytes * Z) }.
(** The maps: a later entry replaces an earlier one. *)
Definition last_of {A} (k : bytes) (m : list (bytes * A)) : option A := match find (fun x => beq (fst x) k) (rev m) with Some (_, v) => Some v | None => None end.
Fixpoint numbered (n : Z) (ls : list library) : list (bytes * Z) := match ls with [] => [] | l :: r => (l_name l, n) :: numbered (n + 1) r end.
Definition dlopen (ls : list library) (name : bytes) : Z := match last_of name (numbered 1 ls) with Some n => n | None => 0 end.
(** [None]: a panic: library - 1 is an unsigned number. *)
Definition dlsym (ls : list library) (lib : Z) (name : bytes) : option Z :=
  match nth_error ls (Z.to_nat ((lib - 1) mod 2 ^ 64)) with
  | Some l => Some (match last_of name (l_funcs l) with Some f => f | None => 0 end)
  | None => None
  end.
(** import_wasm.go:67-106 [Import]: for each function of an API its handle; [None]: the host panics. *)
Fixpoint import_all (ls : list library) (lib : Z) (fns : list bytes) : option (list (bytes * Z)) :=
  match fns with [] => Some [] | f :: r => match dlsym ls lib f with Some h => match import_all ls lib r with Some m => Some ((f, h) :: m) | None => None end | None => None end end.
Definition import (ls : list library) (name : bytes) (fns : list bytes) : option (list (bytes * Z)) := import_all ls (dlopen ls name) fns.

(** ** runner.go *)
Section Runner.
(** A file, the time functions. *)
Variables (File Nano Wall : Type).
(** wazero: a runtime has a number and the names of its host modules; a compiled module can be instantiated only
    by the runtime that compiled it. *)
Record runtime := { r_id : nat; r_names : list bytes }.
(** runner.go:138-163: what of it matters here. *)
Record wasi := { w_memory : Z; w_wall : option Wall; w_nano : option Nano }.
Record runner := { file : option File; module : option (nat * option File); apis : list bytes; dirty : bool; rt : option runtime; fresh : nat; sys : wasi }.
Definition new_runner : runner := {| file := None; module := None; apis := []; dirty := false; rt := None; fresh := 0; sys := {| w_memory := 0; w_wall := None; w_nano := None |} |}.
(** runner.go:191-201 *)
Definition add (name : bytes) (r : runner) : runner := {| file := file r; module := module r; apis := apis r ++ [name]; dirty := true; rt := rt r; fresh := fresh r; sys := sys r |}.
Definition set_system (s : wasi) (r : runner) : runner := {| file := file r; module := module r; apis := apis r; dirty := true; rt := rt r; fresh := fresh r; sys := s |}.
Definition set (f : File) (r : runner) : runner := {| file := Some f; module := module r; apis := apis r; dirty := dirty r; rt := rt r; fresh := fresh r; sys := sys r |}.
(** runner.go:209-224 [assertRuntime]: a new runtime, with the module of wasi_snapshot_preview1. The flag is
    never reset. *)
Definition wasi_name : bytes := [119].
Definition assert_runtime (r : runner) : runner :=
  if dirty r || match rt r with None => true | Some _ => false end
  then {| file := file r; module := module r; apis := apis r; dirty := dirty r; rt := Some {| r_id := fresh r; r_names := [wasi_name] |}; fresh := S (fresh r); sys := sys r |}
  else r.
(** runner.go:203-207 [Compile] *)
Definition compile (r : runner) : runner :=
  let r := assert_runtime r in
  match rt r with
  | Some x => {| file := file r; module := Some (r_id x, file r); apis := apis r; dirty := dirty r; rt := rt r; fresh := fresh r; sys := sys r |}
  | None => r
  end.
(** runner.go:226-284 [Run]: the file that was run, with the names of the host modules it can import from, an
    error, or a panic. Instantiating a name twice panics (export.go:206-208, 266-268). *)
Inductive outcome := Ran (f : option File) (names : list bytes) | Failed | Panicked.
Definition ffi_name : bytes := [102; 102; 105].
Definition link_name : bytes := [114; 46; 108].
Fixpoint instantiate (names : list bytes) (have : list bytes) : option (list bytes) :=
  match names with [] => Some have | n :: r => if existsb (beq n) have then None else instantiate r (have ++ [n]) end.
Definition run (r : runner) : outcome * runner :=
  let r := assert_runtime r in
  match rt r with
  | None => (Panicked, r)
  | Some x =>
    match instantiate (ffi_name :: apis r ++ [link_name]) (r_names x) with
    | None => (Panicked, r)
    | Some names =>
      let r' := {| file := file r; module := module r; apis := apis r; dirty := dirty r; rt := Some {| r_id := r_id x; r_names := names |}; fresh := fresh r; sys := sys r |} in
      match module r with
      | None => (Ran (file r) names, r')
      | Some (id, f) => if Nat.eqb id (r_id x) then (Ran f names, r') else (Failed, r')
      end
    end
  end.
(** runner.go:259-264: the clocks of a module: [None]: wazero's own; [Some None]: a nil function. *)
Record clocks := { c_nano : option (option Nano); c_wall : option (option Wall) }.
Definition clocks_of (s : wasi) : clocks :=
  {| c_nano := match w_wall s with Some _ => Some (w_nano s) | None => None end;
     c_wall := match w_nano s with Some _ => Some (w_wall s) | None => None end |}.
(** runner.go:217-219: the limit in pages of 65536 bytes, if there is one. *)
Definition pages (s : wasi) : option Z := if 0 <? w_memory s then Some ((w_memory s / 65536) mod 2 ^ 32) else None.
End Runner.
