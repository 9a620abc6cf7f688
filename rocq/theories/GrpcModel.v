(** Model of api/grpc/enc.go: the reflection-driven protobuf Encoder.

    A Go value is the tree that reflection walks.  Simplifications:
    - integer widths are forgotten (reflect's Int()/Uint() widen to 64 bits before use);
    - floats are their IEEE bit patterns (math.Float32bits / Float64bits);
    - a map is the list of its entries in the iteration order Go happens to choose;
      sizeof_map and encode_map may iterate in different orders, but the former only sums;
    - interfaces and pointers are the same case in the code and in the model;
    - Go [int] sums of sizes are not wrapped (the theorems bound the total size);
    - values reached through unexported fields are read as exported ones are (reflect allows
      reading scalars; a map below an unexported field would panic in SetIterKey). *)
From Verif Require Import GoBase WireModel.

Inductive gval :=
| GBool (b : bool)
| GInt (z : Z)
| GUint (z : Z)
| GFloat32 (bits : Z)
| GFloat64 (bits : Z)
| GString (s : bytes)
| GArray (vs : list gval)
| GSlice (vs : list gval)
| GMap (es : list (gval * gval))
| GNil                      (* nil pointer or nil interface *)
| GPtr (v : gval)           (* non-nil pointer or interface *)
| GStruct (vs : list gval)
| GUnsupported.             (* chan, func, complex, uintptr, unsafe.Pointer *)

(* wireNumber(i)+1 with wireNumber = int32 *)
Definition fieldNumber (i : Z) : Z := i32 (i32 i + 1).

(* api/grpc/enc.go:41-88  sizeof, with sizeof_map (186-209) for maps *)
Fixpoint sizeof (n : Z) (v : gval) : Z * Z :=
  match v with
  | GBool _ => (sizeTag n, 1)
  | GInt z => (sizeTag n, sizeVarint (encodeInt z))
  | GUint z => (sizeTag n, sizeVarint z)
  | GFloat32 _ => (sizeTag n, 4)
  | GFloat64 _ => (sizeTag n, 8)
  | GString s => (sizeTag n + sizeVarint (u64 (zlen s)), zlen s)
  | GArray vs | GStruct vs =>
      let size := (fix go (i : Z) (vs : list gval) : Z :=
        match vs with
        | [] => 0
        | x :: r => let '(head, body) := sizeof (fieldNumber i) x in head + body + go (i + 1) r
        end) 0 vs in
      (sizeTag n + sizeVarint (u64 size), size)
  | GSlice vs =>
      (0, (fix go (vs : list gval) : Z :=
        match vs with
        | [] => 0
        | x :: r => let '(head, body) := sizeof n x in head + body + go r
        end) vs)
  | GMap es =>
      let size := (fix go (es : list (gval * gval)) : Z :=
        match es with
        | [] => 0
        | (k, x) :: r =>
            let '(kh, kb) := sizeof 1 k in let '(xh, xb) := sizeof 2 x in
            kh + kb + xh + xb + go r
        end) es in
      (sizeTag n + sizeVarint (u64 size), size)
  | GNil => (0, 0)
  | GPtr x => sizeof n x
  | GUnsupported => (-1, 0)
  end.

(** An io.Writer that fails once [left] writes have been accepted ([None]: never fails). *)
Record writer := mkWriter { left : option nat; out : bytes }.
Inductive err := ENone | EWrite | EUnsupported.
(* api/grpc/enc.go:20-30  write, write_string *)
Definition write (w : writer) (b : bytes) : writer * err :=
  match left w with
  | Some O => (w, EWrite)
  | Some (S k) => (mkWriter (Some k) (out w ++ b), ENone)
  | None => (mkWriter None (out w ++ b), ENone)
  end.
(* if err != nil { return err } *)
Definition andThen (r : outcome (writer * err)) (k : writer -> outcome (writer * err))
  : outcome (writer * err) :=
  match r with
  | Ok (w, ENone) => k w
  | _ => r
  end.

(* api/grpc/enc.go:90-167 encode, with encode_map (211-249).  Division by [rvalue.Len()] = 0
   is a run-time panic. *)
Fixpoint encode (w : writer) (n : Z) (v : gval) : outcome (writer * err) :=
  match v with
  | GBool b => Ok (write w (appendVarint (appendTag [] n typeVarint) (encodeBool b)))
  | GInt z => Ok (write w (appendVarint (appendTag [] n typeVarint) (encodeInt z)))
  | GUint z => Ok (write w (appendVarint (appendTag [] n typeVarint) z))
  | GFloat32 x => Ok (write w (appendFixed32 (appendTag [] n typeFixed32) x))
  | GFloat64 x => Ok (write w (appendFixed64 (appendTag [] n typeFixed64) x))
  | GString s =>
      andThen (Ok (write w (appendVarint (appendTag [] n typeBytes) (u64 (zlen s)))))
        (fun w => Ok (write w s))
  | GArray vs | GStruct vs =>
      let '(_, size) := sizeof n v in
      andThen (Ok (write w (appendVarint (appendTag [] n typeBytes) (u64 size))))
        (fun w => (fix go (w : writer) (i : Z) (vs : list gval) : outcome (writer * err) :=
          match vs with
          | [] => Ok (w, ENone)
          | x :: r => andThen (encode w (fieldNumber i) x) (fun w => go w (i + 1) r)
          end) w 0 vs)
  | GSlice vs =>
      (fix go (w : writer) (vs : list gval) : outcome (writer * err) :=
        match vs with
        | [] => Ok (w, ENone)
        | x :: r => andThen (encode w n x) (fun w => go w r)
        end) w vs
  | GMap es =>
      let '(_, size) := sizeof n v in
      if zlen es =? 0 then Panic else
      let size := Z.quot size (zlen es) in
      (fix go (w : writer) (es : list (gval * gval)) : outcome (writer * err) :=
        match es with
        | [] => Ok (w, ENone)
        | (k, x) :: r =>
            andThen (Ok (write w (appendVarint (appendTag [] n typeBytes) (u64 size))))
              (fun w => andThen (encode w 1 k) (fun w => andThen (encode w 2 x) (fun w => go w r)))
        end) w es
  | GNil => Ok (w, ENone)
  | GPtr x => encode w n x
  | GUnsupported => Ok (w, EUnsupported)
  end.

(* api/grpc/enc.go:34-39  Encode; [None] is the untyped nil, whose reflect.Value has no Type. *)
Definition Encode (w : writer) (v : option gval) : outcome (writer * err) :=
  match v with
  | None => Panic
  | Some v => encode w 1 v
  end.
