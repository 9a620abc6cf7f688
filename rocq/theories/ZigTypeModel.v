(** * zgo: the Zig types of Go types (zgo/internal/target/zigc/types.go:28-163 [TypeOf],
    166-221 [ReflectTypeOf]; build_runtime.zig:3-59 for what the runtime declares).

    The text is modelled as what Zig's tokenizer makes of it: names (with the character @
    that begins a quoted one left to [TQuoted]), numbers and single characters, white space
    left out. Texts with different tokens are different. *)
From Coq Require Import List Arith ZArith String Bool.
Import ListNotations.
Local Open Scope string_scope.
Local Open Scope list_scope.

(** ** Go's types (go/types)

    [Named]: a defined type is the package its name is declared in, its name, and [n] for
    which of the types of that name it is: one declared in a function, or an instance of a
    generic one (types.Named.Obj does not tell those apart). Aliases stand for what they
    name. Constraints, type parameters and tuples are left out. *)
Inductive basic :=
| Bool | Int | Int8 | Int16 | Int32 | Int64 | Uint | Uint8 | Uint16 | Uint32 | Uint64 | Uintptr
| Float32 | Float64 | Complex64 | Complex128 | Str | UnsafePointer | UntypedNil.
Inductive direction := Both | SendOnly | RecvOnly.
Record package := { path : string; pkg_name : string }.
Inductive ty :=
| Basic (b : basic)
| Named (p : package) (name : string) (n : nat)
| Universe (name : string)                 (* error *)
| Array (len : nat) (e : ty)
| Slice (e : ty)
| Pointer (e : ty)
| Chan (d : direction) (e : ty)
| Map (k e : ty)
| Func (variadic : bool) (params results : tys)
| Struct (fs : fields)
| Interface (ms : methods)
with tys := TNil | TCons (t : ty) (r : tys)
with fields := FNil | FCons (name : string) (embedded : bool) (tag : string) (t : ty) (r : fields)
with methods := MNil | MCons (name : string) (variadic : bool) (params results : tys) (r : methods).

Inductive tok :=
| TName (s : string)
| TQuoted (pkg name : string)              (* @"pkg.name" *)
| TQuotedName (s : string)                 (* @"name" *)
| TNumber (n : nat)
| TChar (c : string).

Definition text := list tok.
Definition ch (c : string) : text := [TChar c].
(** go.x *)
Definition go (s : string) : text := [TName "go"; TChar "."; TName s].

(** types.go:31-65; 66-68 panics *)
Definition basic_text (b : basic) : option text :=
  match b with
  | Bool => Some [TName "bool"]
  | Int => Some (go "int") | Int8 => Some (go "int8") | Int16 => Some (go "int16")
  | Int32 => Some (go "int32") | Int64 => Some (go "int64")
  | Uint => Some (go "uint") | Uint8 => Some (go "uint8") | Uint16 => Some (go "uint16")
  | Uint32 => Some (go "uint32") | Uint64 => Some (go "uint64") | Uintptr => Some (go "uintptr")
  | Float32 => Some (go "float32") | Float64 => Some (go "float64")
  | Str => Some (go "string")
  | Complex64 => Some (go "complex64") | Complex128 => Some (go "complex128")
  | UnsafePointer | UntypedNil => None
  end.

(** types.go:91-101 *)
Definition named_text (current : string) (p : package) (name : string) : text :=
  if String.eqb (pkg_name p) "testing" then go "testing" ++ [TChar "."; TName name]
  else if String.eqb (pkg_name p) current then [TName name]
  else [TQuoted (pkg_name p) name].

Definition opt {A B} (f : A -> option B) (x : option A) : option B := match x with Some a => f a | None => None end.
Notation "'let?' x ':=' a 'in' b" := (opt (fun x => b) a) (at level 200, x name, a at level 100, b at level 200).

(** types.go:28-163; [None]: the compiler panics *)
Fixpoint type_of (current : string) (t : ty) : option text :=
  match t with
  | Basic b => basic_text b
  | Named p name _ => Some (named_text current p name)
  | Universe name => Some [TQuoted "go" name]
  | Array n e => let? x := type_of current e in Some ([TChar "["; TNumber n; TChar "]"] ++ x)
  | Slice e => let? x := type_of current e in Some (go "slice" ++ ch "(" ++ x ++ ch ")")
  | Pointer e => let? x := type_of current e in Some (go "pointer" ++ ch "(" ++ x ++ ch ")")
  | Chan _ e => let? x := type_of current e in Some (go "chan" ++ ch "(" ++ x ++ ch ")")
  | Map k e =>
      match k with
      | Basic Str => let? x := type_of current e in Some (go "smap" ++ ch "(" ++ x ++ ch ")")
      | _ => let? y := type_of current k in let? x := type_of current e in
             Some (go "map" ++ ch "(" ++ y ++ ch "," ++ x ++ ch ")")
      end
  | Func _ ps rs =>
      let? x := params_text current ps in let? y := result_text current rs in
      Some (go "func" ++ ch "(" ++ [TName "fn"; TChar "("; TChar "*"; TName "const"; TName "anyopaque"; TChar ",";
                                    TChar "?"; TChar "*"] ++ go "routine" ++ x ++ ch ")" ++ y ++ ch ")")
  | Interface MNil => Some (go "any")
  | Interface ms =>
      let? x := methods_text current true ms in
      Some (go "interface" ++ [TChar "("; TName "struct"; TChar "{"] ++ x ++ [TChar "}"; TChar ")"])
  | Struct fs => let? x := fields_text current true fs in Some ([TName "struct"; TChar "{"] ++ x ++ ch "}")
  end
(** 76-80, 124-128: each with a comma before it *)
with params_text (current : string) (l : tys) : option text :=
  match l with
  | TNil => Some []
  | TCons t r => let? x := type_of current t in let? y := params_text current r in Some (ch "," ++ x ++ y)
  end
(** 82-88, 130-136 *)
with result_text (current : string) (l : tys) : option text :=
  match l with
  | TNil => Some [TName "void"]
  | TCons t TNil => type_of current t
  | TCons _ (TCons _ _) => None
  end
(** 143-152 *)
with fields_text (current : string) (first : bool) (l : fields) : option text :=
  match l with
  | FNil => Some []
  | FCons name _ _ t r =>
      let? x := type_of current t in let? y := fields_text current false r in
      Some ((if first then [] else ch ",") ++ [TName name; TChar ":"] ++ x ++ y)
  end
(** 115-137 *)
with methods_text (current : string) (first : bool) (l : methods) : option text :=
  match l with
  | MNil => Some []
  | MCons name _ ps rs r =>
      let? x := params_text current ps in let? z := result_text current rs in let? y := methods_text current false r in
      Some ((if first then [] else ch ",") ++
            [TName name; TChar ":"; TChar "*"; TName "const"; TName "fn"; TChar "("; TChar "?"; TChar "*"] ++ go "routine" ++
            [TChar ","; TChar "*"; TName "const"; TName "anyopaque"] ++ x ++ ch ")" ++ z ++ y)
  end.

(** ** Reflection: types.go:166-221, without the leading & *)
Definition reflect_basic (b : basic) : option text :=
  match b with
  | Bool => Some [TName "go"; TChar "."; TQuotedName "bool.(type)"]
  | Int => Some [TName "go"; TChar "."; TQuotedName "int.(type)"]
  | Int8 => Some [TName "go"; TChar "."; TQuotedName "int8.(type)"]
  | Int16 => Some [TName "go"; TChar "."; TQuotedName "int16.(type)"]
  | Int32 => Some [TName "go"; TChar "."; TQuotedName "int32.(type)"]
  | Int64 => Some [TName "go"; TChar "."; TQuotedName "int64.(type)"]
  | Uint => Some [TName "go"; TChar "."; TQuotedName "uint.(type)"]
  | Uint8 => Some [TName "go"; TChar "."; TQuotedName "uint8.(type)"]
  | Uint16 => Some [TName "go"; TChar "."; TQuotedName "uint16.(type)"]
  | Uint32 => Some [TName "go"; TChar "."; TQuotedName "uint32.(type)"]
  | Uint64 => Some [TName "go"; TChar "."; TQuotedName "uint64.(type)"]
  | Uintptr => Some [TName "go"; TChar "."; TQuotedName "uintptr.(type)"]
  | Float32 => Some [TName "go"; TChar "."; TQuotedName "float32.(type)"]
  | Float64 => Some [TName "go"; TChar "."; TQuotedName "float64.(type)"]
  | Str => Some [TName "go"; TChar "."; TQuotedName "string)"]
  | Complex64 => Some [TName "go"; TChar "."; TQuotedName "complex64)"]
  | Complex128 => Some [TName "go"; TChar "."; TQuotedName "complex128)"]
  | UnsafePointer | UntypedNil => None
  end.
(** build_runtime.zig:4-50: the declarations of the runtime whose name ends in (type), and
    the name and kind each has *)
Definition runtime_types : list (string * (string * string)) :=
  [("int.(type)", ("int", "Int")); ("int8.(type)", ("int8", "Int8")); ("int16.(type)", ("int16", "Int16"));
   ("int32.(type)", ("int32", "Int32")); ("int64.(type)", ("int64", "Int64"));
   ("uint.(type)", ("uint", "Uint")); ("uint8.(type)", ("uint8", "Uint8")); ("uint16.(type)", ("uint16", "Uint16"));
   ("uint32.(type)", ("uint32", "Uint32")); ("uint64.(type)", ("uint64", "Uint64")); ("uintptr.(type)", ("uintptr", "Uintptr"));
   ("float32.(type)", ("float32", "Float32")); ("float64.(type)", ("float64", "Float64"));
   ("complex64.(type)", ("complex64", "Complex64")); ("complex128.(type)", ("complex128", "Complex128"));
   ("string.(type)", ("string", "String")); ("error.(type)", ("error", "Interface"))].
(** what Zig finds under it *)
Definition reflected (t : option text) : option (string * string) :=
  match t with
  | Some [TName "go"; TChar "."; TQuotedName s] =>
      option_map snd (List.find (fun p => String.eqb (fst p) s) runtime_types)
  | _ => None
  end.
(** build_runtime.zig:4-37: what the names of basic types stand for in Zig, on a target of [w] bits *)
Inductive zig_type := ZBool | ZSigned (bits : nat) | ZUnsigned (bits : nat) | ZSize (signed : bool) | ZFloat (bits : nat) | ZComplex (bits : nat) | ZString.
Definition zig_basic (b : basic) : option zig_type :=
  match b with
  | Bool => Some ZBool
  | Int => Some (ZSize true) | Int8 => Some (ZSigned 8) | Int16 => Some (ZSigned 16) | Int32 => Some (ZSigned 32) | Int64 => Some (ZSigned 64)
  | Uint | Uintptr => Some (ZSize false)
  | Uint8 => Some (ZUnsigned 8) | Uint16 => Some (ZUnsigned 16) | Uint32 => Some (ZUnsigned 32) | Uint64 => Some (ZUnsigned 64)
  | Float32 => Some (ZFloat 32) | Float64 => Some (ZFloat 64)
  | Complex64 => Some (ZComplex 32) | Complex128 => Some (ZComplex 64)
  | Str => Some ZString
  | UnsafePointer | UntypedNil => None
  end.
(** how many basic types the runtime can tell: build_runtime.zig:61 [error] is declared
    under the name error, and mentioned by TypeOf as go.error in quotes *)
Definition declared (t : text) : bool :=
  match t with [TQuoted "go" _] => false | _ => true end.
