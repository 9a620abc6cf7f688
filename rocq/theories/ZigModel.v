(** * zgo: the printer of Zig expressions, and how Go and Zig read them.

    zgo compiles Go by walking the syntax tree of the Go program and printing
    Zig source text, which the Zig compiler then parses again.  This file models
    - the tokens of the two languages that the printer can produce,
    - the expression grammar of the two languages (the same precedence-climbing
      algorithm with two different tables),
    - the printer of expressions (zgo/internal/target/zigc/expressions.go),
    - what a Go expression and a Zig expression evaluate to. *)
From Coq Require Import ZArith List Bool Lia.
Import ListNotations.
Open Scope Z_scope.

(** ** Operators and tokens *)

(** the binary operators of Go (go/token; the printer passes every one through,
    zgo/internal/target/zigc/expressions.go:27-62) *)
Inductive binop :=
| OMul | ODiv | ORem | OShl | OShr | OAnd | OAndNot
| OAdd | OSub | OOr | OXor
| OEq | ONe | OLt | OLe | OGt | OGe
| OLand | OLor.

(** the unary operators of Go that the printer passes through unchanged
    (zgo/internal/target/zigc/expressions.go:205-221, the default case) *)
Inductive unop := UNeg | UPos | UNot | UCompl.

(** the integer types the model distinguishes: signedness and width
    (zgo/internal/target/zigc/build_runtime.zig:4-27) *)
Record ikind := IK { ik_signed : bool; ik_bits : Z }.
Definition k_int : ikind := IK true 64.
Definition k_uint : ikind := IK false 64.
Definition k_uint8 : ikind := IK false 8.

(** methods of the Zig runtime that the printer calls on an indexed operand
    (expressions.go:110-149) *)
Inductive meth := MIndex | MGet.

(** The tokens of both languages.  A name is the number of the Go object it
    resolves to: ZigName.v shows that the printed names and the objects are in
    one-to-one correspondence. *)
Inductive tok :=
| TName (n : nat) | TInt (z : Z) | TStr (s : list Z) | TTrue | TFalse | TNil
| TLp | TRp | TLb | TRb | TComma
| TBin (o : binop)      (* an operator written as in Go: + << && ... *)
| TAnd | TOr            (* the Zig keywords and, or *)
| TBang | TTilde | TCaretAmp
| TMeth (m : meth)      (* .index  .get *)
| TAddress              (* .address *)
| TEquality             (* go.equality *)
| TGoString             (* go.string *)
(* statements *)
| TVarKw | TColon | TTy (k : ikind) | TTyBool | TTyStr
| TAsg | TOpAsg (o : binop) | TSemi | TLc | TRc
| TIf | TElse | TWhile | TFor | TSwitch | TBreak | TContinue | TReturn
| TLabel (l : nat) | TDots | TAs | TPipe | TArrow | TPrintln | TDefer | TUnder.

(** ** Expression trees, shared by the two languages *)
Inductive expr :=
| EVar (n : nat)
| EInt (z : Z)
| EBool (b : bool)
| EStr (s : list Z)
| ENil
| EParen (e : expr)
| EUn (u : unop) (e : expr)
| EBin (o : binop) (a b : expr)
| EIdx (x i : expr)               (* x[i] *)
| EMeth (m : meth) (x i : expr)   (* x.index(i), x.get(i): Zig only *)
| EAddress (x : expr)             (* x.address: Zig only *)
| EStrEq (a b : expr).            (* go.equality(go.string, a, b): Zig only *)

(** ** The two expression grammars

    Both go/parser (parseBinaryExpr) and std.zig.Parse (parseExprPrecedence)
    climb precedences with the same loop; they differ in the table, in the
    spelling of the operators, and in that Zig refuses chained comparisons. *)
Record lang := {
  l_bin : tok -> option binop;   (* the tokens that are binary operators *)
  l_prec : binop -> nat;         (* how tightly an operator binds *)
  l_non : nat -> bool;           (* precedences that may not be chained *)
  l_un : tok -> option unop      (* the tokens that are prefix operators *)
}.

(** Go: "Operator precedence" in the Go specification *)
Definition go_prec (o : binop) : nat :=
  match o with
  | OMul | ODiv | ORem | OShl | OShr | OAnd | OAndNot => 5
  | OAdd | OSub | OOr | OXor => 4
  | OEq | ONe | OLt | OLe | OGt | OGe => 3
  | OLand => 2
  | OLor => 1
  end%nat.
Definition go : lang := {|
  l_bin := fun t => match t with TBin o => Some o | _ => None end;
  l_prec := go_prec;
  l_non := fun _ => false;
  l_un := fun t => match t with
                   | TBin OSub => Some UNeg | TBin OAdd => Some UPos
                   | TBin OXor => Some UCompl | TBang => Some UNot
                   | _ => None end
|}.

(** Zig: operTable in lib/std/zig/Parse.zig.  [&^] is not a Zig token: it is
    read as [&] followed by [^]; [||] is an operator on error sets.  Neither can
    follow an operand and begin another one, so the model gives both no reading
    at all (the Zig parser stops in front of them and the text is refused).
    The prefix operators of Zig are [!], [-] and [~] (and others the printer
    never produces); [+] and [^] are none. *)
Definition zig_prec (o : binop) : nat :=
  match o with
  | OMul | ODiv | ORem => 70
  | OAdd | OSub => 60
  | OShl | OShr => 50
  | OAnd | OXor | OOr => 40
  | OEq | ONe | OLt | OLe | OGt | OGe => 30
  | OLand => 20
  | OLor => 10
  | OAndNot => 0
  end%nat.
Definition zig : lang := {|
  l_bin := fun t => match t with
                    | TAnd => Some OLand | TOr => Some OLor
                    | TBin OAndNot => None | TBin OLand => None | TBin OLor => None
                    | TBin o => Some o
                    | _ => None end;
  l_prec := zig_prec;
  l_non := fun p => (p =? 30)%nat;
  l_un := fun t => match t with
                   | TBin OSub => Some UNeg | TBang => Some UNot
                   | TTilde => Some UCompl
                   | _ => None end
|}.

(** ** The parser: an operand, then operators while they bind tightly enough.

    go/parser: parseBinaryExpr, parseUnaryExpr, parsePrimaryExpr, parseOperand;
    std/zig/Parse.zig: parseExprPrecedence, parsePrefixExpr, parseSuffixExpr,
    parsePrimaryTypeExpr.  Simplified: the operands the printer does not produce
    are left out; [f] bounds the depth of the calls. *)
Fixpoint p_expr (L : lang) (f p : nat) (ts : list tok) {struct f} : option (expr * list tok) :=
  match f with O => None | S f =>
    match p_unary L f ts with
    | Some (x, r) => p_loop L f p None x r
    | None => None
    end
  end
with p_loop (L : lang) (f p : nat) (ban : option nat) (x : expr) (ts : list tok) {struct f}
  : option (expr * list tok) :=
  match f with O => None | S f =>
    match ts with
    | [] => Some (x, ts)
    | t :: r =>
        match l_bin L t with
        | None => Some (x, ts)
        | Some o =>
            let q := l_prec L o in
            if (p <=? q)%nat then
              if match ban with Some b => (b =? q)%nat | None => false end then None
              else match p_expr L f (S q) r with
                   | Some (y, r') =>
                       p_loop L f p (if l_non L q then Some q else ban) (EBin o x y) r'
                   | None => None
                   end
            else Some (x, ts)
        end
    end
  end
with p_unary (L : lang) (f : nat) (ts : list tok) {struct f} : option (expr * list tok) :=
  match f with O => None | S f =>
    match ts with
    | [] => None
    | t :: r =>
        match l_un L t with
        | Some u => match p_unary L f r with Some (x, r') => Some (EUn u x, r') | None => None end
        | None =>
            match p_operand L f ts with
            | Some (x, r') => p_post L f x r'
            | None => None
            end
        end
    end
  end
with p_operand (L : lang) (f : nat) (ts : list tok) {struct f} : option (expr * list tok) :=
  match f with O => None | S f =>
    match ts with
    | TName n :: r => Some (EVar n, r)
    | TInt z :: r => Some (EInt z, r)
    | TStr s :: r => Some (EStr s, r)
    | TTrue :: r => Some (EBool true, r)
    | TFalse :: r => Some (EBool false, r)
    | TNil :: r => Some (ENil, r)
    | TLp :: r =>
        match p_expr L f 0 r with
        | Some (e, TRp :: r') => Some (EParen e, r')
        | _ => None
        end
    | TEquality :: TLp :: TGoString :: TComma :: r =>
        match p_expr L f 0 r with
        | Some (a, TComma :: r') =>
            match p_expr L f 0 r' with
            | Some (b, TRp :: r'') => Some (EStrEq a b, r'')
            | _ => None
            end
        | _ => None
        end
    | _ => None
    end
  end
with p_post (L : lang) (f : nat) (x : expr) (ts : list tok) {struct f} : option (expr * list tok) :=
  match f with O => None | S f =>
    match ts with
    | TLb :: r =>
        match p_expr L f 0 r with
        | Some (i, TRb :: r') => p_post L f (EIdx x i) r'
        | _ => None
        end
    | TMeth m :: TLp :: r =>
        match p_expr L f 0 r with
        | Some (i, TRp :: r') => p_post L f (EMeth m x i) r'
        | _ => None
        end
    | TAddress :: r => p_post L f (EAddress x) r
    | _ => Some (x, ts)
    end
  end.

(** A text is an expression of the language if the parser, given enough fuel,
    reads all of it.  (Every call consumes a token or goes to a deeper level of
    the grammar; there are four levels.) *)
Definition read (L : lang) (ts : list tok) : option expr :=
  match p_expr L (6 * (1 + length ts)) 0 ts with
  | Some (e, []) => Some e
  | _ => None
  end.

(** ** The printer of expressions *)

(** what the printer asks about the static type of an operand
    (expressions.go:30, 41, 111): everything else behaves alike *)
Inductive gty := GyString | GyPointer | GySlice | GyMap | GyArray | GyOther.

(** the Zig spelling of a Go operator, expressions.go:46-53 *)
Definition zig_op (o : binop) : tok :=
  match o with OLor => TOr | OLand => TAnd | _ => TBin o end.

(** a unary operator is printed as it is written in Go, expressions.go:215 *)
Definition zig_un (u : unop) : tok :=
  match u with UNeg => TBin OSub | UPos => TBin OAdd | UNot => TBang | UCompl => TBin OXor end.

(** zgo/internal/target/zigc/expressions.go: Expression 12-15 and the methods it
    dispatches to: Nil 22-25, ExpressionBinary 27-62, Parenthesized 64-71,
    ExpressionIndex 110-149, ExpressionUnary 205-221; constants.go:11-66 (a
    literal; the spelling of numbers and strings is the subject of ZigLit.v);
    definitions.go:13-37 (a variable).  [ty] is the type go/types recorded for
    the expression.  [None]: the printer returns an error.
    Simplified: every variable is stack allocated (no [.*] suffix), and the
    address-of operator, calls, selectors, composite literals and conversions
    are not modelled. *)
Fixpoint z_print (ty : expr -> gty) (e : expr) : option (list tok) :=
  match e with
  | EVar n => Some [TName n]
  | EInt z => Some [TInt z]
  | EBool true => Some [TTrue]
  | EBool false => Some [TFalse]
  | EStr s => Some [TStr s]
  | ENil => Some [TNil]
  | EParen e =>
      match z_print ty e with Some t => Some (TLp :: t ++ [TRp]) | None => None end
  | EUn u e =>
      match z_print ty e with Some t => Some (zig_un u :: t) | None => None end
  | EBin o a b =>
      match z_print ty a, z_print ty b with
      | Some ta, Some tb =>
          match o, ty a with
          | ONe, GyString =>
              Some ([TLp; TBang; TEquality; TLp; TGoString; TComma] ++ ta ++ [TComma] ++ tb ++ [TRp; TRp])
          | _, GyPointer => Some (ta ++ [TAddress; zig_op o] ++ tb ++ [TAddress])
          | _, _ => Some (ta ++ [zig_op o] ++ tb)
          end
      | _, _ => None
      end
  | EIdx x i =>
      match z_print ty x, z_print ty i with
      | Some tx, Some ti =>
          match ty x with
          | GySlice => Some (tx ++ [TMeth MIndex; TLp] ++ ti ++ [TRp])
          | GyMap => Some (tx ++ [TMeth MGet; TLp] ++ ti ++ [TRp])
          | GyArray => Some (tx ++ [TLb] ++ ti ++ [TRb])
          | _ => None
          end
      | _, _ => None
      end
  | EMeth _ _ _ | EAddress _ | EStrEq _ _ => None
  end.

(** ** What expressions evaluate to *)

(** Values.  [VLit] is a constant without a type of its own (an untyped constant
    in Go, a comptime_int in Zig). *)
Inductive val :=
| VLit (z : Z)
| VInt (k : ikind) (z : Z)
| VBool (b : bool)
| VStr (s : list Z)
| VPtr (p : option nat)            (* a Go pointer / a go.pointer(T) struct *)
| VRaw (p : option nat)            (* the ?*T inside a go.pointer(T): Zig only *)
| VNil                             (* the untyped nil / go.nil *)
| VSlice (k : ikind) (l : list Z)
| VArr (k : ikind) (l : list Z).

(** [Trap]: a run-time panic.  [Refused]: the compiler of the language does not
    accept the expression. *)
Inductive res (A : Type) := Val (a : A) | Trap | Refused.
Arguments Val {A}. Arguments Trap {A}. Arguments Refused {A}.
Definition bind {A B} (r : res A) (f : A -> res B) : res B :=
  match r with Val a => f a | Trap => Trap | Refused => Refused end.

Definition k_min (k : ikind) : Z := if ik_signed k then - 2 ^ (ik_bits k - 1) else 0.
Definition k_max (k : ikind) : Z :=
  if ik_signed k then 2 ^ (ik_bits k - 1) - 1 else 2 ^ ik_bits k - 1.
Definition in_range (k : ikind) (z : Z) : bool := (k_min k <=? z) && (z <=? k_max k).
(** two's complement wrapping ("Integer overflow" in the Go specification) *)
Definition wrap (k : ikind) (z : Z) : Z :=
  let m := z mod 2 ^ ik_bits k in
  if ik_signed k && (2 ^ (ik_bits k - 1) <=? m) then m - 2 ^ ik_bits k else m.
Definition ik_eqb (a b : ikind) : bool :=
  Bool.eqb (ik_signed a) (ik_signed b) && (ik_bits a =? ik_bits b).

(** what to do with an arithmetic result that need not fit its type *)
Definition policy := ikind -> Z -> res Z.
(** Go: wrap around.  *)
Definition wrapping : policy := fun k z => Val (wrap k z).
(** Zig (Debug and ReleaseSafe): [+ - *] and unary [-] trap on overflow.  *)
Definition trapping : policy := fun k z => if in_range k z then Val z else Trap.

Definition int_of (k : ikind) (r : res Z) : res val := bind r (fun z => Val (VInt k z)).

(** a value used where type [k] is expected: a constant takes the type if it can
    be represented, otherwise both compilers refuse *)
Definition as_kind (k : ikind) (v : val) : res Z :=
  match v with
  | VLit z => if in_range k z then Val z else Refused
  | VInt k' z => if ik_eqb k k' then Val z else Refused
  | _ => Refused
  end.

Definition cmp (o : binop) (a b : Z) : option bool :=
  match o with
  | OEq => Some (a =? b) | ONe => Some (negb (a =? b))
  | OLt => Some (a <? b) | OLe => Some (a <=? b)
  | OGt => Some (b <? a) | OGe => Some (b <=? a)
  | _ => None
  end.

Definition popt_eqb (a b : option nat) : bool :=
  match a, b with
  | None, None => true
  | Some a, Some b => (a =? b)%nat
  | _, _ => false
  end.

Fixpoint bytes_eqb (a b : list Z) : bool :=
  match a, b with
  | [], [] => true
  | x :: a, y :: b => (x =? y) && bytes_eqb a b
  | _, _ => false
  end.
Fixpoint bytes_ltb (a b : list Z) : bool :=
  match a, b with
  | [], [] => false
  | [], _ :: _ => true
  | _ :: _, [] => false
  | x :: a, y :: b => if x =? y then bytes_ltb a b else x <? y
  end.

(** Go, one arithmetic operator at type [k] ("Arithmetic operators" in the Go
    specification): division truncates toward zero and panics on zero, results
    are fitted to the type by [pol] *)
Definition go_arith (pol : policy) (o : binop) (k : ikind) (a b : Z) : res val :=
  match o with
  | OAdd => int_of k (pol k (a + b))
  | OSub => int_of k (pol k (a - b))
  | OMul => int_of k (pol k (a * b))
  | ODiv => if b =? 0 then Trap else int_of k (pol k (Z.quot a b))
  | ORem => if b =? 0 then Trap else int_of k (pol k (Z.rem a b))
  | OAnd => int_of k (Val (Z.land a b))
  | OOr => int_of k (Val (Z.lor a b))
  | OXor => int_of k (Val (Z.lxor a b))
  | OAndNot => int_of k (Val (Z.land a (Z.lnot b)))
  | _ => match cmp o a b with Some r => Val (VBool r) | None => Refused end
  end.

(** Go, one operator on two constants: exact.  A constant division by zero and a
    negative or huge constant shift are compile errors. *)
Definition go_const (o : binop) (a b : Z) : res val :=
  match o with
  | OAdd => Val (VLit (a + b))
  | OSub => Val (VLit (a - b))
  | OMul => Val (VLit (a * b))
  | ODiv => if b =? 0 then Refused else Val (VLit (Z.quot a b))
  | ORem => if b =? 0 then Refused else Val (VLit (Z.rem a b))
  | OAnd => Val (VLit (Z.land a b))
  | OOr => Val (VLit (Z.lor a b))
  | OXor => Val (VLit (Z.lxor a b))
  | OAndNot => Val (VLit (Z.land a (Z.lnot b)))
  | OShl => if (0 <=? b) && (b <? 512) then Val (VLit (Z.shiftl a b)) else Refused
  | OShr => if 0 <=? b then Val (VLit (Z.shiftr a b)) else Refused
  | _ => match cmp o a b with Some r => Val (VBool r) | None => Refused end
  end.

(** Go, shifts of a typed operand: by a negative amount they panic, by too much
    they give 0 or -1; left shifts drop the bits that do not fit *)
Definition go_shift (o : binop) (k : ikind) (a b : Z) : res val :=
  if b <? 0 then Trap
  else match o with
       | OShl => Val (VInt k (wrap k (Z.shiftl a b)))
       | _ => Val (VInt k (Z.shiftr a b))
       end.

(** Go, a binary operator other than [&&] and [||] *)
Definition go_bin (pol : policy) (o : binop) (va vb : val) : res val :=
  match va, vb with
  | VLit a, VLit b => go_const o a b
  | VInt k a, (VLit _ | VInt _ _) =>
      match o with
      | OShl | OShr =>
          match vb with
          | VLit b => if 0 <=? b then go_shift o k a b else Refused
          | VInt _ b => go_shift o k a b
          | _ => Refused
          end
      | _ => bind (as_kind k vb) (fun b => go_arith pol o k a b)
      end
  | VLit a, VInt k b =>
      match o with
      | OShl | OShr => bind (as_kind k_int va) (fun a => go_shift o k_int a b)
      | _ => bind (as_kind k va) (fun a => go_arith pol o k a b)
      end
  | VBool a, VBool b =>
      match o with
      | OEq => Val (VBool (Bool.eqb a b))
      | ONe => Val (VBool (negb (Bool.eqb a b)))
      | _ => Refused
      end
  | VStr a, VStr b =>
      match o with
      | OAdd => Val (VStr (a ++ b))
      | OEq => Val (VBool (bytes_eqb a b))
      | ONe => Val (VBool (negb (bytes_eqb a b)))
      | OLt => Val (VBool (bytes_ltb a b))
      | OGe => Val (VBool (negb (bytes_ltb a b)))
      | OGt => Val (VBool (bytes_ltb b a))
      | OLe => Val (VBool (negb (bytes_ltb b a)))
      | _ => Refused
      end
  | VPtr a, VPtr b =>
      match o with
      | OEq => Val (VBool (popt_eqb a b))
      | ONe => Val (VBool (negb (popt_eqb a b)))
      | _ => Refused
      end
  | VPtr a, VNil | VNil, VPtr a =>
      match o with
      | OEq => Val (VBool (popt_eqb a None))
      | ONe => Val (VBool (negb (popt_eqb a None)))
      | _ => Refused
      end
  | _, _ => Refused
  end.

(** Go, unary operators *)
Definition go_un (pol : policy) (u : unop) (v : val) : res val :=
  match u, v with
  | UNot, VBool b => Val (VBool (negb b))
  | UNeg, VLit z => Val (VLit (- z))
  | UNeg, VInt k z => int_of k (pol k (- z))
  | UPos, VLit z => Val (VLit z)
  | UPos, VInt k z => Val (VInt k z)
  | UCompl, VLit z => Val (VLit (Z.lnot z))
  | UCompl, VInt k z => Val (VInt k (wrap k (Z.lnot z)))
  | _, _ => Refused
  end.

(** indexing, shared: a panic when the index is out of range *)
Definition nth_val (k : ikind) (l : list Z) (i : Z) : res val :=
  if (0 <=? i) && (i <? Z.of_nat (length l)) then Val (VInt k (nth (Z.to_nat i) l 0)) else Trap.

(** Go: [x[i]] for arrays and slices of integers, any integer index.  (A constant
    index outside an array is a compile error; the model says panic.) *)
Definition go_index (x i : val) : res val :=
  match x, i with
  | VSlice k l, (VLit i | VInt _ i) => nth_val k l i
  | VArr k l, (VLit i | VInt _ i) => nth_val k l i
  | _, _ => Refused
  end.

Definition env := nat -> option val.

(** Go: left to right, [&&] and [||] only evaluate their second operand if they
    have to.  [pol] is [wrapping] for Go itself; running Go with [trapping] stops
    it at the first result that does not fit. *)
Fixpoint go_eval (pol : policy) (s : env) (e : expr) : res val :=
  match e with
  | EVar n => match s n with Some v => Val v | None => Refused end
  | EInt z => Val (VLit z)
  | EBool b => Val (VBool b)
  | EStr t => Val (VStr t)
  | ENil => Val VNil
  | EParen e => go_eval pol s e
  | EUn u e => bind (go_eval pol s e) (go_un pol u)
  | EBin OLand a b =>
      bind (go_eval pol s a) (fun va => match va with
        | VBool false => Val (VBool false)
        | VBool true => bind (go_eval pol s b) (fun vb => match vb with VBool _ => Val vb | _ => Refused end)
        | _ => Refused end)
  | EBin OLor a b =>
      bind (go_eval pol s a) (fun va => match va with
        | VBool true => Val (VBool true)
        | VBool false => bind (go_eval pol s b) (fun vb => match vb with VBool _ => Val vb | _ => Refused end)
        | _ => Refused end)
  | EBin o a b => bind (go_eval pol s a) (fun va => bind (go_eval pol s b) (go_bin pol o va))
  | EIdx x i => bind (go_eval pol s x) (fun vx => bind (go_eval pol s i) (go_index vx))
  | EMeth _ _ _ | EAddress _ | EStrEq _ _ => Refused
  end.

(** *** Zig *)

(** Zig, one arithmetic operator at type [k] (Zig language reference,
    "Operators"): [+ - *] trap on overflow; [/] and [%] are refused on signed
    run-time operands and trap on zero *)
Definition zig_arith (o : binop) (k : ikind) (a b : Z) : res val :=
  match o with
  | OAdd => int_of k (trapping k (a + b))
  | OSub => int_of k (trapping k (a - b))
  | OMul => int_of k (trapping k (a * b))
  | ODiv => if ik_signed k then Refused else if b =? 0 then Trap else int_of k (Val (a / b))
  | ORem => if ik_signed k then Refused else if b =? 0 then Trap else int_of k (Val (a mod b))
  | OAnd => int_of k (Val (Z.land a b))
  | OOr => int_of k (Val (Z.lor a b))
  | OXor => int_of k (Val (Z.lxor a b))
  | OAndNot => Refused
  | _ => match cmp o a b with Some r => Val (VBool r) | None => Refused end
  end.

(** Zig, comptime_int: exact; [/] and [%] are refused on negative operands *)
Definition zig_const (o : binop) (a b : Z) : res val :=
  match o with
  | OAdd => Val (VLit (a + b))
  | OSub => Val (VLit (a - b))
  | OMul => Val (VLit (a * b))
  | ODiv => if (0 <=? a) && (0 <? b) then Val (VLit (a / b)) else Refused
  | ORem => if (0 <=? a) && (0 <? b) then Val (VLit (a mod b)) else Refused
  | OAnd => Val (VLit (Z.land a b))
  | OOr => Val (VLit (Z.lor a b))
  | OXor => Val (VLit (Z.lxor a b))
  | OAndNot => Refused
  | OShl => if (0 <=? b) && (b <? 512) then Val (VLit (Z.shiftl a b)) else Refused
  | OShr => if 0 <=? b then Val (VLit (Z.shiftr a b)) else Refused
  | _ => match cmp o a b with Some r => Val (VBool r) | None => Refused end
  end.

(** Zig, a binary operator other than [and] and [or].  A shift amount known at
    compile time must be smaller than the width; a run-time shift amount must
    have a narrower type than any Go integer type has, so it is refused.
    Operands of different integer types are refused (Zig would look for a common
    type; Go never lets such an expression through).  [==] is refused on slices,
    and so on strings, and on structs, and so on go.pointer. *)
Definition zig_bin (o : binop) (va vb : val) : res val :=
  match va, vb with
  | VLit a, VLit b => zig_const o a b
  | VInt k a, (VLit _ | VInt _ _) =>
      match o with
      | OShl | OShr =>
          match vb with
          | VLit b =>
              if (0 <=? b) && (b <? ik_bits k) then
                match o with
                | OShl => Val (VInt k (wrap k (Z.shiftl a b)))
                | _ => Val (VInt k (Z.shiftr a b))
                end
              else Refused
          | _ => Refused
          end
      | _ => bind (as_kind k vb) (fun b => zig_arith o k a b)
      end
  | VLit a, VInt k b =>
      match o with
      | OShl | OShr => Refused
      | _ => bind (as_kind k va) (fun a => zig_arith o k a b)
      end
  | VBool a, VBool b =>
      match o with
      | OEq => Val (VBool (Bool.eqb a b))
      | ONe => Val (VBool (negb (Bool.eqb a b)))
      | _ => Refused
      end
  | VRaw a, VRaw b =>
      match o with
      | OEq => Val (VBool (popt_eqb a b))
      | ONe => Val (VBool (negb (popt_eqb a b)))
      | _ => Refused
      end
  | _, _ => Refused
  end.

(** Zig, unary operators: [-] is refused on unsigned operands; the printer never
    produces [~] *)
Definition zig_unary (u : unop) (v : val) : res val :=
  match u, v with
  | UNot, VBool b => Val (VBool (negb b))
  | UNeg, VLit z => Val (VLit (- z))
  | UNeg, VInt k z => if ik_signed k then int_of k (trapping k (- z)) else Refused
  | _, _ => Refused
  end.

(** Zig: [x[i]] on an array wants a usize, build_runtime.zig:170-175 [index] on a
    slice wants a go.int *)
Definition zig_index (x i : val) : res val :=
  match x, i with
  | VArr k l, VLit i => if 0 <=? i then nth_val k l i else Refused
  | VArr k l, VInt ki i => if ik_eqb ki k_uint then nth_val k l i else Refused
  | _, _ => Refused
  end.
Definition zig_meth (m : meth) (x i : val) : res val :=
  match m, x with
  | MIndex, VSlice k l => bind (as_kind k_int i) (fun i => nth_val k l i)
  | _, _ => Refused
  end.

(** build_runtime.zig:50-52 (go.nil.address is null) and 193 (the field) *)
Definition zig_address (v : val) : res val :=
  match v with VPtr p => Val (VRaw p) | VNil => Val (VRaw None) | _ => Refused end.

(** build_runtime.zig:71-76 *)
Definition zig_equality (a b : val) : res val :=
  match a, b with VStr a, VStr b => Val (VBool (bytes_eqb a b)) | _, _ => Refused end.

Fixpoint zig_eval (s : env) (e : expr) : res val :=
  match e with
  | EVar n => match s n with Some v => Val v | None => Refused end
  | EInt z => Val (VLit z)
  | EBool b => Val (VBool b)
  | EStr t => Val (VStr t)
  | ENil => Val VNil
  | EParen e => zig_eval s e
  | EUn u e => bind (zig_eval s e) (zig_unary u)
  | EBin OLand a b =>
      bind (zig_eval s a) (fun va => match va with
        | VBool false => Val (VBool false)
        | VBool true => bind (zig_eval s b) (fun vb => match vb with VBool _ => Val vb | _ => Refused end)
        | _ => Refused end)
  | EBin OLor a b =>
      bind (zig_eval s a) (fun va => match va with
        | VBool true => Val (VBool true)
        | VBool false => bind (zig_eval s b) (fun vb => match vb with VBool _ => Val vb | _ => Refused end)
        | _ => Refused end)
  | EBin o a b => bind (zig_eval s a) (fun va => bind (zig_eval s b) (zig_bin o va))
  | EIdx x i => bind (zig_eval s x) (fun vx => bind (zig_eval s i) (zig_index vx))
  | EMeth m x i => bind (zig_eval s x) (fun vx => bind (zig_eval s i) (zig_meth m vx))
  | EAddress x => bind (zig_eval s x) zig_address
  | EStrEq a b => bind (zig_eval s a) (fun va => bind (zig_eval s b) (zig_equality va))
  end.

(** What the printed text of [e] means to the Zig compiler: it is parsed with the
    grammar of Zig and the tree it finds is evaluated. *)
Definition zig_meaning (ty : expr -> gty) (s : env) (e : expr) : res val :=
  match z_print ty e with
  | None => Refused
  | Some ts => match read zig ts with None => Refused | Some z => zig_eval s z end
  end.
