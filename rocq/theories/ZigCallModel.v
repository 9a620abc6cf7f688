(** * zgo: how calls are printed, and what Go and Zig do with them
    (zgo/internal/target/zigc/function_call.go). *)
From Coq Require Import List Bool Arith Lia.
Import ListNotations.

(** ** Go expressions
    An operand without calls (a variable or a literal) is a number.  Left out: builtin
    functions (builtins.go), function literals that are called at once, selectors of other
    packages (printed as the package and the name: a function like any other),
    conversions to interfaces. *)
(** What a signature says about variadic arguments: the number of parameters before it, and
    the type of its elements. *)
Definition variadic := option (nat * nat)%type.
(** A function of a package, a variable of the function holding a function value, or one of the package. *)
Inductive callee := CFun (f : nat) | CLocal (v : nat) | CGlobal (v : nat).
Inductive expr :=
| EName (n : nat)
| ECall (c : callee) (sig : variadic) (spread : bool) (args : exprs)
| EMethod (t m : nat) (byptr xptr : bool) (x : expr) (sig : variadic) (spread : bool) (args : exprs)
    (* a method declared on a pointer ([byptr]), and the receiver written is one ([xptr]) *)
| EIface (m : nat) (x : expr) (sig : variadic) (spread : bool) (args : exprs)
| EConv (t : nat) (x : expr)
with exprs := Enil | Econs (e : expr) (r : exprs).
Scheme expr_mut := Induction for expr Sort Prop with exprs_mut := Induction for exprs Sort Prop.
Combined Scheme expr_exprs from expr_mut, exprs_mut.
Fixpoint elen (l : exprs) : nat := match l with Enil => 0 | Econs _ r => S (elen r) end.

(** ** Zig text and trees *)
Inductive tok :=
| TVar (n : nat) | TFun (f : nat) | TGlobal (v : nat) | TMethod (t m : nat) | TGoto | TNull | TNum (n : nat) | TType (t : nat)
| TLp | TRp | TComma | TDotLc | TRc
| TDotCall | TDotGo | TDotItype | TDotValue | TDotName (m : nat) | TVariadic | TAs.
Inductive field := FCall | FGo | FItype | FValue | FName (m : nat).
Inductive z :=
| ZVar (n : nat) | ZFun (f : nat) | ZGlobal (v : nat) | ZMethod (t m : nat) | ZGoto | ZNull | ZNum (n : nat) | ZType (t : nat) | ZVariadic | ZAs
| ZField (x : z) (f : field)
| ZCall (x : z) (args : zs)
| ZTuple (l : zs)
with zs := Znil | Zcons (x : z) (r : zs).

(** ** The printer *)
(** function_call.go:45-60 and 127-146: the name, and whether it is a variable *)
Definition p_name (c : callee) : tok := match c with CFun f => TFun f | CLocal v => TVar v | CGlobal v => TGlobal v end.
Definition is_variable (c : callee) : bool := match c with CLocal _ => true | _ => false end.
(** function_call.go:160-180: a comma before each argument, and the wrapper around the
    variadic ones; [i] is the index of the next argument, [total] how many there are, [open]
    whether the wrapper was opened.  Then it is closed, or an empty one is printed. *)
Definition p_open (sig : variadic) (open : bool) (i total : nat) : list tok * bool :=
  match sig with
  | Some (fixed, t) => if negb open && (fixed <=? i) then ([TVariadic; TLp; TNum (total - fixed); TComma; TType t; TComma; TDotLc], true) else ([], open)
  | None => ([], open)
  end.
Definition p_close (sig : variadic) (open : bool) : list tok :=
  match sig with Some _ => if open then [TRc; TRp] else [TDotLc; TRc] | None => [] end.
Fixpoint print (e : expr) : list tok :=
  let fix p_args (sig : variadic) (open : bool) (i total : nat) (l : exprs) : list tok :=
    match l with
    | Enil => p_close sig open
    | Econs e r => let '(w, o) := p_open sig open i total in TComma :: w ++ print e ++ p_args sig o (S i) total r
    end in
  match e with
  | EName n => [TVar n]
  | ECall c sig _ args =>
      (if is_variable c then [p_name c; TDotCall; TLp; TDotLc; TGoto] else [p_name c; TLp; TGoto]) ++
      p_args sig false 0 (elen args) args ++ (if is_variable c then [TRc; TRp] else [TRp])
  (* 61-101: the method of the type, and the receiver as it is written *)
  | EMethod t m _ _ x sig _ args => [TMethod t m; TLp; TGoto; TComma] ++ print x ++ p_args sig false 0 (elen args) args ++ [TRp]
  (* 66-78: the receiver is written twice *)
  | EIface m x sig _ args => print x ++ [TDotItype; TDotName m; TLp; TGoto; TComma] ++ print x ++ [TDotValue] ++ p_args sig false 0 (elen args) args ++ [TRp]
  (* 122-125: the operand is not written *)
  | EConv t _ => [TAs; TLp; TType t; TRp]
  end.
Fixpoint p_args (sig : variadic) (open : bool) (i total : nat) (l : exprs) : list tok :=
  match l with
  | Enil => p_close sig open
  | Econs e r => let '(w, o) := p_open sig open i total in TComma :: w ++ print e ++ p_args sig o (S i) total r
  end.
(** function_call.go:11-13, 150-156 [StatementGo]: only a variable is called otherwise *)
Definition print_go (e : expr) : list tok :=
  match e with
  | ECall (CLocal v) sig _ args => [TVar v; TDotGo; TLp; TDotLc; TNull] ++ p_args sig false 0 (elen args) args ++ [TRc; TRp]
  | _ => print e
  end.

(** ** The grammar of Zig: operands and suffixes (std/zig/Parse.zig: parsePrimaryTypeExpr,
    parseSuffixExpr, parseExprList with its optional last comma); [f] bounds the depth. *)
Definition operand (t : tok) : option z :=
  match t with
  | TVar n => Some (ZVar n) | TFun n => Some (ZFun n) | TGlobal n => Some (ZGlobal n) | TMethod t m => Some (ZMethod t m)
  | TGoto => Some ZGoto | TNull => Some ZNull | TNum n => Some (ZNum n) | TType t => Some (ZType t) | TVariadic => Some ZVariadic | TAs => Some ZAs
  | _ => None
  end.
Definition suffix (t : tok) : option field :=
  match t with TDotCall => Some FCall | TDotGo => Some FGo | TDotItype => Some FItype | TDotValue => Some FValue | TDotName m => Some (FName m) | _ => None end.
Inductive closer := CRp | CRc.
Definition is_closer (c : closer) (t : tok) : bool := match c, t with CRp, TRp | CRc, TRc => true | _, _ => false end.
Fixpoint r_expr (f : nat) (ts : list tok) {struct f} : option (z * list tok) :=
  match f with O => None | S f =>
    match ts with
    | [] => None
    | TDotLc :: r => match r_list f CRc r with Some (l, r) => r_suffix f (ZTuple l) r | None => None end
    | t :: r => match operand t with Some x => r_suffix f x r | None => None end
    end
  end
with r_suffix (f : nat) (x : z) (ts : list tok) {struct f} : option (z * list tok) :=
  match f with O => None | S f =>
    match ts with
    | [] => Some (x, [])
    | TLp :: r => match r_list f CRp r with Some (l, r) => r_suffix f (ZCall x l) r | None => None end
    | t :: r => match suffix t with Some g => r_suffix f (ZField x g) r | None => Some (x, ts) end
    end
  end
with r_list (f : nat) (c : closer) (ts : list tok) {struct f} : option (zs * list tok) :=
  match f with O => None | S f =>
    match ts with
    | [] => None
    | t :: r => if is_closer c t then Some (Znil, r) else
        match r_expr f ts with
        | Some (x, TComma :: r) => match r_list f c r with Some (l, r) => Some (Zcons x l, r) | None => None end
        | Some (x, t :: r) => if is_closer c t then Some (Zcons x Znil, r) else None
        | _ => None
        end
    end
  end.
(** The text is read as this expression, whole. *)
Definition reads (ts : list tok) (x : z) : Prop := exists f, r_expr f ts = Some (x, []).

(** ** What calls do *)
Inductive ty := TyBase (n : nat) | TySlice (t : nat) | TyRef.
Inductive value := VBase (n : nat) (t : nat) | VSlice (t : nat) (l : list value) | VRef (v : value).
Definition type_is (t : nat) (v : value) : bool := match v with VBase _ u => u =? t | _ => false end.
Definition is_ref (v : value) : bool := match v with VRef _ => true | _ => false end.
(** The function called: by name, a function value, a method, or the method of an interface
    value, which depends on the value. *)
Inductive target := OfName (f : nat) | OfValue (v : value) | OfMethod (t m : nat) | OfIface (v : value) (m : nat).
(** A call and how it is made: its caller waits for it, or it runs as a goroutine. *)
Inductive event := Waits (g : target) (args : list value) | Runs (g : target) (args : list value).
Definition trace := list event.

Section Run.
(** Variables, and what a call returns, which may depend on all calls before it. *)
Context (env : nat -> value) (ret : trace -> value).
Definition result A := option (A * trace)%type.   (* [None]: the compiler refuses it *)
Definition made (e : event) (h : trace) : result value := Some (ret (h ++ [e]), h ++ [e]).

(** *** Go: "Calls", "Passing arguments to ... parameters", "Method values" (the receiver is
    addressed or followed as the method asks for), "Go statements" *)
Definition g_pack (sig : variadic) (spread : bool) (vs : list value) : option (list value) :=
  match sig with
  | None => if spread then None else Some vs
  | Some (fixed, t) =>
      if length vs <? fixed then None else
      if spread then match skipn fixed vs with [VSlice u l] => if u =? t then Some vs else None | _ => None end
      else if forallb (type_is t) (skipn fixed vs) then Some (firstn fixed vs ++ [VSlice t (skipn fixed vs)]) else None
  end.
Definition g_receiver (byptr xptr : bool) (v : value) : option value :=
  if negb (eqb (is_ref v) xptr) then None else
  match byptr, v with true, VRef _ => Some v | true, _ => Some (VRef v) | false, VRef v => Some v | false, _ => Some v end.
Fixpoint g_eval (e : expr) (h : trace) : result value :=
  let fix g_args (l : exprs) (h : trace) : result (list value) :=
    match l with
    | Enil => Some ([], h)
    | Econs e r => match g_eval e h with None => None | Some (v, h) => match g_args r h with None => None | Some (vs, h) => Some (v :: vs, h) end end
    end in
  match e with
  | EName n => Some (env n, h)
  | ECall c sig spread args =>
      match g_args args h with None => None | Some (vs, h) =>
      match g_pack sig spread vs with None => None | Some vs =>
      made (Waits (match c with CFun f => OfName f | CLocal v | CGlobal v => OfValue (env v) end) vs) h end end
  | EMethod t m byptr xptr x sig spread args =>
      match g_eval x h with None => None | Some (v, h) =>
      match g_receiver byptr xptr v with None => None | Some v =>
      match g_args args h with None => None | Some (vs, h) =>
      match g_pack sig spread vs with None => None | Some vs => made (Waits (OfMethod t m) (v :: vs)) h end end end end
  | EIface m x sig spread args =>
      match g_eval x h with None => None | Some (v, h) =>
      match g_args args h with None => None | Some (vs, h) =>
      match g_pack sig spread vs with None => None | Some vs => made (Waits (OfIface v m) (v :: vs)) h end end end
  | EConv t x => match g_eval x h with Some (VBase n _, h) => Some (VBase n t, h) | _ => None end
  end.
Fixpoint g_args (l : exprs) (h : trace) : result (list value) :=
  match l with
  | Enil => Some ([], h)
  | Econs e r => match g_eval e h with None => None | Some (v, h) => match g_args r h with None => None | Some (vs, h) => Some (v :: vs, h) end end
  end.
(** A go statement: what is called with what is found out first, then it runs. *)
Definition runs (r : result value) : option trace :=
  match r with
  | Some (_, h) => match rev h with Waits g vs :: r => Some (rev r ++ [Runs g vs]) | _ => None end
  | None => None
  end.
Definition g_go (e : expr) (h : trace) : option trace := runs (g_eval e h).

(** *** Zig, with the runtime of build_runtime.zig (148-153 variadic, 238-254 interface,
    343-369 func): a name of a function is called with its arguments after the goroutine; a
    function value only through its methods call and go, which take them in a tuple; as
    (@as) needs two arguments; types have to be the same. *)
Inductive zv := ZV (v : value) | ZVFun (f : nat) | ZVMethod (t m : nat) | ZVGoto | ZVNull | ZVNum (n : nat) | ZVType (t : nat) | ZVVariadic | ZVAs
| ZVTuple (l : list zv) | ZVItype (v : value) | ZVValue (v : value) | ZVDyn (v : value) (m : nat) | ZVBound (v : value) (go : bool) | ZVVoid.
Fixpoint values (l : list zv) : option (list value) :=
  match l with [] => Some [] | ZV v :: r => match values r with Some vs => Some (v :: vs) | None => None end | _ => None end.
(** Which methods are declared on pointers. *)
Context (byptr : nat -> nat -> bool).
Definition z_field (x : zv) (g : field) : option zv :=
  match x, g with
  | ZV v, FCall => Some (ZVBound v false) | ZV v, FGo => Some (ZVBound v true) | ZV v, FItype => Some (ZVItype v) | ZV v, FValue => Some (ZVValue v)
  | ZVItype v, FName m => Some (ZVDyn v m)
  | _, _ => None
  end.
Definition z_call (x : zv) (args : list zv) (h : trace) : result zv :=
  let waits g vs := match vs with Some vs => match made (Waits g vs) h with Some (v, h) => Some (ZV v, h) | None => None end | None => None end in
  match x, args with
  | ZVFun f, ZVGoto :: r => waits (OfName f) (values r)
  | ZVMethod t m, ZVGoto :: ZV v :: r => if eqb (is_ref v) (byptr t m) then waits (OfMethod t m) (match values r with Some vs => Some (v :: vs) | None => None end) else None
  | ZVDyn v m, ZVGoto :: ZVValue u :: r => waits (OfIface v m) (match values r with Some vs => Some (u :: vs) | None => None end)
  | ZVBound v false, [ZVTuple (ZVGoto :: r)] => waits (OfValue v) (values r)
  | ZVBound v true, [ZVTuple (ZVNull :: r)] => match values r with Some vs => Some (ZVVoid, h ++ [Runs (OfValue v) vs]) | None => None end
  | ZVVariadic, [ZVNum n; ZVType t; ZVTuple r] =>
      match values r with Some vs => if (length vs =? n) && forallb (type_is t) vs then Some (ZV (VSlice t vs), h) else None | None => None end
  | ZVAs, [ZVType t; ZV (VBase n _)] => Some (ZV (VBase n t), h)
  | _, _ => None
  end.
Fixpoint z_eval (x : z) (h : trace) : result zv :=
  let fix z_list (l : zs) (h : trace) : result (list zv) :=
    match l with
    | Znil => Some ([], h)
    | Zcons x r => match z_eval x h with None => None | Some (v, h) => match z_list r h with None => None | Some (vs, h) => Some (v :: vs, h) end end
    end in
  match x with
  | ZVar n | ZGlobal n => Some (ZV (env n), h)
  | ZFun f => Some (ZVFun f, h) | ZMethod t m => Some (ZVMethod t m, h) | ZGoto => Some (ZVGoto, h) | ZNull => Some (ZVNull, h)
  | ZNum n => Some (ZVNum n, h) | ZType t => Some (ZVType t, h) | ZVariadic => Some (ZVVariadic, h) | ZAs => Some (ZVAs, h)
  | ZField x g => match z_eval x h with Some (v, h) => match z_field v g with Some v => Some (v, h) | None => None end | None => None end
  | ZCall x args => match z_eval x h with Some (v, h) => match z_list args h with Some (vs, h) => z_call v vs h | None => None end | None => None end
  | ZTuple l => match z_list l h with Some (vs, h) => Some (ZVTuple vs, h) | None => None end
  end.
Fixpoint z_list (l : zs) (h : trace) : result (list zv) :=
  match l with
  | Znil => Some ([], h)
  | Zcons x r => match z_eval x h with None => None | Some (v, h) => match z_list r h with None => None | Some (vs, h) => Some (v :: vs, h) end end
  end.
End Run.
