(** * zgo: statements.  The Go statements, their meaning, the printer, the Zig
    statement grammar and its meaning. *)
From Coq Require Import ZArith List Bool Lia.
From Verif Require Import ZigModel.
Import ListNotations.
Open Scope Z_scope.

(** ** Go statements

    zgo/internal/source/statements.go and zgo/internal/parser/statements.go:12-90.
    A variable is the Go object it resolves to (ZigName.v), so the model needs no
    scopes.  [init] and [else] are lists of at most one statement.
    Not modelled: pointers and maps on the left of an assignment, goroutines,
    channels, select, type switches, goto, range over slices, closures. *)
Inductive vty := TyInt (k : ikind) | TyBool | TyStr.

Inductive gstmt :=
| GPrint (es : list expr)                                     (* println(es...) *)
| GAssign (xs : list nat) (o : option binop) (es : list expr) (* xs = es, x op= e *)
| GDefine (xs : list (nat * vty)) (es : list expr)            (* xs := es *)
| GInc (x : nat)
| GDec (x : nat)
| GBlock (l : gstmts)
| GIf (init : gstmts) (c : expr) (body : gstmts) (els : gstmts)
| GFor (lab : option nat) (init : gstmts) (c : option expr) (post : gstmts) (body : gstmts)
| GRange (lab : option nat) (key : option nat) (k : ikind) (x : expr) (body : gstmts)
| GSwitch (init : gstmts) (tag : option expr) (cls : gclauses)
| GBreak (lab : option nat)
| GContinue (lab : option nat)
| GReturn (es : list expr)
with gstmts := GNil | GCons (s : gstmt) (l : gstmts)
(* a clause: its expressions (none: default), its body, and whether it ends in
   fallthrough (parser/statements.go:356-372) *)
with gclauses := CNil | CCons (es : list expr) (body : gstmts) (falls : bool) (rest : gclauses).

(** ** States and outcomes, shared by the two languages *)
Inductive pval := PInt (z : Z) | PBool (b : bool) | PStr (s : list Z).
(** the variables: a store, read as an environment *)
Definition store := list (option val).
Definition look (m : store) : env := fun x => nth x m None.
Fixpoint upd (m : store) (x : nat) (v : val) : store :=
  match x, m with
  | O, [] => [Some v]
  | O, _ :: m => Some v :: m
  | S x, [] => None :: upd [] x v
  | S x, o :: m => o :: upd m x v
  end.
Record state := St { st_mem : store; st_out : list (list pval) }.
Definition st_env (st : state) : env := look (st_mem st).
Definition set (st : state) (x : nat) (v : val) : state := St (upd (st_mem st) x v) (st_out st).
Definition emit (st : state) (ps : list pval) : state := St (st_mem st) (st_out st ++ [ps]).

(** how a statement ends *)
Inductive out := ONorm | OBrk (l : option nat) | OCnt (l : option nat) | ORet (vs : list val).
Inductive xres :=
| XOk (o : out) (st : state)
| XTrap (st : state)        (* a panic, with what had happened so far *)
| XTime (st : state)        (* some loop has run more often than the bound *)
| XRefused.                 (* not accepted by the compiler *)

Definition xbind (r : xres) (f : state -> xres) : xres :=
  match r with XOk ONorm st => f st | _ => r end.
Definition with_val {A} (r : res A) (st : state) (f : A -> xres) : xres :=
  match r with Val v => f v | Trap => XTrap st | Refused => XRefused end.

Fixpoint eval_all (ev : expr -> res val) (es : list expr) : res (list val) :=
  match es with
  | [] => Val []
  | e :: es => bind (ev e) (fun v => bind (eval_all ev es) (fun vs => Val (v :: vs)))
  end.

(** println formats integers, booleans and strings
    (zgo/internal/target/zigc/builtins.go:10-45; [None] is its error) *)
Definition printable (v : val) : res pval :=
  match v with
  | VLit z | VInt _ z => Val (PInt z)
  | VBool b => Val (PBool b)
  | VStr s => Val (PStr s)
  | _ => Refused
  end.
Fixpoint printables (vs : list val) : res (list pval) :=
  match vs with
  | [] => Val []
  | v :: vs => bind (printable v) (fun p => bind (printables vs) (fun ps => Val (p :: ps)))
  end.

(** a value stored in a variable of type [t] *)
Definition conv (t : vty) (v : val) : res val :=
  match t, v with
  | TyInt k, _ => bind (as_kind k v) (fun z => Val (VInt k z))
  | TyBool, VBool b => Val (VBool b)
  | TyStr, VStr s => Val (VStr s)
  | _, _ => Refused
  end.
(** a value assigned to a variable that holds [old] *)
Definition conv_like (old : val) (v : val) : res val :=
  match old with
  | VInt k _ => conv (TyInt k) v
  | VBool _ => conv TyBool v
  | VStr _ => conv TyStr v
  | _ => Refused
  end.
Definition assign (st : state) (x : nat) (v : val) : xres :=
  match st_env st x with
  | None => XRefused
  | Some old => with_val (conv_like old v) st (fun v => XOk ONorm (set st x v))
  end.

Definition lab_eqb (lab : option nat) (l : nat) : bool :=
  match lab with Some m => (m =? l)%nat | None => false end.

(** a loop: while the condition holds run the body, then [post]; break and
    continue without a label, or with the label of this loop, are for this loop.
    Both the [for] of Go and the [while] of Zig work like this; [k] bounds the
    number of iterations. *)
Fixpoint loop (k : nat) (lab : option nat) (cond : state -> res bool) (post body : state -> xres)
  (st : state) : xres :=
  match k with
  | O => XTime st
  | S k =>
      with_val (cond st) st (fun b =>
        if b then
          match body st with
          | XOk ONorm st' | XOk (OCnt None) st' => xbind (post st') (loop k lab cond post body)
          | XOk (OCnt (Some l)) st' =>
              if lab_eqb lab l then xbind (post st') (loop k lab cond post body)
              else XOk (OCnt (Some l)) st'
          | XOk (OBrk None) st' => XOk ONorm st'
          | XOk (OBrk (Some l)) st' => if lab_eqb lab l then XOk ONorm st' else XOk (OBrk (Some l)) st'
          | r => r
          end
        else XOk ONorm st)
  end.

(** counting from [i]: run the body with the counter, [k] times *)
Fixpoint count (k : nat) (lab : option nat) (i : Z) (body : Z -> state -> xres) (st : state) : xres :=
  match k with
  | O => XOk ONorm st
  | S k =>
      match body i st with
      | XOk ONorm st' | XOk (OCnt None) st' => count k lab (i + 1) body st'
      | XOk (OCnt (Some l)) st' =>
          if lab_eqb lab l then count k lab (i + 1) body st' else XOk (OCnt (Some l)) st'
      | XOk (OBrk None) st' => XOk ONorm st'
      | XOk (OBrk (Some l)) st' => if lab_eqb lab l then XOk ONorm st' else XOk (OBrk (Some l)) st'
      | r => r
      end
  end.

Definition as_bool (r : res val) : res bool :=
  bind r (fun v => match v with VBool b => Val b | _ => Refused end).
(** a break that leaves a switch ("Break statements" in the Go specification) *)
Definition leave_switch (r : xres) : xres :=
  match r with XOk (OBrk None) st => XOk ONorm st | r => r end.

Section GoExec.
  Variable pol : policy.
  Definition ge (st : state) (e : expr) : res val := go_eval pol (st_env st) e.

  (** the pairs of variables and values of an assignment, in order *)
  Fixpoint assign_all (st : state) (xs : list nat) (vs : list val) : xres :=
    match xs, vs with
    | [], [] => XOk ONorm st
    | x :: xs, v :: vs => xbind (assign st x v) (fun st => assign_all st xs vs)
    | _, _ => XRefused
    end.
  Fixpoint define_all (st : state) (xs : list (nat * vty)) (vs : list val) : xres :=
    match xs, vs with
    | [], [] => XOk ONorm st
    | (x, t) :: xs, v :: vs => with_val (conv t v) st (fun v => define_all (set st x v) xs vs)
    | _, _ => XRefused
    end.

  (** does the tag equal one of the expressions of the clause? *)
  Fixpoint case_hit (st : state) (tag : val) (es : list expr) : res bool :=
    match es with
    | [] => Val false
    | e :: es => bind (ge st e) (fun v => bind (go_bin pol OEq tag v) (fun r =>
        match r with VBool true => Val true | VBool false => case_hit st tag es | _ => Refused end))
    end.

  (** The meaning of Go statements ("Statements" in the Go specification).  [n]
      bounds the iterations of each loop. *)
  Fixpoint g_stmt (n : nat) (s : gstmt) (st : state) {struct s} : xres :=
    match s with
    | GPrint es =>
        with_val (eval_all (ge st) es) st (fun vs =>
        with_val (printables vs) st (fun ps => XOk ONorm (emit st ps)))
    | GAssign xs o es =>
        match o with
        | None => with_val (eval_all (ge st) es) st (assign_all st xs)
        | Some o =>
            match xs, es with
            | [x], [e] => with_val (ge st (EBin o (EVar x) (EParen e))) st (assign st x)
            | _, _ => XRefused
            end
        end
    | GDefine xs es => with_val (eval_all (ge st) es) st (define_all st xs)
    | GInc x => with_val (ge st (EBin OAdd (EVar x) (EInt 1))) st (assign st x)
    | GDec x => with_val (ge st (EBin OSub (EVar x) (EInt 1))) st (assign st x)
    | GBlock l => g_list n l st
    | GIf init c body els =>
        xbind (g_list n init st) (fun st =>
        with_val (as_bool (ge st c)) st (fun b => if b then g_list n body st else g_list n els st))
    | GFor lab init c post body =>
        xbind (g_list n init st) (fun st =>
        loop n lab
          (fun st => match c with Some c => as_bool (ge st c) | None => Val true end)
          (fun st => g_list n post st) (fun st => g_list n body st) st)
    | GRange lab key k x body =>
        with_val (bind (ge st x) (as_kind k)) st (fun z =>
        count (Z.to_nat z) lab 0
          (fun i st => g_list n body (match key with Some y => set st y (VInt k i) | None => st end)) st)
    | GSwitch init tag cls =>
        xbind (g_list n init st) (fun st =>
        with_val (match tag with Some e => ge st e | None => Val (VBool true) end) st (fun v =>
        leave_switch (g_match n v cls (fun st => g_default n cls st) st)))
    | GBreak lab => XOk (OBrk lab) st
    | GContinue lab => XOk (OCnt lab) st
    | GReturn es => with_val (eval_all (ge st) es) st (fun vs => XOk (ORet vs) st)
    end
  with g_list (n : nat) (l : gstmts) (st : state) {struct l} : xres :=
    match l with
    | GNil => XOk ONorm st
    | GCons s l => xbind (g_stmt n s st) (fun st => g_list n l st)
    end
  (* the first clause that matches; [none] if there is none *)
  with g_match (n : nat) (tag : val) (cls : gclauses) (none : state -> xres) (st : state) {struct cls} : xres :=
    match cls with
    | CNil => none st
    | CCons es body falls rest =>
        with_val (case_hit st tag es) st (fun b =>
        if b then xbind (g_list n body st) (fun st => if falls then g_from n rest st else XOk ONorm st)
        else g_match n tag rest none st)
    end
  with g_default (n : nat) (cls : gclauses) (st : state) {struct cls} : xres :=
    match cls with
    | CNil => XOk ONorm st
    | CCons [] body falls rest =>
        xbind (g_list n body st) (fun st => if falls then g_from n rest st else XOk ONorm st)
    | CCons _ _ _ rest => g_default n rest st
    end
  (* the body of the first clause, and on while they fall through *)
  with g_from (n : nat) (cls : gclauses) (st : state) {struct cls} : xres :=
    match cls with
    | CNil => XRefused
    | CCons _ body falls rest =>
        xbind (g_list n body st) (fun st => if falls then g_from n rest st else XOk ONorm st)
    end.
End GoExec.

(** ** The printer of statements *)
Fixpoint sep_by (t : tok) (l : list (list tok)) : list tok :=
  match l with
  | [] => []
  | [x] => x
  | x :: l => x ++ t :: sep_by t l
  end.
Fixpoint print_all (ty : expr -> gty) (es : list expr) : option (list (list tok)) :=
  match es with
  | [] => Some []
  | e :: es => match z_print ty e, print_all ty es with
               | Some t, Some ts => Some (t :: ts) | _, _ => None end
  end.
Definition ty_tok (t : vty) : tok :=
  match t with TyInt k => TTy k | TyBool => TTyBool | TyStr => TTyStr end.

(** zgo/internal/target/zigc/assignment.go:51-134, one variable after the other
    with nothing in between; a missing value is an index out of range, a crash of
    the compiler *)
Fixpoint print_assigns (ty : expr -> gty) (t : tok) (xs : list nat) (es : list expr) : option (list tok) :=
  match xs, es with
  | [], _ => Some []
  | x :: xs, e :: es =>
      match z_print ty e, print_assigns ty t xs es with
      | Some te, Some r => Some (TName x :: t :: te ++ r) | _, _ => None end
  | _ :: _, [] => None
  end.
(** assignment.go:14-50 with definitions.go:162-245 (VariableDefinition of a local
    variable with a value, called with [Tabs] negated): declare, then assign the
    variable to itself so that Zig does not complain about it never changing *)
Fixpoint print_defines (ty : expr -> gty) (xs : list (nat * vty)) (es : list expr) : option (list tok) :=
  match xs, es with
  | [], _ => Some []
  | (x, t) :: xs, e :: es =>
      match z_print ty e, print_defines ty xs es with
      | Some te, Some r =>
          Some ([TVarKw; TName x; TColon; ty_tok t; TAsg] ++ te ++ [TSemi; TName x; TAsg; TName x] ++ r)
      | _, _ => None end
  | _ :: _, [] => None
  end.

(** statements.go:46-54: the statements that are not followed by a semicolon *)
Definition blocky (s : gstmt) : bool :=
  match s with GBlock _ | GFor _ _ _ _ _ | GRange _ _ _ _ _ | GIf _ _ _ _ | GSwitch _ _ _ => true | _ => false end.

Definition opt_app (a b : option (list tok)) : option (list tok) :=
  match a, b with Some a, Some b => Some (a ++ b) | _, _ => None end.
Infix "+++" := opt_app (right associativity, at level 60).

Section Print.
  Variable ty : expr -> gty.
  Definition pe (e : expr) : option (list tok) := z_print ty e.

  (** [Compile]: the statement itself, without the semicolon [Statement] adds *)
  Fixpoint pr_raw (s : gstmt) {struct s} : option (list tok) :=
    match s with
    (* builtins.go:10-45, go.println("...", .{ es }) *)
    | GPrint es => match print_all ty es with
                   | Some ts => Some (TPrintln :: TLp :: sep_by TComma ts ++ [TRp])
                   | None => None end
    | GAssign xs None es => print_assigns ty TAsg xs es
    | GAssign xs (Some o) es => print_assigns ty (TOpAsg o) xs es
    | GDefine xs es => print_defines ty xs es
    (* statements.go:101-107 and 72-79 *)
    | GInc x => Some [TName x; TOpAsg OAdd; TInt 1]
    | GDec x => Some [TName x; TOpAsg OSub; TInt 1]
    (* statements.go:57-70 *)
    | GBlock l => Some [TLc] +++ pr_list l +++ Some [TRc]
    (* branches.go:10-43: the brace opened for the init statement is never closed *)
    | GIf init c body els =>
        match init with GNil => Some [] | GCons s _ => Some [TLc] +++ pr_stmt s +++ Some [TSemi] end
        +++ Some [TIf; TLp] +++ pe c +++ Some [TRp; TLc] +++ pr_list body
        +++ match els with
            | GNil => Some [TRc]
            | GCons s _ => Some [TRc; TElse] +++ pr_stmt s
            end
    (* loops.go:11-55 *)
    | GFor lab init c post body =>
        match init with GNil => Some [] | GCons s _ => Some [TLc] +++ pr_stmt s end
        +++ Some (match lab with Some l => [TLabel l; TColon] | None => [] end)
        +++ Some [TWhile; TLp] +++ match c with Some c => pe c | None => Some [TTrue] end +++ Some [TRp]
        +++ match post with GNil => Some [] | GCons s _ => Some [TColon; TLp] +++ pr_raw s +++ Some [TRp] end
        +++ Some [TLc] +++ pr_list body +++ Some [TRc]
        +++ match init with GNil => Some [] | GCons _ _ => Some [TRc] end
    (* loops.go:57-86, range over an integer: the label goes in front of the body *)
    | GRange lab key k x body =>
        Some [TFor; TLp; TInt 0; TDots; TAs; TLp; TTy k; TComma] +++ pe x +++ Some [TRp; TRp; TPipe]
        +++ Some [match key with Some y => TName y | None => TUnder end; TPipe]
        +++ Some (match lab with Some l => [TLabel l; TColon] | None => [] end)
        +++ Some [TLc] +++ pr_list body +++ Some [TRc]
    (* branches.go:45-72 *)
    | GSwitch init tag cls =>
        Some [TLc]
        +++ match init with GNil => Some [] | GCons s _ => pr_stmt s end
        +++ Some [TSwitch; TLp] +++ match tag with Some e => pe e | None => Some [] end +++ Some [TRp; TLc]
        +++ pr_clauses cls +++ Some [TRc; TRc]
    (* statements.go:92-99, loops.go:137-144 *)
    | GBreak lab => Some (TBreak :: match lab with Some l => [TColon; TLabel l] | None => [] end)
    | GContinue lab => Some (TContinue :: match lab with Some l => [TColon; TLabel l] | None => [] end)
    (* statements.go:109-118: the results one after the other, nothing in between *)
    | GReturn es => match print_all ty es with
                    | Some ts => Some (TReturn :: concat ts)
                    | None => None end
    end
  (* [Statement], statements.go:12-55 *)
  with pr_stmt (s : gstmt) {struct s} : option (list tok) :=
    match s with
    | GPrint es => match print_all ty es with
                   | Some ts => Some ((TPrintln :: TLp :: sep_by TComma ts ++ [TRp]) ++ [TSemi])
                   | None => None end
    | GAssign xs None es => print_assigns ty TAsg xs es +++ Some [TSemi]
    | GAssign xs (Some o) es => print_assigns ty (TOpAsg o) xs es +++ Some [TSemi]
    | GDefine xs es => print_defines ty xs es +++ Some [TSemi]
    | GInc x => Some [TName x; TOpAsg OAdd; TInt 1; TSemi]
    | GDec x => Some [TName x; TOpAsg OSub; TInt 1; TSemi]
    | GBlock l => Some [TLc] +++ pr_list l +++ Some [TRc]
    | GIf init c body els =>
        match init with GNil => Some [] | GCons s _ => Some [TLc] +++ pr_stmt s +++ Some [TSemi] end
        +++ Some [TIf; TLp] +++ pe c +++ Some [TRp; TLc] +++ pr_list body
        +++ match els with
            | GNil => Some [TRc]
            | GCons s _ => Some [TRc; TElse] +++ pr_stmt s
            end
    | GFor lab init c post body =>
        match init with GNil => Some [] | GCons s _ => Some [TLc] +++ pr_stmt s end
        +++ Some (match lab with Some l => [TLabel l; TColon] | None => [] end)
        +++ Some [TWhile; TLp] +++ match c with Some c => pe c | None => Some [TTrue] end +++ Some [TRp]
        +++ match post with GNil => Some [] | GCons s _ => Some [TColon; TLp] +++ pr_raw s +++ Some [TRp] end
        +++ Some [TLc] +++ pr_list body +++ Some [TRc]
        +++ match init with GNil => Some [] | GCons _ _ => Some [TRc] end
    | GRange lab key k x body =>
        Some [TFor; TLp; TInt 0; TDots; TAs; TLp; TTy k; TComma] +++ pe x +++ Some [TRp; TRp; TPipe]
        +++ Some [match key with Some y => TName y | None => TUnder end; TPipe]
        +++ Some (match lab with Some l => [TLabel l; TColon] | None => [] end)
        +++ Some [TLc] +++ pr_list body +++ Some [TRc]
    | GSwitch init tag cls =>
        Some [TLc]
        +++ match init with GNil => Some [] | GCons s _ => pr_stmt s end
        +++ Some [TSwitch; TLp] +++ match tag with Some e => pe e | None => Some [] end +++ Some [TRp; TLc]
        +++ pr_clauses cls +++ Some [TRc; TRc]
    | GBreak lab => Some ((TBreak :: match lab with Some l => [TColon; TLabel l] | None => [] end) ++ [TSemi])
    | GContinue lab => Some ((TContinue :: match lab with Some l => [TColon; TLabel l] | None => [] end) ++ [TSemi])
    | GReturn es => match print_all ty es with
                    | Some ts => Some ((TReturn :: concat ts) ++ [TSemi])
                    | None => None end
    end
  with pr_list (l : gstmts) {struct l} : option (list tok) :=
    match l with GNil => Some [] | GCons s l => pr_stmt s +++ pr_list l end
  (* SwitchCaseClause, statements.go:153-176: [Fallsthrough] is not looked at *)
  with pr_clauses (cls : gclauses) {struct cls} : option (list tok) :=
    match cls with
    | CNil => Some []
    | CCons es body _ rest =>
        match es with
        | [] => Some [TElse]
        | _ => match print_all ty es with Some ts => Some (sep_by TComma ts) | None => None end
        end +++ Some [TArrow; TLc] +++ pr_list body +++ Some [TRc; TComma] +++ pr_clauses rest
    end.
End Print.

(** [Statement] is [Compile] and a semicolon, except after the statements that end
    in a brace.  (The two functions above are spelled out separately because both
    recurse.) *)
Lemma pr_stmt_raw : forall ty s,
  pr_stmt ty s = if blocky s then pr_raw ty s else pr_raw ty s +++ Some [TSemi].
Proof.
  intros ty s. destruct s; try reflexivity; cbn [blocky pr_stmt pr_raw].
  - destruct (print_all ty es); reflexivity.
  - destruct o; reflexivity.
  - destruct (print_all ty es); reflexivity.
Qed.

(** ** Zig statements and their grammar (lib/std/zig/Parse.zig) *)
Inductive zstmt :=
| ZDecl (x : nat) (t : vty) (e : expr)
| ZSet (x : nat) (o : option binop) (e : expr)
| ZPrint (es : list expr)
| ZBlock (lab : option nat) (l : list zstmt)
| ZIf (c : expr) (l : list zstmt) (els : option zstmt)
| ZWhile (lab : option nat) (c : expr) (post : option (nat * option binop * expr)) (l : list zstmt)
| ZFor (k : ikind) (e : expr) (key : option nat) (lab : option nat) (l : list zstmt)
| ZSwitch (e : expr) (prongs : list (option (list expr) * list zstmt))
| ZBreak (lab : option nat)
| ZCont (lab : option nat)
| ZRet (e : option expr).

(** an expression at the front of a token list *)
Definition rd (ts : list tok) : option (expr * list tok) := p_expr zig (6 * (1 + length ts)) 0 ts.

(** expressions separated by commas *)
Fixpoint rd_list (f : nat) (ts : list tok) : option (list expr * list tok) :=
  match f with O => None | S f =>
    match rd ts with
    | Some (e, TComma :: r) =>
        match rd_list f r with Some (es, r') => Some (e :: es, r') | None => None end
    | Some (e, r) => Some ([e], r)
    | None => None
    end
  end.

Definition rd_type (ts : list tok) : option (vty * list tok) :=
  match ts with
  | TTy k :: r => Some (TyInt k, r)
  | TTyBool :: r => Some (TyBool, r)
  | TTyStr :: r => Some (TyStr, r)
  | _ => None
  end.

(** [&^=] is not a token of Zig, and [&&=], [==], ... are none anywhere *)
Definition zig_opasg (o : binop) : bool :=
  match o with
  | OMul | ODiv | ORem | OAdd | OSub | OShl | OShr | OAnd | OOr | OXor => true
  | _ => false
  end.

(** AssignExpr, restricted to a variable on the left *)
Definition rd_assign (ts : list tok) : option (nat * option binop * expr * list tok) :=
  match ts with
  | TName x :: TAsg :: r =>
      match rd r with Some (e, r') => Some (x, None, e, r') | None => None end
  | TName x :: TOpAsg o :: r =>
      if zig_opasg o then
        match rd r with Some (e, r') => Some (x, Some o, e, r') | None => None end
      else None
  | _ => None
  end.

Definition rd_label (ts : list tok) : option nat * list tok :=
  match ts with
  | TColon :: TLabel l :: r => (Some l, r)
  | _ => (None, ts)
  end.

(** BlockLabel *)
Definition rd_block_label (ts : list tok) : option nat * list tok :=
  match ts with
  | TLabel l :: TColon :: r => (Some l, r)
  | _ => (None, ts)
  end.

(** how a statement begins, and what comes after that *)
Inductive shead :=
| HDecl (x : nat) (r : list tok) | HPrint0 (r : list tok) | HPrint (r : list tok)
| HBlock (lab : option nat) (r : list tok) | HWhile (lab : option nat) (r : list tok)
| HIf (r : list tok) | HFor (k : ikind) (r : list tok) | HSwitch (r : list tok)
| HBreak (r : list tok) | HCont (r : list tok) | HRet0 (r : list tok) | HRet (r : list tok)
| HOther.
Definition s_head (ts : list tok) : shead :=
  match ts with
  | TVarKw :: TName x :: TColon :: r => HDecl x r
  | TPrintln :: TLp :: TRp :: TSemi :: r => HPrint0 r
  | TPrintln :: TLp :: r => HPrint r
  | TLc :: r => HBlock None r
  | TLabel l :: TColon :: TLc :: r => HBlock (Some l) r
  | TLabel l :: TColon :: TWhile :: r => HWhile (Some l) r
  | TWhile :: r => HWhile None r
  | TIf :: TLp :: r => HIf r
  | TFor :: TLp :: TInt 0 :: TDots :: TAs :: TLp :: TTy k :: TComma :: r => HFor k r
  | TSwitch :: TLp :: r => HSwitch r
  | TBreak :: r => HBreak r
  | TContinue :: r => HCont r
  | TReturn :: TSemi :: r => HRet0 r
  | TReturn :: r => HRet r
  | _ => HOther
  end.
(** the capture of a for loop *)
Definition rd_capture (ts : list tok) : option (option nat * list tok) :=
  match ts with
  | TRp :: TRp :: TPipe :: TName y :: TPipe :: r => Some (Some y, r)
  | TRp :: TRp :: TPipe :: TUnder :: TPipe :: r => Some (None, r)
  | _ => None
  end.
(** what follows the condition of a while loop *)
Inductive whead := WPost (r : list tok) | WBody (r : list tok) | WBad.
Definition w_head (ts : list tok) : whead :=
  match ts with
  | TRp :: TColon :: TLp :: r => WPost r
  | TRp :: TLc :: r => WBody r
  | _ => WBad
  end.
(** how a prong begins *)
Inductive phead := PEnd | PElse (r : list tok) | PItems.
Definition p_head (ts : list tok) : phead :=
  match ts with
  | TRc :: _ => PEnd
  | TElse :: TArrow :: TLc :: r => PElse r
  | _ => PItems
  end.
(** the end of a list of statements *)
Definition at_end (ts : list tok) : bool :=
  match ts with [] | TRc :: _ => true | _ => false end.
(** tokens that must come next *)
Definition expect1 (ok : tok -> bool) (ts : list tok) : option (list tok) :=
  match ts with t :: r => if ok t then Some r else None | [] => None end.
Definition is_rc (t : tok) : bool := match t with TRc => true | _ => false end.
Definition is_lc (t : tok) : bool := match t with TLc => true | _ => false end.
Definition is_rp (t : tok) : bool := match t with TRp => true | _ => false end.
Definition is_semi (t : tok) : bool := match t with TSemi => true | _ => false end.
Definition is_comma (t : tok) : bool := match t with TComma => true | _ => false end.
Definition is_arrow (t : tok) : bool := match t with TArrow => true | _ => false end.
Definition is_else (t : tok) : bool := match t with TElse => true | _ => false end.
Definition is_asg (t : tok) : bool := match t with TAsg => true | _ => false end.
Definition expect2 (a b : tok -> bool) (ts : list tok) : option (list tok) :=
  match expect1 a ts with Some r => expect1 b r | None => None end.

Fixpoint z_stmt_p (f : nat) (ts : list tok) {struct f} : option (zstmt * list tok) :=
  match f with O => None | S f =>
    match s_head ts with
    | HDecl x r =>
        match rd_type r with
        | Some (t, r) =>
            match expect1 is_asg r with
            | Some r => match rd r with
                        | Some (e, r) => match expect1 is_semi r with Some r => Some (ZDecl x t e, r) | None => None end
                        | None => None end
            | None => None
            end
        | None => None
        end
    | HPrint0 r => Some (ZPrint [], r)
    | HPrint r =>
        match rd_list (length r) r with
        | Some (es, r) => match expect2 is_rp is_semi r with Some r => Some (ZPrint es, r) | None => None end
        | None => None
        end
    | HBlock lab r =>
        match z_block_p f r with Some (b, r) => Some (ZBlock lab b, r) | None => None end
    | HWhile lab r => z_while_p f lab r
    | HIf r =>
        match rd r with
        | Some (c, r) =>
            match expect2 is_rp is_lc r with
            | Some r =>
                match z_block_p f r with
                | Some (b, r) =>
                    match expect1 is_else r with
                    | Some r' => match z_stmt_p f r' with Some (s, r) => Some (ZIf c b (Some s), r) | None => None end
                    | None => Some (ZIf c b None, r)
                    end
                | None => None
                end
            | None => None
            end
        | None => None
        end
    | HFor k r =>
        match rd r with
        | Some (e, r) =>
            match rd_capture r with
            | Some (key, r) =>
                let '(lab, r) := rd_block_label r in
                match expect1 is_lc r with
                | Some r => match z_block_p f r with Some (b, r) => Some (ZFor k e key lab b, r) | None => None end
                | None => None
                end
            | None => None
            end
        | None => None
        end
    | HSwitch r =>
        match rd r with
        | Some (e, r) =>
            match expect2 is_rp is_lc r with
            | Some r =>
                match z_prongs_p f r with
                | Some (ps, r) => match expect1 is_rc r with Some r => Some (ZSwitch e ps, r) | None => None end
                | None => None
                end
            | None => None
            end
        | None => None
        end
    | HBreak r =>
        let '(lab, r) := rd_label r in
        match expect1 is_semi r with Some r => Some (ZBreak lab, r) | None => None end
    | HCont r =>
        let '(lab, r) := rd_label r in
        match expect1 is_semi r with Some r => Some (ZCont lab, r) | None => None end
    | HRet0 r => Some (ZRet None, r)
    | HRet r =>
        match rd r with
        | Some (e, r) => match expect1 is_semi r with Some r => Some (ZRet (Some e), r) | None => None end
        | None => None
        end
    | HOther =>
        match rd_assign ts with
        | Some (x, o, e, r) => match expect1 is_semi r with Some r => Some (ZSet x o e, r) | None => None end
        | None => None
        end
    end
  end
(* the statements of a block and its closing brace *)
with z_block_p (f : nat) (ts : list tok) {struct f} : option (list zstmt * list tok) :=
  match f with O => None | S f =>
    match z_list_p f ts with
    | Some (l, r) => match expect1 is_rc r with Some r => Some (l, r) | None => None end
    | None => None
    end
  end
with z_while_p (f : nat) (lab : option nat) (ts : list tok) {struct f} : option (zstmt * list tok) :=
  match f with O => None | S f =>
    match ts with
    | TLp :: r =>
        match rd r with
        | Some (c, r) =>
            match w_head r with
            | WPost r =>
                match rd_assign r with
                | Some (x, o, e, r) =>
                    match expect2 is_rp is_lc r with
                    | Some r => match z_block_p f r with
                                | Some (b, r) => Some (ZWhile lab c (Some (x, o, e)) b, r) | None => None end
                    | None => None
                    end
                | None => None
                end
            | WBody r => match z_block_p f r with Some (b, r) => Some (ZWhile lab c None b, r) | None => None end
            | WBad => None
            end
        | None => None
        end
    | _ => None
    end
  end
(* statements up to a closing brace or the end *)
with z_list_p (f : nat) (ts : list tok) {struct f} : option (list zstmt * list tok) :=
  match f with O => None | S f =>
    if at_end ts then Some ([], ts)
    else
      match z_stmt_p f ts with
      | Some (s, r) =>
          match z_list_p f r with Some (l, r) => Some (s :: l, r) | None => None end
      | None => None
      end
  end
with z_prongs_p (f : nat) (ts : list tok) {struct f}
  : option (list (option (list expr) * list zstmt) * list tok) :=
  match f with O => None | S f =>
    match p_head ts with
    | PEnd => Some ([], ts)
    | PElse r =>
        match z_block_p f r with
        | Some (b, r) =>
            match expect1 is_comma r with
            | Some r => match z_prongs_p f r with Some (ps, r) => Some ((None, b) :: ps, r) | None => None end
            | None => None
            end
        | None => None
        end
    | PItems =>
        match rd_list (length ts) ts with
        | Some (es, r) =>
            match expect2 is_arrow is_lc r with
            | Some r =>
                match z_block_p f r with
                | Some (b, r) =>
                    match expect1 is_comma r with
                    | Some r => match z_prongs_p f r with Some (ps, r) => Some ((Some es, b) :: ps, r) | None => None end
                    | None => None
                    end
                | None => None
                end
            | None => None
            end
        | None => None
        end
    end
  end.

(** the body of a function: everything is read *)
Definition read_stmts (ts : list tok) : option (list zstmt) :=
  match z_list_p (6 * (1 + length ts)) ts with
  | Some (l, []) => Some l
  | _ => None
  end.

(** *** Meaning of Zig statements (Zig language reference) *)
Definition ze (st : state) (e : expr) : res val := zig_eval (st_env st) e.

(** the items of a switch must be known at compile time, different from each other
    and of the type of the operand; only integers are modelled *)
Definition no_env : env := fun _ => None.
Fixpoint item_vals (es : list expr) : res (list Z) :=
  match es with
  | [] => Val []
  | e :: es => bind (zig_eval no_env e) (fun v => match v with
      | VLit z => bind (item_vals es) (fun zs => Val (z :: zs))
      | _ => Refused end)
  end.
Fixpoint memZ (z : Z) (l : list Z) : bool :=
  match l with [] => false | x :: l => (z =? x) || memZ z l end.
Fixpoint distinct (l : list Z) : bool :=
  match l with [] => true | x :: l => negb (memZ x l) && distinct l end.
Fixpoint prong_items {A} (ps : list (option (list expr) * A)) : res (list Z) :=
  match ps with
  | [] => Val []
  | (None, _) :: ps => prong_items ps
  | (Some es, _) :: ps => bind (item_vals es) (fun a => bind (prong_items ps) (fun b => Val (a ++ b)))
  end.
Fixpoint count_else {A} (ps : list (option (list expr) * A)) : nat :=
  match ps with
  | [] => O
  | (None, _) :: ps => S (count_else ps)
  | _ :: ps => count_else ps
  end.
(** a switch on integers is accepted if its items are distinct constants in the
    range of the operand's type and there is exactly one else prong *)
Definition switch_ok {A} (v : val) (ps : list (option (list expr) * A)) : option Z :=
  match v with
  | VInt k z =>
      match prong_items ps with
      | Val zs => if distinct zs && forallb (in_range k) zs && (count_else ps =? 1)%nat then Some z else None
      | _ => None
      end
  | _ => None
  end.
Definition hits (z : Z) (es : list expr) : bool :=
  match item_vals es with Val zs => memZ z zs | _ => false end.

(** an expression the range [0..@as(k, e)] accepts: it wants a usize, which a
    constant is if it is not negative *)
Definition for_bound (k : ikind) (v : val) : res Z :=
  match v with
  | VLit z => if in_range k z && (0 <=? z) then Val z else Refused
  | VInt k' z => if ik_eqb k k_uint && ik_eqb k' k_uint then Val z else Refused
  | _ => Refused
  end.

(** a labelled block: break with its label leaves it *)
Definition leave_block (lab : option nat) (r : xres) : xres :=
  match r with
  | XOk (OBrk (Some l)) st => if lab_eqb lab l then XOk ONorm st else r
  | XOk (OCnt (Some l)) st => if lab_eqb lab l then XRefused else r
  | _ => r
  end.

Definition z_assign (st : state) (x : nat) (o : option binop) (e : expr) : xres :=
  match o with
  | None => with_val (ze st e) st (assign st x)
  | Some o => with_val (ze st (EBin o (EVar x) (EParen e))) st (assign st x)
  end.

Fixpoint z_stmt (n : nat) (s : zstmt) (st : state) {struct s} : xres :=
  let seq := fix seq (l : list zstmt) (st : state) : xres :=
    match l with
    | [] => XOk ONorm st
    | s :: l => xbind (z_stmt n s st) (seq l)
    end in
  match s with
  | ZDecl x t e => with_val (bind (ze st e) (conv t)) st (fun v => XOk ONorm (set st x v))
  | ZSet x o e => z_assign st x o e
  | ZPrint es =>
      with_val (eval_all (ze st) es) st (fun vs =>
      with_val (printables vs) st (fun ps => XOk ONorm (emit st ps)))
  | ZBlock lab l => leave_block lab (seq l st)
  | ZIf c l els =>
      with_val (as_bool (ze st c)) st (fun b =>
      if b then seq l st else match els with Some s => z_stmt n s st | None => XOk ONorm st end)
  | ZWhile lab c post l =>
      loop n lab (fun st => as_bool (ze st c))
        (fun st => match post with Some (x, o, e) => z_assign st x o e | None => XOk ONorm st end)
        (fun st => seq l st) st
  | ZFor k e key lab l =>
      with_val (bind (ze st e) (for_bound k)) st (fun z =>
      count (Z.to_nat z) None 0
        (fun i st => leave_block lab (seq l (match key with Some y => set st y (VInt k_uint i) | None => st end))) st)
  | ZSwitch e ps =>
      with_val (ze st e) st (fun v =>
      match switch_ok v ps with
      | None => XRefused
      | Some z =>
          (fix pick (ps : list (option (list expr) * list zstmt)) (other : state -> xres) (st : state) : xres :=
             match ps with
             | [] => other st
             | (Some es, b) :: ps => if hits z es then seq b st else pick ps other st
             | (None, b) :: ps => pick ps (fun st => seq b st) st
             end) ps (fun st => XOk ONorm st) st
      end)
  | ZBreak lab => XOk (OBrk lab) st
  | ZCont lab => XOk (OCnt lab) st
  | ZRet None => XOk (ORet []) st
  | ZRet (Some e) => with_val (ze st e) st (fun v => XOk (ORet [v]) st)
  end.

Definition z_seq (n : nat) : list zstmt -> state -> xres :=
  fix seq (l : list zstmt) (st : state) : xres :=
    match l with
    | [] => XOk ONorm st
    | s :: l => xbind (z_stmt n s st) (seq l)
    end.
Definition z_pick (n : nat) (z : Z) :=
  fix pick (ps : list (option (list expr) * list zstmt)) (other : state -> xres) (st : state) : xres :=
    match ps with
    | [] => other st
    | (Some es, b) :: ps => if hits z es then z_seq n b st else pick ps other st
    | (None, b) :: ps => pick ps (fun st => z_seq n b st) st
    end.

(** ** Functions: the result of a whole body *)
(** a break or continue that reaches no loop is refused by both compilers *)
Definition body_result (r : xres) : xres :=
  match r with XOk (OBrk _) _ | XOk (OCnt _) _ => XRefused | _ => r end.
Definition go_body (pol : policy) (n : nat) (l : gstmts) (st : state) : xres :=
  body_result (g_list pol n l st).
Definition zig_body (ty : expr -> gty) (n : nat) (l : gstmts) (st : state) : xres :=
  match pr_list ty l with
  | None => XRefused
  | Some ts => match read_stmts ts with
               | None => XRefused
               | Some zs => body_result (z_seq n zs st)
               end
  end.
