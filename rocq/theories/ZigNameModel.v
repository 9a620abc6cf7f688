(** * zgo: names. Zig has no shadowing: the target renames what Go shadows
    (zgo/internal/parser/parser.go:169-207, zgo/internal/target/zigc/definitions.go:13-52). *)
From Coq Require Import String.
From Verif Require Import GoBase GoText ZigLitModel.
Open Scope list_scope.
Open Scope Z_scope.

(** ** Go

    The statements of a function, as far as names go. [Decl raw n d]: variable,
    constant or parameter [n] is declared ([raw]: a function or type, whose names are
    printed as they are, definitions.go:40-43 and 68-72), declaration number [d];
    [Use n]: it is mentioned; [Block b]: a scope. Simplifications: the suffix ".*" of
    variables that are not on the stack, the blank identifier, predeclared names (printed
    by builtins.go), fields and methods are left out, as are function literals. *)
Inductive items :=
| Done
| Decl (raw : bool) (n : bytes) (d : nat) (r : items)
| Use (n : bytes) (r : items)
| Block (b r : items).

(** what has been declared so far in a scope *)
Definition frame := list (bytes * (bool * nat)).
Definition find_in (n : bytes) (f : frame) : option (bool * nat) :=
  option_map snd (List.find (fun p => beq (fst p) n) f).
(** The innermost declaration, and how many scopes out it is. *)
Fixpoint lookup (env : list frame) (n : bytes) : option (nat * (bool * nat)) :=
  match env with
  | [] => None
  | f :: r => match find_in n f with
              | Some o => Some (O, o)
              | None => option_map (fun '(i, o) => (S i, o)) (lookup r n)
              end
  end.
Definition declare (n : bytes) (o : bool * nat) (env : list frame) : list frame :=
  match env with [] => [[(n, o)]] | f :: r => ((n, o) :: f) :: r end.
(** The declarations the uses refer to, in order; [None]: not a Go program (an
    undeclared name, or a name declared twice in a scope). *)
Fixpoint go_uses (env : list frame) (l : items) : option (list nat) :=
  match l with
  | Done => Some []
  | Decl raw n d r =>
      match env with
      | [] => None
      | f :: _ => match find_in n f with Some _ => None | None => go_uses (declare n (raw, d) env) r end
      end
  | Use n r =>
      match lookup env n with
      | Some (_, (_, d)) => option_map (cons d) (go_uses env r)
      | None => None
      end
  | Block b r =>
      match go_uses ([] :: env) b, go_uses env r with
      | Some x, Some y => Some (x ++ y)
      | _, _ => None
      end
  end.

(** ** The target *)
(** types.Scope.Lookup: all names of a scope, also those declared later *)
Fixpoint names (l : items) : list bytes :=
  match l with
  | Done => []
  | Decl _ n _ r => n :: names r
  | Use _ r => names r
  | Block _ r => names r
  end.
Definition has_name (n : bytes) (s : list bytes) : bool := existsb (beq n) s.
(** parser.go:170-184: the number of scopes with this name, from the scope of the
    object to the universe, less one *)
Definition shadow (chain : list (list bytes)) (n : bytes) : Z :=
  fold_left (fun a s => if has_name n s then a + 1 else a) chain (-1).
(** %d *)
Definition dec_text (n : Z) : bytes := decimal (S (Z.to_nat n)) n [].
(** definitions.go:26-33 and 46-51 *)
Definition print_name (raw : bool) (n : bytes) (sh : Z) : bytes :=
  if negb raw && (0 <? sh) then text "@""" ++ n ++ [46] ++ dec_text sh ++ [34] else n.

Inductive zitems :=
| ZDone
| ZDecl (t : bytes) (d : nat) (r : zitems)
| ZUse (t : bytes) (r : zitems)
| ZBlock (b r : zitems).
(** [chain]: the names of the scopes around, the universe last *)
Fixpoint translate (chain : list (list bytes)) (env : list frame) (l : items) : zitems :=
  match l with
  | Done => ZDone
  | Decl raw n d r => ZDecl (print_name raw n (shadow chain n)) d (translate chain (declare n (raw, d) env) r)
  | Use n r =>
      ZUse (match lookup env n with
            | Some (i, (raw, _)) => print_name raw n (shadow (skipn i chain) n)
            | None => n
            end) (translate chain env r)
  | Block b r => ZBlock (translate (names b :: chain) ([] :: env) b) (translate chain env r)
  end.

(** ** Zig *)
Definition letter (c : Z) : bool := ((97 <=? c) && (c <=? 122)) || ((65 <=? c) && (c <=? 90)) || (c =? 95).
Definition ident (n : bytes) : bool :=
  match n with [] => false | c :: r => letter c && forallb (fun c => letter c || is_dig c) r end.
Definition zig_keywords : list bytes := map text
  ["addrspace"; "align"; "allowzero"; "and"; "anyframe"; "anytype"; "asm"; "async"; "await"; "break"; "callconv";
   "catch"; "comptime"; "const"; "continue"; "defer"; "else"; "enum"; "errdefer"; "error"; "export"; "extern"; "fn";
   "for"; "if"; "inline"; "linksection"; "noalias"; "noinline"; "nosuspend"; "opaque"; "or"; "orelse"; "packed";
   "pub"; "resume"; "return"; "struct"; "suspend"; "switch"; "test"; "threadlocal"; "try"; "union"; "unreachable";
   "usingnamespace"; "var"; "volatile"; "while"]%string.
Definition zig_primitives : list bytes := map text
  ["anyerror"; "anyopaque"; "bool"; "c_char"; "c_int"; "c_long"; "c_longdouble"; "c_longlong"; "c_short"; "c_uint";
   "c_ulong"; "c_ulonglong"; "c_ushort"; "comptime_float"; "comptime_int"; "f128"; "f16"; "f32"; "f64"; "f80";
   "false"; "isize"; "noreturn"; "null"; "true"; "type"; "undefined"; "usize"; "void"]%string.
(** i8, u16, ... of any width *)
Definition int_type (n : bytes) : bool :=
  match n with
  | c :: d :: r => ((c =? 105) || (c =? 117)) && forallb is_dig (d :: r)
  | _ => false
  end.
Definition zig_reserved (n : bytes) : bool :=
  has_name n zig_keywords || has_name n zig_primitives || int_type n.
(** An identifier token: the name it stands for. [None]: not an identifier, or one that
    may not be declared (simplification: a use of a primitive is refused too; there are
    none without a declaration). *)
Definition zig_ident (t : bytes) : option bytes :=
  match t with
  | 64 :: 34 :: r =>
      match rev r with
      | 34 :: q => if forallb (fun c => negb (c =? 34) && negb (c =? 92) && (32 <=? c)) q then Some (rev q) else None
      | _ => None
      end
  | _ => if ident t && negb (zig_reserved t) then Some t else None
  end.
Definition zframe := list (bytes * nat).
Definition zfind (s : bytes) (f : zframe) : option nat := option_map snd (List.find (fun p => beq (fst p) s) f).
Fixpoint zlookup (env : list zframe) (s : bytes) : option nat :=
  match env with [] => None | f :: r => match zfind s f with Some d => Some d | None => zlookup r s end end.
Definition zdeclare (s : bytes) (d : nat) (env : list zframe) : list zframe :=
  match env with [] => [[(s, d)]] | f :: r => ((s, d) :: f) :: r end.
(** A declaration whose name any enclosing scope has is refused. *)
Fixpoint zig_uses (env : list zframe) (l : zitems) : option (list nat) :=
  match l with
  | ZDone => Some []
  | ZDecl t d r =>
      match zig_ident t with
      | Some s => match zlookup env s with Some _ => None | None => zig_uses (zdeclare s d env) r end
      | None => None
      end
  | ZUse t r =>
      match zig_ident t with
      | Some s => match zlookup env s with Some d => option_map (cons d) (zig_uses env r) | None => None end
      | None => None
      end
  | ZBlock b r =>
      match zig_uses ([] :: env) b, zig_uses env r with
      | Some x, Some y => Some (x ++ y)
      | _, _ => None
      end
  end.

(** ** A package: its declarations, the imports of the file and a function

    The Zig file declares [go] and the imports (zigc.go:74 and 89) besides the
    declarations; the function (function.go:26-29 and 48-51 and 118) declares [default],
    [chan] and [goto] of its own. The declarations of the target have numbers of their own. *)
Definition own : nat := 0.
Record package := { universe : list bytes; globals : frame; imports : list bytes; body : items }.
Definition go_package (p : package) : option (list nat) := go_uses [[]; []; globals p] (body p).
Definition chain_of (p : package) : list (list bytes) :=
  [names (body p); imports p; map fst (globals p); universe p].
(** parameters are the first declarations of [body] (they share its scope) *)
Definition zig_text_body (p : package) : zitems := translate (chain_of p) [[]; []; globals p] (body p).
(** the declarations of the file, in any order *)
Fixpoint zig_globals (u imps : list bytes) (all : list bytes) (g : frame) : option zframe :=
  match g with
  | [] => Some (map (fun n => (n, own)) (text "go" :: imps))
  | (n, (raw, d)) :: r =>
      match zig_ident (print_name raw n (shadow [all; u] n)), zig_globals u imps all r with
      | Some s, Some f => match zfind s f with Some _ => None | None => Some ((s, d) :: f) end
      | _, _ => None
      end
  end.
Definition zig_package (p : package) : option (list nat) :=
  match zig_globals (universe p) (imports p) (map fst (globals p)) (globals p) with
  | Some file => zig_uses [map (fun n => (n, own)) [text "default"; text "chan"; text "goto"]; file] (zig_text_body p)
  | None => None
  end.
