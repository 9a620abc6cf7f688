(** * zgo: println of compiled programs
    (zgo/internal/target/zigc/builtins.go:10-49; build_runtime.zig:468-471; std.fmt.format
    of Zig 0.13, which std.debug.print uses).

    What the arguments do while they are evaluated is left out. Both languages print the
    digits [dec] of an integer; floats are printed as [go_float] and [zig_float] say. *)
From Coq Require Import Ascii String List Arith ZArith Bool.
Import ListNotations.

Definition text := list ascii.
Definition text_of (s : string) : text := list_ascii_of_string s.
Record show := { dec : Z -> text; go_float : Z -> text; zig_float : Z -> text }.
(** a value of a type of integers, of texts, truth values or floats; [AOther]: of another type,
    complex numbers, pointers, nil and every named one ([type X int]), with what Go prints for it *)
Inductive arg := AInt (z : Z) | AStr (s : text) | ABool (b : bool) | AFloat (f : Z) | AOther (t : text).
Definition bool_text (b : bool) : text := text_of (if b then "true" else "false").
Definition newline : text := [ascii_of_nat 10].

(** ** Go: the values with spaces between them and a newline *)
Definition go_text (sh : show) (a : arg) : text :=
  match a with AInt z => dec sh z | AStr s => s | ABool b => bool_text b | AFloat f => go_float sh f | AOther t => t end.
Fixpoint joined (l : list text) : text := match l with [] => [] | [x] => x | x :: r => x ++ text_of " " ++ joined r end.
Definition go_println (sh : show) (args : list arg) : text := joined (map (go_text sh) args) ++ newline.

(** ** The format that is printed into the program (builtins.go:12-36); [None]: an error *)
Definition piece (a : arg) : option text :=
  match a with
  | AInt _ => Some (text_of "{d}")
  | AFloat _ => Some (text_of "{e}")
  | AStr _ => Some (text_of "{s}")
  | ABool _ => Some (text_of "{}")
  | AOther _ => None
  end.
Fixpoint format (first : bool) (args : list arg) : option text :=
  match args with
  | [] => Some []
  | a :: r =>
      match piece a, format false r with
      | Some x, Some y => Some ((if first then [] else text_of " ") ++ x ++ y)
      | _, _ => None
      end
  end.

(** ** Zig: [inside]: what was read since the last brace. [None]: it does not compile. *)
Definition open_brace : ascii := "{". Definition close_brace : ascii := "}".
Definition same (a b : text) : bool := if list_eq_dec ascii_dec a b then true else false.
Definition render (sh : show) (spec : text) (a : arg) : option text :=
  match a with
  | AInt z => if same spec (text_of "d") || same spec [] then Some (dec sh z) else None
  | AStr s => if same spec (text_of "s") then Some s else None
  | ABool b => if same spec [] then Some (bool_text b) else None
  | AFloat f => if same spec (text_of "e") || same spec [] then Some (zig_float sh f) else None
  | AOther _ => None
  end.
Fixpoint zig_format (sh : show) (inside : option text) (fmt : text) (args : list arg) : option text :=
  match fmt with
  | [] => match inside, args with None, [] => Some [] | _, _ => None end
  | c :: r =>
      match inside with
      | Some spec =>
          if ascii_dec c close_brace then
            match args with
            | a :: q => match render sh spec a, zig_format sh None r q with Some x, Some y => Some (x ++ y) | _, _ => None end
            | [] => None
            end
          else if ascii_dec c open_brace then
            match spec with [] => option_map (cons open_brace) (zig_format sh None r args) | _ => None end
          else zig_format sh (Some (spec ++ [c])) r args
      | None =>
          if ascii_dec c open_brace then zig_format sh (Some []) r args
          else if ascii_dec c close_brace then
            match r with
            | d :: r' => if ascii_dec d close_brace then option_map (cons close_brace) (zig_format sh None r' args) else None
            | [] => None
            end
          else option_map (cons c) (zig_format sh None r args)
      end
  end.
Definition max_args : nat := 32.
Definition zig_println (sh : show) (args : list arg) : option text :=
  match format true args with
  | Some f => if length args <=? max_args then option_map (fun t => t ++ newline) (zig_format sh None f args) else None
  | None => None
  end.
