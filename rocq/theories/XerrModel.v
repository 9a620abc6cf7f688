(** * api/xray/errs.go and api/err.go: errors with their traces, registered errors. *)
From Coq Require Import String.
From Verif Require Import GoBase GoText ZigLitModel MimeModel.
Open Scope list_scope.
Open Scope Z_scope.

(** Where an error was wrapped (errs.go:88-93 [trace]; the function is that of the pc). *)
Record src := { s_fn : bytes; s_file : bytes; s_line : Z; s_ok : bool }.
(** Errors: any error that wraps nothing, with its message and, for a value of an
    [api.Error] type, which case of which type it is; an error wrapped by [xray.New] or
    [xray.Error]; one wrapped by fmt.Errorf with the text before and after its one %w;
    errors.Join of several. Simplification: other errors that wrap, and messages of
    api.Error values with a payload, are left out. *)
Inductive err :=
| EBase (msg : bytes) (case : option (Z * nat))
| ETrace (e : err) (s : src)
| EWrapf (pre : bytes) (e : err) (post : bytes)
| EJoin (es : errs)
with errs := Enil | Econs (e : err) (r : errs).
(** errors.Unwrap: nothing for an error whose Unwrap gives a slice *)
Definition unwrap (e : err) : option err :=
  match e with ETrace e _ => Some e | EWrapf _ e _ => Some e | _ => None end.
(** errs.go:20-23 and err.go:85-90: [for e := err; e != nil; e = errors.Unwrap(e)] *)
Fixpoint chain (e : err) : list err :=
  e :: match e with ETrace i _ => chain i | EWrapf _ i _ => chain i | _ => [] end.
(** errs.go:33-45, 48-58: a location, printed when it is known *)
Definition frame (s : src) : bytes :=
  if s_ok s then s_fn s ++ text "()" ++ [10; 9] ++ s_file s ++ [58] ++ int_text (s_line s) ++ [10] else [].
(** errs.go:30-47: [traceable] are the errors of this package *)
Definition frame_of (e : err) : bytes := match e with ETrace _ s => frame s | _ => [] end.
(** [Error] of an error, and what fmt prints for it: errs.go:18-60 ([Format], whatever the
    verb is) for those of this package, the message for the others. fmt.Errorf prints the
    error it wraps. *)
Fixpoint message (e : err) : bytes :=
  match e with
  | EBase m _ => m
  | ETrace e _ => message e
  | EWrapf a e b => a ++ printed e ++ b
  | EJoin es => joined es
  end
with printed (e : err) : bytes :=
  match e with
  | ETrace e s => text "Error: " ++ message e ++ [10; 10] ++ flat_map frame_of (rev (chain e)) ++ frame s
  | EBase m _ => m
  | EWrapf a e b => a ++ printed e ++ b
  | EJoin es => joined es
  end
with joined (es : errs) : bytes :=
  match es with
  | Enil => []
  | Econs e Enil => message e
  | Econs e r => message e ++ 10 :: joined r
  end.
(** errs.go:64-72, 76-84: nil stays nil *)
Definition new (e : option err) (s : src) : option err := option_map (fun e => ETrace e s) e.

(** ** Registered errors (err.go:59-101) *)
(** A case of an [api.Error] type: its name and its http tag, if any. *)
Record ecase := { c_name : bytes; c_http : option bytes; c_text : bytes }.
(** err.go:69-92: the scenarios of the type [t] with the cases [cs] *)
Record scen := { n_name : bytes; n_kind : bytes; n_text : bytes; n_http : option bytes; n_type : Z; n_case : nat }.
Fixpoint scenarios_from (field : bytes) (t : Z) (i : nat) (cs : list ecase) : list scen :=
  match cs with
  | [] => []
  | c :: r => {| n_name := c_name c; n_kind := field; n_text := c_text c; n_http := c_http c; n_type := t; n_case := i |}
              :: scenarios_from field t (S i) r
  end.
Definition scenarios (regs : list (bytes * Z * list ecase)) : list scen :=
  flat_map (fun '(field, t, cs) => scenarios_from field t O cs) regs.
(** xyz/tagged.go:737-746: the accessor of the value is the one of the case *)
Definition is_case (t : Z) (i : nat) (e : err) : bool :=
  match e with EBase _ (Some (t', i')) => (t =? t') && (i =? i')%nat | _ => false end.
(** err.go:84-91 *)
Definition test (s : scen) (e : err) : bool := existsb (is_case (n_type s) (n_case s)) (chain e).
(** strconv.Atoi, and api/err.go:26-36 [StatusHTTP] of a case *)
Definition sign (s : bytes) : bool * bytes := match s with 45 :: r => (true, r) | 43 :: r => (false, r) | _ => (false, s) end.
Definition atoi (s : bytes) : option Z :=
  let '(neg, d) := sign s in
  match d with
  | [] => None
  | _ => if forallb is_dig d then
           let n := num 0 d in
           let z := if neg then - n else n in
           if (- 2 ^ 63 <=? z) && (z <? 2 ^ 63) then Some z else None
         else None
  end.
Definition status_http (http : option bytes) : Z :=
  match http with Some s => match atoi s with Some z => z | None => 500 end | None => 500 end.
(** rest/host.go:588-599: the first scenario that matches decides *)
Definition found (regs : list (bytes * Z * list ecase)) (e : err) : option scen := List.find (fun s => test s e) (scenarios regs).
Definition status (before : Z) (regs : list (bytes * Z * list ecase)) (e : err) : Z :=
  match found regs e with
  | Some s => let z := match n_http s with Some t => match atoi t with Some z => z | None => 0 end | None => 0 end in
              if z =? 0 then before else z
  | None => before
  end.
