(** Model of api/fmts/fmts.go: formatting and parsing functions from fmts tags. *)
From Verif Require Import GoBase GoText.
Local Open Scope Z_scope.
Local Open Scope list_scope.

(** strings.Cut(s, "%v"): what is before and after the first %v. *)
Fixpoint cutv (s : bytes) : option (bytes * bytes) :=
  match s with
  | b :: r =>
    match r with
    | c :: t => if (b =? 37) && (c =? 118) then Some ([], t) else match cutv r with Some (x, y) => Some (b :: x, y) | None => None end
    | [] => None
    end
  | [] => None
  end.
(** strings.Split(s, "%v") *)
Fixpoint splitv (s : bytes) : list bytes :=
  match s with
  | [] => [[]]
  | b :: r =>
    let other := match splitv r with h :: t => (b :: h) :: t | [] => [[b]] end in
    match r with
    | c :: t => if (b =? 37) && (c =? 118) then [] :: splitv t else other
    | [] => other
    end
  end.
(** strings.Count(s, k) for a non-empty k: occurrences that do not overlap. *)
Fixpoint count_from (skip : nat) (s k : bytes) : nat :=
  match s with
  | [] => O
  | _ :: r => match skip with S n => count_from n r k | O => if has_prefix s k then S (count_from (length k - 1) r k) else count_from O r k end
  end.
Section Fmts.
(** utf8.RuneCountInString *)
Variable runes : bytes -> nat.
Definition count (s k : bytes) : nat := match k with [] => S (runes s) | _ :: _ => count_from O s k end.
(** search[k] += 1 *)
Fixpoint bump (k : bytes) (m : list (bytes * nat)) : list (bytes * nat) :=
  match m with [] => [(k, 1%nat)] | (x, n) :: r => if beq x k then (x, S n) :: r else (x, n) :: bump k r end.

(** ** Candidates *)
Variable Id : Type.
(** fmts.go:19-25 *)
Record candidate := { format : bytes; prefix : bytes; suffix : bytes; search : list (bytes * nat); author : Id }.
(** fmts.go:38-43: the loop over the map, in the order [m]. *)
Fixpoint rank_search (value : bytes) (m : list (bytes * nat)) (score : nat) : nat :=
  match m with
  | [] => score
  | (k, n) :: r => if Nat.eqb (count value k) n then rank_search value r (S score) else O
  end.
(** fmts.go:27-45 *)
Definition rank (c : candidate) (value : bytes) : nat :=
  let after (score : nat) :=
    let last (score : nat) := rank_search value (search c) score in
    if beq (suffix c) [] then last score else if has_suffix value (suffix c) then last (S score) else O in
  if beq (prefix c) [] then after O else if has_prefix value (prefix c) then after 1%nat else O.
(** fmts.go:76-99: from the tag of a parser. *)
Definition candidate_of (tag : bytes) (id : Id) : candidate :=
  let '(p, f) := match cutv tag with Some (p, f) => (p, f) | None => ([], tag) end in
  let parts := splitv f in
  let suf := if has_suffix f [37; 118] then [] else List.last parts [] in
  {| format := tag; prefix := p; suffix := suf; search := fold_left (fun m k => bump k m) (removelast parts) []; author := id |}.
(** fmts.go:124-142: which candidate is chosen; [highest] is -1 before the first. *)
Fixpoint choose (cs : list candidate) (value : bytes) (highest : option nat) (best : option candidate) (sharing : bool) : option candidate :=
  match cs with
  | [] => if sharing then None else best
  | c :: r =>
    let s := rank c value in
    match highest with
    | None => choose r value (Some s) (Some c) false
    | Some h => if Nat.eqb s h then choose r value highest best true else if Nat.ltb h s then choose r value (Some s) (Some c) false else choose r value highest best sharing
    end
  end.

(** ** Linking *)
(** The types in a signature: a type of kind string (one of many), any, error, or another. *)
Inductive ty := Str (n : nat) | AnyT | ErrT | Other (n : nat).
Definition ty_eqb (a b : ty) : bool := match a, b with Str n, Str m => Nat.eqb n m | AnyT, AnyT => true | ErrT, ErrT => true | Other n, Other m => Nat.eqb n m | _, _ => false end.
(** A function of a structure: its parameters and results (the context, if there is one, left out; with one,
    fn.Type.In(0) is it and the function is no parser: not modelled). *)
Record func := { f_id : Id; f_tag : option bytes; f_in : list ty; f_out : list ty }.
Inductive structure := Structure (fns : list func) (subs : list structure).
Definition last_err (l : list ty) : bool := match rev l with ErrT :: _ => true | _ => false end.
(** What a function is made to do. *)
Inductive impl :=
| IParse (tag : bytes) (outs : list ty)
| IDispatch (cs : list candidate)
| IFormat (tag : bytes).
Definition tag_of (f : func) : bytes := match f_tag f with Some t => t | None => [] end.
(** fmts.go:57 *)
Definition parser (f : func) : option nat :=
  match f_in f with [Str n] => if Nat.ltb 1 (length (f_out f)) && last_err (f_out f) then Some n else None | _ => None end.
(** fmts.go:50-105 [fill]: what is made, and the candidates by type, in order. *)
Fixpoint fill (s : structure) : list (Id * impl) * list (nat * candidate) :=
  match s with
  | Structure fns subs =>
    let made := flat_map (fun f => match parser f with Some _ => [(f_id f, IParse (tag_of f) (removelast (f_out f)))] | None => [] end) fns in
    let cands := flat_map (fun f => match parser f, f_tag f with Some n, Some t => [(n, candidate_of t (f_id f))] | _, _ => [] end) fns in
    let sub := (fix go (l : list structure) := match l with [] => ([], []) | x :: r => let '(m, c) := fill x in let '(m', c') := go r in (m ++ m', c ++ c') end) subs in
    (made ++ fst sub, cands ++ snd sub)
  end.
Definition of_type (n : nat) (cs : list (nat * candidate)) : list candidate := map snd (filter (fun x => Nat.eqb (fst x) n) cs).
(** fmts.go:112-163: one function; [None]: the error that ends it. *)
Definition link_func (cs : list (nat * candidate)) (f : func) : option (list (Id * impl)) :=
  if Nat.ltb 1 (length (f_out f)) && last_err (f_out f) then Some []
  else match f_in f, f_out f with
  | [Str n], [AnyT] => Some [(f_id f, IDispatch (of_type n cs))]
  | _, [Str _] => Some [(f_id f, IFormat (tag_of f))]
  | _, _ => None
  end.
Fixpoint link_funcs (cs : list (nat * candidate)) (fns : list func) : list (Id * impl) * bool :=
  match fns with
  | [] => ([], true)
  | f :: r => match link_func cs f with Some m => let '(ms, ok) := link_funcs cs r in (m ++ ms, ok) | None => ([], false) end
  end.
(** fmts.go:107-169 [Link]: what is made, in order (a later one replaces an earlier), and whether it
    succeeded. [scan]: whether sscanf is not nil: for a namespace it is nil, and its error is ignored. *)
Fixpoint link (scan : bool) (s : structure) : list (Id * impl) * bool :=
  match s with
  | Structure fns subs =>
    let '(made, cs) := if scan then fill s else ([], []) in
    let '(ms, ok) := link_funcs cs fns in
    if ok then (made ++ ms ++ flat_map (fun x => fst (link false x)) subs, true) else (made ++ ms, false)
  end.
(** ** Calls *)
Variable V : Type.
Variables (Err : Type).
Variable sprintf : bytes -> list V -> bytes.
(** sscanf: the values scanned (those not reached are zero), and an error. *)
Variable sscanf : bytes -> bytes -> list ty -> list V * nat * option Err.
(** fmts.go:58-74 *)
Definition call_parse (tag : bytes) (outs : list ty) (value : bytes) : list V + Err :=
  let '(vs, _, e) := sscanf value tag outs in match e with Some e => inr e | None => inl vs end.
(** fmts.go:122-157: a function that parses the value with the candidate's; [None]: nil. *)
Definition call_dispatch (cs : list candidate) (value : bytes) : option Id := option_map author (choose cs value None None false).
(** fmts.go:158-163 *)
Definition call_format (tag : bytes) (args : list V) : bytes := sprintf tag args.
End Fmts.
