(** Patterns and the documented way they are matched, independent of the router
    (C52, C53, C74). *)
From Verif Require Import GoBase.
From Coq Require Export String Ascii.
Open Scope string_scope.
Open Scope list_scope.

Inductive seg := Lit (s : string) | Var (name : string).

Definition render_seg (s : seg) : string :=
  match s with Lit s => s | Var n => ("{" ++ n ++ "}")%string end.
(** "METHOD /a/{b}/c" *)
Definition render (method : string) (segs : list seg) : string :=
  (method ++ " /" ++ String.concat "/" (map render_seg segs))%string.
(** "/a/b/c" *)
Definition render_path (segs : list string) : string := ("/" ++ String.concat "/" segs)%string.

Fixpoint has_char (c : ascii) (s : string) : bool :=
  match s with EmptyString => false | String a r => Ascii.eqb a c || has_char c r end.

(** A segment of a request path: not empty, no slash. *)
Definition good_seg (s : string) : Prop := s <> "" /\ has_char "/"%char s = false.
(** A pattern segment: a literal does not look like a placeholder. *)
Definition good_pat_seg (p : seg) : Prop :=
  match p with
  | Lit s => good_seg s /\ (forall r, s <> String "{"%char r)
  | Var n => good_seg n
  end.

(** p matches the path segs *)
Inductive matches : list seg -> list string -> Prop :=
| MNil : matches [] []
| MLit s p segs : matches p segs -> matches (Lit s :: p) (s :: segs)
| MVar n v p segs : matches p segs -> matches (Var n :: p) (v :: segs).

Section Table.
Context {H : Type}.
(** One registered pattern: method, segments, handler; a table in registration order. *)
Definition entry := (string * list seg * H)%type.

(** What is left of the patterns that continue with the literal s / a placeholder. *)
Fixpoint lits (s : string) (ps : list entry) : list entry :=
  match ps with
  | [] => []
  | (m, Lit s' :: r, h) :: ps' => if String.eqb s s' then (m, r, h) :: lits s ps' else lits s ps'
  | _ :: ps' => lits s ps'
  end.
Fixpoint vars (ps : list entry) : list entry :=
  match ps with
  | [] => []
  | (m, Var _ :: r, h) :: ps' => (m, r, h) :: vars ps'
  | _ :: ps' => vars ps'
  end.
(** The names of the placeholders the patterns continue with. *)
Fixpoint names (ps : list entry) : list string :=
  match ps with
  | [] => []
  | (_, Var n :: _, _) :: ps' => n :: names ps'
  | _ :: ps' => names ps'
  end.
(** The handler registered last for exactly this method and this path. *)
Fixpoint at_end (method : string) (ps : list entry) : option H :=
  match ps with
  | [] => None
  | (m, [], h) :: ps' =>
    match at_end method ps' with
    | Some h' => Some h'
    | None => if String.eqb method m then Some h else None
    end
  | _ :: ps' => at_end method ps'
  end.
(** Segment by segment, patterns with the literal are preferred to those with a
    placeholder. *)
Fixpoint remaining (segs : list string) (ps : list entry) : list entry :=
  match segs with
  | [] => ps
  | s :: r => match lits s ps with [] => remaining r (vars ps) | l => remaining r l end
  end.
Definition route (method : string) (segs : list string) (ps : list entry) : option H :=
  at_end method (remaining segs ps).

(** [M] is the set of method names in use.  A good entry has one of them and its
    literals are not method names. *)
Definition good_entry (M : string -> Prop) (e : entry) : Prop :=
  M (fst (fst e)) /\
  Forall (fun p => good_pat_seg p /\ match p with Lit s => ~ M s | _ => True end) (snd (fst e)).
(** Method names are not empty and contain no space. *)
Definition good_methods (M : string -> Prop) : Prop :=
  ~ M "" /\ forall m, M m -> has_char " "%char m = false.
(** The segments of a request path, none of which is a method name. *)
Definition good_request (M : string -> Prop) (segs : list string) : Prop :=
  Forall (fun s => good_seg s /\ ~ M s) segs.
(** What is passed to Handle. *)
Definition patterns (t : list entry) : list (string * H) :=
  map (fun e => (render (fst (fst e)) (snd (fst e)), snd e)) t.
(** Each placeholder name stands at one position only, in the whole table. *)
Definition one_place (t : list entry) : Prop :=
  exists f : string -> nat, forall m sg (h : H) i n,
    In (m, sg, h) t -> nth_error sg i = Some (Var n) -> f n = i.
End Table.
Arguments entry : clear implicits.
