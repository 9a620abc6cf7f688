(** Rest tags as they are written, and what they mean, independent of the parser
    (C54, C75, C76, C77, C78). *)
From Verif Require Import GoBase MuxSpec.
From Coq Require Import DecimalString.
Local Open Scope nat_scope.

Definition join (sep : string) (l : list string) : string := String.concat sep l.
Definition free (s : string) (bad : list ascii) : Prop := Forall (fun c => has_char c s = false) bad.

(** ** Tags *)
(** "METHOD target (a,b) r,s"; the rules are left out when there are none *)
Definition tag (method target : string) (args results : list string) : string :=
  (method ++ " " ++ target
   ++ (match args with [] => "" | _ => " (" ++ join "," args ++ ")" end)
   ++ (match results with [] => "" | _ => " " ++ join "," results end))%string.
Definition good_rules (l : list string) : Prop :=
  Forall (fun r => r <> "" /\ free r [" "; ","]%char) l.

(** ** Parameters *)
Definition decimal (n : nat) : string := NilEmpty.string_of_uint (Nat.to_uint n).
(** name=%v or name=%[n]v *)
Record tparam := { t_name : string; t_num : option nat }.
Definition write_param (p : tparam) : string :=
  (t_name p ++ "=%" ++ (match t_num p with Some n => "[" ++ decimal n ++ "]" | None => "" end) ++ "v")%string.
(** The argument (from 0) each parameter stands for: %[n]v is the n-th, %v the one
    after the previous parameter's. *)
Fixpoint refers (pos : nat) (l : list tparam) : list (string * nat) :=
  match l with
  | [] => []
  | p :: r => let k := match t_num p with Some n => n | None => S pos end in
              (t_name p, k - 1) :: refers k r
  end.

Inductive tseg := TLit (s : string) | TPar (p : tparam).
Definition write_tseg (s : tseg) : string :=
  match s with TLit s => s | TPar p => ("{" ++ write_param p ++ "}")%string end.
Definition tseg_params (l : list tseg) : list tparam :=
  flat_map (fun s => match s with TLit _ => [] | TPar p => [p] end) l.
Inductive titem := TConst (k v : string) | TQuery (p : tparam).
Definition write_titem (i : titem) : string :=
  match i with TConst k v => (k ++ "=" ++ v)%string | TQuery p => write_param p end.
Definition titem_params (l : list titem) : list tparam :=
  flat_map (fun s => match s with TConst _ _ => [] | TQuery p => [p] end) l.
Definition titem_consts (l : list titem) : list (string * string) :=
  flat_map (fun s => match s with TConst k v => [(k, v)] | TQuery _ => [] end) l.
Definition target (segs : list tseg) (query : list titem) : string :=
  (render_path (map write_tseg segs)
   ++ match query with [] => "" | _ => "?" ++ join "&" (map write_titem query) end)%string.
(** The path without formats, as a router pattern. *)
Definition pattern_of (segs : list tseg) : list seg :=
  map (fun s => match s with TLit s => Lit s | TPar p => Var (t_name p) end) segs.

Definition path_refs (segs : list tseg) : list (string * nat) := refers 0 (tseg_params segs).
(** Counting goes on from the path into the query. *)
Definition query_refs (segs : list tseg) (query : list titem) : list (string * nat) :=
  skipn (List.length (tseg_params segs)) (refers 0 (tseg_params segs ++ titem_params query)).
Definition all_refs (segs : list tseg) (query : list titem) : list (string * nat) :=
  refers 0 (tseg_params segs ++ titem_params query).

(** ** Well-formed tags *)
Definition good_name (n : string) : Prop :=
  n <> "" /\ free n [" "; "/"; "="; "%"; "{"; "}"; "?"; "&"; "*"]%char.
Definition good_tseg (s : tseg) : Prop :=
  match s with
  | TLit s => s <> "" /\ free s [" "; "/"; "="; "%"; "{"; "}"; "?"]%char
  | TPar p => good_name (t_name p)
  end.
Definition good_titem (i : titem) : Prop :=
  match i with
  | TConst k v => good_name k /\ v <> "" /\ free v [" "; "&"; "%"; "$"]%char
  | TQuery p => good_name (t_name p)
  end.
Definition good_method (m : string) : Prop := m <> "" /\ free m [" "; "("]%char.
(** Every parameter stands for one of the n arguments, numbered from 1; two parameters
    have the same name exactly when they stand for the same argument; no argument
    stands twice in the path. *)
Definition good_tag (n : nat) (segs : list tseg) (query : list titem) : Prop :=
  Forall good_tseg segs /\ Forall good_titem query /\
  (Z.of_nat n < 2^63)%Z /\
  Forall (fun p => match t_num p with Some k => 1 <= k | None => True end)
         (tseg_params segs ++ titem_params query) /\
  Forall (fun r => snd r < n) (all_refs segs query) /\
  (forall a b i j, In (a, i) (all_refs segs query) -> In (b, j) (all_refs segs query) -> (a = b <-> i = j)) /\
  NoDup (map fst (path_refs segs)).
(** The arguments no parameter stands for. *)
Definition unreferenced (n : nat) (segs : list tseg) (query : list titem) : list nat :=
  filter (fun i => negb (existsb (fun r => Nat.eqb (snd r) i) (all_refs segs query))) (seq 0 n).

(** The methods a tag may start with, and those whose requests have no body. *)
Definition http_methods : list string :=
  ["GET"; "PUT"; "POST"; "DELETE"; "HEAD"; "OPTIONS"; "PATCH"; "CONNECT"].
Definition without_body : list string := ["GET"; "HEAD"; "DELETE"; "OPTIONS"; "TRACE"].
