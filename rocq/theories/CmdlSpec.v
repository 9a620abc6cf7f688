(** What a user of api/cmdl expects, from its documentation (api/cmdl/cmdl.go:1-31). *)
From Coq Require Import String.
From Verif Require Import GoBase GoText CmdlModel.
Local Open Scope Z_scope.
Local Open Scope list_scope.

(** ** The command line of a linked function *)
(** The components of a function tag: a word, the next argument, the k-th argument, a field of an
    argument. *)
Inductive component :=
| Literal (w : bytes)
| Next
| Index (k : Z)
| FieldOf (name : bytes).
Definition written (c : component) : bytes :=
  match c with
  | Literal w => w
  | Next => text "%v"
  | Index k => text "%[" ++ JrpcModel.uint_text k ++ text "]v"
  | FieldOf name => text "{" ++ name ++ text "}"
  end.
Definition plain (w : bytes) : Prop := ~ In space w /\ ~ In percent w /\ ~ In comma w.
Definition is_component (c : component) : Prop :=
  match c with
  | Literal w => ~ In space w /\ has_prefix w (text "%") = false /\ has_prefix w (text "{") = false
  | Next => True
  | Index k => 1 <= k < 2 ^ 63
  | FieldOf name => name <> [] /\ plain name /\ ~ In 123 name /\ ~ In 125 name
  end.
(** The words that a value becomes: strings as they are, one word each, whatever is in them. *)
Inductive gives : cval -> list bytes -> Prop :=
| gives_string s : gives (CStr s) [s]
| gives_true : gives (CBool true) [text "true"]
| gives_false : gives (CBool false) [text "false"]
| gives_int z : gives (CInt z) [JrpcModel.int_text z]
| gives_other p z : gives (COther p z) [p]
| gives_marshal s z : gives (CMarshal (Some s) z) [s]
| gives_nil : gives (CPtr None) []
| gives_ptr v ws : gives v ws -> gives (CPtr (Some v)) ws
| gives_nil_slice : gives (CSlice None) []
| gives_empty : gives (CSlice (Some [])) []
| gives_more v ws vs rest : gives v ws -> gives (CSlice (Some vs)) rest -> gives (CSlice (Some (v :: vs))) (ws ++ rest).
(** The command line: [n] arguments have been taken by Next. *)
Inductive line (args : list cval) : nat -> list component -> list bytes -> Prop :=
| line_end n : line args n [] []
| line_word n w cs ws : line args n cs ws -> line args n (Literal w :: cs) (w :: ws)
| line_next n v us cs ws : nth_error args n = Some v -> gives v us -> line args (S n) cs ws -> line args n (Next :: cs) (us ++ ws)
| line_index n k v us cs ws : nth_error args (Z.to_nat (k - 1)) = Some v -> gives v us -> line args n cs ws -> line args n (Index k :: cs) (us ++ ws)
| line_field n name before f fs v after us cs ws :
    args = before ++ CStruct (fs ++ (f, v) :: after) :: skipn (S (length before)) args ->
    (forall gs g u, In (CStruct gs) before -> In (g, u) gs -> cname g <> name) -> (forall g u, In (g, u) fs -> cname g <> name) -> cname f = name ->
    gives v us -> line args n cs ws -> line args n (FieldOf name :: cs) (us ++ ws).
(** %[n]v is only used as long as %v has not been. *)
Fixpoint index_first (cs : list component) : Prop :=
  match cs with
  | [] => True
  | Next :: r => ~ (exists k, In (Index k) r) /\ index_first r
  | _ :: r => index_first r
  end.

(** ** Options structs *)
(** The documented forms of a field tag. *)
Inductive form :=
| Flag (w : bytes)                       (* a bool: the word, when it is set *)
| Value (pre post : bytes) (omit : bool) (* pre%vpost, with omitempty *)
| Apart (w : bytes) (omit : bool)        (* w %v: two words *)
| Env (name : bytes)
| Dir
| Skip.
Definition form_tag (f : form) : bytes :=
  match f with
  | Flag w => w
  | Value pre post o => pre ++ text "%v" ++ post ++ (if o then text ",omitempty" else [])
  | Apart w o => w ++ text " %v" ++ (if o then text ",omitempty" else [])
  | Env name => name ++ text ",env"
  | Dir => text ",dir"
  | Skip => text "-"
  end.
Definition form_ok (f : form) (v : cval) : Prop :=
  match f with
  | Flag w => plain w /\ w <> text "-" /\ exists b, v = CBool b
  | Value pre post _ => plain pre /\ plain post
  | Apart w _ => plain w
  | Env name => plain name /\ is_bool v = false
  | Dir => is_bool v = false
  | Skip => True
  end.
Definition omitted (o : bool) (v : cval) : bool := o && is_zero v.
Definition form_words (print : cval -> bytes) (f : form) (v : cval) : list bytes :=
  match f with
  | Flag w => if is_zero v then [] else [w]
  | Value pre post o => if omitted o v then [] else [pre ++ print v ++ post]
  | Apart w o => if omitted o v then [] else [w; print v]
  | _ => []
  end.
Definition form_env (print : cval -> bytes) (f : form) (v : cval) : list bytes :=
  match f with Env name => [name ++ text "=" ++ print v] | _ => [] end.
Definition form_dir (print : cval -> bytes) (d : bytes) (fv : form * cval) : bytes :=
  match fst fv with Dir => print (snd fv) | _ => d end.
Definition exported_field (name : bytes) (tag : bytes) : cfield := {| cname := name; ctag := tag; cexported := true; canonymous := false |}.

(** ** Commands *)
(** A tag of words only. *)
Definition words_tag (ws : list bytes) : bytes := join ws space.
Definition a_word (w : bytes) : Prop := plain w /\ w <> [].
Definition is_prefix {A} (a b : list A) : Prop := exists r, b = a ++ r.
(** A function tag: literal words, then k placeholders. *)
Definition next_text : bytes := text "%v".
Definition tag_of (ws : list bytes) (k : nat) : bytes := join (ws ++ repeat next_text k) space.
(** Two lists of words that differ at some place where both have a word. *)
Definition diverge (us ws : list bytes) : Prop := exists p a b u w, us = p ++ a :: u /\ ws = p ++ b :: w /\ a <> b.
(** A flag of an options struct: its word and whether it is inverted. *)
Definition flag_field (f : bytes * bool) : ofield := {| otag := fst f ++ (if snd f then text ",invert" else []); okind_of := KBool |}.
Definition value_field (w : bytes) : ofield := {| otag := w ++ text "=%v"; okind_of := KString |}.
Definition word_in (w : bytes) (l : list bytes) : bool := existsb (beq w) l.
