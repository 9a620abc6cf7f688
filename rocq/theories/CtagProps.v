(** Properties of the tags of shared-library functions (C118, C119). *)
From Coq Require Import String.
From Verif Require Import GoBase BaseLemmas GoText CtagModel.
Open Scope list_scope.

(** * Specification: the language of tags, as a syntax with its writing and its meaning *)
(** An argument of an assertion: @n, the name of a constant or a literal. *)
Inductive sarg := At (ds : bytes) | Const (id : bytes) | Lit (ds : bytes).
Inductive spre := PNone | PBracket | PStars (n : nat) | PDots.
(** prefix, "!", operator, argument, "=" (after < and >) *)
Record sassert := { s_pre : spre; s_not : bool; s_op : Z; s_arg : sarg; s_oreq : bool }.
Inductive stype :=
| SName (own : option Z) (hash : bool) (name : bytes) (sfx : option sassert)
| SFunc (own : option Z) (hash : bool) (args : list stype) (ret : option stype) (call : option (bytes * list sarg)).

(** ** How it is written *)
Definition show_arg (a : sarg) : bytes := match a with At ds => 64 :: ds | Const id => id | Lit ds => ds end.
Definition show_pre (p : spre) : bytes := match p with PNone => [] | PBracket => [91] | PStars n => repeat 42 n | PDots => [46; 46; 46] end.
Definition close_pre (p : spre) : bytes := match p with PBracket => [93] | _ => [] end.
Definition show_assert (x : sassert) : bytes :=
  show_pre (s_pre x) ++ (if s_not x then [33] else []) ++ [s_op x] ++ show_arg (s_arg x) ++ (if s_oreq x then [61] else []) ++ close_pre (s_pre x).
Definition show_own (own : option Z) (hash : bool) : bytes :=
  (match own with Some c => [c] | None => [] end) ++ (if hash then [35] else []).
Definition show_call (c : option (bytes * list sarg)) : bytes :=
  match c with None => [] | Some (id, l) => [59] ++ id ++ [40] ++ join (map show_arg l) 44 ++ [41] end.
Fixpoint show (t : stype) : bytes :=
  match t with
  | SName own hash name sfx => show_own own hash ++ name ++ match sfx with Some x => show_assert x | None => [] end
  | SFunc own hash args ret call =>
      show_own own hash ++ text "func(" ++
      join ((fix go (l : list stype) : list bytes := match l with [] => [] | t :: l => show t :: go l end) args) 44 ++ [41] ++
      (match ret with Some t => show t | None => [] end) ++ show_call call
  end.

(** ** What it means *)
Definition mean_arg (a : sarg) : argument :=
  match a with
  | At ds => {| g_check := true; g_index := dec_value ds 0; g_const := []; g_value := 0 |}
  | Const id => {| g_check := true; g_index := 0; g_const := id; g_value := 0 |}
  | Lit ds => {| g_check := true; g_index := 0; g_const := []; g_value := dec_value ds 0 |}
  end.
Definition pick (b : bool) (a : sarg) : argument := if b then mean_arg a else no_arg.
Definition mean_assert (x : sassert) : assertions :=
  let is c := s_op x =? c in
  {| a_capacity := match s_pre x with PBracket => true | _ => false end;
     a_inverted := if is 126 then negb (s_not x) else s_not x;
     a_indirect := match s_pre x with PStars n => Z.of_nat n | _ => 0 end;
     a_lifetime := pick (is 94) (s_arg x);
     a_overlaps := pick (is 126) (s_arg x);
     a_sametype := pick (is 58) (s_arg x);
     a_equality := pick (is 61 || s_oreq x) (s_arg x);
     a_morethan := pick (is 62) (s_arg x);
     a_lessthan := pick (is 60) (s_arg x);
     a_format := pick (is 63) (s_arg x) |}.
Definition mean_call (c : option (bytes * list sarg)) : bytes * list argument :=
  match c with None => ([], []) | Some (id, l) => (id, map mean_arg l) end.
Fixpoint mean (t : stype) : ctype :=
  match t with
  | SName own hash name sfx =>
      CType name None [] hash own (match sfx with Some x => mean_assert x | None => no_test end) ([], [])
        (match sfx with Some x => match s_pre x with PDots => true | _ => false end | None => false end) 0
  | SFunc own hash args ret call =>
      CType (text "func") (match ret with Some t => Some (mean t) | None => None end)
        ((fix go (l : list stype) (i : Z) : list ctype := match l with [] => [] | t :: l => with_maps (mean t) i :: go l (i + 1) end) args 1)
        hash own no_test (mean_call call) false 0
  end.

(** ** Which syntax is good *)
Definition good_ident (id : bytes) : Prop :=
  match id with [] => False | c :: r => is_letter c = true /\ Forall (fun c => is_letter c = true \/ is_digit c = true) r end.
Definition good_digits (ds : bytes) : Prop := ds <> [] /\ Forall (fun c => is_digit c = true) ds.
Definition good_arg (a : sarg) : Prop :=
  match a with
  | At ds => good_digits ds /\ dec_value ds 0 < 128
  | Const id => good_ident id
  | Lit ds => good_digits ds /\ dec_value ds 0 < 2 ^ 63
  end.
Definition good_assert (x : sassert) : Prop :=
  In (s_op x) (text "><=:~^?") /\ good_arg (s_arg x) /\ (s_pre x <> PStars 0) /\
  (s_oreq x = true -> s_op x = 62 \/ s_op x = 60).
Definition good_own (own : option Z) : Prop := match own with Some c => In c (text "$&*~+-") | None => True end.
Definition asserted (t : stype) : Prop := match t with SName _ _ _ (Some _) => True | _ => False end.
Fixpoint good (t : stype) : Prop :=
  match t with
  | SName own _ name sfx => good_own own /\ good_ident name /\ name <> text "func" /\ match sfx with Some x => good_assert x | None => True end
  | SFunc own _ args ret call =>
      good_own own /\
      (fix go (l : list stype) : Prop := match l with [] => True | t :: l => good t /\ go l end) args /\
      match ret with Some t => good t | None => True end /\
      match call with
      | None => True
      | Some (id, l) => good_ident id /\ Forall good_arg l /\ match ret with Some t => asserted t | None => False end
      end
  end.

(** * Lemmas on the scanner *)
Lemma member_in c s : member c s = true <-> In c s.
Proof.
  unfold member. rewrite existsb_exists. split.
  - intros (x & I & E). apply Z.eqb_eq in E. subst. exact I.
  - intros I. exists c. split; [exact I|apply Z.eqb_refl].
Qed.
Lemma member_out c s : ~ In c s -> member c s = false.
Proof. intros N. destruct (member c s) eqn:E; [|reflexivity]. apply member_in in E. contradiction. Qed.
Definition plain (c : Z) : Prop := is_space c = false /\ is_letter c = false /\ is_digit c = false /\ ~ In c (text """'`./").
Lemma scan_f_char f c r : plain c -> scan_f f (c :: r) = (TCh c, r).
Proof.
  intros (S0 & L & D & N). destruct f; cbn [scan_f drop_while]; rewrite S0, L, D.
  all: rewrite member_out by (intros I; apply N; apply in_or_app with (l := text """'`") (m := text "./"); left; exact I).
  all: replace (c =? 46) with false by (symmetry; apply Z.eqb_neq; intros ->; apply N; vm_compute; tauto).
  all: replace (c =? 47) with false by (symmetry; apply Z.eqb_neq; intros ->; apply N; vm_compute; tauto).
  all: reflexivity.
Qed.
Lemma scan_char c r : plain c -> scan (c :: r) = (TCh c, r).
Proof. apply scan_f_char. Qed.
Lemma scan_f_dot f r : match r with d :: _ => is_digit d = false | [] => True end -> scan_f f (46 :: r) = (TCh 46, r).
Proof. intros D. destruct f, r as [|d r]; cbn; try reflexivity; cbn in D; rewrite D; reflexivity. Qed.
(** A character that ends a word or a number. *)
Definition ender (c : Z) : Prop := is_letter c = false /\ is_digit c = false /\ c <> 46.
Definition stops (r : bytes) : Prop := match r with [] => True | c :: _ => ender c end.
Definition istops (r : bytes) : Prop := match r with [] => True | c :: _ => is_letter c = false /\ is_digit c = false end.
Lemma stops_istops r : stops r -> istops r.
Proof. destruct r as [|c r]; [trivial|]. intros (L & D & _). split; assumption. Qed.
Lemma ident_run_app id r : Forall (fun c => is_letter c = true \/ is_digit c = true) id -> istops r -> ident_run (id ++ r) = (id, r).
Proof.
  intros F E. induction F as [|c id C F IH]; cbn [app].
  - destruct r as [|c r]; [reflexivity|]. destruct E as (L & D). cbn. rewrite L, D. reflexivity.
  - cbn. replace (is_letter c || is_digit c) with true by (destruct C as [-> | ->]; [reflexivity|destruct (is_letter c); reflexivity]).
    rewrite IH. reflexivity.
Qed.
Lemma letter_not_space c : is_letter c = true -> is_space c = false.
Proof. unfold is_letter, is_space. lia. Qed.
Lemma digit_not_space c : is_digit c = true -> is_space c = false /\ is_letter c = false.
Proof. unfold is_digit, is_space, is_letter. lia. Qed.
Lemma scan_ident id r : good_ident id -> istops r -> scan (id ++ r) = (TIdent id, r).
Proof.
  intros G E. destruct id as [|c id]; [contradiction|]. destruct G as (L & F).
  unfold scan. cbn [app List.length]. cbn [scan_f drop_while]. rewrite (letter_not_space _ L), L.
  change (c :: id ++ r) with ((c :: id) ++ r). rewrite ident_run_app; [reflexivity| |exact E]. constructor; [left; exact L|exact F].
Qed.
Lemma digit_run_app ds r : Forall (fun c => is_digit c = true) ds -> stops r -> digit_run (ds ++ r) = (ds, r).
Proof.
  intros F E. induction F as [|c ds C F IH]; cbn [app].
  - destruct r as [|c r]; [reflexivity|]. destruct E as (L & D & _). cbn. rewrite D. replace (c =? 95) with false; [reflexivity|].
    symmetry. apply Z.eqb_neq. intros ->. discriminate.
  - cbn. rewrite C. cbn. rewrite IH. reflexivity.
Qed.
Lemma ender_float c : ender c -> member c (text ".eEpP") = false.
Proof.
  intros (L & _ & D). apply member_out. intros I. vm_compute in I. destruct I as [I|[I|[I|[I|[I|[]]]]]]; subst c; vm_compute in L; congruence.
Qed.
Lemma not_prefixed ds r : Forall (fun c => is_digit c = true) ds -> ds <> [] -> stops r ->
  match ds ++ r with 48 :: c :: _ => member c (text "xXoObB") | _ => false end = false.
Proof.
  intros F NE E. destruct ds as [|c ds]; [congruence|]. assert (X : match ds ++ r with x :: _ => member x (text "xXoObB") | [] => false end = false).
  { destruct ds as [|d ds]; cbn [app].
    - destruct r as [|x r]; [reflexivity|]. destruct E as (L & _ & _). apply member_out. intros I. cbn in I.
      repeat (destruct I as [<- | I]; [discriminate|]). contradiction.
    - apply Forall_inv_tail, Forall_inv in F. apply member_out. intros I. cbn in I. repeat (destruct I as [<- | I]; [discriminate|]). contradiction. }
  cbn [app]. destruct c as [|p|p]; try reflexivity. destruct (Pos.eq_dec p 48) as [-> | N]; [exact X|].
  destruct (ds ++ r); do 6 (destruct p as [p|p|]; try reflexivity); congruence.
Qed.
Lemma scan_int ds r : good_digits ds -> stops r -> scan (ds ++ r) = (TInt ds, r).
Proof.
  intros (NE & F) E. assert (H : scan_number (ds ++ r) = (TInt ds, r)).
  { unfold scan_number. rewrite (not_prefixed _ _ F NE E). rewrite digit_run_app by assumption. destruct r as [|c r]; [reflexivity|]. rewrite ender_float by exact E. reflexivity. }
  destruct ds as [|c ds]; [congruence|]. pose proof (Forall_inv F) as C. destruct (digit_not_space _ C) as (S0 & L).
  unfold scan. cbn [app List.length scan_f drop_while]. rewrite S0, L, C. exact H.
Qed.
Lemma dec_value_nonneg ds n : Forall (fun c => is_digit c = true) ds -> 0 <= n -> 0 <= dec_value ds n.
Proof.
  intros F. revert n. induction F as [|c ds C F IH]; intros n N; cbn [dec_value]; [exact N|]. apply IH. unfold is_digit in C. lia.
Qed.
Lemma parse_int_ok ds bits : good_digits ds -> dec_value ds 0 < 2 ^ (bits - 1) -> parse_int ds bits = Some (dec_value ds 0).
Proof.
  intros (NE & F) B. unfold parse_int. replace (forallb is_digit ds) with true.
  - replace (dec_value ds 0 <? 2 ^ (bits - 1)) with true by (symmetry; apply Z.ltb_lt; exact B). reflexivity.
  - symmetry. apply forallb_forall. rewrite Forall_forall in F. exact F.
Qed.
Lemma parse_argument_ok a r : good_arg a -> stops r -> parse_argument (show_arg a ++ r) = Some (mean_arg a, r).
Proof.
  intros G E. unfold parse_argument. destruct a as [ds|id|ds]; cbn [show_arg mean_arg].
  - destruct G as (D & B). cbn [app]. rewrite scan_char by (repeat split; try reflexivity; vm_compute; intuition discriminate).
    rewrite scan_int by assumption. rewrite parse_int_ok by assumption. unfold u8. rewrite Z.mod_small; [reflexivity|].
    pose proof (dec_value_nonneg ds 0 (proj2 D) ltac:(lia)). lia.
  - rewrite scan_ident; [reflexivity|assumption|apply stops_istops; assumption].
  - destruct G as (D & B). rewrite scan_int by assumption. rewrite parse_int_ok by assumption. reflexivity.
Qed.
(** ** The assertions *)
Definition fin (r : bytes) : Prop := match r with [] => True | c :: _ => c = 44 \/ c = 41 \/ c = 59 end.
Ltac is_plain := repeat split; try reflexivity; vm_compute; intuition discriminate.
Lemma fin_stops r : fin r -> stops r.
Proof. destruct r as [|c r]; [trivial|]. intros [->|[->| ->]]; repeat split; try reflexivity; discriminate. Qed.
Lemma stops_close x r : fin r -> stops ((if s_oreq x then [61] else []) ++ close_pre (s_pre x) ++ r).
Proof.
  intros F. destruct (s_oreq x); [cbn; repeat split; try reflexivity; discriminate|].
  destruct (s_pre x); cbn [close_pre app]; try (apply fin_stops; exact F). repeat split; try reflexivity; discriminate.
Qed.
Lemma op_cases x : In (s_op x) (text "><=:~^?") -> s_op x = 62 \/ s_op x = 60 \/ s_op x = 61 \/ s_op x = 58 \/ s_op x = 126 \/ s_op x = 94 \/ s_op x = 63.
Proof. intros I. vm_compute in I. intuition auto. Qed.
Lemma apply_op_ok x cap ind r : good_assert x -> fin r ->
  apply_op (s_op x) (mean_arg (s_arg x))
    {| a_capacity := cap; a_inverted := s_not x; a_indirect := ind; a_lifetime := no_arg; a_overlaps := no_arg;
       a_sametype := no_arg; a_equality := no_arg; a_morethan := no_arg; a_lessthan := no_arg; a_format := no_arg |}
    ((if s_oreq x then [61] else []) ++ close_pre (s_pre x) ++ r) =
  Some ({| a_capacity := cap; a_inverted := a_inverted (mean_assert x); a_indirect := ind; a_lifetime := a_lifetime (mean_assert x);
           a_overlaps := a_overlaps (mean_assert x); a_sametype := a_sametype (mean_assert x); a_equality := a_equality (mean_assert x);
           a_morethan := a_morethan (mean_assert x); a_lessthan := a_lessthan (mean_assert x); a_format := a_format (mean_assert x) |},
        close_pre (s_pre x) ++ r).
Proof.
  intros (I & _ & _ & O) F. apply op_cases in I. destruct x as [pre neg op arg oreq]; cbn [s_op s_arg s_pre s_not s_oreq] in *.
  assert (P : peek_is (close_pre pre ++ r) 61 = false).
  { destruct pre; cbn; try reflexivity; destruct r as [|c r]; try reflexivity; cbn; destruct F as [->|[->| ->]]; reflexivity. }
  destruct oreq.
  - assert (Q : snd (scan ([61] ++ close_pre pre ++ r)) = close_pre pre ++ r) by (cbn [app]; rewrite scan_char by is_plain; reflexivity).
    destruct (O eq_refl) as [-> | ->]; unfold apply_op; cbv zeta; rewrite Q; reflexivity.
  - cbn [app]. destruct I as [->|[->|[->|[->|[->|[->| ->]]]]]]; cbn -[close_pre app peek_is]; try rewrite P; reflexivity.
Qed.
Lemma stars_repeat n r : match r with c :: _ => c <> 42 | [] => True end -> stars (repeat 42 n ++ r) = (n, r).
Proof.
  intros E. induction n as [|n IH]; cbn [repeat app].
  - destruct r as [|c r]; [reflexivity|]. cbn. destruct c as [|p|p]; try reflexivity. do 6 (destruct p as [p|p|]; try reflexivity). congruence.
  - cbn [stars]. rewrite IH. reflexivity.
Qed.
Definition is_dots (p : spre) : bool := match p with PDots => true | _ => false end.
Definition tail_body (cap : bool) (ind : Z) (more : bool) (s : bytes) : option (assertions * bool * bytes) :=
  let '(inv, s) := if peek_is s 33 then (true, snd (scan s)) else (false, s) in
  let '(tok, s) := scan s in
  match parse_argument s with
  | None => None
  | Some (arg, s) =>
      match tok with
      | TCh op =>
          match apply_op op arg {| a_capacity := cap; a_inverted := inv; a_indirect := ind; a_lifetime := no_arg; a_overlaps := no_arg;
                                   a_sametype := no_arg; a_equality := no_arg; a_morethan := no_arg; a_lessthan := no_arg; a_format := no_arg |} s with
          | None => None
          | Some (t, s) =>
              if cap then match scan s with (TCh 93, s) => Some (t, more, s) | _ => None end else Some (t, more, s)
          end
      | _ => None
      end
  end.
Lemma op_plain x : good_assert x -> plain (s_op x).
Proof. intros (I & _). destruct (op_cases _ I) as [E|[E|[E|[E|[E|[E|E]]]]]]; rewrite E; is_plain. Qed.
Definition show_body (x : sassert) : bytes :=
  (if s_not x then [33] else []) ++ [s_op x] ++ show_arg (s_arg x) ++ (if s_oreq x then [61] else []) ++ close_pre (s_pre x).
Lemma tail_body_ok x cap ind more r : good_assert x -> fin r -> cap = match s_pre x with PBracket => true | _ => false end ->
  ind = match s_pre x with PStars n => Z.of_nat n | _ => 0 end ->
  tail_body cap ind more (show_body x ++ r) = Some (mean_assert x, more, r).
Proof.
  intros G F -> ->. unfold tail_body, show_body. rewrite <- !app_assoc.
  assert (N : peek_is ([s_op x] ++ show_arg (s_arg x) ++ (if s_oreq x then [61] else []) ++ close_pre (s_pre x) ++ r) 33 = false).
  { destruct (op_cases _ (proj1 G)) as [E|[E|[E|[E|[E|[E|E]]]]]]; rewrite E; reflexivity. }
  assert (A : (if peek_is ((if s_not x then [33] else []) ++ [s_op x] ++ show_arg (s_arg x) ++ (if s_oreq x then [61] else []) ++ close_pre (s_pre x) ++ r) 33
     then (true, snd (scan ((if s_not x then [33] else []) ++ [s_op x] ++ show_arg (s_arg x) ++ (if s_oreq x then [61] else []) ++ close_pre (s_pre x) ++ r)))
     else (false, (if s_not x then [33] else []) ++ [s_op x] ++ show_arg (s_arg x) ++ (if s_oreq x then [61] else []) ++ close_pre (s_pre x) ++ r)) =
     (s_not x, [s_op x] ++ show_arg (s_arg x) ++ (if s_oreq x then [61] else []) ++ close_pre (s_pre x) ++ r)).
  { destruct (s_not x).
    - cbn [app peek_is]. rewrite scan_char by is_plain. reflexivity.
    - cbn [app] in *. rewrite N. reflexivity. }
  match goal with |- (let '(_, _) := ?e in _) = _ => change e with (if peek_is ((if s_not x then [33] else []) ++ [s_op x] ++ show_arg (s_arg x) ++ (if s_oreq x then [61] else []) ++ close_pre (s_pre x) ++ r) 33
     then (true, snd (scan ((if s_not x then [33] else []) ++ [s_op x] ++ show_arg (s_arg x) ++ (if s_oreq x then [61] else []) ++ close_pre (s_pre x) ++ r)))
     else (false, (if s_not x then [33] else []) ++ [s_op x] ++ show_arg (s_arg x) ++ (if s_oreq x then [61] else []) ++ close_pre (s_pre x) ++ r)) end.
  rewrite A. cbn [app]. rewrite (scan_char (s_op x)) by (apply op_plain; exact G).
  rewrite parse_argument_ok; [|exact (proj1 (proj2 G))|apply stops_close; exact F].
  rewrite apply_op_ok by assumption.
  destruct x as [pre neg op arg oreq]. destruct pre; cbn [s_pre close_pre app].
  2: rewrite scan_char by is_plain. all: reflexivity.
Qed.
Lemma body_head x : good_assert x -> exists c s, show_body x = c :: s /\ is_digit c = false /\ c <> 42 /\ ((c =? 44) || (c =? 41)) = false /\ c <> 91 /\ c <> 46 /\ is_space c = false.
Proof.
  intros (I & _). unfold show_body. destruct (s_not x); cbn [app]; do 2 eexists; (split; [reflexivity|]).
  - repeat split; discriminate.
  - destruct (op_cases _ I) as [E|[E|[E|[E|[E|[E|E]]]]]]; rewrite E; repeat split; discriminate.
Qed.
Lemma parse_tail_ok x r : good_assert x -> fin r -> parse_tail (show_assert x ++ r) = Some (mean_assert x, is_dots (s_pre x), r).
Proof.
  intros G F. change (show_assert x) with (show_pre (s_pre x) ++ show_body x). destruct (body_head x G) as (c & s & B & D & C1 & C2 & C3 & C4 & C5).
  rewrite <- app_assoc. destruct (s_pre x) as [| |n|] eqn:P; cbn [show_pre].
  - cbn [app]. transitivity (tail_body false 0 false (show_body x ++ r)); [|apply tail_body_ok; rewrite ?P; trivial].
    rewrite B. cbn [app]. unfold parse_tail. cbn [ends_type]. rewrite C2. unfold tail_body.
    destruct c as [|p|p]; try reflexivity. do 7 (try (destruct p as [p|p|]; try reflexivity)); congruence.
  - cbn [app]. unfold parse_tail at 1. cbn [ends_type]. rewrite scan_char by is_plain. cbn [snd Z.eqb Pos.eqb orb].
    change (tail_body true 0 false (show_body x ++ r) = Some (mean_assert x, false, r)). apply tail_body_ok; rewrite ?P; trivial.
  - destruct n as [|n]; [exfalso; destruct G as (_ & _ & G & _); congruence|].
    transitivity (tail_body false (Z.of_nat (S n)) false (show_body x ++ r)); [|apply tail_body_ok; rewrite ?P; trivial].
    unfold parse_tail. cbn [repeat app ends_type]. change (42 :: repeat 42 n ++ show_body x ++ r) with (repeat 42 (S n) ++ show_body x ++ r).
    rewrite stars_repeat by (rewrite B; exact C1). cbn [Z.eqb Pos.eqb orb]. reflexivity.
  - transitivity (tail_body false 0 true (show_body x ++ r)); [|apply tail_body_ok; rewrite ?P; trivial].
    assert (DT : dots (46 :: 46 :: 46 :: show_body x ++ r) = Some (show_body x ++ r)).
    { unfold dots, scan. rewrite scan_f_dot by reflexivity. rewrite scan_f_dot by reflexivity. rewrite scan_f_dot by (rewrite B; exact D). reflexivity. }
    unfold parse_tail. cbn [app ends_type]. rewrite DT. reflexivity.
Qed.
(** ** The types *)
Lemma own_plain c : In c (text "$&*~+-") -> plain c /\ c <> 35.
Proof. intros I. vm_compute in I. destruct I as [<-|[<-|[<-|[<-|[<-|[<-|[]]]]]]]; (split; [is_plain|discriminate]). Qed.
Lemma parse_head_ok own hash name r : good_own own -> good_ident name -> istops r ->
  parse_head (show_own own hash ++ name ++ r) = Some (own, hash, name, r).
Proof.
  intros O G E. unfold parse_head, show_own. destruct own as [c|].
  - destruct (own_plain c O) as (P & N). cbn [app]. rewrite scan_char by exact P.
    assert (M : member c (text "$&*~+-") = true) by (apply member_in; exact O). rewrite M. destruct hash; cbn [app peek_is].
    + cbn [Z.eqb Pos.eqb]. rewrite scan_char by is_plain. cbn [snd]. unfold parse_name. rewrite scan_ident by assumption. reflexivity.
    + assert (Q : peek_is (name ++ r) 35 = false).
      { destruct name as [|d name]; [contradiction|]. cbn. destruct G as (L & _). apply Z.eqb_neq. intros ->. discriminate. }
      rewrite Q. unfold parse_name. rewrite scan_ident by assumption. reflexivity.
  - cbn [app]. destruct hash; cbn [app].
    + rewrite scan_char by is_plain. cbn. unfold parse_name. rewrite scan_ident by assumption. reflexivity.
    + rewrite scan_ident by assumption. reflexivity.
Qed.
Lemma arg_head a : good_arg a -> exists c s, show_arg a = c :: s /\ c <> 41.
Proof.
  destruct a as [ds|id|ds]; cbn [show_arg good_arg].
  - intros _. do 2 eexists. split; [reflexivity|discriminate].
  - destruct id as [|c id]; [contradiction|]. intros (L & _). do 2 eexists. split; [reflexivity|]. intros ->. discriminate.
  - intros ((NE & F) & _). destruct ds as [|c ds]; [congruence|]. do 2 eexists. split; [reflexivity|]. apply Forall_inv in F. intros ->. discriminate.
Qed.
Lemma call_args_step f s : match s with [] => False | c :: _ => c <> 41 end ->
  call_args (S f) s = match parse_argument s with
          | None => None
          | Some (a, s) =>
              match s with
              | 44 :: r => match call_args f r with Some (l, s) => Some (a :: l, s) | None => None end
              | 41 :: _ => match call_args f s with Some (l, s) => Some (a :: l, s) | None => None end
              | _ => None
              end
          end.
Proof. destruct s as [|c s]; [contradiction|]. intros N. cbn [call_args]. destruct c as [|p|p]; try reflexivity. do 6 (try (destruct p as [p|p|]; try reflexivity)). congruence. Qed.
Lemma call_args_ok l r f : Forall good_arg l -> (List.length (join (map show_arg l) 44%Z) < f)%nat ->
  call_args f (join (map show_arg l) 44 ++ 41 :: r) = Some (map mean_arg l, r).
Proof.
  intros G. revert f. induction G as [|a l A G IH]; intros f L.
  - destruct f; [cbn in L; lia|]. reflexivity.
  - destruct f as [|f]; [lia|]. destruct (arg_head a A) as (c & t & E & N). destruct l as [|b l].
    + cbn [map join]. rewrite call_args_step by (rewrite E; exact N). rewrite parse_argument_ok; [|exact A|repeat split; try reflexivity; discriminate].
      destruct f as [|f]; [cbn [map join] in L; rewrite E in L; cbn in L; lia|]. reflexivity.
    + assert (J : join (map show_arg (a :: b :: l)) 44 = show_arg a ++ 44 :: join (map show_arg (b :: l)) 44) by reflexivity.
      rewrite J in *. rewrite <- app_assoc. cbn [app]. rewrite call_args_step by (rewrite E; exact N).
      rewrite parse_argument_ok; [|exact A|repeat split; try reflexivity; discriminate].
      rewrite IH; [reflexivity|]. rewrite app_length in L. cbn [List.length] in L. lia.
Qed.
Lemma parse_call_ok call r : match call with Some (id, l) => good_ident id /\ Forall good_arg l | None => True end -> peek_is r 59 = false ->
  parse_call (show_call call ++ r) = Some (mean_call call, r).
Proof.
  intros G P. unfold parse_call. destruct call as [(id, l)|]; cbn [show_call mean_call].
  - destruct G as (I & A). rewrite <- !app_assoc. cbn [app peek_is]. change (59 =? 59) with true. cbv iota. rewrite scan_char by is_plain. cbn [snd].
    rewrite scan_ident; [|exact I|split; reflexivity]. rewrite scan_char by is_plain.
    rewrite call_args_ok; [reflexivity|exact A|]. rewrite app_length. lia.
  - cbn [app]. rewrite P. reflexivity.
Qed.
Fixpoint means (l : list stype) (i : Z) : list ctype := match l with [] => [] | t :: l => with_maps (mean t) i :: means l (i + 1) end.
Lemma show_func own hash args ret call : show (SFunc own hash args ret call) =
  show_own own hash ++ text "func(" ++ join (map show args) 44 ++ [41] ++ (match ret with Some t => show t | None => [] end) ++ show_call call.
Proof.
  cbn [show]. do 4 f_equal.
Qed.
Lemma mean_func own hash args ret call : mean (SFunc own hash args ret call) =
  CType (text "func") (match ret with Some t => Some (mean t) | None => None end) (means args 1) hash own no_test (mean_call call) false 0.
Proof. reflexivity. Qed.
Lemma good_func own hash args ret call : good (SFunc own hash args ret call) ->
  good_own own /\ Forall good args /\ match ret with Some t => good t | None => True end /\
  match call with None => True | Some (id, l) => good_ident id /\ Forall good_arg l /\ match ret with Some t => asserted t | None => False end end.
Proof.
  cbn [good]. intros (O & A & R & C). split; [exact O|]. split; [|split; assumption]. clear - A. induction args as [|t args IH]; constructor; [apply A|apply IH; apply A].
Qed.
Lemma stype_ind' (P : stype -> Prop) :
  (forall own hash name sfx, P (SName own hash name sfx)) ->
  (forall own hash args ret call, Forall P args -> match ret with Some t => P t | None => True end -> P (SFunc own hash args ret call)) ->
  forall t, P t.
Proof.
  intros HN HF. fix IH 1. intros [own hash name sfx|own hash args ret call]; [apply HN|]. apply HF.
  - induction args as [|t args IHa]; constructor; [apply IH|exact IHa].
  - destruct ret as [t|]; [apply IH|exact I].
Qed.
Lemma show_head t : good t -> exists c s, show t = c :: s /\ c <> 41 /\ c <> 44.
Proof.
  assert (K : forall own hash (name rest : bytes), good_own own -> good_ident name -> exists c s, show_own own hash ++ name ++ rest = c :: s /\ c <> 41 /\ c <> 44).
  { intros own hash name rest O G. unfold show_own. destruct own as [c|]; cbn [app].
    - do 2 eexists. split; [reflexivity|]. vm_compute in O. split; intros ->; intuition discriminate.
    - destruct hash; cbn [app]; [do 2 eexists; split; [reflexivity|split; discriminate]|].
      destruct name as [|c name]; [contradiction|]. do 2 eexists. split; [reflexivity|]. destruct G as (L & _). split; intros ->; discriminate. }
  destruct t as [own hash name sfx|own hash args ret call].
  - intros (O & N & _). cbn [show]. apply K; assumption.
  - intros G. apply good_func in G. rewrite show_func. change (text "func(") with (text "func" ++ [40]). rewrite <- app_assoc. apply K; [apply G|].
    cbn. repeat constructor; left; reflexivity.
Qed.
(** What may follow a type. *)
Definition follows (t : stype) (r : bytes) : Prop :=
  match r with [] => True | c :: _ => c = 44 \/ c = 41 \/ (c = 59 /\ asserted t) end.
Definition fuel_for (s : bytes) : nat := (2 * List.length s + 1)%nat.
Lemma parse_args_step f s seen : match s with [] => False | c :: _ => c <> 41 end ->
  parse_args (S f) s seen = match parse_type f s with
          | None => None
          | Some (t, s) =>
              let t := with_maps t (seen + 1) in
              match s with
              | 44 :: r => match parse_args f r (seen + 1) with Some (l, s) => Some (t :: l, s) | None => None end
              | 41 :: _ => match parse_args f s (seen + 1) with Some (l, s) => Some (t :: l, s) | None => None end
              | _ => None
              end
          end.
Proof. destruct s as [|c s]; [contradiction|]. intros N. cbn [parse_args]. destruct c as [|p|p]; try reflexivity. do 6 (try (destruct p as [p|p|]; try reflexivity)). congruence. Qed.
Lemma parse_args_ok args : Forall (fun t => good t -> forall r f, follows t r -> (fuel_for (show t ++ r) <= f)%nat -> parse_type f (show t ++ r) = Some (mean t, r)) args ->
  Forall good args -> forall r f seen, (fuel_for (join (map show args) 44 ++ 41 :: r)%Z < f)%nat ->
  parse_args f (join (map show args) 44 ++ 41 :: r) seen = Some (means args (seen + 1), r).
Proof.
  induction 1 as [|t args T _ IH]; intros G r f seen L.
  - destruct f; [lia|]. reflexivity.
  - destruct f as [|f]; [lia|]. inversion G as [|? ? GT GA]; subst. specialize (T GT). destruct (show_head t GT) as (c & s & E & N & _). destruct args as [|b args].
    + cbn [map join] in *. rewrite parse_args_step by (rewrite E; exact N). rewrite T; [|right; left; reflexivity|lia].
      destruct f as [|f]; [unfold fuel_for in L; lia|]. reflexivity.
    + assert (J : join (map show (t :: b :: args)) 44 = show t ++ 44 :: join (map show (b :: args)) 44) by reflexivity.
      rewrite J in *. rewrite <- app_assoc in *. cbn [app] in *. rewrite parse_args_step by (rewrite E; exact N). rewrite T; [|left; reflexivity|lia].
      cbv zeta. rewrite IH; [reflexivity|exact GA|]. unfold fuel_for in *. rewrite app_length in L. cbn [List.length] in L. lia.
Qed.
Lemma follows_stops t r : follows t r -> stops r.
Proof. destruct r as [|c r]; [trivial|]. intros [->|[->|(-> & _)]]; repeat split; try reflexivity; discriminate. Qed.
Lemma stops_assert sfx r : match sfx with Some x => good_assert x | None => True end -> stops r ->
  istops (match sfx with Some x => show_assert x | None => [] end ++ r).
Proof.
  intros G E. destruct sfx as [x|]; [|apply stops_istops; exact E]. change (show_assert x) with (show_pre (s_pre x) ++ show_body x).
  destruct (body_head x G) as (c & s & B & D & _). destruct (s_pre x) as [| |n|] eqn:P.
  - cbn [show_pre app]. rewrite B. cbn. split; [|exact D].
    pose proof (op_plain x G) as (_ & L & _). unfold show_body in B. destruct (s_not x); cbn [app] in B; injection B as <- _; [reflexivity|exact L].
  - split; reflexivity.
  - destruct n as [|n]; [exfalso; destruct G as (_ & _ & G & _); congruence|]. split; reflexivity.
  - split; reflexivity.
Qed.
Lemma parse_type_ok t : good t -> forall r f, follows t r -> (fuel_for (show t ++ r) <= f)%nat -> parse_type f (show t ++ r) = Some (mean t, r).
Proof.
  induction t as [own hash name sfx|own hash args ret call IHa IHr] using stype_ind'; intros G r f FO L.
  - destruct f as [|f]; [unfold fuel_for in L; lia|]. cbn [parse_type]. cbn [show] in *. destruct G as (O & N & NF & S0). rewrite <- !app_assoc in *.
    rewrite parse_head_ok; [|exact O|exact N|apply stops_assert; [exact S0|apply (follows_stops _ _ FO)]].
    rewrite beq_false by exact NF. destruct sfx as [x|].
    + rewrite parse_tail_ok; [reflexivity|exact S0|]. destruct r as [|c r]; [trivial|]. destruct FO as [->|[->|(-> & _)]]; cbn; tauto.
    + cbn [app]. assert (E : ends_type r = true) by (destruct r as [|c r]; [reflexivity|]; destruct FO as [->|[->|(_ & [])]]; reflexivity).
      unfold parse_tail. rewrite E. reflexivity.
  - destruct f as [|f]; [unfold fuel_for in L; lia|]. apply good_func in G. destruct G as (O & A & R & C).
    assert (E : ends_type r = true) by (destruct r as [|c r]; [reflexivity|]; destruct FO as [->|[->|(_ & [])]]; reflexivity).
    assert (E59 : peek_is r 59 = false) by (destruct r as [|c r]; [reflexivity|]; destruct FO as [->|[->|(_ & [])]]; reflexivity).
    rewrite show_func in *. rewrite mean_func. change (text "func(") with (text "func" ++ [40]) in *. rewrite <- !app_assoc in *. cbn [parse_type].
    rewrite parse_head_ok; [|exact O|cbn; repeat constructor; left; reflexivity|split; reflexivity].
    rewrite beq_refl. cbn [app]. rewrite scan_char by is_plain.
    set (rs := match ret with Some t => show t | None => [] end) in *.
    assert (LE : (fuel_for (join (map show args) 44 ++ 41 :: rs ++ show_call call ++ r)%Z < f)%nat).
    { unfold fuel_for in *. repeat (rewrite app_length in * || cbn [List.length app] in * ). change (List.length (text "func")) with 4%nat in L. fold rs in L. subst rs. clear - L. destruct ret; lia. }
    rewrite parse_args_ok by (try exact IHa; try exact A; exact LE). change (0 + 1) with 1.
    assert (LR : (fuel_for (rs ++ show_call call ++ r) <= f)%nat).
    { unfold fuel_for in *. repeat (rewrite app_length in * || cbn [List.length app] in * ). lia. }
    assert (RR : (if ends_type (rs ++ show_call call ++ r) then Some (None, rs ++ show_call call ++ r)
        else match parse_type f (rs ++ show_call call ++ r) with Some (t, s) => Some (Some t, s) | None => None end) =
        Some (match ret with Some t => Some (mean t) | None => None end, show_call call ++ r)).
    { subst rs. destruct ret as [t|].
      - destruct (show_head t R) as (c & s & H & N1 & N2).
        assert (EE : ends_type (show t ++ show_call call ++ r) = false).
        { rewrite H. cbn. apply orb_false_intro; apply Z.eqb_neq; assumption. }
        rewrite EE. rewrite IHr; [reflexivity|exact R| |exact LR].
        destruct call as [(id, l)|]; cbn [show_call app].
        + right. right. split; [reflexivity|]. apply C.
        + destruct r as [|d r]; [trivial|]. destruct FO as [->|[->|(_ & [])]]; cbn; tauto.
      - cbn [app] in *. destruct call as [(id, l)|]; [destruct C as (_ & _ & [])|]. cbn [show_call app]. rewrite E. reflexivity. }
    match goal with |- context [if ends_type ?q then ?a else ?b] => replace (if ends_type q then a else b) with (Some (match ret with Some t => Some (mean t) | None => None end, show_call call ++ r)) by (symmetry; exact RR) end.
    rewrite parse_call_ok; [|destruct call as [(id, l)|]; [split; apply C|exact I]|exact E59].
    unfold parse_tail. rewrite E. reflexivity.
Qed.

(** ** C118: every tag of the language is read as what it means *)
Theorem C118_grammar_partial symbols t : symbols <> [] -> Forall (fun n => ~ In 44 n /\ ~ In 32 n) symbols -> good t ->
  parse_tag (join symbols 44 ++ [32] ++ show t) = Some (symbols, mean t).
Proof.
  intros NE F G. unfold parse_tag. cbn [app]. rewrite cut_app.
  - pose proof (parse_type_ok t G [] (S (S (List.length (show t) + List.length (show t))))) as P. rewrite app_nil_r in P.
    rewrite P; [|exact I|unfold fuel_for; lia]. rewrite split_join; [reflexivity|exact NE|]. eapply Forall_impl; [|exact F]. intros a A. apply A.
  - clear NE. induction F as [|n symbols N F IH]; [intros []|]. destruct symbols as [|m symbols]; [apply N|].
    change (join (n :: m :: symbols) 44) with (n ++ 44 :: join (m :: symbols) 44). intros I. apply in_app_or in I. destruct I as [I|[I|I]]; [apply N; exact I|discriminate|contradiction].
Qed.
Print Assumptions C118_grammar_partial.
(** The tag of tag_test.go:30, and the same without the space, as syntax. *)
Definition fread : stype :=
  SFunc None false
    [SName (Some 38) false (text "void") (Some {| s_pre := PBracket; s_not := false; s_op := 61; s_arg := At (text "3"); s_oreq := false |});
     SName None false (text "size_t") (Some {| s_pre := PStars 1; s_not := false; s_op := 61; s_arg := At (text "1"); s_oreq := false |});
     SName None false (text "size_t") None; SName (Some 38) false (text "FILE") None]
    (Some (SName None false (text "size_t") (Some {| s_pre := PNone; s_not := false; s_op := 61; s_arg := At (text "3"); s_oreq := false |})))
    (Some (text "ferror", [At (text "4")])).
Example C118_fread :
  show fread = text "func(&void[=@3],size_t*=@1,size_t,&FILE)size_t=@3;ferror(@4)" /\ good fread /\
  parse_tag (text "fread func(&void[=@3],size_t*=@1,size_t,&FILE)size_t=@3; ferror(@4)") = Some ([text "fread"], mean fread).
Proof.
  split; [reflexivity|]. split; [|reflexivity].
  assert (D3 : good_digits (text "3")) by (split; [discriminate|repeat constructor]).
  assert (D1 : good_digits (text "1")) by (split; [discriminate|repeat constructor]).
  assert (D4 : good_digits (text "4")) by (split; [discriminate|repeat constructor]).
  assert (I : forall id, match id with [] => false | c :: r => is_letter c && forallb (fun c => is_letter c || is_digit c) r end = true -> good_ident id).
  { intros [|c r] E; [discriminate|]. apply andb_prop in E. destruct E as (L & F). split; [exact L|]. rewrite forallb_forall in F. apply Forall_forall. intros x X. apply orb_prop. apply F. exact X. }
  cbn [good fread]. split; [exact Logic.I|]. split.
  - repeat apply conj; try exact Logic.I; try (apply I; reflexivity); try discriminate; try (vm_compute; tauto); try assumption; try reflexivity; try (intros; discriminate).
    all: repeat (constructor; [first [reflexivity | left; reflexivity | right; reflexivity]|]); constructor.
  - split; [|split; [apply I; reflexivity|split; [constructor; [split; [exact D4|reflexivity]|constructor]|exact Logic.I]]].
    split; [exact Logic.I|]. split; [apply I; reflexivity|]. split; [discriminate|].
    split; [cbn; tauto|]. split; [split; [exact D3|reflexivity]|]. split; discriminate.
Qed.
(** Strings outside the language that the documentation gives as examples or as forms are errors. *)
Theorem C118_documented_refuted :
  parse_tag (text "fread func(&void[@3],size_t*@1,size_t,&FILE)size_t<@3; ferror(@4)") = None.
Proof. reflexivity. Qed.
Lemma tag_none sym s : ~ In 32 sym -> (forall f, parse_type (S f) s = None) -> parse_tag (sym ++ 32 :: s) = None.
Proof. intros N P. unfold parse_tag. rewrite cut_app by exact N. cbn [List.length]. rewrite P. reflexivity. Qed.
Lemma type_none name s f : good_ident name -> name <> text "func" -> istops s -> parse_tail s = None -> parse_type (S f) (name ++ s) = None.
Proof.
  intros G N E T. cbn [parse_type]. pose proof (parse_head_ok None false name s I G E) as H. cbn [show_own app] in H. rewrite H.
  rewrite beq_false by exact N. rewrite T. reflexivity.
Qed.
(** docs.go:70-73, 78-79, 88-91: [x] with a bare @n, *@n, |@n, >=@n and <=@n. *)
Theorem C118_forms_refuted sym name ds rest : ~ In 32 sym -> good_ident name -> name <> text "func" -> good_digits ds -> stops rest ->
  parse_tag (sym ++ 32 :: name ++ text "[@" ++ ds ++ rest) = None /\
  parse_tag (sym ++ 32 :: name ++ text "*@" ++ ds ++ rest) = None /\
  parse_tag (sym ++ 32 :: name ++ text "|@" ++ ds ++ rest) = None /\
  parse_tag (sym ++ 32 :: name ++ text ">=@" ++ ds ++ rest) = None /\
  parse_tag (sym ++ 32 :: name ++ text "<=@" ++ ds ++ rest) = None.
Proof.
  intros S0 G N D E.
  assert (B : forall r, parse_argument (61 :: r) = None) by (intros r; unfold parse_argument; rewrite scan_char by is_plain; reflexivity).
  assert (A : forall cap ind more, tail_body cap ind more (64 :: ds ++ rest) = None).
  { intros cap ind more. unfold tail_body. cbn [peek_is Z.eqb Pos.eqb]. rewrite scan_char by is_plain. unfold parse_argument. rewrite scan_int by assumption.
    destruct (parse_int ds 64) as [n|]; reflexivity. }
  repeat apply conj; apply tag_none; try exact S0; intros f; apply type_none; try assumption; try (split; reflexivity).
  - unfold parse_tail. cbn -[scan parse_argument parse_int]. rewrite scan_char by is_plain. apply (A true 0 false).
  - apply (A false 1 false).
  - change (tail_body false 0 false (124 :: 64 :: ds ++ rest) = None). unfold tail_body. cbn [peek_is Z.eqb Pos.eqb]. rewrite scan_char by is_plain.
    destruct (parse_argument (64 :: ds ++ rest)) as [(a, s)|]; reflexivity.
Qed.
