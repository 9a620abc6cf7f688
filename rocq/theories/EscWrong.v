(** C128: programs for which the analysis is right, and programs for which it is wrong. *)
From Verif Require Import GoBase EscModel EscGraph EscSpec EscSound.
Local Open Scope nat_scope.
Open Scope list_scope.

Definition none : nat -> bool := fun _ => false.
Definition mem (l : list (place * place)) : memory := fun k m => In (k, m) l.
Definition seq (l : list stmt) : stmts := fold_right SCons SNil l.
Definition many (l : list expr) : exprs := fold_right ECons ENil l.
Definition set (x v : expr) : stmt := SAssign (PCons x v PNil) ENil.
Definition return_ (e : expr) : stmt := SReturn (RCons true true e RNil).
Definition answer (p : stmts) (x : nat) : option bool := option_map fst (stack_allocated (analysis p) x).
Lemma answer_is p x b : answer p x = Some b -> exists g, stack_allocated (analysis p) x = Some (b, g).
Proof. unfold answer. destruct (stack_allocated (analysis p) x) as [[b' g]|]; cbn; [|discriminate]. intro H. injection H as <-. eauto. Qed.
(** One more reference. *)
Lemma one_more global param p l a k m : reachable global param p (mem l) -> In a (atoms_stmts p) -> adds global (mem l) a k m -> reachable global param p (mem ((k, m) :: l)).
Proof. intros R I A. eapply reachable_step; eauto. intros k' m' [E | E]; [injection E as <- <-; auto | auto]. Qed.
Lemma at_first global param p : reachable global param p (mem []).
Proof. apply reachable_initial. intros k m []. Qed.
Lemma reach_one (s : memory) a b : s a b -> reach s a b. Proof. intro H. eapply reach_step; [apply reach_refl | exact H]. Qed.

(** ** A tame program
    x := &a; n := T{p: x}; n.p = &b; m := &n; d := 3; f(&c); return m.p, n is a struct: a and b are returned, c is handed over, d stays. *)
Definition good : stmts := seq
  [SDefine 100 0 ENil; SDefine 101 1 ENil; SDefine 102 2 ENil;
   set (EVar 1 10 false) (EUnary 2 (EVar 3 0 false));
   set (EVar 4 11 false) (EComposite 5 (many [EKeyValue 6 false (EConst 7) (EVar 8 10 false)]));
   set (ESelect 9 (EVar 10 11 false) (EConst 11)) (EUnary 12 (EVar 13 1 false));
   set (EVar 14 12 false) (EUnary 15 (EVar 16 11 false));
   set (EVar 17 3 false) (EConst 18);
   SExpr (ECall 19 false (EConst 20) (many [EUnary 21 (EVar 22 2 false)]));
   return_ (ESelect 23 (EVar 24 12 false) (EConst 25))].
Example good_tame : tame_program none none good.
Proof. unfold tame_program. repeat (first [apply Forall_nil | apply Forall_cons]); cbn; unfold none; intuition congruence. Qed.
Example good_answers : map (answer good) [0; 1; 2; 10; 11; 12; 3] = [Some false; Some false; Some false; Some false; Some false; Some false; Some true].
Proof. vm_compute. reflexivity. Qed.
(** That a is returned happens. *)
Example good_leaks : exists s, reachable none none good s /\ leaked none good s 0.
Proof.
  exists (mem [(PVar 12, PVar 11); (PVar 11, PVar 0); (PVar 10, PVar 0)]). split.
  - eapply one_more with (a := AAssign (EVar 14 12 false) (EUnary 15 (EVar 16 11 false))); [eapply one_more with (a := AAssign (EVar 4 11 false) _); [eapply one_more with (a := AAssign (EVar 1 10 false) _); [apply at_first | | ] | | ] | | ].
    + cbn. auto 30.
    + cbn. auto.
    + cbn. eauto 30.
    + cbn. split; auto. left. right. left. left. now left.
    + cbn. auto 30.
    + cbn. auto.
  - right. right. exists true, (ESelect 23 (EVar 24 12 false) (EConst 25)), (PVar 11). split; [cbn; auto 30|]. split.
    + cbn. left. auto.
    + apply reach_one. cbn. auto.
Qed.

(** ** Programs for which what is put on the stack is referred to from elsewhere
    In each the variable 0 leaks. *)
Definition unsafe (global param : nat -> bool) (p : stmts) : Prop :=
  global 0 = false /\ (exists g, stack_allocated (analysis p) 0 = Some (true, g)) /\ exists s, reachable global param p s /\ leaked global p s 0.
Ltac start := split; [reflexivity | split; [apply answer_is; vm_compute; reflexivity|]].

Ltac here := cbn; repeat (first [left; reflexivity | right]).

(** x.M() *)
Theorem C128_method_receiver_refuted : unsafe none none (seq [SDefine 100 0 ENil; SExpr (ECall 1 false (ESelect 2 (EVar 3 0 false) (EConst 4)) ENil)]).
Proof.
  start. exists (mem []). split; [apply at_first|]. right. left. eexists _, _. split; [cbn; repeat (try (left; reflexivity); right)|]. exists (PVar 0). split; [|apply reach_refl]. right. left. cbn. auto.
Qed.
(** go func() { x = 1 }() *)
Theorem C128_closure_refuted : unsafe none none (seq [SDefine 100 0 ENil; SGo false (EFunc 1 (seq [set (EVar 2 0 false) (EConst 3)])) ENil]).
Proof.
  start. exists (mem []). split; [apply at_first|]. right. left. eexists _, _. split; [cbn; repeat (try (left; reflexivity); right)|]. exists (PVar 0). split; [|apply reach_refl]. right. left. cbn. exists 0. auto.
Qed.
(** a := [...]*int{&x}; for _, y := range a { return y } *)
Theorem C128_range_refuted : unsafe none none
  (seq [SDefine 100 0 ENil; set (EVar 1 1 false) (EComposite 2 (many [EUnary 3 (EVar 4 0 false)])); SRange [2] (EVar 5 1 false) (seq [return_ (EVar 6 2 false)])]).
Proof.
  start. exists (mem [(PVar 2, PVar 0); (PVar 1, PVar 0)]). split.
  - eapply one_more with (a := ARange [2] (EVar 5 1 false)); [eapply one_more with (a := AAssign (EVar 1 1 false) _); [apply at_first | here | ] | here | ]; cbn; auto 10. split; [eauto | left; auto].
  - right. right. exists true, (EVar 6 2 false), (PVar 0). split; [cbn; auto 10|]. split; [cbn; auto | apply reach_refl].
Qed.
(** var y = &x; return y *)
Theorem C128_initialiser_refuted : unsafe none none (seq [SDefine 100 0 ENil; SDefine 101 1 (many [EUnary 1 (EVar 2 0 false)]); return_ (EVar 3 1 false)]).
Proof.
  start. exists (mem [(PVar 1, PVar 0)]). split.
  - eapply one_more with (a := ADefine 1 _); [apply at_first | here | ]; cbn; auto 10.
  - right. right. exists true, (EVar 3 1 false), (PVar 0). split; [cbn; auto 10|]. split; [cbn; auto | apply reach_refl].
Qed.
(** var y = f(&x) *)
Theorem C128_call_in_initialiser_refuted : unsafe none none (seq [SDefine 100 0 ENil; SDefine 101 1 (many [ECall 1 false (EConst 2) (many [EUnary 3 (EVar 4 0 false)])])]).
Proof.
  start. exists (mem []). split; [apply at_first|]. right. left. eexists _, _. split; [cbn; repeat (try (left; reflexivity); right)|]. exists (PVar 0). split; [|apply reach_refl]. right. right. cbn. auto.
Qed.
(** ch := make(chan *int, 1); ch <- &x; return <-ch *)
Theorem C128_receive_refuted : unsafe none none
  (seq [SDefine 100 0 ENil; set (EVar 1 1 false) (ECall 2 true (EConst 3) ENil); SSend (EVar 4 1 false) (EUnary 5 (EVar 6 0 false)); return_ (EAwait 7 true (EVar 8 1 false))]).
Proof.
  start. exists (mem [(POutside, PVar 0); (PVar 1, POutside)]). split.
  - eapply one_more with (a := ASend _ _); [eapply one_more with (a := AAssign _ _); [apply at_first | here | ] | here | ]; cbn; auto 10.
  - right. right. exists true, (EAwait 7 true (EVar 8 1 false)), (PVar 0). split; [cbn; auto 10|]. split; [|apply reach_refl]. cbn. split; auto. exists POutside. cbn. auto.
Qed.
(** p := id(&z); *p = &x; return z *)
Theorem C128_call_result_refuted : unsafe none none
  (seq [SDefine 100 0 ENil; set (EVar 1 1 false) (ECall 2 true (EConst 3) (many [EUnary 4 (EVar 5 2 false)])); set (EStar 6 (EVar 7 1 false)) (EUnary 8 (EVar 9 0 false)); return_ (EVar 10 2 false)]).
Proof.
  start. exists (mem [(PVar 2, PVar 0); (PVar 1, PVar 2)]). split.
  - eapply one_more with (a := AAssign (EStar 6 _) _); [eapply one_more with (a := AAssign (EVar 1 1 false) _); [apply at_first | here | ] | here | ]; cbn; auto 10.
    split; auto. left. split; auto. right. exists (PVar 2). split; [auto | apply reach_refl].
  - right. right. exists true, (EVar 10 2 false), (PVar 0). split; [cbn; auto 10|]. split; [cbn; auto | apply reach_refl].
Qed.
(** return T{&x}, T a struct *)
Theorem C128_struct_result_refuted : unsafe none none (seq [SDefine 100 0 ENil; SReturn (RCons false true (EComposite 1 (many [EUnary 2 (EVar 3 0 false)])) RNil)]).
Proof.
  start. exists (mem []). split; [apply at_first|]. right. right. exists false, (EComposite 1 (many [EUnary 2 (EVar 3 0 false)])), (PVar 0). split; [cbn; auto|]. split; [cbn; auto | apply reach_refl].
Qed.
(** m := map[*int]int{}; m[&x] = 1; return m *)
Theorem C128_map_key_refuted : unsafe none none
  (seq [SDefine 100 0 ENil; set (EVar 1 1 false) (EComposite 2 ENil); set (EIndex 3 true (EVar 4 1 false) (EUnary 5 (EVar 6 0 false))) (EConst 7); return_ (EVar 8 1 false)]).
Proof.
  start. exists (mem [(PNew 2 0, PVar 0); (PVar 1, PNew 2 0)]). split.
  - eapply one_more with (a := AAssign (EIndex 3 true _ _) _); [eapply one_more with (a := AAssign (EVar 1 1 false) _); [apply at_first | here | ] | here | ]; cbn; eauto 10.
    split; [auto|]. right. eexists. split; [reflexivity|]. cbn. auto.
  - right. right. exists true, (EVar 8 1 false), (PNew 2 0). split; [cbn; auto 10|]. split; [cbn; auto | apply reach_one; cbn; auto].
Qed.
(** g.f = &x, g a variable of the package *)
Theorem C128_global_field_refuted : unsafe (Nat.eqb 9) none (seq [SDefine 100 0 ENil; set (ESelect 1 (EVar 2 9 true) (EConst 3)) (EUnary 4 (EVar 5 0 false))]).
Proof.
  start. exists (mem [(PVar 9, PVar 0)]). split.
  - eapply one_more with (a := AAssign _ _); [apply at_first | here | ]; cbn; auto 10.
  - left. exists (PVar 9). split; [right; exists 9; auto | apply reach_one; cbn; auto].
Qed.
(** *p = &x, p a parameter *)
Theorem C128_parameter_refuted : unsafe none (Nat.eqb 9) (seq [SDefine 100 0 ENil; set (EStar 1 (EVar 2 9 false)) (EUnary 3 (EVar 4 0 false))]).
Proof.
  start. exists (mem [(POutside, PVar 0); (PVar 9, POutside)]). split.
  - eapply one_more with (a := AAssign _ _); [apply reachable_initial | here | ]; cbn; auto 10.
    intros k m [E | []]. injection E as <- <-. split; auto. exists 9. auto.
  - left. exists POutside. split; [now left | apply reach_one; cbn; auto].
Qed.

(** ** Blocks and goroutines
    Without a call in the program no variable is ever reported to escape its block or its goroutine: not when its address is
    assigned to a variable of an outer block. *)
Definition no_call (a : atom) : Prop := match a with ACall _ _ => False | _ => True end.
Definition quiet (o : op) : Prop := match o with ORoute _ f => f_block f = false /\ f_goroutine f = false | OLink _ _ => True end.
Ltac tparts := repeat match goal with H : Forall _ (_ ++ _) |- _ => apply Forall_app in H as [? H] | H : Forall _ (_ :: _) |- _ => apply Forall_cons_iff in H as [? H] end.
Ltac goals := repeat first [apply Forall_nil | apply Forall_app; split | apply Forall_cons]; cbn [quiet with_ no_call] in *; try contradiction; auto.
Lemma walk_quiet e : Forall no_call (atoms e) -> Forall quiet (walk e)
with walks_quiet l : Forall no_call (atoms_list l) -> Forall quiet (walks l)
with elements_quiet c l : Forall no_call (atoms_list l) -> Forall quiet (walk_elements c l)
with walk_vars_quiet l : Forall no_call (atoms_pairs l) -> Forall quiet (walk_vars l)
with walk_values_quiet l : Forall no_call (atoms_pairs l) -> Forall quiet (walk_values l)
with stmt_quiet s : Forall no_call (atoms_stmt s) -> Forall quiet (walk_stmt s)
with stmts_quiet l : Forall no_call (atoms_stmts l) -> Forall quiet (walk_stmts l)
with results_quiet l : Forall no_call (atoms_results l) -> Forall quiet (walk_results l)
with clauses_quiet l : Forall no_call (atoms_clauses l) -> Forall quiet (walk_clauses l).
Proof.
  - intros T. destruct e; cbn [walk atoms] in *; tparts; goals.
  - intros T. destruct l; cbn [walks atoms_list] in *; tparts; goals.
  - intros T. destruct l; cbn [walk_elements atoms_list] in *; tparts; goals.
  - intros T. destruct l; cbn [walk_vars atoms_pairs] in *; tparts; goals.
  - intros T. destruct l; cbn [walk_values atoms_pairs] in *; tparts; goals.
  - intros T. destruct s; cbn [walk_stmt atoms_stmt] in *; tparts; goals.
  - intros T. destruct l; cbn [walk_stmts atoms_stmts] in *; tparts; goals.
  - intros T. destruct l; cbn [walk_results atoms_results] in *; tparts; goals. destruct byref; goals.
  - intros T. destruct l; cbn [walk_clauses atoms_clauses] in *; tparts; goals.
Qed.
Theorem C128_blocks_are_not_seen : forall p x q b g', Forall no_call (atoms_stmts p) -> q = Block \/ q = Goroutine ->
  ask (analysis p) (KVar x) q = Some (b, g') -> b = false.
Proof.
  intros p x q b g' N Q A. destruct (ask_ok _ _ (KVar x) q (analysis_ok p)) as (b' & g & E & _ & H). rewrite A in E. injection E as <- <-.
  destruct b; auto. destruct H as [H _]. destruct (H eq_refl) as (a & f & _ & R & F).
  apply stmts_quiet in N. eapply Forall_forall in N; [|exact R]. destruct N as [B G]. destruct Q as [-> | ->]; cbn in F; congruence.
Qed.
(** var y *int; { var x int; y = &x } *)
Example block_is_not_seen : option_map fst (ask (analysis (seq [SDefine 100 1 ENil; SBlock (seq [SDefine 101 0 ENil; set (EVar 1 1 false) (EUnary 2 (EVar 3 0 false))])])) (KVar 0) Block) = Some false.
Proof. vm_compute. reflexivity. Qed.
Print Assumptions C128_blocks_are_not_seen.
Print Assumptions C128_call_result_refuted.
