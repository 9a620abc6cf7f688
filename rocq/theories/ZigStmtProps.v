(** * zgo: C130, compiled statements do what they do in Go. *)
From Coq Require Import ZArith List Bool Lia.
From Verif Require Import ZigModel ZigParse ZigExpr ZigStmtModel ZigStmtParse ZigStmtFuel ZigStmt ZigStmtStop.
Import ListNotations.
Open Scope Z_scope.

(** The Zig program [z] behaves like the Go program [g]: it is refused, or it does
    the same (the same lines printed, the same values left in the variables, the
    same way to end, the same loop that does not end), or it stops early, having
    printed the beginning of what Go prints.  [g] is refused only if it is no valid
    Go program. *)
Definition faithful (z g : xres) : Prop :=
  z = XRefused \/ g = XRefused \/ z = g \/
  exists st, z = XTrap st /\ forall lines, printed g = Some lines -> exists more, lines = st_out st ++ more.

(** The full property *)
Definition C130_full : Prop := forall ty l n st, go_env (st_env st) ->
  faithful (zig_body ty n l st) (go_body wrapping n l st).

(** ... holds for the statements of [fine_l] (ZigStmtParse.v), through the printer
    and the grammar of Zig, for any number of iterations [n] ... *)
Theorem C130_statements_partial : forall ty l n st, fine_l ty l -> go_env (st_env st) ->
  faithful (zig_body ty n l st) (go_body wrapping n l st).
Proof.
  intros ty l n st F G. unfold zig_body. destruct (fine_reads ty l F) as (ts & T & R). rewrite T, R.
  destruct (all_sim ty n) as (_ & SL & _). specialize (SL l F st G).
  destruct (all_stop n) as (_ & ST & _). specialize (ST l st). unfold go_body.
  destruct SL as [E | [E | [E _]]].
  - left. rewrite E. reflexivity.
  - right; left. rewrite E in ST. destruct ST as [S1 | (s & S1 & _)]; [rewrite <- S1; reflexivity | discriminate].
  - rewrite E. destruct ST as [S1 | (s & S1 & GR)]; [rewrite S1; right; right; left; reflexivity |].
    rewrite S1. cbn [body_result]. right; right; right. exists s. split; [reflexivity |].
    intros lines P. apply GR. destruct (g_list wrapping n l st) as [[] s'| | |]; cbn in *; congruence.
Qed.

(** ... and if the Go program runs to its end without an overflow, the Zig program
    does exactly that, if it is accepted *)
Theorem C130_no_overflow_partial : forall ty l n st o st', fine_l ty l -> go_env (st_env st) ->
  go_body trapping n l st = XOk o st' -> zig_body ty n l st <> XRefused ->
  zig_body ty n l st = XOk o st' /\ go_body wrapping n l st = XOk o st'.
Proof.
  intros ty l n st o st' F G H N. unfold zig_body in *. destruct (fine_reads ty l F) as (ts & T & R).
  rewrite T, R in *. destruct (all_sim ty n) as (_ & SL & _). specialize (SL l F st G).
  destruct (all_stop n) as (_ & ST & _). specialize (ST l st). unfold go_body in *.
  destruct SL as [E | [E | [E _]]].
  - exfalso. apply N. rewrite E. reflexivity.
  - rewrite E in H. discriminate.
  - rewrite E. split; [exact H |].
    destruct ST as [S1 | (s & S1 & _)]; [rewrite <- S1; exact H | rewrite S1 in H; discriminate].
Qed.

(** *** Non-vacuity: a program that satisfies [fine_l] and is accepted

    {[  s := 0
        for i := 0; i < 10; i++ {
            if i == 3 { continue }
            switch i { case 5, 7: s += 100; case 8: println(s); default: s += i }
        }
        println(s, s > 50) ]} *)
Definition pl (_ : expr) : gty := GyOther.
Definition lt_ex : expr := EBin OLt (EVar 1) (EInt 10).
Definition prog : gstmts :=
  GCons (GDefine [(0%nat, TyInt k_int)] [EInt 0])
 (GCons (GFor None (GCons (GDefine [(1%nat, TyInt k_int)] [EInt 0]) GNil) (Some lt_ex) (GCons (GInc 1) GNil)
    (GCons (GIf GNil (EBin OEq (EVar 1) (EInt 3)) (GCons (GContinue None) GNil) GNil)
    (GCons (GSwitch GNil (Some (EVar 1))
        (CCons [EInt 5; EInt 7] (GCons (GAssign [0%nat] (Some OAdd) [EInt 100]) GNil) false
        (CCons [EInt 8] (GCons (GPrint [EVar 0]) GNil) false
        (CCons [] (GCons (GAssign [0%nat] (Some OAdd) [EVar 1]) GNil) false CNil)))) GNil)))
 (GCons (GPrint [EVar 0; EBin OGt (EVar 0) (EInt 50)]) GNil)).

Lemma fe_int : forall z, 0 <= z -> fine_e pl (EInt z).
Proof.
  intros z H. split; [reflexivity |]. exists [TInt z]. reflexivity.
Qed.
Lemma fe_var : forall x, fine_e pl (EVar x).
Proof. intros x. split; [reflexivity |]. exists [TName x]. reflexivity. Qed.
Lemma fe_cmp : forall o x z, match o with OEq | OLt | OGt => True | _ => False end -> 0 <= z ->
  fine_e pl (EBin o (EVar x) (EInt z)).
Proof.
  intros o x z H Hz. destruct o; try contradiction; (split; [reflexivity |]);
    [exists [TName x; TBin OEq; TInt z] | exists [TName x; TBin OLt; TInt z] | exists [TName x; TBin OGt; TInt z]];
    reflexivity.
Qed.

Theorem C130_example :
  fine_l pl prog /\
  zig_body pl 20 prog (St [] []) = go_body wrapping 20 prog (St [] []) /\
  exists st, zig_body pl 20 prog (St [] []) = XOk ONorm st /\
    st_out st = [[PInt 213]; [PInt 222; PBool true]].
Proof.
  split; [| split].
  - unfold prog. cbn [fine_l fine fine_c fine_init fine_post no_break_cls no_break no_breaks].
    split; [apply fe_int; lia |]. split; [| split; [| exact I]].
    + split; [apply fe_int; lia |]. split; [apply fe_cmp; [exact I | lia] |]. split; [exact I |].
      split; [| split; [| exact I]].
      * split; [reflexivity |]. split; [apply fe_cmp; [exact I | lia] |]. split; [split; exact I |]. split; exact I.
      * split; [exact I |]. split; [apply fe_var |]. split; [| reflexivity].
        split; [constructor; [apply fe_int; lia | constructor; [apply fe_int; lia | constructor]] |].
        split; [split; [| exact I]; split; [reflexivity | apply fe_int; lia] |]. split; [reflexivity |].
        split; [constructor; [apply fe_int; lia | constructor] |].
        split; [split; [| exact I]; constructor; [apply fe_var | constructor] |]. split; [reflexivity |].
        split; [constructor |]. split; [split; [| exact I]; split; [reflexivity | apply fe_var] |].
        split; [reflexivity | exact I].
    + constructor; [apply fe_var |]. constructor; [apply fe_cmp; [exact I | lia] | constructor].
  - vm_compute. reflexivity.
  - eexists. split; vm_compute; reflexivity.
Qed.

(** ** Outside of the fragment *)
Definition lines (r : xres) : option (list (list pval)) := printed r.

(** a break in a switch in a loop: [for i := 0; i < 3; i++ { switch i { case 1: break;
    default: println(i) } }] prints 0 and 2; the Zig program leaves the loop *)
Definition break_prog : gstmts :=
  GCons (GFor None (GCons (GDefine [(0%nat, TyInt k_int)] [EInt 0]) GNil)
    (Some (EBin OLt (EVar 0) (EInt 3))) (GCons (GInc 0) GNil)
    (GCons (GSwitch GNil (Some (EVar 0))
       (CCons [EInt 1] (GCons (GBreak None) GNil) false
       (CCons [] (GCons (GPrint [EVar 0]) GNil) false CNil))) GNil)) GNil.
Theorem C130_break_in_switch_refuted :
  lines (go_body wrapping 10 break_prog (St [] [])) = Some [[PInt 0]; [PInt 2]] /\
  (exists st, zig_body pl 10 break_prog (St [] []) = XOk ONorm st /\ st_out st = [[PInt 0]]).
Proof. split; [vm_compute; reflexivity |]. eexists. split; vm_compute; reflexivity. Qed.

(** fallthrough: [x := 1; switch x { case 1: println(1); fallthrough; case 2:
    println(2); default: }] *)
Definition fall_prog : gstmts :=
  GCons (GDefine [(0%nat, TyInt k_int)] [EInt 1])
 (GCons (GSwitch GNil (Some (EVar 0))
       (CCons [EInt 1] (GCons (GPrint [EInt 1]) GNil) true
       (CCons [EInt 2] (GCons (GPrint [EInt 2]) GNil) false
       (CCons [] GNil false CNil)))) GNil).
Theorem C130_fallthrough_refuted :
  lines (go_body wrapping 10 fall_prog (St [] [])) = Some [[PInt 1]; [PInt 2]] /\
  (exists st, zig_body pl 10 fall_prog (St [] []) = XOk ONorm st /\ st_out st = [[PInt 1]]).
Proof. split; [vm_compute; reflexivity |]. eexists. split; vm_compute; reflexivity. Qed.

(** the label of a range loop is put on its body: [L: for i := range 3 { println(i);
    break L }] prints 0 in Go and goes on in Zig *)
Definition label_prog : gstmts :=
  GCons (GRange (Some 7%nat) (Some 0%nat) k_int (EInt 3)
    (GCons (GPrint [EVar 0]) (GCons (GBreak (Some 7%nat)) GNil))) GNil.
Theorem C130_label_refuted :
  lines (go_body wrapping 10 label_prog (St [] [])) = Some [[PInt 0]] /\
  (exists st, zig_body pl 10 label_prog (St [] []) = XOk ONorm st /\
    st_out st = [[PInt 0]; [PInt 1]; [PInt 2]]).
Proof. split; [vm_compute; reflexivity |]. eexists. split; vm_compute; reflexivity. Qed.

Theorem C130_full_refuted : ~ C130_full.
Proof.
  intros H. specialize (H pl break_prog 10%nat (St [] [])).
  assert (G : go_env (st_env (St [] []))) by (intros x v E; destruct x; discriminate).
  specialize (H G). destruct C130_break_in_switch_refuted as (A & st & B & C).
  rewrite B in H. destruct H as [H | [H | [H | (s & H & _)]]]; try discriminate.
  - rewrite <- H in A. cbn in A. rewrite C in A. discriminate.
Qed.

(** the counter of a range over an int is a usize in Zig: using it as an int is
    refused, [for i := range 3 { s += i }] *)
Theorem C130_range_counter_refused : forall n,
  zig_body pl n (GCons (GDefine [(0%nat, TyInt k_int)] [EInt 0])
    (GCons (GRange None (Some 1%nat) k_int (EInt 3) (GCons (GAssign [0%nat] (Some OAdd) [EVar 1]) GNil)) GNil)) (St [] [])
  = XRefused.
Proof. intros n. reflexivity. Qed.

(** a continue with the label of a range loop is refused *)
Theorem C130_continue_label_refused : forall n,
  zig_body pl n (GCons (GRange (Some 7%nat) None k_int (EInt 3) (GCons (GContinue (Some 7%nat)) GNil)) GNil) (St [] [])
  = XRefused.
Proof. intros n. reflexivity. Qed.

(** a switch without a default clause is refused, whatever its clauses *)
Theorem C130_no_default_refused : forall n e ps st, count_else ps <> 1%nat ->
  z_stmt n (ZSwitch e ps) st = XRefused \/ z_stmt n (ZSwitch e ps) st = XTrap st.
Proof.
  intros n e ps st H. rewrite z_switch_eq. destruct (ze st e) as [v| |]; cbn [with_val]; auto.
  destruct (switch_ok v ps) as [z|] eqn:E; [| auto].
  destruct (switch_ok_inv _ _ _ E) as (_ & _ & _ & _ & _ & C). contradiction.
Qed.

(** a switch without a tag is refused *)
Theorem C130_tagless_refused : forall ty n cls rest st,
  zig_body ty n (GCons (GSwitch GNil None cls) rest) st = XRefused.
Proof.
  intros ty n cls rest st. unfold zig_body. rewrite pr_cons.
  change (pr_stmt ty (GSwitch GNil None cls)) with
    (Some [TLc] +++ Some [] +++ Some [TSwitch; TLp] +++ Some [] +++ Some [TRp; TLc] +++ pr_clauses ty cls +++ Some [TRc; TRc]).
  destruct (pr_clauses ty cls) as [tc|]; [| reflexivity].
  destruct (pr_list ty rest) as [tr|]; [| reflexivity]. cbn [opt_app app].
  set (k := (tc ++ [TRc; TRc]) ++ tr). unfold read_stmts.
  assert (Z : forall f, z_list_p f (TLc :: TSwitch :: TLp :: TRp :: TLc :: k) = None).
  { intros f. destruct f as [|f]; [reflexivity |]. destruct f as [|f]; [reflexivity |].
    destruct f as [|f]; [reflexivity |]. destruct f as [|f]; [reflexivity |].
    destruct f as [|f]; reflexivity. }
  rewrite Z. reflexivity.
Qed.

(** assigning two variables at once is refused: nothing is printed between the
    two assignments *)
Theorem C130_two_refused : forall ty n x y a b st,
  zig_body ty n (GCons (GAssign [x; y] None [EVar a; EVar b]) GNil) st = XRefused.
Proof. reflexivity. Qed.
Theorem C130_two_results_refused : forall ty n a b st,
  zig_body ty n (GCons (GReturn [EVar a; EVar b]) GNil) st = XRefused.
Proof. reflexivity. Qed.
Theorem C130_if_init_refused : forall ty n x t y c st,
  zig_body ty n (GCons (GIf (GCons (GDefine [(x, t)] [EVar y]) GNil) (EVar c) GNil GNil) GNil) st = XRefused.
Proof. intros. destruct t; reflexivity. Qed.
Theorem C130_andnot_refused : forall ty n x y st,
  zig_body ty n (GCons (GAssign [x] (Some OAndNot) [EVar y]) GNil) st = XRefused.
Proof. reflexivity. Qed.
