(** * zgo: the statements whose printed text Zig reads as intended. *)
From Coq Require Import ZArith List Bool Lia.
From Verif Require Import ZigModel ZigParse ZigExpr ZigStmtModel.
Import ListNotations.
Open Scope Z_scope.

(** an expression that a Go parser returned, and both grammars group alike *)
Definition parsed (e : expr) : Prop := exists src, read go src = Some e.
Definition fine_e (ty : expr -> gty) (e : expr) : Prop := plain ty e = true /\ parsed e.

(** no unlabelled break, except inside loops of its own *)
Fixpoint no_break (s : gstmt) : bool :=
  match s with
  | GBreak None => false
  | GBlock l => no_breaks l
  | GIf _ _ body els => no_breaks body && no_breaks els
  | GSwitch _ _ cls => no_break_cls cls
  | _ => true
  end
with no_breaks (l : gstmts) : bool :=
  match l with GNil => true | GCons s l => no_break s && no_breaks l end
with no_break_cls (cls : gclauses) : bool :=
  match cls with CNil => true | CCons _ body _ rest => no_breaks body && no_break_cls rest end.

(** the expected tokens are there *)
Ltac ex := cbn [expect1 expect2 is_rc is_lc is_rp is_semi is_comma is_arrow is_else is_asg w_head rd_capture].

(** the equations of the printer *)
Section PrEq.
  Variable ty : expr -> gty.
  Lemma pr_block : forall l, pr_stmt ty (GBlock l) = Some [TLc] +++ pr_list ty l +++ Some [TRc].
  Proof. reflexivity. Qed.
  Lemma pr_if : forall c body els, pr_stmt ty (GIf GNil c body els) =
    Some [] +++ Some [TIf; TLp] +++ z_print ty c +++ Some [TRp; TLc] +++ pr_list ty body
    +++ match els with
        | GNil => Some [TRc]
        | GCons s _ => Some [TRc; TElse] +++ pr_stmt ty s
        end.
  Proof. reflexivity. Qed.
  Lemma pr_for : forall lab init c post body, pr_stmt ty (GFor lab init c post body) =
    match init with GNil => Some [] | GCons s _ => Some [TLc] +++ pr_stmt ty s end
    +++ Some (match lab with Some l => [TLabel l; TColon] | None => [] end)
    +++ Some [TWhile; TLp] +++ match c with Some c => z_print ty c | None => Some [TTrue] end +++ Some [TRp]
    +++ match post with GNil => Some [] | GCons s _ => Some [TColon; TLp] +++ pr_raw ty s +++ Some [TRp] end
    +++ Some [TLc] +++ pr_list ty body +++ Some [TRc]
    +++ match init with GNil => Some [] | GCons _ _ => Some [TRc] end.
  Proof. reflexivity. Qed.
  Lemma pr_range : forall lab key k x body, pr_stmt ty (GRange lab key k x body) =
    Some [TFor; TLp; TInt 0; TDots; TAs; TLp; TTy k; TComma] +++ z_print ty x +++ Some [TRp; TRp; TPipe]
    +++ Some [match key with Some y => TName y | None => TUnder end; TPipe]
    +++ Some (match lab with Some l => [TLabel l; TColon] | None => [] end)
    +++ Some [TLc] +++ pr_list ty body +++ Some [TRc].
  Proof. reflexivity. Qed.
  Lemma pr_switch : forall init e cls, pr_stmt ty (GSwitch init (Some e) cls) =
    Some [TLc] +++ match init with GNil => Some [] | GCons s _ => pr_stmt ty s end
    +++ Some [TSwitch; TLp] +++ z_print ty e +++ Some [TRp; TLc] +++ pr_clauses ty cls +++ Some [TRc; TRc].
  Proof. reflexivity. Qed.
  Lemma pr_else : forall body falls rest, pr_clauses ty (CCons [] body falls rest) =
    Some [TElse] +++ Some [TArrow; TLc] +++ pr_list ty body +++ Some [TRc; TComma] +++ pr_clauses ty rest.
  Proof. reflexivity. Qed.
  Lemma pr_case : forall e es body falls rest, pr_clauses ty (CCons (e :: es) body falls rest) =
    match print_all ty (e :: es) with Some ts => Some (sep_by TComma ts) | None => None end
    +++ Some [TArrow; TLc] +++ pr_list ty body +++ Some [TRc; TComma] +++ pr_clauses ty rest.
  Proof. reflexivity. Qed.
  Lemma pr_cons : forall s l, pr_list ty (GCons s l) = pr_stmt ty s +++ pr_list ty l.
  Proof. reflexivity. Qed.
End PrEq.

Section Fine.
  Variable ty : expr -> gty.
  Notation fe := (fine_e ty).

  (** an init statement: one definition or assignment *)
  Definition fine_init (l : gstmts) : Prop :=
    match l with
    | GNil => True
    | GCons (GDefine [(_, _)] [e]) GNil => fe e
    | GCons (GAssign [_] None [e]) GNil => fe e
    | GCons (GAssign [_] (Some o) [e]) GNil => zig_opasg o = true /\ fe e
    | GCons (GInc _) GNil => True
    | GCons (GDec _) GNil => True
    | _ => False
    end.
  Definition fine_post (l : gstmts) : Prop :=
    match l with GCons (GDefine _ _) _ => False | _ => fine_init l end.

  (** the statements of the fragment *)
  Fixpoint fine (s : gstmt) : Prop :=
    match s with
    | GPrint es => Forall fe es
    | GAssign [_] None [e] => fe e
    | GAssign [_] (Some o) [e] => zig_opasg o = true /\ fe e
    | GAssign _ _ _ => False
    | GDefine [(_, _)] [e] => fe e
    | GDefine _ _ => False
    | GInc _ | GDec _ => True
    | GBlock l => fine_l l
    | GIf init c body els =>
        init = GNil /\ fe c /\ fine_l body /\ fine_l els /\
        match els with
        | GNil | GCons (GBlock _) GNil | GCons (GIf _ _ _ _) GNil => True
        | _ => False
        end
    | GFor _ init c post body =>
        fine_init init /\ match c with Some c => fe c | None => True end /\ fine_post post /\ fine_l body
    | GRange lab key k x body =>
        lab = None /\ (key = None \/ ik_eqb k k_uint = true) /\ fe x /\ fine_l body
    | GSwitch init tag cls =>
        fine_init init /\ match tag with Some e => fe e | None => False end /\ fine_c cls /\
        no_break_cls cls = true
    | GBreak _ | GContinue _ => True
    | GReturn es => match es with [] => True | [e] => fe e | _ => False end
    end
  with fine_l (l : gstmts) : Prop :=
    match l with GNil => True | GCons s l => fine s /\ fine_l l end
  with fine_c (cls : gclauses) : Prop :=
    match cls with
    | CNil => True
    | CCons es body falls rest => Forall fe es /\ fine_l body /\ falls = false /\ fine_c rest
    end.

  (** ** The Zig statements the printer has in mind *)
  Notation zt := (ztree ty).
  Definition zpost (l : gstmts) : option (nat * option binop * expr) :=
    match l with
    | GCons (GAssign [x] o [e]) _ => Some (x, o, zt e)
    | GCons (GInc x) _ => Some (x, Some OAdd, EInt 1)
    | GCons (GDec x) _ => Some (x, Some OSub, EInt 1)
    | _ => None
    end.
  Fixpoint ztr (s : gstmt) : list zstmt :=
    match s with
    | GPrint es => [ZPrint (map zt es)]
    | GAssign [x] o [e] => [ZSet x o (zt e)]
    | GDefine [(x, t)] [e] => [ZDecl x t (zt e); ZSet x None (EVar x)]
    | GInc x => [ZSet x (Some OAdd) (EInt 1)]
    | GDec x => [ZSet x (Some OSub) (EInt 1)]
    | GBlock l => [ZBlock None (ztr_l l)]
    | GIf _ c body els => [ZIf (zt c) (ztr_l body) (match els with GNil => None | GCons s _ => hd_error (ztr s) end)]
    | GFor lab init c post body =>
        let w := ZWhile lab (match c with Some c => zt c | None => EBool true end) (zpost post) (ztr_l body) in
        match init with GNil => [w] | GCons s _ => [ZBlock None (ztr s ++ [w])] end
    | GRange lab key k x body => [ZFor k (zt x) key lab (ztr_l body)]
    | GSwitch init (Some e) cls =>
        [ZBlock None (match init with GNil => [] | GCons s _ => ztr s end ++ [ZSwitch (zt e) (ztr_c cls)])]
    | GBreak lab => [ZBreak lab]
    | GContinue lab => [ZCont lab]
    | GReturn [] => [ZRet None]
    | GReturn (e :: _) => [ZRet (Some (zt e))]
    | _ => []
    end
  with ztr_l (l : gstmts) : list zstmt :=
    match l with GNil => [] | GCons s l => ztr s ++ ztr_l l end
  with ztr_c (cls : gclauses) : list (option (list expr) * list zstmt) :=
    match cls with
    | CNil => []
    | CCons [] body _ rest => (None, ztr_l body) :: ztr_c rest
    | CCons es body _ rest => (Some (map zt es), ztr_l body) :: ztr_c rest
    end.

  (** ** Reading expressions *)
  Definition estart (t : tok) : bool :=
    match t with
    | TName _ | TInt _ | TStr _ | TTrue | TFalse | TNil | TLp | TEquality | TBin _ | TBang => true
    | _ => false
    end.
  Lemma show_start : forall e, exists t r, show zig_op e = t :: r /\ estart t = true.
  Proof.
    induction e as [n | z | b | s | | e IH | u e IH | o a IHa b IHb | x IHx i IHi
                   | m x IHx i IHi | x IHx | a IHa b IHb]; cbn [show];
      try (eexists; eexists; split; [reflexivity | reflexivity]).
    - destruct b; eexists; eexists; split; reflexivity.
    - exists (zig_un u), (show zig_op e). split; [reflexivity | destruct u; reflexivity].
    - destruct IHa as (t & r & -> & H). eexists; eexists; split; [reflexivity | exact H].
    - destruct IHx as (t & r & -> & H). eexists; eexists; split; [reflexivity | exact H].
    - destruct IHx as (t & r & -> & H). eexists; eexists; split; [reflexivity | exact H].
    - destruct IHx as (t & r & -> & H). eexists; eexists; split; [reflexivity | exact H].
  Qed.

  Definition closing (t : tok) : bool :=
    match t with TRp | TComma | TSemi | TArrow => true | _ => false end.

  Lemma rd_show : forall e t k, fits zig zig_op 0 e -> closing t = true ->
    rd (show zig_op e ++ t :: k) = Some (e, t :: k).
  Proof.
    intros e t k F C. unfold rd. apply ev_fuel. apply parse_show; [exact zig_ok | exact F |].
    destruct t; try discriminate; split; reflexivity.
  Qed.

  Lemma rd_fine : forall e, fe e -> exists te t0 r0,
    z_print ty e = Some te /\ te = t0 :: r0 /\ estart t0 = true /\
    forall t k, closing t = true -> rd (te ++ t :: k) = Some (zt e, t :: k).
  Proof.
    intros e [P [src R]]. destruct (plain_prints ty e P) as [te T].
    destruct (show_start (zt e)) as (t0 & r0 & S0 & E0).
    pose proof (z_print_show _ _ _ T) as E.
    exists te, t0, r0. split; [exact T |]. split; [congruence |]. split; [exact E0 |].
    intros t k C. rewrite E. apply rd_show; [| exact C].
    apply ztree_fits; [exact P | exact (go_read_fits _ _ R) |].
    destruct e; try exact I; unfold UN; lia.
  Qed.

  Lemma rd_fine_list : forall es, es <> [] -> Forall fe es -> exists ts t0 r0,
    print_all ty es = Some ts /\ sep_by TComma ts = t0 :: r0 /\ estart t0 = true /\
    forall t k f, closing t = true -> t <> TComma -> (length es <= f)%nat ->
      rd_list f (sep_by TComma ts ++ t :: k) = Some (map zt es, t :: k).
  Proof.
    induction es as [|e es IH]; intros N F; [contradiction |].
    inversion F as [|? ? Fe Fes]; subst.
    destruct (rd_fine e Fe) as (te & t0 & r0 & T & TE & E0 & R).
    destruct es as [|e' es].
    - exists [te], t0, r0. cbn [print_all]. rewrite T.
      split; [reflexivity |]. split; [exact TE |]. split; [exact E0 |].
      intros t k f C NC L. destruct f as [|f]; [cbn in L; lia |].
      cbn [sep_by rd_list]. rewrite R by exact C.
      destruct t; try discriminate; try reflexivity. contradiction.
    - destruct IH as (ts & t1 & r1 & T1 & S1 & E1 & R1); [discriminate | exact Fes |].
      exists (te :: ts), t0, (r0 ++ TComma :: sep_by TComma ts).
      assert (NE : ts <> []) by (intros ->; discriminate).
      assert (SB : sep_by TComma (te :: ts) = te ++ TComma :: sep_by TComma ts)
        by (destruct ts; [contradiction | reflexivity]).
      cbn [print_all] in *. rewrite T. rewrite T1.
      split; [reflexivity |]. split; [rewrite SB, TE; reflexivity |]. split; [exact E0 |].
      intros t k f C NC L. destruct f as [|f]; [cbn in L; lia |].
      rewrite SB, <- app_assoc. cbn [app rd_list]. rewrite R by reflexivity.
      rewrite R1; [reflexivity | exact C | exact NC | cbn in *; lia].
  Qed.

  Lemma sep_len : forall es ts, print_all ty es = Some ts -> Forall fe es ->
    (length es <= length (sep_by TComma ts))%nat.
  Proof.
    induction es as [|e es IH]; intros ts H F; [cbn; lia |].
    inversion F as [|? ? Fe Fes]; subst. cbn [print_all] in H.
    destruct (rd_fine e Fe) as (te & t0 & r0 & T & TE & _). rewrite T in H.
    destruct (print_all ty es) as [ts'|] eqn:E; [| discriminate]. injection H as <-.
    specialize (IH _ eq_refl Fes). rewrite TE.
    destruct ts' as [|t' ts'].
    - cbn [sep_by length] in *. lia.
    - cbn [sep_by] in *. rewrite app_length. cbn [length] in *. lia.
  Qed.

  (** ** Reading statements *)
  Definition noelse (k : list tok) : Prop := match k with TElse :: _ => False | _ => True end.
  (** a statement does not begin with a closing brace or an else *)
  Definition sstart (ts : list tok) : Prop :=
    match ts with [] => False | TRc :: _ => False | TElse :: _ => False | _ => True end.
  Lemma sstart_noelse : forall ts k, sstart ts -> noelse (ts ++ k).
  Proof. intros [|t ts] k H; [contradiction |]. destruct t; try exact I; contradiction. Qed.

  Definition one (ts : list tok) (z : zstmt) : Prop :=
    sstart ts /\ forall k, noelse k -> ev (fun f => z_stmt_p f (ts ++ k)) (Some (z, k)).
  Definition many (ts : list tok) (zs : list zstmt) : Prop :=
    noelse ts /\ forall k l r, noelse k -> ev (fun f => z_list_p f k) (Some (l, r)) ->
      ev (fun f => z_list_p f (ts ++ k)) (Some (zs ++ l, r)).

  Lemma many_nil : many [] [].
  Proof. split; [exact I |]. intros k l r _ H. exact H. Qed.
  Lemma many_cons : forall ts z ts' zs, one ts z -> many ts' zs -> many (ts ++ ts') (z :: zs).
  Proof.
    intros ts z ts' zs [S0 O1] [N M]. split.
    - apply sstart_noelse, S0.
    - intros k l r K H. rewrite <- app_assoc.
      destruct (M k l r K H) as [n Hn].
      assert (NE : noelse (ts' ++ k)) by (destruct ts' as [|[] ts']; try exact I; [exact K | exact N]).
      destruct (O1 _ NE) as [m Hm]. exists (S (n + m)). intros f Hf. destruct f as [|f]; [lia |].
      assert (AE : at_end (ts ++ ts' ++ k) = false).
      { destruct ts as [|t ts]; [contradiction |]. destruct t; try reflexivity; contradiction. }
      cbn [z_list_p]. rewrite AE, Hm by lia. rewrite Hn by lia. reflexivity.
  Qed.
  Lemma many_one : forall ts z, one ts z -> many ts [z].
  Proof. intros ts z H. rewrite <- (app_nil_r ts). apply many_cons; [exact H | exact many_nil]. Qed.
  Lemma many_app : forall ts zs ts' zs', many ts zs -> many ts' zs' -> many (ts ++ ts') (zs ++ zs').
  Proof.
    intros ts zs ts' zs' [N1 M1] [N2 M2]. split.
    - destruct ts as [|[] ts]; try exact I; [exact N2 | exact N1].
    - intros k l r K H. rewrite <- !app_assoc. apply M1; [| apply M2; assumption].
      destruct ts' as [|[] ts']; try exact I; [exact K | exact N2].
  Qed.
  (** the statements of a block *)
  Lemma many_block : forall ts zs k, many ts zs -> ev (fun f => z_block_p f (ts ++ TRc :: k)) (Some (zs, k)).
  Proof.
    intros ts zs k [_ M].
    assert (H : ev (fun f => z_list_p f (ts ++ TRc :: k)) (Some (zs, TRc :: k))).
    { rewrite <- (app_nil_r zs). apply M; [exact I |].
      exists 1%nat. intros f Hf. destruct f as [|f]; [lia |]. reflexivity. }
    destruct H as [n Hn]. exists (S n). intros f Hf. destruct f as [|f]; [lia |].
    cbn [z_block_p]. rewrite Hn by lia. reflexivity.
  Qed.

  Lemma opt_app_some : forall a b, Some a +++ Some b = Some (a ++ b).
  Proof. reflexivity. Qed.

  (** simple statements *)
  Lemma simple_assign : forall x o e t te, z_print ty e = Some te ->
    (forall t k, closing t = true -> rd (te ++ t :: k) = Some (zt e, t :: k)) ->
    (o = None /\ t = TAsg \/ exists o', o = Some o' /\ t = TOpAsg o' /\ zig_opasg o' = true) ->
    forall c k, closing c = true -> rd_assign (TName x :: t :: te ++ c :: k) = Some (x, o, zt e, c :: k).
  Proof.
    intros x o e t te T R H c k C.
    destruct H as [[-> ->] | (o' & -> & -> & Z)]; cbn [rd_assign].
    - rewrite R by exact C. reflexivity.
    - rewrite Z, R by exact C. reflexivity.
  Qed.

  Lemma one_assign : forall x o e t te, z_print ty e = Some te ->
    (forall t k, closing t = true -> rd (te ++ t :: k) = Some (zt e, t :: k)) ->
    (o = None /\ t = TAsg \/ exists o', o = Some o' /\ t = TOpAsg o' /\ zig_opasg o' = true) ->
    one (TName x :: t :: te ++ [TSemi]) (ZSet x o (zt e)).
  Proof.
    intros x o e t te T R H. split; [exact I |]. intros k _. exists 1%nat. intros f Hf.
    destruct f as [|f]; [lia |].
    pose proof (simple_assign x o e t te T R H TSemi k eq_refl) as A.
    cbn [app]. rewrite <- app_assoc. cbn [app].
    cbn [z_stmt_p s_head]. rewrite A. reflexivity.
  Qed.

  Lemma ev_const : forall R (F : nat -> R) r, (forall f, F (S f) = r) -> ev F r.
  Proof. intros R F r H. exists 1%nat. intros f Hf. destruct f as [|f]; [lia | apply H]. Qed.

  Lemma lit_print : forall z, z_print ty (EInt z) = Some [TInt z] /\
    forall t k, closing t = true -> rd ([TInt z] ++ t :: k) = Some (zt (EInt z), t :: k).
  Proof.
    intros z. split; [reflexivity |]. intros t k C.
    apply (rd_show (EInt z) t k); [exact I | exact C].
  Qed.

  (** init statements *)
  Lemma init_parse : forall s, fine_init (GCons s GNil) ->
    exists ts, pr_stmt ty s = Some ts /\ many ts (ztr s).
  Proof.
    intros s H. destruct s as [es | xs o es | xs es | x | x | | | | | | | |]; try contradiction.
    - destruct xs as [|x [|]]; try (destruct o; contradiction).
      destruct es as [|e [|]]; try (destruct o; contradiction).
      destruct o as [o|]; cbn [fine_init] in H.
      + destruct H as [Z H]. destruct (rd_fine e H) as (te & t0 & r0 & T & TE & E0 & R).
        cbn [pr_stmt print_assigns]. rewrite T. cbn [opt_app]. rewrite app_nil_r.
        eexists. split; [reflexivity |]. cbn [ztr]. apply many_one.
        apply one_assign; [exact T | exact R |]. right. eexists; split; [reflexivity | split; [reflexivity | exact Z]].
      + destruct (rd_fine e H) as (te & t0 & r0 & T & TE & E0 & R).
        cbn [pr_stmt print_assigns]. rewrite T. cbn [opt_app]. rewrite app_nil_r.
        eexists. split; [reflexivity |]. cbn [ztr]. apply many_one.
        apply one_assign; [exact T | exact R |]. left. split; reflexivity.
    - destruct xs as [|[x t] [|]]; try contradiction.
      destruct es as [|e [|]]; try contradiction. cbn [fine_init] in H.
      destruct (rd_fine e H) as (te & t0 & r0 & T & TE & E0 & R).
      cbn [pr_stmt print_defines]. rewrite T. cbn [opt_app]. rewrite app_nil_r.
      eexists. split; [reflexivity |]. cbn [ztr].
      replace ((([TVarKw; TName x; TColon; ty_tok t; TAsg] ++ te ++ [TSemi; TName x; TAsg; TName x]) ++ [TSemi]))
        with (([TVarKw; TName x; TColon; ty_tok t; TAsg] ++ te ++ [TSemi]) ++ (TName x :: TAsg :: [TName x] ++ [TSemi]))
        by (cbn [app]; repeat (rewrite <- app_assoc; cbn [app]); reflexivity).
      apply many_cons.
      + split; [exact I |]. intros k _. apply ev_const. intros f. cbn [app z_stmt_p s_head].
        assert (TT : forall r, rd_type (ty_tok t :: r) = Some (t, r)) by (destruct t; reflexivity).
        rewrite TT. rewrite <- app_assoc. cbn [app]. ex. rewrite R by reflexivity. reflexivity.
      + apply many_one. apply (one_assign x None (EVar x) TAsg [TName x]); [reflexivity | | left; split; reflexivity].
        intros t' k C. apply (rd_show (EVar x) t' k); [exact I | exact C].
    - cbn [pr_stmt]. eexists. split; [reflexivity |]. cbn [ztr]. apply many_one.
      destruct (lit_print 1) as [T R].
      apply (one_assign x (Some OAdd) (EInt 1) (TOpAsg OAdd) [TInt 1]); [exact T | exact R |].
      right. exists OAdd. split; [reflexivity | split; reflexivity].
    - cbn [pr_stmt]. eexists. split; [reflexivity |]. cbn [ztr]. apply many_one.
      destruct (lit_print 1) as [T R].
      apply (one_assign x (Some OSub) (EInt 1) (TOpAsg OSub) [TInt 1]); [exact T | exact R |].
      right. exists OSub. split; [reflexivity | split; reflexivity].
  Qed.

  (** post statements *)
  Lemma post_parse : forall s, fine_post (GCons s GNil) ->
    exists ts p, pr_raw ty s = Some ts /\ zpost (GCons s GNil) = Some p /\
      forall c k, closing c = true -> rd_assign (ts ++ c :: k) = Some (fst (fst p), snd (fst p), snd p, c :: k).
  Proof.
    intros s H. destruct s as [es | xs o es | xs es | x | x | | | | | | | |]; try contradiction.
    - destruct xs as [|x [|]]; try (destruct o; contradiction).
      destruct es as [|e [|]]; try (destruct o; contradiction).
      destruct o as [o|]; cbn [fine_post fine_init] in H.
      + destruct H as [Z H]. destruct (rd_fine e H) as (te & t0 & r0 & T & TE & E0 & R).
        cbn [pr_raw print_assigns]. rewrite T. rewrite app_nil_r.
        eexists; eexists. split; [reflexivity |]. split; [reflexivity |]. intros c k C. cbn [app fst snd].
        apply simple_assign with (te := te); [exact T | exact R | | exact C].
        right. eexists; split; [reflexivity | split; [reflexivity | exact Z]].
      + destruct (rd_fine e H) as (te & t0 & r0 & T & TE & E0 & R).
        cbn [pr_raw print_assigns]. rewrite T. rewrite app_nil_r.
        eexists; eexists. split; [reflexivity |]. split; [reflexivity |]. intros c k C. cbn [app fst snd].
        apply simple_assign with (te := te); [exact T | exact R | | exact C]. left. split; reflexivity.
    - destruct (lit_print 1) as [T R]. cbn [pr_raw]. eexists; eexists. split; [reflexivity |].
      split; [reflexivity |]. intros c k C. cbn [fst snd].
      apply (simple_assign x (Some OAdd) (EInt 1) (TOpAsg OAdd) [TInt 1] T R); [| exact C].
      right. exists OAdd. split; [reflexivity | split; reflexivity].
    - destruct (lit_print 1) as [T R]. cbn [pr_raw]. eexists; eexists. split; [reflexivity |].
      split; [reflexivity |]. intros c k C. cbn [fst snd].
      apply (simple_assign x (Some OSub) (EInt 1) (TOpAsg OSub) [TInt 1] T R); [| exact C].
      right. exists OSub. split; [reflexivity | split; reflexivity].
  Qed.

  Lemma while_parse : forall lab c te post body tb,
    (forall t k, closing t = true -> rd (te ++ t :: k) = Some (c, t :: k)) ->
    fine_post post -> many tb body ->
    exists tp, match post with GNil => Some [] | GCons s _ => Some [TColon; TLp] +++ pr_raw ty s +++ Some [TRp] end = Some tp /\
    forall k, ev (fun f => z_while_p f lab (TLp :: te ++ TRp :: tp ++ TLc :: tb ++ TRc :: k))
                 (Some (ZWhile lab c (zpost post) body, k)).
  Proof.
    intros lab c te post body tb R FP M.
    destruct post as [|s [|]].
    - exists []. split; [reflexivity |]. intros k. destruct (many_block tb body k M) as [n Hn].
      exists (S n). intros f Hf. destruct f as [|f]; [lia |]. cbn [z_while_p app].
      rewrite R by reflexivity; ex. rewrite Hn by lia. reflexivity.
    - destruct (post_parse s FP) as (ts & [[px po] pe'] & T & ZP & A). rewrite T.
      exists ([TColon; TLp] ++ ts ++ [TRp]). split; [reflexivity |].
      intros k. destruct (many_block tb body k M) as [n Hn].
      exists (S n). intros f Hf. destruct f as [|f]; [lia |]. cbn [z_while_p app].
      rewrite R by reflexivity; ex. rewrite <- app_assoc. cbn [app]. rewrite A by reflexivity; ex.
      cbn [fst snd]. rewrite Hn by lia. rewrite ZP. reflexivity.
    - exfalso. cbn [fine_post] in FP. destruct s; try contradiction; cbn [fine_init] in FP;
        repeat match type of FP with
               | match ?x with _ => _ end => destruct x; try contradiction
               end.
  Qed.

  (** ** Every statement of the fragment *)
  Definition P_s (s : gstmt) : Prop := fine s ->
    exists ts, pr_stmt ty s = Some ts /\ many ts (ztr s) /\
      match s with GBlock _ | GIf _ _ _ _ => exists z, ztr s = [z] /\ one ts z | _ => True end.
  Definition P_l (l : gstmts) : Prop :=
    (fine_l l -> exists ts, pr_list ty l = Some ts /\ many ts (ztr_l l)) /\
    match l with GCons s _ => P_s s | GNil => True end.
  Definition P_c (cls : gclauses) : Prop := fine_c cls -> exists ts, pr_clauses ty cls = Some ts /\
    forall k, ev (fun f => z_prongs_p f (ts ++ TRc :: k)) (Some (ztr_c cls, TRc :: k)).

  Lemma ev_step : forall A B (F : nat -> A) (G : nat -> B) a b, ev F a ->
    (forall f, F f = a -> G (S f) = b) -> ev G b.
  Proof.
    intros A B F G a b [n Hn] H. exists (S n). intros f Hf. destruct f as [|f]; [lia |].
    apply H, Hn. lia.
  Qed.

  Lemma fine_init_one : forall s l, fine_init (GCons s l) -> l = GNil.
  Proof.
    intros s l H. destruct l; [reflexivity | exfalso].
    destruct s; try contradiction; cbn [fine_init] in H;
      repeat match type of H with
             | match ?x with _ => _ end => destruct x; try contradiction
             end.
  Qed.

  Lemma print_parse : forall es, Forall fe es -> exists ts,
    print_all ty es = Some ts /\ one ((TPrintln :: TLp :: sep_by TComma ts ++ [TRp]) ++ [TSemi]) (ZPrint (map zt es)).
  Proof.
    intros es F. destruct es as [|e es].
    - exists []. split; [reflexivity |]. split; [exact I |]. intros k _. apply ev_const. reflexivity.
    - destruct (rd_fine_list (e :: es)) as (ts & t0 & r0 & T & SB & E0 & R); [discriminate | exact F |].
      exists ts. split; [exact T |]. split; [exact I |]. intros k _. apply ev_const. intros f.
      pose proof (sep_len (e :: es) ts T F) as L.
      assert (A : rd_list (length (sep_by TComma ts ++ TRp :: TSemi :: k)) (sep_by TComma ts ++ TRp :: TSemi :: k)
                  = Some (map zt (e :: es), TRp :: TSemi :: k)).
      { apply R; [reflexivity | discriminate | rewrite app_length; lia]. }
      replace (((TPrintln :: TLp :: sep_by TComma ts ++ [TRp]) ++ [TSemi]) ++ k)
        with (TPrintln :: TLp :: sep_by TComma ts ++ TRp :: TSemi :: k)
        by (cbn [app]; repeat (rewrite <- app_assoc; cbn [app]); reflexivity).
      rewrite SB in *. cbn [app] in *. cbn [z_stmt_p s_head].
      destruct t0; try discriminate; rewrite A; reflexivity.
  Qed.

  Lemma return_parse : forall es, match es with [] => True | [e] => fe e | _ => False end ->
    exists ts, print_all ty es = Some ts /\
      one ((TReturn :: concat ts) ++ [TSemi]) (ZRet (match es with [] => None | e :: _ => Some (zt e) end)).
  Proof.
    intros [|e [|e' es]] H; [| | contradiction].
    - exists []. split; [reflexivity |]. split; [exact I |]. intros k _. apply ev_const. reflexivity.
    - destruct (rd_fine e H) as (te & t0 & r0 & T & TE & E0 & R).
      exists [te]. cbn [print_all]. rewrite T. split; [reflexivity |]. split; [exact I |].
      intros k _. apply ev_const. intros f. cbn [concat]. rewrite app_nil_r.
      replace ((((TReturn :: te) ++ [TSemi]) ++ k)) with (TReturn :: te ++ TSemi :: k)
        by (cbn [app]; repeat (rewrite <- app_assoc; cbn [app]); reflexivity).
      pose proof (R TSemi k eq_refl) as A. rewrite TE in *. cbn [app] in *. cbn [z_stmt_p s_head].
      destruct t0; try discriminate; rewrite A; reflexivity.
  Qed.

  Lemma block_parse : forall ts zs, many ts zs -> one (TLc :: ts ++ [TRc]) (ZBlock None zs).
  Proof.
    intros ts zs M. split; [exact I |]. intros k _.
    refine (ev_step _ _ _ _ _ _ (many_block ts zs k M) _). intros f H.
    cbn [app z_stmt_p s_head]. rewrite <- app_assoc. cbn [app]. rewrite H. reflexivity.
  Qed.

  Lemma for_parse : forall lab init c post body tb,
    fine_init init -> match c with Some c => fe c | None => True end -> fine_post post ->
    pr_list ty body = Some tb -> many tb (ztr_l body) ->
    exists ts, pr_stmt ty (GFor lab init c post body) = Some ts /\
      many ts (ztr (GFor lab init c post body)).
  Proof.
    intros lab init c post body tb FI FC FP TB M.
    assert (HC : exists te, match c with Some c => z_print ty c | None => Some [TTrue] end = Some te /\
      forall t k, closing t = true -> rd (te ++ t :: k) =
        Some (match c with Some c => zt c | None => EBool true end, t :: k)).
    { destruct c as [c|].
      - destruct (rd_fine c FC) as (te & t0 & r0 & T & TE & E0 & R). exists te. split; assumption.
      - exists [TTrue]. split; [reflexivity |]. intros t k C.
        apply (rd_show (EBool true) t k); [exact I | exact C]. }
    destruct HC as (te & T & R).
    destruct (while_parse lab _ te post (ztr_l body) tb R FP M) as (tp & TP & W).
    set (ce := match c with Some c => zt c | None => EBool true end) in *.
    set (tl := match lab with Some l => [TLabel l; TColon] | None => [] end).
    assert (ONE : one (tl ++ TWhile :: TLp :: te ++ TRp :: tp ++ TLc :: tb ++ [TRc])
                      (ZWhile lab ce (zpost post) (ztr_l body))).
    { split; [destruct lab; exact I |]. intros k _.
      refine (ev_step _ _ _ _ _ _ (W k) _). intros f H.
      replace ((tl ++ TWhile :: TLp :: te ++ TRp :: tp ++ TLc :: tb ++ [TRc]) ++ k)
        with (tl ++ TWhile :: TLp :: te ++ TRp :: tp ++ TLc :: tb ++ TRc :: k)
        by (cbn [app]; repeat (rewrite <- app_assoc; cbn [app]); reflexivity).
      destruct lab as [l|]; unfold tl; cbn [app z_stmt_p s_head]; exact H. }
    destruct init as [|s l].
    - eexists. split.
      + rewrite pr_for, T, TP, TB. reflexivity.
      + cbn [ztr]. apply many_one. fold tl.
        replace ([] ++ tl ++ [TWhile; TLp] ++ te ++ [TRp] ++ tp ++ [TLc] ++ tb ++ [TRc] ++ [])
          with (tl ++ TWhile :: TLp :: te ++ TRp :: tp ++ TLc :: tb ++ [TRc]) by reflexivity.
        exact ONE.
    - pose proof (fine_init_one _ _ FI) as ->.
      destruct (init_parse s FI) as (ti & TI & MI).
      eexists. split.
      + rewrite pr_for, T, TP, TB, TI. reflexivity.
      + cbn [ztr]. apply many_one.
        match goal with |- one ?x _ =>
          replace x with (TLc :: (ti ++ (tl ++ TWhile :: TLp :: te ++ TRp :: tp ++ TLc :: tb ++ [TRc])) ++ [TRc]) end.
        2:{ unfold tl. cbn [app]; repeat (rewrite <- app_assoc; cbn [app]); reflexivity. }
        apply block_parse. apply many_app; [exact MI |]. apply many_one, ONE.
  Qed.

  Lemma range_parse : forall lab key k x body tb, fe x ->
    pr_list ty body = Some tb -> many tb (ztr_l body) ->
    exists ts, pr_stmt ty (GRange lab key k x body) = Some ts /\
      one ts (ZFor k (zt x) key lab (ztr_l body)).
  Proof.
    intros lab key k x body tb FX TB M.
    destruct (rd_fine x FX) as (te & t0 & r0 & T & TE & E0 & R).
    eexists. split; [rewrite pr_range, T, TB; reflexivity |].
    split; [exact I |]. intros kk _.
    refine (ev_step _ _ _ _ _ _ (many_block tb (ztr_l body) kk M) _). intros f H.
    set (tk := match key with Some y => TName y | None => TUnder end).
    set (tl := match lab with Some l => [TLabel l; TColon] | None => [] end).
    match goal with |- z_stmt_p _ ?y = _ =>
      replace y with (TFor :: TLp :: TInt 0 :: TDots :: TAs :: TLp :: TTy k :: TComma :: te ++
        TRp :: TRp :: TPipe :: tk :: TPipe :: tl ++ TLc :: tb ++ TRc :: kk) end.
    2:{ unfold tl. cbn [app]; repeat (rewrite <- app_assoc; cbn [app]); reflexivity. }
    cbn [z_stmt_p s_head]. rewrite R by reflexivity; ex.
    unfold tk, tl. destruct lab as [l|]; cbn [app rd_block_label]; destruct key; ex; cbn [rd_block_label]; ex; rewrite H; reflexivity.
  Qed.

  Lemma if_parse : forall c body tb els, fe c ->
    pr_list ty body = Some tb -> many tb (ztr_l body) ->
    (els = GNil \/ exists s te z, els = GCons s GNil /\ pr_stmt ty s = Some te /\ ztr s = [z] /\ one te z) ->
    exists ts z, pr_stmt ty (GIf GNil c body els) = Some ts /\ ztr (GIf GNil c body els) = [z] /\ one ts z.
  Proof.
    intros c body tb els FC TB M HE.
    destruct (rd_fine c FC) as (te & t0 & r0 & T & TE & E0 & R).
    destruct HE as [-> | (s & ts' & z & -> & TS & ZS & ONE)].
    - eexists; eexists. split; [rewrite pr_if, T, TB; reflexivity |].
      split; [reflexivity |]. split; [exact I |]. intros k K.
      refine (ev_step _ _ _ _ _ _ (many_block tb (ztr_l body) k M) _). intros f H.
      match goal with |- z_stmt_p _ ?y = _ =>
        replace y with (TIf :: TLp :: te ++ TRp :: TLc :: tb ++ TRc :: k) end.
      2:{ cbn [app]; repeat (rewrite <- app_assoc; cbn [app]); reflexivity. }
      cbn [z_stmt_p s_head]. rewrite R by reflexivity; ex. rewrite H.
      destruct k as [|t k]; [reflexivity |]. destruct t; try reflexivity. contradiction.
    - eexists; eexists. split; [rewrite pr_if, T, TB, TS; reflexivity |].
      split; [cbn [ztr]; rewrite ZS; reflexivity |]. split; [exact I |]. intros k K.
      destruct ONE as [_ ONE]. destruct (ONE k K) as [m Hm].
      destruct (many_block tb (ztr_l body) (TElse :: ts' ++ k) M) as [n Hn].
      exists (S (n + m)). intros f Hf. destruct f as [|f]; [lia |].
      match goal with |- z_stmt_p _ ?y = _ =>
        replace y with (TIf :: TLp :: te ++ TRp :: TLc :: tb ++ TRc :: TElse :: ts' ++ k) end.
      2:{ cbn [app]; repeat (rewrite <- app_assoc; cbn [app]); reflexivity. }
      cbn [z_stmt_p s_head]. rewrite R by reflexivity; ex. rewrite Hn by lia; ex. rewrite Hm by lia; ex. reflexivity.
  Qed.

  Lemma switch_parse : forall init e cls tc, fine_init init -> fe e ->
    pr_clauses ty cls = Some tc ->
    (forall k, ev (fun f => z_prongs_p f (tc ++ TRc :: k)) (Some (ztr_c cls, TRc :: k))) ->
    exists ts, pr_stmt ty (GSwitch init (Some e) cls) = Some ts /\ many ts (ztr (GSwitch init (Some e) cls)).
  Proof.
    intros init e cls tc FI FX TC W.
    destruct (rd_fine e FX) as (te & t0 & r0 & T & TE & E0 & R).
    assert (HI : exists ti, match init with GNil => Some [] | GCons s _ => pr_stmt ty s end = Some ti /\
      many ti (match init with GNil => [] | GCons s _ => ztr s end)).
    { destruct init as [|s l]; [exists []; split; [reflexivity | exact many_nil] |].
      pose proof (fine_init_one _ _ FI) as ->. exact (init_parse s FI). }
    destruct HI as (ti & TI & MI).
    eexists. split; [rewrite pr_switch, T, TC, TI; reflexivity |].
    cbn [ztr]. apply many_one.
    match goal with |- one ?x _ =>
      replace x with (TLc :: (ti ++ (TSwitch :: TLp :: te ++ TRp :: TLc :: tc ++ [TRc])) ++ [TRc]) end.
    2:{ cbn [app]; repeat (rewrite <- app_assoc; cbn [app]); reflexivity. }
    apply block_parse. apply many_app; [exact MI |]. apply many_one.
    split; [exact I |]. intros k _.
    refine (ev_step _ _ _ _ _ _ (W k) _). intros f H.
    match goal with |- z_stmt_p _ ?y = _ =>
      replace y with (TSwitch :: TLp :: te ++ TRp :: TLc :: tc ++ TRc :: k) end.
    2:{ cbn [app]; repeat (rewrite <- app_assoc; cbn [app]); reflexivity. }
    cbn [z_stmt_p s_head]. rewrite R by reflexivity; ex. rewrite H. reflexivity.
  Qed.

  Lemma clause_parse : forall es body tb falls rest tr, Forall fe es ->
    pr_list ty body = Some tb -> many tb (ztr_l body) ->
    pr_clauses ty rest = Some tr ->
    (forall k, ev (fun f => z_prongs_p f (tr ++ TRc :: k)) (Some (ztr_c rest, TRc :: k))) ->
    exists ts, pr_clauses ty (CCons es body falls rest) = Some ts /\
      forall k, ev (fun f => z_prongs_p f (ts ++ TRc :: k)) (Some (ztr_c (CCons es body falls rest), TRc :: k)).
  Proof.
    intros es body tb falls rest tr FE TB M TR W. destruct es as [|e es].
    - eexists. split; [rewrite pr_else, TB, TR; reflexivity |].
      intros k. destruct (W k) as [n Hn].
      destruct (many_block tb (ztr_l body) (TComma :: tr ++ TRc :: k) M) as [m Hm].
      exists (S (n + m)). intros f Hf. destruct f as [|f]; [lia |].
      match goal with |- z_prongs_p _ ?y = _ =>
        replace y with (TElse :: TArrow :: TLc :: tb ++ TRc :: TComma :: tr ++ TRc :: k) end.
      2:{ cbn [app]; repeat (rewrite <- app_assoc; cbn [app]); reflexivity. }
      cbn [z_prongs_p p_head]. rewrite Hm by lia; ex. rewrite Hn by lia. reflexivity.
    - destruct (rd_fine_list (e :: es)) as (ts & t0 & r0 & T & SB & E0 & R); [discriminate | exact FE |].
      pose proof (sep_len (e :: es) ts T FE) as L.
      eexists. split; [rewrite pr_case, T, TB, TR; reflexivity |].
      intros k. destruct (W k) as [n Hn].
      destruct (many_block tb (ztr_l body) (TComma :: tr ++ TRc :: k) M) as [m Hm].
      exists (S (n + m)). intros f Hf. destruct f as [|f]; [lia |].
      match goal with |- z_prongs_p _ ?y = _ =>
        replace y with (sep_by TComma ts ++ TArrow :: TLc :: tb ++ TRc :: TComma :: tr ++ TRc :: k) end.
      2:{ cbn [app]; repeat (rewrite <- app_assoc; cbn [app]); reflexivity. }
      set (tail := TLc :: tb ++ TRc :: TComma :: tr ++ TRc :: k).
      assert (A : rd_list (length (sep_by TComma ts ++ TArrow :: tail)) (sep_by TComma ts ++ TArrow :: tail)
                  = Some (map zt (e :: es), TArrow :: tail)).
      { apply R; [reflexivity | discriminate | rewrite app_length; lia]. }
      rewrite SB in *. cbn [app] in *. cbn [z_prongs_p p_head].
      destruct t0; try discriminate; rewrite A; unfold tail; ex; rewrite Hm by lia; ex; rewrite Hn by lia; reflexivity.
  Qed.
End Fine.

Scheme gstmt_mind := Induction for gstmt Sort Prop
  with gstmts_mind := Induction for gstmts Sort Prop
  with gclauses_mind := Induction for gclauses Sort Prop.
Combined Scheme g_mutind from gstmt_mind, gstmts_mind, gclauses_mind.

Lemma all_parse : forall ty, (forall s, P_s ty s) /\ (forall l, P_l ty l) /\ (forall c, P_c ty c).
Proof.
  intros ty. apply g_mutind.
  - intros es F. cbn [fine] in F. destruct (print_parse ty es F) as (ts & T & ONE).
    eexists. cbn [pr_stmt]. rewrite T. split; [reflexivity |]. split; [| exact I].
    cbn [ztr]. apply many_one, ONE.
  - intros xs o es F.
    destruct (init_parse ty (GAssign xs o es)) as (ts & T & M).
    { destruct xs as [|x [|]], es as [|e [|]], o; try exact F; contradiction. }
    exists ts. split; [exact T |]. split; [exact M | exact I].
  - intros xs es F.
    destruct (init_parse ty (GDefine xs es)) as (ts & T & M).
    { destruct xs as [|[x t] [|]], es as [|e [|]]; try exact F; contradiction. }
    exists ts. split; [exact T |]. split; [exact M | exact I].
  - intros x _. destruct (init_parse ty (GInc x) I) as (ts & T & M).
    exists ts. split; [exact T |]. split; [exact M | exact I].
  - intros x _. destruct (init_parse ty (GDec x) I) as (ts & T & M).
    exists ts. split; [exact T |]. split; [exact M | exact I].
  - intros l [IH _] F. cbn [fine] in F. destruct (IH F) as (ts & T & M).
    exists (TLc :: ts ++ [TRc]). rewrite pr_block, T. split; [reflexivity |].
    pose proof (block_parse ts _ M) as ONE. cbn [ztr].
    split; [apply many_one, ONE |]. eexists. split; [reflexivity | exact ONE].
  - intros init _ c body [IHb _] els [IHe PE] F. cbn [fine] in F.
    destruct F as (-> & FC & FB & FE & SH). destruct (IHb FB) as (tb & TB & MB).
    destruct (if_parse ty c body tb els FC TB MB) as (ts & z & TS & ZS & ONE).
    { destruct els as [|s els]; [left; reflexivity |]. right.
      cbn [fine_l] in FE. destruct FE as [FS FN].
      destruct s; try contradiction; destruct els; try contradiction;
        destruct (PE FS) as (te & TE & _ & z & ZZ & OO); eexists; exists te, z;
        (split; [reflexivity |]); (split; [exact TE |]); (split; [exact ZZ | exact OO]). }
    exists ts. split; [exact TS |]. split; [rewrite ZS; apply many_one, ONE |].
    exists z. split; [exact ZS | exact ONE].
  - intros lab init _ c post _ body [IHb _] F. cbn [fine] in F. destruct F as (FI & FC & FP & FB).
    destruct (IHb FB) as (tb & TB & MB).
    destruct (for_parse ty lab init c post body tb FI FC FP TB MB) as (ts & T & M).
    exists ts. split; [exact T |]. split; [exact M | exact I].
  - intros lab key k x body [IHb _] F. cbn [fine] in F. destruct F as (FL & FK & FX & FB).
    destruct (IHb FB) as (tb & TB & MB).
    destruct (range_parse ty lab key k x body tb FX TB MB) as (ts & T & ONE).
    exists ts. split; [exact T |]. split; [cbn [ztr]; apply many_one, ONE | exact I].
  - intros init _ tag cls IHc F. cbn [fine] in F. destruct F as (FI & FX & FC & NB).
    destruct tag as [e|]; [| contradiction]. destruct (IHc FC) as (tc & TC & W).
    destruct (switch_parse ty init e cls tc FI FX TC W) as (ts & T & M).
    exists ts. split; [exact T |]. split; [exact M | exact I].
  - intros lab _. destruct lab as [l|]; eexists; (split; [reflexivity |]); (split; [| exact I]);
      cbn [ztr]; apply many_one; (split; [exact I |]); intros k _; apply ev_const; intros f; reflexivity.
  - intros lab _. destruct lab as [l|]; eexists; (split; [reflexivity |]); (split; [| exact I]);
      cbn [ztr]; apply many_one; (split; [exact I |]); intros k _; apply ev_const; intros f; reflexivity.
  - intros es F. cbn [fine] in F. destruct (return_parse ty es F) as (ts & T & ONE).
    eexists. cbn [pr_stmt]. rewrite T. split; [reflexivity |]. split; [| exact I].
    destruct es as [|e es]; cbn [ztr]; apply many_one, ONE.
  - split; [| exact I]. intros _. exists []. split; [reflexivity | apply many_nil].
  - intros s IHs l [IHl _]. split; [| exact IHs]. intros F. cbn [fine_l] in F. destruct F as [FS FL].
    destruct (IHs FS) as (ts & T & M & _). destruct (IHl FL) as (tl & TL & ML).
    exists (ts ++ tl). rewrite pr_cons, T, TL. split; [reflexivity |].
    apply many_app; assumption.
  - intros _. exists []. split; [reflexivity |]. intros k. apply ev_const. reflexivity.
  - intros es body [IHb _] falls rest IHr F. cbn [fine_c] in F. destruct F as (FE & FB & _ & FR).
    destruct (IHb FB) as (tb & TB & MB). destruct (IHr FR) as (tr & TR & W).
    exact (clause_parse ty es body tb falls rest tr FE TB MB TR W).
Qed.

Lemma list_parse : forall ty l, fine_l ty l -> exists ts, pr_list ty l = Some ts /\
  ev (fun f => z_list_p f ts) (Some (ztr_l ty l, [])).
Proof.
  intros ty l F. destruct (all_parse ty) as (_ & H & _). destruct (proj1 (H l) F) as (ts & T & _ & M).
  exists ts. split; [exact T |]. rewrite <- (app_nil_r ts), <- (app_nil_r (ztr_l ty l)).
  apply M; [exact I |]. apply ev_const. reflexivity.
Qed.
