(** * Reading back what the printer wrote: the expression grammars of Go and Zig.

    A tree [fits] a grammar if printing it without adding any parentheses and
    reading the text again gives the same tree.  Trees that come out of the Go
    parser fit the grammar of Go.  The printer of zgo adds no parentheses, so the
    question is which of them fit the grammar of Zig too. *)
From Coq Require Import ZArith List Bool Lia.
From Verif Require Import ZigModel.
Import ListNotations.
Open Scope Z_scope.

(** ** Printing a tree without adding parentheses *)
Fixpoint show (op : binop -> tok) (e : expr) : list tok :=
  match e with
  | EVar n => [TName n]
  | EInt z => [TInt z]
  | EBool b => [if b then TTrue else TFalse]
  | EStr s => [TStr s]
  | ENil => [TNil]
  | EParen e => TLp :: show op e ++ [TRp]
  | EUn u e => zig_un u :: show op e
  | EBin o a b => show op a ++ op o :: show op b
  | EIdx x i => show op x ++ TLb :: show op i ++ [TRb]
  | EMeth m x i => show op x ++ TMeth m :: TLp :: show op i ++ [TRp]
  | EAddress x => show op x ++ [TAddress]
  | EStrEq a b => TEquality :: TLp :: TGoString :: TComma :: show op a ++ TComma :: show op b ++ [TRp]
  end.

(** ** Fitting a grammar at binding strength [p] *)
Definition UN : nat := 100.   (* a prefix operator *)
Definition PR : nat := 101.   (* an operand with its suffixes *)

Fixpoint fits (L : lang) (op : binop -> tok) (p : nat) (e : expr) : Prop :=
  match e with
  | EVar _ | EInt _ | EBool _ | EStr _ | ENil => True
  | EParen e => fits L op 0 e
  | EUn u e => (p <= UN)%nat /\ l_un L (zig_un u) = Some u /\ fits L op UN e
  | EBin o a b =>
      let q := l_prec L o in
      (p <= q < UN)%nat /\ l_bin L (op o) = Some o /\
      fits L op (if l_non L q then S q else q) a /\ fits L op (S q) b
  | EIdx x i => fits L op PR x /\ fits L op 0 i
  | EMeth _ x i => fits L op PR x /\ fits L op 0 i
  | EAddress x => fits L op PR x
  | EStrEq a b => fits L op 0 a /\ fits L op 0 b
  end.

Lemma fits_weaken : forall L op e p q, (p <= q)%nat -> fits L op q e -> fits L op p e.
Proof.
  intros L op e p q H F. destruct e; cbn [fits] in *; auto.
  - destruct F as (A & B & C). split; [lia | split; assumption].
  - destruct F as (A & B & C & D). split; [lia | split; [assumption | split; assumption]].
Qed.

(** ** With enough fuel *)
Definition ev {R : Type} (F : nat -> R) (r : R) : Prop := exists n, forall f, (n <= f)%nat -> F f = r.

Definition is_post (t : tok) : bool :=
  match t with TLb | TMeth _ | TAddress => true | _ => false end.
Definition nopost (k : list tok) : Prop := match k with t :: _ => is_post t = false | [] => True end.
(** the operator in front of [k], if any, binds at most as tightly as [q] *)
Definition upto (L : lang) (q : nat) (k : list tok) : Prop :=
  match k with
  | t :: _ => match l_bin L t with Some o => (l_prec L o <= q)%nat | None => True end
  | [] => True
  end.
Definition tail_ok (L : lang) (e : expr) (k : list tok) : Prop :=
  nopost k /\ match e with EBin o _ _ => upto L (l_prec L o) k | _ => True end.

Fixpoint banof (L : lang) (e : expr) : option nat :=
  match e with
  | EBin o a _ => if l_non L (l_prec L o) then Some (l_prec L o) else banof L a
  | _ => None
  end.

(** ** What is asked of the two languages *)
Record lang_ok (L : lang) (op : binop -> tok) : Prop := {
  lo_operand : forall t o, l_bin L t = Some o -> is_post t = false;
  lo_start : forall t, match t with
                       | TName _ | TInt _ | TStr _ | TTrue | TFalse | TNil | TLp | TEquality => l_un L t = None
                       | _ => True end;
  lo_close : forall t, match t with
                       | TRp | TRb | TComma => l_bin L t = None
                       | _ => True end
}.

Section Parse.
  Variable L : lang.
  Variable op : binop -> tok.
  Hypothesis OK : lang_ok L op.

  Lemma banof_bound : forall e p b, fits L op p e -> banof L e = Some b ->
    (p <= b)%nat /\ (b = p -> l_non L p = true).
  Proof.
    induction e as [| | | | | | | o a IHa c IHc | | | | ]; intros p bb F B; cbn in B; try discriminate.
    cbn [fits] in F. destruct F as (R & _ & Fa & _).
    destruct (l_non L (l_prec L o)) eqn:N.
    - injection B as <-. split; [lia | intros E; rewrite <- E; exact N].
    - destruct (IHa _ _ Fa B) as [G H]. split; [lia |]. intros E0.
      assert (E : l_prec L o = p) by lia. rewrite E in H, N.
      rewrite (H E0) in N. discriminate.
  Qed.

  Lemma loop_stop : forall p ban x k, match k with
      | t :: _ => match l_bin L t with Some o => (l_prec L o < p)%nat | None => True end
      | [] => True end ->
    ev (fun f => p_loop L f p ban x k) (Some (x, k)).
  Proof.
    intros p ban x k H. exists 1%nat. intros f G. destruct f as [|f]; [lia |].
    cbn [p_loop]. destruct k as [|t k]; [reflexivity |].
    destruct (l_bin L t) as [o|]; [| reflexivity].
    destruct (Nat.leb_spec p (l_prec L o)); [lia | reflexivity].
  Qed.

  Lemma post_stop : forall x k, nopost k -> ev (fun f => p_post L f x k) (Some (x, k)).
  Proof.
    intros x k H. exists 1%nat. intros f G. destruct f as [|f]; [lia |].
    cbn [p_post]. destruct k as [|t k]; [reflexivity |]. cbn in H.
    destruct t; try reflexivity; discriminate.
  Qed.

  Definition P_prim (e : expr) : Prop := fits L op PR e ->
    forall k r, ev (fun f => p_post L f e k) r -> ev (fun f => p_unary L f (show op e ++ k)) r.
  Definition P_un (e : expr) : Prop := fits L op UN e ->
    forall k, nopost k -> ev (fun f => p_unary L f (show op e ++ k)) (Some (e, k)).
  Definition P_ex (e : expr) : Prop := forall p, fits L op p e ->
    forall k r, tail_ok L e k -> ev (fun f => p_loop L f p (banof L e) e k) r ->
    ev (fun f => p_expr L f p (show op e ++ k)) r.

  (** a leaf *)
  Lemma prim_leaf : forall e t,
    show op e = [t] -> l_un L t = None ->
    (forall f r, p_operand L (S f) (t :: r) = Some (e, r)) -> P_prim e.
  Proof.
    intros e t E U O _ k r [n H]. exists (S (S n)). intros f G.
    destruct f as [|f]; [lia |]. cbn [p_unary]. rewrite E. cbn [app]. rewrite U.
    destruct f as [|f]; [lia |]. rewrite O. apply H. lia.
  Qed.

  Lemma un_of_prim : forall e, (forall u x, e <> EUn u x) -> (forall o a b, e <> EBin o a b) ->
    P_prim e -> P_un e.
  Proof.
    intros e N1 N2 P F k H. apply P.
    - destruct e; cbn [fits] in *; auto; [edestruct N1; reflexivity | edestruct N2; reflexivity].
    - apply post_stop, H.
  Qed.

  Lemma ex_of_un : forall e, (forall o a b, e <> EBin o a b) -> P_un e -> P_ex e.
  Proof.
    intros e N U p F k r [T _] [n H].
    assert (B : banof L e = None) by (destruct e; try reflexivity; edestruct N; reflexivity).
    rewrite B in H.
    assert (FU : fits L op UN e).
    { destruct e; cbn [fits] in *; auto.
      - destruct F as (A & B' & C). split; [unfold UN; lia | split; assumption].
      - edestruct N; reflexivity. }
    destruct (U FU k T) as [m G]. exists (S (n + m)). intros f Hf.
    destruct f as [|f]; [lia |]. cbn [p_expr]. rewrite G by lia. apply H. lia.
  Qed.

  (** what an expression followed by a closing token reads as *)
  Lemma closed : forall e t k, P_ex e -> fits L op 0 e -> is_post t = false -> l_bin L t = None ->
    ev (fun f => p_expr L f 0 (show op e ++ t :: k)) (Some (e, t :: k)).
  Proof.
    intros e t k P F N B. apply P; [exact F | |].
    - split; [exact N |]. destruct e; auto. cbn. rewrite B. trivial.
    - apply loop_stop. rewrite B. trivial.
  Qed.

  Lemma all_parse : forall e, P_prim e /\ P_un e /\ P_ex e.
  Proof.
    induction e as [n | z | b | s | | e IH | u e IH | o a IHa b IHb | x IHx i IHi
                   | m x IHx i IHi | x IHx | a IHa b IHb];
      pose proof (lo_start L op OK) as ST; pose proof (lo_close L op OK) as CL.
    - assert (P : P_prim (EVar n)).
      { apply prim_leaf with (t := TName n); [reflexivity | exact (ST (TName n)) | reflexivity]. }
      assert (U : P_un (EVar n)) by (apply un_of_prim; [discriminate | discriminate | exact P]).
      split; [exact P | split; [exact U | apply ex_of_un; [discriminate | exact U]]].
    - assert (P : P_prim (EInt z)).
      { apply prim_leaf with (t := TInt z); [reflexivity | exact (ST (TInt z)) | reflexivity]. }
      assert (U : P_un (EInt z)) by (apply un_of_prim; [discriminate | discriminate | exact P]).
      split; [exact P | split; [exact U | apply ex_of_un; [discriminate | exact U]]].
    - assert (P : P_prim (EBool b)).
      { apply prim_leaf with (t := if b then TTrue else TFalse);
          destruct b; (reflexivity || exact (ST TTrue) || exact (ST TFalse)). }
      assert (U : P_un (EBool b)) by (apply un_of_prim; [discriminate | discriminate | exact P]).
      split; [exact P | split; [exact U | apply ex_of_un; [discriminate | exact U]]].
    - assert (P : P_prim (EStr s)).
      { apply prim_leaf with (t := TStr s); [reflexivity | exact (ST (TStr s)) | reflexivity]. }
      assert (U : P_un (EStr s)) by (apply un_of_prim; [discriminate | discriminate | exact P]).
      split; [exact P | split; [exact U | apply ex_of_un; [discriminate | exact U]]].
    - assert (P : P_prim ENil).
      { apply prim_leaf with (t := TNil); [reflexivity | exact (ST TNil) | reflexivity]. }
      assert (U : P_un ENil) by (apply un_of_prim; [discriminate | discriminate | exact P]).
      split; [exact P | split; [exact U | apply ex_of_un; [discriminate | exact U]]].
    - (* parentheses *)
      destruct IH as (_ & _ & IH).
      assert (P : P_prim (EParen e)).
      { intros F k r [n H]. cbn [fits] in F.
        destruct (closed e TRp k IH F eq_refl (CL TRp)) as [m G].
        exists (S (S (n + m))). intros f Hf. destruct f as [|f]; [lia |].
        cbn [p_unary show app]. rewrite (ST TLp).
        destruct f as [|f]; [lia |]. cbn [p_operand].
        rewrite <- app_assoc. cbn [app]. rewrite G by lia. apply H. lia. }
      assert (U : P_un (EParen e)) by (apply un_of_prim; [discriminate | discriminate | exact P]).
      split; [exact P | split; [exact U | apply ex_of_un; [discriminate | exact U]]].
    - (* a prefix operator *)
      destruct IH as (_ & IH & _).
      assert (P : P_prim (EUn u e)).
      { intros F. cbn [fits] in F. destruct F as (A & _). unfold PR, UN in A. lia. }
      assert (U : P_un (EUn u e)).
      { intros F k N. cbn [fits] in F. destruct F as (_ & B & F).
        destruct (IH F k N) as [m G]. exists (S m). intros f Hf. destruct f as [|f]; [lia |].
        cbn [p_unary show app]. rewrite B. rewrite G by lia. reflexivity. }
      split; [exact P | split; [exact U | apply ex_of_un; [discriminate | exact U]]].
    - (* a binary operator *)
      destruct IHa as (_ & _ & IHa). destruct IHb as (_ & _ & IHb).
      assert (P : P_prim (EBin o a b)).
      { intros F. cbn [fits] in F. destruct F as (A & _). unfold PR, UN in A. lia. }
      assert (U : P_un (EBin o a b)).
      { intros F. cbn [fits] in F. destruct F as (A & _). lia. }
      split; [exact P | split; [exact U |]].
      intros p F k r [T1 T2] H. cbn [fits] in F. destruct F as (R & B & Fa & Fb).
      set (q := l_prec L o) in *. cbn [show]. rewrite <- app_assoc. cbn [app].
      apply IHa.
      + apply fits_weaken with (q := if l_non L q then S q else q); [destruct (l_non L q); lia | exact Fa].
      + split; [exact (lo_operand L op OK _ _ B) |].
        destruct a; auto. cbn. rewrite B. cbn [fits] in Fa. fold q.
        destruct Fa as (Fa & _). destruct (l_non L q); lia.
      + assert (NB : match banof L a with Some b => (b =? q)%nat | None => false end = false).
        { destruct (banof L a) as [b'|] eqn:E; [| reflexivity].
          destruct (banof_bound _ _ _ Fa E) as [X Y].
          destruct (l_non L q) eqn:N; apply Nat.eqb_neq; [lia |].
          intros ->. specialize (Y eq_refl). congruence. }
        assert (EB : ev (fun f => p_expr L f (S q) (show op b ++ k)) (Some (b, k))).
        { apply IHb; [exact Fb | |].
          - split; [exact T1 |]. destruct b; auto. cbn [fits] in Fb. destruct Fb as (Fb & _).
            destruct k as [|t k]; [exact I |]. cbn in T2 |- *.
            destruct (l_bin L t); [| exact I]. unfold q in Fb; lia.
          - apply loop_stop. destruct k as [|t k]; [exact I |]. cbn in T2.
            destruct (l_bin L t); [| exact I]. unfold q; lia. }
        destruct H as [n H]. destruct EB as [m EB].
        exists (S (n + m)). intros f Hf. destruct f as [|f]; [lia |].
        cbn [p_loop]. rewrite B. fold q.
        destruct (Nat.leb_spec p q) as [_ | Z]; [| lia].
        rewrite NB, EB by lia. cbn [banof] in H. fold q in H. apply H. lia.
    - (* x[i] *)
      destruct IHx as (IHx & _). destruct IHi as (_ & _ & IHi).
      assert (P : P_prim (EIdx x i)).
      { intros F k r [n H]. cbn [fits] in F. destruct F as [Fx Fi]. cbn [show].
        rewrite <- app_assoc. cbn [app]. apply IHx; [exact Fx |].
        rewrite <- app_assoc. cbn [app].
        destruct (closed i TRb k IHi Fi eq_refl (CL TRb)) as [m G].
        exists (S (n + m)). intros f Hf. destruct f as [|f]; [lia |].
        cbn [p_post]. rewrite G by lia. apply H. lia. }
      assert (U : P_un (EIdx x i)) by (apply un_of_prim; [discriminate | discriminate | exact P]).
      split; [exact P | split; [exact U | apply ex_of_un; [discriminate | exact U]]].
    - (* x.index(i) *)
      destruct IHx as (IHx & _). destruct IHi as (_ & _ & IHi).
      assert (P : P_prim (EMeth m x i)).
      { intros F k r [n H]. cbn [fits] in F. destruct F as [Fx Fi]. cbn [show].
        rewrite <- app_assoc. cbn [app]. apply IHx; [exact Fx |].
        rewrite <- app_assoc. cbn [app].
        destruct (closed i TRp k IHi Fi eq_refl (CL TRp)) as [n' G].
        exists (S (n + n')). intros f Hf. destruct f as [|f]; [lia |].
        cbn [p_post]. rewrite G by lia. apply H. lia. }
      assert (U : P_un (EMeth m x i)) by (apply un_of_prim; [discriminate | discriminate | exact P]).
      split; [exact P | split; [exact U | apply ex_of_un; [discriminate | exact U]]].
    - (* x.address *)
      destruct IHx as (IHx & _).
      assert (P : P_prim (EAddress x)).
      { intros F k r [n H]. cbn [fits] in F. cbn [show].
        rewrite <- app_assoc. cbn [app]. apply IHx; [exact F |].
        exists (S n). intros f Hf. destruct f as [|f]; [lia |]. cbn [p_post]. apply H. lia. }
      assert (U : P_un (EAddress x)) by (apply un_of_prim; [discriminate | discriminate | exact P]).
      split; [exact P | split; [exact U | apply ex_of_un; [discriminate | exact U]]].
    - (* go.equality(go.string, a, b) *)
      destruct IHa as (_ & _ & IHa). destruct IHb as (_ & _ & IHb).
      assert (P : P_prim (EStrEq a b)).
      { intros F k r [n H]. cbn [fits] in F. destruct F as [Fa Fb].
        destruct (closed a TComma (show op b ++ TRp :: k) IHa Fa eq_refl (CL TComma)) as [m G].
        destruct (closed b TRp k IHb Fb eq_refl (CL TRp)) as [m' G'].
        exists (S (S (n + m + m'))). intros f Hf. destruct f as [|f]; [lia |].
        cbn [p_unary show app]. rewrite (ST TEquality).
        destruct f as [|f]; [lia |]. cbn [p_operand].
        replace ((show op a ++ TComma :: show op b ++ [TRp]) ++ k)
          with (show op a ++ TComma :: show op b ++ TRp :: k)
          by (rewrite <- app_assoc; cbn [app]; rewrite <- app_assoc; reflexivity).
        rewrite G by lia. cbn iota. rewrite G' by lia. apply H. lia. }
      assert (U : P_un (EStrEq a b)) by (apply un_of_prim; [discriminate | discriminate | exact P]).
      split; [exact P | split; [exact U | apply ex_of_un; [discriminate | exact U]]].
  Qed.

  (** an expression in front of something that cannot continue it *)
  Theorem parse_show : forall e k, fits L op 0 e ->
    match k with t :: _ => is_post t = false /\ l_bin L t = None | [] => True end ->
    ev (fun f => p_expr L f 0 (show op e ++ k)) (Some (e, k)).
  Proof.
    intros e k F K. destruct (all_parse e) as (_ & _ & P). apply P; [exact F | |].
    - split.
      + destruct k as [|t k]; [exact I |]. apply K.
      + destruct e; auto. destruct k as [|t k]; [exact I |]. destruct K as [_ K]. cbn. rewrite K. trivial.
    - apply loop_stop. destruct k as [|t k]; [exact I |]. destruct K as [_ K]. rewrite K. trivial.
  Qed.
End Parse.

(** ** The fuel of [read] is enough *)

Lemma p_shorter : forall L f,
  (forall p ts e r, p_expr L f p ts = Some (e, r) -> (length r < length ts)%nat) /\
  (forall p ban x ts e r, p_loop L f p ban x ts = Some (e, r) -> (length r <= length ts)%nat) /\
  (forall ts e r, p_unary L f ts = Some (e, r) -> (length r < length ts)%nat) /\
  (forall ts e r, p_operand L f ts = Some (e, r) -> (length r < length ts)%nat) /\
  (forall x ts e r, p_post L f x ts = Some (e, r) -> (length r <= length ts)%nat).
Proof.
  intros L. induction f as [|f (IHe & IHl & IHu & IHo & IHp)].
  { repeat apply conj; intros; cbn in *; discriminate. }
  split; [| split; [| split; [| split]]].
  - intros p ts e r H. cbn [p_expr] in H.
    destruct (p_unary L f ts) as [[x r1]|] eqn:U; [| discriminate].
    apply IHu in U. apply IHl in H. lia.
  - intros p ban x ts e r H. cbn [p_loop] in H.
    destruct ts as [|t ts]; [injection H as <- <-; lia |].
    destruct (l_bin L t) as [o|]; [| injection H as <- <-; lia].
    destruct (p <=? l_prec L o)%nat; [| injection H as <- <-; lia].
    destruct (match ban with Some b => (b =? l_prec L o)%nat | None => false end); [discriminate |].
    destruct (p_expr L f (S (l_prec L o)) ts) as [[y r1]|] eqn:E; [| discriminate].
    apply IHe in E. apply IHl in H. cbn [length]. lia.
  - intros ts e r H. cbn [p_unary] in H. destruct ts as [|t ts]; [discriminate |].
    destruct (l_un L t) as [u|].
    + destruct (p_unary L f ts) as [[x r1]|] eqn:U; [| discriminate].
      apply IHu in U. injection H as <- <-. cbn [length]. lia.
    + destruct (p_operand L f (t :: ts)) as [[x r1]|] eqn:U; [| discriminate].
      apply IHo in U. apply IHp in H. lia.
  - intros ts e r H. cbn [p_operand] in H. destruct ts as [|t ts]; [discriminate |].
    destruct t; try discriminate; try (injection H as <- <-; cbn [length]; lia).
    + destruct (p_expr L f 0 ts) as [[x [|[] r1]]|] eqn:E; try discriminate.
      apply IHe in E. injection H as <- <-. cbn [length] in *. lia.
    + destruct ts as [|[] ts]; try discriminate. destruct ts as [|[] ts]; try discriminate.
      destruct ts as [|[] ts]; try discriminate.
      destruct (p_expr L f 0 ts) as [[x [|[] r1]]|] eqn:E; try discriminate.
      destruct (p_expr L f 0 r1) as [[y [|[] r2]]|] eqn:E2; try discriminate.
      apply IHe in E. apply IHe in E2. injection H as <- <-. cbn [length] in *. lia.
  - intros x ts e r H. cbn [p_post] in H. destruct ts as [|t ts]; [injection H as <- <-; lia |].
    destruct t; try (injection H as <- <-; lia).
    + destruct (p_expr L f 0 ts) as [[y [|[] r1]]|] eqn:E; try discriminate.
      apply IHe in E. apply IHp in H. cbn [length] in *. lia.
    + destruct ts as [|[] ts]; try (injection H as <- <-; lia).
      destruct (p_expr L f 0 ts) as [[y [|[] r1]]|] eqn:E; try discriminate.
      apply IHe in E. apply IHp in H. cbn [length] in *. lia.
    + apply IHp in H. cbn [length]. lia.
Qed.

Lemma p_stable : forall L f,
  (forall p ts, (6 * length ts + 4 <= f)%nat -> p_expr L f p ts = p_expr L (S f) p ts) /\
  (forall p ban x ts, (6 * length ts + 1 <= f)%nat -> p_loop L f p ban x ts = p_loop L (S f) p ban x ts) /\
  (forall ts, (6 * length ts + 3 <= f)%nat -> p_unary L f ts = p_unary L (S f) ts) /\
  (forall ts, (6 * length ts + 2 <= f)%nat -> p_operand L f ts = p_operand L (S f) ts) /\
  (forall x ts, (6 * length ts + 1 <= f)%nat -> p_post L f x ts = p_post L (S f) x ts).
Proof.
  intros L. induction f as [|f (IHe & IHl & IHu & IHo & IHp)].
  { repeat apply conj; intros; lia. }
  pose proof (p_shorter L f) as (Se & Sl & Su & So & Sp).
  split; [| split; [| split; [| split]]].
  - intros p ts H. cbn [p_expr].
    change (match p_unary L f ts with Some (x, r) => p_loop L f p None x r | None => None end =
            match p_unary L (S f) ts with Some (x, r) => p_loop L (S f) p None x r | None => None end).
    rewrite <- IHu by lia. destruct (p_unary L f ts) as [[x r]|] eqn:U; [| reflexivity].
    apply Su in U. apply IHl. lia.
  - intros p ban x ts H. destruct ts as [|t ts]; [reflexivity |]. cbn [length] in H.
    change (match l_bin L t with
            | None => Some (x, t :: ts)
            | Some o => if (p <=? l_prec L o)%nat then
                if match ban with Some b => (b =? l_prec L o)%nat | None => false end then None
                else match p_expr L f (S (l_prec L o)) ts with
                     | Some (y, r') => p_loop L f p (if l_non L (l_prec L o) then Some (l_prec L o) else ban) (EBin o x y) r'
                     | None => None end
                else Some (x, t :: ts) end
            = match l_bin L t with
            | None => Some (x, t :: ts)
            | Some o => if (p <=? l_prec L o)%nat then
                if match ban with Some b => (b =? l_prec L o)%nat | None => false end then None
                else match p_expr L (S f) (S (l_prec L o)) ts with
                     | Some (y, r') => p_loop L (S f) p (if l_non L (l_prec L o) then Some (l_prec L o) else ban) (EBin o x y) r'
                     | None => None end
                else Some (x, t :: ts) end).
    destruct (l_bin L t) as [o|]; [| reflexivity].
    destruct (p <=? l_prec L o)%nat; [| reflexivity].
    destruct (match ban with Some b => (b =? l_prec L o)%nat | None => false end); [reflexivity |].
    rewrite <- IHe by lia. destruct (p_expr L f (S (l_prec L o)) ts) as [[y r]|] eqn:E; [| reflexivity].
    apply Se in E. apply IHl. lia.
  - intros ts H. destruct ts as [|t ts]; [reflexivity |]. cbn [length] in H.
    change (match l_un L t with
            | Some u => match p_unary L f ts with Some (x, r') => Some (EUn u x, r') | None => None end
            | None => match p_operand L f (t :: ts) with Some (x, r') => p_post L f x r' | None => None end
            end = match l_un L t with
            | Some u => match p_unary L (S f) ts with Some (x, r') => Some (EUn u x, r') | None => None end
            | None => match p_operand L (S f) (t :: ts) with Some (x, r') => p_post L (S f) x r' | None => None end
            end).
    destruct (l_un L t) as [u|].
    + rewrite <- IHu by lia. reflexivity.
    + rewrite <- IHo by (cbn [length]; lia).
      destruct (p_operand L f (t :: ts)) as [[x r]|] eqn:E; [| reflexivity].
      apply So in E. cbn [length] in E. apply IHp. lia.
  - intros ts H. destruct ts as [|t ts]; [reflexivity |]. cbn [length] in H.
    destruct t; try reflexivity.
    + change (match p_expr L f 0 ts with Some (e, TRp :: r') => Some (EParen e, r') | _ => None end =
              match p_expr L (S f) 0 ts with Some (e, TRp :: r') => Some (EParen e, r') | _ => None end).
      rewrite <- IHe by lia. reflexivity.
    + destruct ts as [|[] ts]; try reflexivity. destruct ts as [|[] ts]; try reflexivity.
      destruct ts as [|[] ts]; try reflexivity. cbn [length] in H.
      change (match p_expr L f 0 ts with
              | Some (a, TComma :: r') => match p_expr L f 0 r' with Some (b, TRp :: r'') => Some (EStrEq a b, r'') | _ => None end
              | _ => None end =
              match p_expr L (S f) 0 ts with
              | Some (a, TComma :: r') => match p_expr L (S f) 0 r' with Some (b, TRp :: r'') => Some (EStrEq a b, r'') | _ => None end
              | _ => None end).
      rewrite <- IHe by lia. destruct (p_expr L f 0 ts) as [[a [|[] r]]|] eqn:E; try reflexivity.
      apply Se in E. cbn [length] in E. rewrite <- IHe by lia. reflexivity.
  - intros x ts H. destruct ts as [|t ts]; [reflexivity |]. cbn [length] in H.
    destruct t; try reflexivity.
    + change (match p_expr L f 0 ts with Some (i, TRb :: r') => p_post L f (EIdx x i) r' | _ => None end =
              match p_expr L (S f) 0 ts with Some (i, TRb :: r') => p_post L (S f) (EIdx x i) r' | _ => None end).
      rewrite <- IHe by lia. destruct (p_expr L f 0 ts) as [[a [|[] r]]|] eqn:E; try reflexivity.
      apply Se in E. cbn [length] in E. apply IHp. lia.
    + destruct ts as [|[] ts]; try reflexivity. cbn [length] in H.
      change (match p_expr L f 0 ts with Some (i, TRp :: r') => p_post L f (EMeth m x i) r' | _ => None end =
              match p_expr L (S f) 0 ts with Some (i, TRp :: r') => p_post L (S f) (EMeth m x i) r' | _ => None end).
      rewrite <- IHe by lia. destruct (p_expr L f 0 ts) as [[a [|[] r]]|] eqn:E; try reflexivity.
      apply Se in E. cbn [length] in E. apply IHp. lia.
    + change (p_post L f (EAddress x) ts = p_post L (S f) (EAddress x) ts). apply IHp. lia.
Qed.

Lemma p_expr_fuel : forall L p ts f, (6 * (1 + length ts) <= f)%nat ->
  p_expr L f p ts = p_expr L (6 * (1 + length ts)) p ts.
Proof.
  intros L p ts f H. induction H as [|f H IH]; [reflexivity |].
  rewrite <- IH. symmetry. apply p_stable. lia.
Qed.

Theorem ev_fuel : forall L p ts r, ev (fun f => p_expr L f p ts) r ->
  p_expr L (6 * (1 + length ts)) p ts = r.
Proof.
  intros L p ts r [n H]. rewrite <- (H (n + 6 * (1 + length ts))%nat) by lia.
  symmetry. apply p_expr_fuel. lia.
Qed.

(** ** The two languages *)
Lemma go_ok : lang_ok go TBin.
Proof.
  split.
  - intros t o H. destruct t; cbn in H; try discriminate; reflexivity.
  - intros t. destruct t; try exact I; reflexivity.
  - intros t. destruct t; try exact I; reflexivity.
Qed.
Lemma zig_ok : lang_ok zig zig_op.
Proof.
  split.
  - intros t o H. destruct t; cbn in H; try discriminate; reflexivity.
  - intros t. destruct t; try exact I; reflexivity.
  - intros t. destruct t; try exact I; reflexivity.
Qed.

Lemma read_show : forall L op e, lang_ok L op -> fits L op 0 e -> read L (show op e) = Some e.
Proof.
  intros L op e OK F. unfold read.
  pose proof (parse_show L op OK e [] F I) as P. rewrite app_nil_r in P.
  rewrite (ev_fuel _ _ _ _ P). reflexivity.
Qed.

(** what the Go parser returns fits the grammar of Go.  Used for any language
    without forbidden chains. *)
Definition at_most (L : lang) (p : nat) (k : list tok) : Prop :=
  match k with
  | t :: _ => match l_bin L t with Some o => (l_prec L o < p)%nat | None => True end
  | [] => True
  end.
Definition ready (L : lang) (op : binop -> tok) (x : expr) (k : list tok) : Prop :=
  match k with
  | t :: _ => match l_bin L t with Some o => fits L op (l_prec L o) x | None => True end
  | [] => True
  end.

Section Back.
  Variable L : lang.
  Variable op : binop -> tok.
  Hypothesis NON : forall p, l_non L p = false.
  Hypothesis BIN : forall t o, l_bin L t = Some o -> l_bin L (op o) = Some o /\ (l_prec L o < UN)%nat.
  Hypothesis UNA : forall t u, l_un L t = Some u -> l_un L (zig_un u) = Some u.

  Lemma un_fits_any : forall e, fits L op UN e -> forall o a b, e <> EBin o a b -> forall p, (p <= UN)%nat -> fits L op p e.
  Proof. intros e F o a b N p H. apply fits_weaken with (q := UN); assumption. Qed.

  Lemma parse_fits : forall f,
    (forall p ts e r, p_expr L f p ts = Some (e, r) -> (p <= UN)%nat -> fits L op p e /\ at_most L p r) /\
    (forall p ban x ts e r, p_loop L f p ban x ts = Some (e, r) -> (p <= UN)%nat ->
       fits L op p x -> ready L op x ts -> fits L op p e /\ at_most L p r) /\
    (forall ts e r, p_unary L f ts = Some (e, r) -> fits L op UN e) /\
    (forall ts e r, p_operand L f ts = Some (e, r) -> fits L op PR e) /\
    (forall x ts e r, p_post L f x ts = Some (e, r) -> fits L op PR x -> fits L op PR e).
  Proof.
    induction f as [|f (IHe & IHl & IHu & IHo & IHp)].
    { repeat apply conj; intros; cbn in *; discriminate. }
    split; [| split; [| split; [| split]]].
    - intros p ts e r H P. cbn [p_expr] in H.
      destruct (p_unary L f ts) as [[x r1]|] eqn:U; [| discriminate]. apply IHu in U.
      apply IHl in H; [exact H | exact P | apply fits_weaken with (q := UN); assumption |].
      unfold ready. destruct r1 as [|t r1]; [exact I |]. destruct (l_bin L t) as [o|] eqn:B; [| exact I].
      apply BIN in B. apply fits_weaken with (q := UN); [lia | exact U].
    - intros p ban x ts e r H P F R. cbn [p_loop] in H.
      destruct ts as [|t ts]; [injection H as <- <-; split; [exact F | exact I] |].
      destruct (l_bin L t) as [o|] eqn:B.
      + destruct (Nat.leb_spec p (l_prec L o)) as [G|G].
        * destruct (match ban with Some b => (b =? l_prec L o)%nat | None => false end); [discriminate |].
          destruct (p_expr L f (S (l_prec L o)) ts) as [[y r1]|] eqn:E; [| discriminate].
          destruct (BIN _ _ B) as [B1 B2].
          apply IHe in E; [| unfold UN in *; lia]. destruct E as [Fy A].
          cbn in R. rewrite B in R.
          apply IHl in H; [exact H | exact P | |].
          -- cbn [fits]. rewrite NON. split; [lia | split; [exact B1 | split; [exact R | exact Fy]]].
          -- unfold ready. destruct r1 as [|t1 r1]; [exact I |]. cbn in A.
             destruct (l_bin L t1) as [o1|]; [| exact I]. cbn [fits]. rewrite NON.
             split; [lia | split; [exact B1 | split; [exact R | exact Fy]]].
        * injection H as <- <-. split; [exact F |]. cbn. rewrite B. exact G.
      + injection H as <- <-. split; [exact F |]. cbn. rewrite B. exact I.
    - intros ts e r H. cbn [p_unary] in H. destruct ts as [|t ts]; [discriminate |].
      destruct (l_un L t) as [u|] eqn:U.
      + destruct (p_unary L f ts) as [[x r1]|] eqn:E; [| discriminate].
        injection H as <- <-. apply IHu in E. apply UNA in U. cbn [fits].
        split; [lia | split; assumption].
      + destruct (p_operand L f (t :: ts)) as [[x r1]|] eqn:E; [| discriminate].
        apply IHo in E. apply IHp in H; [| exact E].
        apply fits_weaken with (q := PR); [unfold UN, PR; lia | exact H].
    - intros ts e r H. cbn [p_operand] in H. destruct ts as [|t ts]; [discriminate |].
      destruct t; try discriminate; try (injection H as <- <-; exact I).
      + destruct (p_expr L f 0 ts) as [[x [|[] r1]]|] eqn:E; try discriminate.
        injection H as <- <-. apply IHe in E; [| lia]. apply E.
      + destruct ts as [|[] ts]; try discriminate. destruct ts as [|[] ts]; try discriminate.
        destruct ts as [|[] ts]; try discriminate.
        destruct (p_expr L f 0 ts) as [[x [|[] r1]]|] eqn:E; try discriminate.
        destruct (p_expr L f 0 r1) as [[y [|[] r2]]|] eqn:E2; try discriminate.
        injection H as <- <-. apply IHe in E; [| lia]. apply IHe in E2; [| lia].
        split; [apply E | apply E2].
    - intros x ts e r H F. cbn [p_post] in H. destruct ts as [|t ts]; [injection H as <- <-; exact F |].
      destruct t; try (injection H as <- <-; exact F).
      + destruct (p_expr L f 0 ts) as [[y [|[] r1]]|] eqn:E; try discriminate.
        apply IHe in E; [| lia]. apply IHp in H; [exact H | split; [exact F | apply E]].
      + destruct ts as [|[] ts]; try (injection H as <- <-; exact F).
        destruct (p_expr L f 0 ts) as [[y [|[] r1]]|] eqn:E; try discriminate.
        apply IHe in E; [| lia]. apply IHp in H; [exact H | split; [exact F | apply E]].
      + apply IHp in H; [exact H | exact F].
  Qed.
End Back.

(** The Go parser only returns trees that fit the grammar of Go. *)
Theorem go_read_fits : forall ts e, read go ts = Some e -> fits go TBin 0 e.
Proof.
  intros ts e H. unfold read in H.
  destruct (p_expr go (6 * (1 + length ts)) 0 ts) as [[e' [|t r]]|] eqn:E; try discriminate.
  injection H as ->.
  refine (proj1 (proj1 (parse_fits go TBin _ _ _ _) 0%nat ts e [] E _)).
  - reflexivity.
  - intros t o B. destruct t; cbn in B; try discriminate. injection B as ->. split; [reflexivity |].
    destruct o; cbn; unfold UN; lia.
  - intros t u B. destruct u; reflexivity.
  - lia.
Qed.

(** ... and reads back exactly the trees that do. *)
Theorem go_read_show : forall e, fits go TBin 0 e -> read go (show TBin e) = Some e.
Proof. intros e F. apply read_show; [exact go_ok | exact F]. Qed.
