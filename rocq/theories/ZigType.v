(** * C150: types of compiled programs *)
From Coq Require Import List Arith ZArith String Bool Lia.
Import ListNotations.
From Verif Require Import ZigTypeModel ZigTypeSpec.
Local Open Scope string_scope.
Local Open Scope list_scope.

Scheme ty_mut := Induction for ty Sort Prop
  with tys_mut := Induction for tys Sort Prop
  with fields_mut := Induction for fields Sort Prop
  with methods_mut := Induction for methods Sort Prop.
Combined Scheme ty_all_ind from ty_mut, tys_mut, fields_mut, methods_mut.

(** ** What a text begins with *)
Inductive form (current : string) : ty -> text -> Prop :=
| FBasic b s : basic_text b = Some s -> form current (Basic b) s
| FTesting p name n : pkg_name p = "testing" -> form current (Named p name n) (go "testing" ++ [TChar "."; TName name])
| FHere p name n : pkg_name p <> "testing" -> pkg_name p = current -> form current (Named p name n) [TName name]
| FElse p name n : pkg_name p <> "testing" -> pkg_name p <> current -> form current (Named p name n) [TQuoted (pkg_name p) name]
| FUniverse name : form current (Universe name) [TQuoted "go" name]
| FArray n e x : type_of current e = Some x -> form current (Array n e) ([TChar "["; TNumber n; TChar "]"] ++ x)
| FSlice e x : type_of current e = Some x -> form current (Slice e) (go "slice" ++ ch "(" ++ x ++ ch ")")
| FPointer e x : type_of current e = Some x -> form current (Pointer e) (go "pointer" ++ ch "(" ++ x ++ ch ")")
| FChan d e x : type_of current e = Some x -> form current (Chan d e) (go "chan" ++ ch "(" ++ x ++ ch ")")
| FSmap e x : type_of current e = Some x -> form current (Map (Basic Str) e) (go "smap" ++ ch "(" ++ x ++ ch ")")
| FMap k e y x : k <> Basic Str -> type_of current k = Some y -> type_of current e = Some x ->
    form current (Map k e) (go "map" ++ ch "(" ++ y ++ ch "," ++ x ++ ch ")")
| FFunc v ps rs x y : params_text current ps = Some x -> result_text current rs = Some y ->
    form current (Func v ps rs) (go "func" ++ ch "(" ++ [TName "fn"; TChar "("; TChar "*"; TName "const"; TName "anyopaque"; TChar ",";
                                    TChar "?"; TChar "*"] ++ go "routine" ++ x ++ ch ")" ++ y ++ ch ")")
| FAny : form current (Interface MNil) (go "any")
| FInterface name v ps rs r x : methods_text current true (MCons name v ps rs r) = Some x ->
    form current (Interface (MCons name v ps rs r)) (go "interface" ++ [TChar "("; TName "struct"; TChar "{"] ++ x ++ [TChar "}"; TChar ")"])
| FStruct fs x : fields_text current true fs = Some x -> form current (Struct fs) ([TName "struct"; TChar "{"] ++ x ++ ch "}").

Lemma opt_inv : forall {A B} (f : A -> option B) o b, opt f o = Some b -> exists a, o = Some a /\ f a = Some b.
Proof. intros A B f [a|] b H; [exists a; auto|discriminate]. Qed.
Lemma form_of : forall current t s, type_of current t = Some s -> form current t s.
Proof.
  intros current t s H.
  destruct t as [b|p name n|name|n e|e|e|d e|k e|v ps rs|fs|ms].
  - apply FBasic. exact H.
  - cbn [type_of] in H. unfold named_text in H. injection H as <-.
    destruct (String.eqb_spec (pkg_name p) "testing") as [A|A]; [apply FTesting; exact A|].
    destruct (String.eqb_spec (pkg_name p) current) as [B|B]; [apply FHere|apply FElse]; assumption.
  - injection H as <-. constructor.
  - apply opt_inv in H as [x [X H]]. injection H as <-. apply FArray. exact X.
  - apply opt_inv in H as [x [X H]]. injection H as <-. apply FSlice. exact X.
  - apply opt_inv in H as [x [X H]]. injection H as <-. apply FPointer. exact X.
  - apply opt_inv in H as [x [X H]]. injection H as <-. apply FChan. exact X.
  - assert (D : k = Basic Str \/ k <> Basic Str).
    { destruct k as [[ ]| | | | | | | | | | ]; try (right; congruence). left. reflexivity. }
    destruct D as [->|D].
    + apply opt_inv in H as [x [X H]]. injection H as <-. apply FSmap. exact X.
    + assert (H' : (let? y := type_of current k in let? x := type_of current e in Some (go "map" ++ ch "(" ++ y ++ ch "," ++ x ++ ch ")")) = Some s).
      { destruct k as [[ ]| | | | | | | | | | ]; try exact H. congruence. }
      apply opt_inv in H' as [y [Y H']]. apply opt_inv in H' as [x [X H']]. injection H' as <-. apply FMap; assumption.
  - apply opt_inv in H as [x [X H]]. apply opt_inv in H as [y [Y H]]. injection H as <-. apply FFunc; assumption.
  - apply opt_inv in H as [x [X H]]. injection H as <-. apply FStruct. exact X.
  - destruct ms as [|name v ps rs r]; [injection H as <-; apply FAny|].
    apply opt_inv in H as [x [X H]]. injection H as <-. apply FInterface. exact X.
Qed.

Lemma basic_head : forall b b' s s' r r', basic_text b = Some s -> basic_text b' = Some s' -> s ++ r = s' ++ r' -> b = b' /\ r = r'.
Proof.
  intros b b' s s' r r' H H' E.
  destruct b; try discriminate; injection H as <-; destruct b'; try discriminate; injection H' as <-;
    cbn [go app] in E; first [discriminate E | split; [reflexivity|congruence]].
Qed.

(** the text of no type begins with void *)
Lemma not_void : forall current t s r, form current t s -> good t -> forall x, s ++ r <> TName "void" :: x.
Proof.
  intros current t s r F G x E.
  destruct F; cbn [go ch app] in E; try discriminate E.
  - destruct b; try discriminate; injection H as <-; discriminate E.
  - injection E as -> _. destruct G as [[_ [V _]] _]. congruence.
Qed.
Lemma tys_good : forall t r, good_all (TCons t r) -> good t /\ good_all r.
Proof. intros t r [A B]. auto. Qed.

Ltac clash E := cbn [go ch app] in E;
  first [ discriminate E
        | exfalso; injection E; intros; subst;
          repeat match goal with G : good (Named _ _ _) |- _ => destruct G as [[? [? [? ?]]] ?] end; congruence ].

Section Distinct.
Variable current : string.

Definition P (t : ty) : Prop := forall s t' s' r r',
  type_of current t = Some s -> type_of current t' = Some s' -> good t -> good t' -> s ++ r = s' ++ r' ->
  alike t t' /\ r = r'.
Definition Ps (l : tys) : Prop :=
  (forall s l' s' r r', params_text current l = Some s -> params_text current l' = Some s' -> good_all l -> good_all l' ->
     s ++ TChar ")" :: r = s' ++ TChar ")" :: r' -> alike_all l l' /\ r = r') /\
  (forall s l' s' r r', result_text current l = Some s -> result_text current l' = Some s' -> good_all l -> good_all l' ->
     s ++ r = s' ++ r' -> alike_all l l' /\ r = r').
Definition Pf (l : fields) : Prop := forall first s l' s' r r',
  fields_text current first l = Some s -> fields_text current first l' = Some s' -> good_fields l -> good_fields l' ->
  s ++ TChar "}" :: r = s' ++ TChar "}" :: r' -> alike_fields l l' /\ r = r'.
Definition Pm (l : methods) : Prop := forall first s l' s' r r',
  methods_text current first l = Some s -> methods_text current first l' = Some s' -> good_methods l -> good_methods l' ->
  s ++ TChar "}" :: r = s' ++ TChar "}" :: r' -> alike_methods l l' /\ r = r'.

Ltac tails E := cbn [go ch app] in E; do 4 (repeat rewrite <- app_assoc in E; cbn [go ch app] in E); repeat (injection E as E).

Lemma distinct : (forall t, P t) /\ (forall l, Ps l) /\ (forall l, Pf l) /\ (forall l, Pm l).
Proof.
  apply ty_all_ind.
  - (* Basic *)
    intros b s t' s' r r' H H' G G' E. apply form_of in H'. inversion H'; subst.
    + cbn [type_of] in H. destruct (basic_head _ _ _ _ _ _ H H0 E) as [-> ->]. split; [constructor|reflexivity].
    + cbn [type_of] in H. destruct b; try discriminate; injection H as <-; clash E.
    + cbn [type_of] in H. destruct b; try discriminate; injection H as <-; clash E.
    + cbn [type_of] in H. destruct b; try discriminate; injection H as <-; clash E.
    + cbn [type_of] in H. destruct b; try discriminate; injection H as <-; clash E.
    + cbn [type_of] in H. destruct b; try discriminate; injection H as <-; clash E.
    + cbn [type_of] in H. destruct b; try discriminate; injection H as <-; clash E.
    + cbn [type_of] in H. destruct b; try discriminate; injection H as <-; clash E.
    + cbn [type_of] in H. destruct b; try discriminate; injection H as <-; clash E.
    + cbn [type_of] in H. destruct b; try discriminate; injection H as <-; clash E.
    + cbn [type_of] in H. destruct b; try discriminate; injection H as <-; clash E.
    + cbn [type_of] in H. destruct b; try discriminate; injection H as <-; clash E.
    + cbn [type_of] in H. destruct b; try discriminate; injection H as <-; clash E.
    + cbn [type_of] in H. destruct b; try discriminate; injection H as <-; clash E.
    + cbn [type_of] in H. destruct b; try discriminate; injection H as <-; clash E.
  - (* Named *)
    intros p name n s t' s' r r' H H' G G' E. apply form_of in H. apply form_of in H'.
    destruct H' as [b' s' B| | | | | | | | | | | | | | ].
    { inversion H; subst; destruct b'; try discriminate; injection B as <-; clash E. }
    all: inversion H; subst; try (clash E).
    + cbn [go app] in E. injection E as <- E. split; [constructor; congruence|exact E].
    + cbn [go app] in E. injection E as <- E. split; [constructor; congruence|exact E].
    + cbn [go app] in E. injection E as Ep <- E. split; [constructor; exact Ep|exact E].
  - (* Universe *)
    intros name s t' s' r r' H H' G G' E. injection H as <-. apply form_of in H'.
    destruct H' as [b' s' B| | | | | | | | | | | | | | ]; try (clash E).
    + destruct b'; try discriminate; injection B as <-; clash E.
    + cbn [app] in E. injection E as <- E. split; [constructor|exact E].
  - (* Array *)
    intros n e IH s t' s' r r' H H' G G' E. apply form_of in H. inversion H; subst. apply form_of in H'.
    destruct H' as [b' s' B| | | | |n' e' x' X'| | | | | | | | |]; try (clash E).
    + destruct b'; try discriminate; injection B as <-; clash E.
    + cbn [app] in E. injection E as En E. subst. match goal with X : type_of current e = Some ?x |- _ => rename X into X0 end. destruct (IH _ _ _ _ _ X0 X' G G' E) as [A B]. split; [constructor; exact A|exact B].
  - (* Slice *)
    intros e IH s t' s' r r' H H' G G' E. apply form_of in H. inversion H; subst. apply form_of in H'.
    destruct H' as [b' s' B| | | | | |e' x' X'| | | | | | | |]; try (clash E).
    + destruct b'; try discriminate; injection B as <-; clash E.
    + tails E. match goal with X : type_of current e = Some ?x |- _ => rename X into X0 end. destruct (IH _ _ _ _ _ X0 X' G G' E) as [A B]. injection B as B. split; [constructor; exact A|exact B].
  - (* Pointer *)
    intros e IH s t' s' r r' H H' G G' E. apply form_of in H. inversion H; subst. apply form_of in H'.
    destruct H' as [b' s' B| | | | | | |e' x' X'| | | | | | |]; try (clash E).
    + destruct b'; try discriminate; injection B as <-; clash E.
    + tails E. match goal with X : type_of current e = Some ?x |- _ => rename X into X0 end. destruct (IH _ _ _ _ _ X0 X' G G' E) as [A B]. injection B as B. split; [constructor; exact A|exact B].
  - (* Chan *)
    intros d e IH s t' s' r r' H H' G G' E. apply form_of in H. inversion H; subst. apply form_of in H'.
    destruct H' as [b' s' B| | | | | | | |d' e' x' X'| | | | | |]; try (clash E).
    + destruct b'; try discriminate; injection B as <-; clash E.
    + tails E. match goal with X : type_of current e = Some _ |- _ => destruct (IH _ _ _ _ _ X X' G G' E) as [A B] end.
      injection B as B. split; [constructor; exact A|exact B].
  - (* Map *)
    intros k IHk e IHe s t' s' r r' H H' G G' E. apply form_of in H. apply form_of in H'.
    destruct H' as [b' s' B| | | | | | | | |e' x' X'|k' e' y' x' K' Y' X'| | | | ].
    { inversion H; subst; destruct b'; try discriminate; injection B as <-; clash E. }
    all: inversion H; subst; try (clash E).
    + tails E. match goal with X : type_of current e = Some _ |- _ => destruct (IHe _ _ _ _ _ X X' (proj2 G) (proj2 G') E) as [A B] end.
      injection B as B. split; [constructor; [constructor|exact A]|exact B].
    + tails E. match goal with Y : type_of current k = Some _ |- _ => rename Y into Y0 end.
      match goal with X : type_of current e = Some _ |- _ => rename X into X0 end.
      destruct (IHk _ _ _ _ _ Y0 Y' (proj1 G) (proj1 G') E) as [A B]. injection B as B.
      destruct (IHe _ _ _ _ _ X0 X' (proj2 G) (proj2 G') B) as [C D]. injection D as D.
      split; [constructor; assumption|exact D].
  - (* Func *)
    intros v ps IHp rs IHr s t' s' r r' H H' G G' E. apply form_of in H. inversion H; subst. apply form_of in H'.
    destruct H' as [b' s' B| | | | | | | | | | |v' ps' rs' x' y' X' Y'| | | ]; try (clash E).
    + destruct b'; try discriminate; injection B as <-; clash E.
    + tails E. destruct IHp as [IHp _]. destruct IHr as [_ IHr].
      match goal with X : params_text current ps = Some _, Y : result_text current rs = Some _ |- _ =>
        destruct (IHp _ _ _ _ _ X X' (proj1 G) (proj1 G') E) as [A B];
        destruct (IHr _ _ _ _ _ Y Y' (proj2 G) (proj2 G') B) as [C D]; injection D as D end.
      split; [constructor; assumption|exact D].
  - (* Struct *)
    intros fs IH s t' s' r r' H H' G G' E. apply form_of in H. inversion H; subst. apply form_of in H'.
    destruct H' as [b' s' B| | | | | | | | | | | | | |fs' x' X']; try (clash E).
    + destruct b'; try discriminate; injection B as <-; clash E.
    + tails E. match goal with X : fields_text current true fs = Some _ |- _ => destruct (IH _ _ _ _ _ _ X X' G G' E) as [A B] end.
      split; [constructor; exact A|exact B].
  - (* Interface *)
    intros ms IH s t' s' r r' H H' G G' E. apply form_of in H. apply form_of in H'.
    destruct H' as [b' s' B| | | | | | | | | | | | |name' v' ps' rs' m' x' X'| ].
    { inversion H; subst; destruct b'; try discriminate; injection B as <-; clash E. }
    all: inversion H; subst; try (clash E).
    + cbn [go app] in E. injection E as E. split; [constructor; constructor|exact E].
    + tails E. match goal with X : methods_text current true (MCons name _ _ _ _) = Some _ |- _ =>
        destruct (IH _ _ _ _ _ _ X X' G G' E) as [A B] end. injection B as B. split; [constructor; exact A|exact B].
  - (* TNil *)
    split.
    + intros s [|t' l'] s' r r' H H' G G' E; injection H as <-.
      * injection H' as <-. injection E as E. split; [constructor|exact E].
      * apply opt_inv in H' as [x [X H']]. apply opt_inv in H' as [y [Y H']]. injection H' as <-. discriminate E.
    + intros s [|t' [|u l']] s' r r' H H' G G' E; injection H as <-; [|exfalso|discriminate].
      * injection H' as <-. injection E as E. split; [constructor|exact E].
      * cbn [result_text] in H'. apply form_of in H'. symmetry in E. exact (not_void _ _ _ _ H' (proj1 G') _ E).
  - (* TCons *)
    intros t IHt l IHl. split.
    + intros s [|t' l'] s' r r' H H' G G' E; apply opt_inv in H as [x [X H]]; apply opt_inv in H as [y [Y H]]; injection H as <-.
      * injection H' as <-. discriminate E.
      * apply opt_inv in H' as [x' [X' H']]. apply opt_inv in H' as [y' [Y' H']]. injection H' as <-.
        destruct (tys_good _ _ G) as [G1 G2]. destruct (tys_good _ _ G') as [G1' G2'].
        tails E. destruct (IHt _ _ _ _ _ X X' G1 G1' E) as [A B].
        destruct IHl as [IHl _]. destruct (IHl _ _ _ _ _ Y Y' G2 G2' B) as [C D]. split; [constructor; assumption|exact D].
    + intros s l' s' r r' H H' G G' E. destruct l; [|discriminate]. destruct (tys_good _ _ G) as [G1 _]. cbn [result_text] in H.
      destruct l' as [|t' [|u l']]; [exfalso| |discriminate].
      * injection H' as <-. apply form_of in H. exact (not_void _ _ _ _ H G1 _ E).
      * cbn [result_text] in H'. destruct (tys_good _ _ G') as [G1' _].
        destruct (IHt _ _ _ _ _ H H' G1 G1' E) as [A B]. split; [constructor; [exact A|constructor]|exact B].
  - (* FNil *)
    intros first s [|name' em' tag' t' l'] s' r r' H H' G G' E; injection H as <-.
    + injection H' as <-. injection E as E. split; [constructor|exact E].
    + apply opt_inv in H' as [x [X H']]. apply opt_inv in H' as [y [Y H']]. injection H' as <-. destruct first; discriminate E.
  - (* FCons *)
    intros name em tag t IHt l IHl first s [|name' em' tag' t' l'] s' r r' H H' G G' E;
      apply opt_inv in H as [x [X H]]; apply opt_inv in H as [y [Y H]]; injection H as <-.
    + injection H' as <-. destruct first; discriminate E.
    + apply opt_inv in H' as [x' [X' H']]. apply opt_inv in H' as [y' [Y' H']]. injection H' as <-.
      assert (E' : name = name' /\ x ++ (y ++ TChar "}" :: r) = x' ++ (y' ++ TChar "}" :: r')).
      { repeat rewrite <- app_assoc in E. destruct first; cbn [ch app] in E; repeat rewrite <- app_assoc in E; injection E as E1 E2; auto. }
      destruct E' as [<- E']. destruct G as [G1 G2]. destruct G' as [G1' G2'].
      destruct (IHt _ _ _ _ _ X X' G1 G1' E') as [A B]. destruct (IHl _ _ _ _ _ _ Y Y' G2 G2' B) as [C D].
      split; [constructor; assumption|exact D].
  - (* MNil *)
    intros first s [|name' v' ps' rs' l'] s' r r' H H' G G' E; injection H as <-.
    + injection H' as <-. injection E as E. split; [constructor|exact E].
    + apply opt_inv in H' as [x [X H']]. apply opt_inv in H' as [z [Z H']]. apply opt_inv in H' as [y [Y H']]. injection H' as <-. destruct first; discriminate E.
  - (* MCons *)
    intros name v ps IHp rs IHr l IHl first s [|name' v' ps' rs' l'] s' r r' H H' G G' E;
      apply opt_inv in H as [x [X H]]; apply opt_inv in H as [z [Z H]]; apply opt_inv in H as [y [Y H]]; injection H as <-.
    + injection H' as <-. destruct first; discriminate E.
    + apply opt_inv in H' as [x' [X' H']]. apply opt_inv in H' as [z' [Z' H']]. apply opt_inv in H' as [y' [Y' H']]. injection H' as <-.
      assert (E' : name = name' /\ x ++ TChar ")" :: (z ++ (y ++ TChar "}" :: r)) = x' ++ TChar ")" :: (z' ++ (y' ++ TChar "}" :: r'))).
      { repeat rewrite <- app_assoc in E. destruct first; cbn [ch go app] in E; repeat rewrite <- app_assoc in E; cbn [ch go app] in E;
          repeat rewrite <- app_assoc in E; injection E as E1 E2; auto. }
      destruct E' as [<- E']. destruct G as [G1 [G2 G3]]. destruct G' as [G1' [G2' G3']].
      destruct IHp as [IHp _]. destruct IHr as [_ IHr].
      destruct (IHp _ _ _ _ _ X X' G1 G1' E') as [A B]. destruct (IHr _ _ _ _ _ Z Z' G2 G2' B) as [C D].
      destruct (IHl _ _ _ _ _ _ Y Y' G3 G3' D) as [F K].
      split; [constructor; assumption|exact K].
Qed.
End Distinct.

Scheme alike_mut := Minimality for alike Sort Prop
  with alike_all_mut := Minimality for alike_all Sort Prop
  with alike_fields_mut := Minimality for alike_fields Sort Prop
  with alike_methods_mut := Minimality for alike_methods Sort Prop.
Combined Scheme alike_all_ind from alike_mut, alike_all_mut, alike_fields_mut, alike_methods_mut.

Definition is_str (t : ty) : bool := match t with Basic Str => true | _ => false end.
Lemma map_text : forall current k e, type_of current (Map k e) =
  if is_str k then let? x := type_of current e in Some (go "smap" ++ ch "(" ++ x ++ ch ")")
  else let? y := type_of current k in let? x := type_of current e in Some (go "map" ++ ch "(" ++ y ++ ch "," ++ x ++ ch ")").
Proof. intros current k u. destruct k as [[ ]| | | | | | | | | | ]; reflexivity. Qed.
Lemma alike_str : forall k k', alike k k' -> is_str k = is_str k'.
Proof. intros k k' H. destruct H; reflexivity. Qed.

Lemma same : forall current,
  (forall t t', alike t t' -> type_of current t = type_of current t') /\
  (forall l l', alike_all l l' -> params_text current l = params_text current l' /\ result_text current l = result_text current l') /\
  (forall l l', alike_fields l l' -> forall first, fields_text current first l = fields_text current first l') /\
  (forall l l', alike_methods l l' -> forall first, methods_text current first l = methods_text current first l').
Proof.
  intros current.
  assert (HH : (forall t t', alike t t' -> type_of current t = type_of current t' /\ alike t t') /\
  (forall l l', alike_all l l' -> params_text current l = params_text current l' /\ result_text current l = result_text current l') /\
  (forall l l', alike_fields l l' -> forall first, fields_text current first l = fields_text current first l') /\
  (forall l l', alike_methods l l' -> forall first, methods_text current first l = methods_text current first l')).
  { apply alike_all_ind.
    - intros b. split; [reflexivity|constructor].
    - intros p p' name n n' E. split; [cbn [type_of]; unfold named_text; rewrite E; reflexivity|constructor; exact E].
    - intros name. split; [reflexivity|constructor].
    - intros n e e' H [E A]. split; [cbn [type_of]; rewrite E; reflexivity|constructor; exact A].
    - intros e e' H [E A]. split; [cbn [type_of]; rewrite E; reflexivity|constructor; exact A].
    - intros e e' H [E A]. split; [cbn [type_of]; rewrite E; reflexivity|constructor; exact A].
    - intros d d' e e' H [E A]. split; [cbn [type_of]; rewrite E; reflexivity|constructor; exact A].
    - intros k k' e e' _ [EK AK] _ [E A]. split; [|constructor; assumption].
      rewrite !map_text, E, EK, (alike_str _ _ AK). reflexivity.
    - intros v v' ps ps' rs rs' HP [EP _] HR [_ ER]. split; [|constructor; assumption].
      cbn [type_of]. rewrite EP, ER. reflexivity.
    - intros fs fs' H E. split; [|constructor; assumption]. cbn [type_of]. rewrite E. reflexivity.
    - intros ms ms' H E. split; [|constructor; assumption].
      destruct H; [reflexivity|]. cbn [type_of]. rewrite (E true). reflexivity.
    - split; reflexivity.
    - intros t t' r r' _ [E _] H [EP ER]. split.
      + cbn [params_text]. rewrite E, EP. reflexivity.
      + destruct H; [exact E|]. cbn [result_text]. reflexivity.
    - reflexivity.
    - intros name em em' tag tag' t t' r r' _ [E _] _ IH first. cbn [fields_text]. rewrite E, IH. reflexivity.
    - reflexivity.
    - intros name v v' ps ps' rs rs' r r' _ [EP _] _ [_ ER] _ IH first. cbn [methods_text]. rewrite EP, ER, IH. reflexivity. }
  destruct HH as [A [B [C D]]]. split; [intros t t' H; apply A; exact H|]. split; [exact B|]. split; [exact C|exact D].
Qed.

Lemma opt_some : forall {A B} (f : A -> option B) o, (opt f o <> None <-> exists a, o = Some a /\ f a <> None).
Proof.
  intros A B f o. split.
  - destruct o as [a|]; [intros H; exists a; auto|intros H; exfalso; apply H; reflexivity].
  - intros [a [-> H]]. exact H.
Qed.
Lemma opt_last : forall {A B} (g : A -> B) o, (opt (fun a => Some (g a)) o <> None <-> o <> None).
Proof. intros A B g [a|]; cbn [opt]; split; congruence. Qed.
Lemma opt_both : forall {A B C} (g : A -> B -> C) o o', (opt (fun a => opt (fun b => Some (g a b)) o') o <> None <-> o <> None /\ o' <> None).
Proof. intros A B C g [a|] [b|]; cbn [opt]; split; [split; congruence|congruence|congruence|intros [? ?]; congruence|congruence|intros [? ?]; congruence|congruence|intros [? ?]; congruence]. Qed.
Lemma opt_three : forall {A B C D} (g : A -> B -> C -> D) o o' o'', (opt (fun a => opt (fun b => opt (fun c => Some (g a b c)) o'') o') o <> None <-> o <> None /\ o' <> None /\ o'' <> None).
Proof. intros A B C D g o o' o''. destruct o, o', o''; cbn [opt]; split; intros H; try congruence; try (split; [|split]; congruence); destruct H as [? [? ?]]; congruence. Qed.

Lemma texts : forall current,
  (forall t, type_of current t <> None <-> typeable t) /\
  (forall l, (params_text current l <> None <-> typeable_all l) /\ (result_text current l <> None <-> typeable_result l)) /\
  (forall l, forall first, fields_text current first l <> None <-> typeable_fields l) /\
  (forall l, forall first, methods_text current first l <> None <-> typeable_methods l).
Proof.
  intros current. apply ty_all_ind.
  - intros b. cbn [type_of typeable]. destruct b; cbn [basic_text]; split; try congruence; try (intros _; split; congruence); intros [? ?]; congruence.
  - intros p name n. cbn [type_of typeable]. split; [auto|congruence].
  - intros name. cbn [type_of typeable]. split; [auto|congruence].
  - intros n e IH. cbn [type_of typeable]. rewrite opt_last. exact IH.
  - intros e IH. cbn [type_of typeable]. rewrite opt_last. exact IH.
  - intros e IH. cbn [type_of typeable]. rewrite opt_last. exact IH.
  - intros d e IH. cbn [type_of typeable]. rewrite opt_last. exact IH.
  - intros k IHk e IH. cbn [typeable]. rewrite map_text, <- IHk. destruct (is_str k) eqn:K.
    + rewrite opt_last, IH. split; [|intros [_ H]; exact H]. intros H. split; [|exact H].
      destruct k as [[ ]| | | | | | | | | | ]; discriminate.
    + rewrite opt_both, IH. reflexivity.
  - intros v ps [IHp _] rs [_ IHr]. cbn [type_of typeable]. rewrite opt_both, IHp, IHr. reflexivity.
  - intros fs IH. cbn [type_of typeable]. rewrite opt_last. apply IH.
  - intros ms IH. cbn [typeable]. rewrite <- (IH true). destruct ms as [|name v ps rs r].
    + cbn. split; congruence.
    + cbn [type_of]. rewrite opt_last. reflexivity.
  - split; cbn; split; congruence || auto.
  - intros t IHt l [IHp _]. split.
    + cbn [params_text typeable_all]. rewrite opt_both, IHt, IHp. reflexivity.
    + destruct l; cbn [result_text typeable_result]; [exact IHt|]. split; [congruence|intros []].
  - intros first. cbn. split; congruence || auto.
  - intros name em tag t IHt l IHl first. cbn [fields_text typeable_fields]. rewrite opt_both, IHt, IHl. reflexivity.
  - intros first. cbn. split; congruence || auto.
  - intros name v ps [IHp _] rs [_ IHr] l IHl first. cbn [methods_text typeable_methods].
    rewrite opt_three, IHp, IHr, IHl. reflexivity.
Qed.

(** ** C150 *)

(** types that differ in more than what [alike] leaves out are written differently, in
    every package whose types are not named as Zig's own *)
Theorem C150_distinct_partial : forall current t t' s,
  type_of current t = Some s -> type_of current t' = Some s -> good t -> good t' -> alike t t'.
Proof.
  intros current t t' s H H' G G'.
  destruct (distinct current) as [D _].
  destruct (D t s t' s [] [] H H' G G' eq_refl) as [A _]. exact A.
Qed.
(** no text of a type begins another's: what follows a type is never taken for part of it *)
Theorem C150_prefix : forall current t t' s s' r r',
  type_of current t = Some s -> type_of current t' = Some s' -> good t -> good t' -> s ++ r = s' ++ r' -> alike t t' /\ r = r'.
Proof. intros current t t' s s' r r' H H' G G' E. destruct (distinct current) as [D _]. exact (D t s t' s' r r' H H' G G' E). Qed.
(** and those that differ in nothing else are the same Zig type *)
Theorem C150_alike : forall current t t', alike t t' -> type_of current t = type_of current t'.
Proof. intros current. exact (proj1 (same current)). Qed.
(** the types the compiler has a text for are exactly these; it panics at the others *)
Theorem C150_typeable : forall current t, typeable t <-> exists s, type_of current t = Some s.
Proof.
  intros current t. rewrite <- (proj1 (texts current) t). destruct (type_of current t) as [s|]; split; try congruence.
  - intros _. exists s. reflexivity.
  - intros [s H]. discriminate.
Qed.

Definition p_main := {| path := "main"; pkg_name := "main" |}.
Definition p_a := {| path := "example.com/a/json"; pkg_name := "json" |}.
Definition p_b := {| path := "example.com/b/json"; pkg_name := "json" |}.
Theorem C150_example :
  let t := Map (Basic Str) (Slice (Named p_a "Value" 0)) in
  let t' := Map (Basic Int) (Func false (TCons (Named p_main "Point" 0) TNil) (TCons (Universe "error") TNil)) in
  good t /\ good t' /\ typeable t /\ typeable t' /\
  type_of "main" t = Some (go "smap" ++ ch "(" ++ go "slice" ++ [TChar "("; TQuoted "json" "Value"; TChar ")"; TChar ")"]) /\
  type_of "main" t' = Some (go "map" ++ ch "(" ++ go "int" ++ ch "," ++ go "func" ++
     [TChar "("; TName "fn"; TChar "("; TChar "*"; TName "const"; TName "anyopaque"; TChar ","; TChar "?"; TChar "*"] ++ go "routine" ++
     [TChar ","; TName "Point"; TChar ")"; TQuoted "go" "error"; TChar ")"; TChar ")"]).
Proof.
  cbv zeta. split; [split; [exact I|split; [|discriminate]]|].
  { split; [discriminate|split; [discriminate|split; discriminate]]. }
  split; [split; [exact I|split; [split; [split; [|discriminate]|exact I]|split; exact I]]|].
  { split; [discriminate|split; [discriminate|split; discriminate]]. }
  split; [split; [split; discriminate|exact I]|].
  split; [split; [split; discriminate|split; [split; exact I|exact I]]|].
  split; reflexivity.
Qed.

(** ** What fails *)

(** the packages example.com/a/json and example.com/b/json have one Value between them *)
Theorem C150_packages_refuted :
  Named p_a "Value" 0 <> Named p_b "Value" 0 /\
  forall current, type_of current (Named p_a "Value" 0) = type_of current (Named p_b "Value" 0).
Proof. split; [discriminate|]. intros current. apply C150_alike. constructor. reflexivity. Qed.
(** two types of one name declared in two functions of a package, and List[int] and
    List[string], are one Zig type *)
Theorem C150_local_refuted : forall current p name n n', n <> n' ->
  Named p name n <> Named p name n' /\ type_of current (Named p name n) = type_of current (Named p name n').
Proof. intros current p name n n' N. split; [congruence|reflexivity]. Qed.
(** package main; type bool int: its bool is Zig's; type void struct: a func() is a
    func() void *)
Theorem C150_names_refuted :
  type_of "main" (Named p_main "bool" 0) = type_of "main" (Basic Bool) /\
  type_of "main" (Func false TNil (TCons (Named p_main "void" 0) TNil)) = type_of "main" (Func false TNil TNil).
Proof. split; reflexivity. Qed.
(** uint and uintptr are written differently, and are one type in Zig *)
Theorem C150_uintptr_refuted :
  basic_text Uint <> basic_text Uintptr /\ zig_basic Uint = zig_basic Uintptr.
Proof. split; [discriminate|reflexivity]. Qed.
(** all other basic types are different Zig types *)
Theorem C150_basics : forall b b' z, zig_basic b = Some z -> zig_basic b' = Some z ->
  b = b' \/ (b = Uint /\ b' = Uintptr) \/ (b = Uintptr /\ b' = Uint).
Proof. intros b b' z H H'. destruct b; try discriminate; injection H as <-; destruct b'; try discriminate; auto. Qed.
(** no function of two results compiles, nor anything of type unsafe.Pointer: a type with
    one inside does not either *)
Theorem C150_results_refuted : forall current v ps r r' rs,
  type_of current (Func v ps (TCons r (TCons r' rs))) = None /\ type_of current (Basic UnsafePointer) = None.
Proof. intros. split; [|reflexivity]. cbn [type_of result_text]. destruct (params_text current ps); reflexivity. Qed.
(** chan int, <-chan int and chan<- int are one type; func(...int) and func([]int) are *)
Theorem C150_direction_refuted : forall current d d' e, type_of current (Chan d e) = type_of current (Chan d' e).
Proof. reflexivity. Qed.
Theorem C150_variadic_refuted : forall current ps rs, type_of current (Func true ps rs) = type_of current (Func false ps rs).
Proof. reflexivity. Qed.
(** error is written @"go.error", which the runtime does not declare *)
Theorem C150_error_refuted : forall current, exists s, type_of current (Universe "error") = Some s /\ declared s = false.
Proof. intros current. eexists. split; reflexivity. Qed.
(** reflection of the numbers is right: the name and the kind are those of the type *)
Theorem C150_reflect_numbers : forall b name kind, reflected (reflect_basic b) = Some (name, kind) ->
  exists c, In (b, c) [(Int, ("int", "Int")); (Int8, ("int8", "Int8")); (Int16, ("int16", "Int16")); (Int32, ("int32", "Int32")); (Int64, ("int64", "Int64"));
    (Uint, ("uint", "Uint")); (Uint8, ("uint8", "Uint8")); (Uint16, ("uint16", "Uint16")); (Uint32, ("uint32", "Uint32")); (Uint64, ("uint64", "Uint64"));
    (Uintptr, ("uintptr", "Uintptr")); (Float32, ("float32", "Float32")); (Float64, ("float64", "Float64"))] /\ c = (name, kind).
Proof. intros b name kind H. exists (name, kind). split; [|reflexivity]. destruct b; vm_compute in H; try discriminate; injection H as <- <-; cbn; tauto. Qed.
Theorem C150_reflect_all_numbers : forall b, In b [Int; Int8; Int16; Int32; Int64; Uint; Uint8; Uint16; Uint32; Uint64; Uintptr; Float32; Float64] ->
  reflected (reflect_basic b) <> None.
Proof. intros b H. cbn [In] in H. repeat destruct H as [<-|H]; vm_compute; try discriminate. destruct H. Qed.
(** that of a string, a bool or a complex number mentions what the runtime does not declare *)
Theorem C150_reflect_refuted : forall b, In b [Str; Bool; Complex64; Complex128] ->
  typeable (Basic b) /\ reflected (reflect_basic b) = None.
Proof. intros b H. cbn [In] in H. repeat destruct H as [<-|H]; [| | | |destruct H]; (split; [split; discriminate|reflexivity]). Qed.
