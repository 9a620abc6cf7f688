(** Proofs about maps over a database. *)
From Verif Require Import GoBase SqlRowModel SqlRowSpec SqlRowProofs SqlDbModel SqlDbSpec.
Open Scope string_scope.
Open Scope list_scope.
Open Scope Z_scope.

(** ** Zero values, lengths *)
Lemma zero_ty : forall t, plain t -> has_ty (zero t) t.
Proof.
  induction t as [ | w | w | w | | | | fs IH | n t IH | t IH | ] using ty_induct;
    intro P; try (inversion P; fail); try constructor; inversion P as [| | | | | | | fs' PF | n' t' PT]; subst.
  - clear P. induction IH as [|f fs If IH I]; [constructor|].
    inversion PF; subst. cbn [map]. constructor; auto.
  - apply repeat_length.
  - apply Forall_forall. intros x I. apply repeat_spec in I as ->. now apply IH.
Qed.
Lemma columns_total t : plain t -> exported_only t -> forall path name emb,
  exists cs, columns_of path name emb t = Ok cs.
Proof.
  intros P E path name emb.
  destruct (columns_ok t P E _ (zero_ty t P) path name emb) as (vs & cs & _ & A & _). eauto.
Qed.
Lemma aligned t v : plain t -> exported_only t -> has_ty v t -> forall path name emb cs,
  columns_of path name emb t = Ok cs ->
  exists ds, values_of t v = Ok ds /\ List.length ds = List.length cs /\ map snd cs = map kind_of ds.
Proof.
  intros P E H path name emb cs C.
  destruct (columns_ok t P E v H path name emb) as (ds & cs' & A & B & L).
  rewrite C in B. injection B as <-. exists ds. split; [exact A|]. split; [|exact L].
  rewrite <- (map_length kind_of ds), <- L. apply map_length.
Qed.

(** ** Which pointers are known, and their columns *)
Fixpoint cols_at (p : addr) (path : list string) (name : string) (emb : bool) (t : ty) : option (list column) :=
  match p with
  | [] => match columns_of path name emb t with Ok cs => Some cs | Panic => None end
  | i :: p' =>
    match t with
    | TStruct fs =>
      match @nth_error field fs i with
      | Some (n, _, e, t') => cols_at p' (if emb then path else path ++ [prefixed path name]) n e t'
      | None => None
      end
    | TArray k t' => if Nat.ltb i k then cols_at p' path (prefixed path name ++ dec (S i))%string false t' else None
    | _ => None
    end
  end.

Section Walk.
Variable uncut : string -> string.
Hypothesis uncut_id : forall n, uncut n = n.

Lemma walk_in : forall t, plain t -> exported_only t -> forall path name emb here,
  exists l, walk uncut path name name emb t here = Ok l /\
    forall q c, In (q, c) l <-> exists p, q = here ++ p /\ cols_at p path name emb t = Some c.
Proof.
  induction t as [ | w | w | w | | | | fs IH | n t IH | t IH | ] using ty_induct;
    intros P E path name emb here; try (inversion P; fail).
  1-7: (cbn; eexists; split; [reflexivity|]; intros q c; split;
    [intros [X|[]]; injection X as <- <-; exists []; rewrite app_nil_r; auto
    |intros ([|i p] & -> & X); [|discriminate]; injection X as <-; rewrite app_nil_r; now left]).
  - inversion P as [| | | | | | | fs' PF | ]; inversion E as [| | | | | | | fs'' EF | | | ]; subst.
    destruct (columns_total (TStruct fs) P E path name emb) as (cs & Cs).
    cbn [walk]. rewrite Cs. cbn [obind].
    set (pr := if emb then path else path ++ [prefixed path name]).
    assert (W : forall i, exists l,
      walk_fields (fun i (f : field) => let '(n, _, emb0, t') := f in
         walk uncut pr n (uncut n) emb0 t' (here ++ [i])) i fs = Ok l /\
      forall q c, In (q, c) l <-> exists j p n ex e t', nth_error fs j = Some (n, ex, e, t') /\
         q = here ++ (i + j)%nat :: p /\ cols_at p pr n e t' = Some c).
    { clear Cs cs P E. induction IH as [|f fs If IH I]; intro i.
      - eexists. split; [reflexivity|]. intros q c. split; [intros []|].
        intros (j & p & n & ex & e & t' & N & _). destruct j; discriminate.
      - inversion PF as [|? ? Pf PF']; inversion EF as [|? ? [Ef1 Ef2] EF']; subst.
        destruct f as [[[n ex] e] t]. cbn [snd fst] in *. subst ex.
        destruct (If Pf Ef2 pr n e (here ++ [i])) as (l1 & W1 & I1).
        destruct (I PF' EF' (S i)) as (l2 & W2 & I2).
        cbn [walk_fields fst snd]. rewrite uncut_id, W1. cbn [obind]. rewrite W2. cbn [obind].
        exists (l1 ++ l2). split; [reflexivity|]. intros q c. rewrite in_app_iff, I1, I2. split.
        + intros [(p & -> & X)|(j & p & n' & ex & e' & t' & N & -> & X)].
          * exists 0%nat, p, n, true, e, t. rewrite <- app_assoc, Nat.add_0_r. auto.
          * exists (S j), p, n', ex, e', t'. rewrite <- Nat.add_succ_comm. auto.
        + intros ([|j] & p & n' & ex & e' & t' & N & -> & X).
          * injection N as <- <- <- <-. left. exists p. rewrite <- app_assoc, Nat.add_0_r. auto.
          * right. exists j, p, n', ex, e', t'. rewrite Nat.add_succ_comm. auto. }
    destruct (W 0%nat) as (l & W0 & I0). fold pr. rewrite W0. cbn [obind].
    eexists. split; [reflexivity|]. intros q c. cbn [In]. rewrite I0. split.
    + intros [X|(j & p & n & ex & e & t' & N & -> & X)].
      * injection X as <- <-. exists []. rewrite app_nil_r. cbn [cols_at]. rewrite Cs. auto.
      * exists (j :: p). split; [reflexivity|]. cbn [cols_at]. rewrite N. exact X.
    + intros ([|j p] & -> & X).
      * left. cbn [cols_at] in X. rewrite Cs in X. injection X as <-. now rewrite app_nil_r.
      * right. cbn [cols_at] in X. destruct (@nth_error field fs j) as [[[[n ex] e] t']|] eqn:N; [|discriminate].
        exists j, p, n, ex, e, t'. auto.
  - inversion P as [| | | | | | | |? ? Pt]; inversion E as [| | | | | | | |? ? Et| |]; subst.
    destruct (columns_total (TArray n t) P E path name emb) as (cs & Cs).
    cbn [walk]. rewrite Cs. cbn [obind].
    set (full := prefixed path name).
    assert (W : forall k i, exists l,
      walk_elems (fun i => walk uncut path (full ++ dec (S i))%string (full ++ dec (S i))%string false t (here ++ [i])) i k = Ok l /\
      forall q c, In (q, c) l <-> exists j p, (j < k)%nat /\
         q = here ++ (i + j)%nat :: p /\ cols_at p path (full ++ dec (S (i + j)))%string false t = Some c).
    { clear Cs cs P E. induction k as [|k I]; intro i.
      - eexists. split; [reflexivity|]. intros q c. split; [intros []|]. intros (j & p & N & _). lia.
      - destruct (IH Pt Et path (full ++ dec (S i))%string false (here ++ [i])) as (l1 & W1 & I1).
        destruct (I (S i)) as (l2 & W2 & I2).
        cbn [walk_elems]. rewrite W1. cbn [obind]. rewrite W2. cbn [obind].
        exists (l1 ++ l2). split; [reflexivity|]. intros q c. rewrite in_app_iff, I1, I2. split.
        + intros [(p & -> & X)|(j & p & N & -> & X)].
          * exists 0%nat, p. rewrite <- app_assoc, Nat.add_0_r. split; [lia|]. auto.
          * exists (S j), p. rewrite <- Nat.add_succ_comm. split; [lia|]. auto.
        + intros ([|j] & p & N & -> & X).
          * left. exists p. rewrite <- app_assoc, Nat.add_0_r in *. auto.
          * right. exists j, p. rewrite Nat.add_succ_comm. split; [lia|]. auto. }
    destruct (W n 0%nat) as (l & W0 & I0). rewrite W0. cbn [obind].
    eexists. split; [reflexivity|]. intros q c. cbn [In]. rewrite I0. split.
    + intros [X|(j & p & N & -> & X)].
      * injection X as <- <-. exists []. rewrite app_nil_r. cbn [cols_at]. rewrite Cs. auto.
      * exists (j :: p). split; [reflexivity|]. cbn [cols_at]. apply Nat.ltb_lt in N. rewrite N. exact X.
    + intros ([|j p] & -> & X).
      * left. cbn [cols_at] in X. rewrite Cs in X. injection X as <-. now rewrite app_nil_r.
      * right. cbn [cols_at] in X. destruct (Nat.ltb_spec j n) as [N|N]; [|discriminate].
        exists j, p. auto.
Qed.
Lemma assoc_in p l : (forall c, assoc p l = Some c -> In (p, c) l) /\ (assoc p l = None -> forall c, ~ In (p, c) l).
Proof.
  induction l as [|[q d] l [I1 I2]]; cbn [assoc]; split; try discriminate; auto.
  - destruct (list_eq_dec Nat.eq_dec p q) as [->|N]; intros c X.
    + injection X as ->. now left.
    + right. auto.
  - destruct (list_eq_dec Nat.eq_dec p q) as [->|N]; [discriminate|]. intros X c [Y|Y].
    + injection Y as -> ->. now destruct N.
    + now apply (I2 X c).
Qed.
Lemma walk_assoc t path name emb : plain t -> exported_only t ->
  exists l, walk uncut path name name emb t [] = Ok l /\ forall p, assoc p l = cols_at p path name emb t.
Proof.
  intros P E. destruct (walk_in t P E path name emb []) as (l & W & I). exists l. split; [exact W|].
  intro p. destruct (assoc_in p l) as [A B]. destruct (assoc p l) as [c|].
  - destruct (proj1 (I p c) (A c eq_refl)) as (p' & Q & X). cbn [app] in Q. subst p'. now rewrite X.
  - destruct (cols_at p path name emb t) as [c|] eqn:X; [|reflexivity].
    destruct (B eq_refl c). apply I. exists p. auto.
Qed.
End Walk.

(** ** The columns of a part are those of its values *)
Lemma Forall2_nth {A B} (R : A -> B -> Prop) l m : Forall2 R l m -> forall i b, nth_error m i = Some b ->
  exists a, nth_error l i = Some a /\ R a b.
Proof.
  induction 1 as [|a b l m X F I]; intros [|i] c N; try discriminate.
  - injection N as <-. exists a. auto.
  - apply I. exact N.
Qed.
Definition splits (t : ty) (v : val) (cs cs' : list column) (t' : ty) (v' : val) (p : addr) : Prop :=
  exists a b x y ds', cs = a ++ cs' ++ b /\ values_of t v = Ok (x ++ ds' ++ y) /\
    List.length x = List.length a /\ List.length ds' = List.length cs' /\
    values_of t' v' = Ok ds' /\
    forall w dw, values_of t' w = Ok dw -> values_of t (put p w v) = Ok (x ++ dw ++ y).

Lemma split_fields pr fs : forall vs i n ex e t v' cs,
  Forall2 (fun v (f : field) => has_ty v (snd f)) vs fs ->
  Forall (fun f : field => plain (snd f)) fs ->
  Forall (fun f : field => snd (fst (fst f)) = true /\ exported_only (snd f)) fs ->
  nth_error fs i = Some (n, ex, e, t) -> nth_error vs i = Some v' ->
  columns_fields (columns_of pr) fs = Ok cs ->
  exists a c b x d y, cs = a ++ c ++ b /\ columns_of pr n e t = Ok c /\
    values_fields values_of fs vs = Ok (x ++ d ++ y) /\ values_of t v' = Ok d /\
    List.length x = List.length a /\ List.length d = List.length c /\
    forall w dw, values_of t w = Ok dw -> values_fields values_of fs (set_nth i w vs) = Ok (x ++ dw ++ y).
Proof.
  induction fs as [|[[[n0 ex0] e0] t0] fs IH]; intros vs i n ex e t v' cs F P E N Nv C; [destruct i; discriminate|].
  inversion F as [|v0 ? vs' ? Hv F']; subst. inversion P as [|? ? P0 P']; inversion E as [|? ? [E0 E1] E']; subst.
  cbn [fst snd] in *. subst ex0. cbn [columns_fields] in C.
  destruct (columns_total t0 P0 E1 pr n0 e0) as (c0 & C0). rewrite C0 in C. cbn [obind] in C.
  destruct (columns_fields (columns_of pr) fs) as [cs1|] eqn:C1; [|discriminate]. cbn [obind] in C. injection C as <-.
  destruct (aligned t0 v0 P0 E1 Hv pr n0 e0 c0 C0) as (d0 & D0 & L0 & _).
  destruct i as [|i].
  - injection N as <- <- <- <-. injection Nv as <-.
    assert (Y : exists y, values_fields values_of fs vs' = Ok y).
    { clear -F' P' E'. revert vs' F'. induction fs as [|[[[n ex] e] t] fs IH]; intros vs' F'; inversion F' as [|v1 ? vs1 ? Hv1 F1]; subst; [now exists []|].
      inversion P' as [|? ? Pa Pb]; inversion E' as [|? ? [Ea Ec] Eb]; subst. cbn [fst snd] in *. subst ex.
      destruct (columns_ok t Pa Ec _ Hv1 [] "" false) as (d & c & A & _). destruct (IH Pb Eb _ F1) as (y & Y).
      exists (d ++ y). cbn [values_fields]. rewrite A. cbn [obind]. rewrite Y. reflexivity. }
    destruct Y as (y & Y). exists [], c0, cs1, [], d0, y. cbn [app].
    split; [reflexivity|]. split; [exact C0|]. split.
    { cbn [values_fields]. rewrite D0. cbn [obind]. rewrite Y. reflexivity. }
    split; [exact D0|]. split; [reflexivity|]. split; [exact L0|].
    intros w dw W. cbn [set_nth values_fields]. rewrite W. cbn [obind]. rewrite Y. reflexivity.
  - cbn [nth_error] in N, Nv.
    destruct (IH vs' i n ex e t v' cs1 F' P' E' N Nv eq_refl) as (a & c & b & x & d & y & -> & A & B & D & La & Ld & W).
    exists (c0 ++ a), c, b, (d0 ++ x), d, y. rewrite <- !app_assoc.
    split; [reflexivity|]. split; [exact A|]. split.
    { cbn [values_fields]. rewrite D0. cbn [obind]. rewrite B. reflexivity. }
    split; [exact D|]. split; [rewrite !app_length; congruence|]. split; [exact Ld|].
    intros w dw X. cbn [set_nth values_fields]. rewrite D0. cbn [obind]. rewrite (W w dw X). cbn [obind]. now rewrite <- app_assoc.
Qed.
Lemma split_elems path full t : plain t -> exported_only t -> forall vs i j v' cs,
  Forall (fun v => has_ty v t) vs -> nth_error vs i = Some v' ->
  columns_elems (fun i => columns_of path (full ++ dec i)%string false t) (S j) (List.length vs) = Ok cs ->
  exists a c b x d y, cs = a ++ c ++ b /\ columns_of path (full ++ dec (S (j + i)))%string false t = Ok c /\
    values_elems values_of t vs = Ok (x ++ d ++ y) /\ values_of t v' = Ok d /\
    List.length x = List.length a /\ List.length d = List.length c /\
    forall w dw, values_of t w = Ok dw -> values_elems values_of t (set_nth i w vs) = Ok (x ++ dw ++ y).
Proof.
  intros P E. induction vs as [|v0 vs IH]; intros i j v' cs F Nv C; [destruct i; discriminate|].
  inversion F as [|? ? Hv F']; subst. cbn [columns_elems List.length] in C.
  destruct (columns_total t P E path (full ++ dec (S j))%string false) as (c0 & C0). rewrite C0 in C. cbn [obind] in C.
  destruct (columns_elems (fun i => columns_of path (full ++ dec i)%string false t) (S (S j)) (List.length vs)) as [cs1|] eqn:C1; [|discriminate].
  cbn [obind] in C. injection C as <-.
  destruct (aligned t v0 P E Hv _ _ _ c0 C0) as (d0 & D0 & L0 & _).
  destruct i as [|i].
  - injection Nv as <-.
    assert (Y : exists y, values_elems values_of t vs = Ok y).
    { clear -F' P E. induction F' as [|v vs Hv F' I]; [now exists []|].
      destruct (columns_ok t P E _ Hv [] "" false) as (d & c & A & _). destruct I as (y & Y).
      exists (d ++ y). cbn [values_elems]. rewrite A. cbn [obind]. rewrite Y. reflexivity. }
    destruct Y as (y & Y). exists [], c0, cs1, [], d0, y. cbn [app]. rewrite Nat.add_0_r.
    split; [reflexivity|]. split; [exact C0|]. split.
    { cbn [values_elems]. rewrite D0. cbn [obind]. rewrite Y. reflexivity. }
    split; [exact D0|]. split; [reflexivity|]. split; [exact L0|].
    intros w dw W. cbn [set_nth values_elems]. rewrite W. cbn [obind]. rewrite Y. reflexivity.
  - cbn [nth_error] in Nv.
    destruct (IH i (S j) v' cs1 F' Nv C1) as (a & c & b & x & d & y & -> & A & B & D & La & Ld & W).
    exists (c0 ++ a), c, b, (d0 ++ x), d, y. rewrite <- !app_assoc.
    split; [reflexivity|]. split; [rewrite <- Nat.add_succ_comm; exact A|]. split.
    { cbn [values_elems]. rewrite D0. cbn [obind]. rewrite B. reflexivity. }
    split; [exact D|]. split; [rewrite !app_length; congruence|]. split; [exact Ld|].
    intros w dw X. cbn [set_nth values_elems]. rewrite D0. cbn [obind]. rewrite (W w dw X). cbn [obind]. now rewrite <- app_assoc.
Qed.

Lemma set_nth_has {A : val -> Prop} i w vs : A w -> Forall A vs -> Forall A (set_nth i w vs).
Proof.
  intros Hw F. revert i. induction F as [|v vs Hv F I]; intros [|i]; cbn [set_nth]; constructor; auto.
Qed.
Lemma set_nth_fields i w f : forall vs (fs : list field), Forall2 (fun v (f : field) => has_ty v (snd f)) vs fs ->
  nth_error fs i = Some f -> has_ty w (snd f) ->
  Forall2 (fun v (f : field) => has_ty v (snd f)) (set_nth i w vs) fs.
Proof.
  intros vs fs F. revert i. induction F as [|v g vs fs Hv F I]; intros [|i] N Hw; try discriminate; cbn [set_nth].
  - injection N as ->. constructor; auto.
  - constructor; auto.
Qed.
Lemma set_nth_length i w vs : List.length (set_nth i w vs) = List.length vs.
Proof. revert i. induction vs as [|v vs I]; intros [|i]; cbn [set_nth List.length]; auto. Qed.

(** What a pointer inside a variable sees: the part, its type, its columns. *)
Lemma part_split p T t : typed p T t -> plain T -> exported_only T ->
  plain t /\ exported_only t /\
  forall v path name emb cs, has_ty v T -> columns_of path name emb T = Ok cs ->
  exists v' cs', sub p v = Some v' /\ has_ty v' t /\ cols_at p path name emb T = Some cs' /\
    splits T v cs cs' t v' p /\ (forall w, has_ty w t -> has_ty (put p w v) T) /\
    exists path' name' emb', columns_of path' name' emb' t = Ok cs'.
Proof.
  induction 1 as [t|i p fs f t N Ty IH|i p n e t N Ty IH]; intros P E.
  - split; [exact P|]. split; [exact E|]. intros v path name emb cs H C.
    destruct (aligned t v P E H _ _ _ _ C) as (ds & D & L & _).
    exists v, cs. cbn [sub cols_at put]. rewrite C. split; [reflexivity|]. split; [exact H|]. split; [reflexivity|].
    split; [|split; [auto|eauto]].
    exists [], [], [], [], ds. rewrite !app_nil_r. cbn [app]. repeat (split; [auto|]).
    intros w dw W. now rewrite app_nil_r.
  - inversion P as [| | | | | | | fs' PF | ]; inversion E as [| | | | | | | fs'' EF | | | ]; subst.
    assert (Pf : plain (snd f)) by exact (proj1 (Forall_forall _ _) PF f (nth_error_In _ _ N)).
    assert (Ef : exported_only (snd f)) by exact (proj2 (proj1 (Forall_forall _ _) EF f (nth_error_In _ _ N))).
    destruct (IH Pf Ef) as (Pt & Et & IH'). split; [exact Pt|]. split; [exact Et|].
    intros v path name emb cs H C. inversion H as [| | | | | | | fs' vs F | | | | ]; subst.
    destruct (Forall2_nth _ _ _ F i f N) as (x0 & Nx & Hx).
    destruct f as [[[n ex] em] tf]. cbn [snd] in *. cbn [columns_of] in C.
    destruct (split_fields _ fs vs i n ex em tf x0 cs F PF EF N Nx C) as (a & c & b & x & d & y & -> & A & B & D & La & Ld & W).
    destruct (IH' x0 _ n em c Hx A) as (v' & cs' & S1 & S2 & S3 & (a' & b' & x' & y' & ds' & Q1 & Q2 & Q3 & Q4 & Q5 & Q6) & S5 & S6).
    exists v', cs'. cbn [sub cols_at put]. rewrite Nx, N. split; [exact S1|]. split; [exact S2|]. split; [exact S3|].
    split; [|split; [|exact S6]].
    + exists (a ++ a'), (b' ++ b), (x ++ x'), (y' ++ y), ds'. rewrite Q1, <- !app_assoc. split; [reflexivity|].
      rewrite D in Q2. injection Q2 as ->. split; [cbn [values_of]; rewrite B, <- !app_assoc; reflexivity|].
      split; [rewrite !app_length; congruence|]. split; [exact Q4|]. split; [exact Q5|].
      intros w dw Hw. cbn [put]. rewrite Nx. cbn [values_of]. rewrite (W _ _ (Q6 w dw Hw)), <- !app_assoc. reflexivity.
    + intros w Hw. constructor. eapply set_nth_fields; [exact F|exact N|]. cbn [snd]. auto.
  - inversion P as [| | | | | | | |? ? Pe]; inversion E as [| | | | | | | |? ? Ee| |]; subst.
    destruct (IH Pe Ee) as (Pt & Et & IH'). split; [exact Pt|]. split; [exact Et|].
    intros v path name emb cs H C. inversion H as [| | | | | | | | n' t' vs L F | | | ]; subst.
    destruct (nth_error vs i) as [x0|] eqn:Nx; [|apply nth_error_None in Nx; lia].
    assert (Hx : has_ty x0 e) by exact (proj1 (Forall_forall _ _) F x0 (nth_error_In _ _ Nx)).
    cbn [columns_of] in C.
    destruct (split_elems path (prefixed path name) e Pe Ee vs i 0 x0 cs F Nx C) as (a & c & b & x & d & y & -> & A & B & D & La & Ld & W).
    cbn [Nat.add] in A.
    destruct (IH' x0 _ _ _ c Hx A) as (v' & cs' & S1 & S2 & S3 & (a' & b' & x' & y' & ds' & Q1 & Q2 & Q3 & Q4 & Q5 & Q6) & S5 & S6).
    exists v', cs'. cbn [sub cols_at put]. rewrite Nx. apply Nat.ltb_lt in N. rewrite N. split; [exact S1|]. split; [exact S2|]. split; [exact S3|].
    split; [|split; [|exact S6]].
    + exists (a ++ a'), (b' ++ b), (x ++ x'), (y' ++ y), ds'. rewrite Q1, <- !app_assoc. split; [reflexivity|].
      rewrite D in Q2. injection Q2 as ->. split; [cbn [values_of]; rewrite B, <- !app_assoc; reflexivity|].
      split; [rewrite !app_length; congruence|]. split; [exact Q4|]. split; [exact Q5|].
      intros w dw Hw. cbn [put]. rewrite Nx. cbn [values_of]. rewrite (W _ _ (Q6 w dw Hw)), <- !app_assoc. reflexivity.
    + intros w Hw. constructor; [apply set_nth_length|]. apply set_nth_has; auto.
Qed.

(** ** Comparison *)
Lemma inhabited_columns : forall t, plain t -> exported_only t -> inhabited t = true ->
  forall path name emb cs, columns_of path name emb t = Ok cs -> cs <> [].
Proof.
  induction t as [ | w | w | w | | | | fs IH | n t IH | t IH | ] using ty_induct;
    intros P E I path name emb cs C; try (injection C as <-; discriminate); try (inversion P; fail).
  - inversion P as [| | | | | | | fs' PF | ]; inversion E as [| | | | | | | fs'' EF | | | ]; subst.
    cbn [inhabited columns_of] in *. set (pr := if emb then _ else _) in C. clearbody pr. clear P E.
    revert cs C. induction IH as [|[[[n ex] em] t] fs If IH J]; intros cs C; [discriminate|].
    inversion PF as [|? ? P0 P']; inversion EF as [|? ? [E0 E1] E']; subst. cbn [snd fst] in *.
    cbn [columns_fields] in C. destruct (columns_total t P0 E1 pr n em) as (c0 & C0). rewrite C0 in C. cbn [obind] in C.
    destruct (columns_fields (columns_of pr) fs) as [cs1|]; [|discriminate]. cbn [obind] in C. injection C as <-.
    cbn [existsb snd] in I. apply orb_true_iff in I as [I|I].
    + intro Q. apply app_eq_nil in Q as [Q _]. exact (If P0 E1 I pr n em c0 C0 Q).
    + intro Q. apply app_eq_nil in Q as [_ Q]. exact (J I P' E' cs1 eq_refl Q).
  - inversion P as [| | | | | | | |? ? Pt]; inversion E as [| | | | | | | |? ? Et| |]; subst.
    cbn [inhabited columns_of] in *. apply andb_true_iff in I as [I1 I2]. destruct n as [|n]; [discriminate|].
    cbn [columns_elems] in C.
    destruct (columns_total t Pt Et path (prefixed path name ++ dec 1)%string false) as (c0 & C0). rewrite C0 in C. cbn [obind] in C.
    destruct (columns_elems _ 2 n) as [cs1|]; [|discriminate]. cbn [obind] in C. injection C as <-.
    intro Q. apply app_eq_nil in Q as [Q _]. exact (IH Pt Et I2 _ _ _ c0 C0 Q).
Qed.
Lemma comparable_plain : forall t, comparable t -> plain t.
Proof.
  induction t as [ | w | w | w | | | | fs IH | n t IH | t IH | ] using ty_induct;
    intro C; try (inversion C; fail); constructor.
  - inversion C; subst. apply Forall_forall. intros f I.
    apply (proj1 (Forall_forall _ _) IH f I). exact (proj1 (Forall_forall _ _) H0 f I).
  - inversion C; auto.
Qed.
Lemma combine_app {A B} (a a' : list A) (b b' : list B) : List.length a = List.length b ->
  combine (a ++ a') (b ++ b') = combine a b ++ combine a' b'.
Proof.
  revert b. induction a as [|x a IH]; intros [|y b] L; try discriminate; [reflexivity|].
  cbn [app combine]. f_equal. apply IH. now injection L.
Qed.

Section Sem.
Variables feq flt : Z -> Z -> Z -> bool.
Definition all_eq (a b : list dval) : bool := forallb (fun p => deq feq (fst p) (snd p)) (combine a b).

Lemma eq_values : forall t, comparable t -> exported_only t -> forall a b da db,
  has_ty a t -> has_ty b t -> values_of t a = Ok da -> values_of t b = Ok db ->
  go_eq feq t a b = all_eq da db.
Proof.
  unfold all_eq.
  induction t as [ | w | w | w | | | | fs IH | n t IH | t IH | ] using ty_induct;
    intros C E a b da db Ha Hb Va Vb; try (inversion C; fail);
    try (inversion Ha; inversion Hb; subst; injection Va as <-; injection Vb as <-;
         cbn [go_eq combine forallb fst snd deq]; rewrite ?Z.eqb_refl, ?andb_true_r; reflexivity).
  - inversion C as [| | | | | | fs0 CF |]; inversion E as [| | | | | | | fs'' EF | | | ]; subst.
    inversion Ha as [| | | | | | | fsa va Fa | | | | ]; inversion Hb as [| | | | | | | fsb vb Fb | | | | ]; subst.
    cbn [go_eq values_of] in *. clear C E Ha Hb.
    revert va vb da db Fa Fb Va Vb. induction IH as [|[[[n ex] em] t] fs If IH J]; intros va vb da db Fa Fb Va Vb;
      inversion Fa as [|xa ? va' ? Ha Fa']; inversion Fb as [|xb ? vb' ? Hb Fb']; subst.
    { injection Va as <-. injection Vb as <-. reflexivity. }
    inversion CF as [|? ? C0 C']; inversion EF as [|? ? [E0 E1] E']; subst. cbn [snd fst] in *. subst ex.
    cbn [values_fields] in Va, Vb.
    destruct (values_of t xa) as [d1|] eqn:V1; [|discriminate]. destruct (values_of t xb) as [d2|] eqn:V2; [|discriminate].
    cbn [obind] in Va, Vb.
    destruct (values_fields values_of fs va') as [r1|] eqn:R1; [|discriminate].
    destruct (values_fields values_of fs vb') as [r2|] eqn:R2; [|discriminate].
    injection Va as <-. injection Vb as <-. cbn [eq_fields snd].
    assert (L : List.length d1 = List.length d2).
    { destruct (columns_total t (comparable_plain t C0) E1 [] "" false) as (c & Cc).
      destruct (aligned t xa (comparable_plain t C0) E1 Ha _ _ _ c Cc) as (x1 & X1 & L1 & _).
      destruct (aligned t xb (comparable_plain t C0) E1 Hb _ _ _ c Cc) as (x2 & X2 & L2 & _). congruence. }
    rewrite combine_app, forallb_app by exact L. apply f_equal2; [now apply If|now apply J].
  - inversion C as [| | | | | | |? ? Ct]; inversion E as [| | | | | | | |? ? Et| |]; subst.
    inversion Ha as [| | | | | | | | na ta va La Fa | | | ]; inversion Hb as [| | | | | | | | nb tb vb Lb Fb | | | ]; subst.
    cbn [go_eq values_of] in *. clear Ha Hb.
    revert vb da db Lb Fb Va Vb. induction Fa as [|xa va Ha Fa J]; intros vb da db Lb Fb Va Vb;
      destruct Fb as [|xb vb Hb Fb]; try discriminate Lb.
    { injection Va as <-. injection Vb as <-. reflexivity. }
    cbn [values_elems] in Va, Vb.
    destruct (values_of t xa) as [d1|] eqn:V1; [|discriminate]. destruct (values_of t xb) as [d2|] eqn:V2; [|discriminate].
    cbn [obind] in Va, Vb.
    destruct (values_elems values_of t va) as [r1|] eqn:R1; [|discriminate].
    destruct (values_elems values_of t vb) as [r2|] eqn:R2; [|discriminate].
    injection Va as <-. injection Vb as <-. cbn [eq_elems].
    assert (L : List.length d1 = List.length d2).
    { destruct (columns_total t (comparable_plain t Ct) Et [] "" false) as (c & Cc).
      destruct (aligned t xa (comparable_plain t Ct) Et Ha _ _ _ c Cc) as (x1 & X1 & L1 & _).
      destruct (aligned t xb (comparable_plain t Ct) Et Hb _ _ _ c Cc) as (x2 & X2 & L2 & _). congruence. }
    rewrite combine_app, forallb_app by exact L. apply f_equal2; [now apply IH|].
    apply J; auto.
    + inversion C; subst. now constructor.
    + inversion E; subst. now constructor.
Qed.

(** ** Cells *)
Lemma cell_at A n B X d Y : List.length X = List.length A -> ~ In n A ->
  cell n (combine (A ++ n :: B) (X ++ d :: Y)) = Some d.
Proof.
  revert X. induction A as [|m A IH]; intros [|x X] L N; try discriminate; cbn [app combine cell].
  - now rewrite String.eqb_refl.
  - destruct (String.eqb_spec n m) as [->|D]; [destruct N; now left|]. apply IH; [now injection L|].
    intro I. apply N. now right.
Qed.
Lemma cells : forall (cs : list column) D A X B Y, List.length X = List.length A -> List.length D = List.length cs ->
  NoDup (A ++ map fst cs ++ B) ->
  Forall2 (fun (c : column) d => cell (fst c) (combine (A ++ map fst cs ++ B) (X ++ D ++ Y)) = Some d) cs D.
Proof.
  induction cs as [|c cs IH]; intros [|d D] A X B Y LX LD N; try discriminate; constructor.
  - cbn [map app]. apply cell_at; [exact LX|]. cbn [map app] in N. intro I.
    apply NoDup_remove_2 in N. apply N. apply in_or_app. now left.
  - cbn [map app].
    replace (A ++ fst c :: map fst cs ++ B) with ((A ++ [fst c]) ++ map fst cs ++ B) by (rewrite <- app_assoc; reflexivity).
    replace (X ++ d :: D ++ Y) with ((X ++ [d]) ++ D ++ Y) by (rewrite <- app_assoc; reflexivity).
    apply IH; [rewrite !app_length; cbn; lia|now injection LD|]. rewrite <- app_assoc. exact N.
Qed.
Lemma group_eval r : forall cs D ds ps, Forall2 (fun (c : column) d => cell (fst c) r = Some d) cs D ->
  List.length ds = List.length cs -> pairs cs ds = Ok ps ->
  forallb (fun e => eval feq flt e r) (map (fun p => EIndex (fst p) (snd p)) ps) = all_eq D ds.
Proof.
  intros cs D ds ps F. revert ds ps. induction F as [|c d cs D Hc F IH]; intros [|x ds] ps L Q; try discriminate.
  - injection Q as <-. reflexivity.
  - cbn [pairs] in Q. destruct (pairs cs ds) as [r'|] eqn:R; [|discriminate]. injection Q as <-.
    cbn [map forallb fst snd eval]. rewrite Hc. unfold all_eq. cbn [combine forallb fst snd].
    apply f_equal2; [reflexivity|]. apply IH; [now injection L|exact R].
Qed.
Lemma pairs_ok : forall cs ds, List.length ds = List.length cs -> exists ps, pairs cs ds = Ok ps.
Proof.
  induction cs as [|c cs IH]; intros [|d ds] L; try discriminate; [now exists []|].
  destruct (IH ds) as (ps & Q); [now injection L|]. exists ((c, d) :: ps). cbn [pairs]. now rewrite Q.
Qed.

(** ** Compiled conditions *)
Section Opened.
Variable uncut : string -> string.
Hypothesis uncut_id : forall n, uncut n = n.
Variables K V : ty.
Hypothesis PK : plain K. Hypothesis EK : exported_only K.
Hypothesis PV : plain V. Hypothesis EV : exported_only V.
Variable index : string.

Lemma open_ok : exists op kp vp, open uncut index K V = Ok op /\
  o_key_ptrs op = Some kp /\ o_val_ptrs op = Some vp /\
  (forall p, assoc p kp = cols_at p [] index (is_struct K) K) /\
  (forall p, assoc p vp = cols_at p [] "value" (is_struct V) V) /\
  columns_of [] index (is_struct K) K = Ok (o_index op) /\
  columns_of [] "value" (is_struct V) V = Ok (o_value op).
Proof.
  destruct (walk_assoc uncut uncut_id K [] index (is_struct K) PK EK) as (kp & Wk & Ak).
  destruct (walk_assoc uncut uncut_id V [] "value" (is_struct V) PV EV) as (vp & Wv & Av).
  destruct (columns_total K PK EK [] index (is_struct K)) as (ki & Ck).
  destruct (columns_total V PV EV [] "value" (is_struct V)) as (vi & Cv).
  unfold open. rewrite Wk. cbn [obind]. rewrite Wv. cbn [obind]. rewrite Ck. cbn [obind]. rewrite Cv. cbn [obind].
  do 3 eexists. split; [reflexivity|]. cbn. auto 10.
Qed.

Variable op : opened.
Variables kp vp : list (addr * list column).
Hypothesis Okp : o_key_ptrs op = Some kp.
Hypothesis Ovp : o_val_ptrs op = Some vp.
Hypothesis Ak : forall p, assoc p kp = cols_at p [] index (is_struct K) K.
Hypothesis Av : forall p, assoc p vp = cols_at p [] "value" (is_struct V) V.
Hypothesis Ck : columns_of [] index (is_struct K) K = Ok (o_index op).
Hypothesis Cv : columns_of [] "value" (is_struct V) V = Ok (o_value op).
Hypothesis Dist : NoDup (names op).

Lemma inside_plain at_ t : inside K V at_ t -> plain t /\ exported_only t.
Proof.
  destruct at_ as [p|p|x]; cbn [inside]; intro I; [| |destruct I].
  - destruct (part_split p K t I PK EK) as (A & B & _). auto.
  - destruct (part_split p V t I PV EV) as (A & B & _). auto.
Qed.

Lemma seen at_ t : inside K V at_ t ->
  exists cs', column_of kp vp at_ = Some cs' /\
    (exists path' name' emb', columns_of path' name' emb' t = Ok cs') /\
    forall k v ks vs, has_ty k K -> has_ty v V -> values_of K k = Ok ks -> values_of V v = Ok vs ->
    exists x ds, look k v at_ = Some x /\ has_ty x t /\ values_of t x = Ok ds /\ List.length ds = List.length cs' /\
      Forall2 (fun (c : column) d => cell (fst c) (as_row op (ks ++ vs)) = Some d) cs' ds.
Proof.
  intro I.
  assert (G : forall p, cols_at p [] index (is_struct K) K = assoc p kp) by (intro; now rewrite Ak).
  assert (G' : forall p, cols_at p [] "value" (is_struct V) V = assoc p vp) by (intro; now rewrite Av).
  destruct at_ as [p|p|x]; cbn [inside] in I; [| |destruct I].
  - destruct (part_split p K t I PK EK) as (_ & _ & S).
    destruct (S _ _ _ _ _ (zero_ty K PK) Ck) as (z & cs' & _ & _ & S3 & _ & _ & S6).
    exists cs'. cbn [column_of look]. rewrite G in S3. split; [exact S3|]. split; [exact S6|].
    intros k v ks vs Hk Hv Vk Vv.
    destruct (S k _ _ _ _ Hk Ck) as (x & cs2 & X1 & X2 & X3 & (a & b & x' & y & ds & Q1 & Q2 & Q3 & Q4 & Q5 & _) & _ & _).
    rewrite G, S3 in X3. injection X3 as <-. rewrite Vk in Q2. injection Q2 as ->.
    exists x, ds. split; [exact X1|]. split; [exact X2|]. split; [exact Q5|]. split; [exact Q4|].
    unfold as_row, names in *. rewrite Q1, !map_app, <- !app_assoc in *.
    apply cells; [rewrite map_length; exact Q3|exact Q4|exact Dist].
  - destruct (part_split p V t I PV EV) as (_ & _ & S).
    destruct (S _ _ _ _ _ (zero_ty V PV) Cv) as (z & cs' & _ & _ & S3 & _ & _ & S6).
    exists cs'. cbn [column_of look]. rewrite G' in S3. split; [exact S3|]. split; [exact S6|].
    intros k v ks vs Hk Hv Vk Vv.
    destruct (S v _ _ _ _ Hv Cv) as (x & cs2 & X1 & X2 & X3 & (a & b & x' & y & ds & Q1 & Q2 & Q3 & Q4 & Q5 & _) & _ & _).
    rewrite G', S3 in X3. injection X3 as <-. rewrite Vv in Q2. injection Q2 as ->.
    exists x, ds. split; [exact X1|]. split; [exact X2|]. split; [exact Q5|]. split; [exact Q4|].
    destruct (aligned K k PK EK Hk _ _ _ _ Ck) as (ks' & Vk' & Lk & _). rewrite Vk in Vk'. injection Vk' as <-.
    unfold as_row, names in *. rewrite Q1, !map_app in *.
    rewrite (app_assoc (map fst (o_index op)) (map fst a)), (app_assoc ks x') in *.
    apply cells; [rewrite !app_length, !map_length; rewrite Lk, Q3; reflexivity|exact Q4|exact Dist].
Qed.

Definition means (c : cond) (e : expr) : Prop :=
  forall k v ks vs, has_ty k K -> has_ty v V -> values_of K k = Ok ks -> values_of V v = Ok vs ->
  eval feq flt e (as_row op (ks ++ vs)) = holds feq flt c k v.

Lemma avoid_eval e r : eval feq flt (avoid e) r = negb (eval feq flt e r).
Proof. destruct e; reflexivity. Qed.
Lemma cases_eval es r : es <> [] -> eval feq flt (cases es) r = existsb (fun e => eval feq flt e r) es.
Proof.
  intro N. unfold cases. destruct es as [|e es]; [now destruct N|]. remember (e :: es) as all eqn:Eall. clear N.
  assert (L : forall pre l, pre ++ l = all -> Forall (fun e => e = EValue false) pre ->
    eval feq flt (cases_loop all l) r = existsb (fun e => eval feq flt e r) l).
  { intros pre l. revert pre. induction l as [|x l IH]; intros pre Q F; [reflexivity|].
    assert (Z : existsb (fun e => eval feq flt e r) pre = false).
    { clear Q IH. induction F as [|y pre -> F J]; [reflexivity|]. cbn [existsb eval]. exact J. }
    cbn [cases_loop existsb]. destruct x; try (rewrite <- Q at 1; cbn [eval]; rewrite existsb_app, Z; reflexivity).
    destruct b; [reflexivity|]. cbn [eval orb]. apply (IH (pre ++ [EValue false])).
    - now rewrite <- app_assoc.
    - apply Forall_app. auto. }
  rewrite Eall in *. exact (L [] (e :: es) eq_refl (Forall_nil _)).
Qed.
Lemma merge_eval es r : es <> [] -> eval feq flt (merge es) r = forallb (fun e => eval feq flt e r) es.
Proof.
  intro N. unfold merge. destruct es as [|e es]; [now destruct N|]. remember (e :: es) as all eqn:Eall. clear N.
  assert (L : forall pre l, pre ++ l = all -> Forall (fun e => e = EValue true) pre ->
    eval feq flt (merge_loop all l) r = forallb (fun e => eval feq flt e r) l).
  { intros pre l. revert pre. induction l as [|x l IH]; intros pre Q F; [reflexivity|].
    assert (Z : forallb (fun e => eval feq flt e r) pre = true).
    { clear Q IH. induction F as [|y pre -> F J]; [reflexivity|]. cbn [forallb eval]. exact J. }
    cbn [merge_loop forallb]. destruct x; try (rewrite <- Q at 1; cbn [eval]; rewrite forallb_app, Z; reflexivity).
    destruct b; [|reflexivity]. cbn [eval andb]. apply (IH (pre ++ [EValue true])).
    - now rewrite <- app_assoc.
    - apply Forall_app. auto. }
  rewrite Eall in *. exact (L [] (e :: es) eq_refl (Forall_nil _)).
Qed.

Section CondInd.
Variable P : cond -> Prop.
Hypothesis h1 : forall a t v, P (Equals a t v).
Hypothesis h2 : forall o a t z, P (Where o a t z).
Hypothesis h3 : forall m a s, P (Match m a s).
Hypothesis h4 : forall a t, P (Empty a t).
Hypothesis h5 : forall c, P c -> P (Avoid c).
Hypothesis h6 : forall l, Forall P l -> P (Cases l).
Hypothesis h7 : forall l, Forall P l -> P (Merge l).
Hypothesis h8 : forall a b, P (Slice a b).
Fixpoint cond_induct (c : cond) : P c :=
  let go := fix go (l : list cond) : Forall P l :=
    match l with [] => Forall_nil _ | c :: l' => Forall_cons c (cond_induct c) (go l') end in
  match c with
  | Equals a t v => h1 a t v | Where o a t z => h2 o a t z | Match m a s => h3 m a s
  | Empty a t => h4 a t | Avoid c => h5 c (cond_induct c)
  | Cases l => h6 l (go l) | Merge l => h7 l (go l) | Slice a b => h8 a b
  end.
End CondInd.

Notation comp := (compile feq flt K V kp vp).
Lemma compile_cases l : comp (Cases l) = let! es := compile_all feq flt K V kp vp l in Ok (cases es).
Proof. reflexivity. Qed.
Lemma compile_merge l : comp (Merge l) = let! es := compile_all feq flt K V kp vp l in Ok (merge es).
Proof. reflexivity. Qed.

Lemma one_cell at_ t : inside K V at_ t -> (exists path name emb n kd, columns_of path name emb t = Ok [(n, kd)]) ->
  simple t ->
  exists c, column_of kp vp at_ = Some [c] /\
  forall k v ks vs, has_ty k K -> has_ty v V -> values_of K k = Ok ks -> values_of V v = Ok vs ->
  exists x d, look k v at_ = Some x /\ has_ty x t /\ values_of t x = Ok [d] /\ cell (fst c) (as_row op (ks ++ vs)) = Some d.
Proof.
  intros I _ S. destruct (seen at_ t I) as (cs & Q & (path' & name' & emb' & Cc) & W).
  assert (L : exists c, cs = [c]).
  { destruct (inside_plain at_ t I) as [P E]. destruct t; try (now destruct S); try (injection Cc as <-; eauto); inversion P. }
  destruct L as (c & ->). exists c. split; [exact Q|]. intros k v ks vs Hk Hv Vk Vv.
  destruct (W k v ks vs Hk Hv Vk Vv) as (x & ds & X1 & X2 & X3 & X4 & X5).
  inversion X5 as [|? d ? D' C1 C2]; subst. inversion C2; subst. exists x, d. auto.
Qed.

Lemma compile_ok : forall c, good K V c -> exists e, comp c = Ok e /\ means c e.
Proof.
  assert (All : forall l, Forall (fun c => good K V c -> exists e, comp c = Ok e /\ means c e) l -> Forall (good K V) l ->
    exists es, compile_all feq flt K V kp vp l = Ok es /\ Forall2 means l es).
  { induction 1 as [|c l Hc F IH]; intro G; [exists []; split; [reflexivity|constructor]|].
    inversion G as [|? ? G1 G2]; subst. destruct (Hc G1) as (e & E & M). destruct (IH G2) as (es & Es & Ms).
    exists (e :: es). cbn [compile_all]. rewrite E. cbn [obind]. rewrite Es. split; [reflexivity|now constructor]. }
  induction c as [at_ t w|o at_ t z|m at_ s|at_ t|c IH|l IH|l IH|a b] using cond_induct; intro G;
    inversion G as [a1 t1 w1 I C Inh Hw|o1 a1 t1 z1 I N|m1 a1 s1 I|a1 t1 I C S|c1 Gc|l1 Nl Gl|l1 Nl Gl]; subst.
  - destruct (seen at_ t I) as (cs & Q & (path' & name' & emb' & Cc) & W).
    destruct (inside_plain at_ t I) as [P E].
    destruct (aligned t w P E Hw _ _ _ _ Cc) as (dw & Dw & Lw & _).
    destruct (pairs_ok cs dw Lw) as (ps & Ps).
    cbn [compile]. rewrite Q, Dw. cbn [obind]. rewrite Ps. cbn [obind].
    pose proof (inhabited_columns t P E Inh _ _ _ cs Cc) as Ne. destruct cs as [|c0 cs]; [now destruct Ne|].
    eexists. split; [reflexivity|]. intros k v ks vs Hk Hv Vk Vv. cbn [eval holds].
    destruct (W k v ks vs Hk Hv Vk Vv) as (x & ds & X1 & X2 & X3 & X4 & X5). rewrite X1.
    rewrite (eq_values t C E x w ds dw X2 Hw X3 Dw). exact (group_eval _ _ _ _ _ X5 Lw Ps).
  - assert (S : simple t) by (destruct t; cbn in *; auto).
    destruct (one_cell at_ t I) as (c & Q & W); [destruct t; try (now destruct N); exists [], ""%string, false; do 2 eexists; reflexivity|exact S|].
    cbn [compile]. rewrite Q. cbn [first_column obind]. eexists. split; [reflexivity|]. intros k v ks vs Hk Hv Vk Vv. cbn [eval holds].
    destruct (W k v ks vs Hk Hv Vk Vv) as (x & d & X1 & X2 & X3 & X4). rewrite X1, X4.
    destruct t; try (now destruct N); inversion X2; subst; injection X3 as <-;
      destruct o; cbn [normalise deq dlt go_compare go_lt go_eq]; rewrite !Z.eqb_refl; reflexivity.
  - destruct (one_cell at_ TString I) as (c & Q & W); [exists [], ""%string, false; do 2 eexists; reflexivity|constructor|].
    cbn [compile]. rewrite Q. cbn [first_column obind]. eexists. split; [reflexivity|]. intros k v ks vs Hk Hv Vk Vv. cbn [eval holds].
    destruct (W k v ks vs Hk Hv Vk Vv) as (x & d & X1 & X2 & X3 & X4). rewrite X1, X4.
    inversion X2; subst. injection X3 as <-. reflexivity.
  - destruct (one_cell at_ t I) as (c & Q & W); [destruct (inside_plain at_ t I) as [P E]; destruct t; try (now destruct S); try (inversion P; fail); exists [], ""%string, false; do 2 eexists; reflexivity|exact S|].
    cbn [compile]. rewrite Q. cbn [first_column obind]. eexists. split; [reflexivity|]. intros k v ks vs Hk Hv Vk Vv. cbn [eval holds].
    destruct (W k v ks vs Hk Hv Vk Vv) as (x & d & X1 & X2 & X3 & X4). rewrite X1, X4.
    destruct t; try (now destruct S); try (inversion C; fail); inversion X2; subst; injection X3 as <-;
      cbn [is_zero go_eq zero]; try reflexivity.
    match goal with |- _ = bytes_eqb ?s [] => destruct s as [|z0 s0] end; [reflexivity|].
      unfold bytes_eqb. destruct (list_eq_dec Z.eq_dec (z0 :: s0) []); [discriminate|reflexivity].
  - destruct (IH Gc) as (e & E & M). cbn [compile]. rewrite E. cbn [obind]. eexists. split; [reflexivity|].
    intros k v ks vs Hk Hv Vk Vv. rewrite avoid_eval. cbn [holds]. f_equal. now apply M.
  - destruct (All l IH Gl) as (es & Es & Ms). rewrite compile_cases, Es. cbn [obind]. eexists. split; [reflexivity|].
    intros k v ks vs Hk Hv Vk Vv. rewrite cases_eval by (destruct Ms; [now destruct Nl|discriminate]).
    cbn [holds]. clear -Ms Hk Hv Vk Vv. induction Ms as [|c e l es M Ms J]; [reflexivity|]. cbn [existsb].
    apply f_equal2; [now apply M|exact J].
  - destruct (All l IH Gl) as (es & Es & Ms). rewrite compile_merge, Es. cbn [obind]. eexists. split; [reflexivity|].
    intros k v ks vs Hk Hv Vk Vv. rewrite merge_eval by (destruct Ms; [now destruct Nl|discriminate]).
    cbn [holds]. clear -Ms Hk Hv Vk Vv. induction Ms as [|c e l es M Ms J]; [reflexivity|]. cbn [forallb].
    apply f_equal2; [now apply M|exact J].
Qed.

(** ** Patches *)
Lemma assign_at c A X d d' B Y : List.length X = List.length A -> ~ In (fst c) A ->
  assign c d' (combine (A ++ fst c :: B) (X ++ d :: Y)) = combine (A ++ fst c :: B) (X ++ d' :: Y).
Proof.
  revert X. induction A as [|m A IH]; intros [|x X] L N; try discriminate; cbn [app combine assign].
  - now rewrite String.eqb_refl.
  - destruct (String.eqb_spec (fst c) m) as [E|D]; [destruct N; now left|]. f_equal. apply IH; [now injection L|].
    intro I. apply N. now right.
Qed.
Lemma assigns : forall (cs : list column) D D' A X B Y ps, List.length X = List.length A ->
  List.length D = List.length cs -> List.length D' = List.length cs ->
  NoDup (A ++ map fst cs ++ B) -> pairs cs D' = Ok ps ->
  fold_left (fun r m => modify m r) (map (fun p => MSet (fst p) (snd p)) ps)
    (combine (A ++ map fst cs ++ B) (X ++ D ++ Y)) = combine (A ++ map fst cs ++ B) (X ++ D' ++ Y).
Proof.
  induction cs as [|c cs IH]; intros [|d D] [|d' D'] A X B Y ps LX LD LD' N Q; try discriminate.
  - injection Q as <-. reflexivity.
  - cbn [pairs] in Q. destruct (pairs cs D') as [r|] eqn:R; [|discriminate]. injection Q as <-.
    cbn [map fold_left fst snd modify app].
    rewrite assign_at; [|exact LX|].
    2: { cbn [map app] in N. intro I. apply NoDup_remove_2 in N. apply N. apply in_or_app. now left. }
    replace (A ++ fst c :: map fst cs ++ B) with ((A ++ [fst c]) ++ map fst cs ++ B) by (rewrite <- app_assoc; reflexivity).
    replace (X ++ d' :: D ++ Y) with ((X ++ [d']) ++ D ++ Y) by (rewrite <- app_assoc; reflexivity).
    rewrite (IH D D' (A ++ [fst c]) (X ++ [d']) B Y r).
    + rewrite <- !app_assoc. reflexivity.
    + rewrite !app_length. cbn. lia.
    + now injection LD.
    + now injection LD'.
    + rewrite <- app_assoc. exact N.
    + exact R.
Qed.
Lemma patch_ok patch : good_patch V patch ->
  exists ms, set_columns vp patch = Ok ms /\
  forall v, has_ty v V -> has_ty (puts patch v) V /\
    forall k ks vs, has_ty k K -> values_of K k = Ok ks -> values_of V v = Ok vs ->
    exists vs', values_of V (puts patch v) = Ok vs' /\
      fold_left (fun r m => modify m r) ms (as_row op (ks ++ vs)) = as_row op (ks ++ vs').
Proof.
  induction 1 as [|[[p t] w] patch (Ty & Inh & Hw) F IH].
  { exists []. split; [reflexivity|]. intros v Hv. split; [exact Hv|]. intros k ks vs Hk Vk Vv. exists vs. auto. }
  cbn [fst snd] in *. destruct IH as (ms & Ms & IH).
  destruct (part_split p V t Ty PV EV) as (Pt & Et & S).
  destruct (S _ _ _ _ _ (zero_ty V PV) Cv) as (z & cs' & _ & _ & S3 & _ & _ & (path' & name' & emb' & S6)).
  destruct (aligned t w Pt Et Hw _ _ _ _ S6) as (dw & Dw & Lw & _).
  destruct (pairs_ok cs' dw Lw) as (ps & Ps).
  pose proof (inhabited_columns t Pt Et Inh _ _ _ cs' S6) as Ne.
  exists (MArr (map (fun p => MSet (fst p) (snd p)) ps) :: ms). split.
  { cbn [set_columns]. unfold set_column. rewrite Av, S3, Dw. cbn [obind]. rewrite Ps. cbn [obind].
    destruct cs' as [|c0 cs']; [now destruct Ne|]. cbn [obind]. rewrite Ms. reflexivity. }
  intros v Hv.
  destruct (S v _ _ _ _ Hv Cv) as (x & cs2 & X1 & X2 & X3 & (a & b & x' & y & ds & Q1 & Q2 & Q3 & Q4 & Q5 & Q6) & X5 & _).
  rewrite S3 in X3. injection X3 as <-.
  change (puts ((p, t, w) :: patch) v) with (puts patch (put p w v)).
  destruct (IH (put p w v) (X5 w Hw)) as (I1 & I2). split; [exact I1|].
  intros k ks vs Hk Vk Vv. rewrite Vv in Q2. injection Q2 as ->.
  destruct (I2 k ks (x' ++ dw ++ y) Hk Vk (Q6 w dw Dw)) as (vs' & J1 & J2).
  exists vs'. split; [exact J1|]. rewrite <- J2. cbn [fold_left modify]. f_equal.
  destruct (aligned K k PK EK Hk _ _ _ _ Ck) as (ks' & Vk' & Lk & _). rewrite Vk in Vk'. injection Vk' as <-.
  unfold as_row, names in *. rewrite Q1, !map_app in *.
  rewrite (app_assoc (map fst (o_index op)) (map fst a)), !(app_assoc ks x') in *.
  apply (assigns cs' ds dw); try assumption. rewrite !app_length, !map_length. rewrite Lk, Q3. reflexivity.
Qed.
End Opened.
End Sem.
