(** * Range loops over slices of compiled programs (C158) *)
From Coq Require Import List Arith ZArith Bool Lia.
From Verif Require Import ZigSliceModel ZigSliceSpec ZigSlice ZigRangeModel ZigRangeSpec.
Import ListNotations.

(** The property: what a compiled program with range loops does is something Go allows. *)
Definition C158_full : Prop := forall p s r, compiles_all (fun _ => false) p = true -> own_targets_all p -> makes_empty_all p ->
  zig_run false p s r -> stopped s <> Some TooLong -> exists g, go_run p g r /\ out g = out s /\ stopped g = stopped s.

Scheme exec_i := Minimality for exec Sort Prop with exec_all_i := Minimality for exec_all Sort Prop with rounds_i := Minimality for rounds Sort Prop.
Combined Scheme exec_ind3 from exec_i, exec_all_i, rounds_i.

(** What is copied is a slice of the program. *)
Lemma alike_copy : forall h x s g, alike s g -> alike (assign h (vars s x) s) (assign h (vars g x) g).
Proof.
  intros h x s g A. pose proof A as (V & _ & _ & _ & _ & EL). rewrite <- V. apply alike_assign; [exact A|].
  intros i L. specialize (EL x i L). unfold elem in EL. rewrite <- V in EL. exact EL.
Qed.
Lemma fits_copy : forall h x s, fits s -> fits (assign h (vars s x) s).
Proof. intros h x s F. apply fits_assign; [exact F|apply F|apply F]. Qed.
Lemma alike_ends : forall s g, alike s g -> ending_of s = ending_of g.
Proof. intros s g (_ & _ & S0 & _). unfold ending_of. now rewrite S0. Qed.
Lemma ends_none : forall s, ending_of s = Ends -> stopped s <> Some TooLong.
Proof. intros s E. unfold ending_of in E. destruct (stopped s); discriminate. Qed.

(** Endings that are alike for Go and Zig: those without labels. *)
Definition plain (q : ending) : Prop := match q with Breaks (Some _) | Continues (Some _) => False | _ => True end.
Lemma next_plain : forall label q, plain q -> zig_next label q = go_next label q /\ (zig_next label q = On -> q = Ends \/ q = Continues None) /\
  (forall r, zig_next label q = Left r -> plain r /\ (r <> Stops -> q <> Stops)).
Proof.
  intros label [|[l|]|[l|]|]; cbn; intros P; try contradiction; (split; [reflexivity|]); split; try (intros; discriminate); try tauto;
    intros r E; injection E as <-; split; try exact I; congruence.
Qed.
Definition calm (q : ending) (s : state) : Prop := q = Stops -> stopped s <> Some TooLong.
Lemma calm_one : forall s, calm (ending_of s) s -> stopped s <> Some TooLong.
Proof.
  intros s C. destruct (stopped s) as [p|] eqn:E; [|discriminate]. rewrite <- E. apply C. unfold ending_of. now rewrite E.
Qed.
Lemma plain_one : forall s, plain (ending_of s).
Proof. intros s. unfold ending_of. destruct (stopped s); exact I. Qed.

(** The copy that a loop is over is not changed by what is in it. *)
Section Keeps.
Variable b : bool.
Variable after : option nat -> ending -> next.
Lemma odd_target : forall x d, Nat.Even x -> x <> S (2 * d).
Proof. intros x d [m ->]. lia. Qed.
Lemma step_keeps : forall c s s', zig_step b c s s' -> own_target c -> forall d, vars s' (S (2 * d)) = vars s (S (2 * d)).
Proof.
  intros c s s' T O d. inversion T; subst; cbn [own_target] in O; try reflexivity; cbn [vars fresh assign store]; unfold ZigSliceModel.bind;
    (destruct (S (2 * d) =? x) eqn:E; [apply Nat.eqb_eq in E; elim (odd_target x d O); congruence|reflexivity]).
Qed.
Lemma keeps :
  (forall d e c s s' q, exec (zig_step b) after d e c s s' q -> own_targets c -> forall d0, d0 < d -> vars s' (S (2 * d0)) = vars s (S (2 * d0))) /\
  (forall d e l s s' q, exec_all (zig_step b) after d e l s s' q -> own_targets_all l -> forall d0, d0 < d -> vars s' (S (2 * d0)) = vars s (S (2 * d0))) /\
  (forall d e label k v body n i s s' q, rounds (zig_step b) after d e label k v body n i s s' q ->
     own_targets_all body -> forall d0, d0 <= d -> vars s' (S (2 * d0)) = vars s (S (2 * d0))).
Proof.
  apply exec_ind3; try (intros; reflexivity).
  - intros d e c s s' T O d0 _. exact (step_keeps _ _ _ T O d0).
  - intros d e x y v s s' T O d0 _. exact (step_keeps _ _ _ T O d0).
  - intros d e v n l s s' r _ _ IH O. exact (IH O).
  - intros d e label k v x body s s' r _ IH O d0 L. rewrite (IH O d0) by lia. cbn [vars assign]. unfold ZigSliceModel.bind.
    destruct (S (2 * d0) =? S (2 * d)) eqn:E; [apply Nat.eqb_eq in E; lia|reflexivity].
  - intros d e c r s s1 s2 q _ IH1 _ IH2 [O1 O2] d0 L. rewrite (IH2 O2 d0 L). exact (IH1 O1 d0 L).
  - intros d e c r s s1 q _ IH _ [O1 _]. exact (IH O1).
  - intros d e label k v body n i s s1 q s2 r _ _ IH1 _ _ IH2 O d0 L. rewrite (IH2 O d0 L). apply (IH1 O d0). lia.
  - intros d e label k v body n i s s1 q r _ _ IH _ O d0 L. apply (IH O d0). lia.
Qed.
End Keeps.

Lemma simulation :
  (forall d e c s s' q, exec (zig_step false) zig_next d e c s s' q ->
     forall index g, compiles index c = true -> unlabelled c -> own_targets c -> makes_empty c -> alike s g -> fits s -> calm q s' ->
     exists g', exec go_step go_next d e c g g' q /\ alike s' g' /\ fits s' /\ plain q) /\
  (forall d e l s s' q, exec_all (zig_step false) zig_next d e l s s' q ->
     forall index g, compiles_all index l = true -> unlabelled_all l -> own_targets_all l -> makes_empty_all l -> alike s g -> fits s -> calm q s' ->
     exists g', exec_all go_step go_next d e l g g' q /\ alike s' g' /\ fits s' /\ plain q) /\
  (forall d e label k v body n i s s' q, rounds (zig_step false) zig_next d e label k v body n i s s' q ->
     forall index g, compiles_all index body = true -> unlabelled_all body -> own_targets_all body -> makes_empty_all body -> alike s g -> fits s -> calm q s' ->
     n <= len (vars s (S (2 * d))) ->
     exists g', rounds go_step go_next d e label k v body n i g g' q /\ alike s' g' /\ fits s' /\ plain q).
Proof.
  apply exec_ind3.
  - intros d e c s s' T index g _ _ _ M A F K.
    destruct (alike_step c s s' g A F) as (g' & G & A'); [destruct c; exact M|exact T|exact (calm_one _ K)|].
    exists g'. split; [rewrite (alike_ends _ _ A'); apply XOne; exact G|]. split; [exact A'|]. split; [exact (fits_zig _ _ _ _ F T)|apply plain_one].
  - intros d e v s index g _ _ _ _ (V & O & S0 & H & LA & EL) F _. exists (print (e v) g). split; [apply XPrint|].
    split; [unfold alike, print; cbn [vars out stopped heap]; rewrite O; auto 10|]. split; [|exact I].
    apply fits_same with (s := s); [exact F|reflexivity|reflexivity].
  - intros d e x y v s s' T index g _ _ _ _ A F K.
    destruct (alike_step (Append x y (e v)) s s' g A F I T (calm_one _ K)) as (g' & G & A').
    exists g'. split; [rewrite (alike_ends _ _ A'); apply XAppend; exact G|]. split; [exact A'|]. split; [exact (fits_zig _ _ _ _ F T)|apply plain_one].
  - intros d e v n l s s' r E _ IH index g C U O M A F K. destruct (IH index g C U O M A F K) as (g' & G & R).
    exists g'. split; [apply XIfYes; assumption|exact R].
  - intros d e v n l s E index g _ _ _ _ A F _. exists g. split; [apply XIfNo; exact E|]. split; [exact A|]. split; [exact F|exact I].
  - intros d e l s index g _ U _ _ A F _. cbn in U. subst l. exists g. split; [apply XBreak|]. split; [exact A|]. split; [exact F|exact I].
  - intros d e l s index g C _ _ _ A F _. cbn in C. destruct l; [discriminate|]. exists g. split; [apply XContinue|]. split; [exact A|]. split; [exact F|exact I].
  - intros d e label k v x body s s' r _ IH index g C U O M A F K. cbn in C. apply andb_true_iff in C. destruct C as [_ C].
    destruct (IH _ (assign (S (2 * d)) (vars g x) g) C U O M (alike_copy _ _ _ _ A) (fits_copy _ _ _ F) K) as (g' & G & R).
    { cbn [vars assign]. unfold ZigSliceModel.bind. rewrite Nat.eqb_refl. lia. }
    exists g'. split; [|exact R]. apply XRange. destruct A as (V & _). rewrite <- V in *. exact G.
  - intros d e s index g _ _ _ _ A F _. exists g. split; [apply ANil|]. split; [exact A|]. split; [exact F|exact I].
  - intros d e c r s s1 s2 q _ IH1 _ IH2 index g C [U1 U2] [O1 O2] [M1 M2] A F K. cbn in C. apply andb_true_iff in C. destruct C as [C1 C2].
    destruct (IH1 index g C1 U1 O1 M1 A F) as (g1 & G1 & A1 & F1 & _); [discriminate|].
    destruct (IH2 index g1 C2 U2 O2 M2 A1 F1 K) as (g2 & G2 & R).
    exists g2. split; [eapply ACons; eassumption|exact R].
  - intros d e c r s s1 q _ IH N index g C [U1 U2] [O1 O2] [M1 M2] A F K. cbn in C. apply andb_true_iff in C. destruct C as [C1 C2].
    destruct (IH index g C1 U1 O1 M1 A F K) as (g1 & G1 & R). exists g1. split; [apply AEnd; assumption|exact R].
  - intros d e label k v body n i s L index g _ _ _ _ A F _ _. exists g. split; [apply LDone; exact L|]. split; [exact A|]. split; [exact F|exact I].
  - intros d e label k v body n i s s1 q s2 r L X IH1 Nx _ IH2 index g C U O M A F K B.
    assert (EL : elem s (S (2 * d)) i = elem g (S (2 * d)) i) by (apply A; lia).
    destruct (IH1 index g C U O M A F) as (g1 & G1 & A1 & F1 & P1).
    { intros ->. destruct label; discriminate. }
    destruct (IH2 index g1 C U O M A1 F1 K) as (g2 & G2 & A2 & F2 & P2).
    { rewrite (proj1 (proj2 (keeps false zig_next)) _ _ _ _ _ _ X O d (Nat.lt_succ_diag_r d)). exact B. }
    exists g2. split; [|split; [exact A2|split; [exact F2|exact P2]]]. apply LOn with (s1 := g1) (q := q).
    + exact L.
    + rewrite <- EL. exact G1.
    + rewrite <- (proj1 (next_plain label q P1)). exact Nx.
    + exact G2.
  - intros d e label k v body n i s s1 q r L X IH1 Nx index g C U O M A F K B.
    assert (EL : elem s (S (2 * d)) i = elem g (S (2 * d)) i) by (apply A; lia).
    destruct (IH1 index g C U O M A F) as (g1 & G1 & A1 & F1 & P1).
    { intros ->. assert (r = Stops) by (destruct label; injection Nx; auto). apply K. assumption. }
    destruct (next_plain label q P1) as (E & _ & PL). destruct (PL r Nx) as [P2 _].
    exists g1. split; [|split; [exact A1|split; [exact F1|exact P2]]]. apply LLeft with (q := q).
    + exact L.
    + rewrite <- EL. exact G1.
    + rewrite <- E. exact Nx.
Qed.

(** Range loops, in each other, with breaks and continues, whatever is done in them to the
    slices they are over: each run of the compiled program is one Go allows. (make is asked
    for empty slices, memory is not made longer in place, nothing is copied to a slice too
    short: these are C153's.) *)
Theorem C158_range_partial : forall p s r, compiles_all (fun _ => false) p = true -> unlabelled_all p -> own_targets_all p -> makes_empty_all p ->
  zig_run false p s r -> stopped s <> Some TooLong ->
  exists g, go_run p g r /\ out g = out s /\ stopped g = stopped s.
Proof.
  intros p s r C U O M R NT.
  assert (A : alike start start) by (unfold alike; auto 10).
  destruct (proj1 (proj2 simulation) _ _ _ _ _ _ R (fun _ => false) start C U O M A fits_start (fun _ => NT)) as (g & G & (_ & Og & Sg & _) & _).
  exists g. auto.
Qed.

(** ** How many rounds, and what they see (in both) *)
Definition steps : Type := stmt -> state -> state -> Prop.
Definition says (step : steps) : Prop := step = go_step \/ exists b, step = zig_step b.
Definition goes (after : option nat -> ending -> next) : Prop := after = go_next \/ after = zig_next.
Lemma quiet_step : forall step c s s', says step -> quiet c -> step c s s' -> out s' = out s /\ stopped s' = stopped s.
Proof.
  intros step c s s' [->|[b ->]] Q T; inversion T; subst; try contradiction; split; reflexivity.
Qed.
Lemma says_keeps : forall step c s s', says step -> own_target c -> step c s s' -> forall d, vars s' (S (2 * d)) = vars s (S (2 * d)).
Proof.
  intros step c s s' [->|[b ->]] O T d.
  - inversion T; subst; cbn [own_target] in O; try reflexivity; cbn [vars fresh assign store]; unfold ZigSliceModel.bind;
      (destruct (S (2 * d) =? x) eqn:E; [apply Nat.eqb_eq in E; elim (odd_target x d O); congruence|reflexivity]).
  - exact (step_keeps _ _ _ _ T O d).
Qed.
Lemma goes_ends : forall after label, goes after -> after label Ends = On.
Proof. intros after label [->| ->]; reflexivity. Qed.

(** The elements are counted when the loop begins: [for k, _ := range x { println(k); c }]
    prints every index there was, also when [c] makes x longer, or another slice. *)
Theorem C158_rounds : forall step after d e label k x c s s' r, says step -> goes after -> quiet c -> stopped s = None ->
  exec step after d e (RRange label (Named k) Blank x (RCons (RPrint k) (RCons (ROne c) RNil))) s s' r ->
  r = Ends /\ out s' = out s ++ seq 0 (len (vars s x)).
Proof.
  intros step after d e label k x c s s' r Sy Go Q N X. inversion X; subst. clear X.
  match goal with H : rounds _ _ _ _ _ _ _ _ _ _ _ _ _ |- _ => rename H into R end.
  remember (len (vars s x)) as n eqn:En. clear En.
  change (out s) with (out (assign (S (2 * d)) (vars s x) s)). change (stopped s) with (stopped (assign (S (2 * d)) (vars s x) s)) in N.
  remember (assign (S (2 * d)) (vars s x) s) as t eqn:Et. clear Et s.
  enough (H : forall i, rounds step after d e label (Named k) Blank (RCons (RPrint k) (RCons (ROne c) RNil)) n i t s' r -> i <= n ->
    r = Ends /\ out s' = out t ++ seq i (n - i)).
  { destruct (H 0 R) as [H1 H2]; [lia|]. rewrite Nat.sub_0_r in H2. split; assumption. }
  clear R. intros i R L. remember (RCons (RPrint k) (RCons (ROne c) RNil)) as body eqn:Eb. remember (Named k) as kk eqn:Ek. remember Blank as vv eqn:Ev.
  revert N L. induction R as [d e label kk v body n i s LE|d e label kk v body n i s s1 q s2 r LT B Nx R IH|d e label kk v body n i s s1 q r LT B Nx]; intros N L; subst.
  - split; [reflexivity|]. replace (n - i) with 0 by lia. now rewrite app_nil_r.
  - assert (Y : q = Ends /\ out s1 = out s ++ [i] /\ stopped s1 = None).
    { inversion B; subst; [|match goal with H : exec _ _ _ _ (RPrint _) _ _ _ |- _ => inversion H; subst; contradiction end].
      match goal with H : exec _ _ _ _ (RPrint _) _ _ _ |- _ => inversion H; subst; clear H end.
      match goal with H : exec_all _ _ _ _ (RCons (ROne _) _) _ _ _ |- _ => inversion H; subst; clear H end.
      - match goal with H : exec _ _ _ _ (ROne _) _ _ _ |- _ => inversion H; subst; clear H end.
        match goal with H : exec_all _ _ _ _ RNil _ _ _ |- _ => inversion H; subst; clear H end.
        match goal with H : step _ _ _ |- _ => destruct (quiet_step _ _ _ _ Sy Q H) as [Q1 Q2] end.
        rewrite Q1, Q2. cbn [print out stopped bound]. rewrite Nat.eqb_refl. auto.
      - match goal with H : exec _ _ _ _ (ROne _) _ _ _ |- _ => inversion H; subst; clear H end.
        match goal with H : step _ _ _ |- _ => destruct (quiet_step _ _ _ _ Sy Q H) as [Q1 Q2] end.
        exfalso. match goal with H : ending_of _ <> Ends |- _ => apply H end. unfold ending_of. rewrite Q2. cbn [print stopped]. now rewrite N. }
    destruct Y as (-> & O1 & N1). destruct (IH eq_refl eq_refl eq_refl N1) as [E O2]; [lia|]. split; [exact E|].
    rewrite O2, O1, <- app_assoc. f_equal. replace (n - i) with (S (n - S i)) by lia. reflexivity.
  - exfalso. assert (Y : q = Ends).
    { inversion B; subst; [|match goal with H : exec _ _ _ _ (RPrint _) _ _ _ |- _ => inversion H; subst; contradiction end].
      match goal with H : exec _ _ _ _ (RPrint _) _ _ _ |- _ => inversion H; subst; clear H end.
      match goal with H : exec_all _ _ _ _ (RCons (ROne _) _) _ _ _ |- _ => inversion H; subst; clear H end.
      - match goal with H : exec_all _ _ _ _ RNil _ _ _ |- _ => inversion H; subst; reflexivity end.
      - match goal with H : exec _ _ _ _ (ROne _) _ _ _ |- _ => inversion H; subst; clear H end.
        match goal with H : step _ _ _ |- _ => destruct (quiet_step _ _ _ _ Sy Q H) as [Q1 Q2] end.
        unfold ending_of. rewrite Q2. cbn [print stopped]. now rewrite N. }
    subst q. rewrite goes_ends in Nx by exact Go. discriminate.
Qed.

(** [for _, v := range x { println(v) }] prints what is in x. *)
Lemma skipn_elem : forall s x i, fits s -> i < len (vars s x) -> skipn i (contents s x) = elem s x i :: skipn (S i) (contents s x).
Proof.
  intros s x i F L. rewrite <- (nth_contents s x i L). pose proof (length_contents s x F) as LC. rewrite <- LC in L. clear LC F.
  generalize dependent i. generalize (contents s x) as l. induction l as [|y l IH]; intros i L; cbn [length] in L; [lia|].
  destruct i as [|i]; [reflexivity|]. cbn [skipn nth]. rewrite (IH i) by lia. reflexivity.
Qed.
Theorem C158_elements : forall (step : steps) after d e label k v x s s' r, goes after -> fits s -> stopped s = None ->
  exec step after d e (RRange label k (Named v) x (RCons (RPrint v) RNil)) s s' r ->
  r = Ends /\ out s' = out s ++ contents s x.
Proof.
  intros step after d e label k v x s s' r Go F N X. inversion X; subst. clear X.
  match goal with H : rounds _ _ _ _ _ _ _ _ _ _ _ _ _ |- _ => rename H into R end.
  set (h := S (2 * d)) in *. set (t := assign h (vars s x) s) in *.
  assert (Vt : vars t h = vars s x) by (cbn; unfold ZigSliceModel.bind; now rewrite Nat.eqb_refl).
  assert (Ct : contents t h = contents s x) by (unfold contents; rewrite Vt; reflexivity).
  assert (Ft : fits t) by (apply fits_copy; exact F).
  rewrite <- Ct, <- Vt in *. change (out s) with (out t). clearbody t. clear Ct Vt F N s.
  enough (H : forall i, rounds step after d e label k (Named v) (RCons (RPrint v) RNil) (len (vars t h)) i t s' r -> i <= len (vars t h) ->
    r = Ends /\ out s' = out t ++ skipn i (contents t h)) by (apply (H 0 R); lia).
  clear R. intros i R. remember (RCons (RPrint v) RNil) as body eqn:Eb. remember (Named v) as vv eqn:Ev.
  remember (len (vars t h)) as n eqn:En.
  revert Ft En. induction R as [d e label k vv body n i s LE|d e label k vv body n i s s1 q s2 r LT B Nx R IH|d e label k vv body n i s s1 q r LT B Nx]; intros Ft En L; subst.
  - split; [reflexivity|]. rewrite skipn_all2 by (rewrite length_contents by exact Ft; lia). now rewrite app_nil_r.
  - assert (Y : q = Ends /\ s1 = print (elem s h i) s).
    { inversion B; subst; [|match goal with H : exec _ _ _ _ (RPrint _) _ _ _ |- _ => inversion H; subst; contradiction end].
      match goal with H : exec _ _ _ _ (RPrint _) _ _ _ |- _ => inversion H; subst; clear H end.
      match goal with H : exec_all _ _ _ _ RNil _ _ _ |- _ => inversion H; subst; clear H end.
      cbn [bound]. rewrite Nat.eqb_refl. split; reflexivity. }
    destruct Y as (-> & ->). destruct IH as [E O2]; [reflexivity|reflexivity|exact Ft|reflexivity|exact LT|]. split; [exact E|].
    rewrite O2. cbn [out print]. rewrite <- app_assoc. f_equal. rewrite (skipn_elem s h i Ft LT). reflexivity.
  - exfalso. assert (Y : q = Ends).
    { inversion B; subst; [|match goal with H : exec _ _ _ _ (RPrint _) _ _ _ |- _ => inversion H; subst; contradiction end].
      match goal with H : exec_all _ _ _ _ RNil _ _ _ |- _ => inversion H; subst; reflexivity end. }
    subst q. rewrite goes_ends in Nx by exact Go. discriminate.
Qed.

(** ** Where it differs *)
(** [L: for _, v := range x { println(v); break L }]: the label is one of the body, and the
    loop goes on. *)
Definition leaving (vs : list nat) : rstmts :=
  RCons (ROne (Literal 0 vs)) (RCons (RRange (Some 0) Blank (Named 1) 0 (RCons (RPrint 1) (RCons (RBreak (Some 0)) RNil))) RNil).
Lemma leaving_round : forall step after d e s, exec_all step after d e (RCons (RPrint 1) (RCons (RBreak (Some 0)) RNil)) s (print (e 1) s) (Breaks (Some 0)).
Proof. intros. eapply ACons; [apply XPrint|]. apply AEnd; [apply XBreak|discriminate]. Qed.
Lemma leaving_zig : forall b d e m i s,
  exists s', rounds (zig_step b) zig_next d e (Some 0) Blank (Named 1) (RCons (RPrint 1) (RCons (RBreak (Some 0)) RNil)) (i + m) i s s' Ends /\
    out s' = out s ++ map (elem s (S (2 * d))) (seq i m) /\ stopped s' = stopped s.
Proof.
  intros b d e m. induction m as [|m IH]; intros i s.
  - exists s. split; [apply LDone; lia|]. cbn. now rewrite app_nil_r.
  - destruct (IH (S i) (print (elem s (S (2 * d)) i) s)) as (s' & R & O & S0). exists s'. split; [|split].
    + eapply LOn; [lia|apply leaving_round|reflexivity|]. replace (i + S m) with (S i + m) by lia. exact R.
    + rewrite O. cbn [seq map print out]. rewrite <- app_assoc. reflexivity.
    + rewrite S0. reflexivity.
Qed.
Lemma map_seq : forall (l : list nat), map (fun i => nth i l 0) (seq 0 (length l)) = l.
Proof.
  induction l as [|y l IH]; [reflexivity|]. cbn [length seq map nth]. f_equal. rewrite <- seq_shift, map_map. exact IH.
Qed.
Theorem C158_label_refuted : forall b vs,
  (exists s, zig_run b (leaving vs) s Ends /\ out s = vs /\ stopped s = None) /\
  (forall g r, go_run (leaving vs) g r -> out g = firstn 1 vs).
Proof.
  intros b vs. split.
  - destruct (leaving_zig b 0 (fun _ => 0) (length vs) 0 (assign 1 (vars (fresh 0 (length vs) vs start) 0) (fresh 0 (length vs) vs start))) as (s & R & O & N).
    exists s. split; [|split; [|exact N]].
    + eapply ACons.
      * change Ends with (ending_of (fresh 0 (length vs) vs start)). apply XOne. apply ZLiteral.
      * eapply ACons; [|apply ANil]. apply XRange. exact R.
    + rewrite O. cbn [out assign fresh start app]. etransitivity; [|exact (map_seq vs)]. reflexivity.
  - intros g r R. inversion R; subst; clear R.
    2:{ match goal with H : exec _ _ _ _ (ROne _) _ _ _ |- _ => inversion H; subst; clear H end.
        match goal with H : go_step _ _ _ |- _ => inversion H; subst; clear H end. exfalso. match goal with H : _ <> Ends |- _ => apply H end. reflexivity. }
    match goal with H : exec _ _ _ _ (ROne _) _ _ _ |- _ => inversion H; subst; clear H end.
    match goal with H : go_step _ _ _ |- _ => inversion H; subst; clear H end.
    assert (X : forall s' q, exec go_step go_next 0 (fun _ => 0) (RRange (Some 0) Blank (Named 1) 0 (RCons (RPrint 1) (RCons (RBreak (Some 0)) RNil))) (fresh 0 (length vs) vs start) s' q ->
      out s' = firstn 1 vs).
    { intros s' q X. inversion X; subst; clear X.
      match goal with H : rounds _ _ _ _ _ _ _ _ _ _ _ _ _ |- _ => inversion H; subst; clear H end.
      - match goal with H : len _ <= 0 |- _ => cbn in H end. destruct vs; [reflexivity|cbn in *; lia].
      - exfalso. match goal with H : exec_all _ _ _ _ (RCons (RPrint _) _) _ _ _ |- _ => inversion H; subst; clear H end;
          match goal with H : exec _ _ _ _ (RPrint _) _ _ _ |- _ => inversion H; subst; clear H end; [|contradiction].
        match goal with H : exec_all _ _ _ _ (RCons (RBreak _) _) _ _ _ |- _ => inversion H; subst; clear H end;
          match goal with H : exec _ _ _ _ (RBreak _) _ _ _ |- _ => inversion H; subst; clear H end. discriminate.
      - match goal with H : exec_all _ _ _ _ (RCons (RPrint _) _) _ _ _ |- _ => inversion H; subst; clear H end;
          match goal with H : exec _ _ _ _ (RPrint _) _ _ _ |- _ => inversion H; subst; clear H end; [|contradiction].
        match goal with H : exec_all _ _ _ _ (RCons (RBreak _) _) _ _ _ |- _ => inversion H; subst; clear H end;
          match goal with H : exec _ _ _ _ (RBreak _) _ _ _ |- _ => inversion H; subst; clear H end.
        destruct vs as [|v0 vs]; [cbn in *; lia|]. reflexivity. }
    match goal with H : exec_all _ _ _ _ (RCons (RRange _ _ _ _ _) _) _ _ _ |- _ => inversion H; subst; clear H end.
    + match goal with H : exec_all _ _ _ _ RNil _ _ _ |- _ => inversion H; subst; clear H end. eapply X; eassumption.
    + eapply X; eassumption.
Qed.
Theorem C158_full_refuted : ~ C158_full.
Proof.
  intros F. destruct (C158_label_refuted false [5; 6]) as [(s & R & O & N) G].
  destruct (F (leaving [5; 6]) s Ends) as (g & Rg & Og & _).
  - reflexivity.
  - cbn. split; [exists 0; reflexivity|]. tauto.
  - cbn. tauto.
  - exact R.
  - rewrite N. discriminate.
  - rewrite (G g Ends Rg), O in Og. discriminate.
Qed.
(** What Zig refuses, whatever is around: a loop with an index only or with nothing, an index
    that is put in a slice, and going on with a loop by its label. *)
Theorem C158_refused : forall index,
  (forall label k x body, compiles index (RRange label k Absent x body) = false) /\
  (forall label k v x y z rest, compiles index (RRange label (Named k) (Named v) x (RCons (RAppend y z k) rest)) = (v =? k) && compiles_all (marked (Named v) false (marked (Named k) true index)) rest) /\
  (forall l, compiles index (RContinue (Some l)) = false).
Proof.
  intros index. split; [reflexivity|]. split; [|reflexivity].
  intros label k v x y z rest. cbn. rewrite Nat.eqb_refl, (Nat.eqb_sym k v). destruct (v =? k); reflexivity.
Qed.

(** [xs := []int{3, 4}; for _, v := range xs { println(v); clear(xs); xs = append(xs, v); if
    v == 0 { break } }; println(len(xs))]: the second round sees what the first one cleared,
    and not what it appended. *)
Definition example : rstmts :=
  RCons (ROne (Literal 0 [3; 4]))
  (RCons (RRange None Blank (Named 1) 0
    (RCons (RPrint 1) (RCons (ROne (Clear 0)) (RCons (RAppend 0 0 1) (RCons (RIf 1 0 (RCons (RBreak None) RNil)) RNil)))))
  (RCons (ROne (PrintLen 0)) RNil)).
Theorem C158_example : compiles_all (fun _ => false) example = true /\ unlabelled_all example /\ own_targets_all example /\ makes_empty_all example /\
  exists s, zig_run false example s Ends /\ out s = [3; 0; 4] /\ stopped s = None.
Proof.
  split; [reflexivity|]. split; [cbn; tauto|]. split; [cbn; repeat split; exists 0; reflexivity|]. split; [cbn; tauto|].
  eexists. split; [|split].
  - unfold zig_run, example.
    eapply ACons. { change Ends with (ending_of (fresh 0 2 [3; 4] start)). apply XOne, ZLiteral. }
    eapply ACons.
    { apply XRange. cbn [vars fresh ZigSliceModel.bind Nat.eqb len].
      eapply (LOn _ _ _ _ _ _ _ _ _ _ _ _ Ends); [cbn; lia| |reflexivity|].
      - eapply ACons; [apply XPrint|].
        eapply ACons. { exact (XOne _ _ _ _ _ _ _ (ZClear _ _ _)). }
        eapply ACons. { refine (XAppend _ _ _ _ _ _ _ _ _ (ZAppendNew _ _ _ _ [] _ _)). reflexivity. }
        eapply ACons; [apply XIfNo; discriminate|apply ANil].
      - eapply (LLeft _ _ _ _ _ _ _ _ _ _ _ _ (Breaks None)); [cbn; lia| |reflexivity].
        eapply ACons; [apply XPrint|].
        eapply ACons. { exact (XOne _ _ _ _ _ _ _ (ZClear _ _ _)). }
        eapply ACons. { refine (XAppend _ _ _ _ _ _ _ _ _ (ZAppendNew _ _ _ _ [] _ _)). reflexivity. }
        apply AEnd; [|discriminate]. apply XIfYes; [reflexivity|]. apply AEnd; [apply XBreak|discriminate]. }
    eapply ACons; [|apply ANil].
    match goal with |- exec _ _ _ _ _ ?s ?t _ => change Ends with (ending_of (print (len (vars s 0)) s)) end. apply XOne, ZLen.
  - reflexivity.
  - reflexivity.
Qed.
