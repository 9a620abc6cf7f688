(** C124: making the schemas ends, for recursive types too. *)
From Coq Require Import String.
From Verif Require Import GoBase GoText DocsModel DocsSpec DocsProps.
Open Scope list_scope.

(** Induction over types and the fields in them. *)
Section Ind.
Context (P : ty -> Prop) (Q : list field -> Prop).
Hypothesis (hb : P TBool) (hi : forall s w, P (TInt s w)) (hf : P TFloat) (hs : P TString) (ht : P TText) (ha : P TAny) (hn : forall id, P (TNamed id))
  (hp : forall t, P t -> P (TPtr t)) (hl : forall t, P t -> P (TSlice t)) (hr : forall n t, P t -> P (TArray n t)) (hm : forall k v, P k -> P v -> P (TMap k v))
  (hst : forall fs, Q fs -> P (TStruct fs)) (q0 : Q []) (qf : forall e n tg t fs, P t -> Q fs -> Q (Field e n tg t :: fs)) (qe : forall e n tg sub fs, Q sub -> Q fs -> Q (Embed e n tg sub :: fs)).
Fixpoint ty_ind' (t : ty) : P t :=
  match t with
  | TBool => hb | TInt s w => hi s w | TFloat => hf | TString => hs | TText => ht | TAny => ha | TNamed id => hn id
  | TPtr t => hp t (ty_ind' t) | TSlice t => hl t (ty_ind' t) | TArray n t => hr n t (ty_ind' t) | TMap k v => hm k v (ty_ind' k) (ty_ind' v)
  | TStruct fs => hst fs ((fix go l : Q l := match l with [] => q0 | f :: l => field_ind' f l (go l) end) fs)
  end
with field_ind' (f : field) : forall fs, Q fs -> Q (f :: fs) :=
  match f with
  | Field e n tg t => fun fs Hf => qf e n tg t fs (ty_ind' t) Hf
  | Embed e n tg sub => fun fs Hf => qe e n tg sub fs ((fix go l : Q l := match l with [] => q0 | f :: l => field_ind' f l (go l) end) sub) Hf
  end.
End Ind.

Section Env.
Context (env : nat -> decl).
Notation sf := (schema_for env).
(** More fuel changes nothing. *)
Lemma more f :
  (forall reg t x, sf f reg t = Some x -> sf (S f) reg t = Some x) /\
  (forall reg t x, body env f reg t = Some x -> body env (S f) reg t = Some x) /\
  (forall reg fs a x, add_fields env f reg fs a = Some x -> add_fields env (S f) reg fs a = Some x) /\
  (forall reg fs a x, add_own env f reg fs a = Some x -> add_own env (S f) reg fs a = Some x) /\
  (forall reg fs p a x, add_anon env f reg fs p a = Some x -> add_anon env (S f) reg fs p a = Some x).
Proof.
  induction f as [|f (I1 & I2 & I3 & I4 & I5)]; [split; [|split; [|split; [|split]]]; intros; discriminate|].
  split; [|split; [|split; [|split]]].
  - intros reg t x E. rewrite sf_eq in E. rewrite sf_eq. destruct t as [|sg w| | | | |id|t|t|n t|kt vt|fs]; try (apply I2; exact E); [|apply I1; exact E].
    destruct (reg_get reg (key_of (env id))); [exact E|].
    assert (X : forall u, match body env f (reg_set (key_of (env id)) empty_schema reg) u with Some (s, r) => Some (ref_to (key_of (env id)), reg_set (key_of (env id)) s r) | None => None end = Some x ->
      match body env (S f) (reg_set (key_of (env id)) empty_schema reg) u with Some (s, r) => Some (ref_to (key_of (env id)), reg_set (key_of (env id)) s r) | None => None end = Some x).
    { intros u H. destruct (body env f _ u) as [y|] eqn:Y; [|discriminate]. rewrite (I2 _ _ _ Y). exact H. }
    destruct (d_under (env id)); try (apply X; exact E). apply I1. exact E.
  - intros reg t x E. rewrite body_eq in E. rewrite body_eq. destruct t as [|sg w| | | | |id|t|t|n t|kt vt|fs]; try exact E.
    + destruct (sf f reg t) as [y|] eqn:Y; [|discriminate]. rewrite (I1 _ _ _ Y). exact E.
    + destruct (sf f reg t) as [y|] eqn:Y; [|discriminate]. rewrite (I1 _ _ _ Y). exact E.
    + destruct (sf f reg kt) as [(y, r)|] eqn:Y; [|discriminate]. rewrite (I1 _ _ _ Y). destruct (sf f r vt) as [y'|] eqn:Y'; [|discriminate]. rewrite (I1 _ _ _ Y'). exact E.
    + destruct (add_fields env f reg fs ([], [])) as [y|] eqn:Y; [|discriminate]. rewrite (I3 _ _ _ _ Y). exact E.
  - intros reg fs a x E. rewrite add_fields_eq in E. rewrite add_fields_eq. destruct (add_own env f reg fs a) as [(y, r)|] eqn:Y; [|discriminate]. rewrite (I4 _ _ _ _ Y). apply I5, E.
  - intros reg fs a x E. rewrite add_own_eq in E. rewrite add_own_eq. destruct fs as [|[e name tag t|e name tag sub] fs]; [exact E| |apply I4, E].
    destruct (negb e || skipped tag); [apply I4, E|]. destruct (sf f reg t) as [(y, r)|] eqn:Y; [|discriminate]. rewrite (I1 _ _ _ Y). apply I4, E.
  - intros reg fs p a x E. rewrite add_anon_eq in E. rewrite add_anon_eq. destruct fs as [|[e name tag t|e name tag sub] fs]; [exact E|apply I5, E|].
    destruct (negb e || existsb (beq name) p); [apply I5, E|]. destruct (add_fields env f reg sub a) as [(y, r)|] eqn:Y; [|discriminate]. rewrite (I3 _ _ _ _ Y). apply I5, E.
Qed.
Lemma sf_more f f' reg t x : (f <= f')%nat -> sf f reg t = Some x -> sf f' reg t = Some x.
Proof. induction 1 as [|f' _ IH]; [auto|]. intros E. apply (proj1 (more f')). apply IH, E. Qed.
Lemma own_more f f' reg fs a x : (f <= f')%nat -> add_own env f reg fs a = Some x -> add_own env f' reg fs a = Some x.
Proof. induction 1 as [|f' _ IH]; [auto|]. intros E. apply (proj1 (proj2 (proj2 (proj2 (more f'))))). apply IH, E. Qed.
Lemma anon_more f f' reg fs p a x : (f <= f')%nat -> add_anon env f reg fs p a = Some x -> add_anon env f' reg fs p a = Some x.
Proof. induction 1 as [|f' _ IH]; [auto|]. intros E. apply (proj2 (proj2 (proj2 (proj2 (more f'))))). apply IH, E. Qed.
Lemma fields_more f f' reg fs a x : (f <= f')%nat -> add_fields env f reg fs a = Some x -> add_fields env f' reg fs a = Some x.
Proof. induction 1 as [|f' _ IH]; [auto|]. intros E. apply (proj1 (proj2 (proj2 (more f')))). apply IH, E. Qed.

(** What is registered stays registered. *)
Definition og {A} (r : registry) (o : option (A * registry)) : Prop := match o with Some (_, r') => grows r r' | None => True end.
Lemma growing f :
  (forall reg t, og reg (sf f reg t)) /\ (forall reg t, og reg (body env f reg t)) /\ (forall reg fs a, og reg (add_fields env f reg fs a)) /\
  (forall reg fs a, og reg (add_own env f reg fs a)) /\ (forall reg fs p a, og reg (add_anon env f reg fs p a)).
Proof.
  induction f as [|f (I1 & I2 & I3 & I4 & I5)]; [split; [|split; [|split; [|split]]]; intros; exact I|].
  split; [|split; [|split; [|split]]].
  - intros reg t. rewrite sf_eq. destruct t as [|sg w| | | | |id|t|t|n t|kt vt|fs]; try apply I2; [|apply I1]. destruct (reg_get reg (key_of (env id))); [apply grows_refl|].
    assert (X : forall u, og reg (match body env f (reg_set (key_of (env id)) empty_schema reg) u with Some (s, r) => Some (ref_to (key_of (env id)), reg_set (key_of (env id)) s r) | None => None end)).
    { intros u. pose proof (I2 (reg_set (key_of (env id)) empty_schema reg) u) as H. destruct (body env f _ u) as [(s, r)|]; [|exact I].
      cbn in *. apply (grows_trans _ _ _ (grows_set (key_of (env id)) empty_schema reg)), (grows_trans _ _ _ H), grows_set. }
    destruct (d_under (env id)) as [|sg w| | | | |id'|t'|t'|n t'|kt vt|fs]; try apply X. pose proof (I1 (reg_set (key_of (env id)) empty_schema reg) t') as H. destruct (sf f _ t') as [(s, r)|]; [|exact I].
    cbn in *. apply (grows_trans _ _ _ (grows_set (key_of (env id)) empty_schema reg) H).
  - intros reg t. rewrite body_eq. destruct t as [|sg w| | | | |id|t|t|n t|kt vt|fs]; try apply grows_refl; try exact I.
    + pose proof (I1 reg t) as H. destruct (sf f reg t) as [(s, r)|]; exact H.
    + pose proof (I1 reg t) as H. destruct (sf f reg t) as [(s, r)|]; exact H.
    + pose proof (I1 reg kt) as H. destruct (sf f reg kt) as [(s, r)|]; [|exact I]. pose proof (I1 r vt) as H'. destruct (sf f r vt) as [(s', r')|]; [|exact I]. apply (grows_trans _ _ _ H H').
    + pose proof (I3 reg fs ([], [])) as H. destruct (add_fields env f reg fs ([], [])) as [(s, r)|]; exact H.
  - intros reg fs a. rewrite add_fields_eq. pose proof (I4 reg fs a) as H. destruct (add_own env f reg fs a) as [(a1, r1)|]; [|exact I]. pose proof (I5 r1 fs (own_names fs) a1) as H'.
    destruct (add_anon env f r1 fs (own_names fs) a1) as [(a2, r2)|]; [|exact I]. apply (grows_trans _ _ _ H H').
  - intros reg fs a. rewrite add_own_eq. destruct fs as [|[e name tag t|e name tag sub] fs]; [apply grows_refl| |apply I4]. destruct (negb e || skipped tag); [apply I4|].
    pose proof (I1 reg t) as H. destruct (sf f reg t) as [(s, r)|]; [|exact I]. match goal with |- og _ (add_own env f r fs ?a) => pose proof (I4 r fs a) as H'; destruct (add_own env f r fs a) as [(a2, r2)|]; [|exact I] end. apply (grows_trans _ _ _ H H').
  - intros reg fs p a. rewrite add_anon_eq. destruct fs as [|[e name tag t|e name tag sub] fs]; [apply grows_refl|apply I5|]. destruct (negb e || existsb (beq name) p); [apply I5|].
    pose proof (I3 reg sub a) as H. destruct (add_fields env f reg sub a) as [(a1, r)|]; [|exact I]. pose proof (I5 r fs p a1) as H'. destruct (add_anon env f r fs p a1) as [(a2, r2)|]; [|exact I]. apply (grows_trans _ _ _ H H').
Qed.

(** ** It ends *)
Section Finite.
Context (ks : list key) (fin : forall id, In (key_of (env id)) ks) (unnamed : forall id j, d_under (env id) <> TNamed j).
Definition missing (r : registry) (k : key) : bool := match reg_get r k with None => true | Some _ => false end.
Definition left_ (r : registry) : nat := List.length (filter (missing r) ks).
Lemma filter_le {A} (p q : A -> bool) l : (forall x, q x = true -> p x = true) -> (List.length (filter q l) <= List.length (filter p l))%nat.
Proof. intros H. induction l as [|x l IH]; cbn; [lia|]. specialize (H x). destruct (q x), (p x); cbn; try lia; discriminate (H eq_refl). Qed.
Lemma filter_lt {A} (p q : A -> bool) l x : (forall x, q x = true -> p x = true) -> In x l -> p x = true -> q x = false -> (List.length (filter q l) < List.length (filter p l))%nat.
Proof.
  intros H. induction l as [|y l IH]; intros X Px Qx; [destruct X|]. cbn. destruct X as [->|X].
  - rewrite Px, Qx. cbn. pose proof (filter_le p q l H). lia.
  - specialize (IH X Px Qx). pose proof (H y). destruct (q y), (p y); cbn; try lia; discriminate (H0 eq_refl).
Qed.
Lemma missing_has r k : missing r k = true <-> ~ has r k.
Proof. unfold missing, has. destruct (reg_get r k) as [s|]; split; intros H; try reflexivity; try discriminate; [exfalso; apply H; discriminate|intros X; exact (X eq_refl)]. Qed.
Lemma left_grows r r' : grows r r' -> (left_ r' <= left_ r)%nat.
Proof. intros G. apply filter_le. intros k. rewrite !missing_has. intros H X. apply H, G, X. Qed.
Lemma left_set id s r : reg_get r (key_of (env id)) = None -> (left_ (reg_set (key_of (env id)) s r) < left_ r)%nat.
Proof.
  intros E. unfold left_. apply filter_lt with (x := key_of (env id)); [intros k; rewrite !missing_has; intros H X; apply H, grows_set, X|apply fin|unfold missing; rewrite E; reflexivity|].
  unfold missing. rewrite reg_get_set, (proj2 (key_eqb_eq _ _) eq_refl). reflexivity.
Qed.
Definition ends (t : ty) (reg : registry) : Prop := exists f x, sf f reg t = Some x.
Lemma ends_body t reg : match t with TNamed _ | TPtr _ => False | _ => True end -> ends t reg -> exists f x, body env f reg t = Some x.
Proof. intros N ([|f] & x & E); [discriminate|]. exists f, x. rewrite sf_eq in E. destruct t; try exact E; destruct N. Qed.
Lemma body_ends t reg f x : match t with TNamed _ | TPtr _ => False | _ => True end -> body env f reg t = Some x -> ends t reg.
Proof. intros N E. exists (S f), x. rewrite sf_eq. destruct t; try exact E; destruct N. Qed.
Lemma all_end n : forall t reg, (left_ reg <= n)%nat -> ends t reg.
Proof.
  induction n as [n IHn] using (well_founded_induction lt_wf).
  apply (ty_ind' (fun t => forall reg, (left_ reg <= n)%nat -> ends t reg)
    (fun fs => forall reg a, (left_ reg <= n)%nat -> (exists f x, add_own env f reg fs a = Some x) /\ (forall p, exists f x, add_anon env f reg fs p a = Some x))).
  1-6: intros; exists 2%nat; eexists; reflexivity.
  - intros id reg L. destruct (reg_get reg (key_of (env id))) as [s|] eqn:R; [exists 1%nat; eexists; rewrite sf_eq, R; reflexivity|].
    pose proof (left_set id empty_schema reg R) as D. pose proof (IHn (left_ (reg_set (key_of (env id)) empty_schema reg)) ltac:(lia)) as IH.
    pose proof (unnamed id) as U. destruct (d_under (env id)) as [|sg w| | | | |id'|t'|t'|m t'|kt vt|fs] eqn:DU.
    7: destruct (U id' eq_refl).
    7: { destruct (IH t' _ (le_n _)) as (f & x & E). exists (S f), x. rewrite sf_eq, R, DU. exact E. }
    all: match type of DU with _ = ?u => destruct (ends_body u _ I (IH u _ (le_n _))) as (f & (s & r) & E); exists (S f); eexists; rewrite sf_eq, R, DU; cbn iota; rewrite E; reflexivity end.
  - intros t IH reg L. destruct (IH reg L) as (f & x & E). exists (S f), x. rewrite sf_eq. exact E.
  - intros t IH reg L. destruct (IH reg L) as (f & (s & r) & E). eapply (body_ends _ _ (S f)); [exact I|]. rewrite body_eq, E. reflexivity.
  - intros m t IH reg L. destruct (IH reg L) as (f & (s & r) & E). eapply (body_ends _ _ (S f)); [exact I|]. rewrite body_eq, E. reflexivity.
  - intros k v IK IV reg L. destruct (IK reg L) as (f & (s & r) & E). pose proof (proj1 (growing f) reg k) as G. rewrite E in G.
    destruct (IV r ltac:(pose proof (left_grows _ _ G); lia)) as (f' & (s' & r') & E'). eapply (body_ends _ _ (S (f + f'))); [exact I|]. rewrite body_eq, (sf_more f (f + f') _ _ _ ltac:(lia) E), (sf_more f' (f + f') _ _ _ ltac:(lia) E'). reflexivity.
  - intros fs IH reg L. destruct (IH reg ([], []) L) as [(f & (a & r) & E) _]. pose proof (proj1 (proj2 (proj2 (proj2 (growing f)))) reg fs ([], [])) as G. rewrite E in G.
    destruct (proj2 (IH r a ltac:(pose proof (left_grows _ _ G); lia)) (own_names fs)) as (f' & (a' & r') & E').
    eapply (body_ends _ _ (S (S (f + f')))); [exact I|]. rewrite body_eq, add_fields_eq, (own_more f (f + f') _ _ _ _ ltac:(lia) E), (anon_more f' (f + f') _ _ _ _ _ ltac:(lia) E'). reflexivity.
  - intros reg a L. split; [|intros p]; exists 1%nat; eexists; reflexivity.
  - intros e name tag t fs IT IF reg a L. split.
    + destruct (negb e || skipped tag) eqn:SK.
      * destruct (proj1 (IF reg a L)) as (f & x & E). exists (S f), x. rewrite add_own_eq, SK. exact E.
      * destruct (IT reg L) as (f & (s & r) & E). pose proof (proj1 (growing f) reg t) as G. rewrite E in G.
        match goal with |- exists f x, add_own env f _ _ _ = _ => idtac end.
        pose proof (fun a => proj1 (IF r a ltac:(pose proof (left_grows _ _ G); lia))) as K.
        destruct (K ((json_name name tag, s) :: fst a, if negb (omits tag) && negb (never_required env t) then snd a ++ [json_name name tag] else snd a)) as (f' & x & E').
        exists (S (f + f')), x. rewrite add_own_eq, SK, (sf_more f (f + f') _ _ _ ltac:(lia) E). apply (own_more f'); [lia|exact E'].
    + intros p. destruct (proj2 (IF reg a L) p) as (f & x & E). exists (S f), x. rewrite add_anon_eq. exact E.
  - intros e name tag sub fs IS IF reg a L. split.
    + destruct (proj1 (IF reg a L)) as (f & x & E). exists (S f), x. rewrite add_own_eq. exact E.
    + intros p. destruct (negb e || existsb (beq name) p) eqn:SK.
      * destruct (proj2 (IF reg a L) p) as (f & x & E). exists (S f), x. rewrite add_anon_eq, SK. exact E.
      * destruct (proj1 (IS reg a L)) as (f & (a1 & r1) & E). pose proof (proj1 (proj2 (proj2 (proj2 (growing f)))) reg sub a) as G. rewrite E in G.
        destruct (proj2 (IS r1 a1 ltac:(pose proof (left_grows _ _ G); lia)) (own_names sub)) as (f' & (a2 & r2) & E'). pose proof (proj2 (proj2 (proj2 (proj2 (growing f')))) r1 sub (own_names sub) a1) as G'. rewrite E' in G'.
        destruct (proj2 (IF r2 a2 ltac:(pose proof (left_grows _ _ G); pose proof (left_grows _ _ G'); lia)) p) as (f'' & x & E'').
        exists (S (S (f + f' + f''))), x. rewrite add_anon_eq, SK, add_fields_eq, (own_more f (f + f' + f'') _ _ _ _ ltac:(lia) E), (anon_more f' (f + f' + f'') _ _ _ _ _ ltac:(lia) E').
        apply (anon_more f''); [lia|exact E''].
Qed.
(** The schemas of any types are made, and enough fuel always gives the same ones: types that refer to themselves do not make it run forever. *)
Theorem C124_ends reg ts : exists f0 l doc, forall f, (f0 <= f)%nat -> schemas_for env f reg ts = Some (l, doc).
Proof.
  revert reg. induction ts as [|t ts IH]; intros reg; [exists 0%nat, [], reg; reflexivity|].
  destruct (all_end (left_ reg) t reg (le_n _)) as (f & (s & r) & E). destruct (IH r) as (f' & l & doc & E').
  exists (f + f')%nat, (s :: l), doc. intros g L. cbn [schemas_for]. rewrite (sf_more f g _ _ _ ltac:(lia) E), (E' g ltac:(lia)). reflexivity.
Qed.
End Finite.
End Env.
