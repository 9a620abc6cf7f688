(** Properties C144-C148: maps over a database. *)
From Verif Require Import GoBase SqlRowModel SqlRowSpec SqlRowProofs SqlDbModel SqlDbSpec SqlDbProofs SqlMapProofs.
Open Scope string_scope.
Open Scope list_scope.
Open Scope Z_scope.

Definition same_tag (n : string) : string := n.

(** C144: a condition built from pointers into the key and the value is sent to the
    database as an expression that holds of exactly the rows whose record satisfies
    it, whatever the types and however deep the pointers. *)
Theorem C144_query_partial :
  forall feq flt K V index, plain K -> exported_only K -> plain V -> exported_only V ->
  exists op kp vp, open same_tag index K V = Ok op /\ o_key_ptrs op = Some kp /\ o_val_ptrs op = Some vp /\
  (NoDup (names op) ->
   forall c, good K V c ->
   exists e, compile feq flt K V kp vp c = Ok e /\
     forall k v ks vs, has_ty k K -> has_ty v V -> values_of K k = Ok ks -> values_of V v = Ok vs ->
       eval feq flt e (as_row op (ks ++ vs)) = holds feq flt c k v).
Proof.
  intros feq flt K V index PK EK PV EV.
  destruct (open_ok same_tag (fun n => eq_refl) K V PK EK PV EV index) as (op & kp & vp & O & Ok1 & Ov & Ak & Av & Ck & Cv).
  exists op, kp, vp. repeat (split; [assumption|]). intros D c G.
  exact (compile_ok feq flt K V PK EK PV EV index op kp vp Ak Av Ck Cv D c G).
Qed.
(** == is equality, when there are no floats *)
Theorem C144_equality :
  forall feq t, no_float t -> forall a b, has_ty a t -> has_ty b t -> (go_eq feq t a b = true <-> a = b).
Proof. exact go_eq_is. Qed.

(** what Contains, HasPrefix and HasSuffix mean *)
Lemma has_prefix_is : forall pre s, has_prefix s pre = true <-> exists r, s = pre ++ r.
Proof.
  induction pre as [|y pre IH]; intro s.
  - split; [intros _; exists s; reflexivity|destruct s; reflexivity].
  - destruct s as [|x s]; [split; [discriminate|intros [r H]; discriminate]|].
    cbn [has_prefix]. rewrite andb_true_iff, IH, Z.eqb_eq. split.
    + intros (-> & r & ->). exists r. reflexivity.
    + intros (r & H). injection H as -> ->. split; [reflexivity|exists r; reflexivity].
Qed.
Lemma contains_is : forall sub s, contains s sub = true <-> exists a b, s = a ++ sub ++ b.
Proof.
  intro sub. induction s as [|x s IH]; cbn [contains]; rewrite orb_true_iff, has_prefix_is.
  - split; [intros [[r H]|H]; [exists [], r; exact H|discriminate]|].
    intros (a & b & H). left. destruct a; [exists b; exact H|discriminate].
  - rewrite IH. split.
    + intros [[r H]|(a & b & ->)]; [exists [], r; exact H|exists (x :: a), b; reflexivity].
    + intros ([|y a] & b & H); [left; exists b; exact H|]. right. injection H as _ H. exists a, b. exact H.
Qed.
Theorem C144_match : forall m s sub, go_match m s sub = true <-> matches m s sub.
Proof.
  intros [] s sub; cbn [go_match matches]; [apply contains_is|apply has_prefix_is|].
  rewrite has_prefix_is. split; intros [r H].
  - exists (rev r). rewrite <- (rev_involutive s), H, rev_app_distr, rev_involutive. reflexivity.
  - exists (rev r). rewrite H, rev_app_distr. reflexivity.
Qed.

(** The pointers a query can use are those to the exported parts of its arguments, for
    every type that has columns. *)
Lemma fields_pointers : forall (wf : nat -> field -> outcome (list (addr * list column))) here fs i l,
  Forall (fun f : field => forall j l, wf j f = Ok l -> forall q, (exists cs, In (q, cs) l) <-> exists p, q = here ++ j :: p /\ visible p (snd f)) fs ->
  walk_fields wf i fs = Ok l ->
  forall q, (exists cs, In (q, cs) l) <-> exists j p (f : field), nth_error fs j = Some f /\ snd (fst (fst f)) = true /\ q = here ++ (i + j)%nat :: p /\ visible p (snd f).
Proof.
  intros wf here. induction fs as [|f fs IH]; intros i l F W q; cbn [walk_fields] in W.
  - injection W as <-. split; [intros [cs []]|]. intros (j & p & f & N & _). destruct j; discriminate.
  - inversion F as [|? ? F1 F2]; subst. destruct (snd (fst (fst f))) eqn:X.
    + destruct (wf i f) as [a|] eqn:A; [|discriminate]. cbn [obind] in W.
      destruct (walk_fields wf (S i) fs) as [b|] eqn:B; [|discriminate]. injection W as <-.
      specialize (F1 _ _ A q). specialize (IH _ _ F2 B q). split.
      * intros [cs I]. apply in_app_or in I. destruct I as [I|I].
        -- destruct (proj1 F1 (ex_intro _ cs I)) as (p & -> & V). exists 0%nat, p, f. rewrite Nat.add_0_r. auto.
        -- destruct (proj1 IH (ex_intro _ cs I)) as (j & p & g & N & E & -> & V). exists (S j), p, g. rewrite <- Nat.add_succ_comm. auto.
      * intros ([|j] & p & g & N & E & -> & V).
        -- injection N as <-. rewrite Nat.add_0_r in *. destruct (proj2 F1) as [cs I]; [eauto|]. exists cs. apply in_or_app. now left.
        -- destruct (proj2 IH) as [cs I]; [exists j, p, g; rewrite Nat.add_succ_comm; auto|]. exists cs. apply in_or_app. now right.
    + specialize (IH _ _ F2 W q). rewrite IH. split.
      * intros (j & p & g & N & E & -> & V). exists (S j), p, g. rewrite <- Nat.add_succ_comm. auto.
      * intros ([|j] & p & g & N & E & -> & V); [injection N as <-; congruence|].
        exists j, p, g. rewrite Nat.add_succ_comm. auto.
Qed.
Lemma elems_pointers : forall (we : nat -> outcome (list (addr * list column))) here t k i l,
  (forall j l, we j = Ok l -> forall q, (exists cs, In (q, cs) l) <-> exists p, q = here ++ j :: p /\ visible p t) ->
  walk_elems we i k = Ok l ->
  forall q, (exists cs, In (q, cs) l) <-> exists j p, (j < k)%nat /\ q = here ++ (i + j)%nat :: p /\ visible p t.
Proof.
  intros we here t. induction k as [|k IH]; intros i l F W q; cbn [walk_elems] in W.
  - injection W as <-. split; [intros [cs []]|]. intros (j & p & N & _). lia.
  - destruct (we i) as [a|] eqn:A; [|discriminate]. cbn [obind] in W.
    destruct (walk_elems we (S i) k) as [b|] eqn:B; [|discriminate]. injection W as <-.
    pose proof (F _ _ A q) as F1. specialize (IH _ _ F B q). split.
    + intros [cs I]. apply in_app_or in I. destruct I as [I|I].
      * destruct (proj1 F1 (ex_intro _ cs I)) as (p & -> & V). exists 0%nat, p. rewrite Nat.add_0_r. split; [lia|auto].
      * destruct (proj1 IH (ex_intro _ cs I)) as (j & p & N & -> & V). exists (S j), p. rewrite <- Nat.add_succ_comm. split; [lia|auto].
    + intros ([|j] & p & N & -> & V).
      * rewrite Nat.add_0_r in *. destruct (proj2 F1) as [cs I]; [eauto|]. exists cs. apply in_or_app. now left.
      * destruct (proj2 IH) as [cs I]; [exists j, p; rewrite Nat.add_succ_comm; split; [lia|auto]|]. exists cs. apply in_or_app. now right.
Qed.
Lemma walk_pointers : forall uncut t path name long emb here l, walk uncut path name long emb t here = Ok l ->
  forall q, (exists cs, In (q, cs) l) <-> exists p, q = here ++ p /\ visible p t.
Proof.
  intro uncut. induction t as [ | w | w | w | | | | fs IH | n t IH | t IH | ] using ty_induct;
    intros path name long emb here l W q; cbn [walk] in W;
    match type of W with obind ?x _ = _ => destruct x as [cs|] eqn:C; [|discriminate] end; cbn [obind] in W;
    try (injection W as <-; split;
      [intros [c [E|[]]]; injection E as <- <-; exists []; rewrite app_nil_r; split; [reflexivity|constructor]
      |intros (p & -> & V); inversion V; subst; exists cs; left; rewrite app_nil_r; reflexivity]).
  - match type of W with obind ?x _ = _ => destruct x as [r|] eqn:R; [|discriminate] end. injection W as <-.
    pose proof (fun F => fields_pointers _ here fs 0 r F R q) as G. cbn [Nat.add] in G.
    assert (F : Forall (fun f : field => forall j l, (let '(n, _, emb0, t') := f in
        walk uncut (if emb then path else path ++ [prefixed path long]) n (uncut n) emb0 t' (here ++ [j])) = Ok l ->
        forall q, (exists cs, In (q, cs) l) <-> exists p, q = here ++ j :: p /\ visible p (snd f)) fs).
    { apply Forall_forall. intros [[[fn fx] fe] ft] I j l W q0. rewrite Forall_forall in IH. specialize (IH _ I _ _ _ _ _ _ W q0). cbn [snd] in *.
      rewrite IH. split; intros (p & -> & V); exists p; (split; [now rewrite <- app_assoc|exact V]). }
    specialize (G F). split.
    + intros [c [E|I]]; [injection E as <- <-; exists []; rewrite app_nil_r; split; [reflexivity|constructor]|].
      destruct (proj1 G (ex_intro _ c I)) as (j & p & f & N & X & -> & V). exists (j :: p). split; [reflexivity|]. econstructor; eauto.
    + intros (p & -> & V). inversion V as [|i p' fs' f N X V'|]; subst.
      * exists cs. left. now rewrite app_nil_r.
      * destruct (proj2 G) as [c I]; [exists i, p', f; auto|]. exists c. now right.
  - match type of W with obind ?x _ = _ => destruct x as [r|] eqn:R; [|discriminate] end. injection W as <-.
    pose proof (fun F => elems_pointers _ here t n 0 r F R q) as G. cbn [Nat.add] in G.
    match type of G with ?F -> _ => assert (H : F) end.
    { intros j l W q0. specialize (IH _ _ _ _ _ _ W q0). rewrite IH.
      split; intros (p & -> & V); exists p; (split; [now rewrite <- app_assoc|exact V]). }
    specialize (G H). split.
    + intros [c [E|I]]; [injection E as <- <-; exists []; rewrite app_nil_r; split; [reflexivity|constructor]|].
      destruct (proj1 G (ex_intro _ c I)) as (j & p & N & -> & V). exists (j :: p). split; [reflexivity|]. constructor; auto.
    + intros (p & -> & V). inversion V as [| |i p' n' e N V']; subst.
      * exists cs. left. now rewrite app_nil_r.
      * destruct (proj2 G) as [c I]; [exists i, p'; auto|]. exists c. now right.
Qed.
Theorem C144_pointers : forall uncut index K V op, open uncut index K V = Ok op ->
  exists kp vp, o_key_ptrs op = Some kp /\ o_val_ptrs op = Some vp /\
  (forall p, column_of kp vp (InKey p) <> None <-> visible p K) /\
  (forall p, column_of kp vp (InVal p) <> None <-> visible p V).
Proof.
  intros uncut index K V op O. unfold open in O.
  destruct (walk uncut [] index index (is_struct K) K []) as [kp|] eqn:A; [|discriminate]. cbn [obind] in O.
  destruct (walk uncut [] "value" "value" (is_struct V) V []) as [vp|] eqn:B; [|discriminate]. cbn [obind] in O.
  destruct (columns_of [] index (is_struct K) K) as [ki|]; [|discriminate]. cbn [obind] in O.
  destruct (columns_of [] "value" (is_struct V) V) as [vi|]; [|discriminate]. injection O as <-.
  exists kp, vp. split; [reflexivity|]. split; [reflexivity|].
  assert (G : forall l t, (forall q, (exists cs, In (q, cs) l) <-> exists p, q = [] ++ p /\ visible p t) ->
     forall p, assoc p l <> None <-> visible p t).
  { intros l t H p. destruct (assoc_in p l) as [A1 A2]. destruct (assoc p l) as [c|] eqn:E.
    - split; [intros _|discriminate]. destruct (proj1 (H p) (ex_intro _ c (A1 c eq_refl))) as (p' & -> & V0). exact V0.
    - split; [congruence|]. intros V0 _. destruct (proj2 (H p) (ex_intro _ p (conj eq_refl V0))) as [c I]. exact (A2 eq_refl c I). }
  split; cbn [column_of]; apply G.
  - exact (walk_pointers _ _ _ _ _ _ _ _ A).
  - exact (walk_pointers _ _ _ _ _ _ _ _ B).
Qed.
(** A condition on a variable elsewhere is decided when the query is made, by what the variable holds. *)
Theorem C144_elsewhere : forall feq flt K V kp vp k v,
  (forall t x w, compile feq flt K V kp vp (Equals (Outside x) t w) = Ok (EValue (holds feq flt (Equals (Outside x) t w) k v))) /\
  (forall t x, compile feq flt K V kp vp (Empty (Outside x) t) = Ok (EValue (holds feq flt (Empty (Outside x) t) k v))) /\
  (forall o t y z, compile feq flt K V kp vp (Where o (Outside (VNum y)) t z) = Ok (EValue (holds feq flt (Where o (Outside (VNum y)) t z) k v))) /\
  (forall m y s, compile feq flt K V kp vp (Match m (Outside (VStr y)) s) = Ok (EValue (holds feq flt (Match m (Outside (VStr y)) s) k v))).
Proof. intros. split; [|split; [|split]]; reflexivity. Qed.

Definition ieq (w a b : Z) : bool := a =? b.
Definition ilt (w a b : Z) : bool := a <? b.
Definition ex_key : ty := TStruct [("tenant", true, false, TString); ("no", true, false, TInt 64)].
Definition ex_val : ty := TStruct [("pos", true, false, TStruct [("x", true, false, TInt 32); ("y", true, false, TInt 32)]);
  ("tags", true, false, TArray 2 TString)].
Definition ex_cond : cond :=
  Merge [Equals (InKey []) ex_key (VList [VStr [97]; VNum 7]);
         Cases [Where Min (InVal [0; 1]%nat) (TInt 32) 5; Match HasPrefix (InVal [1; 0]%nat) [98]];
         Avoid (Empty (InVal [1; 1]%nat) TString)].
Definition ex_rec (y : Z) (tag : bytes) : val := VList [VList [VNum 1; VNum y]; VList [VStr tag; VStr [99]]].
Theorem C144_example :
  good ex_key ex_val ex_cond /\
  (exists op, open same_tag "id" ex_key ex_val = Ok op /\
     names op = ["tenant"; "no"; "pos_x"; "pos_y"; "tags1"; "tags2"] /\ NoDup (names op)) /\
  holds ieq ilt ex_cond (VList [VStr [97]; VNum 7]) (ex_rec 5 []) = true /\
  holds ieq ilt ex_cond (VList [VStr [97]; VNum 7]) (ex_rec 4 [98; 1]) = true /\
  holds ieq ilt ex_cond (VList [VStr [97]; VNum 7]) (ex_rec 4 [97]) = false /\
  holds ieq ilt ex_cond (VList [VStr [97]; VNum 8]) (ex_rec 5 []) = false.
Proof.
  split.
  { unfold ex_cond. apply GMerge; [discriminate|]. constructor; [|constructor; [|constructor; [|constructor]]].
    - apply GEquals; [constructor|repeat constructor|reflexivity|repeat constructor].
    - apply GCases; [discriminate|]. constructor; [|constructor; [|constructor]].
      + apply GWhere; [|exact I]. cbn. eapply TField; [reflexivity|]. eapply TField; [reflexivity|]. constructor.
      + apply GMatch. cbn. eapply TField; [reflexivity|]. eapply TElem; [lia|]. constructor.
    - apply GAvoid. apply GEmpty; [|constructor|exact I]. cbn. eapply TField; [reflexivity|]. eapply TElem; [lia|]. constructor. }
  split.
  { eexists. split; [vm_compute; reflexivity|]. split; [vm_compute; reflexivity|].
    vm_compute. repeat constructor; cbn; intuition discriminate. }
  repeat split; vm_compute; reflexivity.
Qed.

(** What is missing.  Empty of a field with several columns looks at the first only:
    here at x, not at y. *)
Definition two : ty := TStruct [("p", true, false, TStruct [("x", true, false, TInt 64); ("y", true, false, TInt 64)])].
Theorem C144_empty_struct_refuted :
  forall feq flt, exists op kp vp e, open same_tag "id" (TInt 64) two = Ok op /\
    o_key_ptrs op = Some kp /\ o_val_ptrs op = Some vp /\
    compile feq flt (TInt 64) two kp vp (Empty (InVal [0%nat]) (TStruct [("x", true, false, TInt 64); ("y", true, false, TInt 64)])) = Ok e /\
    forall k y, y <> 0 ->
      eval feq flt e (as_row op [DInt 64 k; DInt 64 0; DInt 64 y]) = true /\
      holds feq flt (Empty (InVal [0%nat]) (TStruct [("x", true, false, TInt 64); ("y", true, false, TInt 64)]))
        (VNum k) (VList [VList [VNum 0; VNum y]]) = false.
Proof.
  intros feq flt. do 4 eexists. split; [reflexivity|]. split; [reflexivity|]. split; [reflexivity|]. split; [reflexivity|].
  intros k y N. split; [reflexivity|]. cbn. destruct (Z.eqb_spec y 0); [contradiction|reflexivity].
Qed.
(** A tag with options, `sql:"a,unique"`, names the columns of the table without the
    options and the columns below it in queries with them. *)
Definition tagged : ty := TStruct [("a", true, false, TStruct [("b", true, false, TInt 64)])].
Definition options (n : string) : string := if String.eqb n "a" then "a,unique" else n.
Theorem C144_tag_options_refuted :
  forall feq flt z, exists op kp vp e, open options "id" (TInt 64) tagged = Ok op /\
    o_key_ptrs op = Some kp /\ o_val_ptrs op = Some vp /\ names op = ["id"; "a_b"] /\
    compile feq flt (TInt 64) tagged kp vp (Equals (InVal [0; 0]%nat) (TInt 64) (VNum z)) = Ok e /\
    e = EGroup [EIndex ("a,unique_b", KInt 64) (DInt 64 z)] /\
    forall r, List.length r = 2%nat -> eval feq flt e (as_row op r) = false.
Proof.
  intros feq flt z. do 4 eexists. split; [reflexivity|]. split; [reflexivity|]. split; [reflexivity|].
  split; [reflexivity|]. split; [reflexivity|]. split; [reflexivity|].
  intros [|a [|b [|c r]]] L; try discriminate L. reflexivity.
Qed.
(** A pointer to an unexported field, or to a variable that is none of the arguments,
    makes a condition that is decided before the search: it does not depend on the
    record. *)
Definition hidden : ty := TStruct [("a", true, false, TInt 64); ("b", false, false, TInt 64)].
Theorem C144_elsewhere_refuted :
  forall feq flt, exists op kp vp, open same_tag "id" (TInt 64) hidden = Ok op /\
    o_key_ptrs op = Some kp /\ o_val_ptrs op = Some vp /\
    (forall z, compile feq flt (TInt 64) hidden kp vp (Equals (InVal [1%nat]) (TInt 64) (VNum z)) = Ok (EValue (0 =? z))) /\
    (forall t x w, compile feq flt (TInt 64) hidden kp vp (Equals (Outside x) t w) = Ok (EValue (go_eq feq t x w))).
Proof.
  intros feq flt. do 3 eexists. split; [reflexivity|]. split; [reflexivity|]. split; [reflexivity|]. split; reflexivity.
Qed.
(** No condition at all is satisfied by every record: Cases() lets everything pass. *)
Theorem C144_no_cases_refuted :
  forall feq flt K V kp vp k v, compile feq flt K V kp vp (Cases []) = Ok (EValue true) /\
    holds feq flt (Cases []) k v = false.
Proof. split; reflexivity. Qed.
(** A map made by OpenTable cannot be queried: the search panics, whatever the query. *)
Theorem C144_open_table_refuted :
  forall feq flt K V index value S dbs (st : S) q,
  m_search feq flt K V (open_table index value) S dbs st q = Panic.
Proof. reflexivity. Qed.
(** A second map over the same table with another key column is queried by the column
    of the first. *)
Theorem C144_second_index_refuted :
  forall feq flt z, exists one two kp vp e,
    open same_tag "a" (TInt 64) TString = Ok one /\ open same_tag "b" (TInt 64) TString = Ok two /\
    o_key_ptrs (reopen one two) = Some kp /\ o_val_ptrs (reopen one two) = Some vp /\
    names (reopen one two) = ["b"; "value"] /\
    compile feq flt (TInt 64) TString kp vp (Equals (InKey []) (TInt 64) (VNum z)) = Ok e /\
    forall r, List.length r = 2%nat -> eval feq flt e (as_row (reopen one two) r) = false.
Proof.
  intros feq flt z. do 5 eexists. split; [reflexivity|]. split; [reflexivity|]. split; [reflexivity|]. split; [reflexivity|].
  split; [reflexivity|]. split; [reflexivity|]. intros [|a [|b [|c r]]] L; try discriminate L. reflexivity.
Qed.
(** A field without columns cannot be compared: it panics. *)
Theorem C144_no_columns_refuted :
  forall feq flt, exists op kp vp, open same_tag "id" (TInt 64) (TStruct [("a", true, false, TArray 0 TString)]) = Ok op /\
    o_key_ptrs op = Some kp /\ o_val_ptrs op = Some vp /\
    compile feq flt (TInt 64) (TStruct [("a", true, false, TArray 0 TString)]) kp vp (Equals (InVal [0%nat]) (TArray 0 TString) (VList [])) = Panic.
Proof. intros. do 3 eexists. repeat split; reflexivity. Qed.

(** C145: a patch changes in the row exactly the columns of the parts it sets, to the
    values it gives them. *)
Theorem C145_patch_partial :
  forall K V index, plain K -> exported_only K -> plain V -> exported_only V ->
  exists op vp, open same_tag index K V = Ok op /\ o_val_ptrs op = Some vp /\
  (NoDup (names op) ->
   forall patch, good_patch V patch ->
   exists ms, set_columns vp patch = Ok ms /\
     forall k v ks vs, has_ty k K -> has_ty v V -> values_of K k = Ok ks -> values_of V v = Ok vs ->
     has_ty (puts patch v) V /\
     exists vs', values_of V (puts patch v) = Ok vs' /\
       fold_left (fun r m => modify m r) ms (as_row op (ks ++ vs)) = as_row op (ks ++ vs')).
Proof.
  intros K V index PK EK PV EV.
  destruct (open_ok same_tag (fun n => eq_refl) K V PK EK PV EV index) as (op & kp & vp & O & Ok1 & Ov & Ak & Av & Ck & Cv).
  exists op, vp. repeat (split; [assumption|]). intros D patch G.
  destruct (patch_ok K V PK EK PV EV index op vp Av Ck Cv D patch G) as (ms & Ms & P). exists ms. split; [exact Ms|].
  intros k v ks vs Hk Hv Vk Vv. destruct (P v Hv) as (A & B). split; [exact A|]. exact (B k ks vs Hk Vk Vv).
Qed.
Theorem C145_example :
  good_patch ex_val [([0; 1]%nat, TInt 32, VNum 9); ([1%nat], TArray 2 TString, VList [VStr [1]; VStr [2]])] /\
  puts [([0; 1]%nat, TInt 32, VNum 9); ([1%nat], TArray 2 TString, VList [VStr [1]; VStr [2]])] (ex_rec 4 [98]) =
    VList [VList [VNum 1; VNum 9]; VList [VStr [1]; VStr [2]]].
Proof.
  split; [|reflexivity]. constructor; [|constructor; [|constructor]].
  - split; [|split; [reflexivity|constructor]]. cbn. eapply TField; [reflexivity|]. eapply TField; [reflexivity|]. constructor.
  - split; [|split; [reflexivity|repeat constructor]]. cbn. eapply TField; [reflexivity|]. constructor.
Qed.
(** What is missing: setting a field that is not exported changes nothing in the
    database; setting one without columns panics. *)
Theorem C145_unexported_refuted :
  exists op vp, open same_tag "id" (TInt 64) hidden = Ok op /\ o_val_ptrs op = Some vp /\
    forall z, set_columns vp [([1%nat], TInt 64, VNum z)] = Ok [].
Proof. do 2 eexists. repeat split; reflexivity. Qed.

(** C146: over any database that follows the standard, the methods of a map are those
    of a finite map.  [is_map]: records of the right types with different keys;
    [holds_map]: the table holds just these records. *)
Section Map.
Variables feq flt : Z -> Z -> Z -> bool.
Variables K V : ty.
Variable index : string.
Variable op : opened.
Definition usable : Prop :=
  plain K /\ exported_only K /\ plain V /\ exported_only V /\ no_float K /\ inhabited K = true /\
  open same_tag index K V = Ok op /\ NoDup (names op).
Definition valid_key (k : val) : Prop := has_ty k K /\ k <> zero K.
Lemma valid_nonzero k : plain K -> no_float K -> valid_key k -> go_eq feq K k (zero K) = false.
Proof.
  intros PK NK [Hk N]. destruct (go_eq feq K k (zero K)) eqn:E; [|reflexivity].
  apply (go_eq_is feq K NK k (zero K) Hk (zero_ty K PK)) in E. contradiction.
Qed.
Lemma key_is k x : no_float K -> has_ty k K -> has_ty (fst x) K -> (has_key feq K k x = true <-> fst x = k).
Proof. intros N A B. exact (go_eq_is feq K N (fst x) k B A). Qed.

Theorem C146_insert :
  usable -> forall st m k flag v, is_map K V m -> holds_map K V st m -> valid_key k -> has_ty v V ->
  exists st', m_insert feq K V state (ref_insert feq) st k flag v =
      Ok (st', if existsb (has_key feq K k) m && negb flag then Some ErrDuplicate else None) /\
    let m' := if existsb (has_key feq K k) m
              then if flag then map (fun x => if has_key feq K k x then (k, v) else x) m else m
              else m ++ [(k, v)] in
    is_map K V m' /\ holds_map K V st' m'.
Proof.
  intros (PK & EK & PV & EV & NK & IK & O & D) st m k flag v M H Vk Hv.
  exact (insert_ok feq same_tag (fun n => eq_refl) K V PK EK PV EV NK index op O st m k flag v M H (proj1 Vk) Hv (valid_nonzero k PK NK Vk)).
Qed.
(** Set never fails: afterwards the key has this value, and the others what they had. *)
Theorem C146_set :
  usable -> forall st m k v, is_map K V m -> holds_map K V st m -> valid_key k -> has_ty v V ->
  exists st', m_set feq K V state (ref_insert feq) st k v = Ok (st', None) /\
    let m' := if existsb (has_key feq K k) m
              then map (fun x => if has_key feq K k x then (k, v) else x) m
              else m ++ [(k, v)] in
    is_map K V m' /\ holds_map K V st' m'.
Proof.
  intros U st m k v M H Vk Hv. destruct (C146_insert U st m k true v M H Vk Hv) as (st' & E & R). exists st'.
  unfold m_set. rewrite E. rewrite andb_false_r. split; [reflexivity|]. destruct (existsb (has_key feq K k) m); exact R.
Qed.
Theorem C146_search :
  usable -> forall st m q, is_map K V m -> holds_map K V st m -> good_query K V q ->
  m_search feq flt K V op state (ref_search feq flt op) st q = Ok (marked (selected feq flt q m) m).
Proof.
  intros (PK & EK & PV & EV & NK & IK & O & D) st m q M H G.
  exact (search_ok feq flt same_tag (fun n => eq_refl) K V PK EK PV EV index op O D st m q M H G).
Qed.
(** without a slice these are just the records for which the query holds *)
Theorem C146_search_all :
  usable -> forall st m q, is_map K V m -> holds_map K V st m -> Forall (good K V) q ->
  m_search feq flt K V op state (ref_search feq flt op) st q =
    Ok (filter (fun x => forallb (fun c => holds feq flt c (fst x) (snd x)) q) m) /\
  m_first feq flt K V op state (ref_search feq flt op) st q =
    Ok (List.find (fun x => forallb (fun c => holds feq flt c (fst x) (snd x)) q) m).
Proof.
  intros U st m q M H G. assert (Q : good_query K V q) by (eapply Forall_impl; [|exact G]; intros c; now left).
  assert (S : slice_of q = None).
  { clear -G. induction G as [|c q Gc G IH]; [reflexivity|]. inversion Gc; exact IH. }
  assert (X : marked (selected feq flt q m) m = filter (all_hold feq flt q) m).
  { unfold selected. rewrite S. generalize 0. clear. induction m as [|x m IH]; intro i; [reflexivity|].
    cbn [marks filter]. destruct (all_hold feq flt q x); cbn [marked]; now rewrite IH. }
  unfold m_first. rewrite (C146_search U st m q M H Q). cbn [obind]. rewrite X. split; [reflexivity|]. f_equal.
  fold (all_hold feq flt q). clear. induction m as [|x m IH]; [reflexivity|]. cbn [filter List.find]. fold (all_hold feq flt q x).
  destruct (all_hold feq flt q x); [reflexivity|exact IH].
Qed.
Theorem C146_lookup :
  usable -> forall st m k, is_map K V m -> holds_map K V st m -> valid_key k ->
  exists r, m_lookup feq flt K V op state (ref_search feq flt op) st k = Ok (inl r) /\
    forall v, r = Some v <-> In (k, v) m.
Proof.
  intros U st m k M H Vk. pose proof U as (PK & EK & PV & EV & NK & IK & O & D).
  unfold m_lookup. rewrite (valid_nonzero k PK NK Vk).
  rewrite (C146_search U st m _ M H (key_good K V NK IK k (proj1 Vk))). cbn [obind].
  pose proof (key_selected feq flt K V NK k [] m M (proj1 Vk)) as S. cbn [app] in S. rewrite S, marked_map.
  eexists. split; [reflexivity|]. intro v. destruct M as [N T]. clear S H.
  induction m as [|[k' v'] m IH]; cbn [filter]; [split; [discriminate|intros []]|].
  inversion T as [|? ? [T1 T2] T']; inversion N as [|? ? N1 N2]; subst. cbn [fst snd] in *.
  rewrite andb_true_r. destruct (has_key feq K k (k', v')) eqn:E.
  - apply (key_is k (k', v') NK (proj1 Vk) T1) in E. cbn [fst] in E. subst k'. split.
    + intro Q. injection Q as ->. now left.
    + intros [Q|Q]; [now injection Q as ->|]. destruct N1. now apply (in_map fst) in Q.
  - rewrite (IH N2 T'). split; [now right|]. intros [Q|Q]; [|exact Q]. injection Q as -> ->.
    assert (X : has_key feq K k (k, v) = true) by now apply (key_is k (k, v) NK (proj1 Vk)). congruence.
Qed.
Theorem C146_unsafe_delete :
  usable -> forall st m q, is_map K V m -> holds_map K V st m -> good_query K V q ->
  let ms := selected feq flt q m in
  exists st', m_unsafe_delete feq flt K V op state (ref_delete feq flt op) st q = Ok (st', count ms) /\
    is_map K V (unmarked ms m) /\ holds_map K V st' (unmarked ms m).
Proof.
  intros (PK & EK & PV & EV & NK & IK & O & D) st m q M H G.
  exact (delete_ok feq flt same_tag (fun n => eq_refl) K V PK EK PV EV index op O D st m q M H G).
Qed.
Theorem C146_delete :
  usable -> forall st m k check, is_map K V m -> holds_map K V st m -> valid_key k -> Forall (good K V) check ->
  let hit := fun x => has_key feq K k x && all_hold feq flt check x in
  exists st', m_delete feq flt K V op state (ref_delete feq flt op) st k check = Ok (st', inl (existsb hit m)) /\
    let m' := filter (fun x => negb (hit x)) m in is_map K V m' /\ holds_map K V st' m'.
Proof.
  intros U st m k check M H Vk G hit. pose proof U as (PK & EK & PV & EV & NK & IK & O & D).
  unfold m_delete. rewrite (valid_nonzero k PK NK Vk).
  destruct (C146_unsafe_delete U st m _ M H (check_good K V NK IK k check (proj1 Vk) G)) as (st' & E & A & B).
  rewrite E. cbn [obind fst snd]. rewrite (key_selected feq flt K V NK k check m M (proj1 Vk)) in *.
  rewrite unmarked_map in A, B. rewrite count_map. eexists. split; [reflexivity|]. split; assumption.
Qed.
Theorem C146_update :
  usable -> forall st m q patch, is_map K V m -> holds_map K V st m -> good_query K V q -> good_patch V patch ->
  let ms := selected feq flt q m in
  let m' := change (fun x => (fst x, puts patch (snd x))) ms m in
  exists st', m_update feq flt K V op state (ref_update feq flt op) st q patch = Ok (st', count ms) /\
    is_map K V m' /\ holds_map K V st' m'.
Proof.
  intros (PK & EK & PV & EV & NK & IK & O & D) st m q patch M H G P.
  exact (update_ok feq flt same_tag (fun n => eq_refl) K V PK EK PV EV index op O D st m q patch M H G P).
Qed.
Theorem C146_mutate :
  usable -> forall st m k check patch, is_map K V m -> holds_map K V st m -> valid_key k ->
  Forall (good K V) check -> good_patch V patch ->
  let hit := fun x => has_key feq K k x && all_hold feq flt check x in
  exists st', m_mutate feq flt K V op state (ref_update feq flt op) st k check patch = Ok (st', inl (existsb hit m)) /\
    let m' := map (fun x => if hit x then (fst x, puts patch (snd x)) else x) m in is_map K V m' /\ holds_map K V st' m'.
Proof.
  intros U st m k check patch M H Vk G P hit. pose proof U as (PK & EK & PV & EV & NK & IK & O & D).
  unfold m_mutate. rewrite (valid_nonzero k PK NK Vk).
  destruct (C146_update U st m _ patch M H (check_good K V NK IK k check (proj1 Vk) G) P) as (st' & E & A & B).
  rewrite E. cbn [obind fst snd]. rewrite (key_selected feq flt K V NK k check m M (proj1 Vk)) in *.
  rewrite change_map in A, B. rewrite count_map. eexists. split; [reflexivity|]. split; assumption.
Qed.
(** What is missing: the zero key.  Every method that takes a key refuses it (in
    memory it is a key like any other). *)
Theorem C146_zero_key_refuted :
  usable -> forall st flag v check patch,
  m_insert feq K V state (ref_insert feq) st (zero K) flag v = Ok (st, Some ErrInvalidKey) /\
  m_lookup feq flt K V op state (ref_search feq flt op) st (zero K) = Ok (inr ErrInvalidKey) /\
  m_delete feq flt K V op state (ref_delete feq flt op) st (zero K) check = Ok (st, inr ErrInvalidKey) /\
  m_mutate feq flt K V op state (ref_update feq flt op) st (zero K) check patch = Ok (st, inr ErrInvalidKey).
Proof.
  intros (PK & EK & PV & EV & NK & IK & O & D) st flag v check patch.
  assert (Z : go_eq feq K (zero K) (zero K) = true) by (apply (go_eq_is feq K NK); auto using zero_ty).
  unfold m_insert, m_lookup, m_delete, m_mutate. rewrite Z. auto.
Qed.
(** Add: a key the database chose is decoded and answered; *)
Theorem C146_add :
  usable -> forall (S : Type) db (st st' : S) v vs k ks zs,
  has_ty v V -> values_of V v = Ok vs -> valid_key k -> values_of K k = Ok ks -> values_of K (zero K) = Ok zs ->
  db st zs vs = (st', 1, ks) ->
  m_add feq K V S db st v = Ok (st', Added k).
Proof.
  intros (PK & EK & PV & EV & NK & IK & O & D) S db st st' v vs k ks zs Hv Vv Vk Kk Zs E.
  unfold m_add. rewrite Zs. cbn [obind]. rewrite Vv. cbn [obind]. rewrite E. cbn [Z.eqb].
  destruct (round_trip K PK EK k (proj1 Vk) []) as (d & D1 & R). rewrite Kk in D1. injection D1 as <-. rewrite app_nil_r in R.
  rewrite R. cbn [obind fst]. rewrite (valid_nonzero k PK NK Vk). reflexivity.
Qed.
(** a record the database has already is told *)
Theorem C146_add_duplicate :
  usable -> forall (S : Type) db (st st' : S) v vs ks zs,
  values_of V v = Ok vs -> values_of K (zero K) = Ok zs -> db st zs vs = (st', -1, ks) ->
  m_add feq K V S db st v = Ok (st', AddDuplicate (zero K)).
Proof.
  intros _ S db st st' v vs ks zs Vv Zs E. unfold m_add. rewrite Zs. cbn [obind]. rewrite Vv. cbn [obind]. rewrite E. reflexivity.
Qed.
(** but a database that chooses none stores the record under the zero key, where no
    other method reaches it, and the error says it was not added. *)
Theorem C146_add_stored_refuted :
  usable -> forall st m v, is_map K V m -> holds_map K V st m -> has_ty v V ->
  existsb (has_key feq K (zero K)) m = false ->
  exists st', m_add feq K V state (fun st ks vs => let '(st', n) := ref_insert feq st ks false vs in (st', n, ks)) st v =
      Ok (st', InsertOnly (zero K)) /\ holds_map K V st' (m ++ [(zero K, v)]).
Proof.
  intros (PK & EK & PV & EV & NK & IK & O & D) st m v M H Hv X.
  pose proof (zero_ty K PK) as Hz.
  destruct (columns_ok K PK EK _ Hz [] "" false) as (ks & _ & Vk & _).
  destruct (columns_ok V PV EV v Hv [] "" false) as (vs & _ & Vv & _).
  assert (Z : go_eq feq K (zero K) (zero K) = true) by (apply (go_eq_is feq K NK); auto).
  pose proof (enc_of K V st m M H) as F.
  unfold m_add. rewrite Vk. cbn [obind]. rewrite Vv. cbn [obind]. unfold ref_insert.
  assert (S : forall r x, enc K V r x -> same_key feq ks r = has_key feq K (zero K) x)
    by (intros r x E; exact (same_key_ok feq same_tag (fun n => eq_refl) K V PK EK PV EV NK index op O (zero K) ks r x E Hz Vk)).
  rewrite (exists_ext _ _ _ st m F S), X. cbn [Z.eqb].
  destruct (round_trip K PK EK _ Hz []) as (d & D1 & R). rewrite Vk in D1. injection D1 as <-. rewrite app_nil_r in R.
  rewrite R. cbn [obind fst]. rewrite Z. eexists. split; [reflexivity|].
  apply Forall2_app; [exact H|]. constructor; [|constructor]. exists ks, vs. auto.
Qed.
End Map.
Theorem C146_example :
  exists op, usable ex_key ex_val "id" op /\ valid_key ex_key (VList [VStr [97]; VNum 7]) /\
    is_map ex_key ex_val [(VList [VStr [97]; VNum 7], ex_rec 5 [98]); (VList [VStr [97]; VNum 8], ex_rec 6 [])].
Proof.
  eexists. split; [|split].
  - unfold usable. split; [repeat constructor|]. split; [repeat constructor|]. split; [repeat constructor|]. split; [repeat constructor|].
    split; [repeat constructor|]. split; [reflexivity|]. split; [vm_compute; reflexivity|].
    vm_compute. repeat constructor; cbn; intuition discriminate.
  - split; [repeat constructor|discriminate].
  - split; [repeat constructor; cbn; intuition discriminate|]. repeat constructor.
Qed.

(** what is scanned for a column is a value of the kind of the column *)
Theorem C147_kinds : forall k x d, has_ty x (ty_of_kind k) -> values_of (ty_of_kind k) x = Ok [d] -> kind_of d = k.
Proof.
  intros k x d H E. destruct k; cbn [ty_of_kind] in *; destruct x; cbn in *; try contradiction; try discriminate; try (injection E as <-; reflexivity).
Qed.

(** C147: values scanned from a result set become the values of its columns, one each
    and in order, and are what is decoded. *)
Theorem C147_new_result :
  forall K V index, plain K -> exported_only K -> plain V -> exported_only V ->
  forall op, open same_tag index K V = Ok op ->
  forall k v ks vs, has_ty k K -> has_ty v V -> values_of K k = Ok ks -> values_of V v = Ok vs ->
  forall scanned, Forall2 (fun x d => values_of (ty_of_kind (kind_of d)) x = Ok [d]) scanned (ks ++ vs) ->
  new_result (o_index op ++ o_value op) scanned = Ok (ks ++ vs).
Proof.
  intros K V index PK EK PV EV op O k v ks vs Hk Hv Vk Vv scanned F.
  destruct (open_ok same_tag (fun n => eq_refl) K V PK EK PV EV index) as (op' & kp & vp & O' & _ & _ & _ & _ & Ck & Cv).
  rewrite O in O'. injection O' as <-.
  destruct (aligned K k PK EK Hk _ _ _ _ Ck) as (ks' & Vk' & _ & Sk). rewrite Vk in Vk'. injection Vk' as <-.
  destruct (aligned V v PV EV Hv _ _ _ _ Cv) as (vs' & Vv' & _ & Sv). rewrite Vv in Vv'. injection Vv' as <-.
  assert (S : map snd (o_index op ++ o_value op) = map kind_of (ks ++ vs)) by (rewrite !map_app; apply f_equal2; [exact Sk|exact Sv]).
  revert S F. generalize (o_index op ++ o_value op) as cs, (ks ++ vs) as ds. clear.
  intros cs ds. revert cs scanned. induction ds as [|d ds IH]; intros [|c cs] xs S F; inversion F as [|x ? xs' ? X F']; subst; try discriminate; [reflexivity|].
  cbn [map] in S. injection S as S1 S2. cbn [new_result]. cbn [values_of]. rewrite S1, X. cbn [obind]. rewrite (IH cs xs' S2 F'). reflexivity.
Qed.
Theorem C147_example :
  new_result [("id", KInt 64); ("name", KString)] [VNum 7; VStr [97]] = Ok [DInt 64 7; DString [97]].
Proof. vm_compute. reflexivity. Qed.
(** A count is answered as a 64-bit number without sign (NewOutput); every counter
    holds it, or a mark that it did not fit. *)
Theorem C147_count_partial :
  forall n, 0 <= n < 2^64 ->
  count_store CUint64 (DUint 64 n) = n /\
  count_store CInt64 (DUint 64 n) = (if n <? 2^63 then n else -1) /\
  count_store CUint32 (DUint 64 n) = (if n <? 2^32 then n else 0) /\
  count_store CInt32 (DUint 64 n) = (if n <? 2^31 then n else -1).
Proof.
  intros n R. cbn [count_store]. split; [reflexivity|]. cbn [Z.eqb Pos.eqb].
  split; [|split].
  - destruct (Z.ltb_spec (2^63 - 1) n), (Z.ltb_spec n (2^63)); try reflexivity; lia.
  - destruct (Z.ltb_spec (2^32 - 1) n), (Z.ltb_spec n (2^32)); try reflexivity; lia.
  - destruct (Z.ltb_spec (2^31 - 1) n), (Z.ltb_spec n (2^31)); try reflexivity; lia.
Qed.
(** What is missing: a database that answers signed numbers.  A 32-bit counter then
    holds a negative count for every count from 2^31 to below 2^32, and an unsigned
    counter holds nothing at all; and when the count fails, the answer beside the
    error is 1. *)
Theorem C147_signed_count_refuted :
  (forall n, 2^31 <= n < 2^32 -> count_store CInt32 (DInt 64 n) = n - 2^32 /\ count_store CInt32 (DInt 64 n) < 0) /\
  (forall n w, count_store CUint32 (DInt w n) = 0 /\ count_store CUint64 (DInt w n) = 0) /\
  m_count None = 1.
Proof.
  split; [|split; [split; reflexivity|reflexivity]]. intros n R. cbn [count_store Z.eqb Pos.eqb].
  destruct (Z.ltb_spec (2^32 - 1) n); [lia|].
  assert (W : wrap32 n = n - 2^32).
  { unfold wrap32. replace (n + 2^31) with ((n - 2^31) + 1 * 2^32) by lia. rewrite Z.mod_add by lia.
    rewrite Z.mod_small by lia. lia. }
  rewrite W. lia.
Qed.

(** C148: operations outside Manage are a transaction each, committed in order; a
    function of Manage that makes one operation is committed. *)
Theorem C148_unmanaged :
  forall (J : Type) (js : list J), exists cs, unmanaged js = Ok cs /\ map committed cs = map (fun j => [j]) js.
Proof.
  intros J js. induction js as [|j js (cs & E & C)]; [now exists []|].
  exists ({| sent := [j]; closed := true |} :: cs). cbn [unmanaged operate made closed obind sent app]. rewrite E.
  split; [reflexivity|]. cbn [map committed closed sent]. now rewrite C.
Qed.
Theorem C148_one_operation_partial :
  forall (J : Type) (j : J), exists c, manage [j] false = Ok (c, false) /\ committed c = [j].
Proof. intros J j. eexists. split; reflexivity. Qed.
(** What is missing is everything else: a second operation panics, *)
Theorem C148_second_operation_refuted :
  forall (J : Type) (a b : J) rest fails, manage (a :: b :: rest) fails = Panic.
Proof. reflexivity. Qed.
(** a function that fails after its operation has committed it, *)
Theorem C148_failure_commits_refuted :
  forall (J : Type) (j : J), exists c, manage [j] true = Ok (c, true) /\ committed c = [j].
Proof. intros J j. eexists. split; reflexivity. Qed.
(** one that makes no operation leaves the transaction open for ever, *)
Theorem C148_left_open_refuted :
  forall (J : Type) fails, exists c, @manage J [] fails = Ok (c, fails) /\ closed c = false.
Proof. intros. eexists. split; reflexivity. Qed.
(** and in memory a Manage inside another waits for ever. *)
Theorem C148_nested_refuted : nest false 1 = Some tt /\ forall n, nest false (2 + n) = None.
Proof. split; reflexivity. Qed.
