(** Proofs about structures, imports, documentation and stubs (api/api.go, api/stub/stub.go). *)
From Coq Require Import String Permutation Sorted.
From Verif Require Import GoBase GoText ApiModel ApiSpec ApiProps.
Local Open Scope Z_scope.
Local Open Scope list_scope.

(** ** The functions of a structure *)
Definition children (ns : list (bytes * structure)) : list (bytes * list func) := map (fun nc => (fst nc, iter (snd nc))) ns.
Lemma iter_eq fns ns : iter (Struct fns ns) = fns ++ concat (map snd (sort (children ns))).
Proof.
  cbn [iter]. do 4 f_equal. induction ns as [|(n & c) ns IH]; [reflexivity|]. cbn [children map fst snd]. f_equal. exact IH.
Qed.
Lemma insert_perm {A} (x : bytes * A) l : Permutation (insert x l) (x :: l).
Proof. induction l as [|y l IH]; [reflexivity|]. cbn [insert]. destruct (text_leb (fst x) (fst y)); [reflexivity|]. rewrite IH. apply perm_swap. Qed.
Lemma sort_perm {A} (l : list (bytes * A)) : Permutation (sort l) l.
Proof. induction l as [|x l IH]; [reflexivity|]. cbn [sort fold_right]. rewrite insert_perm. apply perm_skip. exact IH. Qed.
Lemma concat_perm {A} (l m : list (list A)) : Permutation l m -> Permutation (concat l) (concat m).
Proof.
  intros P. induction P as [|x l m P IH|x y l|l m k P1 I1 P2 I2]; cbn; [reflexivity| | |etransitivity; eassumption].
  - apply Permutation_app_head. exact IH.
  - rewrite !app_assoc. apply Permutation_app_tail. apply Permutation_app_comm.
Qed.
Lemma iter_perm fns ns : Permutation (iter (Struct fns ns)) (fns ++ concat (map snd (children ns))).
Proof. rewrite iter_eq. apply Permutation_app_head. apply concat_perm. apply Permutation_map. apply sort_perm. Qed.
Lemma iter_app a b c d : Permutation (iter (Struct (a ++ c) (b ++ d))) (iter (Struct a b) ++ iter (Struct c d)).
Proof.
  rewrite !iter_perm. unfold children. rewrite !map_app, concat_app. rewrite <- !app_assoc. apply Permutation_app_head. rewrite !app_assoc. apply Permutation_app_tail. apply Permutation_app_comm.
Qed.
Lemma iter_one n s : Permutation (iter (Struct [] [(n, s)])) (iter s).
Proof. rewrite iter_perm. cbn. rewrite app_nil_r. reflexivity. Qed.
Section AfieldInd.
Variable P : afield -> Prop.
Hypothesis HF : forall n ft, P (FFunc n ft).
Hypothesis HS : forall n fs, Forall P fs -> P (FStruct n fs).
Hypothesis HO : P FOther.
Fixpoint afield_ind' (f : afield) : P f :=
  match f with
  | FFunc n ft => HF n ft
  | FStruct n fs => HS n fs ((fix go (fs : list afield) : Forall P fs := match fs with [] => Forall_nil P | f :: r => Forall_cons f (afield_ind' f) (go r) end) fs)
  | FOther => HO
  end.
End AfieldInd.
Fixpoint fields_structure (loc : list nat) (i : nat) (fs : list afield) : structure :=
  match fs with
  | [] => Struct [] []
  | f :: r => match field_structure (loc ++ [i]) f, fields_structure loc (S i) r with Struct a b, Struct c d => Struct (a ++ c) (b ++ d) end
  end.
Lemma field_structure_struct loc n fs : field_structure loc (FStruct n fs) = Struct [] [(n, fields_structure loc O fs)].
Proof.
  cbn [field_structure]. do 3 f_equal. generalize O as i. induction fs as [|f fs IH]; intros i; [reflexivity|]. cbn [fields_structure]. rewrite IH. reflexivity.
Qed.
Lemma structure_of_eq fs : structure_of fs = fields_structure [] O fs.
Proof. unfold structure_of. rewrite field_structure_struct. reflexivity. Qed.
Lemma fields_iter loc i f fs : Permutation (iter (fields_structure loc i (f :: fs))) (iter (field_structure (loc ++ [i]) f) ++ iter (fields_structure loc (S i) fs)).
Proof. cbn [fields_structure]. destruct (field_structure (loc ++ [i]) f) as [a b]. destruct (fields_structure loc (S i) fs) as [c d]. apply iter_app. Qed.
Lemma perm_in {A} (l m : list A) x : Permutation l m -> (In x l <-> In x m).
Proof. intros P. split; apply Permutation_in; [exact P|symmetry; exact P]. Qed.
(** The function at a field. *)
Definition found (f : afield) (l : list nat) (n : bytes) (ft : ftype) : Prop :=
  match f with FFunc m ft' => l = [] /\ m = n /\ ft' = ft | FStruct _ gs => field_at gs l n ft | FOther => False end.
Lemma field_at_cons f fs i l n ft : field_at (f :: fs) (i :: l) n ft <-> match i with O => found f l n ft | S i => field_at fs (i :: l) n ft end.
Proof.
  split.
  - intros H. inversion H as [gs j m ft' E|gs j m hs l' m' ft' E IN]; subst; destruct i as [|i]; cbn in E.
    + injection E as ->. repeat split.
    + apply at_func. exact E.
    + injection E as ->. exact IN.
    + eapply at_struct; eassumption.
  - destruct i as [|i].
    + destruct f as [m ft'|m gs|]; cbn [found]; [intros (-> & -> & ->); apply at_func; reflexivity|intros H; eapply at_struct; [reflexivity|exact H]|intros []].
    + intros H. inversion H as [gs j m ft' E|gs j m hs l' m' ft' E IN]; subst; [apply at_func; exact E|eapply at_struct; [exact E|exact IN]].
Qed.
Lemma field_at_nonempty fs l n ft : field_at fs l n ft -> exists i r, l = i :: r.
Proof. intros H. destruct H; eexists; eexists; reflexivity. Qed.
Lemma nodup_app {A} (l m : list A) : NoDup l -> (forall x, In x l -> In x m -> False) -> NoDup m -> NoDup (l ++ m).
Proof.
  intros N D M. induction N as [|x l NI N IH]; [exact M|]. cbn. constructor; [|apply IH; intros y I1 I2; apply (D y); [right; exact I1|exact I2]].
  rewrite in_app_iff. intros [I|I]; [exact (NI I)|apply (D x); [left; reflexivity|exact I]].
Qed.
Definition field_ok (f : afield) : Prop := forall loc,
  (forall g, In g (iter (field_structure loc f)) <-> exists l, fn_loc g = loc ++ l /\ found f l (fn_name g) (fn_type g)) /\
  NoDup (map fn_loc (iter (field_structure loc f))).
Lemma fields_ok fs : Forall field_ok fs -> forall loc i,
  (forall g, In g (iter (fields_structure loc i fs)) <-> exists j l, fn_loc g = loc ++ (i + j)%nat :: l /\ field_at fs (j :: l) (fn_name g) (fn_type g)) /\
  NoDup (map fn_loc (iter (fields_structure loc i fs))).
Proof.
  intros F. induction F as [|f fs OK F IH]; intros loc i.
  - split; [|constructor]. intros g. split; [intros []|]. intros (j & l & _ & H). inversion H as [gs k m ft' E|gs k m hs l' m' ft' E IN]; subst; destruct j; discriminate.
  - destruct (OK (loc ++ [i])) as (A & B). destruct (IH loc (S i)) as (C & D). pose proof (fields_iter loc i f fs) as P. split.
    + intros g. rewrite (perm_in _ _ g P), in_app_iff, A, C. split.
      * intros [(l & E & H)|(j & l & E & H)].
        -- exists O, l. rewrite Nat.add_0_r. split; [rewrite E, <- app_assoc; reflexivity|]. apply field_at_cons. exact H.
        -- exists (S j), l. rewrite Nat.add_succ_r. split; [exact E|]. apply field_at_cons. exact H.
      * intros (j & l & E & H). apply field_at_cons in H. destruct j as [|j].
        -- left. exists l. rewrite Nat.add_0_r in E. split; [rewrite E, <- app_assoc; reflexivity|exact H].
        -- right. exists j, l. rewrite Nat.add_succ_r in E. split; [exact E|exact H].
    + eapply Permutation_NoDup; [apply Permutation_map; symmetry; exact P|]. rewrite map_app. apply nodup_app; [exact B| |exact D].
      intros x IX IY. apply in_map_iff in IX. destruct IX as (g & <- & IX). apply in_map_iff in IY. destruct IY as (h & E & IY). apply A in IX. destruct IX as (l & EG & _). apply C in IY. destruct IY as (j & l' & EH & _).
      rewrite EH, EG, <- app_assoc in E. apply app_inv_head in E. injection E as E _. lia.
Qed.
Lemma all_ok f : field_ok f.
Proof.
  induction f as [n ft|n fs F|] using afield_ind'; intros loc.
  - split; [|constructor; [intros []|constructor]]. intros g. cbn. split.
    + intros [<-|[]]. exists []. cbn. rewrite app_nil_r. auto.
    + intros (l & E & -> & E1 & E2). rewrite app_nil_r in E. left. destruct g; cbn in *; congruence.
  - rewrite field_structure_struct. destruct (fields_ok fs F loc O) as (A & B). split.
    + intros g. rewrite (perm_in _ _ g (iter_one n _)), A. cbn [found]. split.
      * intros (j & l & E & H). exists (j :: l). split; assumption.
      * intros (l & E & H). destruct (field_at_nonempty _ _ _ _ H) as (j & r & ->). exists j, r. split; assumption.
    + eapply Permutation_NoDup; [apply Permutation_map; symmetry; apply iter_one|exact B].
  - split; [|constructor]. intros g. split; [intros []|]. intros (l & _ & []).
Qed.
(** ** C105 *)
(** The functions of an API are the function fields of its struct, at any depth, each once. *)
Theorem C105_functions fs :
  (forall f, In f (iter (structure_of fs)) <-> field_at fs (fn_loc f) (fn_name f) (fn_type f)) /\ NoDup (map fn_loc (iter (structure_of fs))).
Proof.
  rewrite structure_of_eq. destruct (fields_ok fs (proj2 (Forall_forall _ _) (fun f _ => all_ok f)) [] O) as (A & B). split; [|exact B].
  intros f. rewrite A. cbn [app]. split.
  - intros (j & l & E & H). rewrite E. exact H.
  - intros H. destruct (field_at_nonempty _ _ _ _ H) as (j & r & E). exists j, r. split; [exact E|]. rewrite E in H. exact H.
Qed.
(** A text before another. *)
Lemma text_leb_refl a : text_leb a a = true.
Proof. induction a as [|x a IH]; [reflexivity|]. cbn. rewrite Z.ltb_irrefl. exact IH. Qed.
Lemma text_leb_total a b : text_leb a b = false -> text_leb b a = true.
Proof.
  revert b. induction a as [|x a IH]; intros [|y b]; cbn; try discriminate; [reflexivity|]. destruct (Z.ltb_spec x y); [discriminate|]. destruct (Z.ltb_spec y x); [reflexivity|]. apply IH.
Qed.
Lemma text_leb_trans a b c : text_leb a b = true -> text_leb b c = true -> text_leb a c = true.
Proof.
  revert b c. induction a as [|x a IH]; intros [|y b] [|z c]; cbn; try discriminate; try reflexivity.
  destruct (Z.ltb_spec x y), (Z.ltb_spec y x), (Z.ltb_spec y z), (Z.ltb_spec z y), (Z.ltb_spec x z), (Z.ltb_spec z x); try discriminate; try reflexivity; try lia. apply IH.
Qed.
Lemma text_leb_antisym a b : text_leb a b = true -> text_leb b a = true -> a = b.
Proof.
  revert b. induction a as [|x a IH]; intros [|y b]; cbn; try discriminate; [reflexivity|]. destruct (Z.ltb_spec x y), (Z.ltb_spec y x); try discriminate; try lia. intros A B. f_equal; [lia|]. apply IH; assumption.
Qed.
Definition before {A} (a b : bytes * A) : Prop := text_leb (fst a) (fst b) = true.
Lemma insert_sorted {A} (x : bytes * A) l : StronglySorted before l -> StronglySorted before (insert x l).
Proof.
  intros H. induction H as [|y l SL IH F]; [constructor; constructor|]. cbn [insert]. destruct (text_leb (fst x) (fst y)) eqn:E.
  - constructor; [constructor; assumption|]. constructor; [exact E|]. eapply Forall_impl; [|exact F]. intros z B. unfold before in *. eapply text_leb_trans; eassumption.
  - constructor; [exact IH|]. apply text_leb_total in E. rewrite Forall_forall in *. intros z I. apply (perm_in _ _ z (insert_perm x l)) in I. destruct I as [<-|I]; [exact E|apply F; exact I].
Qed.
Lemma sort_sorted {A} (l : list (bytes * A)) : StronglySorted before (sort l).
Proof. induction l as [|x l IH]; [constructor|]. cbn [sort fold_right]. apply insert_sorted. exact IH. Qed.
Lemma sort_map {A B} (f : A -> B) l : sort (map (fun x => (fst x, f (snd x))) l) = map (fun x => (fst x, f (snd x))) (sort l).
Proof.
  assert (INS : forall x l, insert (fst x, f (snd x)) (map (fun x => (fst x, f (snd x))) l) = map (fun x => (fst x, f (snd x))) (insert x l)).
  { intros x m. induction m as [|y m IH]; [reflexivity|]. cbn [map insert fst]. destruct (text_leb (fst x) (fst y)); [reflexivity|]. cbn [map]. f_equal. exact IH. }
  induction l as [|x l IH]; [reflexivity|]. cbn [map sort fold_right]. change (fold_right insert [] (map (fun x0 => (fst x0, f (snd x0))) l)) with (sort (map (fun x0 => (fst x0, f (snd x0))) l)). rewrite IH. apply INS.
Qed.
(** They are listed in the order of the fields, then those of each namespace, by name. *)
Theorem C105_listed fns ns : exists sorted, Permutation sorted ns /\ StronglySorted (fun a b => text_leb (fst a) (fst b) = true) sorted /\
  iter (Struct fns ns) = fns ++ concat (map (fun nc => iter (snd nc)) sorted).
Proof.
  exists (sort ns). split; [apply sort_perm|]. split; [apply sort_sorted|]. rewrite iter_eq. unfold children. rewrite sort_map, map_map. reflexivity.
Qed.
(** Sorting lists with the same elements and distinct names gives the same list. *)
Lemma sorted_unique {A} (l m : list (bytes * A)) : StronglySorted before l -> StronglySorted before m -> Permutation l m -> NoDup (map fst l) -> l = m.
Proof.
  intros SL. revert m. induction SL as [|x l SL IH F]; intros m SM P N; [apply Permutation_nil in P; congruence|].
  destruct SM as [|y m SM G]; [symmetry in P; apply Permutation_nil in P; discriminate|]. cbn [map] in N. apply NoDup_cons_iff in N. destruct N as (NI & N).
  assert (E : x = y).
  { assert (IX : In x (y :: m)) by (apply (perm_in _ _ x P); left; reflexivity). assert (IY : In y (x :: l)) by (apply (perm_in _ _ y P); left; reflexivity).
    destruct IY as [E|IY]; [exact E|]. destruct IX as [E|IX]; [symmetry; exact E|]. exfalso. apply NI. apply in_map_iff. exists y. split; [|exact IY].
    rewrite Forall_forall in F, G. apply text_leb_antisym; [apply G; exact IX|apply F; exact IY]. }
  subst y. f_equal. apply IH; [exact SM| |exact N]. eapply Permutation_cons_inv. exact P.
Qed.
(** The same structure, its namespaces (Go maps) in any order at any depth. *)
Inductive same : structure -> structure -> Prop :=
| same_intro fns ns ms ns' : NoDup (map fst ns) -> Forall2 (fun a b => fst a = fst b /\ same (snd a) (snd b)) ns ms -> Permutation ms ns' -> same (Struct fns ns) (Struct fns ns').
Section StructInd.
Variable P : structure -> Prop.
Hypothesis HS : forall fns ns, Forall (fun nc => P (snd nc)) ns -> P (Struct fns ns).
Fixpoint structure_ind' (s : structure) : P s :=
  match s with Struct fns ns => HS fns ns ((fix go (ns : list (bytes * structure)) : Forall (fun nc => P (snd nc)) ns := match ns with [] => Forall_nil _ | nc :: r => Forall_cons nc (structure_ind' (snd nc)) (go r) end) ns) end.
End StructInd.
Theorem C105_order s t : same s t -> iter s = iter t.
Proof.
  revert t. induction s as [fns ns IH] using structure_ind'. intros t H. inversion H as [f n ms ns' N F P E1 E2]; subst. rewrite !iter_eq. do 3 f_equal.
  assert (E : children ns = children ms).
  { clear - IH F. unfold children. induction F as [|a b l m (E & Q) F IF]; [reflexivity|]. inversion IH as [|? ? IA IL]; subst. cbn [map]. rewrite (IA _ Q), E, (IF IL). reflexivity. }
  rewrite E. apply sorted_unique; [apply sort_sorted|apply sort_sorted| |].
  - rewrite !sort_perm. unfold children. apply Permutation_map. exact P.
  - eapply Permutation_NoDup; [apply Permutation_map; symmetry; apply sort_perm|]. rewrite <- E. unfold children. rewrite map_map. exact N.
Qed.
(** ** Import *)
Definition put (mk : ftype -> gofunc) (m : memory) (f : func) : memory := write m (fn_loc f) (mk (fn_type f)).
Definition failing (err : dyn) (ft : ftype) : gofunc := make_error ft err.
Fixpoint walk (s : structure) : list func :=
  match s with Struct fns ns => fns ++ (fix go (l : list (bytes * structure)) : list func := match l with [] => [] | (_, c) :: r => walk c ++ go r end) ns end.
Lemma walk_perm s : Permutation (walk s) (iter s).
Proof.
  induction s as [fns ns IH] using structure_ind'. rewrite iter_perm. cbn [walk]. apply Permutation_app_head.
  induction IH as [|(n & c) ns P F IF]; [reflexivity|]. cbn [children map concat fst snd]. apply Permutation_app; [exact P|exact IF].
Qed.
Lemma make_errors_walk s err m : make_errors s err m = fold_left (put (failing err)) (walk s) m.
Proof.
  revert m. induction s as [fns ns IH] using structure_ind'. intros m. cbn [make_errors walk]. rewrite fold_left_app. change (fun (m0 : memory) f => write m0 (fn_loc f) (make_error (fn_type f) err)) with (put (failing err)). generalize (fold_left (put (failing err)) fns m) as m'. 
  induction IH as [|(n & c) ns P F IF]; intros m'; [reflexivity|]. cbn [snd] in P. rewrite fold_left_app, <- P. apply IF.
Qed.
Lemma stub_link_walk s err m : stub_link s err m = fold_left (put (fun ft => stub ft err)) (walk s) m.
Proof.
  revert m. induction s as [fns ns IH] using structure_ind'. intros m. cbn [stub_link walk]. rewrite fold_left_app. change (fun (m0 : memory) f => write m0 (fn_loc f) (stub (fn_type f) err)) with (put (fun ft => stub ft err)). generalize (fold_left (put (fun ft => stub ft err)) fns m) as m'.
  induction IH as [|(n & c) ns P F IF]; intros m'; [reflexivity|]. cbn [snd] in P. rewrite fold_left_app, <- P. apply IF.
Qed.
Lemma nats_eqb_true a b : nats_eqb a b = true <-> a = b.
Proof.
  revert b. induction a as [|x a IH]; intros [|y b]; cbn; try (split; congruence). rewrite andb_true_iff, Nat.eqb_eq, IH. split; [intros (-> & ->); reflexivity|intros Q; injection Q; auto].
Qed.
Lemma put_all mk l m loc ft : (forall f, In f l -> fn_loc f = loc -> fn_type f = ft) -> (exists f, In f l /\ fn_loc f = loc) \/ m loc = Some (mk ft) -> fold_left (put mk) l m loc = Some (mk ft).
Proof.
  revert m. induction l as [|f l IH]; intros m U [(g & I & E)|E]; cbn [fold_left]; [destruct I|exact E| |].
  - apply IH; [intros h IH' EH; apply U; [right; exact IH'|exact EH]|]. destruct I as [->|I]; [|left; exists g; auto]. right. unfold put, write. rewrite (proj2 (nats_eqb_true loc (fn_loc g)) (eq_sym E)). rewrite (U g (or_introl eq_refl) E). reflexivity.
  - apply IH; [intros h IH' EH; apply U; [right; exact IH'|exact EH]|]. right. unfold put, write. destruct (nats_eqb loc (fn_loc f)) eqn:Q; [|exact E]. apply nats_eqb_true in Q. rewrite (U f (or_introl eq_refl) (eq_sym Q)). reflexivity.
Qed.
Lemma put_none mk l m loc : (forall f, In f l -> fn_loc f <> loc) -> fold_left (put mk) l m loc = m loc.
Proof.
  revert m. induction l as [|f l IH]; intros m U; cbn [fold_left]; [reflexivity|]. rewrite IH by (intros g I; apply U; right; exact I). unfold put, write. destruct (nats_eqb loc (fn_loc f)) eqn:Q; [|reflexivity].
  apply nats_eqb_true in Q. destruct (U f (or_introl eq_refl) (eq_sym Q)).
Qed.
Lemma field_at_det fs l n ft n' ft' : field_at fs l n ft -> field_at fs l n' ft' -> n = n' /\ ft = ft'.
Proof.
  intros A. revert n' ft'. induction A as [fs i n ft E|fs i m gs l n ft E A IH]; intros n' ft' B.
  - inversion B as [gs j m ft1 E'|gs j m hs l' m' ft1 E' IN]; subst; [rewrite E in E'; injection E' as -> ->; auto|]. inversion IN.
  - inversion B as [gs' j m1 ft1 E'|gs' j m1 hs l' m' ft1 E' IN]; subst; [inversion A|]. rewrite E in E'. injection E' as -> ->. apply IH. exact IN.
Qed.
(** When the linker fails, each function of the API, at any depth, becomes that error; nothing else is
    changed. *)
Theorem C105_import_error linker fs m err : linker (structure_of fs) (fun _ => None) = (m, Some err) ->
  (forall loc n ft, field_at fs loc n ft -> import linker fs loc = Some (make_error ft err)) /\
  (forall loc, (forall n ft, ~ field_at fs loc n ft) -> import linker fs loc = m loc).
Proof.
  intros L. unfold import. rewrite L. destruct (C105_functions fs) as (A & _). split.
  - intros loc n ft H. rewrite make_errors_walk. apply (put_all (failing err)).
    + intros f I E. apply (perm_in _ _ f (walk_perm _)), A in I. rewrite E in I. destruct (field_at_det _ _ _ _ _ _ I H). assumption.
    + left. exists {| fn_name := n; fn_type := ft; fn_loc := loc |}. split; [|reflexivity]. apply (perm_in _ _ _ (walk_perm _)), A. exact H.
  - intros loc N. rewrite make_errors_walk. apply put_none. intros f I E. apply (perm_in _ _ f (walk_perm _)), A in I. rewrite E in I. exact (N _ _ I).
Qed.
(** So each call of each of them gives that error, or panics with it. *)
Theorem C105_import_error_call_partial linker fs m err loc n ft ctx args : linker (structure_of fs) (fun _ => None) = (m, Some err) -> field_at fs loc n ft ->
  variadic ft = false -> returns_error ft \/ without_error ft -> is_error err -> is_context ctx -> Forall2 has_type args (params ft) ->
  call ft (import linker fs loc) (Some ctx) args = if has_error ft then Ret ([], Some err) else Pan (Some err).
Proof. intros L H V E ER C A. rewrite (proj1 (C105_import_error linker fs m err L) loc n ft H). apply C104_made_error_partial; assumption. Qed.
Theorem C105_import_ok linker fs m : linker (structure_of fs) (fun _ => None) = (m, None) -> import linker fs = m.
Proof. intros L. unfold import. rewrite L. reflexivity. Qed.
Definition plain_fn : ftype := {| ins := [context_type]; outs := [int_type; error_type]; variadic := false |}.
Definition sample : list afield := [FFunc (text "A") plain_fn; FOther; FStruct (text "Z") [FFunc (text "B") plain_fn; FStruct (text "Y") [FFunc (text "C") plain_fn]]; FStruct (text "D") [FFunc (text "E") plain_fn]].
Example C105_case : map fn_name (iter (structure_of sample)) = [text "A"; text "E"; text "B"; text "C"] /\ field_at sample [2; 1; 0]%nat (text "C") plain_fn /\
  import (fun _ m => (m, Some an_error)) sample [2; 1; 0]%nat = Some (make_error plain_fn an_error).
Proof.
  split; [reflexivity|]. assert (H : field_at sample [2; 1; 0]%nat (text "C") plain_fn). { eapply at_struct; [reflexivity|]. eapply at_struct; [reflexivity|]. apply at_func. reflexivity. }
  split; [exact H|]. eapply C105_import_error; [reflexivity|exact H].
Qed.
