(** Proofs about package data (api/data/data.go). *)
From Coq Require Import String Permutation.
From Verif Require Import GoBase GoText DataModel.
Local Open Scope Z_scope.
Local Open Scope list_scope.

(** ** C114 *)
Definition subject (e : error) : option ptr := match e with EInvalid a _ _ _ | EExceeds a _ _ | EMissing a _ | EReport a _ _ => Some a | EOther _ => None end.
Definition name_of (e : error) : bytes := match e with EInvalid _ n _ _ | EExceeds _ n _ | EMissing _ n | EReport _ n _ => n | EOther _ => [] end.
(** An error reported on a pointer. *)
Definition leaf (e : error) : Prop := match e with EReport _ _ _ => False | _ => True end.
(** The error, named if its subject is one of the fields. *)
Definition named (fs : list field) (e : error) : error :=
  match subject e with
  | Some a => match find (fun f => Nat.eqb (faddr f) a) fs with Some f => with_name e (fname f) | None => e end
  | None => e
  end.
Definition errors_of (errs : list (option error)) : list error := flat_map (fun o => match o with Some e => [e] | None => [] end) errs.
Lemma reflect_named fs e : Forall (fun f => exported f = true) fs -> NoDup (map faddr fs) -> leaf e -> reflect_all e fs = Some (named fs e).
Proof.
  intros X N L. destruct e as [a n c h|a n l|a n|a n es|m]; [| | |destruct L|].
  - clear L. revert n. induction X as [|f fs X1 X IH]; intros n; [reflexivity|]. inversion N as [|? ? N1 N2]; subst. cbn [reflect_all reflect]. rewrite X1. cbn [negb]. rewrite (IH N2). unfold named. cbn [subject find]. destruct (Nat.eqb (faddr f) a) eqn:E; [|reflexivity].
    apply Nat.eqb_eq in E. subst a. replace (find (fun g => Nat.eqb (faddr g) (faddr f)) fs) with (@None field); [reflexivity|]. symmetry. clear - N1. induction fs as [|g fs IH]; [reflexivity|]. cbn in N1 |- *. replace (Nat.eqb (faddr g) (faddr f)) with false; [apply IH; tauto|]. symmetry. apply Nat.eqb_neq. tauto.
  - clear L. revert n. induction X as [|f fs X1 X IH]; intros n; [reflexivity|]. inversion N as [|? ? N1 N2]; subst. cbn [reflect_all reflect]. rewrite X1. cbn [negb]. rewrite (IH N2). unfold named. cbn [subject find]. destruct (Nat.eqb (faddr f) a) eqn:E; [|reflexivity].
    apply Nat.eqb_eq in E. subst a. replace (find (fun g => Nat.eqb (faddr g) (faddr f)) fs) with (@None field); [reflexivity|]. symmetry. clear - N1. induction fs as [|g fs IH]; [reflexivity|]. cbn in N1 |- *. replace (Nat.eqb (faddr g) (faddr f)) with false; [apply IH; tauto|]. symmetry. apply Nat.eqb_neq. tauto.
  - clear L. revert n. induction X as [|f fs X1 X IH]; intros n; [reflexivity|]. inversion N as [|? ? N1 N2]; subst. cbn [reflect_all reflect]. rewrite X1. cbn [negb]. rewrite (IH N2). unfold named. cbn [subject find]. destruct (Nat.eqb (faddr f) a) eqn:E; [|reflexivity].
    apply Nat.eqb_eq in E. subst a. replace (find (fun g => Nat.eqb (faddr g) (faddr f)) fs) with (@None field); [reflexivity|]. symmetry. clear - N1. induction fs as [|g fs IH]; [reflexivity|]. cbn in N1 |- *. replace (Nat.eqb (faddr g) (faddr f)) with false; [apply IH; tauto|]. symmetry. apply Nat.eqb_neq. tauto.
  - clear. induction fs as [|f fs IH]; [reflexivity|]. exact IH.
Qed.
Lemma group_spec fs errs : Forall (fun f => exported f = true) fs -> NoDup (map faddr fs) -> Forall leaf (errors_of errs) -> group (Some fs) errs = Some (map (named fs) (errors_of errs)).
Proof.
  intros X N. induction errs as [|[e|] errs IH]; cbn [group errors_of flat_map app]; intros L; [reflexivity| |apply IH; exact L]. inversion L as [|? ? L1 L2]; subst. rewrite reflect_named by assumption. rewrite (IH L2). reflexivity.
Qed.
(** An object reports nothing if and only if none of its errors is one. *)
Theorem C114_nil a fs errs : reports a fs errs = Some None <-> Forall (fun e => e = None) errs.
Proof.
  unfold reports. split.
  - intros H. destruct (group fs errs) as [[|e g]|] eqn:G; try discriminate. clear H. revert G. induction errs as [|[e|] errs IH]; intros G; [constructor| |constructor; [reflexivity|apply IH; exact G]].
    cbn [group] in G. destruct fs as [fs|]; [destruct (reflect_all e fs); [|discriminate]|]; destruct (group _ errs); discriminate.
  - intros F. replace (group fs errs) with (Some (@nil error)); [reflexivity|]. symmetry. induction F as [|e errs -> F IH]; [reflexivity|exact IH].
Qed.
(** It reports all of them, in order, each with the name of the field it is about. *)
Theorem C114_reports_partial a fs errs : Forall (fun f => exported f = true) fs -> NoDup (map faddr fs) -> Forall leaf (errors_of errs) -> errors_of errs <> [] ->
  reports a (Some fs) errs = Some (Some (EReport a [] (map (named fs) (errors_of errs)))).
Proof. intros X N L NE. unfold reports. rewrite (group_spec _ _ X N L). destruct (errors_of errs); [destruct (NE eq_refl)|reflexivity]. Qed.
Theorem C114_name fs f e : NoDup (map faddr fs) -> In f fs -> leaf e -> subject e = Some (faddr f) -> name_of (named fs e) = fname f /\ subject (named fs e) = subject e.
Proof.
  intros N I L Q. unfold named. rewrite Q. assert (F : find (fun g => Nat.eqb (faddr g) (faddr f)) fs = Some f).
  { clear - N I. induction fs as [|g fs IH]; [destruct I|]. cbn in N. inversion N as [|? ? N1 N2]; subst. cbn [find]. destruct I as [->|I]; [rewrite Nat.eqb_refl; reflexivity|]. replace (Nat.eqb (faddr g) (faddr f)) with false; [apply IH; assumption|]. symmetry. apply Nat.eqb_neq. intros E. apply N1. rewrite E. apply in_map. exact I. }
  rewrite F. destruct e; try destruct L; cbn in *; split; congruence.
Qed.
(** What a user is told of a field. *)
Theorem C114_message a n c h l : n <> [] ->
  message (EMissing a n) = text "please provide '" ++ n ++ text "'" /\
  message (EExceeds a n l) = text "please limit '" ++ n ++ text "' to less than " ++ l /\
  exists rest, message (EInvalid a n c h) = text "please ensure '" ++ n ++ text "' is valid" ++ [10] ++ rest.
Proof.
  intros N. cbn [message]. rewrite beq_false by exact N. unfold quoted. split; [reflexivity|]. split; [rewrite <- !app_assoc; reflexivity|]. eexists. rewrite <- !app_assoc. reflexivity.
Qed.
(** A report lists all its messages: commas, and an "and" before the last of several. *)
Lemma sentence_commas a l z : sentence false (l ++ [a; z]) = concat (map (fun m => text ", " ++ m) (l ++ [a])) ++ text " and " ++ z.
Proof.
  induction l as [|m l IH]; [cbn [app sentence map concat]; rewrite !app_nil_r, <- !app_assoc; reflexivity|].
  cbn [app sentence map concat]. assert (NE : exists x y, l ++ [a; z] = x :: y) by (destruct l; do 2 eexists; reflexivity). destruct NE as (x & y & NE). rewrite IH, NE. rewrite <- !app_assoc. reflexivity.
Qed.
Theorem C114_list a n : (forall e, message (EReport a n [e]) = message e) /\
  (forall e z, message (EReport a n [e; z]) = message e ++ text " and " ++ message z) /\
  forall e es y z, message (EReport a n (e :: es ++ [y; z])) = message e ++ concat (map (fun m => text ", " ++ message m) (es ++ [y])) ++ text " and " ++ message z.
Proof.
  split; [|split]; intros; cbn [message map sentence app]; [rewrite app_nil_r; reflexivity|rewrite app_nil_r; reflexivity|].
  f_equal. rewrite map_app. cbn [map]. rewrite sentence_commas. f_equal. rewrite !map_app, map_map. reflexivity.
Qed.
(** All of them are the client's fault: 400. *)
Theorem C114_status a fs errs e : reports a fs errs = Some (Some e) -> status e = Some 400.
Proof. unfold reports. destruct (group fs errs) as [[|x g]|]; intros Q; try discriminate. injection Q as <-. reflexivity. Qed.
Theorem C114_check_status dec T a unit len limit c (fn : T -> bool) h v e : exceeds dec a unit len limit = Some e \/ missing a len = Some e \/ invalid T a c fn h v = Some e -> status e = Some 400 /\ subject e = Some a.
Proof.
  unfold exceeds, missing, invalid. intros [Q|[Q|Q]]; [destruct (Nat.ltb limit len)|destruct (Nat.eqb len 0)|destruct (fn v)]; try discriminate; injection Q as <-; split; reflexivity.
Qed.
(** ** Checks *)
Theorem C114_checks dec T a unit len limit c (fn : T -> bool) h v z (o : option T) :
  (exceeds dec a unit len limit = None <-> (len <= limit)%nat) /\ (missing a len = None <-> len <> O) /\ (missing_number a z = None <-> z <> 0) /\
  (invalid T a c fn h v = None <-> fn v = true) /\ (absent T a o = None <-> o <> None).
Proof.
  unfold exceeds, missing, missing_number, invalid, absent. split; [|split; [|split; [|split]]].
  - destruct (Nat.ltb limit len) eqn:E; [apply Nat.ltb_lt in E|apply Nat.ltb_ge in E]; split; intros; try discriminate; try reflexivity; lia.
  - destruct (Nat.eqb len 0) eqn:E; [apply Nat.eqb_eq in E|apply Nat.eqb_neq in E]; split; intros; try discriminate; try reflexivity; lia.
  - destruct (z =? 0) eqn:E; [apply Z.eqb_eq in E|apply Z.eqb_neq in E]; split; intros; try discriminate; try reflexivity; lia.
  - destruct (fn v); split; intros; try discriminate; reflexivity.
  - destruct o; split; intros; try discriminate; try reflexivity; congruence.
Qed.
(** Each element is checked up to the first that fails, whose error is reported. *)
Theorem C114_foreach T (fn : T -> T * option error) l : match snd (foreach T fn l) with
  | None => Forall (fun x => snd (fn x) = None) l /\ fst (foreach T fn l) = map (fun x => fst (fn x)) l
  | Some e => exists p x r, l = p ++ x :: r /\ Forall (fun x => snd (fn x) = None) p /\ snd (fn x) = Some e /\ fst (foreach T fn l) = map (fun x => fst (fn x)) p ++ fst (fn x) :: r
  end.
Proof.
  induction l as [|x l IH]; [split; constructor|]. cbn [foreach]. destruct (fn x) as [y [e|]] eqn:F; cbn [fst snd].
  - exists [], x, l. rewrite F. repeat split. constructor.
  - destruct (foreach T fn l) as [r [e|]]; cbn [fst snd] in *.
    + destruct IH as (p & z & r' & -> & P & Q & ->). exists (x :: p), z, r'. split; [reflexivity|]. split; [constructor; [rewrite F; reflexivity|exact P]|]. split; [exact Q|]. cbn [map app]. rewrite F. reflexivity.
    + destruct IH as (P & ->). split; [constructor; [rewrite F; reflexivity|exact P]|]. cbn [map]. rewrite F. reflexivity.
Qed.
(** A map in any order: no error if and only if no element has one; else that of some element. *)
Theorem C114_foreach_map T (fn : T -> T * option error) l l' : Permutation l l' -> (foreach_map T fn l' = None <-> Forall (fun x => snd (fn x) = None) l) /\
  (forall e, foreach_map T fn l' = Some e -> exists x, In x l /\ snd (fn x) = Some e).
Proof.
  intros P. assert (G : forall k, (foreach_map T fn k = None <-> Forall (fun x => snd (fn x) = None) k) /\ (forall e, foreach_map T fn k = Some e -> exists x, In x k /\ snd (fn x) = Some e)).
  { clear. induction k as [|x k (IH1 & IH2)]; cbn [foreach_map]; [split; [split; [constructor|reflexivity]|discriminate]|]. destruct (snd (fn x)) as [e|] eqn:E.
    - split; [split; [discriminate|intros F; inversion F; congruence]|]. intros e' Q. injection Q as <-. exists x. split; [left; reflexivity|exact E].
    - split; [rewrite IH1; split; [intros F; constructor; assumption|intros F; inversion F; assumption]|]. intros e Q. destruct (IH2 e Q) as (y & I & Y). exists y. split; [right; exact I|exact Y]. }
  destruct (G l') as (G1 & G2). split.
  - rewrite G1. split; apply Permutation_Forall; [apply Permutation_sym|]; exact P.
  - intros e Q. destruct (G2 e Q) as (x & I & E). exists x. split; [|exact E]. eapply Permutation_in; [apply Permutation_sym; exact P|exact I].
Qed.
(** ** What fails *)
(** The report of an object that is a field of another makes the other's panic. *)
Theorem C114_nested_refuted a inner fs f g e errs : exported f = true -> faddr f = inner -> exported g = true -> leaf e -> subject e <> None ->
  exists r, reports inner (Some [g]) [Some e] = Some (Some r) /\ reports a (Some (f :: fs)) (Some r :: errs) = None.
Proof.
  intros XF F XG L SB. unfold reports. cbn [group]. rewrite (reflect_named [g] e (Forall_cons _ XG (Forall_nil _))); [|repeat constructor; intros []|exact L].
  eexists. split; [reflexivity|]. cbn [group reflect_all reflect]. rewrite XF, F, Nat.eqb_refl. cbn [negb existsb].
  replace (is_setter (named [g] e)) with true; [reflexivity|]. unfold named. destruct (subject e) eqn:Q; [|congruence]. destruct (find _ _); destruct e; try discriminate; try destruct L; reflexivity.
Qed.
(** So does a field that is not exported, whatever the error is about. *)
Theorem C114_unexported_refuted a f fs e errs : exported f = false -> is_setter e = true -> reports a (Some (f :: fs)) (Some e :: errs) = None.
Proof. intros X S'. unfold reports. cbn [group reflect_all]. unfold reflect. rewrite X. destruct e; try discriminate; reflexivity. Qed.
(** What is reported on an element of a slice, or on anything but a field of the object, has no name. *)
Theorem C114_element_refuted a fs p : ~ In p (map faddr fs) -> Forall (fun f => exported f = true) fs -> NoDup (map faddr fs) ->
  exists r, reports a (Some fs) [Some (EMissing p [])] = Some (Some r) /\ message r = text "please provide all required parameters".
Proof.
  intros NI X N. rewrite C114_reports_partial by (first [assumption|discriminate|repeat constructor]). eexists. split; [reflexivity|]. cbn [errors_of flat_map app map message sentence]. unfold named. cbn [subject].
  replace (find (fun f => Nat.eqb (faddr f) p) fs) with (@None field); [reflexivity|]. symmetry. clear - NI. induction fs as [|g fs IH]; [reflexivity|]. cbn in NI |- *. replace (Nat.eqb (faddr g) p) with false; [apply IH; tauto|]. symmetry. apply Nat.eqb_neq. tauto.
Qed.
(** A text of exactly the limit is accepted, though one longer is said to need less. *)
Theorem C114_limit_refuted dec a limit : exceeds dec a (text "bytes") limit limit = None /\
  exceeds dec a (text "bytes") (S limit) limit = Some (EExceeds a [] (dec limit ++ text " bytes")) /\ forall n, n <> [] -> message (EExceeds a n (dec limit ++ text " bytes")) = text "please limit '" ++ n ++ text "' to less than " ++ dec limit ++ text " bytes".
Proof.
  unfold exceeds. rewrite Nat.ltb_irrefl. split; [reflexivity|]. split; [replace (Nat.ltb limit (S limit)) with true by (symmetry; apply Nat.ltb_lt; lia); reflexivity|]. intros n N. destruct (C114_message a n [] [] (dec limit ++ text " bytes") N) as (_ & Q & _). exact Q.
Qed.
Example C114_case : let fs := [{| fname := text "Name"; exported := true; faddr := 1%nat |}; {| fname := text "Age"; exported := true; faddr := 2%nat |}] in
  match reports 0%nat (Some fs) [missing 1%nat 0%nat; None; missing_number 2%nat 0; Some (EOther (text "oops"))] with Some (Some r) => message r = text "please provide 'Name', please provide 'Age' and oops" | _ => False end.
Proof. reflexivity. Qed.
Print Assumptions C114_nil.
Print Assumptions C114_reports_partial.
Print Assumptions C114_list.
Print Assumptions C114_foreach_map.
Print Assumptions C114_nested_refuted.
