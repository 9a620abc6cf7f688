(** Proofs about package wasm: finding functions by name, and the life of a Runner (api/wasm/export.go,
    import_wasm.go, runner.go). *)
From Verif Require Import GoBase GoText WasmModel.
Local Open Scope Z_scope.
Local Open Scope list_scope.

(** ** C116 *)
Lemma find_rev_last {A} (f : A -> bool) l a r : f a = true -> Forall (fun x => f x = false) r -> find f (rev (l ++ a :: r)) = Some a.
Proof.
  intros H F. rewrite rev_app_distr. cbn [rev]. rewrite <- app_assoc. assert (G : forall k m, Forall (fun x => f x = false) k -> find f (k ++ m) = find f m).
  { clear. intros k m F. induction F as [|x k H F IH]; [reflexivity|]. cbn. rewrite H. exact IH. }
  rewrite G by (apply Forall_rev; exact F). cbn [app find]. rewrite H. reflexivity.
Qed.
Lemma find_none {A} (f : A -> bool) l : Forall (fun x => f x = false) l -> find f l = None.
Proof. intros F. induction F as [|x l H F IH]; [reflexivity|]. cbn. rewrite H. exact IH. Qed.
Lemma numbered_app n a b : numbered n (a ++ b) = numbered n a ++ numbered (n + Z.of_nat (length a)) b.
Proof.
  revert n. induction a as [|x a IH]; intros n; [cbn; rewrite Z.add_0_r; reflexivity|]. cbn [app numbered]. rewrite IH. cbn [length]. do 3 f_equal. lia.
Qed.
Lemma numbered_other n ls name : Forall (fun l => l_name l <> name) ls -> Forall (fun x : bytes * Z => beq (fst x) name = false) (numbered n ls).
Proof. revert n. induction ls as [|l ls IH]; intros n F; inversion F as [|? ? H1 H2]; subst; constructor; [cbn; apply beq_false; exact H1|apply IH; exact H2]. Qed.
(** What a library opened by its name has is found: that of the last library of the name, and of the last
    function of the name; 0 for a function that it does not have. *)
Theorem C116_found before l after name : l_name l = name -> Forall (fun x => l_name x <> name) after -> Z.of_nat (length (before ++ l :: after)) < 2 ^ 64 ->
  let ls := before ++ l :: after in
  0 < dlopen ls name /\
  (forall p f h q, l_funcs l = p ++ (f, h) :: q -> Forall (fun x => fst x <> f) q -> dlsym ls (dlopen ls name) f = Some h) /\
  (forall f, Forall (fun x => fst x <> f) (l_funcs l) -> dlsym ls (dlopen ls name) f = Some 0).
Proof.
  intros N F L. cbv zeta.
  assert (D : dlopen (before ++ l :: after) name = Z.of_nat (length before) + 1).
  { unfold dlopen, last_of. rewrite numbered_app. cbn [numbered]. rewrite find_rev_last; [lia|cbn [fst]; rewrite N; apply beq_refl|apply numbered_other; exact F]. }
  rewrite D. split; [lia|].
  assert (S' : forall f, dlsym (before ++ l :: after) (Z.of_nat (length before) + 1) f = Some (match last_of f (l_funcs l) with Some f => f | None => 0 end)).
  { intros f. unfold dlsym. rewrite Z.add_simpl_r, Z.mod_small by (rewrite app_length in L; cbn [length] in L; lia). rewrite Nat2Z.id, nth_error_app2, Nat.sub_diag by lia. reflexivity. }
  split; intros.
  - rewrite S'. unfold last_of. rewrite H. rewrite find_rev_last; [reflexivity|apply beq_refl|]. eapply Forall_impl; [|exact H0]. intros x X. apply beq_false. exact X.
  - rewrite S'. unfold last_of. rewrite find_none; [reflexivity|]. apply Forall_rev. eapply Forall_impl; [|exact H]. intros x X. apply beq_false. exact X.
Qed.
(** A library that is not there is not opened. *)
Theorem C116_not_there ls name : Forall (fun l => l_name l <> name) ls -> dlopen ls name = 0.
Proof. intros F. unfold dlopen, last_of. rewrite find_none; [reflexivity|]. apply Forall_rev. apply numbered_other. exact F. Qed.
(** Importing an API that is there gives each of its functions its handle. *)
Theorem C116_import before l after name fns : l_name l = name -> Forall (fun x => l_name x <> name) after -> Z.of_nat (length (before ++ l :: after)) < 2 ^ 64 ->
  import (before ++ l :: after) name fns = Some (map (fun f => (f, match last_of f (l_funcs l) with Some h => h | None => 0 end)) fns).
Proof.
  intros N F L. unfold import. induction fns as [|f fns IH]; [reflexivity|]. cbn [import_all map].
  destruct (C116_found before l after name N F L) as (_ & H1 & H2). rewrite IH.
  assert (E : dlsym (before ++ l :: after) (dlopen (before ++ l :: after) name) f = Some (match last_of f (l_funcs l) with Some h => h | None => 0 end)).
  { unfold dlopen, last_of. rewrite numbered_app. cbn [numbered]. rewrite find_rev_last; [|cbn [fst]; rewrite N; apply beq_refl|apply numbered_other; exact F].
    unfold dlsym. replace (1 + Z.of_nat (length before) - 1) with (Z.of_nat (length before)) by lia. rewrite Z.mod_small by (rewrite app_length in L; cbn [length] in L; lia). rewrite Nat2Z.id, nth_error_app2, Nat.sub_diag by lia. reflexivity. }
  rewrite E. reflexivity.
Qed.
(** Importing an API that is not there panics in the host, instead of functions that report it. *)
Theorem C116_import_refuted ls name f fns : Forall (fun l => l_name l <> name) ls -> Z.of_nat (length ls) < 2 ^ 64 - 1 -> import ls name (f :: fns) = None.
Proof.
  intros F L. unfold import. rewrite (C116_not_there ls name F). cbn [import_all]. unfold dlsym. change ((0 - 1) mod 2 ^ 64) with (2 ^ 64 - 1). replace (nth_error ls (Z.to_nat (2 ^ 64 - 1))) with (@None library); [reflexivity|]. symmetry. apply nth_error_None. lia.
Qed.

(** ** C117 *)
Section Runner.
Variables (File Nano Wall : Type).
Notation runner := (runner File Nano Wall).
Notation run := (run File Nano Wall).
Notation compile := (compile File Nano Wall).
Notation add := (add File Nano Wall).
Notation set := (set File Nano Wall).
Notation new_runner := (new_runner File Nano Wall).
(** Names that can be instantiated together: each once, none of them one of those that are always there. *)
Definition proper (names : list bytes) : Prop := NoDup names /\ ~ In wasi_name names /\ ~ In ffi_name names /\ ~ In link_name names.
Lemma instantiate_ok names have : NoDup (have ++ names) -> instantiate names have = Some (have ++ names).
Proof.
  revert have. induction names as [|n names IH]; intros have N; cbn [instantiate]; [rewrite app_nil_r; reflexivity|].
  replace (existsb (beq n) have) with false.
  - rewrite IH; [rewrite <- app_assoc; reflexivity|]. rewrite <- app_assoc. exact N.
  - symmetry. apply not_true_iff_false. intros E. apply existsb_exists in E. destruct E as (x & I & E). apply beq_true in E. subst x. apply NoDup_remove_2 in N. apply N. apply in_app_iff. left. exact I.
Qed.
Lemma instantiate_twice n names have : In n have -> instantiate (n :: names) have = None.
Proof. intros I. cbn [instantiate]. replace (existsb (beq n) have) with true; [reflexivity|]. symmetry. apply existsb_exists. exists n. split; [exact I|apply beq_refl]. Qed.
Definition offered (names : list bytes) : list bytes := wasi_name :: ffi_name :: names ++ [link_name].
Lemma proper_nodup names : proper names -> NoDup ([wasi_name] ++ ffi_name :: names ++ [link_name]).
Proof.
  intros (N & W & F & L). assert (P : NoDup (names ++ [link_name])).
  { clear - N L. induction names as [|n names IH]; [repeat constructor; intros []|]. inversion N as [|? ? N1 N2]; subst. cbn [app]. constructor; [|apply IH; [exact N2|intros I; apply L; right; exact I]]. rewrite in_app_iff. intros [I|[I|[]]]; [exact (N1 I)|]. apply L. left. symmetry. exact I. }
  cbn [app]. constructor.
  - cbn [In]. rewrite in_app_iff. intros [I|[I|[I|[]]]]; [discriminate|exact (W I)|discriminate].
  - constructor; [|exact P]. rewrite in_app_iff. intros [I|[I|[]]]; [exact (F I)|discriminate].
Qed.
(** A runner to which APIs have been added runs its file with all of them, again and again. *)
Definition ready (f : File) (names : list bytes) (r : runner) : Prop := file File Nano Wall r = Some f /\ module File Nano Wall r = None /\ apis File Nano Wall r = names /\ dirty File Nano Wall r = true.
Lemma run_ready f names r : proper names -> ready f names r -> fst (run r) = Ran File (Some f) (offered names) /\ ready f names (snd (run r)).
Proof.
  intros P (F & M & A & D). unfold WasmModel.run, assert_runtime. rewrite D. cbn [orb rt module file apis dirty fresh sys r_id r_names]. rewrite A, M, F. rewrite (instantiate_ok (ffi_name :: names ++ [link_name]) [wasi_name] (proper_nodup _ P)). split; [reflexivity|]. cbn [snd]. split; [reflexivity|]. split; [reflexivity|]. split; reflexivity.
Qed.
Fixpoint runs (n : nat) (r : runner) : list (outcome File) := match n with O => [] | S n => fst (run r) :: runs n (snd (run r)) end.
Lemma fold_add names : forall r, let r' := fold_left (fun r n => add n r) names r in
  file File Nano Wall r' = file File Nano Wall r /\ module File Nano Wall r' = module File Nano Wall r /\ apis File Nano Wall r' = apis File Nano Wall r ++ names /\ (names <> [] -> dirty File Nano Wall r' = true) /\ (names = [] -> r' = r).
Proof.
  induction names as [|n names IH]; intros r; cbn [fold_left]; [rewrite app_nil_r; repeat split; congruence|]. destruct (IH (add n r)) as (A & B & C & D & E). cbv zeta. split; [exact A|]. split; [exact B|]. split; [rewrite C; cbn; rewrite <- app_assoc; reflexivity|]. split; [|discriminate]. intros _. destruct names; [reflexivity|apply D; discriminate].
Qed.
Theorem C117_runs f names n : names <> [] -> proper names -> runs n (set f (fold_left (fun r n => add n r) names new_runner)) = repeat (Ran File (Some f) (offered names)) n.
Proof.
  intros NE P. destruct (fold_add names new_runner) as (A & B & C & D & _). specialize (D NE).
  assert (R : ready f names (set f (fold_left (fun r n => add n r) names new_runner))). { split; [reflexivity|]. split; [exact B|]. split; [exact C|exact D]. }
  revert R. generalize (set f (fold_left (fun r n => add n r) names new_runner)). clear - P. induction n as [|n IH]; intros r R; [reflexivity|]. cbn [runs repeat]. destruct (run_ready f names r P R) as (E & R'). rewrite E, (IH _ R'). reflexivity.
Qed.
(** Without any: it runs once, also after Compile, ... *)
Theorem C117_plain f : fst (run (set f new_runner)) = Ran File (Some f) (offered []) /\ fst (run (compile (set f new_runner))) = Ran File (Some f) (offered []).
Proof. split; reflexivity. Qed.
(** ... and panics the second time. *)
Theorem C117_twice_refuted f : runs 2 (set f new_runner) = [Ran File (Some f) (offered []); Panicked File].
Proof. reflexivity. Qed.
(** After Compile, a runner with APIs never runs. *)
Theorem C117_compiled_refuted f names : names <> [] -> proper names -> fst (run (compile (set f (fold_left (fun r n => add n r) names new_runner)))) = Failed File.
Proof.
  intros NE P. destruct (fold_add names new_runner) as (A & B & C & D & _). specialize (D NE). revert C D. generalize (fold_left (fun r n => add n r) names new_runner). intros r C D.
  unfold WasmModel.compile, WasmModel.set, assert_runtime. cbn [dirty rt file module apis fresh sys]. rewrite D. cbn [orb rt file module apis fresh sys dirty r_id]. unfold WasmModel.run, assert_runtime. cbn [dirty]. cbn [orb rt file module apis fresh sys dirty r_id r_names]. rewrite C. cbn [app]. change (WasmModel.apis File Nano Wall new_runner ++ names) with names.
  rewrite (instantiate_ok (ffi_name :: names ++ [link_name]) [wasi_name] (proper_nodup _ P)).
  replace (Nat.eqb (fresh File Nano Wall r) (S (fresh File Nano Wall r))) with false; [reflexivity|]. symmetry. apply Nat.eqb_neq. lia.
Qed.
(** A file set after Compile is not the one that is run. *)
Theorem C117_set_refuted f g : fst (run (set g (compile (set f new_runner)))) = Ran File (Some f) (offered []).
Proof. reflexivity. Qed.
(** Clocks: both given, they are used; only one given: it is not, and the other is nil. *)
Theorem C117_clocks_partial m n w : clocks_of Nano Wall {| w_memory := m; w_wall := Some w; w_nano := Some n |} = {| c_nano := Some (Some n); c_wall := Some (Some w) |} /\
  clocks_of Nano Wall {| w_memory := m; w_wall := None; w_nano := None |} = {| c_nano := None; c_wall := None |}.
Proof. split; reflexivity. Qed.
Theorem C117_clocks_refuted m n w : clocks_of Nano Wall {| w_memory := m; w_wall := Some w; w_nano := None |} = {| c_nano := Some None; c_wall := None |} /\
  clocks_of Nano Wall {| w_memory := m; w_wall := None; w_nano := Some n |} = {| c_nano := None; c_wall := Some None |}.
Proof. split; reflexivity. Qed.
(** The memory is what is asked for, rounded down to pages; less than a page is none. *)
Theorem C117_memory m w n p : 0 < m < 2 ^ 48 -> pages Nano Wall {| w_memory := m; w_wall := w; w_nano := n |} = Some p -> p * 65536 <= m < (p + 1) * 65536.
Proof.
  intros R E. unfold pages in E. cbn [w_memory] in E. replace (0 <? m) with true in E by lia. injection E as <-. assert (m / 65536 < 2 ^ 32) by (apply Z.div_lt_upper_bound; lia). rewrite Z.mod_small by (split; [apply Z.div_pos; lia|assumption]).
  pose proof (Z.div_mod m 65536 ltac:(lia)). pose proof (Z.mod_pos_bound m 65536 ltac:(lia)). lia.
Qed.
End Runner.
Example C117_case : proper [[65]; [66]].
Proof. split; [repeat constructor; cbn; intros H; repeat (destruct H as [H|H]; [discriminate|]); exact H|]. repeat split; cbn; intros H; repeat (destruct H as [H|H]; [discriminate|]); exact H. Qed.
Print Assumptions C116_found.
Print Assumptions C116_import_refuted.
Print Assumptions C117_runs.
Print Assumptions C117_compiled_refuted.
