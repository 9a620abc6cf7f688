(** C120, C121: which function of a library is called, and what it sees of integer arguments. *)
From Coq Require Import String.
From Verif Require Import GoBase BaseLemmas GoText CtagModel CtagProps CtagRun CallModel.
Open Scope list_scope.

(** ** C120: looking up the symbol *)
Section Lookup.
Context {Ptr : Type}.
Lemma lookup_all_last (t : lookup Ptr) (n : bytes) steps start : lookup_all (steps ++ [(t, n)]) start = t n.
Proof. unfold lookup_all. rewrite fold_left_app. reflexivity. Qed.
Lemma steps_last (tables : list (lookup Ptr)) (t : lookup Ptr) names n : steps_of (tables ++ [t]) (names ++ [n]) = steps_of tables (names ++ [n]) ++ map (fun n => (t, n)) names ++ [(t, n)].
Proof. unfold steps_of. rewrite flat_map_app. cbn [flat_map]. rewrite app_nil_r, map_app. reflexivity. Qed.
(** The function that is called is the one under the last name in the last library: the other names
    and libraries never matter. *)
Theorem C120_last (tables : list (lookup Ptr)) t names n tag ty : tag <> [] -> parse_tag tag = Some (names ++ [n], ty) ->
  link_function (tables ++ [t]) (Some tag) = match t n with Some p => Compiled p ty | None => MakesError end.
Proof.
  intros N P. unfold link_function. destruct tag as [|c tag]; [congruence|]. rewrite P, steps_last, app_assoc, lookup_all_last. reflexivity.
Qed.
(** With one name and one library it is the function of that name, if there is one; every call gives
    an error otherwise. *)
Theorem C120_partial (t : lookup Ptr) n tag ty : tag <> [] -> parse_tag tag = Some ([n], ty) ->
  (forall p, link_function [t] (Some tag) = Compiled p ty <-> t n = Some p) /\
  (link_function [t] (Some tag) = MakesError <-> t n = None).
Proof.
  intros N P. pose proof (C120_last [] t [] n tag ty N P) as E. cbn [app] in E. rewrite E. split.
  - intros p. destruct (t n); split; congruence.
  - destruct (t n); split; congruence.
Qed.
(** A tag that cannot be parsed: every call gives an error. No tag: the function is left alone. *)
Theorem C120_bad_tag (tables : list (lookup Ptr)) tag : tag <> [] -> parse_tag tag = None -> link_function tables (Some tag) = MakesError.
Proof. intros N P. unfold link_function. destruct tag; [congruence|]. rewrite P. reflexivity. Qed.
Theorem C120_no_tag (tables : list (lookup Ptr)) : link_function tables None = Untouched /\ link_function tables (Some []) = Untouched.
Proof. split; reflexivity. Qed.
(** A function that is compiled is one that a library has under one of the names. *)
Theorem C120_sound (tables : list (lookup Ptr)) tag p ty : link_function tables (Some tag) = Compiled p ty ->
  exists names t n, parse_tag tag = Some (names, ty) /\ In t tables /\ In n names /\ t n = Some p.
Proof.
  unfold link_function. destruct tag as [|c tag]; [discriminate|]. destruct (parse_tag (c :: tag)) as [(names, ty')|]; [|discriminate].
  assert (G : forall steps (start : option Ptr) q, lookup_all steps start = Some q -> start = Some q \/ exists t n, In (t, n) steps /\ t n = Some q).
  { induction steps as [|(t, n) steps IH]; intros start q E; [left; exact E|]. unfold lookup_all in *. cbn [fold_left] in E. destruct (IH _ _ E) as [H|(t' & n' & I & H)].
    - right. exists t, n. split; [left; reflexivity|exact H].
    - right. exists t', n'. split; [right; exact I|exact H]. }
  destruct (lookup_all (steps_of tables names) None) as [q|] eqn:L; [|discriminate]. intros E. injection E as <- <-.
  destruct (G _ _ _ L) as [H|(t & n & I & H)]; [discriminate|]. exists names, t, n. split; [reflexivity|].
  unfold steps_of in I. apply in_flat_map in I. destruct I as (t' & It & I). apply in_map_iff in I. destruct I as (n' & Q & In'). injection Q as <- <-. split; [exact It|]. split; assumption.
Qed.
(** Names are documented to be in order of preference: the first that is found does not matter when
    the last is missing, and loses when the last is there. *)
Theorem C120_preference_refuted (t : lookup Ptr) a b ty p q : parse_tag (text "f,g func()") = Some ([a; b], ty) -> t a = Some p ->
  (t b = None -> link_function [t] (Some (text "f,g func()")) = MakesError) /\
  (t b = Some q -> link_function [t] (Some (text "f,g func()")) = Compiled q ty).
Proof.
  intros P _. pose proof (C120_last [] t [a] b (text "f,g func()") ty ltac:(discriminate) P) as E. cbn [app] in E. split; intros H; (etransitivity; [exact E|]); rewrite H; reflexivity.
Qed.
(** A function of the first library is not found when the second does not have it. *)
Theorem C120_libraries_refuted (t u : lookup Ptr) n tag ty : tag <> [] -> parse_tag tag = Some ([n], ty) -> u n = None ->
  link_function [t; u] (Some tag) = MakesError.
Proof. intros N P U. pose proof (C120_last [t] u [] n tag ty N P) as E. cbn [app] in E. rewrite E, U. reflexivity. Qed.
(** Linking fails only when none of the libraries, separated by spaces, can be opened; the tables are
    those of the libraries that can, in their order. *)
Theorem C120_open (dlopen : bytes -> option (lookup Ptr)) lib :
  (open_libs dlopen lib = None <-> forall name, In name (split lib 32) -> dlopen name = None) /\
  (forall ts, open_libs dlopen lib = Some ts -> map Some ts = filter (fun o => match o with Some _ => true | None => false end) (map dlopen (split lib 32))).
Proof.
  unfold open_libs. set (names := split lib 32).
  assert (M : map Some (flat_map (fun n => match dlopen n with Some t => [t] | None => [] end) names) = filter (fun o => match o with Some _ => true | None => false end) (map dlopen names)).
  { induction names as [|n names IH]; [reflexivity|]. cbn [flat_map map filter]. destruct (dlopen n); cbn [app map]; rewrite <- IH; reflexivity. }
  split.
  - split.
    + intros E name I. destruct (dlopen name) as [t|] eqn:D; [|reflexivity]. exfalso.
      assert (X : In t (flat_map (fun n => match dlopen n with Some t => [t] | None => [] end) names)) by (apply in_flat_map; exists name; split; [exact I|rewrite D; left; reflexivity]).
      destruct (flat_map (fun n => match dlopen n with Some t => [t] | None => [] end) names); [destruct X|discriminate].
    + intros H. assert (X : flat_map (fun n => match dlopen n with Some t => [t] | None => [] end) names = []).
      { induction names as [|n names IH]; [reflexivity|]. cbn [flat_map]. rewrite (H n (or_introl eq_refl)). apply IH; [intros|intros; apply H; right; assumption].
        cbn [flat_map map filter] in M. rewrite (H n (or_introl eq_refl)) in M. exact M. }
      rewrite X. reflexivity.
  - intros ts E. rewrite <- M. destruct (flat_map _ names); [discriminate|]. injection E as <-. reflexivity.
Qed.
End Lookup.
Example C120_witness : parse_tag (text "abs func(int)int") = Some ([text "abs"], CType (text "func") (Some (CType (text "int") None [] false None no_test ([], []) false 0))
  [CType (text "int") None [] false None no_test ([], []) false 1] false None no_test ([], []) false 0) /\
  exists ty, parse_tag (text "f,g func()") = Some ([text "f"; text "g"], ty).
Proof. split; [reflexivity|eexists; reflexivity]. Qed.

(** ** Numbers *)
Definition in_range (k : kind) (z : Z) : Prop :=
  match int_kind k with Some (true, w) => - 2 ^ (w - 1) <= z < 2 ^ (w - 1) | Some (false, w) => 0 <= z < 2 ^ w | None => False end.
Definition width (k : kind) : Z := match int_kind k with Some (_, w) => w | None => 0 end.
Lemma int_kind_width k s w : int_kind k = Some (s, w) -> w = 8 \/ w = 16 \/ w = 32 \/ w = 64.
Proof. destruct k; cbn; intros E; try discriminate; injection E as <- <-; auto. Qed.
Lemma sgn_range w z : 0 < w -> - 2 ^ (w - 1) <= sgn w z < 2 ^ (w - 1).
Proof.
  intros W. unfold sgn. cbv zeta. pose proof (Z.mod_pos_bound z (2 ^ w) ltac:(apply Z.pow_pos_nonneg; lia)) as B.
  assert (E : 2 ^ w = 2 * 2 ^ (w - 1)) by (replace w with (Z.succ (w - 1)) at 1 by lia; rewrite Z.pow_succ_r by lia; reflexivity).
  destruct (Z.ltb_spec (z mod 2 ^ w) (2 ^ (w - 1))); lia.
Qed.
Lemma sgn_cong w z : 0 < w -> exists n, sgn w z = z + n * 2 ^ w.
Proof.
  intros W. unfold sgn. cbv zeta. pose proof (Z.div_mod z (2 ^ w) ltac:(apply Z.pow_nonzero; lia)) as E.
  destruct (Z.ltb_spec (z mod 2 ^ w) (2 ^ (w - 1))); [exists (- (z / 2 ^ w))|exists (- (z / 2 ^ w) - 1)]; lia.
Qed.
Lemma wrap_range k z : int_kind k <> None -> in_range k (wrap k z).
Proof.
  intros N. unfold in_range, wrap. destruct (int_kind k) as [([|], w)|] eqn:E; [| |congruence]; pose proof (int_kind_width _ _ _ E) as W.
  - apply sgn_range. lia.
  - apply Z.mod_pos_bound. apply Z.pow_pos_nonneg; lia.
Qed.
Lemma wrap_cong k z : int_kind k <> None -> exists n, wrap k z = z + n * 2 ^ width k.
Proof.
  intros N. unfold wrap, width. destruct (int_kind k) as [([|], w)|] eqn:E; [| |congruence]; pose proof (int_kind_width _ _ _ E) as W.
  - apply sgn_cong. lia.
  - exists (- (z / 2 ^ w)). pose proof (Z.div_mod z (2 ^ w) ltac:(apply Z.pow_nonzero; lia)). lia.
Qed.
Lemma in_range_unique k x y n : in_range k x -> in_range k y -> x = y + n * 2 ^ width k -> x = y.
Proof.
  unfold in_range, width. destruct (int_kind k) as [([|], w)|] eqn:E; [| |contradiction]; pose proof (int_kind_width _ _ _ E) as W; intros A B C.
  - assert (E2 : 2 ^ w = 2 * 2 ^ (w - 1)) by (replace w with (Z.succ (w - 1)) at 1 by lia; rewrite Z.pow_succ_r by lia; reflexivity).
    assert (n = 0) by nia. subst n. lia.
  - assert (n = 0) by nia. subst n. lia.
Qed.
Lemma wrap_exact k z : in_range k z -> wrap k z = z.
Proof.
  intros R. assert (N : int_kind k <> None) by (unfold in_range in R; destruct (int_kind k); [discriminate|contradiction]).
  destruct (wrap_cong k z N) as (n & E). apply (in_range_unique k _ _ n (wrap_range k z N) R E).
Qed.
Lemma wrap_eq k x y n : int_kind k <> None -> x = y + n * 2 ^ width k -> wrap k x = wrap k y.
Proof.
  intros N E. destruct (wrap_cong k x N) as (a & A). destruct (wrap_cong k y N) as (b & B).
  apply (in_range_unique k _ _ (a + n - b) (wrap_range k x N) (wrap_range k y N)). lia.
Qed.
Lemma width_pos k : int_kind k <> None -> 0 < width k.
Proof. intros N. unfold width. destruct (int_kind k) as [(s, w)|] eqn:E; [|congruence]. pose proof (int_kind_width _ _ _ E). lia. Qed.
(** What an integer argument of one kind is to a parameter of the same kind. *)
Lemma push_sees k z : int_kind k <> None -> exists s, push k (VInt z) = Ok s /\ c_sees k s = Some (wrap k z).
Proof.
  intros N. unfold push, c_sees. destruct (int_kind k) as [(sg, w)|] eqn:E; [|congruence]. eexists. split; [reflexivity|]. cbn beta iota. f_equal.
  pose proof (int_kind_width _ _ _ E) as W. apply (wrap_eq k _ _ (- (z / 2 ^ w)) ltac:(congruence)). unfold width. rewrite E. pose proof (Z.div_mod z (2 ^ w) ltac:(apply Z.pow_nonzero; lia)). lia.
Qed.

(** ** Types of values *)
Definition has_type (t : gotype) (v : value) : Prop :=
  match gk t with
  | KFloat32 => exists b, v = VFloat b /\ 0 <= b < 2 ^ 32
  | KFloat64 => exists b, v = VFloat b /\ 0 <= b < 2 ^ 64
  | KBool => exists b, v = VBool b
  | KString => exists s, v = VStr s
  | KSlice => exists p n, v = VSlice p n /\ 0 <= n < 2 ^ 63
  | KPointer | KUnsafePointer | KFunc | KChan | KMap => exists p, v = VPtr p
  | KInterface => v = VNilError \/ v = VOther
  | k => match int_kind k with Some _ => exists z, v = VInt z /\ in_range k z | None => v = VOther end
  end.
Lemma has_int t v : int_kind (gk t) <> None -> has_type t v -> exists z, v = VInt z /\ in_range (gk t) z.
Proof. unfold has_type. destruct (gk t); cbn [int_kind]; intros N H; try congruence; exact H. Qed.
Definition name_of (t : ctype) : bytes := match t with CType n _ _ _ _ _ _ _ _ => n end.
Definition free_of (t : ctype) : option Z := match t with CType _ _ _ _ f _ _ _ _ => f end.
Definition test_of (t : ctype) : assertions := match t with CType _ _ _ _ _ te _ _ _ => te end.
Definition args_of (t : ctype) : list ctype := match t with CType _ _ a _ _ _ _ _ _ => a end.
Definition result_of (t : ctype) : option ctype := match t with CType _ r _ _ _ _ _ _ _ => r end.
Definition nth1 {A} (l : list A) (n : Z) : option A := if 1 <=? n then nth_error l (Z.to_nat (n - 1)) else None.
Lemma index_nth1 {A} (l : list A) n a : nth1 l n = Some a -> index (n - 1) l = Ok a.
Proof.
  unfold nth1, index, zlen. destruct (Z.leb_spec 1 n); [|discriminate]. intros E. assert (L : (Z.to_nat (n - 1) < List.length l)%nat) by (apply nth_error_Some; congruence).
  destruct (Z.leb_spec 0 (n - 1)); [|lia]. destruct (Z.ltb_spec (n - 1) (Z.of_nat (List.length l))); [|lia]. cbn [andb]. rewrite E. reflexivity.
Qed.
Lemma nth1_bound {A} (l : list A) n a : nth1 l n = Some a -> 1 <= n <= zlen l.
Proof.
  unfold nth1, zlen. destruct (Z.leb_spec 1 n); [|discriminate]. intros E. assert (L : (Z.to_nat (n - 1) < List.length l)%nat) by (apply nth_error_Some; congruence). lia.
Qed.
Lemma index_ok {A} (l : list A) i a : index i l = Ok a -> nth1 l (i + 1) = Some a.
Proof.
  unfold nth1, index, zlen. destruct (Z.leb_spec 0 i); [|discriminate]. destruct (Z.ltb_spec i (Z.of_nat (List.length l))); [|discriminate]. cbn [andb].
  destruct (nth_error l (Z.to_nat i)) eqn:E; [|discriminate]. intros Q. injection Q as <-. destruct (Z.leb_spec 1 (i + 1)); [|lia]. replace (i + 1 - 1) with i by lia. exact E.
Qed.
Lemma nth1_typed ins args n g : Forall2 has_type ins args -> nth1 ins n = Some g -> exists v, nth1 args n = Some v /\ has_type g v.
Proof.
  unfold nth1. destruct (1 <=? n); [|discriminate]. intros F. generalize (Z.to_nat (n - 1)). clear n.
  induction F as [|a b ins args T F IH]; intros [|i] E; cbn in *; try discriminate.
  - injection E as <-. eexists. split; [reflexivity|exact T].
  - apply IH; exact E.
Qed.

Section Calls.
Context (fconv : kind -> kind -> Z -> Z).

(** One integer argument. *)
Lemma send_int ins args c g z : nth1 ins (maps_of c) = Some g -> nth1 args (maps_of c) = Some (VInt z) -> int_kind (gk g) <> None ->
  int_kind (c_kind (name_of c)) <> None -> free_of c <> Some 45 ->
  exists s, (let! (k, v) := send_one fconv ins args c in push k v) = Ok s /\ c_sees (c_kind (name_of c)) s = Some (wrap (c_kind (name_of c)) z).
Proof.
  intros I A KG KC F. destruct c as [name r a h free te ca mo maps]. cbn [maps_of name_of free_of] in *. unfold send_one.
  assert (D : match free with Some f => f =? 45 | None => false end = false) by (destruct free; [apply Z.eqb_neq; congruence|reflexivity]). rewrite D.
  pose proof (nth1_bound _ _ _ I) as B. destruct (Z.leb_spec (zlen ins) (maps - 1)); [lia|]. rewrite (index_nth1 _ _ _ I), (index_nth1 _ _ _ A). cbn [obind].
  set (k := c_kind name) in *. destruct (kind_eqb (gk g) k) eqn:Q.
  - cbn [obind]. apply push_sees. exact KC.
  - assert (N : normal k = Some k) by (destruct k; cbn in KC; try congruence; reflexivity). rewrite N.
    assert (C : convertible (gk g) k = true) by (unfold convertible, is_numeric; destruct (int_kind (gk g)); [|congruence]; destruct (int_kind k); [reflexivity|congruence]). rewrite C. cbn [obind convert_num].
    destruct (int_kind (gk g)); [|congruence]. destruct (int_kind k) eqn:IK; [|congruence].
    destruct (push_sees k (wrap k z)) as (s & P & S0); [congruence|]. exists s. split; [exact P|]. rewrite S0. f_equal.
    destruct (wrap_cong k z) as (n & E); [congruence|]. apply (wrap_eq k _ _ n); [congruence|exact E].
Qed.
(** The two passes over the arguments are one. *)
Lemma two_passes ins args cargs slots : Forall2 (fun c s => (let! (k, v) := send_one fconv ins args c in push k v) = Ok s) cargs slots ->
  exists sent, send_all fconv ins args cargs = Ok sent /\ push_all sent = Ok slots.
Proof.
  intros F. induction F as [|c s cargs slots P F (sent & E1 & E2)]; [exists []; split; reflexivity|].
  destruct (send_one fconv ins args c) as [(k, v)|] eqn:S0; [|discriminate]. cbn [obind] in P. exists ((k, v) :: sent). cbn [send_all]. rewrite S0, E1. cbn [obind push_all]. rewrite P, E2. split; reflexivity.
Qed.
Lemma two_passes_inv ins args cargs : forall sent slots, send_all fconv ins args cargs = Ok sent -> push_all sent = Ok slots ->
  Forall2 (fun c s => (let! (k, v) := send_one fconv ins args c in push k v) = Ok s) cargs slots.
Proof.
  induction cargs as [|c cargs IH]; intros sent slots E1 E2; cbn [send_all] in E1.
  - injection E1 as <-. cbn in E2. injection E2 as <-. constructor.
  - destruct (send_one fconv ins args c) as [(k, v)|] eqn:S0; [|discriminate]. cbn [obind] in E1. destruct (send_all fconv ins args cargs) as [l|] eqn:A; [|discriminate].
    injection E1 as <-. cbn [push_all] in E2. destruct (push k v) as [s|] eqn:P; [|discriminate]. cbn [obind] in E2. destruct (push_all l) as [rest|] eqn:R; [|discriminate].
    injection E2 as <-. constructor; [rewrite S0; exact P|]. apply (IH l); [reflexivity|exact R].
Qed.
Lemma send_panic ins args cargs c : In c cargs -> send_one fconv ins args c = Panic -> send_all fconv ins args cargs = Panic.
Proof.
  induction cargs as [|d cargs IH]; intros [] P; cbn [send_all].
  - subst d. rewrite P. reflexivity.
  - rewrite (IH H P). destruct (send_one fconv ins args d) as [(k, v)|]; reflexivity.
Qed.
(** ** C121: integer arguments *)
(** Calls of C functions with integer parameters, and an integer result or none: the C function is
    called, and each parameter sees the Go argument of its number, as a number of the C type that
    is congruent to it, so the number itself when that is in the range of the C type. *)
Definition int_result (r : option ctype) : Prop := match r with None => True | Some r => int_kind (c_kind (name_of r)) <> None end.
Theorem C121_integers ins outs t cfun args : Forall2 has_type ins args ->
  (forall c, In c (args_of t) -> int_kind (c_kind (name_of c)) <> None /\ free_of c <> Some 45 /\ exists g, nth1 ins (maps_of c) = Some g /\ int_kind (gk g) <> None) ->
  int_result (result_of t) ->
  exists slots, fst (call_c fconv ins outs t cfun args) = Some slots /\
    Forall2 (fun c s => exists z x n, nth1 args (maps_of c) = Some (VInt z) /\ c_sees (c_kind (name_of c)) s = Some x /\
      in_range (c_kind (name_of c)) x /\ x = z + n * 2 ^ width (c_kind (name_of c)) /\ (in_range (c_kind (name_of c)) z -> x = z)) (args_of t) slots.
Proof.
  intros T H R. destruct t as [name ret cargs h free te ca mo maps]. cbn [args_of result_of] in *.
  assert (F : exists slots, Forall2 (fun c s => (let! (k, v) := send_one fconv ins args c in push k v) = Ok s /\ exists z x n, nth1 args (maps_of c) = Some (VInt z) /\ c_sees (c_kind (name_of c)) s = Some x /\
      in_range (c_kind (name_of c)) x /\ x = z + n * 2 ^ width (c_kind (name_of c)) /\ (in_range (c_kind (name_of c)) z -> x = z)) cargs slots).
  { clear R. induction cargs as [|c cargs IH]; [exists []; constructor|]. destruct IH as (slots & F); [intros d I; apply H; right; exact I|].
    destruct (H c (or_introl eq_refl)) as (KC & FR & g & G & KG). destruct (nth1_typed _ _ _ _ T G) as (v & V & HT). destruct (has_int _ _ KG HT) as (z & -> & RG).
    destruct (send_int ins args c g z G V KG KC FR) as (s & P & C). exists (s :: slots). constructor; [|exact F]. split; [exact P|].
    destruct (wrap_cong (c_kind (name_of c)) z KC) as (n & E). exists z, (wrap (c_kind (name_of c)) z), n. split; [exact V|]. split; [exact C|]. split; [apply wrap_range; exact KC|]. split; [exact E|apply wrap_exact]. }
  destruct F as (slots & F). assert (F1 : Forall2 (fun c s => (let! (k, v) := send_one fconv ins args c in push k v) = Ok s) cargs slots).
  { clear -F. induction F as [|? ? ? ? (X & _)]; constructor; assumption. }
  exists slots. split.
  - destruct (two_passes _ _ _ _ F1) as (sent & E1 & E2). unfold call_c. rewrite E1.
    assert (W : exists w, wanted ret outs = Ok w /\ (w = None \/ exists g, w = Some g /\ int_kind (gk g) <> None)).
    { destruct ret as [r|]; [|exists None; split; [reflexivity|left; reflexivity]]. cbn [int_result] in R. destruct r as [rn ? ? ? ? ? ? ? ?]. cbn [name_of] in R. cbn [wanted].
      assert (X : beq rn (text "func") || beq rn (text "void") = false).
      { apply orb_false_iff. split; destruct (beq rn _) eqn:B; try reflexivity; apply beq_true in B; subst rn; vm_compute in R; congruence. }
      rewrite X. destruct (normal (c_kind rn)) as [k|] eqn:N; [|exists None; split; [reflexivity|left; reflexivity]].
      eexists. split; [reflexivity|]. right. eexists. split; [reflexivity|]. cbn [gk]. destruct (c_kind rn); cbn in N, R; try congruence; injection N as <-; exact R. }
    destruct W as (w & W1 & W2). rewrite W1, E2. destruct W2 as [-> | (g & -> & KG)]; [reflexivity|].
    assert (TR : exists v, take_result (gk g) (cfun slots) = Some v) by (destruct (gk g); cbn in KG; try congruence; eexists; reflexivity).
    destruct TR as (v & TR). rewrite TR. reflexivity.
  - clear -F. induction F as [|? ? ? ? (_ & X)]; constructor; assumption.
Qed.
(** What a call gives depends on the tag, and there is no error when the function is linked. Numbers
    out of range of the C type are not an error: another number is seen. *)
Definition unary (c r : ctype) : ctype := CType (text "func") (Some r) [c] false None no_test ([], []) false 0.
Definition plain_type (name : bytes) (maps : Z) : ctype := CType name None [] false None no_test ([], []) false maps.
Theorem C121_range_refuted cfun z : in_range KInt z -> ~ in_range KInt32 z ->
  exists s x, fst (call_c fconv [{| gk := KInt; gnamed := false |}] [{| gk := KInt; gnamed := false |}] (unary (plain_type (text "int") 1) (plain_type (text "int") 0)) cfun [VInt z]) = Some [s] /\
    c_sees KInt32 s = Some x /\ x <> z.
Proof.
  intros R N. destruct (C121_integers [{| gk := KInt; gnamed := false |}] [{| gk := KInt; gnamed := false |}] (unary (plain_type (text "int") 1) (plain_type (text "int") 0)) cfun [VInt z]) as (slots & E & F).
  - constructor; [|constructor]. exists z. split; [reflexivity|exact R].
  - intros c [<- | []]. split; [discriminate|]. split; [discriminate|]. eexists. split; [reflexivity|discriminate].
  - discriminate.
  - rewrite E. inversion F as [|c s ? ? (z' & x & n & A & C & RX & _ & _) F' E1 E2]; subst. inversion F'; subst. cbn in A. injection A as <-. exists s, x. split; [reflexivity|]. split; [exact C|]. intros ->. contradiction.
Qed.
(** A parameter that is inferred still takes a number: a Go function with fewer arguments than the C
    function has parameters cannot be called when the last parameter is not inferred. *)
Theorem C121_inferred_refuted ins outs t cfun args c cargs : args_of t = cargs ++ [c] -> maps_of c = zlen (args_of t) -> free_of c <> Some 45 -> zlen ins < zlen (args_of t) ->
  call_c fconv ins outs t cfun args = (None, Panic).
Proof.
  intros E M F L. destruct t as [name ret a h free te ca mo maps]. cbn [args_of] in *. unfold call_c. rewrite (send_panic ins args a c); [reflexivity|rewrite E; apply in_or_app; right; left; reflexivity|].
  destruct c as [n r a' h' fr te' ca' mo' m]. cbn [maps_of free_of] in *. unfold send_one.
  assert (D : match fr with Some f => f =? 45 | None => false end = false) by (destruct fr; [apply Z.eqb_neq; congruence|reflexivity]). rewrite D. destruct (Z.leb_spec (zlen ins) (m - 1)); [reflexivity|lia].
Qed.
(** Such a tag: a length before the string it is of. *)
Example C121_inferred_tag : exists t c, parse_tag (text "f func(-size_t=@2,&char)") = Some ([text "f"], t) /\ args_of t = [c] ++ [CType (text "char") None [] false (Some 38) no_test ([], []) false 2].
Proof. do 2 eexists. split; reflexivity. Qed.
End Calls.
