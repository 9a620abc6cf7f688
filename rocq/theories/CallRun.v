(** C121 (arguments that cannot be passed), C122: strings and memory, C123: results. *)
From Coq Require Import String.
From Verif Require Import GoBase BaseLemmas GoText CtagModel CtagProps CtagRun CallModel CallProps.
Open Scope list_scope.

(** The integer types of C on linux/amd64, by sign and size in bytes (System V ABI, glibc's stdint.h). *)
Definition signed_types : list (Z * list string) :=
  [(1, ["char"; "signed_char"; "int8_t"; "int_fast8_t"; "int_least8_t"]); (2, ["short"; "int16_t"; "int_least16_t"]);
   (4, ["int"; "int32_t"; "int_least32_t"; "wchar_t"; "sig_atomic_t"]);
   (8, ["long"; "long_long"; "int64_t"; "int_least64_t"; "int_fast16_t"; "int_fast32_t"; "int_fast64_t"; "intptr_t"; "ptrdiff_t"; "intmax_t"; "time_t"; "clock_t"])]%string.
Definition unsigned_types : list (Z * list string) :=
  [(1, ["unsigned_char"; "uint8_t"; "uint_fast8_t"; "uint_least8_t"]); (2, ["unsigned_short"; "uint16_t"; "uint_least16_t"; "char16_t"]);
   (4, ["unsigned_int"; "uint32_t"; "uint_least32_t"; "char32_t"; "wint_t"]);
   (8, ["unsigned_long"; "unsigned_long_long"; "uint64_t"; "uint_least64_t"; "uint_fast16_t"; "uint_fast32_t"; "uint_fast64_t"; "uintptr_t"; "uintmax_t"; "size_t"])]%string.
(** Each integer type of C is passed as a number of its sign and size. *)
Theorem C121_types size names name : In name names ->
  (In (size, names) signed_types -> int_kind (c_kind (text name)) = Some (true, 8 * size)) /\
  (In (size, names) unsigned_types -> int_kind (c_kind (text name)) = Some (false, 8 * size)).
Proof.
  intros I. split; intros T; repeat (destruct T as [T|T]; [injection T as <- <-; repeat (destruct I as [<- | I]; [reflexivity|]); destruct I|]); destruct T.
Qed.
(** void is a pointer, floating point types are of 32 and 64 bits. *)
Theorem C121_other_types : c_kind (text "void") = KUnsafePointer /\ c_kind (text "float") = KFloat32 /\ c_kind (text "double") = KFloat64 /\ c_kind (text "bool") = KBool.
Proof. split; [reflexivity|split; [reflexivity|split; reflexivity]]. Qed.

Section Calls.
Context (fconv : kind -> kind -> Z -> Z).
Lemma call_reached ins outs t cfun args slots : fst (call_c fconv ins outs t cfun args) = Some slots ->
  Forall2 (fun c s => (let! (k, v) := send_one fconv ins args c in push k v) = Ok s) (args_of t) slots.
Proof.
  destruct t as [name ret cargs h free te ca mo maps]. cbn [args_of]. unfold call_c. destruct (send_all fconv ins args cargs) as [sent|] eqn:A; [|discriminate].
  destruct (wanted ret outs) as [w|]; [|discriminate]. destruct (push_all sent) as [sl|] eqn:P; [|discriminate].
  destruct w as [g|]; [destruct (take_result (gk g) (cfun sl)); [|discriminate]|]; cbn; intros E; injection E as <-; apply (two_passes_inv _ _ _ _ _ _ A P).
Qed.
Lemma forall2_nth {A B} (R : A -> B -> Prop) l m n a : Forall2 R l m -> nth_error l n = Some a -> exists b, nth_error m n = Some b /\ R a b.
Proof.
  intros F. revert n. induction F as [|x y l m H F IH]; intros [|n] E; cbn in *; try discriminate.
  - injection E as <-. eexists. split; [reflexivity|exact H].
  - apply IH. exact E.
Qed.
(** A parameter that never can be passed: no call of the function reaches it. *)
Lemma never ins outs t cfun args c : In c (args_of t) -> (let! (k, v) := send_one fconv ins args c in push k v) = Panic -> call_c fconv ins outs t cfun args = (None, Panic).
Proof.
  intros I P. destruct (fst (call_c fconv ins outs t cfun args)) as [slots|] eqn:E.
  - exfalso. pose proof (call_reached _ _ _ _ _ _ E) as F. apply In_nth_error in I. destruct I as (n & I). destruct (forall2_nth _ _ _ _ _ F I) as (s & _ & Q). congruence.
  - destruct t as [name ret cargs h free te ca mo maps]. unfold call_c in *. destruct (send_all fconv ins args cargs) as [sent|]; [|reflexivity].
    destruct (wanted ret outs) as [w|]; [|reflexivity]. destruct (push_all sent) as [sl|]; [|reflexivity]. destruct w as [g|]; [destruct (take_result (gk g) (cfun sl)); [discriminate|reflexivity]|discriminate].
Qed.
Lemma send_bound ins args c : free_of c <> Some 45 -> send_one fconv ins args c <> Panic -> exists g v, nth1 ins (maps_of c) = Some g /\ nth1 args (maps_of c) = Some v.
Proof.
  intros F N. destruct c as [n r a h fr te ca mo m]. cbn [maps_of free_of] in *. unfold send_one in N.
  assert (D : match fr with Some f => f =? 45 | None => false end = false) by (destruct fr; [apply Z.eqb_neq; congruence|reflexivity]). rewrite D in N.
  destruct (zlen ins <=? m - 1); [congruence|]. destruct (index (m - 1) ins) as [g|] eqn:G; [|cbn in N; congruence]. cbn [obind] in N.
  destruct (index (m - 1) args) as [v|] eqn:V; [|cbn in N; congruence]. exists g, v. apply index_ok in G, V. replace (m - 1 + 1) with m in * by lia. split; assumption.
Qed.
Lemma send_unfold ins args c g v : free_of c <> Some 45 -> nth1 ins (maps_of c) = Some g -> nth1 args (maps_of c) = Some v ->
  send_one fconv ins args c =
    (if kind_eqb (gk g) (c_kind (name_of c)) then Ok (c_kind (name_of c), v) else
     match normal (c_kind (name_of c)) with
     | None => Panic
     | Some n =>
        if convertible (gk g) n then Ok (n, convert_num fconv (gk g) n v) else
        match gk g, v with
        | KString, VStr s => if beq (name_of c) (text "char") && match free_of c with Some f => f =? 38 | None => false end then Ok (KUnsafePointer, VPtr (PMem (null_terminated s))) else Panic
        | KSlice, VSlice p _ => if (beq (name_of c) (text "void") || beq (name_of c) (text "char")) && match free_of c with Some f => f =? 38 | None => false end then Ok (KUnsafePointer, VPtr p) else Panic
        | KUnsafePointer, VPtr p | KPointer, VPtr p => Ok (KUnsafePointer, VPtr p)
        | KUintptr, _ => Ok (KUintptr, v)
        | _, _ => Panic
        end
     end).
Proof.
  intros F G V. destruct c as [n r a h fr te ca mo m]. cbn [maps_of free_of name_of] in *. unfold send_one.
  assert (D : match fr with Some f => f =? 45 | None => false end = false) by (destruct fr; [apply Z.eqb_neq; congruence|reflexivity]). rewrite D.
  pose proof (nth1_bound _ _ _ G). destruct (Z.leb_spec (zlen ins) (m - 1)); [lia|]. rewrite (index_nth1 _ _ _ G), (index_nth1 _ _ _ V). reflexivity.
Qed.
Lemma kind_eqb_eq a b : kind_eqb a b = true -> a = b.
Proof. destruct a, b; intros E; try discriminate; reflexivity. Qed.

(** ** C121: parameters that cannot be passed *)
(** A parameter of the C type bool, for a Go bool: every call panics. *)
Theorem C121_bool_refuted ins outs t cfun args c g : Forall2 has_type ins args -> In c (args_of t) -> name_of c = text "bool" -> free_of c <> Some 45 ->
  nth1 ins (maps_of c) = Some g -> gk g = KBool -> call_c fconv ins outs t cfun args = (None, Panic).
Proof.
  intros T I N F G K. apply (never _ _ _ _ _ c I). destruct (nth1_typed _ _ _ _ T G) as (v & V & H). rewrite (send_unfold _ _ _ _ _ F G V), N, K. cbn.
  unfold has_type in H. rewrite K in H. destruct H as (b & ->). reflexivity.
Qed.
(** A parameter of a type that is not one of the standard C types, such as the &FILE of the
    documentation: every call panics, whatever the Go argument is. *)
Theorem C121_opaque_refuted ins outs t cfun args c : Forall2 has_type ins args -> In c (args_of t) -> free_of c <> Some 45 -> (forall g, In g ins -> gk g <> KInvalid) ->
  ~ In (name_of c) (map fst c_types) -> call_c fconv ins outs t cfun args = (None, Panic).
Proof.
  intros T I F W N. apply (never _ _ _ _ _ c I).
  assert (K : c_kind (name_of c) = KInvalid).
  { unfold c_kind. destruct (find (fun '(n, _) => beq n (name_of c)) c_types) as [(n, k)|] eqn:E; [|reflexivity]. exfalso. apply find_some in E. destruct E as (E & B). apply beq_true in B. subst n.
    apply N. apply in_map_iff. eexists. split; [|exact E]. reflexivity. }
  destruct (send_one fconv ins args c) as [(k, v)|] eqn:S0; [|reflexivity]. exfalso.
  destruct (send_bound ins args c F ltac:(congruence)) as (g & v' & G & V). rewrite (send_unfold _ _ _ _ _ F G V), K in S0.
  destruct (kind_eqb (gk g) KInvalid) eqn:Q; [|discriminate]. apply kind_eqb_eq in Q. apply (W g); [|exact Q]. unfold nth1 in G. destruct (1 <=? maps_of c); [|discriminate]. apply nth_error_In in G. exact G.
Qed.
Example C121_opaque_witness : ~ In (text "FILE") (map fst c_types).
Proof. vm_compute. intuition discriminate. Qed.
(** A pointer parameter to an integer type gets the integer itself when the Go argument is an
    integer: not a pointer to it. *)
Theorem C121_pointer_refuted ins outs t cfun args slots i c g : Forall2 has_type ins args -> fst (call_c fconv ins outs t cfun args) = Some slots ->
  nth_error (args_of t) i = Some c -> int_kind (c_kind (name_of c)) <> None -> free_of c = Some 38 -> nth1 ins (maps_of c) = Some g -> int_kind (gk g) <> None ->
  exists z w b, nth1 args (maps_of c) = Some (VInt z) /\ nth_error slots i = Some (SInt w b) /\ c_sees (c_kind (name_of c)) (SInt w b) = Some (wrap (c_kind (name_of c)) z).
Proof.
  intros T E N KC F G KG. pose proof (call_reached _ _ _ _ _ _ E) as R. destruct (forall2_nth _ _ _ _ _ R N) as (s & S0 & P).
  destruct (nth1_typed _ _ _ _ T G) as (v & V & H). destruct (has_int _ _ KG H) as (z & -> & _).
  destruct (send_int fconv ins args c g z G V KG KC) as (s' & P' & C); [congruence|]. rewrite P in P'. injection P' as <-.
  destruct s as [w b| |]; try discriminate. exists z, w, b. split; [exact V|]. split; [exact S0|exact C].
Qed.

(** ** C122: strings, memory and lengths *)
(** The bytes of a string up to the first NUL. *)
Fixpoint before_nul (s : bytes) : bytes := match s with [] => [] | c :: r => if c =? 0 then [] else c :: before_nul r end.
Lemma before_nul_id s : ~ In 0 s -> before_nul s = s.
Proof. induction s as [|c s IH]; intros N; [reflexivity|]. cbn. destruct (Z.eqb_spec c 0) as [-> | Q]; [destruct N; left; reflexivity|]. rewrite IH; [reflexivity|]. intros I. apply N. right. exact I. Qed.
Lemma until_app s r : until_nul (s ++ 0 :: r) = Some (before_nul s).
Proof. induction s as [|c s IH]; [reflexivity|]. cbn. destruct (c =? 0); [reflexivity|]. rewrite IH. reflexivity. Qed.
Lemma before_app s : before_nul (s ++ [0]) = before_nul s.
Proof. induction s as [|c s IH]; [reflexivity|]. cbn. destruct (c =? 0); [reflexivity|]. rewrite IH. reflexivity. Qed.
Lemma c_string_nt s : until_nul (null_terminated s) = Some (before_nul s).
Proof.
  unfold null_terminated. destruct (rev s) as [|c r] eqn:E; [apply until_app|]. assert (S0 : s = rev r ++ [c]) by (rewrite <- (rev_involutive s), E; reflexivity).
  destruct (Z.eq_dec c 0) as [-> | N]; [rewrite S0, until_app, before_app; reflexivity|].
  assert (X : match c with 0 => true | _ => false end = false) by (destruct c; [congruence|reflexivity|reflexivity]). rewrite X. apply until_app.
Qed.
(** A Go string for a parameter &char is, in every call, a C string with the bytes of the Go string up
    to its first NUL: all of them when it has none. *)
Theorem C122_string ins outs t cfun args slots i c g s : fst (call_c fconv ins outs t cfun args) = Some slots ->
  nth_error (args_of t) i = Some c -> name_of c = text "char" -> free_of c = Some 38 -> nth1 ins (maps_of c) = Some g -> gk g = KString -> nth1 args (maps_of c) = Some (VStr s) ->
  exists slot, nth_error slots i = Some slot /\ c_string slot = Some (before_nul s) /\ (~ In 0 s -> c_string slot = Some s).
Proof.
  intros E N NM F G K V. pose proof (call_reached _ _ _ _ _ _ E) as R. destruct (forall2_nth _ _ _ _ _ R N) as (slot & S0 & P).
  rewrite (send_unfold ins args c g (VStr s)) in P; [|congruence|exact G|exact V]. rewrite NM, F, K in P. cbn in P. injection P as <-.
  eexists. split; [exact S0|]. cbn [c_string]. rewrite c_string_nt. split; [reflexivity|]. intros NZ. rewrite before_nul_id by exact NZ. reflexivity.
Qed.
(** A string with a NUL inside arrives shorter, without an error. *)
Theorem C122_nul_refuted outs t cfun a b slots : args_of t = [CType (text "char") None [] false (Some 38) no_test ([], []) false 1] ->
  fst (call_c fconv [{| gk := KString; gnamed := false |}] outs t cfun [VStr (a ++ 0 :: b)]) = Some slots ->
  exists slot s, slots = [slot] /\ c_string slot = Some s /\ (List.length s < List.length (a ++ 0%Z :: b))%nat.
Proof.
  intros A E. pose proof (call_reached _ _ _ _ _ _ E) as R. rewrite A in R. inversion R as [|? slot ? ? _ R']; subst. inversion R'; subst.
  destruct (C122_string _ _ _ _ _ _ 0%nat (CType (text "char") None [] false (Some 38) no_test ([], []) false 1) {| gk := KString; gnamed := false |} (a ++ 0 :: b) E) as (slot' & S0 & C & _);
    try reflexivity; [rewrite A; reflexivity|]. cbn in S0. injection S0 as <-. exists slot, (before_nul (a ++ 0 :: b)). split; [reflexivity|]. split; [exact C|].
  clear. induction a as [|c a IH]; cbn; [lia|]. destruct (c =? 0); cbn; lia.
Qed.
(** The other ownerships do not take strings: a string for $char, *char, ~char, +char, #char or char
    is a panic in every call. *)
Theorem C122_ownership_refuted ins outs t cfun args c g s : In c (args_of t) -> name_of c = text "char" -> free_of c <> Some 38 -> free_of c <> Some 45 ->
  nth1 ins (maps_of c) = Some g -> gk g = KString -> nth1 args (maps_of c) = Some (VStr s) -> call_c fconv ins outs t cfun args = (None, Panic).
Proof.
  intros I NM F F' G K V. apply (never _ _ _ _ _ c I). rewrite (send_unfold ins args c g (VStr s)) by assumption. rewrite NM, K. cbn.
  destruct (free_of c) as [f|]; [|reflexivity]. destruct (Z.eqb_spec f 38) as [-> | N]; [congruence|reflexivity].
Qed.
(** A slice for &void or &char is a pointer to its first element; a Go pointer for any parameter of a
    standard type other than a function is that pointer. *)
Theorem C122_memory ins outs t cfun args slots i c g p : fst (call_c fconv ins outs t cfun args) = Some slots ->
  nth_error (args_of t) i = Some c -> free_of c <> Some 45 -> nth1 ins (maps_of c) = Some g ->
  (gk g = KSlice /\ (exists n, nth1 args (maps_of c) = Some (VSlice p n)) \/ (gk g = KPointer \/ gk g = KUnsafePointer) /\ nth1 args (maps_of c) = Some (VPtr p)) ->
  nth_error slots i = Some (SPtr p).
Proof.
  intros E N F G H. pose proof (call_reached _ _ _ _ _ _ E) as R. destruct (forall2_nth _ _ _ _ _ R N) as (slot & S0 & P). rewrite S0. f_equal.
  destruct H as [(K & n & V)|(K & V)]; rewrite (send_unfold _ _ _ _ _ F G V) in P.
  - rewrite K in P. destruct (kind_eqb KSlice (c_kind (name_of c))) eqn:Q.
    + cbn [obind push] in P. apply kind_eqb_eq in Q. rewrite <- Q in P. discriminate.
    + destruct (normal (c_kind (name_of c))) as [k|] eqn:NK; [|discriminate].
      assert (C : convertible KSlice k = false) by (unfold convertible; cbn; destruct k; try reflexivity; destruct (c_kind (name_of c)); discriminate). rewrite C in P.
      destruct ((beq (name_of c) (text "void") || beq (name_of c) (text "char")) && match free_of c with Some f => f =? 38 | None => false end); [|discriminate]. cbn in P. injection P as <-. reflexivity.
  - destruct (kind_eqb (gk g) (c_kind (name_of c))) eqn:Q.
    + apply kind_eqb_eq in Q. rewrite <- Q in P. destruct K as [K|K]; rewrite K in P; cbn in P; injection P as <-; reflexivity.
    + destruct (normal (c_kind (name_of c))) as [k|] eqn:NK; [|discriminate]. destruct K as [K|K]; rewrite K in P.
      * assert (C : convertible KPointer k = false) by (unfold convertible; cbn; destruct k; try reflexivity; destruct (c_kind (name_of c)); discriminate). rewrite C in P. cbn in P. injection P as <-. reflexivity.
      * destruct (convertible KUnsafePointer k) eqn:C.
        -- destruct k; try discriminate. cbn in P. injection P as <-. reflexivity.
        -- cbn in P. injection P as <-. reflexivity.
Qed.
(** An inferred parameter -T=@n is the length of the nth Go argument, a string or a slice. *)
Theorem C122_length ins outs t cfun args slots i c n g v len : fst (call_c fconv ins outs t cfun args) = Some slots ->
  nth_error (args_of t) i = Some c -> free_of c = Some 45 -> a_equality (test_of c) = {| g_check := true; g_index := n; g_const := []; g_value := 0 |} -> 1 <= n ->
  nth1 ins n = Some g -> nth1 args n = Some v ->
  (gk g = KSlice /\ (exists p, v = VSlice p len) \/ gk g = KString /\ exists s, v = VStr s /\ len = zlen s) -> 0 <= len < 2 ^ 63 ->
  nth_error slots i = Some (SInt 64 len).
Proof.
  intros E N F Q B G V H L. pose proof (call_reached _ _ _ _ _ _ E) as R. destruct (forall2_nth _ _ _ _ _ R N) as (slot & S0 & P). rewrite S0. f_equal.
  destruct c as [nm r a h fr te ca mo m]. cbn [test_of free_of] in *. subst fr. unfold send_one in P. cbn [Z.eqb Pos.eqb] in P. unfold infer in P. rewrite Q in P. cbn [g_check g_index andb] in P.
  destruct (Z.ltb_spec 0 n); [|lia]. rewrite (index_nth1 _ _ _ G), (index_nth1 _ _ _ V) in P. cbn [obind] in P.
  assert (M : len mod 2 ^ 64 = len) by (apply Z.mod_small; lia).
  destruct H as [(K & p & ->)|(K & s & -> & ->)]; rewrite K in P; cbn [obind push int_kind] in P; rewrite M in P; injection P as <-; reflexivity.
Qed.

(** ** C123: results *)
Definition returns (t : ctype) (cfun : list slot -> registers) (k : kind) (slots : list slot) (x : Z) : Prop := x = wrap k (r_int (cfun slots)).
Lemma call_shape ins outs t cfun args slots res : call_c fconv ins outs t cfun args = (Some slots, res) ->
  exists w, wanted (result_of t) outs = Ok w /\
    match w with
    | None => res = match result_of t with None => match outs with [] => Ok [] | _ => Panic end
              | Some r => let! into := index 0 outs in let! v := give_result fconv (name_of r) None into in match outs with [_] => Ok [v] | _ => Panic end end
    | Some g => exists v, take_result (gk g) (cfun slots) = Some v /\
              res = match result_of t with None => match outs with [] => Ok [] | _ => Panic end
              | Some r => let! into := index 0 outs in let! v := give_result fconv (name_of r) (Some (g, v)) into in match outs with [_] => Ok [v] | _ => Panic end end
    end.
Proof.
  destruct t as [name ret cargs h free te ca mo maps]. cbn [result_of]. unfold call_c. destruct (send_all fconv ins args cargs) as [sent|]; [|discriminate].
  destruct (wanted ret outs) as [w|]; [|discriminate]. destruct (push_all sent) as [sl|]; [|discriminate]. intros E. exists w. split; [reflexivity|].
  destruct w as [g|].
  - destruct (take_result (gk g) (cfun sl)) as [v|] eqn:TR; [|discriminate]. injection E as <- <-. exists v. split; [exact TR|]. destruct ret as [[]|]; reflexivity.
  - injection E as <- <-. destruct ret as [[]|]; reflexivity.
Qed.
Lemma wanted_int r outs : int_kind (c_kind (name_of r)) <> None -> wanted (Some r) outs = Ok (Some {| gk := c_kind (name_of r); gnamed := false |}).
Proof.
  destruct r as [rn ? ? ? ? ? ? ? ?]. cbn [name_of wanted]. intros R.
  assert (X : beq rn (text "func") || beq rn (text "void") = false).
  { apply orb_false_iff. split; destruct (beq rn _) eqn:B; try reflexivity; apply beq_true in B; subst rn; vm_compute in R; congruence. }
  rewrite X. destruct (c_kind rn); cbn in *; congruence.
Qed.
Lemma take_int k r : int_kind k <> None -> take_result k r = Some (VInt (wrap k (r_int r))).
Proof. destruct k; cbn [int_kind]; intros N; try congruence; reflexivity. Qed.
(** The result of a C function with an integer result, for a Go function with one integer result that
    is not a defined type of the very kind of the C type: the number the C function returned, as a
    number of the Go type that is congruent to it. *)
Theorem C123_integer ins o t cfun args slots res r : call_c fconv ins [o] t cfun args = (Some slots, res) ->
  result_of t = Some r -> int_kind (c_kind (name_of r)) <> None -> int_kind (gk o) <> None -> (gnamed o = true -> gk o <> c_kind (name_of r)) ->
  forall x, x = wrap (c_kind (name_of r)) (r_int (cfun slots)) ->
  exists y n, res = Ok [VInt y] /\ in_range (gk o) y /\ y = x + n * 2 ^ width (gk o) /\ (in_range (gk o) x -> y = x).
Proof.
  intros E R KR KO N x ->. destruct (call_shape _ _ _ _ _ _ _ E) as (w & W & H). rewrite R, (wanted_int r _ KR) in W. injection W as <-. destruct H as (v & TR & H). cbn [gk] in TR.
  rewrite (take_int _ _ KR) in TR. injection TR as <-. rewrite R in H. change (index 0 [o]) with (Ok o) in H. cbn [obind] in H.
  set (k := c_kind (name_of r)) in *. set (x := wrap k (r_int (cfun slots))) in *. exists (wrap (gk o) x). destruct (wrap_cong (gk o) x KO) as (n & C). exists n.
  split; [|split; [apply wrap_range; exact KO|split; [exact C|apply wrap_exact]]].
  unfold give_result in H. fold k in H.
  assert (F : kind_eqb (gk o) KFunc = false) by (destruct (gk o); cbn in KO; try congruence; reflexivity).
  assert (I : kind_eqb k KInvalid = false) by (destruct k; cbn in KR; try congruence; reflexivity). rewrite F, I in H.
  destruct (kind_eqb (gk o) k) eqn:Q.
  - apply kind_eqb_eq in Q. assert (G : gnamed o = false) by (destruct (gnamed o); [exfalso; apply N; [reflexivity|exact Q]|reflexivity]). rewrite G in H. cbn in H. rewrite H.
    rewrite (wrap_exact (gk o) x); [reflexivity|]. rewrite Q. apply wrap_range. exact KR.
  - assert (NK : normal k = Some k) by (destruct k; cbn in KR; try congruence; reflexivity). rewrite NK in H.
    assert (C2 : convertible k (gk o) = true) by (unfold convertible, is_numeric; destruct (int_kind (gk o)); [|congruence]; destruct (int_kind k); [reflexivity|congruence]). rewrite C2 in H.
    assert (S0 : kind_eqb (gk o) KString = false) by (destruct (gk o); cbn in KO; try congruence; reflexivity). rewrite S0 in H. cbn [convert_num] in H.
    destruct (int_kind k); [|congruence]. destruct (int_kind (gk o)); [|congruence]. exact H.
Qed.
(** An integer result for a Go bool: whether it is not zero. *)
Theorem C123_bool ins t cfun args slots res r : call_c fconv ins [{| gk := KBool; gnamed := false |}] t cfun args = (Some slots, res) ->
  result_of t = Some r -> int_kind (c_kind (name_of r)) <> None ->
  res = Ok [VBool (negb (wrap (c_kind (name_of r)) (r_int (cfun slots)) =? 0))].
Proof.
  intros E R KR. destruct (call_shape _ _ _ _ _ _ _ E) as (w & W & H). rewrite R, (wanted_int r _ KR) in W. injection W as <-. destruct H as (v & TR & H). cbn [gk] in TR.
  rewrite (take_int _ _ KR) in TR. injection TR as <-. rewrite R in H. change (index 0 [{| gk := KBool; gnamed := false |}]) with (Ok {| gk := KBool; gnamed := false |}) in H. cbn [obind] in H. rewrite H.
  unfold give_result. destruct (c_kind (name_of r)); cbn in KR; try congruence; reflexivity.
Qed.
(** A result of the Go type error is nil, whatever the C function returned and whatever the tag asserts
    about it. *)
Theorem C123_error_refuted ins t cfun args slots res r : call_c fconv ins [{| gk := KInterface; gnamed := true |}] t cfun args = (Some slots, res) ->
  result_of t = Some r -> int_kind (c_kind (name_of r)) <> None -> res = Ok [VNilError].
Proof.
  intros E R KR. destruct (call_shape _ _ _ _ _ _ _ E) as (w & W & H). rewrite R, (wanted_int r _ KR) in W. injection W as <-. destruct H as (v & TR & H). cbn [gk] in TR.
  rewrite (take_int _ _ KR) in TR. injection TR as <-. rewrite R in H. change (index 0 [{| gk := KInterface; gnamed := true |}]) with (Ok {| gk := KInterface; gnamed := true |}) in H. cbn [obind] in H. rewrite H.
  unfold give_result. destruct (c_kind (name_of r)); cbn in KR; try congruence; reflexivity.
Qed.
(** Mistakes that show only after the C function has run: a result of a defined Go type of the very
    kind of the C type, a C function without a result for a Go function with one, and the reverse. *)
Theorem C123_late_refuted ins t cfun args slots res : 
  (forall o r, call_c fconv ins [o] t cfun args = (Some slots, res) -> result_of t = Some r -> int_kind (c_kind (name_of r)) <> None -> gk o = c_kind (name_of r) -> gnamed o = true -> res = Panic) /\
  (forall o outs, call_c fconv ins (o :: outs) t cfun args = (Some slots, res) -> result_of t = None -> res = Panic) /\
  (forall r, call_c fconv ins [] t cfun args = (Some slots, res) -> result_of t = Some r -> res = Panic).
Proof.
  split; [|split].
  - intros o r E R KR Q G. destruct (call_shape _ _ _ _ _ _ _ E) as (w & W & H). rewrite R, (wanted_int r _ KR) in W. injection W as <-. destruct H as (v & TR & H). cbn [gk] in TR.
    rewrite (take_int _ _ KR) in TR. injection TR as <-. rewrite R in H. change (index 0 [o]) with (Ok o) in H. cbn [obind] in H. rewrite H. unfold give_result. rewrite Q, G. cbn [gnamed].
    destruct (c_kind (name_of r)); cbn in KR; try congruence; reflexivity.
  - intros o outs E R. destruct (call_shape _ _ _ _ _ _ _ E) as (w & W & H). rewrite R in W. injection W as <-. rewrite R in H. exact H.
  - intros r E R. destruct (call_shape _ _ _ _ _ _ _ E) as (w & W & H). rewrite R in *. destruct w as [g|]; [destruct H as (v & _ & ->)|rewrite H]; reflexivity.
Qed.
(** A pointer result &void, for a Go unsafe.Pointer, pointer or uintptr: the address. *)
Theorem C123_pointer ins o t cfun args slots res r : call_c fconv ins [o] t cfun args = (Some slots, res) ->
  result_of t = Some r -> name_of r = text "void" ->
  (gk o = KUnsafePointer \/ gk o = KPointer -> res = Ok [VPtr (PAddr (r_int (cfun slots) mod 2 ^ 64))]) /\
  (gk o = KUintptr -> res = Ok [VInt (r_int (cfun slots) mod 2 ^ 64)]).
Proof.
  intros E R N. destruct (call_shape _ _ _ _ _ _ _ E) as (w & W & H). rewrite R in *. destruct r as [rn ? ? ? ? ? ? ? ?]. cbn [name_of] in *. subst rn. cbn in W. injection W as <-. destruct H as (v & TR & H).
  change (index 0 [o]) with (Ok o) in H. cbn [obind] in H. split.
  - intros K. assert (TR' : Some (VPtr (PAddr (r_int (cfun slots) mod 2 ^ 64))) = Some v) by (destruct K as [K|K]; rewrite K in TR; exact TR). injection TR' as <-. rewrite H. unfold give_result.
    destruct K as [K|K]; rewrite K; cbn; [|reflexivity]. destruct (gnamed o); reflexivity.
  - intros K. rewrite K in TR. cbn [take_result int_kind wrap] in TR. injection TR as <-. rewrite H. unfold give_result. rewrite K. cbn. reflexivity.
Qed.
(** A result &char is never the string or the pointer: as a string it is the character of the low
    byte of the address, as a pointer it is a panic after the call. *)
Theorem C123_string_refuted ins o t cfun args slots res r : call_c fconv ins [o] t cfun args = (Some slots, res) ->
  result_of t = Some r -> name_of r = text "char" ->
  (gk o = KString -> res = Ok [VOther]) /\ (gk o = KPointer \/ gk o = KUnsafePointer -> res = Panic).
Proof.
  intros E R N. assert (KR : int_kind (c_kind (name_of r)) <> None) by (rewrite N; discriminate).
  destruct (call_shape _ _ _ _ _ _ _ E) as (w & W & H). rewrite R, (wanted_int r _ KR) in W. injection W as <-. destruct H as (v & TR & H). cbn [gk] in TR.
  rewrite (take_int _ _ KR) in TR. injection TR as <-. rewrite R in H. change (index 0 [o]) with (Ok o) in H. cbn [obind] in H. rewrite N in H. rewrite H. unfold give_result.
  change (c_kind (text "char")) with KInt8. split; [intros ->; reflexivity|intros [-> | ->]; reflexivity].
Qed.
(** A result of a type that is not one of the standard C types, such as &FILE, is always a panic after
    the call. *)
Theorem C123_opaque_refuted ins outs t cfun args slots res r : call_c fconv ins outs t cfun args = (Some slots, res) ->
  result_of t = Some r -> ~ In (name_of r) (map fst c_types) -> res = Panic.
Proof.
  intros E R N. assert (K : c_kind (name_of r) = KInvalid).
  { unfold c_kind. destruct (find (fun '(n, _) => beq n (name_of r)) c_types) as [(n, k)|] eqn:E'; [|reflexivity]. exfalso. apply find_some in E'. destruct E' as (E' & B). apply beq_true in B. subst n.
    apply N. apply in_map_iff. eexists. split; [|exact E']. reflexivity. }
  destruct (call_shape _ _ _ _ _ _ _ E) as (w & W & H). rewrite R in H.
  assert (G : forall call into, give_result fconv (name_of r) call into = Panic) by (intros; unfold give_result; rewrite K; cbn; destruct (kind_eqb (gk into) KFunc); reflexivity).
  destruct w as [g|]; [destruct H as (v & _ & ->)|rewrite H]; destruct (index 0 outs); try reflexivity; cbn [obind]; rewrite G; reflexivity.
Qed.
End Calls.

(** A whole call: strlen and read, with a C side that gives the number of its last parameter. *)
Definition last_int (l : list slot) : registers := {| r_int := match last l (SInt 0 0) with SInt _ b => b | _ => 77 end; r_flt := 0 |}.
Example C122_call : match parse_tag (text "write func(int,&char,-size_t=@2)long") with
  | Some (_, t) => call_c (fun _ _ z => z) [{| gk := KInt; gnamed := false |}; {| gk := KString; gnamed := false |}] [{| gk := KInt; gnamed := false |}] t last_int [VInt (-1); VStr (text "hello")]
  | None => (None, Panic) end = (Some [SInt 32 (2 ^ 32 - 1); SPtr (PMem (text "hello" ++ [0])); SInt 64 5], Ok [VInt 5]).
Proof. reflexivity. Qed.
Example C123_call : match parse_tag (text "abs func(int)int") with
  | Some (_, t) => call_c (fun _ _ z => z) [{| gk := KInt; gnamed := false |}] [{| gk := KInterface; gnamed := true |}] t last_int [VInt 3]
  | None => (None, Panic) end = (Some [SInt 32 3], Ok [VNilError]).
Proof. reflexivity. Qed.
Print Assumptions C121_integers.
Print Assumptions C122_string.
Print Assumptions C122_memory.
Print Assumptions C123_integer.
Print Assumptions C123_pointer.
