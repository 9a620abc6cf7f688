(** The properties of package xyz (C37 to C43, C85). *)
From Verif Require Import GoBase BaseLemmas XyzModel XyzSpec XyzProofs XyzUnion XyzJson.
From Verif Require JrpcSpec JrpcText.

(** ** C37: duplex numbers *)
Theorem C37_values_partial T (add sub : T -> T -> T) a d :
  exists vs, duplex_values add sub (a :: d) = Ok vs /\ length vs = (2 ^ length d)%nat /\
    (forall signs, length signs = length d -> nth_error vs (position signs) = Some (signed_sum add sub a signs d)) /\
    (forall k, (k < length vs)%nat -> exists signs, length signs = length d /\ position signs = k).
Proof.
  exists (branch add sub d a []). split; [reflexivity|]. split; [apply branch_length|]. split; [intros s L; apply branch_nth; exact L|].
  intros k L. rewrite branch_length in L. apply position_onto. exact L.
Qed.
(** For integers of w bits the values are the sums modulo 2^w. *)
Theorem C37_integers_partial w a d signs vs v : 0 < w -> length signs = length d ->
  duplex_values (fun x y => sgn w (x + y)) (fun x y => sgn w (x - y)) (a :: d) = Ok vs ->
  nth_error vs (position signs) = Some v -> v mod 2 ^ w = (a + signed_total signs d) mod 2 ^ w.
Proof.
  intros W L E N. destruct (C37_values_partial Z (fun x y => sgn w (x + y)) (fun x y => sgn w (x - y)) a d) as (vs' & E' & _ & H & _).
  assert (vs' = vs) as -> by congruence. rewrite (H signs L) in N. injection N as <-. apply signed_sum_mod. exact W.
Qed.
Example C37_case : duplex_values Z.add Z.sub [5; 2; 1] = Ok [8; 6; 4; 2] /\ position [true; false] = 2%nat /\
  signed_sum Z.add Z.sub 5 [true; false] [2; 1] = 4.
Proof. repeat split. Qed.
(** Missing: the empty number, which panics. *)
Theorem C37_empty_refuted T (add sub : T -> T -> T) : duplex_values add sub [] = Panic.
Proof. reflexivity. Qed.

(** ** C38: switch types *)
(** [nth_error (svalues k fs) i = Some v]: v is the value of the i-th name. *)
Theorem C38_marshal_partial ft k fs i f v : nth_error fs i = Some f -> NoDup (map field_name fs) -> room k (length fs) ->
  nth_error (svalues k fs) i = Some v -> marshal_text ft k fs v = field_name f /\ marshal_json ft k fs v = JStr (field_name f).
Proof.
  intros E D R V. destruct (declared ft k fs i f E D R) as (v' & V' & M). assert (v' = v) as -> by congruence.
  unfold marshal_json. rewrite M. auto.
Qed.
Theorem C38_unmarshal_text_partial os k fs old i f v : nth_error fs i = Some f -> NoDup (map field_name fs) -> k <> SUintptr ->
  (k = SString -> a_word (field_name f)) ->
  nth_error (svalues k fs) i = Some v -> unmarshal_text os k fs old (field_name f) = Some v.
Proof.
  intros E D K W V. destruct (unmarshal_text_name os k fs old i f E D) as (v' & V' & M); [destruct k; auto|]. congruence.
Qed.
Theorem C38_json_round_trip_partial ft jn k fs old i f v : nth_error fs i = Some f -> NoDup (map field_name fs) -> room k (length fs) ->
  nth_error (svalues k fs) i = Some v -> unmarshal_json jn k fs old (marshal_json ft k fs v) = Some v.
Proof.
  intros E D R V. destruct (C38_marshal_partial ft k fs i f v E D R V) as (_ & ->).
  unfold svalues in V. rewrite (svalues_nth k fs 0 i f E) in V. injection V as <-.
  unfold unmarshal_json. rewrite (find_name_nth fs 0 i f E D). cbn [Nat.add]. destruct k; try reflexivity. contradiction.
Qed.
(** Numbers without a name are written in decimal and read back from text. *)
Theorem C38_unknown_numbers ft os k fs old z : in_storage k z -> (k = SUintptr \/ z < 0 \/ Z.of_nat (length fs) <= z) ->
  JrpcSpec.json_int (marshal_text ft k fs (SVInt z)) z /\
  (~ In (marshal_text ft k fs (SVInt z)) (map field_name fs) ->
   unmarshal_text os k fs old (marshal_text ft k fs (SVInt z)) = Some (SVInt z)).
Proof.
  intros S0 U. assert (B : - 2 ^ 63 <= z < 2 ^ 64).
  { destruct k; cbn [in_storage] in S0; try contradiction; try (destruct S0 as (W & S0); unfold switch_width in W; cbn [In] in W;
      destruct W as [<-|[<-|[<-|[<-|[]]]]]; cbn in S0; lia). lia. }
  assert (M : marshal_text ft k fs (SVInt z) = decimal z).
  { unfold marshal_text. rewrite marshal_from_none; [reflexivity|]. intros j g N.
    assert (j < length fs)%nat by (apply (proj1 (nth_error_Some (A:=str * option str) fs j)); rewrite N; discriminate).
    destruct k; cbn [matches in_storage] in *; try contradiction; try reflexivity;
      (destruct U as [U|U]; [discriminate|]); apply Z.eqb_neq; lia. }
  rewrite M. pose proof (decimal_int z B) as J. split; [exact J|]. intros NI. unfold unmarshal_text.
  rewrite (find_name_none fs _ 0 NI).
  assert (NE : decimal z <> []) by (inversion J; discriminate).
  destruct (decimal z) as [|c r] eqn:D; [congruence|]. rewrite <- D in *. clear D.
  destruct k; cbn [in_storage sscan] in *; try contradiction.
  - rewrite (plain_int_json _ _ J). destruct S0 as (_ & S0). replace (_ && _) with true by lia. reflexivity.
  - rewrite (plain_nat_json _ _ J) by lia. destruct S0 as (_ & S0). replace (z <? 2 ^ w) with true by lia. reflexivity.
  - rewrite (plain_nat_json _ _ J) by lia. change (2 ^ 64) with 18446744073709551616 in *. replace (z <? 18446744073709551616) with true by lia. reflexivity.
Qed.
Definition animals : list sfield := [([67;97;116], None); ([68;111;103], Some [100;111;103])].
Example C38_hypotheses : NoDup (map field_name animals) /\ room (SInt 8) (length animals) /\ room SBool (length animals) /\
  nth_error (svalues (SInt 8) animals) 1 = Some (SVInt 1) /\ marshal_text (fun _ => []) (SInt 8) animals (SVInt 1) = [100;111;103] /\
  in_storage (SInt 8) (-7) /\ marshal_text (fun _ => []) (SInt 8) animals (SVInt (-7)) = [45; 55] /\ a_word [100;111;103].
Proof.
  split; [cbn; constructor; [intros [Q|[]]; discriminate|constructor; [intros []|constructor]]|].
  split; [cbn; split; [unfold switch_width; cbn; auto|lia]|]. split; [cbn; lia|]. split; [reflexivity|]. split; [reflexivity|].
  split; [cbn; split; [unfold switch_width; cbn; auto|lia]|]. split; [reflexivity|].
  split; [discriminate|]. repeat (constructor; [lia|]). constructor.
Qed.
(** With a bool the third name and later ones share the value of the second. *)
Theorem C38_bool_refuted ft fs i f g : nth_error fs 0 = Some f -> nth_error fs 1 = Some g -> (1 < i < length fs)%nat ->
  exists v, nth_error (svalues SBool fs) i = Some v /\ marshal_text ft SBool fs v = field_name g.
Proof.
  intros E0 E1 L. destruct (nth_error fs i) as [h|] eqn:E; [|apply nth_error_None in E; lia].
  exists (SVBool true). split.
  - unfold svalues. rewrite (svalues_nth SBool fs 0 i h E). destruct i; [lia|reflexivity].
  - unfold marshal_text. apply marshal_from_nth with (i := 1%nat); [exact E1| |reflexivity].
    intros j h' J N. destruct j; [reflexivity|lia].
Qed.
(** The 129th name of an int8 does not name its value. *)
Theorem C38_overflow_refuted ft fs i : (i = 128)%nat -> (i < length fs)%nat ->
  exists v, nth_error (svalues (SInt 8) fs) i = Some v /\ marshal_text ft (SInt 8) fs v = [45; 49; 50; 56].
Proof.
  intros -> L. destruct (nth_error fs 128) as [h|] eqn:E; [|apply nth_error_None in E; lia].
  eexists. split; [unfold svalues; apply (svalues_nth (SInt 8) fs 0 128 h E)|].
  change (store_index (SInt 8) (0 + 128) (szero (SInt 8))) with (SVInt (-128)).
  unfold marshal_text. rewrite marshal_from_none; [reflexivity|]. intros j g N. cbn [matches]. apply Z.eqb_neq. lia.
Qed.
(** With a uintptr no name is written and none is read. *)
Theorem C38_uintptr_refuted ft os fs old i f : nth_error fs i = Some f -> NoDup (map field_name fs) ->
  unmarshal_text os SUintptr fs old (field_name f) = Some old /\
  forall z, marshal_text ft SUintptr fs (SVInt z) = decimal z.
Proof.
  intros E D. split.
  - unfold unmarshal_text. rewrite (find_name_nth fs 0 i f E D). reflexivity.
  - intros z. unfold marshal_text. rewrite marshal_from_none; reflexivity.
Qed.
(** With a string, a name that contains a space is cut at the space. *)
Theorem C38_space_refuted os fs old w r : a_word w -> unmarshal_text os SString fs old (w ++ 32 :: r) = Some (SVStr w).
Proof.
  intros (N & F). destruct w as [|c w]; [congruence|]. cbn [unmarshal_text app sscan drop_space]. inversion F as [|x y C0 F0]; subst.
  assert (fmt_space c = false) as -> by (unfold fmt_space; lia). cbn [word].
  assert (fmt_space c = false) as -> by (unfold fmt_space; lia).
  assert (word (w ++ 32 :: r) = w) as ->; [|reflexivity].
  clear -F0. induction F0 as [|b w B F IH]; [reflexivity|]. cbn [app word]. assert (fmt_space b = false) as -> by (unfold fmt_space; lia). rewrite IH. reflexivity.
Qed.
(** A number without a name does not come back from its JSON. *)
Theorem C38_unknown_json_refuted ft jn k fs old z : in_storage k z -> (k = SUintptr \/ z < 0 \/ Z.of_nat (length fs) <= z) ->
  ~ In (marshal_text ft k fs (SVInt z)) (map field_name fs) ->
  unmarshal_json jn k fs old (marshal_json ft k fs (SVInt z)) = None.
Proof.
  intros S0 U NI. unfold marshal_json, unmarshal_json. rewrite (find_name_none fs _ 0 NI).
  destruct k; cbn [in_storage json_storage] in *; try contradiction; reflexivity.
Qed.

(** ** C39: tagged unions in memory *)
Theorem C39_memory_partial fi sp sc k cs l i c t img : values k cs = Ok l -> nth_error cs i = Some c -> ctype c = Some t ->
  match k with KArray _ _ | KUnsafe => True | _ => False end -> zlen img = psize t ->
  exists v, as_ fi sp k l i (PVal t img) = Ok v /\ tag v = Some i /\ case_get sc k l i v = Ok (PVal t img) /\
    forall j, j <> i -> case_get sc k l j v = Panic.
Proof.
  intros V N T K L. destruct (memory_round fi sp sc k cs l i c t img V N T K L) as (v & A & B & C).
  exists v. repeat match goal with |- _ /\ _ => split end; try assumption. intros j J. eapply get_other; eassumption.
Qed.
Theorem C39_interface_partial fi sp sc impl cs l i c t dt img : values (KIface impl) cs = Ok l -> nth_error cs i = Some c -> ctype c = Some t ->
  piface t = true \/ dt = t -> impl (pid dt) = true ->
  exists v, as_ fi sp (KIface impl) l i (PVal dt img) = Ok v /\ tag v = Some i /\
    case_get sc (KIface impl) l i v = Ok (PVal dt img) /\ forall j, j <> i -> case_get sc (KIface impl) l j v = Panic.
Proof.
  intros V N T D I. destruct (iface_round fi sp sc impl cs l i c t dt img V N T D I) as (v & A & B & C).
  exists v. repeat match goal with |- _ /\ _ => split end; try assumption. intros j J. eapply get_other; eassumption.
Qed.
(** In string storage, when scanning undoes printing. *)
Theorem C39_string_partial fi sp sc cs l i c t s x : values KString cs = Ok l -> nth_error cs i = Some c -> ctype c = Some t ->
  ctxt c = Some s -> In 37 s -> sc t (sp s (PVal t x)) s = x ->
  exists v, as_ fi sp KString l i (PVal t x) = Ok v /\ tag v = Some i /\ case_get sc KString l i v = Ok (PVal t x) /\
    forall j, j <> i -> case_get sc KString l j v = Panic.
Proof.
  intros V N T C F Q. destruct (string_round fi sp sc cs l i c t s x V N T C F Q) as (v & A & B & D).
  exists v. repeat match goal with |- _ /\ _ => split end; try assumption. intros j J. eapply get_other; eassumption.
Qed.
Lemma values_make k cs l i c : values k cs = Ok l -> nth_error cs i = Some c ->
  (i <= 255)%nat /\ exists a, nth_error l i = Some a /\ make_accessor k i c = Ok a /\ safe a = true.
Proof.
  unfold values, accessors. intros E Q. destruct (accessors_from k 0 cs) as [l'|] eqn:A; [|discriminate]. cbn [obind] in E.
  destruct (forallb safe l') eqn:S0; [|discriminate]. injection E as <-.
  destruct (accessors_nth k cs 0 l' A) as (L & H). destruct (H i c Q) as (a & N & M). rewrite forallb_forall in S0. cbn [Nat.add] in M. split.
  - unfold make_accessor in M. destruct (Nat.ltb 255 i) eqn:I; [discriminate|]. apply Nat.ltb_ge in I. exact I.
  - exists a. split; [exact N|]. split; [exact M|]. exact (S0 a (nth_error_In _ _ N)).
Qed.
(** A type whose payload does not fit its storage, or that would hide a pointer from the garbage
    collector in it, is never accepted; nor are more than 256 cases. *)
Theorem C39_fits n p cs l i c t : values (KArray n p) cs = Ok l -> nth_error cs i = Some c -> ctype c = Some t ->
  psize t <= n /\ (psize t = 0 \/ pptrs t = false) /\ (n = 0 \/ p = false).
Proof.
  intros V N T. destruct (values_make _ _ _ _ _ V N) as (I & a & _ & M & S0). unfold make_accessor in M.
  replace (Nat.ltb 255 i) with false in M by (symmetry; apply Nat.ltb_ge; exact I). cbv zeta in M. rewrite andb_false_r in M. rewrite T in M.
  injection M as <-. cbn [safe st_size st_ptrs] in S0. unfold p_ptrs in S0.
  apply andb_true_iff in S0. destruct S0 as (S0 & S3). apply andb_true_iff in S0. destruct S0 as (S1 & S2).
  split; [lia|]. split; [destruct (pptrs t); [left; lia|right; reflexivity]|destruct p; [left; lia|right; reflexivity]].
Qed.
Theorem C39_few k cs l : values k cs = Ok l -> (length cs <= 256)%nat.
Proof.
  intros V. destruct (Nat.le_gt_cases (length cs) 256) as [L|L]; [exact L|exfalso].
  destruct (nth_error cs 256) as [c|] eqn:E; [|apply nth_error_None in E; lia]. destruct (values_make _ _ _ _ _ V E) as (I & _). lia.
Qed.
(** In integer storage each case has its number: values of different cases are different numbers. *)
Theorem C39_numbers fi sp k n cs l i j c d t u x y v w : (k = KInt (8 * Z.of_nat n) \/ k = KUint (8 * Z.of_nat n)) -> n <> 0%nat -> values k cs = Ok l ->
  nth_error cs i = Some c -> nth_error cs j = Some d -> ctype c = Some t -> ctype d = Some u -> cxyz c = None -> cxyz d = None ->
  as_ fi sp k l i (PVal t x) = Ok v -> as_ fi sp k l j (PVal u y) = Ok w -> ram_of v = ram_of w -> i = j.
Proof.
  intros K Z0 V NC ND TC TD XC XD A B E.
  assert (Q : forall i c t x v, nth_error cs i = Some c -> ctype c = Some t -> cxyz c = None -> as_ fi sp k l i (PVal t x) = Ok v ->
     (i <= 255)%nat /\ ram_of v = RMem (le_image n (Z.of_nat i))).
  { clear - K V. intros i c t x v N T X A. destruct (values_make _ _ _ _ _ V N) as (I & a & L & M & S0). split; [exact I|].
    unfold make_accessor in M. replace (Nat.ltb 255 i) with false in M by (symmetry; apply Nat.ltb_ge; exact I). cbv zeta in M.
    destruct (negb _ && _) in M; [discriminate|]. rewrite T, X in M. injection M as M.
    assert (R : rtyp a = Some t) by (rewrite <- M; reflexivity). assert (EN : enum a = Z.of_nat i) by (rewrite <- M; reflexivity). clear M.
    rewrite (as_made fi sp k l i a t x L S0 R) in A. replace (8 * Z.of_nat n) with (Z.of_nat n * 8) in K by lia.
    destruct K as [->| ->]; cbn [ram0 obind] in A; rewrite Z.div_mul, Nat2Z.id in A by lia; injection A as <-; rewrite EN; reflexivity. }
  destruct (Q i c t x v NC TC XC A) as (LI & RI). destruct (Q j d u y w ND TD XD B) as (LJ & RJ). rewrite RI, RJ in E.
  destruct n; [congruence|]. cbn [le_image] in E. injection E as E _. rewrite !Z.mod_small in E by lia. lia.
Qed.
Example C39_numbers_case : let cs := [{| cname := [65]; ctxt := None; cjson := []; cxyz := None; ctype := Some {| pid := 1; psize := 1; pptrs := false; pstring := false; piface := false |} |};
    {| cname := [66]; ctxt := None; cjson := []; cxyz := None; ctype := Some {| pid := 1; psize := 1; pptrs := false; pstring := false; piface := false |} |}] in
  exists l v, values (KUint 16) cs = Ok l /\
    as_ (fun _ _ => []) (fun _ _ => []) (KUint 16) l 1 (PVal {| pid := 1; psize := 1; pptrs := false; pstring := false; piface := false |} [7]) = Ok v /\ ram_of v = RMem [1; 0].
Proof. do 2 eexists. repeat match goal with |- _ /\ _ => split end; reflexivity. Qed.
Definition tint : ptype := {| pid := 1; psize := 8; pptrs := false; pstring := false; piface := false |}.
Definition tstr : ptype := {| pid := 2; psize := 16; pptrs := true; pstring := true; piface := false |}.
Definition tobj : ptype := {| pid := 3; psize := 16; pptrs := true; pstring := false; piface := false |}.
Definition terr : ptype := {| pid := 4; psize := 16; pptrs := true; pstring := false; piface := true |}.
Definition mk (n : str) (x : option str) (j : str) (t : option ptype) : case :=
  {| cname := n; ctxt := x; cjson := j; cxyz := None; ctype := t |}.
Example C39_hypotheses :
  (exists l, values (KArray 8 false) [mk [65] None [] (Some tint); mk [66] None [] None] = Ok l) /\
  (exists l, values (KIface (fun _ => true)) [mk [65] None [] (Some tint); mk [66] None [] (Some terr)] = Ok l) /\
  (exists l, values (KInt 64) [mk [65] None [] (Some tint)] = Ok l) /\
  values (KArray 8 false) [mk [65] None [] (Some tstr)] = Panic /\
  (exists l, values KString [mk [65] (Some [37; 100]) [] (Some tint)] = Ok l).
Proof. repeat match goal with |- _ /\ _ => split end; try (eexists; reflexivity). Qed.
(** In a bool, an integer or a float the payload is not stored at all. *)
Theorem C39_numeric_refuted fi sp k cs l i c t x y : memory_kind k -> values k cs = Ok l -> nth_error cs i = Some c -> ctype c = Some t ->
  as_ fi sp k l i (PVal t x) = as_ fi sp k l i (PVal t y) /\ exists v, as_ fi sp k l i (PVal t x) = Ok v.
Proof. apply numeric_forgets. Qed.
(** Slices and structs as storage panic. *)
Theorem C39_slice_struct_refuted fi sp k cs l i c t x : match k with KSlice _ | KStruct _ _ => True | _ => False end ->
  values k cs = Ok l -> nth_error cs i = Some c -> ctype c = Some t -> as_ fi sp k l i (PVal t x) = Panic.
Proof. apply slice_panics. Qed.
(** In string storage without a verb in the text the payload is lost. *)
Theorem C39_string_refuted fi sp cs l i c t s x y : values KString cs = Ok l -> nth_error cs i = Some c -> ctype c = Some t ->
  ctxt c = Some s -> Forall (fun b => b <> 37) s ->
  as_ fi sp KString l i (PVal t x) = as_ fi sp KString l i (PVal t y) /\ exists v, as_ fi sp KString l i (PVal t x) = Ok v.
Proof. apply string_forgets. Qed.
(** A nil interface can be put in but Get panics. *)
Theorem C39_nil_refuted fi sp sc impl cs l i c t : values (KIface impl) cs = Ok l -> nth_error cs i = Some c -> ctype c = Some t ->
  exists v, as_ fi sp (KIface impl) l i PNil = Ok v /\ case_get sc (KIface impl) l i v = Panic.
Proof. apply nil_panics. Qed.

(** ** C40: pairs *)
(** The keys of earlier cases differ from that of the value's case, and their field names too. *)
Theorem C40_pair_partial sp sc k cs l i c key r : values k cs = Ok l -> nth_error cs i = Some c -> keyed c key ->
  (forall j b, (j < i)%nat -> nth_error cs j = Some b -> (exists q, keyed b q) /\ ~ keyed b key /\ ~ also_named b key) ->
  (ctxt c <> None -> r = ram0 k) ->
  exists p, marshal_pair sp sc k l {| tag := Some i; ram_of := r |} = Ok (Some p) /\ fst p = key /\
    unmarshal_pair l p = Some {| tag := Some i; ram_of := r |}.
Proof.
  intros V N K B Z0. destruct (pair_round sp sc k cs l i c key r V N K B Z0) as (A & D). exists (key, r). auto.
Qed.
Definition shapes : list case :=
  [mk [78] (Some []) [] None; mk [65] None [118;63;116;61;97] (Some tint); mk [66] None [118;63;116;61;98] (Some tstr); mk [67] None [99] (Some tobj)].
Example C40_hypotheses : (exists l, values (KIface (fun _ => true)) shapes = Ok l) /\
  keyed (mk [65] None [118;63;116;61;97] (Some tint)) [97] /\ keyed (mk [67] None [99] (Some tobj)) [99] /\
  keyed (mk [78] (Some []) [] None) [].
Proof.
  split; [eexists; reflexivity|]. split; [|split].
  - eapply (KeyConst _ [118] [116] [97] []); try reflexivity; unfold plain; repeat (split || constructor); discriminate.
  - eapply (KeyName _ [99] []); try reflexivity; unfold plain; repeat (split || constructor); discriminate.
  - apply KeyText; [reflexivity|reflexivity|constructor].
Qed.
(** A case with a text loses its storage. *)
Theorem C40_text_storage_refuted sp sc k cs l i c key r : values k cs = Ok l -> nth_error cs i = Some c ->
  ctxt c = Some key -> Forall (fun b => b <> 37) key ->
  marshal_pair sp sc k l {| tag := Some i; ram_of := r |} = Ok (Some (key, ram0 k)).
Proof.
  intros V N C F. destruct (values_nth k cs l V) as (_ & H). destruct (H i c N) as (a & A & M).
  pose proof (is_text_iff k c a M) as T. rewrite C in T. destruct M as (_ & X & _ & _ & P & _). rewrite C in X.
  unfold marshal_pair. cbn [tag]. rewrite A, T, P, X, (no_percent key F). reflexivity.
Qed.
(** The field name of an earlier case takes the key of a later one although the keys differ. *)
Theorem C40_field_name_refuted k cs l c0 n r q p : values k cs = Ok l -> nth_error cs 0 = Some c0 -> ctxt c0 = None ->
  cjson c0 = n ++ 63 :: q -> Forall (fun c => c <> 44) q -> Forall (fun c => c <> 44 /\ c <> 63 /\ c <> 61) n -> n <> [] -> fst p = n -> snd p = r ->
  unmarshal_pair l p = Some {| tag := Some 0%nat; ram_of := r |}.
Proof.
  intros V N C J Q U NE P1 P2. destruct (values_nth k cs l V) as (_ & H). destruct (H 0%nat c0 N) as (a & A & M).
  destruct p as [p1 p2]. cbn [fst snd] in P1, P2. subst p1 p2.  pose proof (is_text_iff k c0 a M) as T. rewrite C in T. destruct M as (_ & _ & JT & _). rewrite J in JT.
  unfold unmarshal_pair. rewrite (pair_first l (n, r) 0 0 a A); [reflexivity| |intros; lia].
  assert (F44 : Forall (fun c => c <> 44) (n ++ 63 :: q)).
  { apply Forall_app. split; [eapply Forall_impl; [|exact U]; cbn; tauto|]. constructor; [lia|exact Q]. }
  unfold takes_key. rewrite T, JT. cbn [fst snd andb orb].
  destruct (n ++ 63 :: q) as [|x y] eqn:E; [destruct n; discriminate|]. rewrite (cut_none 44 _ F44). cbn [fst snd]. rewrite <- E.
  rewrite (cut_found 63 n q) by (eapply Forall_impl; [|exact U]; cbn; tauto).
  destruct (cut 61 q) as [[q1 q2] q3]. rewrite str_eqb_refl. apply orb_true_r.
Qed.
Example C40_refuted_case : exists l, values (KIface (fun _ => true)) [mk [65] None [98;63;116;61;97] (Some tint); mk [66] None [98] (Some tstr)] = Ok l /\
  unmarshal_pair l ([98], RIface PNil) = Some {| tag := Some 0%nat; ram_of := RIface PNil |} /\
  marshal_pair (fun s _ => s) (fun _ _ _ => []) (KIface (fun _ => true)) l {| tag := Some 1%nat; ram_of := RIface PNil |} = Ok (Some ([98], RIface PNil)).
Proof. eexists. repeat split. Qed.

(** ** C41: JSON of unions *)
(** [pm0], [pu]: how encoding/json writes and reads payloads; [v] holds x in case i. *)
Theorem C41_objects_partial fi sp sc pm0 pu pt k cs l i c x v t old : values k cs = Ok l ->
  Forall (fun c => ctxt c = None /\ plain (cjson c)) cs -> NoDup (map cjson cs) ->
  nth_error cs i = Some c -> ctype c = Some t -> x <> PNil ->
  as_ fi sp k l i x = Ok v -> case_get sc k l i v = Ok x -> pu t (pm0 x) = Some x -> fresh k old ->
  exists d, marshal_union sp sc pm0 k l v = Ok d /\ d = JObj [(cjson c, pm0 x)] /\ unmarshal_union fi sp pu pt k l old d = JOk v.
Proof. intros. eexists. repeat split; eapply (object_round fi sp sc pm0 pu pt k cs l i c x v t old); eassumption. Qed.
Theorem C41_discriminated_partial fi sp sc pm0 pu pt k cs l i c x v t old key nm val : values k cs = Ok l -> plain key ->
  nth_error cs i = Some c ->
  ctxt c = None -> cjson c = nm ++ 63 :: key ++ 61 :: val -> Forall (fun c => c <> 44 /\ c <> 63 /\ c <> 61) nm -> nm <> key -> simple val ->
  (forall j b, (j < i)%nat -> nth_error cs j = Some b -> exists n' v', ctxt b = None /\ cjson b = n' ++ 63 :: key ++ 61 :: v' /\
     plain n' /\ n' <> key /\ simple v' /\ v' <> val) ->
  ctype c = Some t -> x <> PNil -> as_ fi sp k l i x = Ok v -> case_get sc k l i v = Ok x -> fresh k old ->
  (nm <> [] -> pu t (pm0 x) = Some x) ->
  (nm = [] -> exists m, pm0 x = JObj m /\ Forall (fun e => fst e <> key) m /\ pu t (JObj (m ++ [(key, JStr val)])) = Some x) ->
  exists d, marshal_union sp sc pm0 k l v = Ok d /\ unmarshal_union fi sp pu pt k l old d = JOk v.
Proof.
  intros V PK N C1 C2 U NN SV B T XN A G O P1 P2. eapply (field_round fi sp sc pm0 pu pt k cs l i c x v t old key nm val); try eassumption.
  - exact (conj C1 (conj C2 (conj U (conj NN SV)))).
  - intros j b L Q. destruct (B j b L Q) as (n' & v' & B1 & B2 & (B3 & B3') & B4 & B5 & B6). exists n', v'.
    exact (conj (conj B1 (conj B2 (conj B3' (conj B4 B5)))) (conj B3 B6)).
Qed.
Theorem C41_kinds_partial fi sp sc pm0 pu pt k cs l i c x v t old q : values k cs = Ok l -> nth_error cs i = Some c ->
  Forall (fun b => ctxt b = None /\ exists q, cjson b = 44 :: kind_text q /\ (q = JKString -> exists t, ctype b = Some t /\ pstring t = true)) cs ->
  NoDup (map cjson cs) -> cjson c = 44 :: kind_text q -> q <> JKNull ->
  ctype c = Some t -> x <> PNil -> as_ fi sp k l i x = Ok v -> case_get sc k l i v = Ok x -> fresh k old ->
  of_kind (pm0 x) q -> pu t (pm0 x) = Some x ->
  marshal_union sp sc pm0 k l v = Ok (pm0 x) /\ unmarshal_union fi sp pu pt k l old (pm0 x) = JOk v.
Proof.
  intros V N F D C QN T XN A G O K P. rewrite Forall_forall in F.
  assert (KC : forall b q', In b cs -> cjson b = 44 :: kind_text q' -> kind_case b q').
  { intros b q' I E. destruct (F b I) as (F1 & q2 & F2 & F3). split; [exact F1|]. split; [exact E|]. intros ->. apply F3.
    rewrite E in F2. injection F2 as F2. destruct q2; try discriminate F2. reflexivity. }
  eapply (kind_round fi sp sc pm0 pu pt k cs l i c x v t old q); try eassumption.
  - apply KC; [eapply nth_error_In; exact N|exact C].
  - intros j b L Q. destruct (F b (nth_error_In _ _ Q)) as (F1 & q2 & F2 & F3). exists q2.
    split; [apply KC; [eapply nth_error_In; exact Q|exact F2]|]. intros ->.
    rewrite NoDup_nth_error in D. assert (j = i); [|lia]. apply D.
    + rewrite map_length. apply nth_error_Some. congruence.
    + rewrite (map_nth_error _ _ _ Q), (map_nth_error _ _ _ N). congruence.
Qed.
Theorem C41_null_partial fi sp sc pm0 pu pt k cs l i c old : values k cs = Ok l -> nth_error cs i = Some c ->
  Forall (fun b => ctxt b = None /\ exists q, cjson b = 44 :: kind_text q /\ (q = JKString -> exists t, ctype b = Some t /\ pstring t = true)) cs ->
  NoDup (map cjson cs) -> cjson c = 44 :: kind_text JKNull -> fresh k old ->
  marshal_union sp sc pm0 k l {| tag := Some i; ram_of := ram0 k |} = Ok JNull /\
  unmarshal_union fi sp pu pt k l old JNull = JOk {| tag := Some i; ram_of := ram0 k |}.
Proof.
  intros V N F D C O. rewrite Forall_forall in F.
  assert (KC : forall b q', In b cs -> cjson b = 44 :: kind_text q' -> kind_case b q').
  { intros b q' I E. destruct (F b I) as (F1 & q2 & F2 & F3). split; [exact F1|]. split; [exact E|]. intros ->. apply F3.
    rewrite E in F2. injection F2 as F2. destruct q2; try discriminate F2. reflexivity. }
  eapply (null_round fi sp sc pm0 pu pt k cs l i c old); try eassumption.
  - apply KC; [eapply nth_error_In; exact N|exact C].
  - intros j b L Q. destruct (F b (nth_error_In _ _ Q)) as (F1 & q2 & F2 & F3). exists q2.
    split; [apply KC; [eapply nth_error_In; exact Q|exact F2]|]. intros ->.
    rewrite NoDup_nth_error in D. assert (j = i); [|lia]. apply D.
    + rewrite map_length. apply nth_error_Some. congruence.
    + rewrite (map_nth_error _ _ _ Q), (map_nth_error _ _ _ N). congruence.
Qed.
(** Cases with texts and no verbs: the case survives. *)
Theorem C41_texts_partial fi sp sc pm0 pu pt k cs l i c s r old : values k cs = Ok l -> nth_error cs i = Some c -> ctxt c = Some s ->
  Forall (fun b => b <> 37) s -> Forall (fun b => ctxt b <> None) cs -> NoDup (map ctxt cs) ->
  marshal_union sp sc pm0 k l {| tag := Some i; ram_of := r |} = Ok (JStr s) /\
  unmarshal_union fi sp pu pt k l old (JStr s) = JOk {| tag := Some i; ram_of := ram_of old |}.
Proof.
  intros V N C F A D. eapply (text_round fi sp sc pm0 pu pt k cs l i c s r old); try eassumption.
  intros j b L Q. rewrite Forall_forall in A. specialize (A b (nth_error_In _ _ Q)). destruct (ctxt b) as [s'|] eqn:E; [|congruence].
  exists s'. split; [reflexivity|]. intros ->. rewrite NoDup_nth_error in D. assert (j = i); [|lia]. apply D.
  - rewrite map_length. apply nth_error_Some. congruence.
  - rewrite (map_nth_error _ _ _ Q), (map_nth_error _ _ _ N). congruence.
Qed.
(** The unions of the documentation, with payloads that encoding/json writes and reads back *)
Definition doc_kinds : list case := [mk [78] None (44 :: kind_text JKNull) None; mk [83] None (44 :: kind_text JKString) (Some tstr); mk [79] None (44 :: kind_text JKObject) (Some tobj)].
Definition doc_objects : list case := [mk [83] None [115] (Some tstr); mk [78] None [110] (Some tint)].
Definition doc_fields : list case := [mk [83] None [118;63;116;61;115] (Some tstr); mk [79] None [63;116;61;111] (Some tobj)].
Definition pm1 (p : pval) : json := match p with PVal t img => if pid t =? 2 then JStr img else if pid t =? 3 then JObj [([102], JStr img)] else JNum img | PNil => JNull end.
Definition pu1 (t : ptype) (d : json) : option pval :=
  match d with JStr s => Some (PVal t s) | JNum s => Some (PVal t s) | JObj ((_, JStr s) :: _) => Some (PVal t s) | _ => None end.
Example C41_hypotheses :
  let k := KIface (fun _ => true) in let fi := fun _ _ => [] in let sp := fun s _ => s in let sc := fun _ _ _ => [] in let pt := fun _ _ => None in
  let old := {| tag := None; ram_of := ram0 k |} in
  exists l1 l2 l3, values k doc_kinds = Ok l1 /\ values k doc_objects = Ok l2 /\ values k doc_fields = Ok l3 /\
    (exists v, as_ fi sp k l1 2 (PVal tobj [7]) = Ok v /\ case_get sc k l1 2 v = Ok (PVal tobj [7]) /\
       of_kind (pm1 (PVal tobj [7])) JKObject /\ pu1 tobj (pm1 (PVal tobj [7])) = Some (PVal tobj [7])) /\
    (exists v, as_ fi sp k l3 1 (PVal tobj [7]) = Ok v /\ marshal_union sp sc pm1 k l3 v = Ok (JObj [([102], JStr [7]); ([116], JStr [111])]) /\
       unmarshal_union fi sp pu1 pt k l3 old (JObj [([102], JStr [7]); ([116], JStr [111])]) = JOk v) /\
    simple [115] /\ plain [116] /\ NoDup (map cjson doc_kinds).
Proof.
  cbv zeta. eexists _, _, _. split; [reflexivity|]. split; [reflexivity|]. split; [reflexivity|].
  split; [eexists; repeat split|]. split; [eexists; repeat split|].
  split; [split; [discriminate|repeat (constructor; try lia)]|]. split; [split; [discriminate|repeat (constructor; try lia)]|].
  cbn. repeat (constructor; [cbn; intuition discriminate|]). constructor.
Qed.
(** After a case with only a discriminator no object reaches a later case: an object is read as
    that case, whatever its discriminator says. *)
Theorem C41_nameless_refuted fi sp pu pt k cs l c0 key val m old v : values k cs = Ok l -> nth_error cs 0 = Some c0 -> ctxt c0 = None ->
  cjson c0 = 63 :: key ++ 61 :: val -> plain key -> simple val ->
  unmarshal_union fi sp pu pt k l old (JObj m) = JOk v -> tag v = Some 0%nat.
Proof.
  intros V N C J PK SV E. destruct (values_nth k cs l V) as (_ & H). destruct (H 0%nat c0 N) as (a & A & M).
  pose proof (is_text_iff k c0 a M) as T. rewrite C in T. destruct M as (_ & _ & JT & _). rewrite J in JT.
  unfold unmarshal_union in E. destruct l as [|b l]; [discriminate|]. cbn [nth_error] in A. injection A as ->.
  rewrite (const_turn fi sp pu pt k (a :: l) old 0 a l (JObj m) [] key val T JT ltac:(constructor) PK SV) in E.
  unfold decode_into in E. destruct (rtyp a); [|discriminate]. destruct (pu p _); [|discriminate].
  destruct (as_ram _ _ _ _ _ _); [|discriminate]. injection E as <-. reflexivity.
Qed.
(** A case of the object form fails on anything but an object, so later cases of other forms are out of reach. *)
Theorem C41_object_first_refuted fi sp pu pt k cs l c0 old d : values k cs = Ok l -> nth_error cs 0 = Some c0 -> ctxt c0 = None -> plain (cjson c0) ->
  (forall m, d <> JObj m) -> d <> JNull -> unmarshal_union fi sp pu pt k l old d = JErr.
Proof.
  intros V N C (NE & U) D1 D2. destruct (values_nth k cs l V) as (_ & H). destruct (H 0%nat c0 N) as (a & A & M).
  pose proof (is_text_iff k c0 a M) as T. rewrite C in T. destruct M as (_ & _ & JT & _).
  unfold unmarshal_union. destruct l as [|b l]; [discriminate|]. cbn [nth_error] in A. injection A as ->.
  rewrite (turn fi sp pu pt k (a :: l) old 0 a l d (cjson c0) (cjson c0) [] false [] [] false T JT NE); [|unm|apply cut_none; unm|reflexivity].
  destruct d; try reflexivity; congruence.
Qed.
(** The same after a case with a text. *)
Theorem C41_text_first_refuted fi sp pu pt k cs l c0 s old d : values k cs = Ok l -> nth_error cs 0 = Some c0 -> ctxt c0 = Some s ->
  (forall m, d <> JStr m) -> d <> JNull -> unmarshal_union fi sp pu pt k l old d = JErr.
Proof.
  intros V N C D1 D2. destruct (values_nth k cs l V) as (_ & H). destruct (H 0%nat c0 N) as (a & A & M).
  pose proof (is_text_iff k c0 a M) as T. rewrite C in T.
  unfold unmarshal_union. destruct l as [|b l]; [discriminate|]. cbn [nth_error] in A. injection A as ->.
  cbn [unmarshal_union_from]. rewrite T. destruct d; try reflexivity; congruence.
Qed.
(** A discriminator that json escapes is never recognised. *)
Theorem C41_escaped_refuted fi sp sc pm0 pu pt k c l x v t old key nm val : values k [c] = Ok l -> plain key -> plain nm -> nm <> key ->
  ctxt c = None -> cjson c = nm ++ 63 :: key ++ 61 :: val -> Forall (fun b => 32 <= b <= 126 /\ b <> 44) val -> In 60 val \/ In 62 val \/ In 38 val ->
  ctype c = Some t -> x <> PNil -> as_ fi sp k l 0 x = Ok v -> case_get sc k l 0 v = Ok x ->
  exists d, marshal_union sp sc pm0 k l v = Ok d /\ unmarshal_union fi sp pu pt k l old d = JNone.
Proof.
  intros V (NK & UK) (NNM & UN) NN C J F I T XN A G. destruct (values_nth k [c] l V) as (L & H). destruct (H 0%nat c eq_refl) as (a & Na & M).
  pose proof (is_text_iff k c a M) as TX. rewrite C in TX. destruct M as (_ & _ & JT & R & _). rewrite J in JT. rewrite T in R.
  destruct l as [|b [|b2 l]]; try discriminate L. cbn [nth_error] in Na. injection Na as ->.
  assert (V44 : Forall (fun b => b <> 44) val) by (eapply Forall_impl; [|exact F]; cbn; tauto).
  destruct (cut_const nm key val UN UK V44) as (F44 & B1 & B2).
  assert (G' : get sc k [a] 0 v = Ok x) by (apply (get_case sc k [a] 0 v x t); [exact G|intros a0 Q; cbn [nth_error] in Q; congruence]).
  exists (JObj [(nm, pm0 x); (key, JStr val)]). split.
  - unfold marshal_union. rewrite (as_tag fi sp k [a] 0 x v A). cbn [nth_error]. rewrite TX, JT, (cut_none 44 _ F44). cbn [str_eqb].
    rewrite B1, B2, G'. destruct nm as [|y nm]; [congruence|]. cbn [obind]. destruct key as [|z key]; [congruence|].
    rewrite str_eqb_neq by exact NN. destruct x; [congruence|reflexivity].
  - unfold unmarshal_union.
    rewrite (turn fi sp pu pt k [a] old 0 a [] _ (nm ++ 63 :: key ++ 61 :: val) nm (key ++ 61 :: val) true key val true TX JT); [|destruct nm; discriminate|exact F44|exact B1|exact B2].
    destruct (key ++ 61 :: val) as [|y z] eqn:Q; [destruct key; discriminate|]. cbv zeta. cbn [negb andb]. rewrite orb_false_r.
    destruct nm as [|y' nm]; [congruence|].
    assert (K : lookup key [(y' :: nm, pm0 x); (key, JStr val)] = Some (JStr val)) by (unfold lookup; cbn [rev app assoc]; rewrite str_eqb_refl; reflexivity).
    match goal with |- (if quoted_as ?L _ then _ else _) = _ => change L with (lookup key [(y' :: nm, pm0 x); (key, JStr val)]); rewrite K end. assert (QA : quoted_as (Some (JStr val)) val = false); [|rewrite QA; reflexivity].
    unfold quoted_as. apply str_eqb_neq. unfold json_quote, go_quote. intros E. injection E as E. apply app_inv_tail in E.
    assert (LE : (length (flat_map go_escape val) <= length (flat_map json_escape val))%nat /\
       (In 60 val \/ In 62 val \/ In 38 val -> (length (flat_map go_escape val) < length (flat_map json_escape val))%nat)).
    { clear -F. induction F as [|b s B F (I1 & I2)]; [split; [cbn; lia|cbn; tauto]|]. cbn [flat_map In]. rewrite !app_length.
      assert (X : (length (go_escape b) <= length (json_escape b))%nat /\ (b = 60 \/ b = 62 \/ b = 38 -> (length (go_escape b) < length (json_escape b))%nat)).
      { unfold go_escape, json_escape.
        destruct (b =? 34) eqn:E1; [cbn; split; lia|]. destruct (b =? 92) eqn:E2; [cbn; split; lia|].
        destruct (b =? 7) eqn:E3; [lia|]. destruct (b =? 8) eqn:E4; [lia|]. destruct (b =? 12) eqn:E5; [lia|].
        destruct (b =? 10) eqn:E6; [lia|]. destruct (b =? 13) eqn:E7; [lia|]. destruct (b =? 9) eqn:E8; [lia|]. destruct (b =? 11) eqn:E9; [lia|].
        replace ((b <? 32) || (b =? 127)) with false by lia.
        destruct ((b <? 32) || (b =? 60) || (b =? 62) || (b =? 38)) eqn:E10; cbn [length]; split; lia. }
      destruct X as (X1 & X2). split; [lia|]. intros [[->|Y]|[[->|Y]|[->|Y]]];
        try (specialize (X2 ltac:(lia)); lia); specialize (I2 ltac:(tauto)); lia. }
    destruct LE as (_ & LT). specialize (LT I). rewrite E in LT. lia.
Qed.
(** A case of kind string whose payload is written as a number does not read it back. *)
Theorem C41_string_kind_refuted fi sp sc pm0 pu pt k c l x v t old n : values k [c] = Ok l ->
  ctxt c = None -> cjson c = 44 :: kind_text JKString -> ctype c = Some t -> pstring t = false ->
  x <> PNil -> as_ fi sp k l 0 x = Ok v -> case_get sc k l 0 v = Ok x -> pm0 x = JNum n ->
  (forall d s, pt t d = Some s -> exists q, d = JStr q) ->
  marshal_union sp sc pm0 k l v = Ok (JNum n) /\ unmarshal_union fi sp pu pt k l old (JNum n) = JErr.
Proof.
  intros V C J T PS XN A G P HP. destruct (values_nth k [c] l V) as (L & H). destruct (H 0%nat c eq_refl) as (a & Na & M).
  pose proof (is_text_iff k c a M) as TX. rewrite C in TX. destruct M as (_ & _ & JT & R & _). rewrite J in JT. rewrite T in R.
  destruct l as [|b [|b2 l]]; try discriminate L. cbn [nth_error] in Na. injection Na as ->.
  assert (G' : get sc k [a] 0 v = Ok x) by (apply (get_case sc k [a] 0 v x t); [exact G|intros a0 Q; cbn [nth_error] in Q; congruence]).
  split.
  - unfold marshal_union. rewrite (as_tag fi sp k [a] 0 x v A). cbn [nth_error]. rewrite TX, JT, G'. destruct x; [congruence|]. cbn. rewrite <- P. reflexivity.
  - unfold unmarshal_union. cbn [unmarshal_union_from]. rewrite TX, JT. cbn. unfold t_string. rewrite R, PS. unfold decode_into. rewrite R.
    destruct (pt t (JNum n)) as [s|] eqn:E; [|reflexivity]. destruct (HP _ _ E) as (q & Q). discriminate.
Qed.

(** ** C42: tuples *)
Theorem C42_expand V (t : tuple V) : expand t = leaves t.
Proof. unfold expand. rewrite push_leaves. reflexivity. Qed.
Theorem C42_pair_round_trip X Y (mx : X -> json) (my : Y -> json) ux uy x y ox oy :
  ux ox (mx x) = Some x -> uy oy (my y) = Some y ->
  pair_marshal mx my (x, y) = JArr [mx x; my y] /\ pair_unmarshal ux uy (ox, oy) (pair_marshal mx my (x, y)) = Some (x, y).
Proof. intros A B. split; [reflexivity|]. cbn. rewrite A, B. reflexivity. Qed.
Theorem C42_trio_round_trip X Y Z (mx : X -> json) (my : Y -> json) (mz : Z -> json) ux uy uz x y z ox oy oz :
  ux ox (mx x) = Some x -> uy oy (my y) = Some y -> uz oz (mz z) = Some z ->
  trio_marshal mx my mz (x, y, z) = JArr [mx x; my y; mz z] /\ trio_unmarshal ux uy uz (ox, oy, oz) (trio_marshal mx my mz (x, y, z)) = Some (x, y, z).
Proof. intros A B C. split; [reflexivity|]. cbn. rewrite A, B, C. reflexivity. Qed.
Theorem C42_quad_round_trip X Y Z W (mx : X -> json) (my : Y -> json) (mz : Z -> json) (mw : W -> json) ux uy uz uw x y z w ox oy oz ow :
  ux ox (mx x) = Some x -> uy oy (my y) = Some y -> uz oz (mz z) = Some z -> uw ow (mw w) = Some w ->
  quad_marshal mx my mz mw (x, y, z, w) = JArr [mx x; my y; mz z; mw w] /\
  quad_unmarshal ux uy uz uw (ox, oy, oz, ow) (quad_marshal mx my mz mw (x, y, z, w)) = Some (x, y, z, w).
Proof. intros A B C D. split; [reflexivity|]. cbn. rewrite A, B, C, D. reflexivity. Qed.
(** Arrays that are too short are rejected; components are never taken from elsewhere. *)
Theorem C42_only_arrays X Y ux uy (o : X * Y) d p : pair_unmarshal ux uy o d = Some p ->
  exists a b r, d = JArr (a :: b :: r) /\ ux (fst o) a = Some (fst p) /\ uy (snd o) b = Some (snd p).
Proof.
  intros E. unfold pair_unmarshal in E. destruct d as [|b|t|s|l|m]; try discriminate E.
  - destruct l as [|a [|b r]]; cbn in E; try discriminate.
    + destruct (ux (fst o) a); discriminate.
    + exists a, b, r. destruct (ux (fst o) a) as [x|]; [|discriminate]. destruct (uy (snd o) b) as [y|]; [|discriminate].
      injection E as <-. auto.
Qed.
Theorem C42_trio_only_arrays X Y Z ux uy uz (ox : X) (oy : Y) (oz : Z) d x y z : trio_unmarshal ux uy uz (ox, oy, oz) d = Some (x, y, z) ->
  exists a b c r, d = JArr (a :: b :: c :: r) /\ ux ox a = Some x /\ uy oy b = Some y /\ uz oz c = Some z.
Proof.
  intros E. unfold trio_unmarshal in E. destruct d as [|b|t|s|l|m]; try discriminate E.
  destruct l as [|a [|b [|c r]]]; cbn in E; try discriminate E;
    (destruct (ux ox a) as [x'|] eqn:E1; [|discriminate E]); try discriminate E;
    (destruct (uy oy b) as [y'|] eqn:E2; [|discriminate E]); try discriminate E;
    (destruct (uz oz c) as [z'|] eqn:E3; [|discriminate E]).
  injection E as <- <- <-. exists a, b, c, r. auto.
Qed.
Theorem C42_quad_only_arrays X Y Z W ux uy uz uw (ox : X) (oy : Y) (oz : Z) (ow : W) d x y z w :
  quad_unmarshal ux uy uz uw (ox, oy, oz, ow) d = Some (x, y, z, w) ->
  exists a b c e r, d = JArr (a :: b :: c :: e :: r) /\ ux ox a = Some x /\ uy oy b = Some y /\ uz oz c = Some z /\ uw ow e = Some w.
Proof.
  intros E. unfold quad_unmarshal in E. destruct d as [|b|t|s|l|m]; try discriminate E.
  destruct l as [|a [|b [|c [|e r]]]]; cbn in E; try discriminate E;
    (destruct (ux ox a) as [x'|] eqn:E1; [|discriminate E]); try discriminate E;
    (destruct (uy oy b) as [y'|] eqn:E2; [|discriminate E]); try discriminate E;
    (destruct (uz oz c) as [z'|] eqn:E3; [|discriminate E]); try discriminate E;
    (destruct (uw ow e) as [w'|] eqn:E4; [|discriminate E]).
  injection E as <- <- <- <-. exists a, b, c, e, r. auto 8.
Qed.
Example C42_case : expand (Pair (Leaf 1) (Trio (Leaf 2) (Pair (Leaf 3) (Leaf 4)) (Leaf 5))) = [1; 2; 3; 4; 5] /\
  pair_unmarshal (fun (_ : str) d => match d with JStr s => Some s | _ => None end) (fun (_ : str) d => match d with JNum s => Some s | _ => None end) ([], [])
    (pair_marshal JStr JNum ([97], [49])) = Some ([97], [49]).
Proof. split; reflexivity. Qed.

(** ** C43: optional values *)
(** A value that is not written as null survives, into any variable. *)
Theorem C43_included_partial T (mt : T -> json) ut (h h' : mheap T) x y v : maybe_get h x = Some v -> ut (mt v) = Some v -> mt v <> JNull ->
  maybe_unmarshal ut h' y (maybe_marshal mt h x) = (fst (maybe_unmarshal ut h' y (maybe_marshal mt h x)), true) /\
  maybe_get (fst (maybe_unmarshal ut h' y (maybe_marshal mt h x))) y = Some v.
Proof.
  intros G U N. unfold maybe_marshal. rewrite G. unfold maybe_unmarshal. rewrite U.
  assert (K : maybe_get (fst (let h := maybe_clear h' y in match mvars h y with None => (maybe_new h y v, true)
     | Some r => ({| mvars := mvars h; mcells := upd (mcells h) r (Some v); mnext := mnext h |}, true) end)) y = Some v).
  { cbv zeta. destruct (mvars (maybe_clear h' y) y) as [r|] eqn:E; cbn [fst]; unfold maybe_get; cbn [mvars mcells maybe_new].
    - rewrite E, upd_same. reflexivity.
    - rewrite !upd_same. reflexivity. }
  cbv zeta in *. destruct (mt v); try congruence; (split; [destruct (mvars (maybe_clear h' y) y); reflexivity|exact K]).
Qed.
Theorem C43_omitted T (mt : T -> json) ut (h h' : mheap T) x y : maybe_get h x = None ->
  maybe_marshal mt h x = JNull /\ snd (maybe_unmarshal ut h' y JNull) = true /\ maybe_get (fst (maybe_unmarshal ut h' y JNull)) y = None.
Proof.
  intros G. unfold maybe_marshal. rewrite G. split; [reflexivity|]. split; [reflexivity|]. cbn [maybe_unmarshal fst].
  unfold maybe_clear, maybe_get. destruct (mvars h' y) as [r|] eqn:E; cbn [mvars mcells]; rewrite E; [apply upd_same|reflexivity].
Qed.
(** Variables are independent as long as none is copied. *)
Theorem C43_independent_partial T (ut : json -> option T) ops x : Forall no_copy ops ->
  maybe_get (fold_left (run_maybe ut) ops mheap0) x = fold_left (spec_maybe ut) ops (fun _ => None) x.
Proof. intros F. apply runs_separate; [apply separate0|exact F|reflexivity]. Qed.
Example C43_case : let ut := fun d => match d with JNum s => Some s | _ => None end in
  let ops := [MNew 0 [49]; MNew 1 [50]; MUnmarshal 0 (JNum [51]); MUnmarshal 1 JNull] in
  Forall no_copy ops /\ maybe_get (fold_left (run_maybe ut) ops mheap0) 0 = Some [51] /\ maybe_get (fold_left (run_maybe ut) ops mheap0) 1 = None.
Proof. cbv zeta. split; [repeat constructor|split; reflexivity]. Qed.
(** A copy shares its storage: decoding into the one changes the other. *)
Theorem C43_copy_refuted T (ut : json -> option T) (h : mheap T) x y v v' d : x <> y -> maybe_get h x = Some v -> d <> JNull -> ut d = Some v' ->
  maybe_get (run_maybe ut (run_maybe ut h (MCopy y x)) (MUnmarshal x d)) y = Some v'.
Proof.
  intros N G D U. cbn [run_maybe]. unfold maybe_get in G. destruct (mvars h x) as [r|] eqn:E; [|discriminate].
  set (h1 := maybe_assign h y x). assert (E1 : mvars h1 x = Some r) by (cbn [h1 maybe_assign mvars]; rewrite upd_other by exact N; exact E).
  assert (E2 : mvars h1 y = Some r) by (cbn [h1 maybe_assign mvars]; rewrite upd_same; exact E).
  unfold maybe_unmarshal. rewrite U. destruct (clear_vars h1 x) as (V & _). cbv zeta. rewrite V, E1.
  destruct d; try congruence; cbn [fst]; unfold maybe_get; cbn [mvars mcells]; rewrite ?V, E2; apply upd_same.
Qed.
(** An included value written as null comes back omitted. *)
Theorem C43_null_payload_refuted T (mt : T -> json) ut (h h' : mheap T) x y v : maybe_get h x = Some v -> mt v = JNull ->
  maybe_get (fst (maybe_unmarshal ut h' y (maybe_marshal mt h x))) y = None.
Proof.
  intros G M. unfold maybe_marshal. rewrite G, M. cbn [maybe_unmarshal fst].
  unfold maybe_clear, maybe_get. destruct (mvars h' y) as [r|] eqn:E; cbn [mvars mcells]; rewrite E; [apply upd_same|reflexivity].
Qed.

(** ** C85: the accessors of a type *)
Inductive csteps : cstate -> cstate -> Prop :=
| csteps_refl s : csteps s s
| csteps_cons s1 s2 s3 : cstep s1 s2 -> csteps s2 s3 -> csteps s1 s3.
(** When the first call returned before any other began, all calls return the same accessors. *)
Theorem C85_shared_partial st st' t s : csteps cinit st -> cthreads st t = CGot s -> (forall t', t' <> t -> cthreads st t' = CIdle) ->
  csteps st st' -> forall t' s', cthreads st' t' = CGot s' -> s' = s.
Proof.
  intros R G I S0.
  assert (C0 : ccache st = Some s).
  { assert (P : forall st, csteps cinit st -> (forall t s, cthreads st t = CGot s -> exists s', ccache st = Some s') /\
       (forall s, ccache st = Some s -> exists t, cthreads st t = CGot s)).
    { clear. intros st R. assert (K : forall a b, csteps a b ->
         ((forall t s, cthreads a t = CGot s -> exists s', ccache a = Some s') /\ (forall s, ccache a = Some s -> exists t, cthreads a t = CGot s)) ->
         (forall t s, cthreads b t = CGot s -> exists s', ccache b = Some s') /\ (forall s, ccache b = Some s -> exists t, cthreads b t = CGot s)).
      { clear. induction 1 as [|a b c S1 S2 IH]; [auto|]. intros (H1 & H2). apply IH. clear IH S2.
        destruct S1 as [st t s E C|st t E C|st t E|st t s E]; cbn [cthreads ccache]; unfold upd; split.
        - intros t' s'. destruct (Nat.eqb t' t); eauto.
        - intros s' Q. destruct (H2 s' Q) as (t' & T). exists t'. destruct (Nat.eqb t' t) eqn:E'; [|exact T]. congruence.
        - intros t' s'. destruct (Nat.eqb t' t); [discriminate|]. intros Q. destruct (H1 _ _ Q). congruence.
        - discriminate.
        - intros t' s'. destruct (Nat.eqb t' t); [discriminate|]. eauto.
        - intros s' Q. destruct (H2 s' Q) as (t' & T). exists t'. destruct (Nat.eqb t' t) eqn:E'; [|exact T]. apply Nat.eqb_eq in E'. subst. congruence.
        - eauto.
        - intros s' Q. injection Q as <-. exists t. rewrite Nat.eqb_refl. reflexivity. }
      apply (K cinit st R). cbn. split; [discriminate|discriminate]. }
    destruct (P st R) as (P1 & P2). destruct (P1 t s G) as (s' & C). destruct (P2 s' C) as (t' & T).
    destruct (Nat.eq_dec t' t) as [->|N]; [congruence|]. rewrite (I t' N) in T. discriminate. }
  assert (INV : (forall t', cthreads st t' = CIdle \/ cthreads st t' = CGot s) /\ ccache st = Some s).
  { split; [|exact C0]. intros t'. destruct (Nat.eq_dec t' t) as [->|N]; auto. }
  clear R G I C0. induction S0 as [a|a b c S1 S2 IH].
  - destruct INV as (A & _). intros t' s' Q. destruct (A t') as [E|E]; rewrite Q in E; [discriminate|injection E as <-; reflexivity].
  - apply IH. clear IH S2. destruct INV as (A & C). destruct S1 as [st t0 s0 E D|st t0 E D|st t0 E|st t0 s0 E]; cbn [cthreads ccache] in *; unfold upd.
    + split; [|assumption]. intros t'. destruct (Nat.eqb t' t0); [right; congruence|apply A].
    + congruence.
    + destruct (A t0); congruence.
    + destruct (A t0); congruence.
Qed.
Example C85_case : exists st, csteps cinit st /\ cthreads st 0%nat = CGot 0 /\ (forall t', t' <> 0%nat -> cthreads st t' = CIdle).
Proof.
  eexists. split.
  - eapply csteps_cons; [apply (CLook cinit 0); reflexivity|]. eapply csteps_cons; [apply (CBuild _ 0%nat); reflexivity|].
    eapply csteps_cons; [apply (CStore _ 0%nat 0%nat); reflexivity|]. apply csteps_refl.
  - cbn [cthreads]. split; [reflexivity|]. intros t' N. rewrite !upd_other by exact N. reflexivity.
Qed.
(** Two first calls at the same time return different accessors, and a value made with one set panics
    under the other. *)
Theorem C85_race_refuted : exists st, csteps cinit st /\ cthreads st 0%nat = CGot 0 /\ cthreads st 1%nat = CGot 1.
Proof.
  eexists. split.
  - eapply csteps_cons; [apply (CLook cinit 0); reflexivity|]. eapply csteps_cons; [apply (CLook _ 1); reflexivity|].
    eapply csteps_cons; [apply (CBuild _ 0%nat); reflexivity|]. eapply csteps_cons; [apply (CBuild _ 1%nat); reflexivity|].
    eapply csteps_cons; [apply (CStore _ 0%nat 0%nat); reflexivity|]. eapply csteps_cons; [apply (CStore _ 1%nat 1%nat); reflexivity|]. apply csteps_refl.
  - split; reflexivity.
Qed.

Print Assumptions C37_values_partial.
Print Assumptions C37_integers_partial.
Print Assumptions C37_empty_refuted.
Print Assumptions C38_marshal_partial.
Print Assumptions C38_unmarshal_text_partial.
Print Assumptions C38_json_round_trip_partial.
Print Assumptions C38_unknown_numbers.
Print Assumptions C38_bool_refuted.
Print Assumptions C38_overflow_refuted.
Print Assumptions C38_uintptr_refuted.
Print Assumptions C38_space_refuted.
Print Assumptions C38_unknown_json_refuted.
Print Assumptions C39_memory_partial.
Print Assumptions C39_interface_partial.
Print Assumptions C39_string_partial.
Print Assumptions C39_fits.
Print Assumptions C39_few.
Print Assumptions C39_numbers.
Print Assumptions C39_numeric_refuted.
Print Assumptions C39_slice_struct_refuted.
Print Assumptions C39_string_refuted.
Print Assumptions C39_nil_refuted.
Print Assumptions C40_pair_partial.
Print Assumptions C40_text_storage_refuted.
Print Assumptions C40_field_name_refuted.
Print Assumptions C41_objects_partial.
Print Assumptions C41_discriminated_partial.
Print Assumptions C41_kinds_partial.
Print Assumptions C41_null_partial.
Print Assumptions C41_texts_partial.
Print Assumptions C41_nameless_refuted.
Print Assumptions C41_object_first_refuted.
Print Assumptions C41_text_first_refuted.
Print Assumptions C41_escaped_refuted.
Print Assumptions C41_string_kind_refuted.
Print Assumptions C42_expand.
Print Assumptions C42_pair_round_trip.
Print Assumptions C42_trio_round_trip.
Print Assumptions C42_quad_round_trip.
Print Assumptions C42_only_arrays.
Print Assumptions C42_trio_only_arrays.
Print Assumptions C42_quad_only_arrays.
Print Assumptions C43_included_partial.
Print Assumptions C43_omitted.
Print Assumptions C43_independent_partial.
Print Assumptions C43_copy_refuted.
Print Assumptions C43_null_payload_refuted.
Print Assumptions C85_shared_partial.
Print Assumptions C85_race_refuted.
