(** Theorems C46 (reading JSON texts) and C90 (fields left out). *)
From Verif Require Import GoBase BaseLemmas JrpcModel JrpcSpec JrpcProofs JrpcText JrpcRound JrpcMore JrpcReadSpec JrpcRead.

(** C46, decoding side.  Every text that denotes a value of a type (bool, integer, string, slice,
    array, pointer, map with string keys, struct, nested to any depth, with any blanks between the
    tokens) decodes to that value, over whatever the variable held.  Missing: empty slices, maps
    and structs, null and floats, on which the code goes wrong (C46_*_refuted, C47), and texts where a
    comma, closing bracket or blank falls on the last byte of a 256-byte segment (C45). *)
Theorem C46_decode_partial t old x v ws rest fuel : denotes t old x v -> spaces ws -> ended rest ->
  (forall i c, nth_error (ws ++ x ++ rest) i = Some c -> delimiter c \/ blank c -> Nat.modulo i 256 <> 255%nat) ->
  (length (ws ++ x ++ rest) < fuel)%nat -> decode_from fuel [ws ++ x ++ rest] t old = Ok (Good v).
Proof.
  intros D W E O L. destruct (proj1 (all_read fuel) t old x v D) as (SX & H).
  eapply from_go; [|apply H; [exact W|exact E|exact L|]].
  - destruct SX as (c & r & -> & _). destruct ws; discriminate.
  - intros i c N Q. specialize (O i c N Q). rewrite Z.add_0_l. change 256 with (Z.of_nat 256). rewrite <- Nat2Z.inj_mod. lia.
Qed.
Lemma letter c : 97 <= c <= 122 -> json_string [34; c; 34] [c].
Proof.
  intros L. apply (JString [c] [c]). apply (BPlain c [c] [] []); try lia; [|constructor]. apply Char1. lia.
Qed.
(** [{"b":[-7, 12],"a":"x"}] over a struct with an array and a string, the array keeping its third element *)
Example C46_decode_case :
  let t := TStruct [([65], [97; 44; 111; 109; 105; 116; 101; 109; 112; 116; 121], TString); ([66], [98], TArray 3 (TInt 8))] in
  let old := VStruct [VStr [1]; VArray [VInt 1; VInt 2; VInt 3]] in
  denotes t old [123; 34; 98; 34; 58; 91; 45; 55; 44; 32; 49; 50; 93; 44; 34; 97; 34; 58; 34; 120; 34; 125]
    (VStruct [VStr [120]; VArray [VInt (-7); VInt 12; VInt 3]]).
Proof.
  cbn zeta.
  assert (K1 : key_of ([66], [98], TArray 3 (TInt 8)) [98]) by (apply (key_tag _ _ _ _ []); auto; try discriminate; repeat constructor; lia).
  assert (K0 : key_of ([65], [97; 44; 111; 109; 105; 116; 101; 109; 112; 116; 121], TString) [97])
    by (apply (key_tag _ _ _ _ [44; 111; 109; 105; 116; 101; 109; 112; 116; 121]); auto; try discriminate; repeat constructor; lia).
  assert (KU : forall f n m, key_of f n -> key_of f m -> n = m) by (intros f n m A B; apply key_dec_name in A, B; congruence).
  apply (den_struct _ _ [34; 98; 34; 58; 91; 45; 55; 44; 32; 49; 50; 93; 44; 34; 97; 34; 58; 34; 120; 34]).
  apply (mem_more _ _ [VStr [1]; VArray [VInt (-7); VInt 12; VInt 3]] _ [34; 98; 34] [98] 1 ([66], [98], TArray 3 (TInt 8)) [] [] []
           [91; 45; 55; 44; 32; 49; 50; 93] [] (VArray [VInt 1; VInt 2; VInt 3]) (VArray [VInt (-7); VInt 12; VInt 3]) [34; 97; 34; 58; 34; 120; 34]); try constructor; auto.
  - exact (letter 98 ltac:(lia)).
  - intros [|[|j]] g N Kg; cbn in N; [|reflexivity|destruct j; discriminate]. injection N as <-. discriminate (KU _ _ _ K0 Kg).
  - apply (den_array 3 (TInt 8) [VInt 1; VInt 2; VInt 3] [45; 55; 44; 32; 49; 50] [VInt (-7); VInt 12]); [reflexivity| |cbn; lia].
    apply (elm_more _ _ [] [45; 55] [] (VInt (-7)) [32; 49; 50] [VInt 12]); try constructor.
    + unfold width. cbn. auto.
    + unfold fits_int. lia.
    + apply (JNeg 55 []); [lia|constructor].
    + apply (elm_last _ _ [32] [49; 50] [] (VInt 12)); [repeat constructor|constructor|].
      apply den_int; [unfold width; cbn; auto|unfold fits_int; lia|apply (JPos 49 [50]); [lia|repeat constructor; unfold digit; lia]].
  - repeat constructor.
  - apply (mem_last _ _ _ [34; 97; 34] [97] 0 ([65], [97; 44; 111; 109; 105; 116; 101; 109; 112; 116; 121], TString) [] [] [] [34; 120; 34] [] (VStr [1]) (VStr [120])); try constructor; auto.
    + exact (letter 97 ltac:(lia)).
    + intros [|[|j]] g N Kg; cbn in N; [reflexivity| |destruct j; discriminate]. injection N as <-. discriminate (KU _ _ _ K1 Kg).
    + exact (letter 120 ltac:(lia)).
Qed.
(** An array text with more elements than the array is refused. *)
Lemma long_loop n e olds x vs (room : nat -> bool) old : elements e olds x vs -> forall k acc p y,
  (forall j, (length acc <= j < length acc + length vs)%nat -> room j = true) -> room (length acc + length vs)%nat = false ->
  (forall j, old (length acc + j)%nat = nth j olds (zero e)) -> (length x < k)%nat -> (length (x ++ 44%Z :: y) < n)%nat -> okp p (x ++ 44 :: y) ->
  fails (elems_loop n (decode n e) room old k acc) p (x ++ 44 :: y).
Proof.
  intros D. induction D as [e olds ws x ws' v W W' D|e olds ws x ws' v y0 vs W W' D DE IH]; intros k acc p y R1 R2 O K L P;
    (destruct k as [|k]; [lia|]); cbn [elems_loop]; rewrite R1 by (cbn [length]; lia); cbn [negb];
    replace (old (length acc)) with (hd (zero e) olds) by (rewrite <- (Nat.add_0_r (length acc)), O; destruct olds; reflexivity);
    destruct (proj1 (all_read n) _ _ _ _ D) as (SX & G).
  - replace ((ws ++ x ++ ws') ++ 44 :: y) with (ws ++ x ++ (ws' ++ 44 :: y)) in * by (rewrite <- !app_assoc; reflexivity).
    eapply fails_then; [apply G; [exact W|apply ended_spaces; [exact W'|exact nd44]|exact L|exact P]|]. rewrite !app_length in L. cbn [length] in L.
    eapply fails_then; [apply go_spaces; [exact W'|lia|unfold blank; cbn [In]; lia]|].
    eapply fails_then; [apply go_scan|]. change (44 =? 93) with false. change (44 =? 44) with true. cbn [negb].
    assert (K0 : (0 < k)%nat) by (destruct SX as (c & r & -> & _); rewrite !app_length in K; cbn [length] in K; lia).
    destruct k as [|k]; [lia|]. cbn [elems_loop]. rewrite app_length. cbn [length] in R2 |- *. rewrite R2. cbn [negb]. apply fails_bad.
  - replace ((ws ++ x ++ ws' ++ 44 :: y0) ++ 44 :: y) with (ws ++ x ++ (ws' ++ 44 :: (y0 ++ 44 :: y))) in * by (repeat (rewrite <- !app_assoc; cbn [app]); reflexivity).
    eapply fails_then; [apply G; [exact W|apply ended_spaces; [exact W'|exact nd44]|exact L|exact P]|]. repeat (rewrite !app_length in L; cbn [length] in L).
    repeat (rewrite !app_length in K; cbn [length] in K).
    eapply fails_then; [apply go_spaces; [exact W'|lia|unfold blank; cbn [In]; lia]|].
    eapply fails_then; [apply go_scan|]. change (44 =? 93) with false. change (44 =? 44) with true. cbn [negb].
    apply okp_app, okp_app, okp_app, okp_cons in P. cbn [length] in R1, R2.
    apply IH; try (rewrite app_length; cbn [length]).
    + intros j J. apply R1. lia.
    + rewrite <- R2. f_equal. lia.
    + intros j. rewrite <- Nat.add_assoc. rewrite O. destruct olds; [destruct j; reflexivity|reflexivity].
    + lia.
    + lia.
    + exact P.
Qed.
Lemma elements_strip e olds x vs : elements e olds x vs -> forall u y, x = u ++ y -> spaces u -> elements e olds y vs.
Proof.
  intros D u y E U. destruct D as [e olds ws x ws' v W W' D|e olds ws x ws' v y0 vs W W' D DE];
    destruct (proj1 (all_read 0) _ _ _ _ D) as (SX & _);
    destruct (strip ws _ u y W U (starts_nb _ _ SX) E) as (u' & -> & ->); apply Forall_app in W; destruct W; [apply elm_last|apply elm_more]; assumption.
Qed.
Theorem C46_array_too_long n e olds x vs y ws fuel : elements e olds x vs -> length vs = n -> length olds = n -> spaces ws ->
  (forall i c, nth_error (ws ++ 91 :: x ++ 44 :: y) i = Some c -> delimiter c \/ blank c -> Nat.modulo i 256 <> 255%nat) ->
  (length (ws ++ 91%Z :: x ++ 44%Z :: y) < fuel)%nat ->
  exists er, decode_from fuel [ws ++ 91 :: x ++ 44 :: y] (TArray n e) (VArray olds) = Ok (Fail er) /\ er <> EFuel.
Proof.
  intros D LV LO W O L. apply from_fails; [destruct ws; discriminate|].
  assert (P : okp 0 (ws ++ 91 :: x ++ 44 :: y)).
  { intros i c N Q. specialize (O i c N Q). rewrite Z.add_0_l. change 256 with (Z.of_nat 256). rewrite <- Nat2Z.inj_mod. lia. }
  destruct (proj1 (proj2 (all_read fuel)) _ _ _ _ D) as (BX & _). cbn [decode].
  pose proof L as L'. repeat (rewrite ?app_length in L'; cbn [length] in L').
  eapply fails_then; [apply go_spaces; [exact W|lia|unfold blank; cbn [In]; lia]|].
  eapply fails_then; [apply go_scan|]. change (91 =? 91) with true. cbn [negb].
  destruct (go_begin fuel (0 + zlen ws + 1) x (44 :: y) BX ltac:(lia)) as (ws0 & c & r & EX & N1 & N2 & G & W0).
  eapply fails_then; [exact G|]. eapply fails_then; [cbn [app]; apply go_peek|]. replace (c =? 93) with false by lia.
  apply okp_app, okp_cons in P. rewrite EX, <- app_assoc in P. apply okp_app in P.
  apply fails_bind.
  assert (D' : elements e olds (c :: r) vs) by (apply (elements_strip e olds x vs D ws0); assumption).
  rewrite EX in L'. rewrite app_length in L'. cbn [length] in L'.
  apply (long_loop fuel e olds (c :: r) vs (fun i => Nat.ltb i n) (fun i => nth i olds (zero e)) D' fuel []).
  - cbn [length]. intros j J. apply Nat.ltb_lt. lia.
  - cbn [length]. apply Nat.ltb_ge. lia.
  - reflexivity.
  - cbn [length]. lia.
  - rewrite app_length. cbn [length]. lia.
  - exact P.
Qed.
Example C46_array_too_long_case : exists x vs, elements (TInt 8) [VInt 0] x vs /\ length vs = 1%nat /\ decode_from 20 [91 :: x ++ [44; 55; 93]] (TArray 1 (TInt 8)) (VArray [VInt 0]) = Ok (Fail EBad).
Proof.
  exists [54], [VInt 6]. split; [|split; reflexivity]. apply (elm_last _ _ [] [54] [] (VInt 6)); [constructor|constructor|].
  apply den_int; [unfold width; cbn; auto|unfold fits_int; lia|apply (JPos 54 []); [lia|constructor]].
Qed.

(** * C90: which fields of a struct are written *)
Notation comma_omitempty := [44; 111; 109; 105; 116; 101; 109; 112; 116; 121] (only parsing).
Notation comma_omitzero := [44; 111; 109; 105; 116; 122; 101; 114; 111] (only parsing).
(** [written fs ts x]: x is the members of an object, in order, for fields fs whose values are written as ts *)
Inductive written : list (bytes * bytes * ty) -> list bytes -> bytes -> Prop :=
| wr_nil : written [] [] []
| wr_go name t ts x fs r : written fs ts r -> written ((name, [], t) :: fs) (x :: ts) ([34] ++ name ++ [34; 58] ++ x ++ r)
| wr_tag name tag t ts x fs r : tag <> [] -> written fs ts r -> written ((name, tag, t) :: fs) (x :: ts) ([34] ++ tag ++ [34; 58] ++ x ++ r).
Lemma cut_plain tag : Forall (fun c => c <> 44) tag -> cut_comma tag = (tag, false).
Proof.
  induction 1 as [|c tag C F IH]; [reflexivity|]. cbn [cut_comma]. apply Z.eqb_neq in C. rewrite C, IH. reflexivity.
Qed.
(** Fields without options are all written, zero or not, in order and under the name of the tag or,
    without one, of the field.  Missing: that they are separated by commas, which they are not
    (C46_two_fields_refuted). *)
Theorem C90_kept_partial ft fs vs x : Forall (fun f => Forall (fun c => c <> 44) (snd (fst f))) fs -> encode ft (VStruct vs) (TStruct fs) = Ok x ->
  exists ts y, Forall2 (fun vf t => encode ft (fst vf) (snd (snd vf)) = Ok t) (combine vs fs) ts /\ length vs = length fs /\ written fs ts y /\ x = 123 :: y ++ [125].
Proof.
  intros F E. cbn [encode] in E. generalize dependent x. generalize (forallb is_zero vs). intros z x E.
  destruct (enc_fields (encode ft) z vs fs) as [b|] eqn:EF; [|discriminate]. injection E as <-.
  assert (H : exists ts, Forall2 (fun vf t => encode ft (fst vf) (snd (snd vf)) = Ok t) (combine vs fs) ts /\ length vs = length fs /\ written fs ts b).
  { revert vs b EF. induction F as [|f fs C F IH]; intros vs b EF; (destruct vs as [|v vs]; cbn [enc_fields] in EF; try discriminate).
    - injection EF as <-. exists []. repeat constructor.
    - destruct (enc_fields (encode ft) z vs fs) as [b0|] eqn:EF0; [|discriminate]. destruct (IH _ _ EF0) as (ts & A & B & W). cbn [obind] in EF.
      unfold omitted, omit_zero, omit_empty, enc_name in EF. destruct f as [[name tag] ty]. cbn [fst snd] in *. rewrite (cut_plain _ C) in EF. cbn [fst snd andb orb] in EF.
      destruct (encode ft v ty) as [t|] eqn:EV; [|discriminate]. cbn [obind] in EF. injection EF as <-.
      exists (t :: ts). cbn [combine length]. split; [constructor; assumption|]. split; [congruence|].
      destruct tag as [|c tag]; [apply wr_go; exact W|apply wr_tag; [discriminate|exact W]]. }
  destruct H as (ts & A & B & W). exists ts, b. auto.
Qed.
Example C90_case : encode (fun _ => []) (VStruct [VStr []; VBool true]) (TStruct [([65], [97], TString); ([66], [], TBool)])
  = Ok [123; 34; 97; 34; 58; 34; 34; 34; 66; 34; 58; 116; 114; 117; 101; 125].
Proof. reflexivity. Qed.
Lemma contains_app p a b : contains p b = true -> contains p (a ++ b) = true.
Proof. intros H. induction a as [|c a IH]; [exact H|]. cbn [app contains]. rewrite IH. apply orb_true_r. Qed.
Lemma contains_self p b : contains p (p ++ b) = true.
Proof.
  assert (H : prefix_of p (p ++ b) = true) by (induction p as [|c p IH]; [reflexivity|]; cbn [app prefix_of]; rewrite Z.eqb_refl; exact IH).
  destruct (p ++ b) as [|c r] eqn:E; cbn [contains]; rewrite H; reflexivity.
Qed.
Lemma cut_has a b : snd (cut_comma (a ++ 44 :: b)) = true.
Proof.
  induction a as [|c a IH]; [reflexivity|]. cbn [app cut_comma]. destruct (c =? 44); [reflexivity|]. destruct (cut_comma (a ++ 44 :: b)). exact IH.
Qed.
(** A field with the option omitzero is never written, whatever its value. *)
Theorem C90_omitzero_refuted ft name n opts t v : encode ft (VStruct [v]) (TStruct [(name, n ++ comma_omitzero ++ opts, t)]) = Ok [123; 125].
Proof.
  cbn [encode enc_fields obind]. unfold omitted, omit_zero. cbn [fst snd].
  rewrite contains_app by apply contains_self. change (comma_omitzero ++ opts) with (44 :: [111; 109; 105; 116; 122; 101; 114; 111] ++ opts).
  rewrite cut_has. reflexivity.
Qed.
(** A field with the option omitempty and nothing in it is written when another field has something in it. *)
Lemma no_omitzero n : Forall (fun c => c <> 44) n -> contains omitzero_text (n ++ comma_omitempty) = false.
Proof.
  induction 1 as [|c n C F IH]; [reflexivity|]. cbn [app contains]. rewrite IH. unfold omitzero_text. cbn [prefix_of]. apply Z.eqb_neq in C. rewrite Z.eqb_sym in C. rewrite C. reflexivity.
Qed.
Theorem C90_omitempty_refuted ft n1 n2 s : Forall (fun c => c <> 44) n1 -> Forall (fun c => c <> 44) n2 -> n1 <> [] -> s <> [] -> exists y,
  encode ft (VStruct [VStr []; VStr s]) (TStruct [([65], n1 ++ comma_omitempty, TString); ([66], n2, TString)]) = Ok (123 :: 34 :: n1 ++ [34; 58; 34; 34] ++ y).
Proof.
  intros F1 F2 N1 NS. cbn [encode enc_fields obind forallb is_zero].
  destruct s as [|c s]; [congruence|]. cbn [is_zero andb]. unfold omitted, omit_zero, enc_name. cbn [fst snd].
  rewrite (no_omitzero _ F1), (cut_plain _ F2), !andb_false_r, (cut_no_comma n1 comma_omitempty F1) by (right; reflexivity). cbn [orb snd fst andb]. unfold omit_empty. cbn [fst snd]. rewrite ?(cut_plain _ F2), ?andb_false_r. cbn [snd andb orb obind].
  destruct n1 as [|a n1]; [congruence|]. eexists. change (quote []) with [34; 34]. cbn [app obind]. f_equal. f_equal. f_equal. f_equal. rewrite <- !app_assoc. reflexivity.
Qed.
(** It is left out when the struct has nothing in it at all. *)
Theorem C90_omitempty_partial ft name n t v : is_zero v = true -> t = TString \/ t = TBool \/ (exists w, t = TInt w \/ t = TUint w) ->
  encode ft (VStruct [v]) (TStruct [(name, n ++ comma_omitempty, t)]) = Ok [123; 125].
Proof.
  intros Z T. cbn [encode enc_fields obind forallb]. rewrite Z. cbn [andb]. unfold omitted, omit_empty. cbn [fst snd].
  rewrite contains_app by (apply (contains_self comma_omitempty [])). change comma_omitempty with (44 :: [111; 109; 105; 116; 101; 109; 112; 116; 121]).
  rewrite cut_has. cbn [andb]. destruct T as [->|[->|(w & [->| ->])]]; rewrite orb_true_r; reflexivity.
Qed.
(** A field whose tag says "-" is written, under that name. *)
Theorem C90_dash_refuted ft name s : encode ft (VStruct [VStr s]) (TStruct [(name, [45], TString)]) = Ok ([123; 34; 45; 34; 58] ++ quote s ++ [125]).
Proof. cbn [encode enc_fields obind]. unfold omitted, omit_zero, omit_empty, enc_name. cbn. rewrite app_nil_r. reflexivity. Qed.
(** A field whose tag has options but no name is written under its Go name, and not found under it
    when read: what is written does not decode. *)
Lemma plain_word name : Forall (fun c => 65 <= c <= 90) name -> json_string (34 :: name ++ [34]) name.
Proof.
  intros F. constructor. induction F as [|c name C F IH]; [constructor|]. apply (BPlain c [c] name name); try lia; [apply Char1; lia|exact IH].
Qed.
Theorem C90_unnamed_refuted ft name s fuel x : name <> [] -> Forall (fun c => 65 <= c <= 90) name -> s <> [] ->
  encode ft (VStruct [VStr s]) (TStruct [(name, comma_omitempty, TString)]) = Ok x -> (length x < fuel)%nat ->
  exists er, decode_from fuel [x] (TStruct [(name, comma_omitempty, TString)]) (VStruct [VStr []]) = Ok (Fail er) /\ er <> EFuel.
Proof.
  intros NN F NS E L. cbn [encode enc_fields obind forallb is_zero] in E. destruct s as [|c s]; [congruence|].
  unfold omitted, omit_zero, omit_empty, enc_name in E. cbn -[quote] in E. rewrite app_nil_r in E. injection E as <-.
  pose proof (plain_word name F) as J.
  assert (Q : exists q', quote (c :: s) = 34 :: q') by (unfold quote; eexists; reflexivity). destruct Q as (q0 & Q).
  replace ((name ++ 34 :: 58 :: quote (c :: s)) ++ [125]) with (name ++ 34 :: 58 :: 34 :: (q0 ++ [125])) in * by (rewrite Q, <- app_assoc; reflexivity).
  set (q' := q0 ++ [125]) in *. clearbody q'.
  apply from_fails; [discriminate|]. cbn [decode].
  replace (123 :: 34 :: name ++ 34 :: 58 :: 34 :: q') with (123 :: (34 :: name ++ [34]) ++ [] ++ 58 :: 34 :: q') in * by (cbn [app]; rewrite <- app_assoc; reflexivity).
  set (k := 34 :: name ++ [34]) in *. repeat (rewrite ?app_length in L; cbn [length app] in L).
  eapply fails_then; [apply go_nospace; [lia|unfold blank; cbn; lia]|].
  eapply fails_then; [apply go_scan|]. change (123 =? 123) with true. cbn [negb].
  eapply fails_then; [apply go_nospace; [lia|unfold blank; cbn; lia]|].
  eapply fails_then; [apply go_peek|]. change (34 =? 125) with false. cbv iota.
  apply fails_bind. destruct fuel as [|fuel]; [lia|]. cbn [fields_loop].
  eapply fails_then; [apply (go_key (S fuel) [] k name [] (34 :: q')); [constructor|constructor|exact J|]|].
  { cbn [app]. rewrite app_length. cbn [length]. lia. }
  cbn [app]. eapply fails_then; [apply go_nospace; [lia|unfold blank; cbn; lia]|].
  eapply fails_then; [apply go_scan|]. change (58 =? 58) with true. cbn [negb].
  eapply fails_then; [apply go_nospace; [lia|unfold blank; cbn; lia]|].
  replace (field_index 0 name [(name, comma_omitempty, TString)]) with (@None nat).
  2: { cbn [field_index]. unfold dec_name. cbn [fst snd cut_comma]. change (44 =? 44) with true. cbv iota. cbn [fst].
       replace (bytes_eqb [] [45]) with false by reflexivity. destruct name; [congruence|reflexivity]. }
  apply fails_bind, fails_bind. unfold decode_nil_iface.
  eapply fails_then; [apply go_nospace; [lia|unfold blank; cbn; lia]|].
  eapply fails_then; [apply go_not_null; lia|]. cbv iota. apply fails_bad.
Qed.
Print Assumptions C46_decode_partial.
Print Assumptions C46_array_too_long.
Print Assumptions C90_kept_partial.
Print Assumptions C90_omitzero_refuted.
Print Assumptions C90_omitempty_refuted.
Print Assumptions C90_omitempty_partial.
Print Assumptions C90_dash_refuted.
Print Assumptions C90_unnamed_refuted.
