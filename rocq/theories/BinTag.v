(** * Instructions written by their tags (C164) *)
From Coq Require Import List Arith NArith Bool Lia Permutation.
From Verif Require Import BinTagModel.
Import ListNotations.

(** ** What a tag says, written from the documentation of the package (bin.go:1-18): the
    first of the k places of a letter has the highest of its k lowest bits, the last the
    lowest; brackets have the lowest bits, or whether the comparison holds. *)
Definition places (a : nat) (l : list item) : nat := length (filter (fun i => match i with Arg b => b =? a | _ => false end) l).
Definition says (args : nat -> N) (whole pre : list item) (i : item) : list bool :=
  match i with
  | Fixed b => [b]
  | Arg a => [N.testbit (args a) (N.of_nat (places a whole - 1 - places a pre))]
  | Field a z => low (Nat.max 1 z) (args a)
  | Test a c n => [holds c (args a) n]
  end.
Fixpoint all_say (args : nat -> N) (whole pre l : list item) : list bool :=
  match l with [] => [] | i :: r => says args whole pre i ++ all_say args whole (pre ++ [i]) r end.
Fixpoint described (args : nat -> N) (whole pre : list item) (t : tag) : list (list bool) :=
  match t with
  | [] => []
  | Hex b :: r => b :: described args whole pre r
  | Bits l :: r => all_say args whole pre l :: described args whole (pre ++ l) r
  end.
Definition width (i : item) : nat := match i with Field _ z => Nat.max 1 z | _ => 1 end.
Definition bytes (t : tag) : Prop := forall l, In (Bits l) t -> list_sum (map width l) = 8.
Definition C164_full : Prop := forall reverse t args, bytes t ->
  written reverse t args = Some (let d := described args (items t) [] t in if reverse then rev d else d).

(** The places of a letter follow one another, it is in no brackets, and its value needs one
    bit less than it has places. *)
Definition together (l : list item) : Prop := forall l1 l2 l3 a, letters l = l1 ++ a :: l2 ++ a :: l3 -> Forall (eq a) l2.
Definition apart (l : list item) : Prop := forall a, In (Arg a) l -> forall i, In i l -> In a (letter i) -> i = Arg a.
Definition small (args : nat -> N) (l : list item) : Prop := forall a, In (Arg a) l -> (args a < 2 ^ N.of_nat (places a l - 1))%N.

Lemma low_length : forall z x, length (low z x) = z.
Proof. intros z x. unfold low. now rewrite map_length, rev_length, seq_length. Qed.
Lemma low_mod : forall z x, low z (x mod 2 ^ N.of_nat z) = low z x.
Proof.
  intros z x. unfold low. apply map_ext_in. intros i I. apply in_rev, in_seq in I. rewrite N.mod_pow2_bits_low by lia. reflexivity.
Qed.
Lemma max_one : forall z, match z with O => 1 | _ => z end = Nat.max 1 z.
Proof. intros [|[|z]]; reflexivity. Qed.
Lemma says_width : forall args whole pre i, length (says args whole pre i) = width i.
Proof. intros args whole pre [b|a|a z|a c n]; cbn [says width]; try reflexivity. apply low_length. Qed.
Lemma all_say_width : forall args whole l pre, length (all_say args whole pre l) = list_sum (map width l).
Proof. intros args whole l. induction l as [|i l IH]; intro pre; cbn; [reflexivity|]. now rewrite app_length, says_width, IH. Qed.
Lemma letters_app : forall l k, letters (l ++ k) = letters l ++ letters k.
Proof. intros. apply flat_map_app. Qed.
Lemma places_app : forall a l k, places a (l ++ k) = places a l + places a k.
Proof. intros. unfold places. now rewrite filter_app, app_length. Qed.
Lemma places_occ : forall a l, (forall i, In i l -> In a (letter i) -> i = Arg a) -> occurrences a (letters l) = places a l.
Proof.
  intros a l. unfold occurrences, places. induction l as [|i l IH]; intro H; [reflexivity|].
  assert (E : count_occ Nat.eq_dec (letters l) a = length (filter (fun i => match i with Arg b => b =? a | _ => false end) l)) by (apply IH; intros; apply H; [now right|assumption]).
  change (letters (i :: l)) with (letter i ++ letters l). rewrite count_occ_app, E. cbn [filter].
  destruct i as [b|b|b z|b c n]; cbn [letter count_occ]; try reflexivity.
  - destruct (Nat.eq_dec b a) as [->|N]; [now rewrite Nat.eqb_refl|]. apply Nat.eqb_neq in N. now rewrite N.
  - destruct (Nat.eq_dec b a) as [->|N]; [|reflexivity]. assert (Field a z = Arg a) by (apply H; cbn; auto). discriminate.
  - destruct (Nat.eq_dec b a) as [->|N]; [|reflexivity]. assert (Test a c n = Arg a) by (apply H; cbn; auto). discriminate.
Qed.
(** The state after what came pre. *)
Definition after (pre : list item) (st : state) : Prop :=
  match fst st with
  | None => letters pre = []
  | Some a => (exists l, letters pre = l ++ [a]) /\ ((forall i, In i pre -> In a (letter i) -> i = Arg a) -> snd st = places a pre)
  end.
Lemma places_none : forall a l, ~ In a (letters l) -> places a l = 0.
Proof.
  intros a l H. unfold places. induction l as [|i l IH]; [reflexivity|]. change (letters (i :: l)) with (letter i ++ letters l) in H. rewrite in_app_iff in H.
  cbn [filter]. destruct i as [b|b|b z|b c n]; cbn [letter] in H; try (apply IH; tauto).
  destruct (Nat.eqb_spec b a) as [->|N]; [destruct H; cbn; auto|]. apply IH. tauto.
Qed.
Lemma step : forall args whole pre i rest st, whole = pre ++ i :: rest -> together whole -> apart whole -> small args whole -> after pre st ->
  exists st', do_item args (letters whole) i st = (says args whole pre i, st') /\ after (pre ++ [i]) st'.
Proof.
  intros args whole pre i rest st W T A S F. destruct i as [b|a|a z|a c n]; cbn [do_item says].
  - exists st. split; [reflexivity|]. unfold after in *. rewrite letters_app. cbn. rewrite app_nil_r. destruct (fst st) as [a|]; [|assumption].
    destruct F as [F1 F2]. split; [assumption|]. intro H. rewrite places_app. cbn. rewrite Nat.add_0_r. apply F2. intros. apply H; [apply in_app_iff; now left|assumption].
  - assert (Ia : In (Arg a) whole) by (rewrite W; apply in_app_iff; right; now left).
    assert (O : occurrences a (letters whole) = places a whole) by (apply places_occ, A; assumption).
    assert (Ab : forall i, In i pre -> In a (letter i) -> i = Arg a) by (intros; apply (A a Ia); [rewrite W; apply in_app_iff; now left|assumption]).
    assert (B : match fst st with Some b => if b =? a then snd st else 0 | None => 0 end = places a pre).
    { unfold after in F. destruct (fst st) as [b|]; [|rewrite places_none; [reflexivity|rewrite F; intros []]].
      destruct F as [(l & F1) F2]. destruct (Nat.eqb_spec b a) as [->|N]; [now apply F2|].
      rewrite places_none; [reflexivity|]. intro I. apply in_split in I as (l1 & l2 & E).
      assert (Q : letters whole = l1 ++ a :: l2 ++ a :: letters rest).
      { rewrite W, letters_app, E. change (letters (Arg a :: rest)) with (a :: letters rest). now rewrite <- app_assoc. }
      apply T in Q. rewrite E in F1. destruct l2 as [|x l2] using rev_ind.
      - change (l1 ++ [a] = l ++ [b]) in F1. apply app_inj_tail in F1 as [_ F1]. congruence.
      - assert (R : (l1 ++ a :: l2) ++ [x] = l ++ [b]) by (rewrite <- F1, <- app_assoc; reflexivity). apply app_inj_tail in R as [_ ->].
        apply Forall_app in Q as [_ Q]. inversion Q. congruence. }
    unfold bit_of. rewrite B, O, N.mod_small by (now apply S). eexists. split; [reflexivity|].
    unfold after. cbn [fst snd]. rewrite letters_app. split; [now exists (letters pre)|]. intros _.
    rewrite places_app. cbn. rewrite Nat.eqb_refl. cbn. lia.
  - rewrite max_one, low_mod. eexists. split; [reflexivity|]. unfold after. cbn [fst snd]. rewrite letters_app. split; [now exists (letters pre)|].
    intro H. assert (Field a z = Arg a) by (apply H; [apply in_app_iff; right; now left|now left]). discriminate.
  - eexists. split; [reflexivity|]. unfold after. cbn [fst snd]. rewrite letters_app. split; [now exists (letters pre)|].
    intro H. assert (Test a c n = Arg a) by (apply H; [apply in_app_iff; right; now left|now left]). discriminate.
Qed.
Lemma steps : forall args whole l pre rest st, whole = pre ++ l ++ rest -> together whole -> apart whole -> small args whole -> after pre st ->
  exists st', do_items args (letters whole) l st = (all_say args whole pre l, st') /\ after (pre ++ l) st'.
Proof.
  intros args whole l. induction l as [|i l IH]; intros pre rest st W T A S F.
  - exists st. rewrite app_nil_r. auto.
  - destruct (step args whole pre i (l ++ rest) st W T A S F) as (st1 & E1 & F1).
    destruct (IH (pre ++ [i]) rest st1) as (st2 & E2 & F2); try assumption; [now rewrite <- app_assoc|].
    exists st2. cbn [do_items all_say]. rewrite E1, E2. split; [reflexivity|]. now rewrite <- app_assoc in F2.
Qed.
Theorem C164_described_partial : forall t args, bytes t -> together (items t) -> apart (items t) -> small args (items t) ->
  written false t args = Some (described args (items t) [] t).
Proof.
  intros t args B T A S. unfold written. remember (items t) as whole eqn:W.
  assert (F : after [] (None, 0)) by reflexivity. assert (W' : whole = [] ++ items t) by exact W. clear W.
  revert W' F B. generalize (@nil item), (@None nat, 0). induction t as [|w t IH]; intros pre st W F B; [reflexivity|].
  assert (B' : bytes t) by (intros l I; apply B; now right). destruct w as [b|l]; cbn [do_words described].
  - change (items (Hex b :: t)) with (items t) in W. now rewrite (IH pre st W F B').
  - change (items (Bits l :: t)) with (l ++ items t) in W. destruct (steps args whole l pre (items t) st W T A S F) as (st' & E & F').
    rewrite E, all_say_width, (B l) by now left. cbn [Nat.eqb]. now rewrite (IH (pre ++ l) st') by (try assumption; now rewrite <- app_assoc).
Qed.

(** Reversed (arm64): as the tag with its words in the other order. *)
Lemma same_items : forall args all1 all2, (forall a, occurrences a all1 = occurrences a all2) -> forall l st, do_items args all1 l st = do_items args all2 l st.
Proof.
  intros args all1 all2 H l. induction l as [|i l IH]; intro st; [reflexivity|]. cbn [do_items].
  assert (E : do_item args all1 i st = do_item args all2 i st) by (destruct i; cbn [do_item]; rewrite ?H; reflexivity).
  rewrite E. destruct (do_item args all2 i st). now rewrite IH.
Qed.
Lemma same_words : forall args all1 all2, (forall a, occurrences a all1 = occurrences a all2) -> forall t st, do_words args all1 t st = do_words args all2 t st.
Proof.
  intros args all1 all2 H t. induction t as [|[b|l] t IH]; intro st; cbn [do_words]; [reflexivity|now rewrite IH|].
  rewrite (same_items args all1 all2 H). destruct (do_items args all2 l st). now rewrite IH.
Qed.
Theorem C164_reversed_partial : forall t args, bytes t -> together (items (rev t)) -> apart (items (rev t)) -> small args (items (rev t)) ->
  written true t args = Some (described args (items (rev t)) [] (rev t)).
Proof.
  intros t args B T A S. rewrite <- C164_described_partial; try assumption; [|intros l I; apply B; now apply in_rev].
  unfold written. apply same_words. intro a. unfold occurrences. apply Permutation_count_occ.
  unfold letters, items. apply Permutation_flat_map, Permutation_flat_map, Permutation_rev.
Qed.

(** ** What goes wrong. *)
(** The highest of the bits is lost: five places of a register have only its four lowest bits. *)
Theorem C164_highest_refuted : forall args k, 1 <= k <= 8 ->
  written false [Bits (repeat (Fixed false) (8 - k) ++ repeat (Arg 0) k)] args = Some [repeat false (9 - k) ++ low (k - 1) (args 0)].
Proof.
  intros args k K. assert (D : k = 1 \/ k = 2 \/ k = 3 \/ k = 4 \/ k = 5 \/ k = 6 \/ k = 7 \/ k = 8) by lia.
  assert (H : forall s, N.testbit (args 0 mod 2 ^ N.of_nat s) (N.of_nat s) = false) by (intro s; apply N.mod_pow2_bits_high; lia).
  assert (L : forall s i, i < s -> N.testbit (args 0 mod 2 ^ N.of_nat s) (N.of_nat i) = N.testbit (args 0) (N.of_nat i)) by (intros s i I; apply N.mod_pow2_bits_low; lia).
  destruct D as [->|[->|[->|[->|[->|[->|[->| ->]]]]]]]; unfold written, items, letters, occurrences;
    cbn -[N.pow N.modulo N.testbit N.of_nat]; rewrite H; repeat (rewrite L by lia); reflexivity.
Qed.
(** ADD of amd64 (std/cpu/amd64/amd64.go:34), [01001[b>7]0[a>7] 0x01 11bbbaaa]: the brackets count as
    places, so that the registers are moved by one bit. *)
Definition bools (l : list nat) : list bool := map (fun n => n =? 1) l.
Definition fixed (l : list nat) : list item := map Fixed (bools l).
Definition amd64_add : tag :=
  [Bits (fixed [0; 1; 0; 0; 1] ++ [Test 1 More 7] ++ fixed [0] ++ [Test 0 More 7]); Hex (bools [0; 0; 0; 0; 0; 0; 0; 1]);
   Bits (fixed [1; 1] ++ repeat (Arg 1) 3 ++ repeat (Arg 0) 3)].
Theorem C164_amd64_refuted : forall args,
  exists first, written false amd64_add args =
    Some [first; bools [0; 0; 0; 0; 0; 0; 0; 1]; [true; true; false; N.testbit (args 1) 2; N.testbit (args 1) 1; false; N.testbit (args 0) 2; N.testbit (args 0) 1]].
Proof.
  intro args. assert (H : forall x, N.testbit (x mod 2 ^ 3) 3 = false) by (intro x; apply (N.mod_pow2_bits_high x 3 3); lia).
  assert (L : forall x i, (i < 3)%N -> N.testbit (x mod 2 ^ 3) i = N.testbit x i) by (intros x i I; now apply N.mod_pow2_bits_low).
  eexists. unfold written, items, letters, occurrences. cbn -[N.pow N.modulo N.testbit N.ltb]. rewrite !H. rewrite !L by reflexivity. reflexivity.
Qed.
(** ADD of arm64 (std/cpu/arm64/arm64.go:51), 10001011 000ccccc 000000bb bbbaaaaa, reversed: the lowest
    two bits of the register b, which is in two bytes, are not written at all. *)
Definition arm64_add : tag :=
  [Bits (fixed [1; 0; 0; 0; 1; 0; 1; 1]); Bits (fixed [0; 0; 0] ++ repeat (Arg 2) 5); Bits (fixed [0; 0; 0; 0; 0; 0] ++ repeat (Arg 1) 2);
   Bits (repeat (Arg 1) 3 ++ repeat (Arg 0) 5)].
Theorem C164_arm64_refuted : forall args,
  let bit a i := N.testbit (args a) (N.of_nat i) in
  written true arm64_add args =
    Some [[false; bit 1 3; bit 1 2; false; bit 0 3; bit 0 2; bit 0 1; bit 0 0];
          [false; false; false; false; false; false; false; bit 1 3];
          [false; false; false; false; bit 2 3; bit 2 2; bit 2 1; bit 2 0];
          bools [1; 0; 0; 0; 1; 0; 1; 1]].
Proof.
  intros args bit. assert (H : forall x, N.testbit (x mod 2 ^ 4) 4 = false) by (intro x; apply (N.mod_pow2_bits_high x 4 4); lia).
  assert (L : forall x i, (i < 4)%N -> N.testbit (x mod 2 ^ 4) i = N.testbit x i) by (intros x i I; now apply N.mod_pow2_bits_low).
  unfold written, items, letters, occurrences. cbn -[N.pow N.modulo N.testbit N.ltb]. rewrite !H. rewrite !L by reflexivity. reflexivity.
Qed.
(** Words of another length than eight bits, so too an empty one (two spaces in the tag of MUL
    and DIV), panic. *)
Theorem C164_length_refuted : forall reverse t args l, In (Bits l) t -> list_sum (map width l) <> 8 -> written reverse t args = None.
Proof.
  intros reverse t args l I N. unfold written, tag in *. generalize (letters (items t)) as all. intro all.
  assert (I' : In (Bits l) (if reverse then rev t else t)) by (destruct reverse; [now apply -> in_rev|assumption]).
  clear I. revert I'. generalize (if reverse then rev t else t) as k. generalize (@None nat, 0). intros st k. revert st.
  assert (Wd : forall l st, length (fst (do_items args all l st)) = list_sum (map width l)).
  { clear. induction l as [|i l IH]; intro st; [reflexivity|]. cbn [do_items]. destruct (do_item args all i st) as [x st1] eqn:E.
    specialize (IH st1). destruct (do_items args all l st1) as [y st2]. cbn in *. rewrite app_length, IH. f_equal.
    destruct i as [b|a|a z|a c n]; cbn [do_item] in E; try (injection E as <- _; reflexivity).
    injection E as <- _. rewrite max_one. apply low_length. }
  induction k as [|w k IH]; [intros st []|]; intros st [->|I].
  - cbn [do_words]. specialize (Wd l st). destruct (do_items args all l st) as [x st']. cbn [fst] in Wd. apply Nat.eqb_neq in N. now rewrite Wd, N.
  - destruct w as [b|l']; cbn [do_words]; [now rewrite IH|]. destruct (do_items args all l' st) as [x st']. rewrite IH by assumption. now destruct (length x =? 8).
Qed.
(** [1101[a000][c<9] 0xC3 10011bbb bb000001]: a tag that is written as it says. *)
Definition sample : tag := [Bits (fixed [1; 1; 0; 1] ++ [Field 0 3; Test 2 Less 9]); Hex (bools [1; 1; 0; 0; 0; 0; 1; 1]); Bits (fixed [1; 0; 0; 1; 1] ++ repeat (Arg 1) 3); Bits (repeat (Arg 1) 2 ++ fixed [0; 0; 0; 0; 0; 1])].
Definition some_args (a : nat) : N := match a with 0 => 5%N | 1 => 11%N | _ => 4%N end.
Theorem C164_example : bytes sample /\ together (items sample) /\ apart (items sample) /\ small some_args (items sample) /\
  written false sample some_args = Some [bools [1; 1; 0; 1; 1; 0; 1; 1]; bools [1; 1; 0; 0; 0; 0; 1; 1]; bools [1; 0; 0; 1; 1; 0; 1; 0]; bools [1; 1; 0; 0; 0; 0; 0; 1]].
Proof.
  split; [intros l I; cbn in I; repeat destruct I as [I|I]; try discriminate; try (injection I as <-; reflexivity); destruct I|].
  split; [|split; [|split; [|reflexivity]]].
  - intros l1 l2 l3 a E. cbn in E. destruct l1 as [|x1 [|x2 [|x3 [|x4 [|x5 [|x6 [|x7 l1]]]]]]]; cbn in E; injection E; intros; subst;
      try (destruct l2 as [|y1 [|y2 [|y3 [|y4 [|y5 [|y6 l2]]]]]]; cbn in *; repeat match goal with H : _ :: _ = _ :: _ |- _ => injection H as ?; subst end; try discriminate; repeat constructor).
    all: try match goal with H : [] = _ ++ _ |- _ => destruct l2; discriminate end.
    all: try (destruct l1; discriminate).
  - intros a I i J K. cbn in I, J. assert (a = 1) as -> by (repeat destruct I as [I|I]; try discriminate; try (now injection I as <-); destruct I).
    repeat destruct J as [J|J]; subst; cbn in K; try tauto; try (destruct K as [K|[]]; discriminate); reflexivity.
  - intros a I. cbn in I. assert (a = 1) as -> by (repeat destruct I as [I|I]; try discriminate; try (now injection I as <-); destruct I). reflexivity.
Qed.
Theorem C164_full_refuted : ~ C164_full.
Proof.
  intro F. specialize (F false [Bits (repeat (Fixed false) 3 ++ repeat (Arg 0) 5)] (fun _ => 16%N)).
  assert (B : bytes [Bits (repeat (Fixed false) 3 ++ repeat (Arg 0) 5)]) by (intros l [I|[]]; injection I as <-; reflexivity).
  apply F in B. discriminate B.
Qed.
