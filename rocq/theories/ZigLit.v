(** * C131: literals of the Zig target. *)
From Coq Require Import String.
From Verif Require Import GoBase GoText ZigLitModel.
Open Scope list_scope.
Open Scope Z_scope.

(** ** Integers *)

(** The integer literals of Go that Zig does not read in the form they are printed:
    those starting with two zeros and those with a prefix in upper case. *)
Definition exceptional (s : bytes) : bool :=
  match s with
  | c0 :: c1 :: _ => (c0 =? 48) && ((c1 =? 48) || (c1 =? 66) || (c1 =? 79) || (c1 =? 88))
  | _ => false
  end.

Lemma no_us_cons c r : no_us (c :: r) = if c =? 95 then no_us r else c :: no_us r.
Proof. unfold no_us. cbn [filter]. destruct (c =? 95); reflexivity. Qed.

Lemma digs_no_us base : forall s us fin acc v us' fin',
  digs base us fin acc s = Some v -> (fin = true -> fin' = true) ->
  digs base us' fin' acc (no_us s) = Some v.
Proof.
  induction s as [|c r IH]; intros us fin acc v us' fin' H F.
  - cbn in H |- *. destruct fin; [|discriminate]. rewrite (F eq_refl). exact H.
  - cbn [digs] in H. rewrite no_us_cons. destruct (c =? 95) eqn:E.
    + destruct us; [|discriminate]. eapply IH; [exact H|discriminate].
    + cbn [digs]. rewrite E. destruct (digit c) as [d|]; [|discriminate].
      destruct (d <? base); [|discriminate]. eapply IH; [exact H|tauto].
Qed.

Lemma digs_us base us fin acc c r : c <> 95 ->
  digs base us fin acc (c :: r) = digs base false fin acc (c :: r).
Proof. intros N. cbn [digs]. rewrite (proj2 (Z.eqb_neq c 95) N). reflexivity. Qed.

(** A decimal or prefixed literal never starts with an underscore. *)
Theorem C131_int s v : go_int s = Some v ->
  exists t, lit_print KInt s = Ok t /\ zig_int t = if exceptional s then None else Some v.
Proof.
  intros H. unfold lit_print.
  destruct s as [|c0 r]; [discriminate|]. cbn [go_int] in H. cbn [old_octal exceptional tl].
  destruct (c0 =? 48) eqn:E0.
  - apply Z.eqb_eq in E0. subst c0. destruct r as [|c1 r].
    { exists [48]. split; [reflexivity|exact H]. }
    cbn [andb].
    destruct ((c1 =? 98) || (c1 =? 66)) eqn:Eb.
    { assert (C : c1 = 98 \/ c1 = 66) by (apply orb_prop in Eb; rewrite !Z.eqb_eq in Eb; exact Eb).
      destruct C as [-> | ->]; cbn -[digs no_us zig_int] ; eexists; (split; [reflexivity|]);
        rewrite !no_us_cons; cbn -[digs no_us].
      - eapply digs_no_us; [exact H|discriminate].
      - reflexivity. }
    destruct ((c1 =? 111) || (c1 =? 79)) eqn:Eo.
    { assert (C : c1 = 111 \/ c1 = 79) by (apply orb_prop in Eo; rewrite !Z.eqb_eq in Eo; exact Eo).
      destruct C as [-> | ->]; cbn -[digs no_us zig_int] ; eexists; (split; [reflexivity|]);
        rewrite !no_us_cons; cbn -[digs no_us].
      - eapply digs_no_us; [exact H|discriminate].
      - reflexivity. }
    destruct ((c1 =? 120) || (c1 =? 88)) eqn:Ex.
    { assert (C : c1 = 120 \/ c1 = 88) by (apply orb_prop in Ex; rewrite !Z.eqb_eq in Ex; exact Ex).
      destruct C as [-> | ->]; cbn -[digs no_us zig_int] ; eexists; (split; [reflexivity|]);
        rewrite !no_us_cons; cbn -[digs no_us].
      - eapply digs_no_us; [exact H|discriminate].
      - reflexivity. }
    destruct (c1 =? 95) eqn:Eu.
    { apply Z.eqb_eq in Eu. subst c1. cbn -[digs zig_int trim_prefix].
      change (95 :: r) with ([95] ++ r). rewrite trim_prefix_app. eexists. split; [reflexivity|].
      exact H. }
    destruct (c1 =? 48) eqn:Ez.
    { apply Z.eqb_eq in Ez. subst c1. cbn -[no_us zig_int]. eexists. split; [reflexivity|].
      rewrite !no_us_cons. reflexivity. }
    assert (X : (c1 =? 66) || (c1 =? 79) || (c1 =? 88) = false) by lia.
    cbn [orb]. rewrite X.
    assert (D : (48 <? c1) && (c1 <? 57) = true).
    { cbn [digs] in H. rewrite Eu in H. unfold digit in H.
      destruct ((48 <=? c1) && (c1 <=? 57)) eqn:R1.
      - destruct (c1 - 48 <? 8) eqn:L; [|discriminate]. lia.
      - destruct ((97 <=? c1) && (c1 <=? 102)) eqn:R2.
        + destruct (c1 - 87 <? 8) eqn:L; [lia|discriminate].
        + destruct ((65 <=? c1) && (c1 <=? 70)) eqn:R3; [|discriminate].
          destruct (c1 - 55 <? 8) eqn:L; [lia|discriminate]. }
    rewrite D. cbn [orb]. rewrite trim_prefix_not.
    2:{ cbn [has_prefix]. rewrite (Z.eqb_sym 95), Eu. reflexivity. }
    eexists. split; [reflexivity|]. cbn [app zig_int]. rewrite Z.eqb_refl.
    change (111 =? 98) with false. change (111 =? 111) with true. cbn [negb].
    rewrite digs_us in H by (apply Z.eqb_neq; exact Eu). exact H.
  - assert (N : c0 <> 95).
    { intros ->. cbn in H. discriminate. }
    destruct r as [|c1 r].
    + cbn [andb]. eexists. split; [reflexivity|]. rewrite no_us_cons, (proj2 (Z.eqb_neq _ _) N).
      cbn [zig_int]. rewrite E0.
      pose proof (digs_no_us _ _ _ _ _ _ false false H ltac:(discriminate)) as G.
      rewrite no_us_cons, (proj2 (Z.eqb_neq _ _) N) in G. exact G.
    + cbn [andb]. eexists. split; [reflexivity|].
      pose proof (digs_no_us _ _ _ _ _ _ false false H ltac:(discriminate)) as G.
      rewrite no_us_cons, (proj2 (Z.eqb_neq _ _) N) in G |- *. cbn [zig_int]. rewrite E0. exact G.
Qed.

(** ** Decimal floats *)

(** Zig needs digits after a period that has an exponent, and there is nothing left
    of an integer part of zeros before an exponent. *)
Definition zig_reads (s : bytes) : bool :=
  match parts s with
  | (_, Some [], ex) => match ex with [] => true | _ => false end
  | (_, Some _, _) => true
  | (ip, None, _) => negb (num 0 ip =? 0)
  end.
(** m * 10^e is the same number *)
Definition same_number (a b : Z * Z) : Prop :=
  exists k, 0 <= k /\ ((fst b = fst a * 10 ^ k /\ snd b = snd a - k) \/ (fst a = fst b * 10 ^ k /\ snd a = snd b - k)).

Definition digits_only (a : bytes) : Prop := Forall (fun c => is_dig c = true) a.
Definition no_digit_first (b : bytes) : Prop := match b with [] => True | c :: _ => is_dig c = false end.

Lemma span_spec s : s = fst (span s) ++ snd (span s) /\ digits_only (fst (span s)) /\ no_digit_first (snd (span s)).
Proof.
  induction s as [|c r IH]; cbn [span].
  - split; [reflexivity|]. split; [constructor|exact I].
  - destruct (is_dig c) eqn:E.
    + destruct (span r) as [a b]. cbn [fst snd] in *. destruct IH as (I1 & I2 & I3).
      split; [cbn; f_equal; exact I1|]. split; [constructor; assumption|exact I3].
    + split; [reflexivity|]. split; [constructor|exact E].
Qed.
Lemma span_app a b : digits_only a -> no_digit_first b -> span (a ++ b) = (a, b).
Proof.
  intros D N. induction D as [|c a Dc Da IH]; cbn [app].
  - destruct b as [|c b]; [reflexivity|]. cbn [no_digit_first] in N. cbn [span]. rewrite N. reflexivity.
  - cbn [span]. rewrite Dc, IH. reflexivity.
Qed.

(** Every text is put together from its parts. *)
Lemma parts_spec s : match parts s with
  | (ip, Some fp, ex) => s = ip ++ 46 :: fp ++ ex /\ digits_only ip /\ digits_only fp /\ no_digit_first ex
  | (ip, None, ex) => s = ip ++ ex /\ digits_only ip /\ no_digit_first ex /\ hd 0 ex <> 46
  end.
Proof.
  unfold parts. destruct (span_spec s) as (S1 & S2 & S3). destruct (span s) as [ip r]. cbn [fst snd] in *.
  destruct r as [|c r]; [repeat (split; [assumption|]); cbn; lia|].
  assert (C : c = 46 \/ c <> 46) by lia. destruct C as [-> | C].
  - destruct (span_spec r) as (T1 & T2 & T3). destruct (span r) as [fp ex]. cbn [fst snd] in *.
    rewrite T1 in S1. auto.
  - assert (W : s = ip ++ c :: r /\ digits_only ip /\ no_digit_first (c :: r) /\ hd 0 (c :: r) <> 46).
    { split; [exact S1|]. split; [exact S2|]. split; [exact S3|exact C]. }
    clear S1 S2 S3. destruct c as [|p|p]; try exact W.
    do 6 (destruct p as [p|p|]; try exact W). contradiction C. reflexivity.
Qed.
Lemma parts_period ip fp ex : digits_only ip -> digits_only fp -> no_digit_first ex ->
  parts (ip ++ 46 :: fp ++ ex) = (ip, Some fp, ex).
Proof.
  intros A B C. unfold parts. rewrite span_app; [|exact A|reflexivity]. rewrite span_app by assumption. reflexivity.
Qed.
Lemma parts_no_period ip ex : digits_only ip -> no_digit_first ex -> hd 0 ex <> 46 ->
  parts (ip ++ ex) = (ip, None, ex).
Proof.
  intros A B C. pose proof (parts_spec (ip ++ ex)) as P. unfold parts in *. rewrite span_app in * by assumption.
  destruct ex as [|c r]; [reflexivity|]. cbn [hd] in C.
  destruct c as [|p|p]; try reflexivity.
  do 6 (destruct p; try reflexivity). contradiction C. reflexivity.
Qed.

(** the characters of an exponent *)
Lemma exponent_chars s e : exponent s = Some e ->
  s = [] \/ exists c r, s = c :: r /\ (c = 101 \/ c = 69) /\ is_dig (last r 0) = true /\
                       Forall (fun x => is_dig x = true \/ x = 43 \/ x = 45) r /\ r <> [].
Proof.
  destruct s as [|c r]; [left; reflexivity|]. cbn [exponent]. intros H. right. exists c, r. split; [reflexivity|].
  destruct ((c =? 101) || (c =? 69)) eqn:Ec; [|discriminate]. split; [lia|].
  assert (K : forall r' neg, match span r' with ([], _) => None | (ds, []) => Some (if neg : bool then - num 0 ds else num 0 ds) | (_, _ :: _) => None end = Some e ->
              r' <> [] /\ digits_only r').
  { intros r' neg G. destruct (span_spec r') as (S1 & S2 & S3). destruct (span r') as [ds b]. cbn [fst snd] in *.
    destruct ds as [|d ds]; [discriminate|]. destruct b; [|discriminate]. rewrite app_nil_r in S1. subst r'. split; [discriminate|exact S2]. }
  assert (L : forall r', r' <> [] -> digits_only r' -> is_dig (last r' 0) = true).
  { intros r' N D. destruct (exists_last N) as (a & x & ->). rewrite last_last.
    apply Forall_app in D. destruct D as [_ D]. inversion D. assumption. }
  assert (W : forall r', digits_only r' -> Forall (fun x => is_dig x = true \/ x = 43 \/ x = 45) r').
  { intros r' D. eapply Forall_impl; [|exact D]. intros; left; assumption. }
  destruct r as [|x r']; [cbn in H; discriminate|].
  assert (Q : forall r', r' <> [] -> last (x :: r') 0 = last r' 0) by (intros [|? ?] N; [congruence|reflexivity]).
  destruct (x =? 43) eqn:E1.
  - destruct (K r' false H) as [K1 K2]. apply Z.eqb_eq in E1. subst x. rewrite Q by exact K1.
    split; [apply L; assumption|]. split; [|discriminate]. constructor; [tauto|apply W; exact K2].
  - destruct (x =? 45) eqn:E2.
    + destruct (K r' true H) as [K1 K2]. apply Z.eqb_eq in E2. subst x. rewrite Q by exact K1.
      split; [apply L; assumption|]. split; [|discriminate]. constructor; [tauto|apply W; exact K2].
    + destruct (K (x :: r') false H) as [K1 K2]. split; [apply L; assumption|]. split; [apply W; exact K2|discriminate].
Qed.

Definition strip (s : bytes) : bytes := drop_while (fun b => b =? 48) s.
Lemma strip_app ip b : digits_only ip -> hd 0 b <> 48 -> b <> [] -> strip (ip ++ b) = strip ip ++ b.
Proof.
  intros D N M. unfold strip. induction D as [|c a Dc Da IH]; cbn [app drop_while].
  - destruct b as [|c b]; [congruence|]. cbn [drop_while hd] in *. rewrite (proj2 (Z.eqb_neq _ _) N). reflexivity.
  - destruct (c =? 48); [exact IH|reflexivity].
Qed.
Lemma strip_digits ip : digits_only ip -> digits_only (strip ip).
Proof.
  intros D. unfold strip. induction D as [|c a Dc Da IH]; cbn [drop_while]; [constructor|].
  destruct (c =? 48); [exact IH|constructor; assumption].
Qed.
Lemma strip_hd ip : hd 0 (strip ip) <> 48.
Proof.
  unfold strip. induction ip as [|c a IH]; cbn [drop_while]; [cbn; lia|].
  destruct (c =? 48) eqn:E; [exact IH|]. cbn. lia.
Qed.
Lemma num_app a b acc : num acc (a ++ b) = num (num acc a) b.
Proof. revert acc. induction a as [|c a IH]; intros acc; cbn; [reflexivity|apply IH]. Qed.
Lemma num_strip ip : num 0 (strip ip) = num 0 ip.
Proof.
  unfold strip. induction ip as [|c a IH]; cbn [drop_while]; [reflexivity|].
  destruct (c =? 48) eqn:E; [|reflexivity]. rewrite IH. apply Z.eqb_eq in E. subst c. reflexivity.
Qed.
Lemma num_mono a : digits_only a -> forall acc, 0 <= acc -> acc <= num acc a.
Proof.
  intros D. induction D as [|c a Dc Da IH]; intros acc P; cbn [num]; [lia|].
  unfold is_dig in Dc. etransitivity; [|apply IH; lia]. lia.
Qed.
Lemma strip_nil ip : digits_only ip -> (num 0 ip =? 0) = match strip ip with [] => true | _ => false end.
Proof.
  intros D. rewrite <- num_strip. pose proof (strip_digits _ D) as D'. pose proof (strip_hd ip) as H.
  destruct (strip ip) as [|c a]; [reflexivity|]. cbn [hd] in H. inversion D' as [|? ? D1 D2]; subst.
  unfold is_dig in D1. cbn [num]. pose proof (num_mono a D2 (0 * 10 + (c - 48)) ltac:(lia)).
  apply Z.eqb_neq. lia.
Qed.

Definition fchar (c : Z) : Prop := is_dig c = true \/ c = 46 \/ c = 101 \/ c = 69 \/ c = 43 \/ c = 45.
Lemma dig_fchar a : digits_only a -> Forall fchar a.
Proof. intros D. eapply Forall_impl; [|exact D]. intros c H. left. exact H. Qed.
Lemma exp_fchar ex e : exponent ex = Some e -> Forall fchar ex.
Proof.
  intros H. destruct (exponent_chars _ _ H) as [-> | (c & r & -> & C & _ & D & _)]; [constructor|].
  constructor; [unfold fchar; tauto|]. eapply Forall_impl; [|exact D]. unfold fchar. intros; tauto.
Qed.
Lemma fchar_range c : fchar c -> c <> 105 /\ c <> 120 /\ c <> 111 /\ c <> 95.
Proof. unfold fchar, is_dig. lia. Qed.

Lemma index_0 (v : bytes) : v <> [] -> index 0 v = Ok (hd 0 v).
Proof. destruct v as [|c r]; [congruence|]. intros _. unfold index. rewrite (proj2 (Z.leb_le 0 0)) by lia. unfold zlen. cbn [List.length]. rewrite (proj2 (Z.ltb_lt _ _)) by lia. reflexivity. Qed.
Lemma index_last (v : bytes) : v <> [] -> index (zlen v - 1) v = Ok (last v 0).
Proof.
  intros N. destruct (exists_last N) as (a & x & ->). rewrite last_last. unfold index, zlen.
  rewrite app_length. cbn [List.length].
  rewrite (proj2 (Z.leb_le _ _)), (proj2 (Z.ltb_lt _ _)) by lia. cbn [andb].
  replace (Z.to_nat (Z.of_nat (List.length a + 1) - 1)) with (List.length a) by lia.
  rewrite nth_error_app2 by lia. rewrite Nat.sub_diag. reflexivity.
Qed.

Lemma fix_plain s : Forall fchar s -> 1 < zlen s -> strip s <> [] ->
  fix_float s = Ok (let v := strip s in let v := if beq v [46] then [48; 46; 48] else v in
                    let v := if hd 0 v =? 46 then 48 :: v else v in
                    if last v 0 =? 46 then v ++ [48] else v).
Proof.
  intros F L N. unfold fix_float.
  assert (T : trim_suffix s [105] = s).
  { unfold trim_suffix. destruct (has_suffix s [105]) eqn:H; [|reflexivity]. apply has_suffix_iff in H.
    destruct H as (a & ->). apply Forall_app in F. destruct F as [_ F]. inversion F as [|? ? F1]; subst.
    apply fchar_range in F1. lia. }
  rewrite T. rewrite (beq_false s [48]).
  2:{ intros ->. cbn in L. lia. }
  destruct s as [|c0 [|c1 s]]; [cbn in L; lia|cbn in L; lia|].
  assert (I1 : index 1 (c0 :: c1 :: s) = Ok c1).
  { unfold index. rewrite (proj2 (Z.leb_le _ _)), (proj2 (Z.ltb_lt _ _)) by lia. reflexivity. }
  rewrite I1. cbn [obind].
  assert (X : negb (c1 =? 120) && negb (c1 =? 111) = true).
  { inversion F as [|? ? _ F']; subst. inversion F' as [|? ? F1 _]; subst. apply fchar_range in F1. lia. }
  rewrite X. fold (strip (c0 :: c1 :: s)). set (u := strip (c0 :: c1 :: s)) in *. clearbody u.
  set (w := if beq u [46] then [48; 46; 48] else u).
  assert (W : w <> []) by (unfold w; destruct (beq u [46]); [discriminate|exact N]). clearbody w.
  rewrite (index_0 w W). cbn [obind]. cbv zeta.
  set (x := if hd 0 w =? 46 then 48 :: w else w).
  assert (X' : x <> []) by (unfold x; destruct (hd 0 w =? 46); [discriminate|exact W]). clearbody x.
  rewrite (index_last x X'). reflexivity.
Qed.

Lemma no_us_plain s : Forall fchar s -> no_us s = s.
Proof.
  intros F. induction F as [|c r Fc Fr IH]; [reflexivity|]. rewrite no_us_cons.
  apply fchar_range in Fc. rewrite (proj2 (Z.eqb_neq c 95)) by lia. rewrite IH. reflexivity.
Qed.

Definition lead (ip : bytes) : bytes := match strip ip with [] => [48] | a => a end.
Definition trail (fp ex : bytes) : bytes := match fp, ex with [], [] => [48] | _, _ => fp end.

Lemma exp_last ex e : exponent ex = Some e -> ex <> [] -> forall d, last ex d <> 46.
Proof.
  intros H N d. destruct (exponent_chars _ _ H) as [-> | (c & r & -> & C & L & _ & R)]; [congruence|].
  destruct (exists_last R) as (a & x & ->). rewrite last_last in L.
  change (c :: a ++ [x]) with ((c :: a) ++ [x]). rewrite last_last. unfold is_dig in L. lia.
Qed.
Lemma digits_last a d : digits_only a -> a <> [] -> last a d <> 46.
Proof.
  intros D N. destruct (exists_last N) as (b & x & ->). rewrite last_last.
  apply Forall_app in D. destruct D as [_ D]. inversion D as [|? ? D1]; subst. unfold is_dig in D1. lia.
Qed.
Lemma last_app (a b : bytes) d : b <> [] -> last (a ++ b) d = last b d.
Proof. intros N. destruct (exists_last N) as (c & x & ->). rewrite app_assoc, !last_last. reflexivity. Qed.

Lemma fix_period ip fp ex e : digits_only ip -> digits_only fp -> exponent ex = Some e ->
  1 < zlen (ip ++ 46 :: fp ++ ex) ->
  fix_float (ip ++ 46 :: fp ++ ex) = Ok (lead ip ++ 46 :: trail fp ex ++ ex).
Proof.
  intros Di Df He L.
  assert (S : strip (ip ++ 46 :: fp ++ ex) = strip ip ++ 46 :: fp ++ ex).
  { apply strip_app; [exact Di|cbn; lia|discriminate]. }
  rewrite fix_plain.
  - rewrite S. unfold lead, trail. cbv zeta. f_equal. pose proof (strip_digits _ Di) as Ds. pose proof (strip_hd ip) as Sh.
    assert (Q : forall (a : bytes), fp ++ ex <> [] -> (last (a ++ 46 :: fp ++ ex) 0 =? 46) = false).
    { intros a N. apply Z.eqb_neq. change (46 :: fp ++ ex) with ([46] ++ fp ++ ex). rewrite (last_app a ([46] ++ fp ++ ex)) by discriminate. rewrite (last_app [46] (fp ++ ex)) by exact N.
      destruct ex as [|x ex'].
      - rewrite app_nil_r in *. apply digits_last; assumption.
      - rewrite last_app by discriminate. eapply exp_last; [exact He|discriminate]. }
    destruct (strip ip) as [|c a].
    + cbn [app]. destruct fp as [|f fp'].
      * destruct ex as [|x ex']; [reflexivity|]. rewrite (beq_false (46 :: [] ++ x :: ex')) by discriminate.
        cbn [hd]. change (46 =? 46) with true. cbv iota. pose proof (Q [48] ltac:(discriminate)) as Q'; cbn [app] in Q' |- *; rewrite Q'; reflexivity.
      * rewrite (beq_false (46 :: (f :: fp') ++ ex)) by discriminate.
        cbn [hd]. change (46 =? 46) with true. cbv iota. pose proof (Q [48] ltac:(discriminate)) as Q'; cbn [app] in Q' |- *; rewrite Q'; reflexivity.
    + rewrite (beq_false ((c :: a) ++ 46 :: fp ++ ex)).
      2:{ cbn [app]. destruct a; discriminate. }
      cbn [app hd]. inversion Ds as [|? ? D1]; subst. unfold is_dig in D1.
      rewrite (proj2 (Z.eqb_neq c 46)) by lia.
      destruct fp as [|f fp'].
      * destruct ex as [|x ex'].
        -- change (c :: a ++ 46 :: [] ++ []) with ((c :: a) ++ [46]). rewrite last_last.
           change (46 =? 46) with true. cbv iota. rewrite <- app_assoc. reflexivity.
        -- pose proof (Q (c :: a) ltac:(discriminate)) as Q'; cbn [app] in Q' |- *; rewrite Q'; reflexivity.
      * pose proof (Q (c :: a) ltac:(discriminate)) as Q'; cbn [app] in Q' |- *; rewrite Q'; reflexivity.
  - apply Forall_app. split; [apply dig_fchar; exact Di|]. constructor; [unfold fchar; tauto|].
    apply Forall_app. split; [apply dig_fchar; exact Df|eapply exp_fchar; exact He].
  - exact L.
  - rewrite S. destruct (strip ip); discriminate.
Qed.

Lemma fix_no_period ip c r e : digits_only ip -> exponent (c :: r) = Some e -> ip <> [] ->
  fix_float (ip ++ c :: r) = Ok (strip ip ++ c :: r).
Proof.
  intros Di He N.
  assert (Hc : c = 101 \/ c = 69).
  { destruct (exponent_chars _ _ He) as [X | (c' & r' & X & C & _)]; [discriminate|]. inversion X; subst. exact C. }
  assert (S : strip (ip ++ c :: r) = strip ip ++ c :: r).
  { apply strip_app; [exact Di|cbn; lia|discriminate]. }
  rewrite fix_plain.
  - rewrite S. cbv zeta. f_equal. pose proof (strip_digits _ Di) as Ds.
    assert (B : beq (strip ip ++ c :: r) [46] = false).
    { apply beq_false. intros X. destruct (strip ip) as [|x [|y a]]; [inversion X; lia|discriminate|discriminate]. }
    rewrite B.
    assert (H : (hd 0 (strip ip ++ c :: r) =? 46) = false).
    { destruct (strip ip) as [|x a]; cbn [hd app]; apply Z.eqb_neq; [lia|].
      inversion Ds as [|? ? D1]; subst. unfold is_dig in D1. lia. }
    rewrite H. rewrite last_app by discriminate.
    rewrite (proj2 (Z.eqb_neq _ 46)); [reflexivity|]. eapply exp_last; [exact He|discriminate].
  - apply Forall_app. split; [apply dig_fchar; exact Di|eapply exp_fchar; exact He].
  - unfold zlen. rewrite app_length. cbn [List.length]. destruct ip; [congruence|]. cbn [List.length]. lia.
  - rewrite S. destruct (strip ip); discriminate.
Qed.

Lemma lead_digits ip : digits_only ip -> digits_only (lead ip).
Proof.
  intros D. unfold lead. pose proof (strip_digits _ D). destruct (strip ip); [|assumption].
  constructor; [reflexivity|constructor].
Qed.
Lemma lead_num ip : num 0 (lead ip) = num 0 ip.
Proof. unfold lead. rewrite <- (num_strip ip). destruct (strip ip); reflexivity. Qed.
Lemma lead_ok ip : match lead ip with [] => false | c :: r => negb (c =? 48) || match r with [] => true | _ => false end end = true.
Proof.
  unfold lead. pose proof (strip_hd ip) as H. destruct (strip ip) as [|c a]; [reflexivity|]. cbn [hd] in H.
  rewrite (proj2 (Z.eqb_neq c 48) H). reflexivity.
Qed.
Lemma exp_first ex e : exponent ex = Some e -> no_digit_first ex /\ hd 0 ex <> 46.
Proof.
  intros H. destruct (exponent_chars _ _ H) as [-> | (c & r & -> & C & _)]; [split; [exact I|cbn; lia]|].
  cbn [no_digit_first hd]. unfold is_dig. lia.
Qed.
Lemma same_refl a : same_number a a.
Proof. exists 0. split; [lia|]. left. change (10 ^ 0) with 1. lia. Qed.

(** A decimal float (without underscores) is printed as a Zig literal of the same
    value, or as something Zig does not read. *)
Theorem C131_float_partial s v : go_float s = Some v ->
  exists t, lit_print KFloat s = Ok t /\
    if zig_reads s then exists w, zig_float t = Some w /\ same_number v w else zig_float t = None.
Proof.
  intros H. unfold go_float in H. unfold zig_reads. pose proof (parts_spec s) as P.
  destruct (parts s) as [[ip fp] ex]. destruct fp as [fp|].
  - destruct P as (-> & Di & Df & N).
    assert (E : exists e, exponent ex = Some e /\ v = fvalue ip fp e /\ 1 < zlen (ip ++ 46 :: fp ++ ex)).
    { unfold zlen. rewrite app_length. cbn [List.length]. rewrite app_length.
      destruct (exponent ex) as [e|]; [|destruct ip, fp; discriminate]. exists e. split; [reflexivity|].
      destruct ip; [destruct fp; [discriminate|]|]; inversion H; subst; (split; [reflexivity|cbn [List.length]; lia]). }
    clear H. destruct E as (e & He & -> & L).
    unfold lit_print. rewrite (proj2 (Z.ltb_lt _ _) L). rewrite (fix_period _ _ _ e) by assumption. cbn [obind].
    assert (Dt : digits_only (trail fp ex)).
    { unfold trail. destruct fp; [|exact Df]. destruct ex; [|exact Df]. constructor; [reflexivity|constructor]. }
    eexists. split; [reflexivity|].
    rewrite no_us_plain.
    2:{ apply Forall_app. split; [apply dig_fchar, lead_digits; exact Di|]. constructor; [unfold fchar; tauto|].
        apply Forall_app. split; [apply dig_fchar; exact Dt|eapply exp_fchar; exact He]. }
    assert (Z1 : zig_float (lead ip ++ 46 :: trail fp ex ++ ex) =
                 match trail fp ex with [] => None | fp' => Some (fvalue (lead ip) fp' e) end).
    { unfold zig_float. rewrite parts_period by (try apply lead_digits; assumption). rewrite lead_ok, He. destruct (trail fp ex); reflexivity. }
    rewrite Z1. unfold fvalue.
    destruct fp as [|f fp'].
    + destruct ex as [|x ex']; [|reflexivity].
      cbn [trail]. eexists. split; [reflexivity|]. exists 1. split; [lia|]. left. cbn [fst snd].
      rewrite app_nil_r, num_app, lead_num. change (10 ^ 1) with 10. cbn [num].
      split; [lia|]. unfold zlen. cbn [List.length]. lia.
    + cbn [trail]. eexists. split; [reflexivity|]. rewrite (num_app (lead ip)), lead_num, <- (num_app ip). apply same_refl.
  - destruct P as (-> & Di & N & Nh).
    destruct ip as [|i ip]; [discriminate|]. destruct ex as [|x ex]; [discriminate|].
    destruct (exponent (x :: ex)) as [e|] eqn:He; [|discriminate]. inversion H; subst v. clear H.
    set (ip' := i :: ip) in *. assert (Ni : ip' <> []) by discriminate.
    unfold lit_print.
    assert (L : 1 < zlen (ip' ++ x :: ex)).
    { unfold zlen, ip'. rewrite app_length. cbn [List.length]. lia. }
    rewrite (proj2 (Z.ltb_lt _ _) L), (fix_no_period _ _ _ e) by assumption. cbn [obind].
    eexists. split; [reflexivity|].
    pose proof (strip_digits _ Di) as Ds. destruct (exp_first _ _ He) as [F1 F2].
    rewrite no_us_plain.
    2:{ apply Forall_app. split; [apply dig_fchar; exact Ds|eapply exp_fchar; exact He]. }
    unfold zig_float. rewrite parts_no_period by assumption. rewrite (strip_nil _ Di). rewrite He.
    unfold fvalue. rewrite !app_nil_r. rewrite <- (num_strip ip'). pose proof (strip_hd ip') as Sh.
    destruct (strip ip') as [|c a]; [reflexivity|]. cbn [negb]. cbn [hd] in Sh.
    rewrite (proj2 (Z.eqb_neq c 48) Sh). cbn [negb orb].
    eexists. split; [reflexivity|]. apply same_refl.
Qed.

(** ** Imaginary literals with a decimal integer of at least two digits *)
Lemma digits_digs a : digits_only a -> forall us acc, digs 10 us true acc a = Some (num acc a).
Proof.
  intros D. induction D as [|c a Dc Da IH]; intros us acc; [reflexivity|]. cbn [digs num].
  unfold is_dig in Dc. rewrite (proj2 (Z.eqb_neq c 95)) by lia. unfold digit. rewrite Dc.
  rewrite (proj2 (Z.ltb_lt _ _)) by lia. apply IH.
Qed.
(** the value is decimal, leading zeros included ("Imaginary literals" in the Go
    specification) *)
Theorem C131_imaginary_partial ds : digits_only ds -> (2 <= List.length ds)%nat -> num 0 ds <> 0 ->
  exists t, lit_print KImag (ds ++ [105]) = Ok (text "go.complex128.init(0," ++ t ++ text ")") /\
            zig_int t = Some (num 0 ds).
Proof.
  intros D L N. unfold lit_print.
  assert (Z1 : 1 < zlen (ds ++ [105])) by (unfold zlen; rewrite app_length; cbn [List.length]; lia).
  rewrite (proj2 (Z.ltb_lt _ _) Z1). unfold fix_float. rewrite trim_suffix_app.
  rewrite (beq_false ds [48]) by (intros ->; cbn in L; lia).
  destruct ds as [|c0 [|c1 r]]; [cbn in L; lia|cbn in L; lia|].
  assert (I1 : index 1 (c0 :: c1 :: r) = Ok c1).
  { unfold index. unfold zlen. cbn [List.length]. rewrite (proj2 (Z.leb_le _ _)), (proj2 (Z.ltb_lt _ _)) by lia. reflexivity. }
  rewrite I1. cbn [obind].
  assert (X : negb (c1 =? 120) && negb (c1 =? 111) = true).
  { inversion D as [|? ? _ F']; subst. inversion F' as [|? ? F1 _]; subst. unfold is_dig in F1. lia. }
  rewrite X. fold (strip (c0 :: c1 :: r)).
  pose proof (strip_digits _ D) as Ds. pose proof (strip_nil _ D) as Sn. pose proof (strip_hd (c0 :: c1 :: r)) as Sh.
  rewrite <- (num_strip (c0 :: c1 :: r)). rewrite (proj2 (Z.eqb_neq _ _) N) in Sn.
  destruct (strip (c0 :: c1 :: r)) as [|d a]; [discriminate|]. cbn [hd] in Sh.
  assert (Dd : is_dig d = true) by (inversion Ds; assumption). unfold is_dig in Dd.
  rewrite (beq_false (d :: a) [46]) by (intros Y; inversion Y; lia).
  rewrite index_0 by discriminate. cbn [obind hd]. rewrite (proj2 (Z.eqb_neq d 46)) by lia.
  rewrite index_last by discriminate. cbn [obind].
  rewrite (proj2 (Z.eqb_neq _ 46)) by (apply digits_last; [exact Ds|discriminate]).
  eexists. split; [reflexivity|]. cbn [zig_int]. rewrite (proj2 (Z.eqb_neq d 48) Sh).
  pose proof (digits_digs _ Ds false 0) as G. cbn [digs] in G |- *. exact G.
Qed.

(** ** Strings *)
Definition ascii (c : Z) : Prop := 0 <= c <= 127.
(** bell, backspace, vertical tab and form feed: Go writes \a, \b, \v and \f *)
Definition no_zig_escape (c : Z) : bool := (c =? 7) || (c =? 8) || (c =? 11) || (c =? 12).

Lemma zig_q_byte c rest : ascii c -> rest <> [] ->
  zig_body_str (q_byte c ++ rest) = if no_zig_escape c then None else option_map (cons c) (zig_body_str rest).
Proof.
  intros A N. destruct rest as [|x rest]; [congruence|]. clear N. unfold ascii in A.
  assert (I : In c (map Z.of_nat (seq 0 128))).
  { apply in_map_iff. exists (Z.to_nat c). split; [lia|apply in_seq; lia]. }
  cbn [seq map] in I. change (Z.of_nat 0) with 0 in I.
  repeat (destruct I as [<- | I]; [reflexivity|]). destruct I.
Qed.
Theorem C131_string s : Forall ascii s ->
  zig_str (lit_string s) = if existsb no_zig_escape s then None else Some s.
Proof.
  intros F. unfold zig_str, lit_string. change (34 =? 34) with true. cbv iota.
  induction F as [|c r Fc Fr IH]; [reflexivity|]. cbn [flat_map existsb]. rewrite <- app_assoc.
  rewrite zig_q_byte; [|exact Fc|destruct (flat_map q_byte r); discriminate].
  destruct (no_zig_escape c); [reflexivity|]. rewrite IH. cbn [orb]. destruct (existsb no_zig_escape r); reflexivity.
Qed.

(** ** Runes *)
Lemma decimal_spec f : forall n acc, 0 <= n < 10 ^ Z.of_nat (S f) ->
  exists ds, decimal (S f) n acc = ds ++ acc /\ digits_only ds /\ num 0 ds = n /\ ds <> [] /\
             (if n =? 0 then ds = [48] else hd 0 ds <> 48).
Proof.
  induction f as [|f IH]; intros n acc R.
  - change (10 ^ Z.of_nat 1) with 10 in R. cbn [decimal]. rewrite (proj2 (Z.ltb_lt n 10)) by lia.
    rewrite Z.mod_small by lia. exists [48 + n]. split; [reflexivity|].
    split; [constructor; [unfold is_dig; lia|constructor]|]. split; [cbn [num]; lia|]. split; [discriminate|].
    destruct (n =? 0) eqn:E; [f_equal; lia|cbn [hd]; lia].
  - cbn [decimal]. destruct (n <? 10) eqn:E.
    + rewrite Z.mod_small by lia. exists [48 + n]. split; [reflexivity|].
      split; [constructor; [unfold is_dig; lia|constructor]|]. split; [cbn [num]; lia|]. split; [discriminate|].
      destruct (n =? 0) eqn:E0; [f_equal; lia|cbn [hd]; lia].
    + assert (R' : 0 <= n / 10 < 10 ^ Z.of_nat (S f)).
      { split; [apply Z.div_pos; lia|]. apply Z.div_lt_upper_bound; [lia|].
        replace (Z.of_nat (S (S f))) with (1 + Z.of_nat (S f)) in R by lia. rewrite Z.pow_add_r in R by lia. lia. }
      destruct (IH (n / 10) ((48 + n mod 10) :: acc) R') as (ds & D1 & D2 & D3 & D4 & D5).
      cbn [decimal] in D1. rewrite D1. pose proof (Z.div_mod n 10 ltac:(lia)) as DM. pose proof (Z.mod_pos_bound n 10 ltac:(lia)) as MB.
      exists (ds ++ [48 + n mod 10]). split; [rewrite <- app_assoc; reflexivity|].
      split; [apply Forall_app; split; [exact D2|constructor; [unfold is_dig; lia|constructor]]|].
      split; [rewrite num_app, D3; cbn [num]; lia|].
      split; [destruct ds; discriminate|].
      assert (P : 0 < n / 10) by (apply Z.div_str_pos; lia).
      rewrite (proj2 (Z.eqb_neq (n / 10) 0)) in D5 by lia. rewrite (proj2 (Z.eqb_neq n 0)) by lia.
      destruct ds; [congruence|exact D5].
Qed.
Theorem C131_rune v : 0 <= v < 2 ^ 63 -> zig_int (lit_char v) = Some v.
Proof.
  intros R. unfold lit_char.
  assert (B : 2 ^ 63 < 10 ^ Z.of_nat 20) by reflexivity.
  destruct (decimal_spec 19 v [] ltac:(lia)) as (ds & D1 & D2 & D3 & D4 & D5). rewrite D1, app_nil_r.
  destruct (v =? 0) eqn:E; [subst ds; cbn in D3 |- *; rewrite <- D3; reflexivity|].
  destruct ds as [|d a]; [congruence|]. cbn [hd] in D5. cbn [zig_int]. rewrite (proj2 (Z.eqb_neq d 48) D5).
  pose proof (digits_digs _ D2 false 0) as G. rewrite D3 in G. cbn [digs] in G |- *. exact G.
Qed.

(** ** Examples and what Zig does not read *)
Theorem C131_example :
  (go_int (text "0b1_01") = Some 5 /\ lit_print KInt (text "0b1_01") = Ok (text "0b101") /\ zig_int (text "0b101") = Some 5) /\
  (go_int (text "0_17") = Some 15 /\ lit_print KInt (text "0_17") = Ok (text "0o17")) /\
  (go_float (text "007.50e-3") = Some (750, -5) /\ zig_reads (text "007.50e-3") = true /\ lit_print KFloat (text "007.50e-3") = Ok (text "7.50e-3")) /\
  (go_float (text ".5") = Some (5, -1) /\ lit_print KFloat (text ".5") = Ok (text "0.5")) /\
  (go_float (text "1.") = Some (1, 0) /\ lit_print KFloat (text "1.") = Ok (text "1.0") /\ zig_float (text "1.0") = Some (10, -1)) /\
  lit_print KImag (text "012i") = Ok (text "go.complex128.init(0,12)") /\
  lit_string [97; 10; 34; 1] = [34; 97; 92; 110; 92; 34; 92; 120; 48; 49; 34] /\
  lit_char 8364 = text "8364".
Proof. vm_compute. intuition. Qed.

(** Integers Zig refuses *)
Theorem C131_int_refused :
  Forall (fun s => exists v, go_int s = Some v /\ lit_print KInt s = Ok s /\ zig_int s = None)
         [text "00"; text "007"; text "0X1F"; text "0B1"; text "0O7"].
Proof. repeat (constructor; [eexists; repeat split|]). constructor. Qed.

(** Floats: the zero before an exponent is lost, so are the first zeros of hexadecimal
    floats in upper case, and zeros before an underscore stay. *)
Theorem C131_float_refused :
  (go_float (text "0e5") = Some (0, 5) /\ lit_print KFloat (text "0e5") = Ok (text "e5") /\ zig_float (text "e5") = None) /\
  (go_float (text "1.e5") = Some (1, 5) /\ lit_print KFloat (text "1.e5") = Ok (text "1.e5") /\ zig_float (text "1.e5") = None) /\
  lit_print KFloat (text "0X1P-2") = Ok (text "X1P-2") /\
  (lit_print KFloat (text "0_01.5") = Ok (text "01.5") /\ zig_float (text "01.5") = None).
Proof. vm_compute. intuition. Qed.

(** Imaginary literals of one digit other than zero, and of zeros, stop the compiler;
    binary ones lose their zero. *)
Theorem C131_imaginary_refuted : forall d, 49 <= d <= 57 -> lit_print KImag [d; 105] = Panic.
Proof.
  intros d R. unfold lit_print. change (1 <? zlen [d; 105]) with true. cbv iota. unfold fix_float.
  change [d; 105] with ([d] ++ [105]). rewrite trim_suffix_app. rewrite (beq_false [d] [48]) by (intros X; inversion X; lia).
  reflexivity.
Qed.
Theorem C131_imaginary_refused :
  lit_print KImag (text "00i") = Panic /\ lit_print KImag (text "0b1i") = Ok (text "go.complex128.init(0,b1)") /\
  lit_print KImag (text "0i") = Ok (text "go.complex128.init(0,0.0)").
Proof. vm_compute. intuition. Qed.
