(** * C133: plain text. *)
From Coq Require Import String.
From Verif Require Import GoBase GoText ZigLitModel ZigLit MimeModel.
Open Scope list_scope.
Open Scope Z_scope.

(** ** Strings *)
(** tab, newline, vertical tab, form feed, carriage return and space *)
Definition white (c : Z) : bool := existsb (Z.eqb c) [9; 10; 11; 12; 13; 32].
Definition one_word (s : bytes) : Prop := s <> [] /\ forall c, In c s -> white c = false.
Definition no_space (s : bytes) : bool := forallb (fun c => negb (space c)) s.
Lemma white_space c : white c = space c.
Proof. unfold white, space. cbn [existsb]. lia. Qed.
Lemma one_word_iff s : one_word s <-> s <> [] /\ no_space s = true.
Proof.
  unfold one_word, no_space. rewrite forallb_forall. split; intros [N H]; (split; [exact N|]); intros c I; specialize (H c I);
    rewrite white_space in *; destruct (space c); (reflexivity || discriminate).
Qed.
Lemma take_all f s : forallb f s = true -> take_while f s = s.
Proof. induction s as [|c r IH]; [reflexivity|]. cbn. intros H. apply andb_prop in H. destruct H as [-> H]. rewrite IH by exact H. reflexivity. Qed.
Lemma take_forall f s : forallb f (take_while f s) = true.
Proof. induction s as [|c r IH]; [reflexivity|]. cbn. destruct (f c) eqn:E; [cbn; rewrite E; exact IH|reflexivity]. Qed.

(** Exactly the strings that are one word arrive. *)
Theorem C133_strings s : text_decode WStr (text_encode (PStr s)) = Some (PStr s) <-> one_word s.
Proof.
  rewrite one_word_iff. cbn [text_encode text_decode]. split.
  - intros H. assert (W : word s = s).
    { destruct (word s) as [|c r]; [discriminate|]. inversion H. reflexivity. }
    split.
    + intros ->. discriminate.
    + unfold no_space. rewrite <- W. unfold word. apply take_forall.
  - intros [N S]. assert (W : word s = s).
    { unfold word. destruct s as [|c r]; [reflexivity|]. unfold no_space in S. cbn [forallb] in S.
      cbn [drop_while]. destruct (space c) eqn:E; [discriminate|]. apply take_all. cbn [forallb]. rewrite E. exact S. }
    rewrite W. destruct s; [congruence|reflexivity].
Qed.
(** Of a string with spaces only the first word arrives, without the spaces before it. *)
Theorem C133_words_refuted sp a b c : Forall (fun x => white x = true) sp -> one_word a -> white c = true ->
  text_decode WStr (text_encode (PStr (sp ++ a ++ c :: b))) = Some (PStr a).
Proof.
  intros SP O SC. apply one_word_iff in O. destruct O as [N S]. rewrite white_space in SC. cbn [text_encode text_decode].
  assert (W : word (sp ++ a ++ c :: b) = a).
  { unfold word. induction SP as [|x sp X SP IH]; [|rewrite white_space in X; cbn [app drop_while]; rewrite X; exact IH]. cbn [app].
    destruct a as [|d r]; [congruence|]. unfold no_space in S. cbn [forallb] in S.
    apply andb_prop in S. destruct S as [S1 S2]. cbn [app drop_while]. destruct (space d) eqn:E; [discriminate|].
    cbn [take_while]. rewrite E. cbn [negb]. f_equal. clear E S1 N.
    induction r as [|e r IH]; [cbn [app take_while]; rewrite SC; reflexivity|].
    cbn [forallb] in S2. apply andb_prop in S2. destruct S2 as [S1 S2]. cbn [app take_while]. rewrite S1. f_equal. apply IH. exact S2. }
  rewrite W. destruct a; [congruence|reflexivity].
Qed.
(** The empty string is not accepted. *)
Theorem C133_empty_refuted : text_decode WStr (text_encode (PStr [])) = None.
Proof. reflexivity. Qed.

(** ** Integers *)
Lemma num_text_spec n : 0 <= n -> digits_only (num_text n) /\ num 0 (num_text n) = n /\
  if n =? 0 then num_text n = [48] else num_text n <> [] /\ hd 0 (num_text n) <> 48.
Proof.
  intros P. unfold num_text. destruct (decimal_spec (Z.to_nat n) n []) as (ds & D1 & D2 & D3 & D4 & D5).
  - split; [exact P|]. replace (Z.of_nat (S (Z.to_nat n))) with (n + 1) by lia.
    assert (n + 1 < 10 ^ (n + 1)) by (apply Z.pow_gt_lin_r; lia). lia.
  - rewrite D1, app_nil_r. split; [exact D2|]. split; [exact D3|]. destruct (n =? 0); [exact D5|split; [exact D4|exact D5]].
Qed.
Lemma token_number n : 0 <= n -> go_int (number_token (num_text n)) = Some n.
Proof.
  intros P. destruct (num_text_spec n P) as (D & N & H). destruct (n =? 0) eqn:E.
  - rewrite H. cbn. f_equal. lia.
  - destruct H as [H1 H2]. destruct (num_text n) as [|c r]; [congruence|]. cbn [hd] in H2.
    assert (T : number_token (c :: r) = take_while dec_digit (c :: r)).
    { unfold number_token. destruct c as [|p|p]; try reflexivity.
      do 6 (destruct p as [p|p|]; try reflexivity). contradiction H2. reflexivity. }
    rewrite T, take_all.
    + cbn [go_int]. rewrite (proj2 (Z.eqb_neq c 48) H2). pose proof (digits_digs _ D false 0) as G. rewrite N in G.
      cbn [digs] in G |- *. exact G.
    + apply forallb_forall. intros x X. unfold digits_only in D. rewrite Forall_forall in D. unfold dec_digit. rewrite (D x X). reflexivity.
Qed.
Lemma num_text_hd n : 0 <= n -> exists c r, num_text n = c :: r /\ is_dig c = true.
Proof.
  intros P. destruct (num_text_spec n P) as (D & N & H). destruct (num_text n) as [|c r].
  - destruct (n =? 0); [discriminate|]. destruct H. congruence.
  - exists c, r. split; [reflexivity|]. inversion D. assumption.
Qed.
(** Every integer arrives. *)
Theorem C133_int bits z : 1 <= bits -> - 2 ^ (bits - 1) <= z < 2 ^ (bits - 1) ->
  text_decode (WInt bits) (text_encode (PInt z)) = Some (PInt z).
Proof.
  intros B R. cbn [text_encode text_decode]. unfold int_text, scan_int. destruct (z <? 0) eqn:E.
  - cbn [drop_while]. change (space 45) with false. cbv iota. cbn [andb]. change (45 =? 45) with true. cbv iota.
    rewrite token_number by lia. rewrite Z.opp_involutive.
    rewrite (proj2 (Z.leb_le _ _)), (proj2 (Z.ltb_lt _ _)) by lia. reflexivity.
  - pose proof (token_number z ltac:(lia)) as T. destruct (num_text_hd z ltac:(lia)) as (c & r & Q & D). rewrite Q in *.
    unfold is_dig in D. cbn [drop_while].
    assert (S : space c = false) by (unfold space; lia). rewrite S. cbn [andb].
    rewrite (proj2 (Z.eqb_neq c 45)), (proj2 (Z.eqb_neq c 43)) by lia. rewrite T.
    rewrite (proj2 (Z.leb_le _ _)), (proj2 (Z.ltb_lt _ _)) by lia. reflexivity.
Qed.
Theorem C133_uint bits z : 0 <= z < 2 ^ bits -> text_decode (WUint bits) (text_encode (PInt z)) = Some (PInt z).
Proof.
  intros R. cbn [text_encode text_decode]. unfold int_text, scan_int. rewrite (proj2 (Z.ltb_ge z 0)) by lia.
  pose proof (token_number z ltac:(lia)) as T. destruct (num_text_hd z ltac:(lia)) as (c & r & Q & D). rewrite Q in *.
  unfold is_dig in D. cbn [drop_while].
  assert (S : space c = false) by (unfold space; lia). rewrite S. cbn [andb]. rewrite T.
  rewrite (proj2 (Z.ltb_lt _ _)) by lia. reflexivity.
Qed.
(** An integer that does not fit is refused, not truncated. *)
Theorem C133_too_large bits z : 1 <= bits -> ~ (- 2 ^ (bits - 1) <= z < 2 ^ (bits - 1)) ->
  text_decode (WInt bits) (text_encode (PInt z)) = None.
Proof.
  intros B R. cbn [text_encode text_decode]. unfold int_text, scan_int. destruct (z <? 0) eqn:E.
  - cbn [drop_while]. change (space 45) with false. cbv iota. cbn [andb]. change (45 =? 45) with true. cbv iota.
    rewrite token_number by lia. rewrite Z.opp_involutive.
    destruct ((- 2 ^ (bits - 1) <=? z) && (z <? 2 ^ (bits - 1))) eqn:X; [lia|reflexivity].
  - pose proof (token_number z ltac:(lia)) as T. destruct (num_text_hd z ltac:(lia)) as (c & r & Q & D). rewrite Q in *.
    unfold is_dig in D. cbn [drop_while].
    assert (S : space c = false) by (unfold space; lia). rewrite S. cbn [andb].
    rewrite (proj2 (Z.eqb_neq c 45)), (proj2 (Z.eqb_neq c 43)) by lia. rewrite T.
    destruct ((- 2 ^ (bits - 1) <=? z) && (z <? 2 ^ (bits - 1))) eqn:X; [lia|reflexivity].
Qed.
Theorem C133_bool b : text_decode WBool (text_encode (PBool b)) = Some (PBool b).
Proof. destruct b; reflexivity. Qed.

(** A value that reads its own text is given the empty one, whatever was sent. *)
Theorem C133_unmarshal_refuted t : text_decode WUnmarshal (text_encode (PMarshal t)) = Some (PMarshal []).
Proof. reflexivity. Qed.
(** Slices are written line by line and never read. *)
Theorem C133_slice_refuted ts : text_decode WSlice (text_encode (PSlice ts)) = None.
Proof. reflexivity. Qed.
Theorem C133_example :
  text_encode (PInt (-42)) = text "-42" /\ text_decode (WInt 8) (text "-42") = Some (PInt (-42)) /\
  text_decode (WInt 8) (text "128") = None /\ text_decode WStr (text "hello world") = Some (PStr (text "hello")) /\
  text_encode (PSlice [text "a"; text "b"]) = [97; 10; 98; 10].
Proof. vm_compute. intuition. Qed.
