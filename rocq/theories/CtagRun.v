(** What every accepted tag looks like (C119). *)
From Coq Require Import String.
From Verif Require Import GoBase BaseLemmas GoText CtagModel CtagProps.
Open Scope list_scope.

(** ** The scanner always moves on *)
Notation len := (@List.length Z).
Lemma ident_run_split s : forall a b, ident_run s = (a, b) -> s = a ++ b /\ Forall (fun c => is_letter c = true \/ is_digit c = true) a.
Proof.
  induction s as [|c s IH]; intros a b E; cbn in E.
  - injection E as <- <-. split; [reflexivity|constructor].
  - destruct (is_letter c || is_digit c) eqn:L.
    + destruct (ident_run s) as (a', b'). injection E as <- <-. destruct (IH a' b' eq_refl) as (-> & F). split; [reflexivity|]. constructor; [apply orb_prop; exact L|exact F].
    + injection E as <- <-. split; [reflexivity|constructor].
Qed.
Lemma digit_run_split s : forall a b, digit_run s = (a, b) -> s = a ++ b.
Proof.
  induction s as [|c s IH]; intros a b E; cbn in E.
  - injection E as <- <-. reflexivity.
  - destruct (is_digit c || (c =? 95)).
    + destruct (digit_run s) as (a', b'). injection E as <- <-. rewrite (IH a' b' eq_refl). reflexivity.
    + injection E as <- <-. reflexivity.
Qed.
Lemma drop_while_length f s : (len (drop_while f s) <= len s)%nat.
Proof. induction s as [|c s IH]; [cbn; lia|]. cbn. destruct (f c); cbn; lia. Qed.
Lemma line_comment_length s : (len (line_comment s) <= len s)%nat.
Proof. induction s as [|c s IH]; [cbn; lia|]. cbn. destruct (c =? 10); cbn; lia. Qed.
Lemma block_comment_length n : forall s, (len s <= n)%nat -> (len (block_comment s) <= len s)%nat.
Proof.
  induction n as [|n IH]; intros s L; [destruct s; [cbn; lia|cbn in L; lia]|]. destruct s as [|c s]; [cbn; lia|]. cbn in L.
  assert (G : (len (block_comment s) <= len s)%nat) by (apply IH; lia).
  assert (X : block_comment (c :: s) = block_comment s \/ exists r, s = 47 :: r /\ block_comment (c :: s) = r).
  { cbn [block_comment]. destruct c as [|p|p]; try (left; reflexivity). do 6 (try (destruct p as [p|p|]; try (left; reflexivity))).
    destruct s as [|d s]; [left; reflexivity|]. destruct d as [|q|q]; try (left; reflexivity). do 6 (try (destruct q as [q|q|]; try (left; reflexivity))).
    right. exists s. split; reflexivity. }
  destruct X as [-> | (r & -> & ->)]; cbn; lia.
Qed.
Lemma scan_number_length s tok s' : match s with c :: _ => is_digit c = true | [] => False end -> scan_number s = (tok, s') -> (len s' < len s)%nat /\ tok <> TEOF.
Proof.
  destruct s as [|c s]; [contradiction|]. intros D E. unfold scan_number in E.
  destruct (match c :: s with 48 :: c0 :: _ => member c0 (text "xXoObB") | _ => false end); [injection E as <- <-; cbn; split; [lia|discriminate]|].
  destruct (digit_run (c :: s)) as (ds, r) eqn:R. pose proof (digit_run_split _ _ _ R) as X.
  assert (L : (len r < len (c :: s))%nat).
  { destruct ds as [|d ds]; [|rewrite X, app_length; cbn [List.length]; lia]. exfalso. cbn in R. rewrite D in R. cbn in R. destruct (digit_run s). discriminate. }
  destruct r as [|x r].
  - injection E as <- <-. split; [exact L|discriminate].
  - destruct (member x (text ".eEpP")); injection E as <- <-; (split; [cbn in *; lia|discriminate]).
Qed.
Lemma scan_f_length f : forall s tok s', scan_f f s = (tok, s') -> (len s' <= len s)%nat /\ (tok <> TEOF -> (len s' < len s)%nat).
Proof.
  induction f as [|f IH]; intros s tok s' E; cbn [scan_f] in E; pose proof (drop_while_length is_space s) as L;
    destruct (drop_while is_space s) as [|c r]; try (injection E as <- <-; cbn; split; [lia|congruence]); cbn [List.length] in L.
  all: destruct (is_letter c) eqn:LC; [destruct (ident_run (c :: r)) as (a, b) eqn:R; injection E as <- <-; destruct (ident_run_split _ _ _ R) as (X & _);
       destruct a as [|a0 a]; [exfalso; cbn in R; rewrite LC in R; cbn in R; destruct (ident_run r); discriminate|];
       assert (Y : len (c :: r) = len ((a0 :: a) ++ b)) by (rewrite X; reflexivity); rewrite app_length in Y; cbn [List.length] in Y; split; intros; lia|].
  all: destruct (is_digit c) eqn:DC; [destruct (scan_number_length (c :: r) tok s' DC E) as (Y & _); cbn [List.length] in Y; split; intros; lia|].
  all: destruct (member c (text """'`")); [injection E as <- <-; cbn; split; intros; lia|].
  all: destruct (c =? 46); [destruct r as [|d r]; [injection E as <- <-; cbn; split; intros; lia|destruct (is_digit d); injection E as <- <-; cbn in *; split; intros; lia]|].
  all: destruct (c =? 47); [|injection E as <- <-; split; intros; lia].
  - assert (Q : (tok, s') = (TCh c, r)).
    { rewrite <- E. destruct r as [|d r]; [reflexivity|]. destruct d as [|q|q]; try reflexivity. do 6 (try (destruct q as [q|q|]; try reflexivity)). }
    injection Q as -> ->. split; intros; lia.
  - assert (Q : (tok, s') = (TCh c, r) \/ exists d r' r'', r = d :: r' /\ (len r'' <= len r')%nat /\ scan_f f r'' = (tok, s')).
    { destruct r as [|d r]; [left; symmetry; exact E|]. destruct d as [|q|q]; try (left; symmetry; exact E).
      do 6 (try (destruct q as [q|q|]; try (left; symmetry; exact E))).
      - right. do 3 eexists. split; [reflexivity|]. split; [|exact E]. apply line_comment_length.
      - right. do 3 eexists. split; [reflexivity|]. split; [|exact E]. apply (block_comment_length (len r)). lia. }
    destruct Q as [Q|(d & r' & r'' & -> & L2 & Q)].
    + injection Q as -> ->. split; intros; lia.
    + destruct (IH _ _ _ Q) as (A & B). cbn [List.length] in L. split; [lia|]. intros NE. specialize (B NE). lia.
Qed.
Lemma scan_length s tok s' : scan s = (tok, s') -> (len s' <= len s)%nat.
Proof. intros E. apply (scan_f_length _ _ _ _ E). Qed.
Lemma scan_shrinks s tok s' : scan s = (tok, s') -> tok <> TEOF -> (len s' < len s)%nat.
Proof. intros E. apply (scan_f_length _ _ _ _ E). Qed.
Lemma scan_snd s : (len (snd (scan s)) <= len s)%nat.
Proof. destruct (scan s) as (t, s') eqn:E. cbn. apply (scan_length _ _ _ E). Qed.
Lemma scan_is_ident s id s' : scan s = (TIdent id, s') -> good_ident id.
Proof.
  unfold scan. generalize (List.length s) as f. intros f. revert s. induction f as [|f IH]; intros s E; cbn [scan_f] in E;
    destruct (drop_while is_space s) as [|c r]; try discriminate.
  all: destruct (is_letter c) eqn:LC; [destruct (ident_run (c :: r)) as (a, b) eqn:R; injection E as <- <-; destruct (ident_run_split _ _ _ R) as (X & F);
       destruct a as [|a0 a]; [exfalso; cbn in R; rewrite LC in R; cbn in R; destruct (ident_run r); discriminate|];
       injection X as -> _; split; [exact LC|apply Forall_inv_tail in F; exact F]|].
  all: destruct (is_digit c) eqn:DC; [unfold scan_number in E; destruct (match c :: r with 48 :: c0 :: _ => member c0 (text "xXoObB") | _ => false end); [discriminate|];
       destruct (digit_run (c :: r)) as (ds, [|x q]); [discriminate|destruct (member x (text ".eEpP")); discriminate]|].
  all: destruct (member c (text """'`")); [discriminate|].
  all: destruct (c =? 46); [destruct r as [|d r]; [discriminate|destruct (is_digit d); discriminate]|].
  all: destruct (c =? 47); [|discriminate].
  - exfalso. destruct r as [|d r]; [discriminate|]. destruct d as [|q|q]; try discriminate. do 6 (try (destruct q as [q|q|]; try discriminate)).
  - destruct r as [|d r]; [discriminate|]. destruct d as [|q|q]; try discriminate. do 6 (try (destruct q as [q|q|]; try discriminate)); eapply IH; exact E.
Qed.
Lemma scan_is_int s ds s' : scan s = (TInt ds, s') -> ds <> [].
Proof.
  unfold scan. generalize (List.length s) as f. intros f. revert s. induction f as [|f IH]; intros s E; cbn [scan_f] in E;
    destruct (drop_while is_space s) as [|c r]; try discriminate.
  all: destruct (is_letter c); [destruct (ident_run (c :: r)); discriminate|].
  all: destruct (is_digit c) eqn:DC; [unfold scan_number in E; destruct (match c :: r with 48 :: c0 :: _ => member c0 (text "xXoObB") | _ => false end); [discriminate|];
       assert (Q : exists d b, digit_run (c :: r) = (c :: d, b)) by (cbn [digit_run]; rewrite DC; cbn [orb]; destruct (digit_run r); do 2 eexists; reflexivity);
       destruct Q as (d & b & Q); rewrite Q in E; destruct b as [|x q]; [injection E as <- _; discriminate|destruct (member x (text ".eEpP")); [discriminate|injection E as <- _; discriminate]]|].
  all: destruct (member c (text """'`")); [discriminate|].
  all: destruct (c =? 46); [destruct r as [|d r]; [discriminate|destruct (is_digit d); discriminate]|].
  all: destruct (c =? 47); [|discriminate].
  - exfalso. destruct r as [|d r]; [discriminate|]. destruct d as [|q|q]; try discriminate. do 6 (try (destruct q as [q|q|]; try discriminate)).
  - destruct r as [|d r]; [discriminate|]. destruct d as [|q|q]; try discriminate. do 6 (try (destruct q as [q|q|]; try discriminate)); eapply IH; exact E.
Qed.
Lemma parse_int_inv ds bits n : ds <> [] -> parse_int ds bits = Some n -> good_digits ds /\ n = dec_value ds 0 /\ n < 2 ^ (bits - 1).
Proof.
  intros NE E. unfold parse_int in E. destruct (forallb is_digit ds) eqn:F; [|discriminate]. destruct (dec_value ds 0 <? 2 ^ (bits - 1)) eqn:B; [|discriminate]. injection E as <-.
  split; [split; [exact NE|]|split; [reflexivity|apply Z.ltb_lt; exact B]]. rewrite forallb_forall in F. apply Forall_forall. exact F.
Qed.
Lemma parse_argument_inv s a s' : parse_argument s = Some (a, s') -> (len s' < len s)%nat /\ exists x, good_arg x /\ mean_arg x = a.
Proof.
  unfold parse_argument. destruct (scan s) as (tok, s1) eqn:E1. destruct tok as [|id|ds| |c]; try discriminate.
  - intros E. injection E as <- <-. split; [apply (scan_shrinks _ _ _ E1); discriminate|]. exists (Const id). split; [apply (scan_is_ident _ _ _ E1)|reflexivity].
  - destruct (parse_int ds 64) as [n|] eqn:P; [|discriminate]. intros E. injection E as <- <-. split; [apply (scan_shrinks _ _ _ E1); discriminate|].
    destruct (parse_int_inv _ _ _ (scan_is_int _ _ _ E1) P) as (G & -> & B). exists (Lit ds). split; [split; assumption|reflexivity].
  - intros E. destruct (Z.eq_dec c 64) as [-> | N].
    + destruct (scan s1) as (tok2, s2) eqn:E2. destruct tok2 as [|id|ds| |c2]; try discriminate. destruct (parse_int ds 8) as [n|] eqn:P; [|discriminate]. injection E as <- <-.
      destruct (parse_int_inv _ _ _ (scan_is_int _ _ _ E2) P) as (G & -> & B). split.
      * pose proof (scan_shrinks _ _ _ E1 ltac:(discriminate)). pose proof (scan_shrinks _ _ _ E2 ltac:(discriminate)). lia.
      * exists (At ds). split; [split; assumption|]. cbn [mean_arg]. unfold u8. pose proof (dec_value_nonneg ds 0 (proj2 G) ltac:(lia)). change (2 ^ (8 - 1)) with 128 in B.
        rewrite Z.mod_small by lia. reflexivity.
    + exfalso. destruct c as [|p|p]; try discriminate. do 7 (try (destruct p as [p|p|]; try discriminate)). congruence.
Qed.
Lemma parse_head_inv s own hash name s' : parse_head s = Some (own, hash, name, s') -> (len s' < len s)%nat /\ good_own own /\ good_ident name.
Proof.
  assert (N : forall s id s', parse_name s = Some (id, s') -> (len s' < len s)%nat /\ good_ident id).
  { intros s0 id s0' E. unfold parse_name in E. destruct (scan s0) as (tok, s1) eqn:E1. destruct tok; try discriminate. injection E as <- <-.
    split; [apply (scan_shrinks _ _ _ E1); discriminate|apply (scan_is_ident _ _ _ E1)]. }
  unfold parse_head. destruct (scan s) as (tok, s1) eqn:E1. destruct tok as [|id|ds| |c]; try discriminate.
  - intros E. injection E as <- <- <- <-. split; [apply (scan_shrinks _ _ _ E1); discriminate|]. split; [exact I|apply (scan_is_ident _ _ _ E1)].
  - pose proof (scan_shrinks _ _ _ E1 ltac:(discriminate)) as L1. destruct (member c (text "$&*~+-")) eqn:M.
    + destruct (peek_is s1 35).
      * pose proof (scan_snd s1) as L2. destruct (parse_name (snd (scan s1))) as [(id, s2)|] eqn:P; [|discriminate]. intros E. injection E as <- <- <- <-.
        destruct (N _ _ _ P) as (L3 & G). split; [lia|]. split; [apply member_in; exact M|exact G].
      * destruct (parse_name s1) as [(id, s2)|] eqn:P; [|discriminate]. intros E. injection E as <- <- <- <-.
        destruct (N _ _ _ P) as (L3 & G). split; [lia|]. split; [apply member_in; exact M|exact G].
    + destruct (c =? 35); [|discriminate]. destruct (parse_name s1) as [(id, s2)|] eqn:P; [|discriminate]. intros E. injection E as <- <- <- <-.
      destruct (N _ _ _ P) as (L3 & G). split; [lia|]. split; [exact I|exact G].
Qed.
Lemma stars_inv s : forall n r, stars s = (n, r) -> (len r <= len s)%nat /\ (match s with 42 :: _ => n <> O | _ => True end).
Proof.
  induction s as [|c s IH]; intros n r E.
  - cbn in E. injection E as <- <-. split; [lia|exact I].
  - destruct (Z.eq_dec c 42) as [-> | N].
    + cbn in E. destruct (stars s) as (m, q). injection E as <- <-. destruct (IH m q eq_refl) as (L & _). cbn. split; [lia|discriminate].
    + assert (Q : stars (c :: s) = (O, c :: s)).
      { destruct c as [|p|p]; try reflexivity. do 6 (try (destruct p as [p|p|]; try reflexivity)). congruence. }
      rewrite Q in E. injection E as <- <-. split; [lia|]. destruct c as [|p|p]; try exact I. do 6 (try (destruct p as [p|p|]; try exact I)). congruence.
Qed.
Lemma dots_inv s s' : dots s = Some s' -> (len s' <= len s)%nat.
Proof.
  unfold dots. destruct (scan s) as (t1, s1) eqn:E1. pose proof (scan_length _ _ _ E1).
  assert (X : forall (A : Type) t (x : option A) z, match t with TCh 46 => x | _ => None end = Some z -> x = Some z).
  { intros A t x z E. destruct t as [|?|?| |c]; try discriminate. destruct c as [|p|p]; try discriminate. do 6 (try (destruct p as [p|p|]; try discriminate)). exact E. }
  intros E. assert (E' : match t1 with TCh 46 => match scan s1 with (TCh 46, s) => match scan s with (TCh 46, s) => Some s | _ => None end | _ => None end | _ => None end = Some s') by (destruct t1 as [|?|?| |c]; try discriminate; destruct c as [|p|p]; try discriminate; do 6 (try (destruct p as [p|p|]; try discriminate)); exact E).
  apply X in E'. clear E. rename E' into E. destruct (scan s1) as (t2, s2) eqn:E2. pose proof (scan_length _ _ _ E2).
  assert (E' : match t2 with TCh 46 => match scan s2 with (TCh 46, s) => Some s | _ => None end | _ => None end = Some s') by (destruct t2 as [|?|?| |c]; try discriminate; destruct c as [|p|p]; try discriminate; do 6 (try (destruct p as [p|p|]; try discriminate)); exact E).
  apply X in E'. clear E. rename E' into E. destruct (scan s2) as (t3, s3) eqn:E3. pose proof (scan_length _ _ _ E3).
  destruct t3 as [|?|?| |c]; try discriminate. destruct c as [|p|p]; try discriminate. do 6 (try (destruct p as [p|p|]; try discriminate)). injection E as <-. lia.
Qed.
Definition sane_test (t : assertions) (more : bool) : Prop :=
  (t = no_test /\ more = false) \/ exists x, good_assert x /\ t = mean_assert x /\ more = is_dots (s_pre x).
Lemma tail_body_inv cap ind more pre s t m s' : pre <> PStars 0 ->
  cap = match pre with PBracket => true | _ => false end -> ind = match pre with PStars n => Z.of_nat n | _ => 0 end -> more = is_dots pre ->
  tail_body cap ind more s = Some (t, m, s') -> (len s' <= len s)%nat /\ sane_test t m.
Proof.
  intros PS -> -> -> E. unfold tail_body in E.
  assert (X : exists neg s0, (if peek_is s 33 then (true, snd (scan s)) else (false, s)) = (neg, s0) /\ (len s0 <= len s)%nat).
  { destruct (peek_is s 33); do 2 eexists; (split; [reflexivity|]); [apply scan_snd|lia]. }
  destruct X as (neg & s0 & X & L0). rewrite X in E. destruct (scan s0) as (tok, s1) eqn:E1. pose proof (scan_length _ _ _ E1) as L1.
  destruct (parse_argument s1) as [(arg, s2)|] eqn:P; [|discriminate]. destruct (parse_argument_inv _ _ _ P) as (L2 & a & GA & <-).
  destruct tok as [|?|?| |op]; try discriminate.
  match type of E with match ?e with _ => _ end = _ => destruct e as [(t', s3)|] eqn:AO; [|discriminate] end.
  assert (Q : (len s3 <= len s2)%nat /\ exists oreq, good_assert {| s_pre := pre; s_not := neg; s_op := op; s_arg := a; s_oreq := oreq |} /\
     t' = mean_assert {| s_pre := pre; s_not := neg; s_op := op; s_arg := a; s_oreq := oreq |}).
  { assert (GG : forall o oreq, In o (text "><=:~^?") -> (oreq = true -> o = 62 \/ o = 60) -> good_assert {| s_pre := pre; s_not := neg; s_op := o; s_arg := a; s_oreq := oreq |})
      by (intros o oreq IO IQ; split; [exact IO|split; [exact GA|split; [exact PS|exact IQ]]]).
    unfold apply_op in AO. cbn [a_capacity a_inverted a_indirect] in AO. pose proof (scan_snd s2) as LS.
    destruct (op =? 62) eqn:O1; [apply Z.eqb_eq in O1; subst op; destruct (peek_is s2 61); injection AO as <- <-; (split; [lia|]); [exists true|exists false];
      (split; [apply GG; [vm_compute; tauto|intuition discriminate]|reflexivity])|].
    destruct (op =? 60) eqn:O2; [apply Z.eqb_eq in O2; subst op; destruct (peek_is s2 61); injection AO as <- <-; (split; [lia|]); [exists true|exists false];
      (split; [apply GG; [vm_compute; tauto|intuition discriminate]|reflexivity])|].
    destruct (op =? 61) eqn:O3; [apply Z.eqb_eq in O3; subst op; injection AO as <- <-; split; [lia|]; exists false; (split; [apply GG; [vm_compute; tauto|discriminate]|reflexivity])|].
    destruct (op =? 58) eqn:O4; [apply Z.eqb_eq in O4; subst op; injection AO as <- <-; split; [lia|]; exists false; (split; [apply GG; [vm_compute; tauto|discriminate]|reflexivity])|].
    destruct (op =? 126) eqn:O5; [apply Z.eqb_eq in O5; subst op; injection AO as <- <-; split; [lia|]; exists false; (split; [apply GG; [vm_compute; tauto|discriminate]|reflexivity])|].
    destruct (op =? 94) eqn:O6; [apply Z.eqb_eq in O6; subst op; injection AO as <- <-; split; [lia|]; exists false; (split; [apply GG; [vm_compute; tauto|discriminate]|reflexivity])|].
    destruct (op =? 63) eqn:O7; [apply Z.eqb_eq in O7; subst op; injection AO as <- <-; split; [lia|]; exists false; (split; [apply GG; [vm_compute; tauto|discriminate]|reflexivity])|].
    discriminate. }
  destruct Q as (L3 & oreq & GQ & ->).
  assert (R : m = is_dots pre /\ t = mean_assert {| s_pre := pre; s_not := neg; s_op := op; s_arg := a; s_oreq := oreq |} /\ (len s' <= len s3)%nat).
  { destruct pre; try (injection E as <- <- <-; split; [reflexivity|split; [reflexivity|lia]]).
    destruct (scan s3) as (t4, s4) eqn:E4. pose proof (scan_length _ _ _ E4). destruct t4 as [|?|?| |c]; try discriminate.
    destruct c as [|p|p]; try discriminate. do 7 (try (destruct p as [p|p|]; try discriminate)). injection E as <- <- <-. split; [reflexivity|split; [reflexivity|lia]]. }
  destruct R as (-> & -> & L4). split; [lia|]. right. eexists. split; [exact GQ|]. split; reflexivity.
Qed.
Lemma parse_tail_inv s t m s' : parse_tail s = Some (t, m, s') -> (len s' <= len s)%nat /\ sane_test t m.
Proof.
  intros E. unfold parse_tail in E. destruct (ends_type s) eqn:ET; [injection E as <- <- <-; split; [lia|left; split; reflexivity]|].
  destruct s as [|c s]; [discriminate|].
  destruct (Z.eq_dec c 91) as [-> | N1].
  { pose proof (scan_snd (91 :: s)). change (tail_body true 0 false (snd (scan (91 :: s))) = Some (t, m, s')) in E.
    destruct (tail_body_inv _ _ _ PBracket _ _ _ _ ltac:(discriminate) eq_refl eq_refl eq_refl E). split; [lia|assumption]. }
  destruct (Z.eq_dec c 42) as [-> | N2].
  { destruct (stars (42 :: s)) as (n, r) eqn:ES. destruct (stars_inv _ _ _ ES) as (L & NZ). change (tail_body false (Z.of_nat n) false r = Some (t, m, s')) in E.
    destruct (tail_body_inv _ _ _ (PStars n) _ _ _ _ ltac:(congruence) eq_refl eq_refl eq_refl E). split; [lia|assumption]. }
  destruct (Z.eq_dec c 46) as [-> | N3].
  { destruct (dots (46 :: s)) as [r|] eqn:ED; [|discriminate]. pose proof (dots_inv _ _ ED). change (tail_body false 0 true r = Some (t, m, s')) in E.
    destruct (tail_body_inv _ _ _ PDots _ _ _ _ ltac:(discriminate) eq_refl eq_refl eq_refl E). split; [lia|assumption]. }
  assert (Q : tail_body false 0 false (c :: s) = Some (t, m, s')).
  { rewrite <- E. unfold tail_body. destruct c as [|p|p]; try reflexivity. do 7 (try (destruct p as [p|p|]; try reflexivity)); congruence. }
  destruct (tail_body_inv _ _ _ PNone _ _ _ _ ltac:(discriminate) eq_refl eq_refl eq_refl Q). split; assumption.
Qed.
Lemma call_args_cases f s : call_args (S f) s =
  match s with
  | [] => None
  | c :: r => if c =? 41 then Some ([], r) else
      match parse_argument s with
      | None => None
      | Some (a, s) =>
          match s with
          | [] => None
          | d :: r => if d =? 44 then match call_args f r with Some (l, s) => Some (a :: l, s) | None => None end
                      else if d =? 41 then match call_args f s with Some (l, s) => Some (a :: l, s) | None => None end else None
          end
      end
  end.
Proof.
  destruct s as [|c s]; [reflexivity|]. destruct (c =? 41) eqn:E; [apply Z.eqb_eq in E; subst; reflexivity|].
  rewrite call_args_step by (apply Z.eqb_neq; exact E). destruct (parse_argument (c :: s)) as [(a, [|d r])|]; try reflexivity.
  destruct d as [|p|p]; try reflexivity. do 6 (try (destruct p as [p|p|]; try reflexivity)).
Qed.
Lemma parse_args_cases f s seen : parse_args (S f) s seen =
  match s with
  | [] => None
  | c :: r => if c =? 41 then Some ([], r) else
      match parse_type f s with
      | None => None
      | Some (t, s) =>
          match s with
          | [] => None
          | d :: r => if d =? 44 then match parse_args f r (seen + 1) with Some (l, s) => Some (with_maps t (seen + 1) :: l, s) | None => None end
                      else if d =? 41 then match parse_args f s (seen + 1) with Some (l, s) => Some (with_maps t (seen + 1) :: l, s) | None => None end else None
          end
      end
  end.
Proof.
  destruct s as [|c s]; [reflexivity|]. destruct (c =? 41) eqn:E; [apply Z.eqb_eq in E; subst; reflexivity|].
  rewrite parse_args_step by (apply Z.eqb_neq; exact E). destruct (parse_type f (c :: s)) as [(a, [|d r])|]; try reflexivity.
  destruct d as [|p|p]; try reflexivity. do 6 (try (destruct p as [p|p|]; try reflexivity)).
Qed.
Lemma call_args_inv f : forall s l s', call_args f s = Some (l, s') -> (len s' < len s)%nat /\ exists xs, Forall good_arg xs /\ map mean_arg xs = l.
Proof.
  induction f as [|f IH]; intros s l s' E; [discriminate|]. rewrite call_args_cases in E. destruct s as [|c s]; [discriminate|].
  destruct (c =? 41); [injection E as <- <-; split; [cbn; lia|exists []; split; [constructor|reflexivity]]|].
  destruct (parse_argument (c :: s)) as [(a, [|d r])|] eqn:P; try discriminate. destruct (parse_argument_inv _ _ _ P) as (L & x & G & <-).
  destruct (d =? 44).
  - destruct (call_args f r) as [(l', s1)|] eqn:C; [|discriminate]. injection E as <- <-. destruct (IH _ _ _ C) as (L2 & xs & F & <-). cbn [List.length] in *. split; [lia|].
    exists (x :: xs). split; [constructor; assumption|reflexivity].
  - destruct (d =? 41); [|discriminate]. destruct (call_args f (d :: r)) as [(l', s1)|] eqn:C; [|discriminate]. injection E as <- <-.
    destruct (IH _ _ _ C) as (L2 & xs & F & <-). cbn [List.length] in *. split; [lia|]. exists (x :: xs). split; [constructor; assumption|reflexivity].
Qed.
Definition sane_call (c : bytes * list argument) : Prop :=
  c = ([], []) \/ exists id xs, good_ident id /\ Forall good_arg xs /\ c = (id, map mean_arg xs).
Lemma parse_call_inv s c s' : parse_call s = Some (c, s') -> (len s' <= len s)%nat /\ sane_call c.
Proof.
  intros E. unfold parse_call in E. destruct (peek_is s 59); [|injection E as <- <-; split; [lia|left; reflexivity]].
  pose proof (scan_snd s) as L0. destruct (scan (snd (scan s))) as (tok, s1) eqn:E1. destruct tok as [|id|?| |?]; try discriminate. pose proof (scan_length _ _ _ E1).
  destruct (scan s1) as (tok2, s2) eqn:E2. pose proof (scan_length _ _ _ E2). destruct tok2 as [|?|?| |c2]; try discriminate.
  destruct (Z.eq_dec c2 40) as [-> | N].
  - destruct (call_args (S (List.length s2)) s2) as [(l, s3)|] eqn:C; [|discriminate]. injection E as <- <-. destruct (call_args_inv _ _ _ _ C) as (L & xs & F & <-).
    split; [lia|]. right. exists id, xs. split; [apply (scan_is_ident _ _ _ E1)|]. split; [exact F|reflexivity].
  - exfalso. destruct c2 as [|p|p]; try discriminate. do 6 (try (destruct p as [p|p|]; try discriminate)). congruence.
Qed.
Definition maps_of (t : ctype) : Z := match t with CType _ _ _ _ _ _ _ _ m => m end.
Inductive sane : ctype -> Prop :=
| sane_intro name func args hash free test call more maps :
    good_ident name -> good_own free -> sane_test test more -> sane_call call ->
    (name <> text "func" -> func = None /\ args = [] /\ call = ([], [])) ->
    (forall t, func = Some t -> sane t) -> (forall t, In t args -> sane t) ->
    map maps_of args = map (fun i => Z.of_nat i + 1) (seq 0 (List.length args)) ->
    sane (CType name func args hash free test call more maps).
Lemma sane_maps t m : sane t -> sane (with_maps t m).
Proof. intros S0. destruct S0. cbn. constructor; assumption. Qed.
Lemma parse_inv f :
  (forall s t s', parse_type f s = Some (t, s') -> (len s' < len s)%nat /\ sane t) /\
  (forall s seen l s', parse_args f s seen = Some (l, s') -> (len s' < len s)%nat /\ (forall t, In t l -> sane t) /\ map maps_of l = map (fun i => seen + Z.of_nat i + 1) (seq 0 (List.length l))).
Proof.
  induction f as [|f (IHt & IHa)]; [split; discriminate|]. split.
  - intros s t s' E. cbn [parse_type] in E. destruct (parse_head s) as [(((free, hash), name), s1)|] eqn:H; [|discriminate].
    destruct (parse_head_inv _ _ _ _ _ H) as (L1 & GO & GN). destruct (beq name (text "func")) eqn:B.
    + apply beq_true in B. destruct (scan s1) as (tok, s2) eqn:E2. pose proof (scan_length _ _ _ E2) as L2. destruct tok as [|?|?| |c]; try discriminate.
      destruct (Z.eq_dec c 40) as [-> | N]; [|exfalso; destruct c as [|p|p]; try discriminate; do 6 (try (destruct p as [p|p|]; try discriminate)); congruence].
      destruct (parse_args f s2 0) as [(args, s3)|] eqn:EA; [|discriminate]. destruct (IHa _ _ _ _ EA) as (L3 & SA & MA).
      assert (R : exists ret s4, (if ends_type s3 then Some (None, s3) else match parse_type f s3 with Some (t, s) => Some (Some t, s) | None => None end) = Some (ret, s4) /\
          (len s4 <= len s3)%nat /\ (forall t, ret = Some t -> sane t)).
      { destruct (ends_type s3); [do 2 eexists; split; [reflexivity|split; [lia|discriminate]]|].
        destruct (parse_type f s3) as [(t0, s4)|] eqn:ET; [|discriminate]. destruct (IHt _ _ _ ET) as (L & S0). do 2 eexists. split; [reflexivity|]. split; [lia|].
        intros t1 Q. injection Q as <-. exact S0. }
      destruct R as (ret & s4 & R & L4 & SR). rewrite R in E. destruct (parse_call s4) as [(call, s5)|] eqn:EC; [|discriminate]. destruct (parse_call_inv _ _ _ EC) as (L5 & SC).
      destruct (parse_tail s5) as [((test, more), s6)|] eqn:ET; [|discriminate]. destruct (parse_tail_inv _ _ _ _ ET) as (L6 & ST). injection E as <- <-. split; [lia|].
      constructor; try assumption. intros N. contradiction.
    + destruct (parse_tail s1) as [((test, more), s6)|] eqn:ET; [|discriminate]. destruct (parse_tail_inv _ _ _ _ ET) as (L6 & ST). injection E as <- <-. split; [lia|].
      constructor; try assumption; try discriminate; try contradiction; try reflexivity. * left; reflexivity. * intros _. split; [reflexivity|split; reflexivity].
  - intros s seen l s' E. rewrite parse_args_cases in E. destruct s as [|c s]; [discriminate|].
    destruct (c =? 41); [injection E as <- <-; cbn; split; [lia|split; [contradiction|reflexivity]]|].
    destruct (parse_type f (c :: s)) as [(t, [|d r])|] eqn:ET; try discriminate. destruct (IHt _ _ _ ET) as (L1 & ST).
    assert (X : exists rest l' , parse_args f rest (seen + 1) = Some (l', s') /\ (len rest <= len (d :: r))%nat /\ l = with_maps t (seen + 1) :: l').
    { destruct (d =? 44).
      - destruct (parse_args f r (seen + 1)) as [(l', s1)|] eqn:EA; [|discriminate]. injection E as <- <-. exists r, l'. cbn. split; [exact EA|split; [lia|reflexivity]].
      - destruct (d =? 41); [|discriminate]. destruct (parse_args f (d :: r) (seen + 1)) as [(l', s1)|] eqn:EA; [|discriminate]. injection E as <- <-. exists (d :: r), l'. split; [exact EA|split; [lia|reflexivity]]. }
    destruct X as (rest & l' & EA & LR & ->). destruct (IHa _ _ _ _ EA) as (L2 & SL & ML). split; [lia|]. split.
    + intros x [<- | I]; [apply sane_maps; exact ST|apply SL; exact I].
    + cbn [map List.length seq]. rewrite ML. rewrite <- seq_shift, map_map. f_equal.
      * destruct t; cbn. lia.
      * apply map_ext. intros i. lia.
Qed.

(** ** C119: what is accepted *)
(** Every type ParseTag gives has names that are identifiers, ownerships of the six, the arguments of a
    function numbered 1, 2, ... for the Go arguments they are taken from, and assertions and failure
    handlers that are the meaning of an assertion and of arguments of the language. *)
Theorem C119_accepted tag symbols t : parse_tag tag = Some (symbols, t) ->
  exists names rest, tag = names ++ 32 :: rest /\ ~ In 32 names /\ symbols = split names 44 /\ sane t.
Proof.
  intros E. unfold parse_tag in E. destruct (cut tag 32) as ((names, rest), found) eqn:C. destruct found; [|discriminate].
  destruct (parse_type (S (S (List.length rest + List.length rest))) rest) as [(t', s')|] eqn:P; [|discriminate]. injection E as <- <-.
  exists names, rest. assert (X : tag = names ++ 32 :: rest /\ ~ In 32 names).
  { clear P. revert names rest C. induction tag as [|c tag IH]; intros names rest C; cbn in C; [discriminate|]. destruct (c =? 32) eqn:Q.
    - apply Z.eqb_eq in Q. subst c. injection C as <- <-. split; [reflexivity|intros []].
    - destruct (cut tag 32) as ((a, b), ok). injection C as <- <- ->. destruct (IH a b eq_refl) as (-> & N). split; [reflexivity|]. intros [I|I]; [apply Z.eqb_neq in Q; congruence|contradiction]. }
  split; [apply X|]. split; [apply X|]. split; [reflexivity|]. destruct (parse_inv (S (S (List.length rest + List.length rest)))) as (I & _). apply (I _ _ _ P).
Qed.
(** The parser ends on every input: from some fuel on the answer no longer depends on it. *)
Lemma call_args_fuel f : forall g s, (len s < f)%nat -> (len s < g)%nat -> call_args f s = call_args g s.
Proof.
  induction f as [|f IH]; intros g s L1 L2; [lia|]. destruct g as [|g]; [lia|]. rewrite !call_args_cases. destruct s as [|c s]; [reflexivity|].
  destruct (c =? 41); [reflexivity|]. destruct (parse_argument (c :: s)) as [(a, [|d r])|] eqn:P; try reflexivity. destruct (parse_argument_inv _ _ _ P) as (L & _).
  cbn [List.length] in *. rewrite (IH g r) by lia. rewrite (IH g (d :: r)) by (cbn [List.length]; lia). reflexivity.
Qed.
Lemma parse_fuel f :
  (forall g s, (fuel_for s <= f)%nat -> (fuel_for s <= g)%nat -> parse_type f s = parse_type g s) /\
  (forall g s seen, (fuel_for s < f)%nat -> (fuel_for s < g)%nat -> parse_args f s seen = parse_args g s seen).
Proof.
  induction f as [|f (IHt & IHa)]; [split; intros; unfold fuel_for in *; lia|]. split.
  - intros g s L1 L2. destruct g as [|g]; [unfold fuel_for in *; lia|]. cbn [parse_type]. destruct (parse_head s) as [(((free, hash), name), s1)|] eqn:H; [|reflexivity].
    destruct (parse_head_inv _ _ _ _ _ H) as (L3 & _). destruct (beq name (text "func")); [|reflexivity].
    destruct (scan s1) as (tok, s2) eqn:E2. destruct tok as [|?|?| |c]; try reflexivity. pose proof (scan_shrinks _ _ _ E2 ltac:(discriminate)) as L4.
    assert (A : parse_args f s2 0 = parse_args g s2 0) by (apply IHa; unfold fuel_for in *; lia). rewrite A.
    destruct (parse_args g s2 0) as [(args, s3)|] eqn:EA; [|reflexivity]. destruct (parse_inv g) as (_ & PI). destruct (PI _ _ _ _ EA) as (L5 & _).
    rewrite (IHt g s3) by (unfold fuel_for in *; lia). reflexivity.
  - intros g s seen L1 L2. destruct g as [|g]; [lia|]. rewrite !parse_args_cases. destruct s as [|c s]; [reflexivity|]. destruct (c =? 41); [reflexivity|].
    rewrite (IHt g (c :: s)) by lia. destruct (parse_type g (c :: s)) as [(t, [|d r])|] eqn:ET; try reflexivity. destruct (parse_inv g) as (PI & _). destruct (PI _ _ _ ET) as (L3 & _).
    unfold fuel_for in *. cbn [List.length] in *. rewrite (IHa g r) by lia. rewrite (IHa g (d :: r)) by (cbn [List.length]; lia). reflexivity.
Qed.
Theorem C119_total s f : (fuel_for s <= f)%nat -> parse_type f s = parse_type (fuel_for s) s.
Proof. intros L. apply (parse_fuel f); [exact L|lia]. Qed.
(** A zero index is the literal 0, references to arguments that are not there are accepted, and so is
    anything after a complete type. *)
Theorem C119_index_zero_refuted : parse_tag (text "f func(int)int=@0") = parse_tag (text "f func(int)int=0") /\ parse_tag (text "f func(int)int=0") <> None.
Proof. split; [reflexivity|discriminate]. Qed.
Theorem C119_dangling_refuted ds : good_digits ds -> dec_value ds 0 < 128 ->
  exists test, parse_tag (text "f func(int)int=@" ++ ds) =
    Some ([text "f"], CType (text "func") (Some (CType (text "int") None [] false None test ([], []) false 0)) [CType (text "int") None [] false None no_test ([], []) false 1] false None no_test ([], []) false 0) /\
    a_equality test = {| g_check := true; g_index := dec_value ds 0; g_const := []; g_value := 0 |}.
Proof.
  intros G B. set (x := {| s_pre := PNone; s_not := false; s_op := 61; s_arg := At ds; s_oreq := false |}).
  assert (GI : good_ident (text "int")) by (cbn; repeat constructor; left; reflexivity).
  assert (GX : good_assert x) by (split; [vm_compute; tauto|split; [split; assumption|split; discriminate]]).
  pose proof (C118_grammar_partial [text "f"] (SFunc None false [SName None false (text "int") None] (Some (SName None false (text "int") (Some x))) None) ltac:(discriminate)) as P.
  exists (mean_assert x). split; [|reflexivity].
  assert (SH : join [text "f"] 44 ++ [32] ++ show (SFunc None false [SName None false (text "int") None] (Some (SName None false (text "int") (Some x))) None) = text "f func(int)int=@" ++ ds).
  { cbn [show show_own show_call show_assert show_pre x s_pre s_not s_op s_arg show_arg s_oreq close_pre app]. rewrite !app_nil_r. reflexivity. }
  rewrite SH in P. rewrite P; [reflexivity| |].
  - repeat constructor; vm_compute; intuition discriminate.
  - cbn [good]. split; [exact I|]. split; [split; [split; [exact I|split; [exact GI|split; [discriminate|exact I]]]|exact I]|]. split; [split; [exact I|split; [exact GI|split; [discriminate|exact GX]]]|exact I].
Qed.
Theorem C119_trailing_refuted sym name ds junk : ~ In 32 sym -> good_ident name -> name <> text "func" -> good_digits ds -> dec_value ds 0 < 2 ^ 63 ->
  exists t, parse_tag (sym ++ 32 :: name ++ [61] ++ ds ++ 33 :: junk) = Some (split sym 44, t) /\ parse_tag (sym ++ 32 :: name ++ [61] ++ ds) = Some (split sym 44, t).
Proof.
  intros S0 G N D B. set (x := {| s_pre := PNone; s_not := false; s_op := 61; s_arg := Lit ds; s_oreq := false |}).
  assert (GX : good_assert x) by (split; [vm_compute; tauto|split; [split; assumption|split; discriminate]]).
  exists (mean (SName None false name (Some x))).
  assert (K : forall r, stops r -> forall f, parse_type (S f) (name ++ [61] ++ ds ++ r) = Some (mean (SName None false name (Some x)), r)).
  { intros r E f. cbn [parse_type]. pose proof (parse_head_ok None false name ([61] ++ ds ++ r) I G ltac:(split; reflexivity)) as H. cbn [show_own] in H. rewrite app_nil_l in H. rewrite H.
    rewrite beq_false by exact N.
    assert (T : parse_tail ([61] ++ ds ++ r) = Some (mean_assert x, false, r)).
    { cbn [app]. change (tail_body false 0 false (61 :: ds ++ r) = Some (mean_assert x, false, r)). unfold tail_body. cbn [peek_is Z.eqb Pos.eqb].
      rewrite scan_char by is_plain. pose proof (parse_argument_ok (Lit ds) r (conj D B) E) as PA. cbn [show_arg] in PA. rewrite PA. reflexivity. }
    rewrite T. reflexivity. }
  unfold parse_tag. rewrite !cut_app by exact S0. split.
  - rewrite K by (repeat split; try reflexivity; discriminate). reflexivity.
  - pose proof (K [] I) as K0. rewrite app_nil_r in K0. rewrite K0. reflexivity.
Qed.
Print Assumptions C119_accepted.
Print Assumptions C119_total.
Print Assumptions C119_dangling_refuted.
Print Assumptions C119_trailing_refuted.
