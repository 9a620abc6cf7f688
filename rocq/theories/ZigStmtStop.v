(** * zgo: stopping a Go program at its first overflow only stops it. *)
From Coq Require Import ZArith List Bool Lia.
From Verif Require Import ZigModel ZigParse ZigExpr ZigStmtModel ZigStmtParse ZigStmtFuel ZigStmt.
Import ListNotations.
Open Scope Z_scope.

(** what [r] has printed, if it is the outcome of a run *)
Definition printed (r : xres) : option (list (list pval)) :=
  match r with XOk _ st | XTrap st | XTime st => Some (st_out st) | XRefused => None end.
(** [r] has printed at least what had been printed in [st] *)
Definition grows (st : state) (r : xres) : Prop :=
  forall out, printed r = Some out -> exists more, out = st_out st ++ more.

Lemma grows_refl : forall st r, printed r = Some (st_out st) \/ printed r = None -> grows st r.
Proof.
  intros st r [H | H] out E; [| congruence]. exists []. rewrite app_nil_r. congruence.
Qed.
Lemma grows_bind : forall st r f, grows st r -> (forall st', grows st' (f st')) -> grows st (xbind r f).
Proof.
  intros st r f G F. destruct r as [[] st'| | |]; try exact G. cbn [xbind]. intros out E.
  destruct (G _ eq_refl) as [m1 E1]. destruct (F st' out E) as [m2 E2].
  exists (m1 ++ m2). rewrite E2, E1, app_assoc. reflexivity.
Qed.
Lemma grows_val : forall A st (r : res A) f, (forall v, grows st (f v)) -> grows st (with_val r st f).
Proof.
  intros A st [v| |] f F; cbn [with_val]; [apply F | |]; apply grows_refl; cbn; auto.
Qed.
Lemma grows_trans : forall st st' r, grows st (XOk ONorm st') -> grows st' r -> grows st r.
Proof.
  intros st st' r A B out E. destruct (A _ eq_refl) as [m1 E1]. destruct (B _ E) as [m2 E2].
  exists (m1 ++ m2). rewrite E2, E1, app_assoc. reflexivity.
Qed.
Lemma grows_out : forall st st' o, grows st (XOk o st') -> grows st (XOk ONorm st').
Proof. intros st st' o H. exact H. Qed.

Lemma grows_loop : forall lab c p b, (forall st, grows st (p st)) -> (forall st, grows st (b st)) ->
  forall k st, grows st (loop k lab c p b st).
Proof.
  intros lab c p b P B. induction k as [|k IH]; intros st; cbn [loop]; [apply grows_refl; left; reflexivity |].
  apply grows_val. intros v. destruct v; [| apply grows_refl; left; reflexivity].
  pose proof (B st) as G. destruct (b st) as [o st'| | |]; try exact G.
  assert (N : grows st (xbind (p st') (loop k lab c p b))).
  { apply (grows_trans st st'); [exact G |]. apply grows_bind; [apply P | exact IH]. }
  destruct o as [|[l|]|[l|]|vs]; try exact N; try exact G; destruct (lab_eqb lab l); try exact N; exact G.
Qed.
Lemma grows_count : forall lab b, (forall i st, grows st (b i st)) ->
  forall k i st, grows st (count k lab i b st).
Proof.
  intros lab b B. induction k as [|k IH]; intros i st; cbn [count]; [apply grows_refl; left; reflexivity |].
  pose proof (B i st) as G. destruct (b i st) as [o st'| | |]; try exact G.
  assert (N : grows st (count k lab (i + 1) b st')) by (apply (grows_trans st st'); [exact G | apply IH]).
  destruct o as [|[l|]|[l|]|vs]; try exact N; try exact G; destruct (lab_eqb lab l); try exact N; exact G.
Qed.
Lemma grows_assign : forall st x v, grows st (assign st x v).
Proof.
  intros st x v. unfold assign. destruct (st_env st x); [| apply grows_refl; right; reflexivity].
  apply grows_val. intros w. apply grows_refl. left. reflexivity.
Qed.
Lemma grows_assigns : forall xs st vs, grows st (assign_all st xs vs).
Proof.
  induction xs as [|x xs IH]; intros st [|v vs]; cbn [assign_all]; try (apply grows_refl; cbn; auto; fail).
  apply grows_bind; [apply grows_assign |]. intros st'. apply IH.
Qed.
Lemma grows_defines : forall xs st vs, grows st (define_all st xs vs).
Proof.
  induction xs as [|[x t] xs IH]; intros st [|v vs]; cbn [define_all]; try (apply grows_refl; cbn; auto; fail).
  apply grows_val. intros w. exact (IH (set st x w) vs).
Qed.
Lemma grows_leave : forall st r, grows st r -> grows st (leave_switch r).
Proof. intros st r G. destruct r as [[|[]| |] st'| | |]; exact G. Qed.
Lemma grows_ret : forall st o st', st_out st' = st_out st -> grows st (XOk o st').
Proof. intros st o st' E. apply grows_refl. left. cbn. rewrite E. reflexivity. Qed.

Section Grows.
  Variable pol : policy.
  Variable n : nat.
  Lemma all_grows : (forall s st, grows st (g_stmt pol n s st)) /\
    (forall l st, grows st (g_list pol n l st)) /\
    (forall c, (forall tag none st, (forall st, grows st (none st)) -> grows st (g_match pol n tag c none st)) /\
               (forall st, grows st (g_default pol n c st)) /\ (forall st, grows st (g_from pol n c st))).
  Proof.
    apply g_mutind.
    - intros es st. cbn [g_stmt]. apply grows_val. intros vs. apply grows_val. intros ps out E.
      injection E as <-. exists [ps]. reflexivity.
    - intros xs o es st. cbn [g_stmt]. destruct o as [o|]; [| apply grows_val; intros vs; apply grows_assigns].
      destruct xs as [|x [|]]; try (apply grows_refl; cbn; auto; fail).
      destruct es as [|e [|]]; try (apply grows_refl; cbn; auto; fail).
      apply grows_val. intros v. apply grows_assign.
    - intros xs es st. cbn [g_stmt]. apply grows_val. intros vs. apply grows_defines.
    - intros x st. cbn [g_stmt]. apply grows_val. intros v. apply grows_assign.
    - intros x st. cbn [g_stmt]. apply grows_val. intros v. apply grows_assign.
    - intros l IH st. apply IH.
    - intros init IHi c body IHb els IHe st. rewrite g_if_eq. apply grows_bind; [apply IHi |].
      intros st'. apply grows_val. intros [|]; [apply IHb | apply IHe].
    - intros lab init IHi c post IHp body IHb st. rewrite g_for_eq. apply grows_bind; [apply IHi |].
      intros st'. apply grows_loop; assumption.
    - intros lab key k x body IHb st. rewrite g_range_eq. apply grows_val. intros z.
      apply grows_count. intros i st'. destruct key as [y|]; [| apply IHb].
      exact (IHb (set st' y (VInt k i))).
    - intros init IHi tag cls IHc st. destruct IHc as (M & D & _). rewrite g_switch_eq.
      apply grows_bind; [apply IHi |]. intros st'. apply grows_val. intros v.
      apply grows_leave, M. exact D.
    - intros lab st. apply grows_ret. reflexivity.
    - intros lab st. apply grows_ret. reflexivity.
    - intros es st. cbn [g_stmt]. apply grows_val. intros vs. apply grows_ret. reflexivity.
    - intros st. apply grows_ret. reflexivity.
    - intros s IHs l IHl st. rewrite g_cons_eq. apply grows_bind; [apply IHs | exact IHl].
    - split; [intros tag none st H; apply H |]. split; intros st; apply grows_refl; cbn; auto.
    - intros es body IHb falls rest (M & D & F).
      assert (B : forall st, grows st (xbind (g_list pol n body st) (fun st => if falls then g_from pol n rest st else XOk ONorm st))).
      { intros st. apply grows_bind; [apply IHb |]. intros st'. destruct falls; [apply F | apply grows_ret; reflexivity]. }
      split; [| split].
      + intros tag none st H. rewrite g_match_eq. apply grows_val. intros [|]; [apply B | apply M, H].
      + intros st. destruct es as [|e es]; [rewrite g_default_eq; apply B | rewrite g_default_skip; apply D].
      + intros st. rewrite g_from_eq. apply B.
  Qed.
End Grows.

(** [t] is [w], or it stopped and [w] went on *)
Definition stopx (t w : xres) : Prop := t = w \/ exists st, t = XTrap st /\ grows st w.
Lemma stopx_refl : forall r, stopx r r.
Proof. intros r; left; reflexivity. Qed.
Lemma stopx_bind : forall t w f h, stopx t w -> (forall st, stopx (f st) (h st)) ->
  (forall st, grows st (h st)) -> stopx (xbind t f) (xbind w h).
Proof.
  intros t w f h [-> | (st & -> & G)] F H.
  - destruct w as [[] st| | |]; try apply stopx_refl. apply F.
  - right. exists st. split; [reflexivity | apply grows_bind; assumption].
Qed.
Lemma stopx_val : forall A st (t w : res A) f h, stops t w -> (forall v, stopx (f v) (h v)) ->
  (forall v, grows st (h v)) -> stopx (with_val t st f) (with_val w st h).
Proof.
  intros A st t w f h [-> | ->] F H.
  - right. exists st. split; [reflexivity | apply grows_val; exact H].
  - destruct w; [apply F | |]; apply stopx_refl.
Qed.
Lemma stopx_same : forall A st (t w : res A) h, stops t w -> (forall v, grows st (h v)) ->
  stopx (with_val t st h) (with_val w st h).
Proof. intros A st t w h S H. apply stopx_val; [exact S | intros; apply stopx_refl | exact H]. Qed.

Lemma stopx_loop : forall lab tc wc tp wp tb wb,
  (forall st, stops (tc st) (wc st)) -> (forall st, stopx (tp st) (wp st)) -> (forall st, stopx (tb st) (wb st)) ->
  (forall st, grows st (wp st)) -> (forall st, grows st (wb st)) ->
  forall k st, stopx (loop k lab tc tp tb st) (loop k lab wc wp wb st).
Proof.
  intros lab tc wc tp wp tb wb C P B GP GB. induction k as [|k IH]; intros st; [apply stopx_refl |].
  cbn [loop]. apply stopx_val; [apply C | |].
  - intros v. destruct v; [| apply stopx_refl].
    destruct (B st) as [-> | (s & -> & G)].
    + destruct (wb st) as [o st'| | |]; try apply stopx_refl.
      assert (N : stopx (xbind (tp st') (loop k lab tc tp tb)) (xbind (wp st') (loop k lab wc wp wb))).
      { apply stopx_bind; [apply P | exact IH | intros; apply grows_loop; assumption]. }
      destruct o as [|[l|]|[l|]|vs]; try exact N; try apply stopx_refl;
        destruct (lab_eqb lab l); try exact N; apply stopx_refl.
    + right. exists s. split; [reflexivity |].
      destruct (wb st) as [o st'| | |]; try exact G.
      assert (N : grows s (xbind (wp st') (loop k lab wc wp wb))).
      { apply (grows_trans s st'); [exact G |]. apply grows_bind; [apply GP | intros; apply grows_loop; assumption]. }
      destruct o as [|[l|]|[l|]|vs]; try exact N; try exact G; destruct (lab_eqb lab l); try exact N; exact G.
  - intros v. destruct v; [| apply grows_ret; reflexivity].
    pose proof (grows_loop lab (fun _ => Val true) wp wb GP GB (S k) st) as G. cbn [loop with_val] in G.
    pose proof (GB st) as G1. destruct (wb st) as [o st'| | |]; try exact G1.
    assert (N : grows st (xbind (wp st') (loop k lab wc wp wb))).
    { apply (grows_trans st st'); [exact G1 |]. apply grows_bind; [apply GP | intros; apply grows_loop; assumption]. }
    destruct o as [|[l|]|[l|]|vs]; try exact N; try exact G1; destruct (lab_eqb lab l); try exact N; exact G1.
Qed.
Lemma stopx_count : forall lab tb wb, (forall i st, stopx (tb i st) (wb i st)) -> (forall i st, grows st (wb i st)) ->
  forall k i st, stopx (count k lab i tb st) (count k lab i wb st).
Proof.
  intros lab tb wb B GB. induction k as [|k IH]; intros i st; [apply stopx_refl |]. cbn [count].
  destruct (B i st) as [-> | (s & -> & G)].
  - destruct (wb i st) as [o st'| | |]; try apply stopx_refl.
    destruct o as [|[l|]|[l|]|vs]; try apply IH; try apply stopx_refl;
      destruct (lab_eqb lab l); try apply IH; apply stopx_refl.
  - right. exists s. split; [reflexivity |].
    destruct (wb i st) as [o st'| | |]; try exact G.
    assert (N : grows s (count k lab (i + 1) wb st')) by (apply (grows_trans s st'); [exact G | apply grows_count; exact GB]).
    destruct o as [|[l|]|[l|]|vs]; try exact N; try exact G; destruct (lab_eqb lab l); try exact N; exact G.
Qed.

Lemma ge_stops : forall st e, stops (ge trapping st e) (ge wrapping st e).
Proof. intros. apply go_eval_stop. Qed.
Lemma eval_all_stops : forall st es, stops (eval_all (ge trapping st) es) (eval_all (ge wrapping st) es).
Proof.
  intros st es. induction es as [|e es IH]; [apply stops_refl |]. cbn [eval_all].
  apply stops_bind; [apply ge_stops |]. intros v. apply stops_bind; [exact IH | intros; apply stops_refl].
Qed.
Lemma as_bool_stops : forall st e, stops (as_bool (ge trapping st e)) (as_bool (ge wrapping st e)).
Proof. intros st e. apply stops_bind; [apply ge_stops | intros; apply stops_refl]. Qed.
Lemma case_hit_stops : forall st tag es, stops (case_hit trapping st tag es) (case_hit wrapping st tag es).
Proof.
  intros st tag es. induction es as [|e es IH]; [apply stops_refl |]. cbn [case_hit].
  apply stops_bind; [apply ge_stops |]. intros v. apply stops_bind; [apply go_bin_stop |].
  intros [| |[]| | | | | |]; try apply stops_refl. exact IH.
Qed.

Section Stop.
  Variable n : nat.
  Lemma all_stop : (forall s st, stopx (g_stmt trapping n s st) (g_stmt wrapping n s st)) /\
    (forall l st, stopx (g_list trapping n l st) (g_list wrapping n l st)) /\
    (forall c, (forall tag nt nw st, (forall st, stopx (nt st) (nw st)) -> (forall st, grows st (nw st)) ->
                  stopx (g_match trapping n tag c nt st) (g_match wrapping n tag c nw st)) /\
               (forall st, stopx (g_default trapping n c st) (g_default wrapping n c st)) /\
               (forall st, stopx (g_from trapping n c st) (g_from wrapping n c st))).
  Proof.
    destruct (all_grows wrapping n) as (GS & GL & GC).
    apply g_mutind.
    - intros es st. cbn [g_stmt]. apply stopx_same; [apply eval_all_stops |]. intros vs.
      apply grows_val. intros ps out E. injection E as <-. exists [ps]. reflexivity.
    - intros xs o es st. cbn [g_stmt].
      destruct o as [o|]; [| apply stopx_same; [apply eval_all_stops | intros; apply grows_assigns]].
      destruct xs as [|x [|]]; try apply stopx_refl. destruct es as [|e [|]]; try apply stopx_refl.
      apply stopx_same; [apply ge_stops | intros; apply grows_assign].
    - intros xs es st. cbn [g_stmt]. apply stopx_same; [apply eval_all_stops | intros; apply grows_defines].
    - intros x st. cbn [g_stmt]. apply stopx_same; [apply ge_stops | intros; apply grows_assign].
    - intros x st. cbn [g_stmt]. apply stopx_same; [apply ge_stops | intros; apply grows_assign].
    - intros l IH st. apply IH.
    - intros init IHi c body IHb els IHe st. rewrite !g_if_eq. apply stopx_bind; [apply IHi | |].
      + intros st'. apply stopx_val; [apply as_bool_stops | |]; intros [|]; auto.
      + intros st'. apply grows_val. intros [|]; auto.
    - intros lab init IHi c post IHp body IHb st. rewrite !g_for_eq. apply stopx_bind; [apply IHi | |].
      + intros st'. apply stopx_loop; auto. intros st''. destruct c; [apply as_bool_stops | apply stops_refl].
      + intros st'. apply grows_loop; auto.
    - intros lab key k x body IHb st. rewrite !g_range_eq. apply stopx_val.
      + apply stops_bind; [apply ge_stops | intros; apply stops_refl].
      + intros z. apply stopx_count; [intros i st'; apply IHb |].
        intros i st'. destruct key as [y|]; [exact (GL body (set st' y (VInt k i))) | apply GL].
      + intros z. apply grows_count. intros i st'.
        destruct key as [y|]; [exact (GL body (set st' y (VInt k i))) | apply GL].
    - intros init IHi tag cls (M & D & F) st. destruct (GC cls) as (GM & GD & GF).
      assert (LS : forall a b, stopx a b -> stopx (leave_switch a) (leave_switch b)).
      { intros a b [-> | (s & -> & G)]; [apply stopx_refl |]. right. exists s. split; [reflexivity | apply grows_leave, G]. }
      rewrite !g_switch_eq. apply stopx_bind; [apply IHi | |].
      + intros st'. apply stopx_val.
        * destruct tag; [apply ge_stops | apply stops_refl].
        * intros v. apply LS, M; auto.
        * intros v. apply grows_leave, GM. auto.
      + intros st'. apply grows_val. intros v. apply grows_leave, GM. auto.
    - intros lab st. apply stopx_refl.
    - intros lab st. apply stopx_refl.
    - intros es st. cbn [g_stmt]. apply stopx_same; [apply eval_all_stops |]. intros vs. apply grows_ret. reflexivity.
    - intros st. apply stopx_refl.
    - intros s IHs l IHl st. rewrite !g_cons_eq. apply stopx_bind; auto.
    - split; [intros tag nt nw st H _; apply H |]. split; intros st; apply stopx_refl.
    - intros es body IHb falls rest (M & D & F). destruct (GC rest) as (GM & GD & GF).
      assert (B : forall st, stopx
        (xbind (g_list trapping n body st) (fun st => if falls then g_from trapping n rest st else XOk ONorm st))
        (xbind (g_list wrapping n body st) (fun st => if falls then g_from wrapping n rest st else XOk ONorm st))).
      { intros st. apply stopx_bind; [apply IHb | |]; intros st'; destruct falls; auto;
          [apply stopx_refl | apply grows_ret; reflexivity]. }
      assert (GB : forall st, grows st (xbind (g_list wrapping n body st) (fun st => if falls then g_from wrapping n rest st else XOk ONorm st))).
      { intros st. apply grows_bind; [apply GL |]. intros st'. destruct falls; [apply GF | apply grows_ret; reflexivity]. }
      split; [| split].
      + intros tag nt nw st H HG. rewrite !g_match_eq. apply stopx_val; [apply case_hit_stops | |].
        * intros [|]; [apply B | apply M; assumption].
        * intros [|]; [apply GB | apply GM; assumption].
      + intros st. destruct es as [|e es]; [rewrite !g_default_eq; apply B | rewrite !g_default_skip; apply D].
      + intros st. rewrite !g_from_eq. apply B.
  Qed.
End Stop.
