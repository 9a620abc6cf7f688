(** * C140, C141: examples show what happened. *)
From Coq Require Import String.
From Verif Require Import GoBase GoText EgModel.
Open Scope list_scope.
Open Scope nat_scope.

(** ** Specification *)
(** What happened, in its order: notes when they are given, calls of the example itself when
    they return; not the calls of others, nor those of the set up. The second result tells
    whether it panicked. *)
Fixpoint happened (own : bool) (a : act) : list item * bool :=
  match a with
  | AGuide n => ([Note n], false)
  | ACall c inner => let '(l, p) := happened_all false inner in (l ++ (if own && negb p then [Sample c] else []), p)
  | ASetup inner => happened_all false inner
  | APanic => ([], true)
  end
with happened_all (own : bool) (l : acts) : list item * bool :=
  match l with
  | Anil => ([], false)
  | Acons a r => let '(x, p) := happened own a in
                 if p then (x, true) else let '(y, q) := happened_all own r in (x ++ y, q)
  end.
(** notes are not empty, and nothing is set up while setting up *)
Fixpoint fine (setup : bool) (a : act) : Prop :=
  match a with
  | AGuide n => n <> []
  | ACall _ inner => fine_all setup inner
  | ASetup inner => setup = false /\ fine_all true inner
  | APanic => True
  end
with fine_all (setup : bool) (l : acts) : Prop :=
  match l with Anil => True | Acons a r => fine setup a /\ fine_all setup r end.
(** the first note moved to the front *)
Fixpoint take_note (l : list item) : option (bytes * list item) :=
  match l with
  | [] => None
  | Note n :: r => Some (n, r)
  | x :: r => match take_note r with Some (n, r) => Some (n, x :: r) | None => None end
  end.
Definition note_first (l : list item) : list item := match take_note l with Some (n, r) => Note n :: r | None => l end.

(** ** Proofs *)
Scheme act_ind2 := Induction for act Sort Prop
with acts_ind2 := Induction for acts Sort Prop.
Combined Scheme act_both from act_ind2, acts_ind2.

Definition first_noted (e : eg) : bool := match e_steps e with [] => false | s :: _ => match p_note s with [] => false | _ => true end end.
Definition has_note (l : list item) : bool := match take_note l with Some _ => true | None => false end.
Lemma take_app l m : take_note (l ++ m) = match take_note l with Some (n, r) => Some (n, r ++ m) | None => match take_note m with Some (n, r) => Some (n, l ++ r) | None => None end end.
Proof.
  induction l as [|[n|c] l IH]; cbn [app take_note]; [destruct (take_note m) as [[? ?]|]; reflexivity|reflexivity|].
  rewrite IH. destruct (take_note l) as [[n r]|]; [reflexivity|]. destruct (take_note m) as [[n r]|]; reflexivity.
Qed.
Lemma page_app a b : page (a ++ b) = page a ++ page b.
Proof. apply flat_map_app. Qed.
Lemma last_split (l : list step) : l <> [] -> removelast l ++ [last l empty_step] = l.
Proof. intros N. symmetry. apply app_removelast_last. exact N. Qed.
Definition sample_of (c : call) (e : eg) : list item := if (1 <? e_depth e) || e_setup e then [] else [Sample c].
Lemma page_fill l c d b : l <> [] -> p_call (last l empty_step) = None ->
  page (removelast l ++ [filled c d b (last l empty_step)]) = page l ++ (if (1 <? d) || b then [] else [Sample c]).
Proof.
  intros N C. rewrite <- (last_split l N) at 3. rewrite !page_app, <- app_assoc. f_equal. cbn [page flat_map]. rewrite !app_nil_r.
  unfold page_step, filled. cbn [p_note p_call p_depth p_setup]. rewrite C. destruct ((1 <? p_depth _) || p_setup _); rewrite app_nil_r; reflexivity.
Qed.
Lemma page_empty : page [empty_step] = [].
Proof. reflexivity. Qed.
Definition record_in (c : call) (d : nat) (b : bool) (l : list step) : list step :=
  match p_call (last l empty_step) with
  | Some _ => l ++ [filled c d b empty_step]
  | None => removelast l ++ [filled c d b (last l empty_step)]
  end.
Lemma record_steps c e : e_steps (record c e) = record_in c (e_depth e) (e_setup e) (match e_steps e with [] => [empty_step] | l => l end).
Proof.
  unfold record, record_in. cbn [with_steps e_steps]. set (l := match e_steps e with [] => _ | _ => _ end).
  destruct (p_call (last l empty_step)) eqn:C; [|reflexivity]. rewrite removelast_last, last_last. reflexivity.
Qed.
Lemma page_record c e : page (e_steps (record c e)) = page (e_steps e) ++ sample_of c e.
Proof.
  rewrite record_steps. unfold record_in, sample_of. set (l := match e_steps e with [] => _ | _ => _ end).
  assert (N : l <> []) by (unfold l; destruct (e_steps e); discriminate).
  assert (P : page l = page (e_steps e)) by (unfold l; destruct (e_steps e); reflexivity).
  destruct (p_call (last l empty_step)) eqn:C.
  - rewrite page_app, P. f_equal. cbn [page flat_map page_step filled p_note p_call p_depth p_setup empty_step app]. rewrite app_nil_r. reflexivity.
  - rewrite page_fill by assumption. rewrite P. reflexivity.
Qed.
Lemma first_record c e : first_noted (record c e) = first_noted e.
Proof.
  unfold first_noted at 1. rewrite record_steps. unfold record_in, first_noted. destruct (e_steps e) as [|s r]; [reflexivity|].
  destruct (p_call (last (s :: r) empty_step)); [reflexivity|]. destruct r as [|t r]; [reflexivity|].
  cbn [removelast app]. destruct r; reflexivity.
Qed.
Lemma page_guide n e : n <> [] ->
  page (e_steps (guide n e)) = (if first_noted e then page (e_steps e) ++ [Note n] else Note n :: page (e_steps e)) /\ first_noted (guide n e) = true.
Proof.
  intros N. unfold guide, first_noted. destruct (e_steps e) as [|s r]; cbn [p_note empty_step with_steps e_steps noted].
  - destruct n; [congruence|]. split; reflexivity.
  - destruct (p_note s) as [|x y] eqn:A; cbn [with_steps e_steps p_note noted].
    + split; [|destruct n; [congruence|reflexivity]]. cbn [page flat_map]. unfold page_step. cbn [p_note p_call p_depth p_setup noted]. rewrite A. destruct n; [congruence|]. reflexivity.
    + rewrite page_app. cbn [page flat_map page_step noted p_note p_call p_depth p_setup empty_step]. split; [|cbn [app p_note]; rewrite A; reflexivity].
      destruct n; [congruence|]. reflexivity.
Qed.

Definition rel (log : list item) (d : nat) (s : bool) (e : eg) : Prop :=
  page (e_steps e) = note_first log /\ first_noted e = has_note log /\ e_depth e = d /\ e_setup e = s.
Lemma rel_note log d s e n : n <> [] -> rel log d s e -> rel (log ++ [Note n]) d s (guide n e).
Proof.
  intros N (P & F & D & S). destruct (page_guide n e N) as [G1 G2]. split; [|split; [|split]].
  - rewrite G1, F, P. unfold has_note, note_first. rewrite take_app. destruct (take_note log) as [[m r]|]; [reflexivity|]. cbn [take_note]. rewrite app_nil_r. reflexivity.
  - rewrite G2. unfold has_note. rewrite take_app. destruct (take_note log) as [[m r]|]; reflexivity.
  - rewrite <- D. unfold guide. destruct (e_steps e) as [|x y]; [reflexivity|]. destruct (p_note x); reflexivity.
  - rewrite <- S. unfold guide. destruct (e_steps e) as [|x y]; [reflexivity|]. destruct (p_note x); reflexivity.
Qed.
Definition samples_only (l : list item) : Prop := take_note l = None.
Lemma rel_record log d s e c : rel log d s e -> rel (log ++ (if (1 <? d) || s then [] else [Sample c])) d s (record c e).
Proof.
  intros (P & F & D & S). split; [|split; [|split]].
  - rewrite page_record, P. unfold sample_of. rewrite D, S. unfold note_first. rewrite take_app.
    destruct ((1 <? d) || s); cbn [take_note]; destruct (take_note log) as [[n r]|]; rewrite ?app_nil_r; reflexivity.
  - rewrite first_record, F. unfold has_note. rewrite take_app. destruct ((1 <? d) || s); cbn [take_note]; destruct (take_note log) as [[n r]|]; reflexivity.
  - exact D.
  - exact S.
Qed.
Lemma run_rel :
  (forall a s, fine s a -> forall log d e, rel log d s e ->
     rel (log ++ fst (happened ((d =? 0) && negb s) a)) d s (fst (act_run a e)) /\ snd (act_run a e) = snd (happened ((d =? 0) && negb s) a)) /\
  (forall l s, fine_all s l -> forall log d e, rel log d s e ->
     rel (log ++ fst (happened_all ((d =? 0) && negb s) l)) d s (fst (acts_run l e)) /\ snd (acts_run l e) = snd (happened_all ((d =? 0) && negb s) l)).
Proof.
  apply act_both.
  - intros n s N log d e R. cbn [act_run happened fst snd]. split; [apply rel_note; assumption|reflexivity].
  - intros c inner IH s F log d e R. cbn [act_run happened].
    assert (R1 : rel log (S d) s (with_depth (S (e_depth e)) e)).
    { destruct R as (P & G & D & S). split; [exact P|split; [exact G|split; [cbn; rewrite D; reflexivity|exact S]]]. }
    destruct (IH s F _ _ _ R1) as [R2 Q]. cbn [Nat.eqb andb] in R2, Q.
    destruct (acts_run inner _) as [e1 p]. destruct (happened_all false inner) as [x q]. cbn [fst snd] in *. subst q. split; [|reflexivity].
    assert (R3 : rel (log ++ x ++ (if (d =? 0) && negb s && negb p then [Sample c] else [])) (S d) s (if p then e1 else record c e1)).
    { rewrite app_assoc. destruct p; [rewrite andb_false_r, app_nil_r; exact R2|]. rewrite andb_true_r.
      pose proof (rel_record _ _ _ _ c R2) as R3. replace ((1 <? S d) || s) with (negb ((d =? 0) && negb s)) in R3 by (destruct d, s; reflexivity).
      destruct ((d =? 0) && negb s); exact R3. }
    destruct R3 as (P & G & D & S). split; [exact P|split; [exact G|split; [cbn; rewrite D; reflexivity|exact S]]].
  - intros inner IH s [-> F] log d e R. cbn [act_run happened].
    assert (R1 : rel log d true (with_setup true e)).
    { destruct R as (P & G & D & S). split; [exact P|split; [exact G|split; [exact D|reflexivity]]]. }
    destruct (IH true F _ _ _ R1) as [R2 Q]. rewrite andb_false_r in R2, Q.
    destruct (acts_run inner _) as [e1 p]. destruct (happened_all false inner) as [x q]. cbn [fst snd] in *. split; [|exact Q].
    destruct R2 as (P & G & D & S). split; [exact P|split; [exact G|split; [exact D|reflexivity]]].
  - intros s _ log d e R. cbn [act_run happened fst snd]. rewrite app_nil_r. split; [exact R|reflexivity].
  - intros s _ log d e R. cbn [acts_run happened_all fst snd]. rewrite app_nil_r. split; [exact R|reflexivity].
  - intros a IHa r IHr s [F1 F2] log d e R. cbn [acts_run happened_all]. destruct (IHa s F1 _ _ _ R) as [R1 Q1].
    destruct (act_run a e) as [e1 p]. destruct (happened _ a) as [x q]. cbn [fst snd] in *. subst q. destruct p; [split; [exact R1|reflexivity]|].
    destruct (IHr s F2 _ _ _ R1) as [R2 Q2]. destruct (acts_run r e1) as [e2 p2]. destruct (happened_all _ r) as [y q2]. cbn [fst snd] in *.
    rewrite app_assoc. split; assumption.
Qed.

(** The page of an example shows what happened, except that the first note comes first; so
    all of it in its order when the example begins with a note. *)
Theorem C140_page l : fine_all false l ->
  page (fst (example l)) = note_first (fst (happened_all true l)) /\ snd (example l) = snd (happened_all true l).
Proof.
  intros F. assert (R : rel [] 0 false fresh) by (split; [reflexivity|split; [reflexivity|split; reflexivity]]).
  destruct (proj2 run_rel l false F _ _ _ R) as [R1 Q]. cbn [Nat.eqb andb negb app] in R1, Q. unfold example.
  destruct (acts_run l fresh) as [e p]. cbn [fst snd] in *. destruct R1 as (P & _). split; assumption.
Qed.
Theorem C140_noted_partial n l : fine_all false (Acons (AGuide n) l) ->
  page (fst (example (Acons (AGuide n) l))) = fst (happened_all true (Acons (AGuide n) l)).
Proof.
  intros F. destruct (C140_page _ F) as [P _]. rewrite P. cbn [happened_all happened]. destruct (happened_all true l) as [y q]. reflexivity.
Qed.
Fixpoint of_list (l : list act) : acts := match l with [] => Anil | a :: r => Acons a (of_list r) end.
Definition shop (f : bytes) : call := {| c_api := text "Shop"; c_fn := f; c_data := [] |}.
Definition bank (f : bytes) : call := {| c_api := text "Bank"; c_fn := f; c_data := [] |}.
Theorem C140_example :
  let l := of_list [AGuide (text "Buy it."); ASetup (of_list [ACall (bank (text "Open")) Anil]);
                    ACall (shop (text "Buy")) (of_list [ACall (bank (text "Pay")) Anil]); AGuide (text "Done."); ACall (shop (text "List")) Anil; APanic; AGuide (text "Never.")] in
  fine_all false l /\ snd (example l) = true /\
  page (fst (example l)) = [Note (text "Buy it."); Sample (shop (text "Buy")); Note (text "Done."); Sample (shop (text "List"))].
Proof. cbv zeta. split; [|split; reflexivity]. cbn. repeat split; discriminate. Qed.
(** ** Refuted *)
(** A first note that is given after a call is shown before it. *)
Theorem C140_order_refuted c n : n <> [] ->
  let l := of_list [ACall c Anil; AGuide n] in
  fst (happened_all true l) = [Sample c; Note n] /\ page (fst (example l)) = [Note n; Sample c].
Proof. intros N. destruct n; [congruence|]. split; reflexivity. Qed.
(** Setting up ends with the first part of it that is done. *)
Theorem C140_setup_refuted c :
  let l := of_list [ASetup (of_list [ASetup Anil; ACall c Anil])] in
  fst (happened_all true l) = [] /\ page (fst (example l)) = [Sample c].
Proof. split; reflexivity. Qed.

(** ** C141: the sequence diagram *)
Definition line_of (i : item) : list line := match i with Sample c => [(text "Example", c_api c ++ text " API", c_fn c)] | Note _ => [] end.
(** no call makes calls, but for those of the set up *)
Fixpoint callless (a : act) : Prop :=
  match a with AGuide _ => True | ACall _ _ => False | ASetup i => callless_all i | APanic => True end
with callless_all (l : acts) : Prop := match l with Anil => True | Acons a r => callless a /\ callless_all r end.
Definition flat (a : act) : Prop :=
  match a with AGuide _ => True | ACall _ i => callless_all i | ASetup i => True | APanic => True end.
Fixpoint flat_all (l : acts) : Prop := match l with Anil => True | Acons a r => flat a /\ flat_all r end.
(** the deepest call *)
Fixpoint deepest (a : act) : nat :=
  match a with ACall _ i => S (deepest_all i) | ASetup i => deepest_all i | _ => 0 end
with deepest_all (l : acts) : nat := match l with Anil => 0 | Acons a r => max (deepest a) (deepest_all r) end.

(** steps: what is known of those with calls *)
Definition every (P : call -> nat -> bool -> Prop) (l : list step) : Prop := Forall (fun s => match p_call s with Some c => P c (p_depth s) (p_setup s) | None => True end) l.
Lemma every_guide (P : call -> nat -> bool -> Prop) n e : every P (e_steps e) -> every P (e_steps (guide n e)).
Proof.
  unfold guide, every. intros F. destruct (e_steps e) as [|s r] eqn:E; cbn [p_note empty_step]; [constructor; [exact I|constructor]|].
  inversion F as [|? ? F1 F2]; subst. destruct (p_note s); cbn [with_steps e_steps]; [constructor; assumption|].
  apply Forall_app. split; [constructor; assumption|]. constructor; [exact I|constructor].
Qed.
Lemma every_record (P : call -> nat -> bool -> Prop) c e : every P (e_steps e) -> P c (e_depth e) (e_setup e) -> every P (e_steps (record c e)).
Proof.
  intros F H. rewrite record_steps. set (l := match e_steps e with [] => _ | _ => _ end).
  assert (G : every P l) by (unfold l; destruct (e_steps e); [constructor; [exact I|constructor]|exact F]).
  assert (N : l <> []) by (unfold l; destruct (e_steps e); discriminate).
  unfold record_in, every. destruct (p_call (last l empty_step)).
  - apply Forall_app. split; [exact G|]. constructor; [exact H|constructor].
  - rewrite <- (last_split l N) in G. apply Forall_app in G. destruct G as [G _]. apply Forall_app. split; [exact G|]. constructor; [exact H|constructor].
Qed.
(** the depth is kept *)
Lemma run_depth : (forall a e, e_depth (fst (act_run a e)) = e_depth e) /\ (forall l e, e_depth (fst (acts_run l e)) = e_depth e).
Proof.
  apply act_both.
  - intros n e. cbn. unfold guide. destruct (e_steps e) as [|x y]; [reflexivity|]. destruct (p_note x); reflexivity.
  - intros c inner IH e. cbn [act_run]. specialize (IH (with_depth (S (e_depth e)) e)). destruct (acts_run inner _) as [e1 p]. cbn [fst with_depth e_depth] in *.
    destruct p; cbn [record with_steps e_depth]; rewrite IH; reflexivity.
  - intros inner IH e. cbn [act_run]. specialize (IH (with_setup true e)). destruct (acts_run inner _) as [e1 p]. exact IH.
  - reflexivity.
  - reflexivity.
  - intros a IHa r IHr e. cbn [acts_run]. specialize (IHa e). destruct (act_run a e) as [e1 p]. cbn [fst] in IHa. destruct p; [exact IHa|]. rewrite IHr. exact IHa.
Qed.
Lemma run_every :
  (forall a (P : call -> nat -> bool -> Prop) e, (forall c d b, e_depth e < d <= e_depth e + deepest a -> P c d b) -> every P (e_steps e) -> every P (e_steps (fst (act_run a e)))) /\
  (forall l (P : call -> nat -> bool -> Prop) e, (forall c d b, e_depth e < d <= e_depth e + deepest_all l -> P c d b) -> every P (e_steps e) -> every P (e_steps (fst (acts_run l e)))).
Proof.
  apply act_both.
  - intros n P e _ F. apply every_guide. exact F.
  - intros c inner IH P e H F. cbn [act_run deepest] in *. specialize (IH P (with_depth (S (e_depth e)) e)).
    pose proof (proj2 run_depth inner (with_depth (S (e_depth e)) e)) as D. destruct (acts_run inner _) as [e1 p]. cbn [fst with_depth e_depth e_steps] in *.
    assert (G : every P (e_steps e1)) by (apply IH; [intros c' d b L; apply H; lia|exact F]).
    destruct p; cbn [with_depth e_steps]; [exact G|]. apply every_record; [exact G|]. apply H. rewrite D. lia.
  - intros inner IH P e H F. cbn [act_run deepest] in *. specialize (IH P (with_setup true e) H F). destruct (acts_run inner _) as [e1 p]. exact IH.
  - intros P e _ F. exact F.
  - intros P e _ F. exact F.
  - intros a IHa r IHr P e H F. cbn [acts_run deepest_all] in *. specialize (IHa P e). pose proof (proj1 run_depth a e) as D. destruct (act_run a e) as [e1 p]. cbn [fst] in *.
    assert (G : every P (e_steps e1)) by (apply IHa; [intros c d b L; apply H; lia|exact F]). destruct p; [exact G|].
    apply IHr; [|exact G]. intros c d b L. apply H. lia.
Qed.
Lemma example_every (P : call -> nat -> bool -> Prop) l : (forall c d b, 1 <= d <= deepest_all l -> P c d b) -> every P (fst (example l)).
Proof.
  intros H. unfold example. pose proof (proj2 run_every l P fresh) as R. destruct (acts_run l fresh) as [e p]. cbn [fst] in *. apply R; [|constructor].
  intros c d b L. apply H. cbn in L. lia.
Qed.

(** drawing *)
Lemma append_keeps s x : len s <= List.length (arr s) -> List.length (arr s) <= List.length (arr (append s x)) /\ len (append s x) <= List.length (arr (append s x)) /\ len (append s x) = S (len s) /\
  (1 <= len s -> 2 <= List.length (arr (append s x)) /\ nth_error (arr (append s x)) 0 = nth_error (arr s) 0).
Proof.
  intros L. unfold append. destruct (Nat.ltb_spec (len s) (List.length (arr s))); cbn [arr len]; rewrite app_length, firstn_length; cbn [List.length]; rewrite ?skipn_length, ?repeat_length.
  - split; [lia|]. split; [lia|]. split; [reflexivity|]. intros G. split; [lia|]. destruct (arr s) as [|y t]; [cbn in H; lia|]. destruct (len s); [lia|]. reflexivity.
  - split; [lia|]. split; [lia|]. split; [reflexivity|]. intros G. split; [lia|]. destruct (arr s) as [|y t]; [cbn in L; lia|]. destruct (len s); [lia|]. reflexivity.
Qed.
(** what holds between steps *)
Definition sound (d : drawing) : Prop :=
  1 <= d_depth d /\ 1 <= len (d_stack d) <= List.length (arr (d_stack d)) /\ nth_error (arr (d_stack d)) 0 = Some (text "Example") /\
  (d_depth d = 1 -> len (d_stack d) = 1) /\ (d_depth d <> 1 -> 2 <= List.length (arr (d_stack d))).
Lemma sound_blank : sound blank.
Proof. unfold sound, blank. cbn. repeat split; try lia; try reflexivity. Qed.
Lemma last_of_ok s : 1 <= len s <= List.length (arr s) -> exists x, last_of s = Ok x.
Proof.
  intros [A B]. unfold last_of. destruct (len s) as [|i]; [lia|]. destruct (nth_error (arr s) i) as [x|] eqn:E; [exists x; reflexivity|].
  apply nth_error_None in E. lia.
Qed.
Lemma draw_sound s d ls d' : sound d -> (forall c, p_call s = Some c -> 1 <= p_depth s) -> draw_step s d = Ok (ls, d') -> sound d' /\
  (forall c, p_call s = Some c -> p_setup s = false -> exists from, ls = [(from, the_api c, c_fn c)] /\ (p_depth s = 1 -> from = text "Example")).
Proof.
  intros (D & L & E & O & T) C S. unfold draw_step in S. destruct (p_setup s); [inversion S; subst; split; [split; [|split; [|split; [|split]]]; assumption|discriminate]|].
  destruct (p_call s) as [c|] eqn:PC; [|inversion S; subst; split; [split; [|split; [|split; [|split]]]; assumption|discriminate]]. specialize (C c eq_refl).
  set (stack := if d_depth d <? p_depth s then append (d_stack d) (d_space d) else d_stack d) in S.
  assert (K : 1 <= len stack <= List.length (arr stack) /\ nth_error (arr stack) 0 = Some (text "Example") /\ (p_depth s <> 1 -> 2 <= List.length (arr stack)) /\ (d_depth d = 1 -> p_depth s = 1 -> len stack = 1)).
  { unfold stack. destruct (Nat.ltb_spec (d_depth d) (p_depth s)) as [G|G].
    - destruct (append_keeps (d_stack d) (d_space d) (proj2 L)) as (A1 & A2 & A3 & A4). destruct (A4 (proj1 L)) as [A5 A6]. split; [lia|]. split; [congruence|]. split; [lia|]. lia.
    - split; [lia|]. split; [exact E|]. split; [intros; apply T; lia|]. intros Q _. apply O. exact Q. }
  destruct K as (K1 & K2 & K3 & K4). destruct (Nat.ltb_spec (p_depth s) (d_depth d)) as [G|G].
  - unfold cut in S. destruct (Nat.leb_spec (p_depth s) (List.length (arr stack))) as [Q|Q]; [|discriminate]. cbn [obind] in S.
    destruct (last_of _) as [x|] eqn:X; try discriminate. cbn [obind] in S. inversion S; subst. split.
    + unfold sound. cbn [d_depth d_stack arr len]. split; [exact C|]. split; [lia|]. split; [exact K2|]. split; [tauto|exact K3].
    + intros c' Y _. inversion Y; subst. exists x. split; [reflexivity|]. intros P1. unfold last_of in X. cbn [len arr] in X. rewrite P1 in X. rewrite K2 in X. congruence.
  - cbn [obind] in S. destruct (last_of stack) as [x|] eqn:X; try discriminate. cbn [obind] in S. inversion S; subst. split.
    + unfold sound. cbn [d_depth d_stack]. split; [exact C|]. split; [exact K1|]. split; [exact K2|]. split; [intros; apply K4; lia|exact K3].
    + intros c' Y _. inversion Y; subst. exists x. split; [reflexivity|]. intros P1. unfold last_of in X. rewrite K4 in X by lia. rewrite K2 in X. congruence.
Qed.
Lemma draw_three s d : sound d -> d_depth d <= 3 -> (forall c, p_call s = Some c -> 1 <= p_depth s <= 3) -> exists ls d', draw_step s d = Ok (ls, d') /\ d_depth d' <= 3.
Proof.
  intros (D & L & E & O & T) U C. unfold draw_step. destruct (p_setup s); [exists [], d; split; [reflexivity|exact U]|].
  destruct (p_call s) as [c|]; [|exists [], d; split; [reflexivity|exact U]]. specialize (C c eq_refl).
  destruct (Nat.ltb_spec (d_depth d) (p_depth s)) as [G|G]; destruct (Nat.ltb_spec (p_depth s) (d_depth d)) as [G'|G']; try lia; cbn [obind].
  - destruct (append_keeps (d_stack d) (d_space d) (proj2 L)) as (A1 & A2 & A3 & _). destruct (last_of_ok (append (d_stack d) (d_space d))) as (x & X); [lia|]. rewrite X. cbn [obind].
    eexists _, _. split; [reflexivity|]. cbn. lia.
  - unfold cut. destruct (Nat.leb_spec (p_depth s) (List.length (arr (d_stack d)))) as [Q|Q]; [|lia]. cbn [obind].
    destruct (last_of_ok {| arr := arr (d_stack d); len := p_depth s |}) as (x & X); [cbn; lia|]. rewrite X. cbn [obind]. eexists _, _. split; [reflexivity|]. cbn. lia.
  - destruct (last_of_ok (d_stack d) L) as (x & X). rewrite X. cbn [obind]. eexists _, _. split; [reflexivity|]. cbn. lia.
Qed.

(** An example whose calls nest at most three deep has a diagram. *)
Theorem C141_three l : deepest_all l <= 3 -> exists lines, diagram (fst (example l)) = Ok lines.
Proof.
  intros H. assert (F : every (fun _ d _ => 1 <= d <= 3) (fst (example l))) by (apply example_every; intros; lia). unfold diagram.
  assert (S : sound blank) by exact sound_blank. assert (U : d_depth blank <= 3) by (cbn; lia). revert S U. generalize blank as d.
  induction F as [|s r Hs F IH]; intros d S U; cbn [draw]; [exists []; reflexivity|].
  destruct (draw_three s d S U) as (ls & d' & E & U'); [intros c C; rewrite C in Hs; exact Hs|]. rewrite E. cbn [obind].
  destruct (draw_sound s d ls d' S) as [S' _]; [intros c C; rewrite C in Hs; lia|exact E|].
  destruct (IH d' S' U') as (b & B). rewrite B. cbn [obind]. eexists. reflexivity.
Qed.
(** A diagram has an arrow for each call that is not of the set up, in the order they
    return, and those of the example itself come from it. *)
Definition drawn (s : step) : bool := match p_call s with Some _ => negb (p_setup s) | None => false end.
Theorem C141_arrows l lines : diagram (fst (example l)) = Ok lines ->
  Forall2 (fun s '(from, to, f) => exists c, p_call s = Some c /\ to = c_api c ++ text " API" /\ f = c_fn c /\ (p_depth s = 1 -> from = text "Example"))
    (filter drawn (fst (example l))) lines.
Proof.
  assert (F : every (fun _ d _ => 1 <= d) (fst (example l))) by (apply example_every; intros; lia). unfold diagram.
  assert (S : sound blank) by exact sound_blank. revert S lines. generalize blank as d.
  induction F as [|s r Hs F IH]; intros d S lines E; cbn [draw] in E; [inversion E; constructor|].
  destruct (draw_step s d) as [[ls d']|] eqn:X; try discriminate. cbn [obind] in E.
  destruct (draw r d') as [b|] eqn:B; try discriminate. cbn [obind] in E. inversion E; subst.
  destruct (draw_sound s d ls d' S) as [S' Q]; [intros c C; rewrite C in Hs; exact Hs|exact X|].
  cbn [filter]. unfold drawn at 1. destruct (p_call s) as [c|] eqn:C.
  - destruct (p_setup s) eqn:PS; cbn [negb].
    + unfold draw_step in X. rewrite PS in X. inversion X; subst. apply (IH d' S'). exact B.
    + destruct (Q c eq_refl eq_refl) as (from & -> & T). cbn [app]. constructor; [exists c; repeat split; [exact C|exact T]|]. apply (IH d' S'). exact B.
  - unfold draw_step in X. rewrite C in X. destruct (p_setup s); inversion X; subst; apply (IH d' S'); exact B.
Qed.
(** Without calls of calls, the diagram is what happened. *)
Lemma draw_flat l : every (fun _ d b => b = true \/ d = 1) l -> diagram l = Ok (flat_map line_of (page l)).
Proof.
  unfold diagram. intros F. assert (G : forall d, d_depth d = 1 -> len (d_stack d) = 1 -> nth_error (arr (d_stack d)) 0 = Some (text "Example") -> draw l d = Ok (flat_map line_of (page l))).
  { induction F as [|s r Hs F IH]; intros d D L E; [reflexivity|]. cbn [draw page flat_map]. rewrite flat_map_app. unfold draw_step, page_step.
    assert (NL : flat_map line_of (match p_note s with [] => [] | n => [Note n] end) = []) by (destruct (p_note s); reflexivity).
    rewrite flat_map_app, NL. cbn [app]. destruct (p_setup s) eqn:PS.
    - cbn [obind]. rewrite orb_true_r. rewrite (IH d D L E). reflexivity.
    - rewrite orb_false_r. destruct (p_call s) as [c|] eqn:C.
      + destruct Hs as [Hs|Hs]; [discriminate|]. rewrite Hs, D. cbn [Nat.ltb Nat.leb obind]. unfold last_of. rewrite L, E. cbn [obind].
        rewrite IH; [reflexivity|reflexivity|exact L|exact E].
      + cbn [obind]. rewrite (IH d D L E). destruct (1 <? p_depth s); reflexivity. }
  apply G; reflexivity.
Qed.
Lemma setup_every : 
  (forall a (P : call -> nat -> bool -> Prop) e, fine true a -> e_setup e = true -> (forall c d, P c d true) -> every P (e_steps e) -> every P (e_steps (fst (act_run a e))) /\ e_setup (fst (act_run a e)) = true) /\
  (forall l (P : call -> nat -> bool -> Prop) e, fine_all true l -> e_setup e = true -> (forall c d, P c d true) -> every P (e_steps e) -> every P (e_steps (fst (acts_run l e))) /\ e_setup (fst (acts_run l e)) = true).
Proof.
  apply act_both.
  - intros n P e _ S H F. split; [apply every_guide; exact F|]. cbn. unfold guide. destruct (e_steps e) as [|x y]; [exact S|]. destruct (p_note x); exact S.
  - intros c inner IH P e Fi ST H F. cbn [act_run]. destruct (IH P (with_depth (S (e_depth e)) e) Fi ST H F) as [G G2]. destruct (acts_run inner _) as [e1 p]. cbn [fst] in *.
    destruct p; cbn [with_depth e_steps e_setup]; [split; assumption|]. split; [|exact G2]. apply every_record; [exact G|]. rewrite G2. apply H.
  - intros inner IH P e [X _]. discriminate.
  - intros P e _ S _ F. split; assumption.
  - intros P e _ S _ F. split; assumption.
  - intros a IHa r IHr P e [F1 F2] S H F. cbn [acts_run]. destruct (IHa P e F1 S H F) as [G G2]. destruct (act_run a e) as [e1 p]. cbn [fst] in *. destruct p; [split; assumption|].
    apply IHr; assumption.
Qed.
Lemma callless_every :
  (forall a (P : call -> nat -> bool -> Prop) e, callless a -> every P (e_steps e) -> every P (e_steps (fst (act_run a e)))) /\
  (forall l (P : call -> nat -> bool -> Prop) e, callless_all l -> every P (e_steps e) -> every P (e_steps (fst (acts_run l e)))).
Proof.
  apply act_both.
  - intros n P e _ F. apply every_guide. exact F.
  - intros c inner IH P e [].
  - intros inner IH P e C F. cbn [act_run callless] in *. specialize (IH P (with_setup true e) C F). destruct (acts_run inner _) as [e1 p]. exact IH.
  - intros P e _ F. exact F.
  - intros P e _ F. exact F.
  - intros a IHa r IHr P e [C1 C2] F. cbn [acts_run]. specialize (IHa P e C1 F). destruct (act_run a e) as [e1 p]. cbn [fst] in *. destruct p; [exact IHa|]. apply IHr; assumption.
Qed.
Lemma flat_every l : forall e, fine_all false l -> flat_all l -> e_depth e = 0 ->
  every (fun _ d b => b = true \/ d = 1) (e_steps e) -> every (fun _ d b => b = true \/ d = 1) (e_steps (fst (acts_run l e))).
Proof.
  induction l as [|a r IH]; intros e [F1 F2] [L1 L2] D E || intros e F1 L1 D E; [exact E|].
  cbn [acts_run]. pose proof (proj1 run_depth a e) as DD.
  assert (G : every (fun _ d b => b = true \/ d = 1) (e_steps (fst (act_run a e)))).
  { destruct a as [n|c inner|inner|]; cbn [act_run flat fine] in *.
    - apply every_guide. exact E.
    - pose proof (proj2 callless_every inner (fun _ d b => b = true \/ d = 1) (with_depth (S (e_depth e)) e) L1 E) as G.
      pose proof (proj2 run_depth inner (with_depth (S (e_depth e)) e)) as D1. destruct (acts_run inner _) as [e1 p]. cbn [fst with_depth e_depth e_steps] in *.
      destruct p; [exact G|]. apply every_record; [exact G|]. right. lia.
    - destruct F1 as [_ F1]. destruct (proj2 setup_every inner (fun _ d b => b = true \/ d = 1) (with_setup true e) F1 eq_refl (fun _ _ => or_introl eq_refl) E) as [G _].
      destruct (acts_run inner _) as [e1 p]. exact G.
    - exact E. }
  destruct (act_run a e) as [e1 p]. cbn [fst] in *. destruct p; [exact G|]. apply IH; [exact F2|exact L2|congruence|exact G].
Qed.
Lemma lines_front l : flat_map line_of (note_first l) = flat_map line_of l.
Proof.
  unfold note_first. assert (G : forall n r, take_note l = Some (n, r) -> flat_map line_of r = flat_map line_of l).
  { induction l as [|[m|c] l IH]; intros n r E; cbn [take_note] in E; [discriminate|inversion E; reflexivity|].
    destruct (take_note l) as [[m q]|]; [|discriminate]. inversion E; subst. cbn [flat_map]. rewrite (IH n q eq_refl). reflexivity. }
  destruct (take_note l) as [[n r]|]; [|reflexivity]. cbn [flat_map line_of app]. apply (G n). reflexivity.
Qed.
Theorem C141_flat_partial l : fine_all false l -> flat_all l -> diagram (fst (example l)) = Ok (flat_map line_of (fst (happened_all true l))).
Proof.
  intros F L. rewrite draw_flat.
  - rewrite (proj1 (C140_page l F)), lines_front. reflexivity.
  - unfold example. pose proof (flat_every l fresh F L eq_refl) as G. destruct (acts_run l fresh) as [e p]. apply G. constructor.
Qed.
Theorem C141_example : let l := of_list [AGuide (text "Hello."); ACall (shop (text "Buy")) Anil; ASetup (of_list [ACall (shop (text "A")) (of_list [ACall (shop (text "B")) Anil])]); ACall (bank (text "Pay")) Anil] in
  fine_all false l /\ flat_all l /\ diagram (fst (example l)) = Ok [(text "Example", text "Shop API", text "Buy"); (text "Example", text "Bank API", text "Pay")].
Proof. cbv zeta. split; [cbn; repeat split; discriminate|]. split; [cbn; tauto|reflexivity]. Qed.
(** Refuted: the call a function makes is drawn as a call of the example, or as one of the
    function called before; four calls in each other end the page in a panic. *)
Theorem C141_nested_refuted a b : diagram (fst (example (of_list [ACall a (of_list [ACall b Anil])]))) =
  Ok [(text "Example", the_api b, c_fn b); (text "Example", the_api a, c_fn a)].
Proof. reflexivity. Qed.
Theorem C141_previous_refuted x a b : diagram (fst (example (of_list [ACall x Anil; ACall a (of_list [ACall b Anil])]))) =
  Ok [(text "Example", the_api x, c_fn x); (the_api x, the_api b, c_fn b); (text "Example", the_api a, c_fn a)].
Proof. reflexivity. Qed.
Theorem C141_deep_refuted a b c d :
  diagram (fst (example (of_list [ACall a (of_list [ACall b (of_list [ACall c (of_list [ACall d Anil])])])]))) = Panic.
Proof. reflexivity. Qed.
(** Whether it panics depends on the calls drawn before: five calls in each other are drawn
    when the stack had room made for it, which Go makes by doubling. *)
Theorem C141_room_refuted a :
  let deep := ACall a (of_list [ACall a (of_list [ACall a (of_list [ACall a (of_list [ACall a Anil])])])]) in
  let wide := ACall a (of_list [ACall a Anil; ACall a (of_list [ACall a Anil])]) in
  diagram (fst (example (of_list [deep]))) = Panic /\
  exists lines, diagram (fst (example (of_list [wide; deep]))) = Ok lines /\ List.length lines = 9%nat.
Proof. cbv zeta. split; [reflexivity|]. eexists. split; [vm_compute; reflexivity|reflexivity]. Qed.
