(** Go's package strings on byte strings: the functions the models of api/cmdl, api and
    api/call/internal/ffi use. *)
From Coq Require Import String Ascii.
From Verif Require Import GoBase.

(** A byte string from a literal, for constants and examples. *)
Definition text (s : string) : bytes := map (fun c => Z.of_nat (nat_of_ascii c)) (list_ascii_of_string s).

(** ==, HasPrefix, HasSuffix, Contains, TrimPrefix, TrimSuffix. *)
Fixpoint beq (a b : bytes) : bool :=
  match a, b with
  | [], [] => true
  | x :: a', y :: b' => (x =? y) && beq a' b'
  | _, _ => false
  end.
Fixpoint has_prefix (s p : bytes) {struct p} : bool :=
  match p, s with
  | [], _ => true
  | x :: p', y :: s' => (x =? y) && has_prefix s' p'
  | _ :: _, [] => false
  end.
Definition has_suffix (s p : bytes) : bool := has_prefix (rev s) (rev p).
Fixpoint contains (s p : bytes) : bool :=
  has_prefix s p || match s with [] => false | _ :: r => contains r p end.
Definition trim_prefix (s p : bytes) : bytes := if has_prefix s p then skipn (length p) s else s.
Definition trim_suffix (s p : bytes) : bytes := if has_suffix s p then firstn (length s - length p) s else s.
(** Trim with a set of bytes. *)
Definition member (b : Z) (set : bytes) : bool := existsb (Z.eqb b) set.
Fixpoint drop_while (f : Z -> bool) (s : bytes) : bytes :=
  match s with [] => [] | x :: r => if f x then drop_while f r else s end.
Definition trim (s set : bytes) : bytes :=
  rev (drop_while (fun b => member b set) (rev (drop_while (fun b => member b set) s))).
(** Cut at the first occurrence of one byte: before, after and whether it was found. *)
Fixpoint cut (s : bytes) (sep : Z) : bytes * bytes * bool :=
  match s with
  | [] => ([], [], false)
  | x :: r => if x =? sep then ([], r, true) else let '(a, b, f) := cut r sep in (x :: a, b, f)
  end.
(** Split at one byte: always at least one part. *)
Fixpoint split (s : bytes) (sep : Z) : list bytes :=
  match s with
  | [] => [[]]
  | x :: r =>
    if x =? sep then [] :: split r sep
    else match split r sep with p :: ps => (x :: p) :: ps | [] => [[x]] end
  end.
(** Join with one byte. *)
Fixpoint join (l : list bytes) (sep : Z) : bytes :=
  match l with
  | [] => []
  | [p] => p
  | p :: ps => p ++ sep :: join ps sep
  end.

(** ** Lemmas *)
Lemma beq_true a b : beq a b = true <-> a = b.
Proof.
  revert b. induction a as [|x a IH]; intros [|y b]; cbn; try (split; congruence).
  rewrite andb_true_iff, Z.eqb_eq, IH. split; [intros [-> ->]; reflexivity|intros Q; injection Q; auto].
Qed.
Lemma beq_refl a : beq a a = true.
Proof. apply beq_true. reflexivity. Qed.
Lemma beq_false a b : a <> b -> beq a b = false.
Proof. intros N. apply not_true_iff_false. rewrite beq_true. exact N. Qed.
Lemma has_prefix_iff s p : has_prefix s p = true <-> exists r, s = p ++ r.
Proof.
  revert s. induction p as [|x p IH]; intros s; cbn; [split; [intros _; exists s; reflexivity|reflexivity]|].
  destruct s as [|y s]; [split; [discriminate|intros (r & Q); discriminate]|]. rewrite andb_true_iff, Z.eqb_eq, IH. split.
  - intros (-> & r & ->). exists r. reflexivity.
  - intros (r & Q). injection Q as -> ->. split; [reflexivity|exists r; reflexivity].
Qed.
Lemma has_prefix_app p r : has_prefix (p ++ r) p = true.
Proof. apply has_prefix_iff. exists r. reflexivity. Qed.
Lemma has_suffix_iff s p : has_suffix s p = true <-> exists r, s = r ++ p.
Proof.
  unfold has_suffix. rewrite has_prefix_iff. split; intros (r & Q).
  - exists (rev r). rewrite <- (rev_involutive s), Q, rev_app_distr, rev_involutive. reflexivity.
  - exists (rev r). rewrite Q, rev_app_distr. reflexivity.
Qed.
Lemma contains_iff s p : contains s p = true <-> exists a b, s = a ++ p ++ b.
Proof.
  induction s as [|x s IH]; cbn [contains]; rewrite orb_true_iff, has_prefix_iff.
  - split; [intros [(r & Q)|Q]; [exists [], r; exact Q|discriminate]|]. intros (a & b & Q). left. destruct a; [exists b; exact Q|discriminate].
  - rewrite IH. split.
    + intros [(r & Q)|(a & b & Q)]; [exists [], r; exact Q|exists (x :: a), b; rewrite Q; reflexivity].
    + intros ([|y a] & b & Q); [left; exists b; exact Q|right; injection Q as _ ->; exists a, b; reflexivity].
Qed.
Lemma trim_prefix_app p r : trim_prefix (p ++ r) p = r.
Proof. unfold trim_prefix. rewrite has_prefix_app. rewrite skipn_app, skipn_all, Nat.sub_diag. reflexivity. Qed.
Lemma trim_prefix_not s p : has_prefix s p = false -> trim_prefix s p = s.
Proof. intros N. unfold trim_prefix. rewrite N. reflexivity. Qed.
Lemma trim_suffix_app r p : trim_suffix (r ++ p) p = r.
Proof.
  unfold trim_suffix. rewrite (proj2 (has_suffix_iff _ _)) by (exists r; reflexivity).
  rewrite app_length, Nat.add_sub. rewrite firstn_app, firstn_all, Nat.sub_diag. cbn. apply app_nil_r.
Qed.
Lemma split_nonempty s sep : split s sep <> [].
Proof. destruct s as [|x s]; cbn; [discriminate|]. destruct (x =? sep); [discriminate|]. destruct (split s sep); discriminate. Qed.
Lemma split_word p sep : ~ In sep p -> split p sep = [p].
Proof.
  induction p as [|x p IH]; intros N; cbn; [reflexivity|]. destruct (x =? sep) eqn:E; [apply Z.eqb_eq in E; subst; exfalso; apply N; left; reflexivity|].
  rewrite IH; [reflexivity|intros I; apply N; right; exact I].
Qed.
Lemma split_app p sep r : ~ In sep p -> split (p ++ sep :: r) sep = p :: split r sep.
Proof.
  induction p as [|x p IH]; intros N; cbn; [rewrite Z.eqb_refl; reflexivity|]. destruct (x =? sep) eqn:E; [apply Z.eqb_eq in E; subst; exfalso; apply N; left; reflexivity|].
  rewrite IH; [reflexivity|intros I; apply N; right; exact I].
Qed.
Lemma split_join l sep : l <> [] -> Forall (fun p => ~ In sep p) l -> split (join l sep) sep = l.
Proof.
  intros N F. induction F as [|p l P F IH]; [congruence|]. destruct l as [|q l]; [apply split_word; exact P|].
  change (join (p :: q :: l) sep) with (p ++ sep :: join (q :: l) sep). rewrite split_app by exact P. rewrite IH by discriminate. reflexivity.
Qed.
Lemma join_split s sep : join (split s sep) sep = s.
Proof.
  induction s as [|x s IH]; cbn [split]; [reflexivity|]. destruct (x =? sep) eqn:E.
  - apply Z.eqb_eq in E. subst. destruct (split s sep) as [|p ps] eqn:Q; [destruct (split_nonempty _ _ Q)|].
    change (join ([] :: p :: ps) sep) with (sep :: join (p :: ps) sep). rewrite IH. reflexivity.
  - destruct (split s sep) as [|p ps] eqn:Q; [destruct (split_nonempty _ _ Q)|]. destruct ps as [|q ps].
    + cbn in *. subst. reflexivity.
    + change (join ((x :: p) :: q :: ps) sep) with (x :: join (p :: q :: ps) sep). rewrite IH. reflexivity.
Qed.
Lemma split_parts s sep : Forall (fun p => ~ In sep p) (split s sep).
Proof.
  induction s as [|x s IH]; cbn [split]; [repeat constructor; intros []|]. destruct (x =? sep) eqn:E; [constructor; [intros []|exact IH]|].
  destruct (split s sep) as [|p ps]; [repeat constructor; intros [Q|[]]; apply Z.eqb_neq in E; congruence|].
  inversion IH; subst. constructor; [|assumption]. intros [Q|I]; [apply Z.eqb_neq in E; congruence|auto].
Qed.
Lemma cut_app a b sep : ~ In sep a -> cut (a ++ sep :: b) sep = (a, b, true).
Proof.
  induction a as [|x a IH]; intros N; cbn; [rewrite Z.eqb_refl; reflexivity|]. destruct (x =? sep) eqn:E; [apply Z.eqb_eq in E; subst; exfalso; apply N; left; reflexivity|].
  rewrite IH; [reflexivity|intros I; apply N; right; exact I].
Qed.
Lemma cut_none a sep : ~ In sep a -> cut a sep = (a, [], false).
Proof.
  induction a as [|x a IH]; intros N; cbn; [reflexivity|]. destruct (x =? sep) eqn:E; [apply Z.eqb_eq in E; subst; exfalso; apply N; left; reflexivity|].
  rewrite IH; [reflexivity|intros I; apply N; right; exact I].
Qed.
Lemma drop_while_none f s : (forall b, In b s -> f b = false) -> drop_while f s = s.
Proof. destruct s as [|x s]; intros H; cbn; [reflexivity|]. rewrite (H x) by (left; reflexivity). reflexivity. Qed.
