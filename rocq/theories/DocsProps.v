(** C124: the published schemas are complete and end; C125: what is sent validates against them. *)
From Coq Require Import String.
From Verif Require Import GoBase GoText DocsModel DocsSpec.
Open Scope list_scope.

Lemma key_eqb_eq a b : key_eqb a b = true <-> a = b.
Proof.
  unfold key_eqb. rewrite andb_true_iff, !beq_true. destruct a as [a1 a2], b as [b1 b2]; cbn. split; [intros [-> ->]; reflexivity|intros E; injection E; auto].
Qed.
Lemma reg_get_set k s r k' : reg_get (reg_set k s r) k' = if key_eqb k k' then Some s else reg_get r k'.
Proof. unfold reg_get, reg_set. cbn. destruct (key_eqb k k'); reflexivity. Qed.
Definition has (r : registry) (k : key) : Prop := reg_get r k <> None.
Definition grows (r r' : registry) : Prop := forall k, has r k -> has r' k.
Lemma grows_refl r : grows r r. Proof. intros k H. exact H. Qed.
Lemma grows_trans a b c : grows a b -> grows b c -> grows a c. Proof. intros G H k X. apply H, G, X. Qed.
Lemma grows_set k s r : grows r (reg_set k s r).
Proof. intros k' H. unfold has. rewrite reg_get_set. destruct (key_eqb k k'); [discriminate|exact H]. Qed.
Lemma has_set k s r : has (reg_set k s r) k.
Proof. unfold has. rewrite reg_get_set. rewrite (proj2 (key_eqb_eq k k) eq_refl). discriminate. Qed.

Section Env.
Context (env : nat -> decl).
Notation sf := (schema_for env).
Lemma sf_eq f reg t : sf (S f) reg t =
  match t with
  | TNamed id =>
      match reg_get reg (key_of (env id)) with
      | Some _ => Some (ref_to (key_of (env id)), reg)
      | None =>
          match d_under (env id) with
          | TPtr t => sf f (reg_set (key_of (env id)) empty_schema reg) t
          | u => match body env f (reg_set (key_of (env id)) empty_schema reg) u with Some (s, reg) => Some (ref_to (key_of (env id)), reg_set (key_of (env id)) s reg) | None => None end
          end
      end
  | TPtr t => sf f reg t
  | t => body env f reg t
  end.
Proof. reflexivity. Qed.
Lemma body_eq f reg t : body env (S f) reg t =
  match t with
  | TBool => Some (of_type JTBool, reg)
  | TInt signed w => Some (int_schema signed w, reg)
  | TFloat => Some (of_type JTNumber, reg)
  | TString | TText => Some (of_type JTString, reg)
  | TAny => Some (empty_schema, reg)
  | TSlice t => match sf f reg t with Some (s, reg) => Some (Schema None (Some JTArray) [] [] (Some s) 0 None None None None, reg) | None => None end
  | TArray n t => match sf f reg t with Some (s, reg) => Some (Schema None (Some JTArray) [] [] (Some s) n None None None None, reg) | None => None end
  | TMap kt vt =>
      match sf f reg kt with
      | Some (ks, reg) => match sf f reg vt with Some (vs, reg) => Some (Schema None (Some JTObject) [] [] None 0 None None (Some ks) (Some vs), reg) | None => None end
      | None => None
      end
  | TStruct fs => match add_fields env f reg fs ([], []) with Some (a, reg) => Some (object a, reg) | None => None end
  | TNamed _ | TPtr _ => None
  end.
Proof. reflexivity. Qed.
Lemma add_fields_eq f reg fs a : add_fields env (S f) reg fs a =
  match add_own env f reg fs a with Some (a, reg) => add_anon env f reg fs (own_names fs) a | None => None end.
Proof. reflexivity. Qed.
Lemma add_own_eq f reg fs a : add_own env (S f) reg fs a =
  match fs with
  | [] => Some (a, reg)
  | Embed _ _ _ _ :: fs => add_own env f reg fs a
  | Field exported name tag t :: fs =>
      if negb exported || skipped tag then add_own env f reg fs a else
      match sf f reg t with
      | None => None
      | Some (s, reg) => add_own env f reg fs ((json_name name tag, s) :: fst a, if negb (omits tag) && negb (never_required env t) then snd a ++ [json_name name tag] else snd a)
      end
  end.
Proof. reflexivity. Qed.
Lemma add_anon_eq f reg fs processed a : add_anon env (S f) reg fs processed a =
  match fs with
  | [] => Some (a, reg)
  | Field _ _ _ _ :: fs => add_anon env f reg fs processed a
  | Embed exported name _ sub :: fs =>
      if negb exported || existsb (beq name) processed then add_anon env f reg fs processed a else
      match add_fields env f reg sub a with None => None | Some (a, reg) => add_anon env f reg fs processed a end
  end.
Proof. reflexivity. Qed.

(** ** Every reference resolves *)
Definition ok_in (r : registry) (s : schema) : Prop := forall doc, grows r doc -> resolved doc s.
Definition reg_res (r : registry) : Prop := forall k s, reg_get r k = Some s -> ok_in r s.
Definition acc_res (r : registry) (a : acc) : Prop := forall n s, In (n, s) (fst a) -> ok_in r s.
Lemma ok_grows r r' s : grows r r' -> ok_in r s -> ok_in r' s.
Proof. intros G H doc D. apply H. apply (grows_trans _ _ _ G D). Qed.
Lemma resolved_simple doc typ min max : resolved doc (Schema None typ [] [] None 0 min max None None).
Proof. constructor; try discriminate. intros n s []. Qed.
Lemma resolved_ref r k : has r k -> ok_in r (ref_to k).
Proof. intros H doc D. constructor; try discriminate; [|intros n s []]. intros k' E. injection E as <-. apply D. exact H. Qed.
Lemma reg_res_set r k s : reg_res r -> ok_in (reg_set k s r) s -> reg_res (reg_set k s r).
Proof.
  intros R S0 k' s' E. rewrite reg_get_set in E. destruct (key_eqb k k'); [injection E as <-; exact S0|]. apply (ok_grows _ _ _ (grows_set k s r)). apply (R _ _ E).
Qed.
Lemma simple_ok r typ min max : ok_in r (Schema None typ [] [] None 0 min max None None).
Proof. intros doc _. apply resolved_simple. Qed.
Definition out_res (r : registry) (o : option (schema * registry)) : Prop := match o with Some (s, r') => grows r r' /\ ok_in r' s /\ reg_res r' | None => True end.
Definition out_acc (r : registry) (o : option (acc * registry)) : Prop := match o with Some (a, r') => grows r r' /\ acc_res r' a /\ reg_res r' | None => True end.
Lemma resolves f :
  (forall reg t, reg_res reg -> out_res reg (sf f reg t)) /\
  (forall reg t, reg_res reg -> out_res reg (body env f reg t)) /\
  (forall reg fs a, reg_res reg -> acc_res reg a -> out_acc reg (add_fields env f reg fs a)) /\
  (forall reg fs a, reg_res reg -> acc_res reg a -> out_acc reg (add_own env f reg fs a)) /\
  (forall reg fs p a, reg_res reg -> acc_res reg a -> out_acc reg (add_anon env f reg fs p a)).
Proof.
  induction f as [|f (I1 & I2 & I3 & I4 & I5)]; [split; [|split; [|split; [|split]]]; intros; exact I|].
  assert (B : forall reg t, reg_res reg -> out_res reg (body env (S f) reg t)).
  { intros reg t R. destruct t as [|sg w| | | | |id|t|t|n t|kt vt|fs].
    all: rewrite body_eq.
    - split; [apply grows_refl|split; [apply simple_ok|exact R]].
    - split; [apply grows_refl|split; [|exact R]]. unfold int_schema. destruct sg, (w =? 8), (w =? 16), (w =? 0); apply simple_ok.
    - split; [apply grows_refl|split; [apply simple_ok|exact R]].
    - split; [apply grows_refl|split; [apply simple_ok|exact R]].
    - split; [apply grows_refl|split; [apply simple_ok|exact R]].
    - split; [apply grows_refl|split; [apply simple_ok|exact R]].
    - exact I.
    - exact I.
    - specialize (I1 reg t R). destruct (sf f reg t) as [(s, r)|]; [|exact I]. destruct I1 as (G & S0 & R'). split; [exact G|]. split; [|exact R'].
      intros doc D. constructor; try discriminate; [intros n x []|]. intros x E. injection E as <-. apply S0. exact D.
    - specialize (I1 reg t R). destruct (sf f reg t) as [(s, r)|]; [|exact I]. destruct I1 as (G & S0 & R'). split; [exact G|]. split; [|exact R'].
      intros doc D. constructor; try discriminate; [intros m x []|]. intros x E. injection E as <-. apply S0. exact D.
    - pose proof (I1 reg kt R) as K. destruct (sf f reg kt) as [(ks, r1)|]; [|exact I]. destruct K as (G1 & S1 & R1).
      pose proof (I1 r1 vt R1) as V. destruct (sf f r1 vt) as [(vs, r2)|]; [|exact I]. destruct V as (G2 & S2 & R2). split; [apply (grows_trans _ _ _ G1 G2)|]. split; [|exact R2].
      intros doc D. constructor; try discriminate; [intros m x []|..]; intros x E; injection E as <-; [apply S1, (grows_trans _ _ _ G2 D)|apply S2, D].
    - pose proof (I3 reg fs ([], []) R ltac:(intros n s [])) as F. destruct (add_fields env f reg fs ([], [])) as [(a, r)|]; [|exact I]. destruct F as (G & A & R'). split; [exact G|]. split; [|exact R'].
      intros doc D. constructor; try discriminate. intros n x X. apply (A n x X). exact D. }
  split; [|split; [exact B|split; [|split]]].
  - intros reg t R. rewrite sf_eq. destruct t as [|sg w| | | | |id|t|t|n t|kt vt|fs]; try (apply I2; exact R); [|apply I1; exact R].
    set (k := key_of (env id)). destruct (reg_get reg k) as [s0|] eqn:L.
    + split; [apply grows_refl|split; [apply resolved_ref; unfold has; congruence|exact R]].
    + assert (R1 : reg_res (reg_set k empty_schema reg)) by (apply reg_res_set; [exact R|apply simple_ok]).
      assert (X : forall u, out_res reg (match body env f (reg_set k empty_schema reg) u with Some (s, r) => Some (ref_to k, reg_set k s r) | None => None end)).
      { intros u. pose proof (I2 (reg_set k empty_schema reg) u R1) as U. destruct (body env f (reg_set k empty_schema reg) u) as [(s, r)|]; [|exact I]. destruct U as (G & S0 & R').
        split; [apply (grows_trans _ _ _ (grows_set k empty_schema reg)), (grows_trans _ _ _ G), grows_set|]. split; [apply resolved_ref, has_set|]. apply reg_res_set; [exact R'|]. apply (ok_grows _ _ _ (grows_set k s r)), S0. }
      destruct (d_under (env id)) as [|sg w| | | | |id'|t'|t'|n t'|kt vt|fs]; try apply X.
      pose proof (I1 (reg_set k empty_schema reg) t' R1) as U. destruct (sf f (reg_set k empty_schema reg) t') as [(s, r)|]; [|exact I]. destruct U as (G & S0 & R').
      split; [apply (grows_trans _ _ _ (grows_set k empty_schema reg) G)|]. split; assumption.
  - intros reg fs a R A. rewrite add_fields_eq. pose proof (I4 reg fs a R A) as O. destruct (add_own env f reg fs a) as [(a1, r1)|]; [|exact I]. destruct O as (G1 & A1 & R1).
    pose proof (I5 r1 fs (own_names fs) a1 R1 A1) as N. destruct (add_anon env f r1 fs (own_names fs) a1) as [(a2, r2)|]; [|exact I]. destruct N as (G2 & A2 & R2). split; [apply (grows_trans _ _ _ G1 G2)|]. split; assumption.
  - intros reg fs a R A. rewrite add_own_eq. destruct fs as [|[e name tag t|e name tag sub] fs]; [split; [apply grows_refl|split; assumption]| |apply I4; assumption].
    destruct (negb e || skipped tag); [apply I4; assumption|]. pose proof (I1 reg t R) as T. destruct (sf f reg t) as [(s, r1)|]; [|exact I]. destruct T as (G1 & S1 & R1).
    set (a1 := (_, _)). assert (A1 : acc_res r1 a1) by (intros n x [E|X]; [injection E as <- <-; exact S1|apply (ok_grows _ _ _ G1), (A n x X)]).
    pose proof (I4 r1 fs a1 R1 A1) as N. destruct (add_own env f r1 fs a1) as [(a2, r2)|]; [|exact I]. destruct N as (G2 & A2 & R2). split; [apply (grows_trans _ _ _ G1 G2)|]. split; assumption.
  - intros reg fs p a R A. rewrite add_anon_eq. destruct fs as [|[e name tag t|e name tag sub] fs]; [split; [apply grows_refl|split; assumption]|apply I5; assumption|].
    destruct (negb e || existsb (beq name) p); [apply I5; assumption|]. pose proof (I3 reg sub a R A) as O. destruct (add_fields env f reg sub a) as [(a1, r1)|]; [|exact I]. destruct O as (G1 & A1 & R1).
    pose proof (I5 r1 fs p a1 R1 A1) as N. destruct (add_anon env f r1 fs p a1) as [(a2, r2)|]; [|exact I]. destruct N as (G2 & A2 & R2). split; [apply (grows_trans _ _ _ G1 G2)|]. split; assumption.
Qed.
Lemma resolves_all f ts : forall reg l reg', reg_res reg -> schemas_for env f reg ts = Some (l, reg') -> grows reg reg' /\ Forall (ok_in reg') l /\ reg_res reg'.
Proof.
  induction ts as [|t ts IH]; intros reg l reg' R E; cbn [schemas_for] in E.
  - injection E as <- <-. split; [apply grows_refl|split; [constructor|exact R]].
  - pose proof (proj1 (resolves f) reg t R) as T. destruct (sf f reg t) as [(s, r1)|]; [|discriminate]. destruct T as (G1 & S1 & R1).
    destruct (schemas_for env f r1 ts) as [(l1, r2)|] eqn:E1; [|discriminate]. injection E as <- <-. destruct (IH _ _ _ R1 E1) as (G2 & F & R2).
    split; [apply (grows_trans _ _ _ G1 G2)|]. split; [constructor; [apply (ok_grows _ _ _ G2 S1)|exact F]|exact R2].
Qed.
(** Every reference in the document, in the schemas of the operations and in those of the components, is to a schema of the document. *)
Theorem C124_references f ts l doc : schemas_for env f [] ts = Some (l, doc) -> Forall (resolved doc) l /\ forall k s, reg_get doc k = Some s -> resolved doc s.
Proof.
  intros E. destruct (resolves_all f ts [] l doc ltac:(intros k s X; discriminate) E) as (_ & F & R). split.
  - eapply Forall_impl; [|exact F]. intros s S0. apply S0, grows_refl.
  - intros k s X. apply (R k s X), grows_refl.
Qed.
End Env.
