(** Proofs about the router. *)
From Verif Require Import GoBase MuxModel MuxSpec.

Lemma eqb_spec s t : String.eqb s t = true <-> s = t.
Proof. apply String.eqb_eq. Qed.

Section Router.
Context {H : Type}.
Implicit Types (rs : routes H) (ps : list (entry H)).

Lemma lookup_set k k' (h : handler H) rs :
  lookup k (set k' h rs) = if String.eqb k k' then Some h else lookup k rs.
Proof.
  induction rs as [|[k0 h0] rs IH]; cbn [set lookup].
  - destruct (String.eqb k k') eqn:E; reflexivity.
  - destruct (String.eqb k' k0) eqn:E0; cbn [lookup].
    + apply String.eqb_eq in E0 as ->. destruct (String.eqb k k0); reflexivity.
    + destruct (String.eqb k k0) eqn:E1.
      * apply String.eqb_eq in E1 as ->.
        destruct (String.eqb k0 k') eqn:E2; [|reflexivity].
        apply String.eqb_eq in E2 as ->. now rewrite String.eqb_refl in E0.
      * exact IH.
Qed.
Lemma find_lookup {B} (f : handler H -> B) k rs :
  find f k rs = match lookup k rs with Some h => Some (f h) | None => None end.
Proof.
  induction rs as [|[k0 h0] rs IH]; cbn [find lookup]; [reflexivity|].
  destruct (String.eqb k k0); [reflexivity|exact IH].
Qed.

Lemma lits_app s ps ps' : lits s (ps ++ ps') = lits s ps ++ lits s ps'.
Proof.
  induction ps as [|[[m [|[s'|n] r]] h] ps IH]; cbn [app lits]; auto.
  destruct (String.eqb s s'); cbn [app]; [f_equal|]; exact IH.
Qed.
Lemma vars_app ps ps' : vars (ps ++ ps') = vars ps ++ vars ps'.
Proof.
  induction ps as [|[[m [|[s'|n] r]] h] ps IH]; cbn [app vars]; auto. f_equal; exact IH.
Qed.
Lemma names_app ps ps' : names (ps ++ ps') = names ps ++ names ps'.
Proof.
  induction ps as [|[[m [|[s'|n] r]] h] ps IH]; cbn [app names]; auto. f_equal; exact IH.
Qed.
Lemma at_end_app m ps ps' : at_end m (ps ++ ps') =
  match at_end m ps' with Some h => Some h | None => at_end m ps end.
Proof.
  induction ps as [|[[m' [|[s'|n] r]] h] ps IH]; cbn [app at_end]; auto.
  - now destruct (at_end m ps').
  - rewrite IH. destruct (at_end m ps'); reflexivity.
Qed.

Variable M : string -> Prop.      (* method names *)
Hypothesis M_nonempty : ~ M "".

Definition lit (s : string) : Prop := s <> "" /\ ~ M s.

Definition wf_seg (p : seg) : Prop :=
  match p with
  | Lit s => lit s /\ key_name s = (s, "")
  | Var n => key_name (render_seg (Var n)) = ("", n)
  end.
Definition wf_entry (e : entry H) : Prop :=
  M (fst (fst e)) /\ Forall wf_seg (snd (fst e)).

(** The tree of routes represents the table. *)
Inductive R : routes H -> list (entry H) -> Prop :=
| mkR rs ps :
    (forall s, lit s -> lookup s rs = None -> lits s ps = []) ->
    (forall s n, lit s -> lookup s rs = Some n ->
       exists r v, n = Node r v /\ lits s ps <> [] /\ R r (lits s ps)) ->
    (lookup "" rs = None -> vars ps = []) ->
    (forall n, lookup "" rs = Some n ->
       exists r v, n = Node r v /\ v = names ps /\ vars ps <> [] /\ R r (vars ps)) ->
    (forall m, M m -> lookup m rs = option_map Leaf (at_end m ps)) ->
    R rs ps.

Lemma R_nil : R [] [].
Proof.
  constructor; cbn; auto; intros; discriminate.
Qed.

Lemma lit_neq_method s m : lit s -> M m -> String.eqb m s = false.
Proof.
  intros [_ N] Hm. apply String.eqb_neq. intros ->. contradiction.
Qed.
Lemma lit_neq_empty s : lit s -> String.eqb s "" = false.
Proof. intros [N _]. now apply String.eqb_neq. Qed.
Lemma method_neq_empty m : M m -> String.eqb m "" = false.
Proof. intro Hm. apply String.eqb_neq. intros ->. contradiction. Qed.

Lemma app_ne {A} (a b : list A) : b <> [] -> a ++ b <> [].
Proof. intros N E. now apply app_eq_nil in E as [_ ->]. Qed.
Lemma app_ne_l {A} (a b : list A) : a <> [] -> a ++ b <> [].
Proof. intros N E. now apply app_eq_nil in E as [-> _]. Qed.

Lemma insert_R m segs h : M m -> Forall wf_seg segs -> forall rs ps, R rs ps ->
  R (handle_segs m (map render_seg segs) h rs) (ps ++ [(m, segs, h)]).
Proof.
  intros Hm W. induction W as [|p segs Wp W IH]; intros rs ps HR;
    inversion HR as [rs' ps' C1 C2 C3 C4 C5]; subst; cbn [map handle_segs].
  - constructor.
    + intros s L. rewrite lookup_set, lits_app. cbn [lits]. rewrite app_nil_r.
      assert (String.eqb s m = false) as ->.
      { rewrite String.eqb_sym. now apply lit_neq_method. }
      auto.
    + intros s n L. rewrite lookup_set, lits_app. cbn [lits]. rewrite app_nil_r.
      assert (String.eqb s m = false) as ->.
      { rewrite String.eqb_sym. now apply lit_neq_method. }
      auto.
    + rewrite lookup_set, vars_app. cbn [vars]. rewrite app_nil_r.
      rewrite String.eqb_sym, method_neq_empty by assumption. auto.
    + intro n. rewrite lookup_set, vars_app, names_app. cbn [vars names]. rewrite !app_nil_r.
      rewrite String.eqb_sym, method_neq_empty by assumption. auto.
    + intros m' Hm'. rewrite lookup_set, at_end_app. cbn [at_end].
      destruct (String.eqb m' m); [reflexivity|auto].
  - destruct p as [s0|n0].
    + destruct Wp as [L0 K]. cbn [render_seg]. rewrite K.
      rewrite lit_neq_empty by assumption.
      set (child := match lookup s0 rs with Some (Node r v) => (r, v) | _ => ([], []) end).
      assert (HC : R (fst child) (lits s0 ps)).
      { subst child. destruct (lookup s0 rs) as [n|] eqn:E.
        - destruct (C2 s0 n L0 E) as (r & v & -> & _ & X). exact X.
        - rewrite (C1 s0 L0 E). exact R_nil. }
      destruct child as [r v]. cbn [fst] in HC. specialize (IH r (lits s0 ps) HC).
      constructor.
      * intros s L. rewrite lookup_set, lits_app. cbn [lits].
        destruct (String.eqb s s0) eqn:E; [discriminate|]. rewrite app_nil_r. auto.
      * intros s n L. rewrite lookup_set, lits_app. cbn [lits].
        destruct (String.eqb s s0) eqn:E.
        -- intro X. injection X as <-. apply String.eqb_eq in E as ->.
           do 2 eexists. split; [reflexivity|]. split; [apply app_ne; discriminate|exact IH].
        -- rewrite app_nil_r. auto.
      * rewrite lookup_set, vars_app. cbn [vars]. rewrite app_nil_r.
        rewrite String.eqb_sym, lit_neq_empty by assumption. auto.
      * intro n. rewrite lookup_set, vars_app, names_app. cbn [vars names]. rewrite !app_nil_r.
        rewrite String.eqb_sym, lit_neq_empty by assumption. auto.
      * intros m' Hm'. rewrite lookup_set, at_end_app. cbn [at_end].
        rewrite lit_neq_method by assumption. auto.
    + cbn [wf_seg] in Wp. rewrite Wp. cbn [String.eqb].
      set (child := match lookup "" rs with Some (Node r v) => (r, v) | _ => ([], []) end).
      assert (HC : R (fst child) (vars ps) /\ snd child = names ps).
      { subst child. destruct (lookup "" rs) as [n|] eqn:E.
        - destruct (C4 n eq_refl) as (r & v & -> & Hv & _ & X). split; [exact X|exact Hv].
        - rewrite (C3 eq_refl). split; [exact R_nil|]. cbn [snd].
          specialize (C3 eq_refl). clear -C3.
          induction ps as [|[[m' [|[s'|n] r]] h'] ps IH]; cbn [vars names] in *; auto. discriminate. }
      destruct child as [r v]. cbn [fst snd] in HC. destruct HC as [HC ->].
      specialize (IH r (vars ps) HC).
      constructor.
      * intros s L. rewrite lookup_set, lits_app. cbn [lits]. rewrite app_nil_r.
        rewrite lit_neq_empty by assumption. auto.
      * intros s n L. rewrite lookup_set, lits_app. cbn [lits]. rewrite app_nil_r.
        rewrite lit_neq_empty by assumption. auto.
      * rewrite lookup_set. discriminate.
      * intro n. rewrite lookup_set. cbn [String.eqb]. intro X. injection X as <-.
        rewrite vars_app, names_app. cbn [vars names].
        do 2 eexists. split; [reflexivity|]. split; [reflexivity|].
        split; [apply app_ne; discriminate|exact IH].
      * intros m' Hm'. rewrite lookup_set, at_end_app. cbn [at_end].
        rewrite method_neq_empty by assumption. auto.
Qed.

(** The bindings made on the way. *)
Fixpoint binds (segs : list string) ps : list (string * string) :=
  match segs with
  | [] => []
  | s :: r =>
    match lits s ps with
    | [] => map (fun n => (n, s)) (names ps) ++ binds r (vars ps)
    | l => binds r l
    end
  end.

Definition p_of (segs : list string) : upath :=
  Some match segs with [] => [""] | _ => segs end.
Lemma rest_p_of s r : rest_path (p_of (s :: r)) = p_of r.
Proof. destruct r; reflexivity. Qed.

Lemma remaining_nil segs : remaining segs (@nil (entry H)) = [].
Proof. induction segs as [|x l IHl]; [reflexivity|exact IHl]. Qed.
Lemma serve_route method segs : M method -> Forall lit segs -> forall rs vs ps raw vals h, R rs ps ->
  route method segs ps = Some h ->
  serve (Node rs vs) method (p_of segs) raw vals = Served h (p_of []) (vals ++ binds segs ps).
Proof.
  intros Hm L. unfold route. induction L as [|s segs Ls L IH]; intros rs vs ps raw vals h HR HE;
    inversion HR as [rs' ps' C1 C2 C3 C4 C5]; subst; cbn [remaining binds] in *.
  - cbn [serve p_of first_seg String.eqb]. rewrite find_lookup, (C5 method Hm), HE.
    cbn [option_map serve]. now rewrite app_nil_r.
  - cbn [serve]. rewrite rest_p_of. cbn [p_of first_seg]. rewrite lit_neq_empty by assumption.
    rewrite !find_lookup.
    destruct (lookup s rs) as [n|] eqn:E.
    + destruct (C2 s n Ls E) as (r & v & -> & N & X).
      destruct (lits s ps) as [|e l] eqn:E2; [now destruct N|]. apply IH; auto.
    + rewrite (C1 s Ls E) in HE |- *.
      destruct (lookup "" rs) as [n|] eqn:E2.
      * destruct (C4 n eq_refl) as (r & v & -> & -> & N & X).
        rewrite (IH r (names ps) (vars ps) (Some (s :: segs)) _ h X HE). now rewrite app_assoc.
      * rewrite (C3 eq_refl) in HE. rewrite remaining_nil in HE. discriminate.
Qed.

(** The URL path handed to the not-found handler: the path one level up. *)
Fixpoint raw_at (segs : list string) (raw : upath) ps : upath :=
  match segs with
  | [] => raw
  | s :: r =>
    match lits s ps, vars ps with
    | [], [] => raw
    | [], l => raw_at r (p_of segs) l
    | l, _ => raw_at r (p_of segs) l
    end
  end.
Lemma serve_not_found method segs : M method -> Forall lit segs -> forall rs vs ps raw vals, R rs ps ->
  route method segs ps = None -> vars (remaining segs ps) = [] ->
  exists vals', serve (Node rs vs) method (p_of segs) raw vals = NotFound (raw_at segs raw ps) vals'.
Proof.
  intros Hm L. unfold route. induction L as [|s segs Ls L IH]; intros rs vs ps raw vals HR HE HV;
    inversion HR as [rs' ps' C1 C2 C3 C4 C5]; subst; cbn [remaining raw_at] in *.
  - cbn [serve p_of first_seg String.eqb]. rewrite !find_lookup, (C5 method Hm), HE.
    cbn [option_map]. destruct (lookup "" rs) as [n|] eqn:E.
    + destruct (C4 n eq_refl) as (r & v & -> & -> & N & X). contradiction.
    + eexists; reflexivity.
  - cbn [serve]. rewrite rest_p_of. cbn [p_of first_seg]. rewrite lit_neq_empty by assumption.
    rewrite !find_lookup.
    destruct (lookup s rs) as [n|] eqn:E.
    + destruct (C2 s n Ls E) as (r & v & -> & N & X).
      destruct (lits s ps) as [|e l] eqn:E2; [now destruct N|]. now apply IH.
    + rewrite (C1 s Ls E) in HE, HV |- *.
      destruct (lookup "" rs) as [n|] eqn:E2.
      * destruct (C4 n eq_refl) as (r & v & -> & -> & N & X).
        destruct (vars ps) as [|e l] eqn:E3; [now destruct N|]. now apply IH.
      * rewrite (C3 eq_refl). eexists; reflexivity.
Qed.

(** Any handler reached was registered for the request's method. *)
Lemma lits_in s ps m r (h : H) : In (m, r, h) (lits s ps) -> In (m, Lit s :: r, h) ps.
Proof.
  induction ps as [|[[m' [|[s'|n] r']] h'] ps IH]; cbn [lits]; intro I; [destruct I|right; auto| |right; auto].
  destruct (String.eqb s s') eqn:E; [|right; auto].
  destruct I as [I|I]; [|right; auto]. injection I as -> -> ->. apply String.eqb_eq in E as ->. now left.
Qed.
Lemma vars_in ps m r (h : H) : In (m, r, h) (vars ps) -> exists n, In (m, Var n :: r, h) ps /\ In n (names ps).
Proof.
  induction ps as [|[[m' [|[s'|n] r']] h'] ps IH]; cbn [vars names]; intro I; [destruct I| | |].
  - destruct (IH I) as (n & A & B). exists n. split; [now right|exact B].
  - destruct (IH I) as (n & A & B). exists n. split; [now right|exact B].
  - destruct I as [I|I].
    + injection I as -> -> ->. exists n. split; now left.
    + destruct (IH I) as (k & A & B). exists k. split; now right.
Qed.
Lemma at_end_in m ps (h : H) : at_end m ps = Some h -> In (m, [], h) ps.
Proof.
  induction ps as [|[[m' [|p r]] h'] ps IH]; cbn [at_end]; intro E; [discriminate| |right; auto].
  destruct (at_end m ps) as [h''|].
  - injection E as ->. right. auto.
  - destruct (String.eqb m m') eqn:E2; [|discriminate]. injection E as ->.
    apply String.eqb_eq in E2 as ->. now left.
Qed.

Lemma serve_method method : M method -> forall n rs vs ps segs raw vals h p vals',
  (forall e, In e ps -> (List.length (snd (fst e)) <= n)%nat) ->
  Forall lit segs -> R rs ps ->
  serve (Node rs vs) method (p_of segs) raw vals = Served h p vals' ->
  exists sg, In (method, sg, h) ps.
Proof.
  intro Hm. induction n as [|n IH]; intros rs vs ps segs raw vals h p vals' Hn L HR;
    inversion HR as [rs' ps' C1 C2 C3 C4 C5]; subst; cbn [serve]; rewrite !find_lookup.
  - assert (NoTail : (forall s, lits s ps = []) /\ vars ps = []).
    { split; [intro s|].
      - destruct (lits s ps) as [|[[m r] h0] l] eqn:E; [reflexivity|]. exfalso.
        assert (I : In (m, r, h0) (lits s ps)) by (rewrite E; now left).
        apply lits_in, Hn in I. cbn in I. lia.
      - destruct (vars ps) as [|[[m r] h0] l] eqn:E; [reflexivity|]. exfalso.
        assert (I : In (m, r, h0) (vars ps)) by (rewrite E; now left).
        apply vars_in in I as (k & I & _). apply Hn in I. cbn in I. lia. }
    destruct NoTail as [NL NV].
    assert (NE : lookup "" rs = None).
    { destruct (lookup "" rs) as [x|] eqn:E; [|reflexivity].
      destruct (C4 x eq_refl) as (r & v & _ & _ & N & _). contradiction. }
    rewrite NE. destruct segs as [|s segs].
    + cbn [p_of first_seg String.eqb]. rewrite (C5 method Hm).
      destruct (at_end method ps) as [h'|] eqn:E; cbn [option_map]; [|discriminate].
      intro X. injection X as <- _ _. exists []. now apply at_end_in.
    + inversion L as [|? ? Ls L']; subst. cbn [p_of first_seg]. rewrite lit_neq_empty by assumption.
      destruct (lookup s rs) as [x|] eqn:E; [|discriminate].
      destruct (C2 s x Ls E) as (r & v & _ & N & _). now destruct (N (NL s)).
  - assert (HL : forall s e, In e (lits s ps) -> (List.length (snd (fst e)) <= n)%nat).
    { intros s [[m r] h0] I. apply lits_in, Hn in I. cbn in I |- *. lia. }
    assert (HV : forall e, In e (vars ps) -> (List.length (snd (fst e)) <= n)%nat).
    { intros [[m r] h0] I. apply vars_in in I as (k & I & _). apply Hn in I. cbn in I |- *. lia. }
    assert (Var_case : forall segs' raw' vals'' , Forall lit segs' ->
      match match lookup "" rs with
        | Some h0 => Some (serve h0 method (p_of segs') raw' (vals'' h0))
        | None => None end with
      | Some r => r
      | None => NotFound raw vals end = Served h p vals' -> exists sg, In (method, sg, h) ps).
    { intros segs' raw' vals'' L' X. destruct (lookup "" rs) as [x|] eqn:E; [|discriminate].
      destruct (C4 x eq_refl) as (r & v & -> & -> & N & Y).
      apply IH with (ps := vars ps) in X as [sg I]; auto.
      apply vars_in in I as (k & I & _). eauto. }
    destruct segs as [|s segs].
    + cbn [p_of first_seg String.eqb rest_path]. rewrite (C5 method Hm).
      destruct (at_end method ps) as [h'|] eqn:E; cbn [option_map].
      * intro X. injection X as <- _ _. exists []. now apply at_end_in.
      * intro X. exact (Var_case [] (Some [""]) (fun h0 => vals ++ map (fun n0 => (n0, method)) match h0 with Leaf _ => [] | Node _ vs0 => vs0 end) (Forall_nil _) X).
    + inversion L as [|? ? Ls L']; subst. rewrite rest_p_of. cbn [p_of first_seg]. rewrite lit_neq_empty by assumption.
      destruct (lookup s rs) as [x|] eqn:E.
      * destruct (C2 s x Ls E) as (r & v & -> & N & Y). intro X.
        apply IH with (ps := lits s ps) in X as [sg I]; auto; [|apply HL].
        apply lits_in in I. eauto.
      * intro X. exact (Var_case segs (Some (s :: segs)) (fun h0 => vals ++ map (fun n0 => (n0, s)) match h0 with Leaf _ => [] | Node _ vs0 => vs0 end) L' X).
Qed.

(** The chosen pattern matches, and its placeholders are among the bindings. *)
Lemma route_matches method segs : forall ps (h : H), route method segs ps = Some h ->
  exists sg, In (method, sg, h) ps /\ matches sg segs /\
    forall i n, nth_error sg i = Some (Var n) ->
      exists v, nth_error segs i = Some v /\ In (n, v) (binds segs ps).
Proof.
  unfold route. induction segs as [|s segs IH]; intros ps h E; cbn [remaining binds] in *.
  - exists []. split; [now apply at_end_in|]. split; [constructor|]. intros [|i] n X; discriminate.
  - destruct (lits s ps) as [|e l] eqn:EL.
    + destruct (IH _ _ E) as (sg & I & Mt & B). apply vars_in in I as (n & I & In_n).
      exists (Var n :: sg). split; [exact I|]. split; [now constructor|].
      intros [|i] n' X; cbn in X |- *.
      * injection X as <-. exists s. split; [reflexivity|]. apply in_or_app. left.
        apply in_map_iff. eauto.
      * destruct (B i n' X) as (v & V1 & V2). exists v. split; [exact V1|]. apply in_or_app. now right.
    + destruct (IH _ _ E) as (sg & I & Mt & B). rewrite <- EL in I. apply lits_in in I.
      exists (Lit s :: sg). split; [exact I|]. split; [now constructor|].
      intros [|i] n' X; cbn in X |- *; [discriminate|]. exact (B i n' X).
Qed.


Lemma names_in ps n : In n (names ps) -> exists m r (h : H), In (m, Var n :: r, h) ps.
Proof.
  induction ps as [|[[m' [|[s'|n'] r']] h'] ps IH]; cbn [names]; intro I; [destruct I| | |].
  - destruct (IH I) as (m & r & h & X). exists m, r, h. now right.
  - destruct (IH I) as (m & r & h & X). exists m, r, h. now right.
  - destruct I as [->|I]; [exists m', r', h'; now left|].
    destruct (IH I) as (m & r & h & X). exists m, r, h. now right.
Qed.
Lemma binds_place segs : forall ps d (f : string -> nat),
  (forall m sg (h : H) i n, In (m, sg, h) ps -> nth_error sg i = Some (Var n) -> f n = (d + i)%nat) ->
  forall n v, In (n, v) (binds segs ps) -> exists i, f n = (d + i)%nat /\ nth_error segs i = Some v.
Proof.
  induction segs as [|s segs IH]; intros ps d f Hf n v I; cbn [binds] in I; [destruct I|].
  destruct (lits s ps) as [|e l] eqn:EL.
  - apply in_app_or in I as [I|I].
    + apply in_map_iff in I as (n' & E & I). injection E as -> ->.
      apply names_in in I as (m & r & h & I). exists 0%nat. split; [|reflexivity].
      apply (Hf m (Var n :: r) h 0%nat n I eq_refl).
    + destruct (IH (vars ps) (S d) f) with (n := n) (v := v) as (i & A & B); auto.
      * intros m sg h i n' J K. apply vars_in in J as (k & J & _).
        rewrite (Hf m (Var k :: sg) h (S i) n' J K). lia.
      * exists (S i). split; [lia|exact B].
  - rewrite <- EL in I.
    destruct (IH (lits s ps) (S d) f) with (n := n) (v := v) as (i & A & B); auto.
    + intros m sg h i n' J K. apply lits_in in J.
      rewrite (Hf m (Lit s :: sg) h (S i) n' J K). lia.
    + exists (S i). split; [lia|exact B].
Qed.

Lemma path_value_unique n v vals : In (n, v) vals -> (forall v', In (n, v') vals -> v' = v) ->
  path_value n vals = v.
Proof.
  induction vals as [|[n' v'] vals IH]; intros I U; [destruct I|]. cbn [path_value].
  destruct (existsb _ vals) eqn:E.
  - apply existsb_exists in E as ([n2 v2] & I2 & E2). cbn in E2. apply String.eqb_eq in E2 as ->.
    apply IH; [|intros; apply U; now right].
    rewrite (U v2 (or_intror I2)) in I2. exact I2.
  - destruct I as [I|I].
    + injection I as -> ->. now rewrite String.eqb_refl.
    + exfalso. assert (existsb (fun p => String.eqb (fst p) n) vals = true); [|congruence].
      apply existsb_exists. exists (n, v). split; [exact I|]. apply String.eqb_refl.
Qed.

Lemma serve_bound method segs rs vs ps raw h : M method -> Forall lit segs -> R rs ps ->
  one_place ps -> route method segs ps = Some h ->
  exists sg vals, serve (Node rs vs) method (p_of segs) raw [] = Served h (p_of []) vals /\
    In (method, sg, h) ps /\ matches sg segs /\
    forall i n, nth_error sg i = Some (Var n) ->
      exists v, nth_error segs i = Some v /\ path_value n vals = v.
Proof.
  intros Hm L HR [f Hf] E. destruct (route_matches _ _ _ _ E) as (sg & I & Mt & B).
  exists sg, (binds segs ps). split; [exact (serve_route method segs Hm L rs vs ps raw [] h HR E)|].
  split; [exact I|]. split; [exact Mt|]. intros i n X. destruct (B i n X) as (v & V1 & V2).
  exists v. split; [exact V1|]. apply path_value_unique; [exact V2|].
  intros v' J. destruct (binds_place segs ps 0 f Hf n v' J) as (i' & A' & B').
  destruct (binds_place segs ps 0 f Hf n v V2) as (i2 & A2 & B2). cbn in *. congruence.
Qed.
End Router.

(** ** Strings *)
Lemma split_no c s : has_char c s = false -> split c s = [s].
Proof.
  induction s as [|a s IH]; cbn [has_char split]; intro E; [reflexivity|].
  apply orb_false_elim in E as [E1 E2]. rewrite E1, (IH E2). reflexivity.
Qed.
Lemma split_cons c s t : has_char c s = false -> split c (s ++ String c t) = s :: split c t.
Proof.
  induction s as [|a s IH]; cbn [has_char split append]; intro E.
  - now rewrite Ascii.eqb_refl.
  - apply orb_false_elim in E as [E1 E2]. now rewrite E1, (IH E2).
Qed.
Lemma split_concat l : l <> [] -> Forall (fun s => has_char slash s = false) l ->
  split slash (String.concat "/" l) = l.
Proof.
  intros N F. induction F as [|s l Hs F IH]; [now destruct N|].
  destruct l as [|t l]; [now apply split_no|].
  change (String.concat "/" (s :: t :: l)) with (s ++ String slash (String.concat "/" (t :: l)))%string.
  rewrite split_cons by exact Hs. now rewrite IH.
Qed.
Lemma cut_no_char c m t : has_char c m = false -> cut c (m ++ String c t) = (m, t, true).
Proof.
  induction m as [|a m IH]; cbn [has_char append cut]; intro E.
  - now rewrite Ascii.eqb_refl.
  - apply orb_false_elim in E as [E1 E2]. now rewrite E1, (IH E2).
Qed.
Lemma pat_segs_good l b : Forall (fun s => s <> "") l -> pat_segs b l = l.
Proof.
  intro F. revert b. induction F as [|s l N F IH]; intro b; [reflexivity|]. cbn [pat_segs].
  replace (String.eqb s "") with false by (symmetry; now apply String.eqb_neq). now rewrite IH.
Qed.
Lemma pat_segs_rendered l : Forall (fun s => s <> "") l -> Forall (fun s => has_char slash s = false) l ->
  pat_segs false (split slash (String slash (String.concat "/" l))) = l.
Proof.
  intros N F. cbn [split]. rewrite Ascii.eqb_refl. destruct l as [|s l].
  - reflexivity.
  - rewrite split_concat by (auto; discriminate). cbn [pat_segs]. change (String.eqb "" "") with true.
    cbn iota. exact (pat_segs_good (s :: l) true N).
Qed.
Lemma handle_rendered {H} m segs (h : H) rs : has_char space m = false ->
  Forall (fun p => render_seg p <> "" /\ has_char slash (render_seg p) = false) segs ->
  handle (render m segs) h rs = handle_segs m (map render_seg segs) h rs.
Proof.
  intros Hm F. unfold handle, render.
  change (m ++ " /" ++ String.concat "/" (map render_seg segs))%string
    with (m ++ String space (String slash (String.concat "/" (map render_seg segs))))%string.
  rewrite cut_no_char by exact Hm. f_equal. apply pat_segs_rendered.
  - apply Forall_map. eapply Forall_impl; [|exact F]. cbn. tauto.
  - apply Forall_map. eapply Forall_impl; [|exact F]. cbn. tauto.
Qed.
Lemma parse_rendered segs : Forall good_seg segs -> parse_path (render_path segs) = p_of segs.
Proof.
  intro F. unfold render_path, p_of. cbn [append parse_path].
  destruct segs as [|s segs]; [reflexivity|]. f_equal. apply split_concat; [discriminate|].
  eapply Forall_impl; [|exact F]. unfold good_seg. cbn. tauto.
Qed.

Lemma unsnoc_app s a : unsnoc (s ++ String a "") = Some (s, a).
Proof. induction s as [|b s IH]; [reflexivity|]. cbn [append unsnoc]. now rewrite IH. Qed.
Lemma append_length s t : String.length (s ++ t) = (String.length s + String.length t)%nat.
Proof. induction s as [|b s IH]; [reflexivity|]. cbn [append String.length]. now rewrite IH. Qed.
Lemma key_name_var n : n <> "" -> key_name (render_seg (Var n)) = ("", n).
Proof.
  intro N. cbn [render_seg append key_name]. rewrite unsnoc_app.
  replace (Nat.ltb 2 _) with true; [reflexivity|]. symmetry. apply Nat.ltb_lt.
  cbn [String.length]. rewrite append_length. cbn [String.length].
  destruct n; [now destruct N|]. cbn [String.length]. lia.
Qed.
Lemma key_name_lit s : (forall r, s <> String "{"%char r) -> key_name s = (s, "").
Proof.
  intro N. destruct s as [|a r]; [reflexivity|]. unfold key_name.
  destruct a as [[|] [|] [|] [|] [|] [|] [|] [|]]; try reflexivity.
  exfalso. exact (N r eq_refl).
Qed.
Lemma has_char_app c s t : has_char c (s ++ t) = has_char c s || has_char c t.
Proof. induction s as [|b s IH]; [reflexivity|]. cbn [append has_char]. now rewrite IH, orb_assoc. Qed.
Lemma good_pat_render p : good_pat_seg p -> render_seg p <> "" /\ has_char slash (render_seg p) = false.
Proof.
  destruct p as [s|n]; cbn [good_pat_seg render_seg].
  - intros [[A B] _]. split; assumption.
  - intros [A B]. split; [discriminate|]. rewrite !has_char_app. unfold slash. now rewrite B.
Qed.

Lemma serve_short {H} (M : string -> Prop) (Me : ~ M "") method segs : M method -> Forall (lit M) segs ->
  forall rs vs (ps : list (entry H)) raw vals h, R M rs ps ->
  route method segs ps = None -> at_end method (vars (remaining segs ps)) = Some h ->
  exists p vals', serve (Node rs vs) method (p_of segs) raw vals = Served h p vals' /\
    forall n, In n (names (remaining segs ps)) -> path_value n vals' = method.
Proof.
  intros Hm L. unfold route. induction L as [|s segs Ls L IH]; intros rs vs ps raw vals h HR HE HV;
    inversion HR as [rs' ps' C1 C2 C3 C4 C5]; subst; cbn [remaining] in *.
  - cbn [serve p_of first_seg String.eqb rest_path]. rewrite !find_lookup, (C5 method Hm), HE.
    cbn [option_map]. destruct (lookup "" rs) as [n|] eqn:E.
    + destruct (C4 n eq_refl) as (r & v & -> & -> & N & X).
      inversion X as [rs' ps' D1 D2 D3 D4 D5]; subst.
      cbn [serve first_seg String.eqb]. rewrite find_lookup, (D5 method Hm), HV. cbn [option_map serve].
      do 2 eexists. split; [reflexivity|]. intros n I. clear -I.
      revert vals. induction (names ps) as [|n' l IH] using rev_ind; intro vals; [destruct I|].
      rewrite map_app, app_assoc. cbn [map].
      assert (G : forall u, path_value n (u ++ [(n', method)]) =
                if String.eqb n' n then method else path_value n u).
      { clear. induction u as [|[a b] u IHu]; cbn [app path_value existsb].
        - destruct (String.eqb n' n); reflexivity.
        - rewrite existsb_app. cbn [existsb fst]. rewrite orb_false_r, IHu.
          destruct (String.eqb n' n); [now rewrite orb_true_r|]. now rewrite orb_false_r. }
      rewrite G. destruct (String.eqb n' n) eqn:E; [reflexivity|].
      apply in_app_or in I as [I|[I|[]]]; [auto|]. subst. now rewrite String.eqb_refl in E.
    + rewrite (C3 eq_refl) in HV. discriminate.
  - cbn [serve]. rewrite rest_p_of. cbn [p_of first_seg]. rewrite lit_neq_empty with (M := M) by assumption.
    rewrite !find_lookup.
    destruct (lookup s rs) as [n|] eqn:E.
    + destruct (C2 s n Ls E) as (r & v & -> & N & X).
      destruct (lits s ps) as [|e l] eqn:E2; [now destruct N|]. now apply IH.
    + rewrite (C1 s Ls E) in HE, HV |- *.
      destruct (lookup "" rs) as [n|] eqn:E2.
      * destruct (C4 n eq_refl) as (r & v & -> & -> & N & X). now apply IH.
      * rewrite (C3 eq_refl), remaining_nil in HV. discriminate.
Qed.
Lemma serve_method_name {H} (M : string -> Prop) m (h : H) rs vs ps method rest raw vals :
  M m -> ~ M "" -> R M rs ps -> at_end m ps = Some h ->
  serve (Node rs vs) method (p_of (m :: rest)) raw vals = Served h (p_of rest) vals.
Proof.
  intros Hm Me HR E. inversion HR as [rs' ps' C1 C2 C3 C4 C5]; subst.
  cbn [serve]. rewrite rest_p_of. cbn [p_of first_seg].
  replace (String.eqb m "") with false by (symmetry; apply String.eqb_neq; intros ->; contradiction).
  rewrite find_lookup, (C5 m Hm), E. reflexivity.
Qed.

Lemma exists_bound {H} (t : list (entry H)) : exists n, forall e, In e t -> (List.length (snd (fst e)) <= n)%nat.
Proof.
  induction t as [|e t [n IH]]; [exists 0%nat; intros e []|].
  exists (Nat.max (List.length (snd (fst e))) n). intros e' [<-|I]; [lia|]. specialize (IH _ I). lia.
Qed.

Section Tables.
Context {H : Type}.
Variable M : string -> Prop.
Hypothesis M_nonempty : ~ M "".
Hypothesis M_nospace : forall m, M m -> has_char space m = false.


Lemma build_R (t : list (entry H)) : Forall (good_entry M) t -> R M (build (patterns t)) t.
Proof.
  unfold build. rewrite <- (rev_involutive t). generalize (rev t) as u. clear t.
  induction u as [|[[m segs] h] u IH]; intro F; cbn [rev] in *.
  - exact (R_nil M).
  - apply Forall_app in F as [F1 F2]. inversion F2 as [|? ? [G1 G2] _]; subst. cbn [fst snd] in *.
    unfold patterns in *. rewrite map_app, fold_left_app. cbn [map fold_left fst snd].
    rewrite handle_rendered.
    + apply insert_R; auto. eapply Forall_impl; [|exact G2]. clear -M_nonempty. intros [s|n] [G L].
      * destruct G as [[G1 G1'] G2]. repeat split; auto. now apply key_name_lit.
      * destruct G as [G1 G2]. now apply key_name_var.
    + now apply M_nospace.
    + eapply Forall_impl; [|exact G2]. intros p [G _]. now apply good_pat_render.
Qed.
End Tables.
