(** Proofs about package wasm: arguments and results in words (api/wasm/export.go). *)
From Verif Require Import GoBase GoText WasmModel.
Local Open Scope Z_scope.
Local Open Scope list_scope.

(** ** Specification *)
Definition width (w : Z) : Prop := w = 8 \/ w = 16 \/ w = 32 \/ w = 64.
(** The values of a type. *)
Definition wt_prim (p : prim) (v : value) : Prop :=
  match p, v with
  | PBool, VBool _ => True
  | PInt w, VInt z => - 2 ^ (w - 1) <= z < 2 ^ (w - 1)
  | PUint w, VInt z => 0 <= z < 2 ^ w
  | PF32, VBits z => 0 <= z < 2 ^ 32
  | PF64, VBits z => 0 <= z < 2 ^ 64
  | PC64, VComplex a b => 0 <= a < 2 ^ 32 /\ 0 <= b < 2 ^ 32
  | PC128, VComplex a b => 0 <= a < 2 ^ 64 /\ 0 <= b < 2 ^ 64
  | PString, VString _ => True
  | POther, VOther => True
  | _, _ => False
  end.
Inductive wt : ty -> value -> Prop :=
| wt_p p v : wt_prim p v -> wt (Prim p) v
| wt_struct fs vs : Forall2 (fun f v => wt (snd f) v) fs vs -> wt (Struct fs) (VStruct vs)
| wt_array n t vs : length vs = n -> Forall (wt t) vs -> wt (Array n t) (VArray vs).
(** Types of numbers, and structs of exported fields and arrays of such. *)
Inductive passable : ty -> Prop :=
| p_bool : passable (Prim PBool)
| p_int w : width w -> passable (Prim (PInt w))
| p_uint w : width w -> passable (Prim (PUint w))
| p_f32 : passable (Prim PF32) | p_f64 : passable (Prim PF64) | p_c64 : passable (Prim PC64) | p_c128 : passable (Prim PC128)
| p_struct fs : Forall (fun f => fst f = true /\ passable (snd f)) fs -> passable (Struct fs)
| p_array n t : passable t -> passable (Array n t).
(** Words are of 64 bits. *)
Definition words (st : list Z) : Prop := Forall (fun x => 0 <= x < 2 ^ 64) st.

(** ** Lemmas *)
Fixpoint ty_ind' (P : ty -> Prop) (HP : forall p, P (Prim p)) (HS : forall fs, Forall (fun f => P (snd f)) fs -> P (Struct fs)) (HA : forall n t, P t -> P (Array n t)) (t : ty) : P t :=
  match t with
  | Prim p => HP p
  | Struct fs => HS fs ((fix go l : Forall (fun f => P (snd f)) l := match l with [] => Forall_nil _ | f :: r => Forall_cons _ (ty_ind' P HP HS HA (snd f)) (go r) end) fs)
  | Array n t => HA n t (ty_ind' P HP HS HA t)
  end.
Fixpoint decode_fields (l : list (bool * ty)) (st : list Z) : option (list value * list Z) :=
  match l with
  | [] => Some ([], st)
  | (exported, t) :: r =>
    match decode t st with
    | None => None
    | Some (v, st) => if exported then match decode_fields r st with Some (vs, st) => Some (v :: vs, st) | None => None end else None
    end
  end.
Lemma decode_struct fs st : decode (Struct fs) st = if size0 (Struct fs) then Some (zero0 (Struct fs), st) else match decode_fields fs st with Some (vs, st) => Some (VStruct vs, st) | None => None end.
Proof. reflexivity. Qed.
Fixpoint decode_elems (t : ty) (n : nat) (st : list Z) : option (list value * list Z) :=
  match n with
  | O => Some ([], st)
  | S n => match decode t st with None => None | Some (v, st) => match decode_elems t n st with Some (vs, st) => Some (v :: vs, st) | None => None end end
  end.
Lemma decode_array n t st : decode (Array n t) st = if size0 (Array n t) then Some (zero0 (Array n t), st) else match decode_elems t n st with Some (vs, st) => Some (VArray vs, st) | None => None end.
Proof.
  cbn [decode]. destruct (size0 (Array n t)); [reflexivity|].
  assert (E : forall n st, (fix go (n : nat) (st : list Z) : option (list value * list Z) :=
      match n with
      | O => Some ([], st)
      | S n => match decode t st with None => None | Some (v, st) => match go n st with Some (vs, st) => Some (v :: vs, st) | None => None end end
      end) n st = decode_elems t n st).
  { clear. induction n as [|n IH]; intros st; [reflexivity|]. cbn [decode_elems]. destruct (decode t st) as [[v st']|]; [|reflexivity]. rewrite IH. reflexivity. }
  rewrite E. reflexivity.
Qed.
Definition field_types (fs : list (bool * ty)) : list valtype := concat (map (fun f => valtypes (snd f)) fs).
Lemma valtypes_struct fs : valtypes (Struct fs) = field_types fs.
Proof. cbn [valtypes]. unfold field_types. induction fs as [|(x & t) fs IH]; [reflexivity|]. cbn [map concat snd]. rewrite <- IH. reflexivity. Qed.
Lemma size0_struct fs : size0 (Struct fs) = forallb (fun f => size0 (snd f)) fs.
Proof. cbn [size0]. induction fs as [|(x & t) fs IH]; [reflexivity|]. cbn [forallb snd]. rewrite <- IH. reflexivity. Qed.
Lemma zero0_struct fs : zero0 (Struct fs) = VStruct (map (fun f => zero0 (snd f)) fs).
Proof. cbn [zero0]. f_equal. induction fs as [|(x & t) fs IH]; [reflexivity|]. cbn [map snd]. rewrite <- IH. reflexivity. Qed.
(** Types of size 0 take no words and have one value. *)
Lemma size0_valtypes t : size0 t = true -> valtypes t = [].
Proof.
  induction t as [p|fs IH|n t IH] using ty_ind'; [discriminate| |].
  - rewrite size0_struct, valtypes_struct. unfold field_types. intros S'. induction IH as [|f fs H F IHf]; [reflexivity|]. cbn in S' |- *. apply andb_true_iff in S'. destruct S' as (S1 & S2). rewrite (H S1), (IHf S2). reflexivity.
  - cbn [size0 valtypes]. intros S'. apply orb_true_iff in S'. destruct S' as [S'|S']; [apply Nat.eqb_eq in S'; subst n; reflexivity|]. rewrite (IH S'). clear. induction n; [reflexivity|]. exact IHn.
Qed.
Lemma size0_value t v : size0 t = true -> wt t v -> v = zero0 t.
Proof.
  revert v. induction t as [p|fs IH|n t IH] using ty_ind'; intros v S' W; [discriminate| |].
  - rewrite zero0_struct. rewrite size0_struct in S'. inversion W as [|fs' vs F|]; subst. f_equal. clear W. revert vs F. induction IH as [|f fs H F' IHf]; intros vs F; inversion F as [|? v ? vs' F1 F2]; subst; [reflexivity|]. cbn in S'. apply andb_true_iff in S'. destruct S' as (S1 & S2). cbn [map]. rewrite (H v S1 F1), (IHf S2 vs' F2). reflexivity.
  - inversion W as [| |n' t' vs L F]; subst. cbn [zero0]. f_equal. cbn [size0] in S'. apply orb_true_iff in S'. destruct S' as [S'|S'].
    + apply Nat.eqb_eq in S'. destruct vs; [reflexivity|discriminate].
    + clear W. induction F as [|v vs F1 F IHf]; [reflexivity|]. cbn [length repeat]. rewrite (IH v S' F1), IHf at 1. reflexivity.
Qed.
Lemma size0_wt t : size0 t = true -> wt t (zero0 t).
Proof.
  induction t as [p|fs IH|n t IH] using ty_ind'; intros S'; [discriminate| |].
  - rewrite zero0_struct. rewrite size0_struct in S'. constructor. induction IH as [|f fs H F IHf]; constructor; cbn in S'; apply andb_true_iff in S'; destruct S' as (S1 & S2); auto.
  - cbn [zero0]. constructor; [apply repeat_length|]. cbn [size0] in S'. apply orb_true_iff in S'. destruct S' as [S'|S']; [apply Nat.eqb_eq in S'; subst n; constructor|]. clear - IH S'. induction n; constructor; auto.
Qed.
Lemma skipn_skipn' {A} n m (l : list A) : skipn n (skipn m l) = skipn (m + n) l.
Proof. revert l. induction m as [|m IH]; intros l; [reflexivity|]. destruct l; [rewrite !skipn_nil; reflexivity|]. apply IH. Qed.
Lemma mod_lt x w : 0 < w -> 0 <= x mod 2 ^ w < 2 ^ w.
Proof. intros. apply Z.mod_pos_bound. apply Z.pow_pos_nonneg; lia. Qed.
Lemma signed_range w x : 0 < w -> - 2 ^ (w - 1) <= signed w x < 2 ^ (w - 1).
Proof.
  intros W. unfold signed. pose proof (mod_lt x w W). assert (2 ^ w = 2 * 2 ^ (w - 1)) by (replace w with (1 + (w - 1)) at 1 by lia; rewrite Z.pow_add_r by lia; reflexivity).
  destruct (x mod 2 ^ w <? 2 ^ (w - 1)) eqn:E; [apply Z.ltb_lt in E|apply Z.ltb_ge in E]; lia.
Qed.
Lemma signed_mod w x : 0 < w -> signed w (x mod 2 ^ w) = signed w x.
Proof. intros W. unfold signed. rewrite Z.mod_mod by (apply Z.pow_nonzero; lia). reflexivity. Qed.
Lemma signed_id w z : 0 < w -> - 2 ^ (w - 1) <= z < 2 ^ (w - 1) -> signed w z = z.
Proof.
  intros W R. unfold signed. assert (D : 2 ^ w = 2 * 2 ^ (w - 1)) by (replace w with (1 + (w - 1)) at 1 by lia; rewrite Z.pow_add_r by lia; reflexivity).
  destruct (Z_le_gt_dec 0 z) as [P|N].
  - rewrite Z.mod_small by lia. replace (z <? 2 ^ (w - 1)) with true by lia. reflexivity.
  - assert (M : z mod 2 ^ w = z + 2 ^ w). { symmetry. apply Z.mod_unique_pos with (q := -1); lia. } rewrite M. replace (z + 2 ^ w <? 2 ^ (w - 1)) with false by lia. lia.
Qed.
Lemma width_pos w : width w -> 0 < w.
Proof. intros [-> | [-> | [-> | ->]]]; lia. Qed.
(** ** C115 *)
(** A value of any word is read from as many words as its type has, if there are. *)
Theorem C115_slots t st : passable t -> words st -> (length (valtypes t) <= length st)%nat -> exists v, decode t st = Some (v, skipn (length (valtypes t)) st) /\ wt t v.
Proof.
  revert st. induction t as [p|fs IH|n t IH] using ty_ind'; intros st P WS L.
  - assert (G : forall x r, words (x :: r) -> 0 <= x < 2 ^ 64) by (intros x r W; inversion W; assumption).
    assert (G2 : forall x y r, words (x :: y :: r) -> 0 <= y < 2 ^ 64) by (intros x y r W; inversion W as [|? ? ? W2]; inversion W2; assumption).
    assert (M32 : forall x, 0 <= x mod 2 ^ 32 < 2 ^ 32) by (intros; apply mod_lt; lia).
    inversion P as [|w WD|w WD| | | | | |]; subst; cbn [valtypes valtypes_prim length] in L; cbn [decode size0 decode_prim]; destruct st as [|x st]; cbn [length] in L; try lia; try (destruct st as [|y st]; cbn [length] in L; [lia|]);
      (eexists; split; [reflexivity|]; constructor; cbn [wt_prim]; auto).
    + apply signed_range. apply width_pos. exact WD.
    + apply mod_lt. apply width_pos. exact WD.
    + eapply G. exact WS.
    + split; [eapply G; exact WS|eapply G2; exact WS].
  - destruct (size0 (Struct fs)) eqn:S0.
    + rewrite decode_struct, S0. exists (zero0 (Struct fs)). rewrite (size0_valtypes _ S0). split; [reflexivity|]. apply size0_wt. exact S0.
    + rewrite decode_struct, S0, valtypes_struct. rewrite valtypes_struct in L. inversion P as [| | | | | | |fs' F|]; subst. clear P S0.
      assert (G : exists vs, decode_fields fs st = Some (vs, skipn (length (field_types fs)) st) /\ Forall2 (fun f v => wt (snd f) v) fs vs).
      { revert st WS L F. unfold field_types. induction IH as [|(x & t) fs H F' IHf]; intros st WS L F; [exists []; split; [reflexivity|constructor]|]. inversion F as [|? ? (X & PT) F2]; subst. cbn [fst snd] in *. subst x. cbn [map concat snd] in L. rewrite app_length in L.
        destruct (H st PT WS ltac:(lia)) as (v & D & W). destruct (IHf (skipn (length (valtypes t)) st)) as (vs & DF & WF); [|rewrite skipn_length; lia|exact F2|].
        { unfold words in *. rewrite Forall_forall in *. intros z I. apply WS. rewrite <- (firstn_skipn (length (valtypes t)) st). apply in_app_iff. right. exact I. }
        exists (v :: vs). cbn [decode_fields]. rewrite D, DF. cbn [map concat snd]. rewrite app_length, skipn_skipn'. split; [reflexivity|]. constructor; assumption. }
      destruct G as (vs & -> & W). exists (VStruct vs). split; [reflexivity|]. constructor. exact W.
  - destruct (size0 (Array n t)) eqn:S0.
    + rewrite decode_array, S0. exists (zero0 (Array n t)). rewrite (size0_valtypes _ S0). split; [reflexivity|]. apply size0_wt. exact S0.
    + rewrite decode_array, S0. cbn [valtypes] in *. inversion P as [| | | | | | | |n' t' PT]; subst. clear P S0.
      assert (G : exists vs, decode_elems t n st = Some (vs, skipn (length (concat (repeat (valtypes t) n))) st) /\ length vs = n /\ Forall (wt t) vs).
      { revert st WS L. induction n as [|n IHn]; intros st WS L; [exists []; repeat split; constructor|]. cbn [repeat concat] in L. rewrite app_length in L.
        destruct (IH st PT WS ltac:(lia)) as (v & D & W). destruct (IHn (skipn (length (valtypes t)) st)) as (vs & DF & LV & WF); [|rewrite skipn_length; lia|].
        { unfold words in *. rewrite Forall_forall in *. intros z I. apply WS. rewrite <- (firstn_skipn (length (valtypes t)) st). apply in_app_iff. right. exact I. }
        exists (v :: vs). cbn [decode_elems]. rewrite D, DF. cbn [repeat concat]. rewrite app_length, skipn_skipn'. split; [reflexivity|]. split; [cbn; congruence|constructor; assumption]. }
      destruct G as (vs & -> & LV & W). exists (VArray vs). split; [reflexivity|]. constructor; assumption.
Qed.
Section Strings.
Variable new_string : bytes -> Z.
Notation encode := (encode new_string).
Notation encode_prim := (encode_prim new_string).
Fixpoint encode_fields (l : list (bool * ty)) (vs : list value) (st : list Z) : option (list Z * list Z) :=
  match l, vs with
  | [], [] => Some ([], st)
  | (_, t) :: r, v :: vs => match encode t v st with Some (w, st) => match encode_fields r vs st with Some (ws, st) => Some (w ++ ws, st) | None => None end | None => None end
  | _, _ => None
  end.
Lemma encode_struct fs vs st : encode (Struct fs) (VStruct vs) st = encode_fields fs vs st.
Proof. reflexivity. Qed.
Fixpoint encode_elems (t : ty) (vs : list value) (st : list Z) : option (list Z * list Z) :=
  match vs with
  | [] => Some ([], st)
  | v :: vs => match encode t v st with Some (w, st) => match encode_elems t vs st with Some (ws, st) => Some (w ++ ws, st) | None => None end | None => None end
  end.
Lemma encode_array n t vs st : encode (Array n t) (VArray vs) st = encode_elems t vs st.
Proof. cbn [WasmModel.encode]. revert st. induction vs as [|v vs IH]; intros st; try reflexivity. cbn [encode_elems]. destruct (encode t v st) as [[w st']|]; [|reflexivity]. rewrite <- IH. reflexivity. Qed.
Lemma stale_signed w old z : width w -> - 2 ^ (w - 1) <= z < 2 ^ (w - 1) -> signed w (old - old mod 2 ^ w + z mod 2 ^ w) = z.
Proof.
  intros W R. apply width_pos in W. rewrite <- signed_mod by exact W.
  replace ((old - old mod 2 ^ w + z mod 2 ^ w) mod 2 ^ w) with (z mod 2 ^ w).
  - rewrite signed_mod by exact W. apply signed_id; assumption.
  - pose proof (Z.div_mod old (2 ^ w) ltac:(apply Z.pow_nonzero; lia)) as D. replace (old - old mod 2 ^ w) with ((old / 2 ^ w) * 2 ^ w) by lia. rewrite Z.add_comm, Z.mod_add by (apply Z.pow_nonzero; lia). rewrite Z.mod_mod by (apply Z.pow_nonzero; lia). reflexivity.
Qed.
(** Whatever the words held before: a value written is read back, from the words of its type. *)
Theorem C115_round_trip t v st : passable t -> wt t v -> (length (valtypes t) <= length st)%nat ->
  exists ws, encode t v st = Some (ws, skipn (length (valtypes t)) st) /\ length ws = length (valtypes t) /\ forall rest, decode t (ws ++ rest) = Some (v, rest).
Proof.
  revert v st. induction t as [p|fs IH|n t IH] using ty_ind'; intros v st P W L.
  - inversion W as [? ? WP| |]; subst. inversion P as [|w WD|w WD| | | | | |]; subst; cbn [valtypes valtypes_prim length] in *; destruct v; try destruct WP; destruct st as [|x st]; cbn [length] in L; try lia; try (destruct st as [|y st]; cbn [length] in L; [lia|]); cbn [WasmModel.encode WasmModel.encode_prim length skipn].
    + eexists. split; [reflexivity|]. split; [reflexivity|]. intros rest. destruct b; reflexivity.
    + assert (X : exists y, (if w =? 8 then Some ([x - x mod 2 ^ 8 + z mod 2 ^ 8], st) else if w =? 16 then Some ([x - x mod 2 ^ 16 + z mod 2 ^ 16], st) else Some ([z mod 2 ^ w], st)) = Some ([y], st) /\ signed w y = z).
      { destruct WD as [-> | [-> | [-> | ->]]]; cbn [Z.eqb Pos.eqb]; eexists; (split; [reflexivity|]); [apply stale_signed; [left; reflexivity|lia]|apply stale_signed; [right; left; reflexivity|lia]|rewrite signed_mod by lia; apply signed_id; lia|rewrite signed_mod by lia; apply signed_id; lia]. }
      destruct X as (y & E & SY). exists [y]. split; [exact E|]. split; [reflexivity|]. intros rest. cbn [app decode size0 decode_prim]. rewrite SY. reflexivity.
    + eexists. split; [reflexivity|]. split; [reflexivity|]. intros rest. cbn [app decode size0 decode_prim]. rewrite Z.mod_mod by (apply Z.pow_nonzero; [lia|apply width_pos in WD; lia]). rewrite Z.mod_small by lia. reflexivity.
    + eexists. split; [reflexivity|]. split; [reflexivity|]. intros rest. cbn [app decode size0 decode_prim]. rewrite Z.mod_small by lia. reflexivity.
    + eexists. split; [reflexivity|]. split; [reflexivity|]. intros rest. reflexivity.
    + eexists. split; [reflexivity|]. split; [reflexivity|]. intros rest. cbn [app decode size0 decode_prim]. rewrite !Z.mod_small by lia. reflexivity.
    + eexists. split; [reflexivity|]. split; [reflexivity|]. intros rest. reflexivity.
  - inversion W as [|fs' vs FV|]; subst. inversion P as [| | | | | | |fs' F|]; subst. rewrite encode_struct, valtypes_struct. rewrite valtypes_struct in L.
    assert (G : exists ws, encode_fields fs vs st = Some (ws, skipn (length (field_types fs)) st) /\ length ws = length (field_types fs) /\ forall rest, decode_fields fs (ws ++ rest) = Some (vs, rest)).
    { clear W P. revert vs st L F FV. unfold field_types. induction IH as [|(x & t) fs H F' IHf]; intros vs st L F FV; inversion FV as [|? v ? vs' W1 W2]; subst; [exists []; repeat split|]. inversion F as [|? ? (X & PT) F2]; subst. cbn [fst snd] in *. subst x. cbn [map concat snd] in *. rewrite app_length in *.
      destruct (H v st PT W1 ltac:(lia)) as (w & E & LW & D). destruct (IHf vs' (skipn (length (valtypes t)) st)) as (ws & EF & LF & DF); [rewrite skipn_length; lia|assumption|assumption|].
      exists (w ++ ws). cbn [encode_fields]. rewrite E, EF, skipn_skipn'. split; [reflexivity|]. split; [rewrite app_length; lia|]. intros rest. cbn [decode_fields]. rewrite <- app_assoc, D, DF. reflexivity. }
    destruct G as (ws & E & LW & D). exists ws. split; [exact E|]. split; [exact LW|]. intros rest. rewrite decode_struct. destruct (size0 (Struct fs)) eqn:S0; [|rewrite D; reflexivity].
    pose proof (size0_valtypes _ S0) as VT. rewrite valtypes_struct in VT. rewrite VT in LW. destruct ws; [|discriminate]. rewrite <- (size0_value _ _ S0 W). reflexivity.
  - inversion W as [| |n' t' vs LV FV]; subst. inversion P as [| | | | | | | |n' t' PT]; subst. rewrite encode_array. cbn [valtypes] in *.
    assert (G : exists ws, encode_elems t vs st = Some (ws, skipn (length (concat (repeat (valtypes t) (length vs)))) st) /\ length ws = length (concat (repeat (valtypes t) (length vs))) /\ forall rest, decode_elems t (length vs) (ws ++ rest) = Some (vs, rest)).
    { clear W P. revert st L. induction FV as [|v vs W1 FV IHf]; intros st L; [exists []; repeat split|]. cbn [length repeat concat] in *. rewrite app_length in *.
      destruct (IH v st PT W1 ltac:(lia)) as (w & E & LW & D). destruct (IHf (skipn (length (valtypes t)) st)) as (ws & EF & LF & DF); [rewrite skipn_length; lia|].
      exists (w ++ ws). cbn [encode_elems]. rewrite E, EF, skipn_skipn'. split; [reflexivity|]. split; [rewrite app_length; lia|]. intros rest. cbn [decode_elems]. rewrite <- app_assoc, D, DF. reflexivity. }
    destruct G as (ws & E & LW & D). exists ws. split; [exact E|]. split; [exact LW|]. intros rest. rewrite decode_array. destruct (size0 (Array (length vs) t)) eqn:S0; [|rewrite D; reflexivity].
    pose proof (size0_valtypes _ S0) as VT. cbn [valtypes] in VT. rewrite VT in LW. destruct ws; [|discriminate]. rewrite <- (size0_value _ _ S0 W). reflexivity.
Qed.
(** ** Calls *)
(** The words of arguments, one after the other. *)
Fixpoint encode_args (ts : list ty) (vs : list value) : list Z :=
  match ts, vs with t :: ts, v :: vs => match encode t v (repeat 0 (length (valtypes t))) with Some (w, _) => w ++ encode_args ts vs | None => [] end | _, _ => [] end.
Lemma decode_all_args ts vs rest : Forall passable ts -> Forall2 wt ts vs -> decode_all ts (encode_args ts vs ++ rest) = Some vs.
Proof.
  intros P F. induction F as [|t v ts vs W F IH]; [reflexivity|]. inversion P as [|? ? P1 P2]; subst. cbn [encode_args decode_all].
  destruct (C115_round_trip t v (repeat 0 (length (valtypes t))) P1 W) as (w & E & _ & D); [rewrite repeat_length; lia|]. rewrite E, <- app_assoc, D, (IH P2). reflexivity.
Qed.
Lemma encode_args_length ts vs : Forall passable ts -> Forall2 wt ts vs -> length (encode_args ts vs) = length (concat (map valtypes ts)).
Proof.
  intros P F. induction F as [|t v ts vs W F IH]; [reflexivity|]. inversion P as [|? ? P1 P2]; subst. cbn [encode_args map concat].
  destruct (C115_round_trip t v (repeat 0 (length (valtypes t))) P1 W) as (w & E & LW & D); [rewrite repeat_length; lia|]. rewrite E, !app_length, LW, (IH P2). reflexivity.
Qed.
(** A function of numbers, structs and arrays, with one result of one word: it is called with the arguments, and
    the caller finds its result. *)
Theorem C115_call_partial {E} ts t vs v (impl : list value -> list value + E) pad : Forall passable ts -> Forall2 wt ts vs -> passable t -> wt t v -> length (valtypes t) = 1%nat ->
  let s := {| ctx := false; ins := ts; outs := [t]; err := false |} in
  length (encode_args ts vs ++ pad) = stack_length s -> impl vs = inl [v] ->
  results s = valtypes t /\ exists st, host_call new_string s impl (encode_args ts vs ++ pad) = Some st /\ length st = stack_length s /\ exists rest, decode t st = Some (v, rest).
Proof.
  intros PS FS PT WT ONE s L IM. assert (RS : results s = valtypes t). { unfold results, s. cbn [outs err map concat]. rewrite !app_nil_r, ONE. reflexivity. }
  split; [exact RS|]. unfold host_call. cbn [ins outs ctx s]. replace (match ts with [] => _ | _ => _ end) with (match decode_all ts (encode_args ts vs ++ pad) with
    | None => None
    | Some args =>
      match impl args with
      | inr _ => None
      | inl vs0 =>
        match Nat.max (length vs0) (length (results s)) with
        | O => Some (encode_args ts vs ++ pad)
        | S O => match vs0 with v :: _ => match encode t v (encode_args ts vs ++ pad) with Some (ws, rest) => Some (ws ++ rest) | None => None end | [] => None end
        | _ => None
        end
      end
    end) by (destruct ts; reflexivity).
  rewrite decode_all_args by assumption. rewrite IM, RS, ONE. cbn [length Nat.max].
  assert (LS : (1 <= length (encode_args ts vs ++ pad))%nat). { rewrite L. unfold stack_length. rewrite RS, ONE. lia. }
  destruct (C115_round_trip t v (encode_args ts vs ++ pad) PT WT) as (ws & EN & LW & D); [rewrite ONE; exact LS|]. rewrite EN. eexists. split; [reflexivity|]. split.
  - rewrite app_length, LW, ONE, skipn_length. rewrite <- L. lia.
  - eexists. apply D.
Qed.
(** One without results leaves the words as they are. *)
Theorem C115_call_nothing_partial {E} ts vs (impl : list value -> list value + E) pad : Forall passable ts -> Forall2 wt ts vs -> impl vs = inl [] ->
  let s := {| ctx := false; ins := ts; outs := []; err := false |} in results s = [] /\ host_call new_string s impl (encode_args ts vs ++ pad) = Some (encode_args ts vs ++ pad).
Proof.
  intros PS FS IM s. split; [reflexivity|]. unfold host_call. cbn [ins outs ctx s]. destruct ts as [|t ts]; [reflexivity|]. rewrite decode_all_args by assumption. rewrite IM. reflexivity.
Qed.
(** What a caller gets: the low 32 bits, for an i32. For bool, and numbers of 32 bits: the value. *)
Theorem C115_canonical_partial p v st w rest : (p = PBool \/ p = PInt 32 \/ exists k, width k /\ p = PUint k) -> wt_prim p v -> encode (Prim p) v st = Some ([w], rest) ->
  w = match v with VBool b => if b then 1 else 0 | VInt z => match p with PInt _ => z mod 2 ^ 32 | _ => z end | _ => 0 end.
Proof.
  intros K W E. cbn [WasmModel.encode] in E. destruct K as [->|[->|(k & KW & ->)]]; destruct v; try destruct W; cbn [WasmModel.encode_prim] in E; destruct st; try discriminate; cbn [Z.eqb Pos.eqb] in E; injection E as <- _; try reflexivity.
  apply Z.mod_small. lia.
Qed.
(** Of an int8 (or an int16) only the low bits are written: the others are those of an argument. *)
Theorem C115_narrow_refuted {E} (impl : list value -> list value + E) a : impl [VInt a] = inl [VInt (-1)] -> 0 <= a < 2 ^ 31 ->
  exists st, host_call new_string {| ctx := false; ins := [Prim (PInt 32)]; outs := [Prim (PInt 8)]; err := false |} impl [a] = Some [st] /\ st = a - a mod 256 + 255.
Proof.
  intros IM R. eexists. unfold host_call. cbn [ins outs ctx decode_all decode size0 decode_prim]. rewrite signed_id by lia. rewrite IM. split; reflexivity.
Qed.
(** A function that takes a string, a context, or returns an error (after arguments) panics. *)
Theorem C115_string_refuted {E} ts (impl : list value -> list value + E) os e st : host_call new_string {| ctx := false; ins := Prim PString :: ts; outs := os; err := e |} impl st = None.
Proof. unfold host_call. cbn [ins outs ctx]. reflexivity. Qed.
Theorem C115_context_refuted {E} t ts (impl : list value -> list value + E) os e st : host_call new_string {| ctx := true; ins := t :: ts; outs := os; err := e |} impl st = None.
Proof. reflexivity. Qed.
Theorem C115_error_refuted {E} t ts vs (impl : list value -> list value + E) pad : Forall passable (t :: ts) -> Forall2 wt (t :: ts) vs -> impl vs = inl [] ->
  host_call new_string {| ctx := false; ins := t :: ts; outs := []; err := true |} impl (encode_args (t :: ts) vs ++ pad) = None.
Proof. intros PS FS IM. unfold host_call. cbn [ins outs ctx]. rewrite decode_all_args by assumption. rewrite IM. reflexivity. Qed.
(** Without arguments the error is lost instead. *)
Theorem C115_error_lost_refuted {E} (impl : list value -> list value + E) e st : impl [] = inr e -> host_call new_string {| ctx := false; ins := []; outs := []; err := true |} impl st = Some st.
Proof. reflexivity. Qed.
(** A result of several words is announced as a pointer, but its first word is returned, or the call panics. *)
Theorem C115_several_refuted {E} (impl : list value -> list value + E) : let s i := {| ctx := false; ins := i; outs := [Prim PC128]; err := false |} in
  results (s []) = [I64] /\ (forall re im st, impl [] = inl [VComplex re im] -> length st = stack_length (s []) -> host_call new_string (s []) impl st = None) /\
  forall re im a b, 0 <= a < 2 ^ 64 -> 0 <= b < 2 ^ 64 -> impl [VInt a; VInt b] = inl [VComplex re im] -> host_call new_string (s [Prim (PUint 64); Prim (PUint 64)]) impl [a; b] = Some [re; im].
Proof.
  cbv zeta. split; [reflexivity|]. split.
  - intros re im st IM L. unfold stack_length in L. cbn in L. destruct st as [|x [|y st]]; try discriminate. unfold host_call. cbn [ins outs ctx decode_all]. rewrite IM. reflexivity.
  - intros re im a b A B IM. unfold host_call. cbn [ins outs ctx decode_all decode size0 decode_prim]. rewrite (Z.mod_small a), (Z.mod_small b) by lia. rewrite IM. reflexivity.
Qed.
(** A struct with a field that is not exported can't be passed. *)
Theorem C115_unexported_refuted fs t st : size0 (Struct ((false, t) :: fs)) = false -> decode (Struct ((false, t) :: fs)) st = None.
Proof. intros S0. rewrite decode_struct, S0. cbn [decode_fields]. destruct (decode t st) as [[v r]|]; reflexivity. Qed.
End Strings.
Example C115_case : passable (Struct [(true, Prim (PInt 16)); (true, Array 2 (Prim PF32))]) /\ wt (Struct [(true, Prim (PInt 16)); (true, Array 2 (Prim PF32))]) (VStruct [VInt (-3); VArray [VBits 7; VBits 8]]).
Proof.
  split.
  - constructor. constructor; [split; [reflexivity|constructor; right; left; reflexivity]|]. constructor; [split; [reflexivity|constructor; constructor]|constructor].
  - constructor. constructor; [constructor; cbn; lia|]. constructor; [|constructor]. constructor; [reflexivity|]. repeat constructor; cbn; lia.
Qed.
Print Assumptions C115_slots.
Print Assumptions C115_round_trip.
Print Assumptions C115_call_partial.
