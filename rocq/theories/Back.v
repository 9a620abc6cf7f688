(** * C138: callbacks. *)
From Coq Require Import String.
From Verif Require Import GoBase GoText CallModel BackModel.
Open Scope list_scope.
Open Scope Z_scope.

(** ** The specification *)
(** The kinds that are passed: booleans, integers of a given size, floating point numbers
    and pointers. *)
Definition plain (k : kind) : Prop :=
  In k [KBool; KInt8; KInt16; KInt32; KInt64; KUint8; KUint16; KUint32; KUint64; KUintptr; KFloat32; KFloat64; KPointer; KUnsafePointer].
(** [passed k v r]: C passes the value [v] of the kind [k] in the register [r]; what is above
    the width of an integer is undefined. [v] is a value of the kind. *)
Definition passed (k : kind) (v : value) (r : Z) : Prop :=
  match k, v with
  | KBool, VBool b => r = if b then 1 else 0
  | KFloat32, VFloat b => 0 <= b < 2 ^ 32 /\ r mod 2 ^ 32 = b
  | KFloat64, VFloat b => 0 <= b < 2 ^ 64 /\ r mod 2 ^ 64 = b
  | (KPointer | KUnsafePointer), VPtr (PAddr a) => r = a
  | KUintptr, VInt z => r = z
  | _, VInt z => match int_kind k with
                 | Some (true, w) => - 2 ^ (w - 1) <= z < 2 ^ (w - 1) /\ r mod 2 ^ w = z mod 2 ^ w
                 | Some (false, w) => 0 <= z < 2 ^ w /\ r mod 2 ^ w = z
                 | None => False
                 end
  | _, _ => False
  end.
(** [returned k v r]: C, reading a result of the kind from the bits [r], sees [v]. *)
Definition returned (k : kind) (v : value) (r : Z) : Prop :=
  match k, v with
  | KBool, VBool b => r = if b then 1 else 0
  | (KFloat32 | KFloat64), VFloat b => r = b
  | (KPointer | KUnsafePointer), VPtr (PAddr a) => r = a
  | KUintptr, VInt z => r = z
  | _, VInt z => match int_kind k with
                 | Some (true, w) => sgn w r = z
                 | Some (false, w) => r mod 2 ^ w = z
                 | None => False
                 end
  | _, _ => False
  end.
(** a value of the kind *)
Definition of_kind (k : kind) (v : value) : Prop := exists r, passed k v r.

Lemma sgn_eq w r z : 0 < w -> - 2 ^ (w - 1) <= z < 2 ^ (w - 1) -> r mod 2 ^ w = z mod 2 ^ w -> sgn w r = z.
Proof.
  intros W R E. unfold sgn. rewrite E.
  assert (P : 2 ^ w = 2 * 2 ^ (w - 1)) by (rewrite <- Z.pow_succ_r by lia; f_equal; lia).
  assert (Q : 0 < 2 ^ (w - 1)) by (apply Z.pow_pos_nonneg; lia).
  destruct (Z_lt_le_dec z 0).
  - assert (M : z mod 2 ^ w = z + 2 ^ w) by (symmetry; apply Z.mod_unique with (-1); lia). rewrite M.
    destruct (z + 2 ^ w <? 2 ^ (w - 1)) eqn:L; lia.
  - rewrite Z.mod_small by lia. destruct (z <? 2 ^ (w - 1)) eqn:L; lia.
Qed.
Lemma sgn_same w z : 0 < w -> - 2 ^ (w - 1) <= z < 2 ^ (w - 1) -> sgn w z = z.
Proof. intros W R. apply sgn_eq; [exact W|exact R|reflexivity]. Qed.

Lemma read_one k x v r : plain k -> rune_of_kind k = Some x -> passed k v r -> read_arg (TKind k) x r = Ok v.
Proof.
  intros P X V. unfold plain in P. cbn [In] in P.
  repeat (destruct P as [<- | P]; [
    vm_compute in X; inversion X; subst x; clear X; destruct v as [z|b|b|s|p n|p| |]; try destruct p as [a|m];
    cbn [passed int_kind] in V; try contradiction;
    cbn [read_arg kind_of width]; unfold set_int, set_uint, set_float, set_bool; cbn [int_kind is_float kind_eqb]
    |]); [..|contradiction];
  try (match type of V with _ /\ _ => destruct V as [V1 V2] end).
  all: try (pose proof (fun W => sgn_eq _ _ _ W V1 V2) as S; rewrite S by lia; rewrite sgn_same by (first [exact V1|lia]); reflexivity).
  all: try (rewrite V2, ?(Z.mod_small z) by exact V1; reflexivity).
  all: try (subst r; reflexivity).
  all: try (subst r; destruct b; reflexivity).
Qed.
Lemma plain_rune k : plain k -> exists x, rune_of_kind k = Some x.
Proof.
  intros P. unfold plain in P. cbn [In] in P.
  repeat (destruct P as [<- | P]; [eexists; vm_compute; reflexivity|]). contradiction.
Qed.
Lemma read_plain ks : forall vs rs, Forall plain ks -> Forall2 (fun k '(v, r) => passed k v r) ks (combine vs rs) -> List.length vs = List.length ks -> List.length rs = List.length ks ->
  exists xs, sig_args (map TKind ks) = Some xs /\ read_args (map TKind ks) xs rs = Ok vs.
Proof.
  induction ks as [|k ks IH]; intros vs rs P F L1 L2.
  - exists []. destruct vs; [|discriminate]. split; reflexivity.
  - destruct vs as [|v vs]; [discriminate|]. destruct rs as [|r rs]; [discriminate|]. cbn [combine] in F.
    inversion P as [|? ? P1 P2]; subst. inversion F as [|? ? ? ? F1 F2]; subst.
    destruct (IH vs rs P2 F2 ltac:(cbn in L1; lia) ltac:(cbn in L2; lia)) as (xs & S & R).
    destruct (plain_rune k P1) as (x & X). exists (x :: xs). cbn [map sig_args sig_rune]. rewrite X, S. split; [reflexivity|].
    cbn [read_args]. rewrite (read_one k x v r P1 X F1). cbn [obind]. rewrite R. reflexivity.
Qed.
Lemma write_one k x v : plain k -> rune_of_kind k = Some x -> of_kind k v -> exists r, write_result (TKind k) x v = Ok (Some r) /\ returned k v r.
Proof.
  intros P X [r V]. unfold plain in P. cbn [In] in P.
  repeat (destruct P as [<- | P]; [
    vm_compute in X; inversion X; subst x; clear X; destruct v as [z|b|b|s|p n|p| |]; try destruct p as [a|m];
    cbn [passed int_kind] in V; try contradiction;
    cbn [write_result width addr_of]; eexists; (split; [reflexivity|]); cbn [returned int_kind]
    |]); [..|contradiction];
  try (match type of V with _ /\ _ => destruct V as [V1 V2] end).
  all: try reflexivity.
  all: try (apply sgn_eq; [lia|exact V1|apply Z.mod_mod; lia]).
  all: try (rewrite Z.mod_mod by lia; apply Z.mod_small; exact V1).
Qed.

(** ** C138 *)
(** The function is called with the values C passed, and C gets its (first) result. *)
Theorem C138_call_partial ks vs rs k more f : Forall plain ks -> plain k ->
  Forall2 (fun k '(v, r) => passed k v r) ks (combine vs rs) -> List.length vs = List.length ks -> List.length rs = List.length ks ->
  (forall a, exists v w, f a = v :: w /\ of_kind k v) ->
  exists r, invoke (map TKind ks) (TKind k :: more) f rs = Some (Ok (Some r)) /\ returned k (hd VOther (f vs)) r.
Proof.
  intros P K F L1 L2 O. destruct (read_plain ks vs rs P F L1 L2) as (xs & S & R). destruct (plain_rune k K) as (x & X).
  destruct (O vs) as (v & w & Q & V). destruct (write_one k x v K X V) as (r & W1 & W2). exists r.
  unfold invoke. rewrite S. cbn [sig_returns sig_rune]. rewrite X, R. cbn [obind]. rewrite Q, W1. split; [reflexivity|exact W2].
Qed.
(** A function without results is called, too. *)
Theorem C138_no_result ks vs rs f : Forall plain ks ->
  Forall2 (fun k '(v, r) => passed k v r) ks (combine vs rs) -> List.length vs = List.length ks -> List.length rs = List.length ks ->
  invoke (map TKind ks) [] f rs = Some (Ok None).
Proof.
  intros P F L1 L2. destruct (read_plain ks vs rs P F L1 L2) as (xs & S & R).
  unfold invoke. rewrite S. cbn [sig_returns]. rewrite R. reflexivity.
Qed.
Theorem C138_example :
  plain KInt8 /\ plain KBool /\ plain KUint32 /\ passed KInt8 (VInt (-2)) (256 + 254) /\ passed KBool (VBool true) 1 /\
  invoke [TKind KInt8; TKind KBool] [TKind KUint32] (fun vs => match vs with [VInt z; VBool true] => [VInt (z + 5)] | _ => [VInt 0] end) [256 + 254; 1]
  = Some (Ok (Some 3)).
Proof. unfold plain. cbn [In passed int_kind]. intuition (try lia; try reflexivity). Qed.

(** Kinds that are refused when the callback is set. *)
Theorem C138_refused k : rune_of_kind k = None <->
  In k [KInvalid; KInt; KUint; KComplex64; KComplex128; KArray; KChan; KInterface; KMap; KSlice; KStruct].
Proof.
  split; [destruct k; intros H; vm_compute in H; try discriminate; cbn; tauto|].
  intros I. cbn [In] in I. repeat (destruct I as [<- | I]; [vm_compute; reflexivity|]). contradiction.
Qed.
Theorem C138_refused_anywhere a t b outs f rs : sig_rune t = None -> invoke (a ++ t :: b) outs f rs = None.
Proof.
  intros T. unfold invoke. assert (S : sig_args (a ++ t :: b) = None).
  { induction a as [|u a IH]; cbn [app sig_args]; [rewrite T; reflexivity|]. rewrite IH. destruct (sig_rune u); reflexivity. }
  rewrite S. reflexivity.
Qed.

(** Accepted by Set, but a panic in every call: strings, functions, callbacks, and structs
    with one field, numbers among them, as parameters; strings and structs with a number as
    results. *)
Theorem C138_parameter_refuted t : In t [TKind KString; TKind KFunc; TBack] \/ (exists u, t = TStruct1 u /\ sig_rune u <> None) ->
  forall outs f r rs, sig_returns outs <> None -> invoke [t] outs f (r :: rs) = Some Panic.
Proof.
  intros T outs f r rs O. unfold invoke. destruct (sig_returns outs) as [x|] eqn:X; [|congruence]. clear O X.
  destruct T as [T | (u & -> & U)].
  - cbn [In] in T. destruct T as [<- | [<- | [<- | []]]]; reflexivity.
  - cbn [sig_args sig_rune]. destruct (sig_rune u) as [y|]; [|congruence]. cbn [read_args].
    assert (E : read_arg (TStruct1 u) y r = Panic) by (destruct y; reflexivity). rewrite E. reflexivity.
Qed.
Theorem C138_result_refuted t more f v : t = TKind KString \/ (exists k, t = TStruct1 (TKind k) /\ In k [KBool; KInt8; KInt32; KInt64; KUint64; KFloat64]) ->
  f [] = [v] -> invoke [] (t :: more) f [] = Some Panic.
Proof.
  intros T F. unfold invoke. cbn [sig_args read_args obind]. rewrite F.
  destruct T as [-> | (k & -> & I)]; [reflexivity|]. cbn [In] in I.
  repeat (destruct I as [<- | I]; [vm_compute; reflexivity|]). contradiction.
Qed.
(** Results after the first, an error among them, are dropped. *)
Theorem C138_error_dropped_refuted k f more x y z : plain k -> of_kind k x -> f = (fun _ : list value => x :: y) ->
  exists r, invoke [] (TKind k :: more) f [] = Some (Ok (Some r)) /\ invoke [] (TKind k :: more) (fun _ => x :: z) [] = Some (Ok (Some r)).
Proof.
  intros K O ->. destruct (plain_rune k K) as (c & X). destruct (write_one k c x K X O) as (r & W & _). exists r.
  unfold invoke. cbn [sig_args read_args obind sig_returns sig_rune]. rewrite X, W. split; reflexivity.
Qed.

(** ** The table *)
(** Callbacks made one after another: each calls its own function, however many are made
    later. *)
Definition make {H} (fs : list H) (h : H) : list H * nat :=
  let '(fs', ts) := run [0; 0; 0]%nat fs [starting h] in (fs', match ts with t :: _ => t_id t | [] => O end).
Lemma make_is {H} (fs : list H) h : make fs h = (fs ++ [h], S (List.length fs)).
Proof. unfold make. cbn. rewrite app_length. cbn. rewrite Nat.add_comm. reflexivity. Qed.
Theorem C138_own_function {H} (fs : list H) h later :
  let '(fs1, id) := make fs h in bridge (fold_left (fun s g => fst (make s g)) later fs1) id = Some h.
Proof.
  rewrite make_is. assert (K : forall l s, bridge s (S (List.length fs)) = Some h -> bridge (fold_left (fun s g => fst (make s g)) l s) (S (List.length fs)) = Some h).
  { induction l as [|g l IH]; intros s B; [exact B|]. cbn [fold_left]. apply IH. rewrite make_is. cbn [fst bridge] in *.
    rewrite nth_error_app1; [exact B|]. apply nth_error_Some. congruence. }
  apply K. cbn [bridge]. rewrite nth_error_app2 by lia. rewrite Nat.sub_diag. reflexivity.
Qed.
(** Two threads that make callbacks at the same time: there is a schedule after which the
    callback of the first calls the function of the second. *)
Theorem C138_concurrent_refuted {H} (fs : list H) (f g : H) :
  let '(fs', ts) := run [0; 1; 0; 1; 0; 1]%nat fs [starting f; starting g] in
  map t_todo ts = [[]; []] /\ map (fun t => bridge fs' (t_id t)) ts = [Some g; Some g].
Proof.
  cbn [run starting move update nth_error t_todo t_seen t_fn t_id map]. split; [reflexivity|].
  assert (B : bridge (fs ++ [g]) (List.length (fs ++ [g])) = Some g).
  { rewrite app_length. cbn [List.length]. rewrite Nat.add_comm. cbn [bridge Nat.add]. rewrite nth_error_app2 by lia. rewrite Nat.sub_diag. reflexivity. }
  rewrite B. reflexivity.
Qed.
