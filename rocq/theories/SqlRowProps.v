(** Properties C34, C35 and C69: the row codec of package sql. *)
From Verif Require Import GoBase SqlRowModel SqlRowSpec SqlRowProofs.

(** C34, for types of any depth without unexported fields. *)
Theorem C34_round_trip_partial :
  forall t, plain t -> exported_only t ->
  forall v, has_ty v t -> forall rest,
  exists ds, values_of t v = Ok ds /\ decode t (zero t) (ds ++ rest) = Ok (v, rest).
Proof. exact round_trip. Qed.

(** What is missing: "unexported fields are ignored" is documented and the encoder
    does ignore them, but decoding into any struct with one panics, whatever the
    stored values. *)
Theorem C34_unexported_field_panics_refuted :
  forall fs, Exists (fun f : field => snd (fst (fst f)) = false) fs ->
  size0 (TStruct fs) = false ->
  forall init ds, decode (TStruct fs) init ds = Panic.
Proof. exact struct_unexported_panics. Qed.

(** A pointer is documented to raise a panic; it is silently encoded and not
    decoded: the value read back is the nil pointer. *)
Theorem C34_pointer_lost_refuted :
  forall t v ds rest, values_of (TPtr t) (VPtr (Some v)) = Ok ds -> (List.length ds = 1)%nat ->
  decode (TPtr t) (zero (TPtr t)) (ds ++ rest) = Ok (VPtr None, rest).
Proof. intros t v [|d [|d' ds]] rest _ L; try discriminate. reflexivity. Qed.

(** C35, for types of any depth without unexported fields: same number and, one by
    one, same kinds. *)
Theorem C35_columns_match_values_partial :
  forall t, plain t -> exported_only t ->
  forall v, has_ty v t -> forall path name emb,
  exists ds cs, values_of t v = Ok ds /\ columns_of path name emb t = Ok cs /\
    map snd cs = map kind_of ds.
Proof. exact columns_ok. Qed.

(** What is missing: an unexported field gets a column but no value. *)
Theorem C35_unexported_field_refuted :
  exists t v ds cs, plain t /\ has_ty v t /\ values_of t v = Ok ds /\
    columns_of [] "value" true t = Ok cs /\ (List.length cs = 2)%nat /\ (List.length ds = 1)%nat.
Proof.
  exists (TStruct [("a", true, false, TInt 64); ("b", false, false, TInt 64)]),
    (VList [VNum 1; VNum 2]). do 2 eexists.
  repeat match goal with |- _ /\ _ => split end; try reflexivity; repeat constructor.
Qed.

(** C69, where no struct field lies two structs deep and no array one struct deep. *)
Theorem C69_documented_names_partial :
  forall t, plain t -> forall name emb, shallow false emb t ->
  exists cs, columns_of [] name emb t = Ok cs /\ doc_names [] name emb t (map fst cs).
Proof. intros t P name emb S. exact (names_ok t false emb S P [] name eq_refl). Qed.

Theorem C69_documented_names_unique :
  forall path n emb t ns, doc_names path n emb t ns ->
  forall ns', doc_names path n emb t ns' -> ns = ns'.
Proof. exact doc_names_fun. Qed.

(** What is missing: one level deeper the outer name is repeated; documented names
    are a_b_c and a_x1. *)
Theorem C69_deep_struct_refuted :
  exists t cs, plain t /\ columns_of [] "value" true t = Ok cs /\
    map fst cs = ["a_a_b_c"] /\ doc_names [] "value" true t ["a_b_c"].
Proof.
  exists (TStruct [("a", true, false, TStruct [("b", true, false, TStruct [("c", true, false, TInt 64)])])]).
  eexists. repeat match goal with |- _ /\ _ => split end; try reflexivity.
  - repeat constructor.
  - apply DEmbedded. apply (DFCons [] _ _ _ _ [] ["a_b_c"] []); [|constructor].
    apply DStruct. apply (DFCons _ _ _ _ _ [] ["a_b_c"] []); [|constructor].
    apply DStruct. apply (DFCons _ _ _ _ _ [] ["a_b_c"] []); [|constructor].
    apply DLeaf. exact I.
Qed.
Theorem C69_nested_array_refuted :
  exists t cs, plain t /\ columns_of [] "value" true t = Ok cs /\
    map fst cs = ["a_a_x1"] /\ doc_names [] "value" true t ["a_x1"].
Proof.
  exists (TStruct [("a", true, false, TStruct [("x", true, false, TArray 1 (TInt 64))])]).
  eexists. repeat match goal with |- _ /\ _ => split end; try reflexivity.
  - repeat constructor.
  - apply DEmbedded. apply (DFCons [] _ _ _ _ [] ["a_x1"] []); [|constructor].
    apply DStruct. apply (DFCons _ _ _ _ _ [] ["a_x1"] []); [|constructor].
    apply DArray. apply (DECons _ _ _ "1" _ _ ["a_x1"] []); [apply (WDigit 1); lia| |constructor].
    apply (DLeaf ["a"] "x1"). exact I.
Qed.

(** ** The hypotheses are met *)
Definition ex_ty : ty :=
  TStruct [("name", true, false, TString);
           ("pos", true, false, TStruct [("x", true, false, TFloat 64); ("y", true, false, TFloat 64)]);
           ("tags", true, false, TArray 2 (TUint 8));
           ("none", true, false, TStruct []);
           ("when", true, false, TTime)].
Definition ex_val : val :=
  VList [VStr [104;105]; VList [VNum 3; VNum 4]; VList [VNum 7; VNum 9]; VList []; VTime 5].
Example ex_typed : plain ex_ty /\ exported_only ex_ty /\ has_ty ex_val ex_ty /\ shallow false true ex_ty.
Proof.
  repeat match goal with |- _ /\ _ => split end;
    repeat first [progress cbn [fst snd] | apply SEmb | apply SStr | apply SArr
                 | apply SLeaf; exact I | constructor].
Qed.
Example ex_round_trip :
  values_of ex_ty ex_val = Ok [DString [104;105]; DFloat 64 3; DFloat 64 4; DUint 8 7; DUint 8 9; DTime 5].
Proof. reflexivity. Qed.
Example ex_names : omap (map fst) (columns_of [] "value" true ex_ty) =
  Ok ["name"; "pos_x"; "pos_y"; "tags1"; "tags2"; "when"].
Proof. reflexivity. Qed.
Example ex_writes : writes 120 "120".
Proof. exact (dec_writes 120). Qed.

Print Assumptions C34_round_trip_partial.
Print Assumptions C34_unexported_field_panics_refuted.
Print Assumptions C34_pointer_lost_refuted.
Print Assumptions C35_columns_match_values_partial.
Print Assumptions C35_unexported_field_refuted.
Print Assumptions C69_documented_names_partial.
Print Assumptions C69_documented_names_unique.
Print Assumptions C69_deep_struct_refuted.
Print Assumptions C69_nested_array_refuted.
