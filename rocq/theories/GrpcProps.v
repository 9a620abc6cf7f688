(** Properties C10-C12 and C62: the protobuf Encoder of api/grpc/enc.go. *)
From Verif Require Import BaseLemmas WireModel WireSpec GrpcModel GrpcSpec GrpcProofs.

(** C10, for every value whose maps all have exactly one entry: the computed size is the number
    of bytes written, and the bytes are the protobuf encoding of the value (in which every
    length prefix is the length of its body). *)
Theorem C10_length_prefixes_exact_partial : forall v n o, 1 <= n < 2^31 -> goval one_entry v ->
  fst (sizeof n v) + snd (sizeof n v) < 2^63 ->
  exists bs, encode (mkWriter None o) n v = Ok (mkWriter None (o ++ bs), ENone) /\
    zlen bs = fst (sizeof n v) + snd (sizeof n v) /\ pb n v bs.
Proof. exact encoder_exact. Qed.
Print Assumptions C10_length_prefixes_exact_partial.
(** C10 fails for other maps: with two entries the computed size is not the number of bytes
    written; an empty (or nil) map panics. *)
Definition twoEntries : gval := GStruct [GMap [(GString [97], GInt 1); (GString [98; 98], GInt 2)]; GInt 7].
Theorem C10_map_size_wrong_refuted :
  goval (fun _ => True) twoEntries /\
  exists bs, encode (mkWriter None []) 1 twoEntries = Ok (mkWriter None bs, ENone) /\
    zlen bs <> fst (sizeof 1 twoEntries) + snd (sizeof 1 twoEntries).
Proof.
  split; [cbn; unfold is_byte, is_bytes, zlen; cbn; repeat split; try lia; repeat constructor; unfold is_byte; lia|].
  eexists. split; [vm_compute; reflexivity|vm_compute; discriminate].
Qed.
Print Assumptions C10_map_size_wrong_refuted.
Theorem C10_empty_map_panics_refuted : forall w n, encode w n (GMap []) = Panic.
Proof. reflexivity. Qed.
Print Assumptions C10_empty_map_panics_refuted.

(** C11, same values. *)
Theorem C11_output_well_formed_partial : forall v n o bs, 1 <= n < 2^31 -> goval one_entry v ->
  fst (sizeof n v) + snd (sizeof n v) < 2^63 ->
  encode (mkWriter None o) n v = Ok (mkWriter None (o ++ bs), ENone) -> stream n bs /\ parses n bs.
Proof. exact encoder_parses. Qed.
Print Assumptions C11_output_well_formed_partial.
Theorem C11_map_output_malformed_refuted :
  exists bs, encode (mkWriter None []) 1 twoEntries = Ok (mkWriter None bs, ENone) /\ ~ parses 1 bs.
Proof.
  eexists. split; [vm_compute; reflexivity|]. intros H.
  inversion H as [|b typ k rest H1 H2 H3 H4]; subst. vm_compute in H1. injection H1 as <- <-.
  vm_compute in H3. injection H3 as <-.
  inversion H4 as [|b' typ' k' rest' G1 G2 G3 G4]; subst. vm_compute in G1. discriminate G1.
Qed.
Print Assumptions C11_map_output_malformed_refuted.

(** C12, for the types a protobuf reader can invert (scalars, strings, structs, arrays, slices of
    and pointers to those): two values of one type with the same bytes are the same value. *)
Theorem C12_encoding_injective_partial : forall t n v1 v2 o bs,
  1 <= n < 2^31 -> invertible t -> has_type t v1 -> has_type t v2 ->
  goval one_entry v1 -> goval one_entry v2 ->
  fst (sizeof n v1) + snd (sizeof n v1) < 2^63 -> fst (sizeof n v2) + snd (sizeof n v2) < 2^63 ->
  encode (mkWriter None o) n v1 = Ok (mkWriter None (o ++ bs), ENone) ->
  encode (mkWriter None o) n v2 = Ok (mkWriter None (o ++ bs), ENone) -> v1 = v2.
Proof. exact encoder_injective. Qed.
Print Assumptions C12_encoding_injective_partial.
(** The restriction is needed: slices of slices are flattened, nil elements vanish. *)
Theorem C12_nested_slices_refuted : forall w n,
  encode w n (GSlice [GSlice [GInt 1]; GSlice [GInt 2]]) = encode w n (GSlice [GSlice [GInt 1; GInt 2]]).
Proof.
  intros w n. unfold encode. set (a := write w _). destruct a as [w' []]; cbn [andThen]; try reflexivity.
Qed.
Print Assumptions C12_nested_slices_refuted.
Theorem C12_nil_elements_refuted : forall w n,
  encode w n (GSlice [GNil; GPtr (GInt 1)]) = encode w n (GSlice [GPtr (GInt 1)]).
Proof. reflexivity. Qed.
Print Assumptions C12_nil_elements_refuted.

(** C62.  If the destination fails, Encode stops: what was written is a prefix of the full
    output, the error is reported, and the writer has refused nothing silently. *)
Theorem C62_writer_failure_reported : forall n v k o w1 e1 w2 e2,
  encode (mkWriter None o) n v = Ok (w1, e1) -> encode (mkWriter (Some k) o) n v = Ok (w2, e2) ->
  (exists rest, out w1 = out w2 ++ rest) /\
  ((e2 = EWrite /\ left w2 = Some O) \/ (e2 = e1 /\ out w2 = out w1)).
Proof. exact writer_failure. Qed.
Print Assumptions C62_writer_failure_reported.

(** The same, for the exported entry point: the value is field 1 of the output. *)
Theorem C10_entry_point_partial : forall v o, goval one_entry v ->
  fst (sizeof 1 v) + snd (sizeof 1 v) < 2^63 ->
  exists bs, Encode (mkWriter None o) (Some v) = Ok (mkWriter None (o ++ bs), ENone) /\ pb 1 v bs /\ parses 1 bs.
Proof.
  intros v o G H. destruct (encoder_exact v 1 o ltac:(lia) G H) as (bs & E & _ & P).
  exists bs. split; [exact E|]. split; [exact P|].
  exact (proj2 (encoder_parses v 1 o bs ltac:(lia) G H E)).
Qed.
Theorem C10_nil_panics_refuted : forall w, Encode w None = Panic.
Proof. reflexivity. Qed.

(** C79.  A value with a part that protobuf cannot carry is never encoded as if nothing was
    wrong; and no other value is reported as unsupported. *)
Theorem C79_unsupported_kinds_reported : forall v w w',
  (has_unsupported v -> Encode w (Some v) <> Ok (w', ENone)) /\
  (~ has_unsupported v -> Encode w (Some v) <> Ok (w', EUnsupported)).
Proof.
  intros v w w'. split; intros H; [exact (encode_unsupported v H 1 w w')|exact (encode_supported v H 1 w w')].
Qed.
Example C79_case : has_unsupported (GStruct [GInt 1; GSlice [GPtr GUnsupported]]) /\
  exists w, Encode (mkWriter None []) (Some (GStruct [GInt 1; GSlice [GPtr GUnsupported]])) = Ok (w, EUnsupported) /\ out w <> [].
Proof.
  split.
  - apply (hu_struct _ (GSlice [GPtr GUnsupported])); [right; left; reflexivity|].
    apply (hu_slice _ (GPtr GUnsupported)); [left; reflexivity|]. repeat constructor.
  - eexists. split; [vm_compute; reflexivity|discriminate].
Qed.

(** A concrete value that meets the hypotheses: nested struct, slice, pointer, one-entry map. *)
Definition sample : gval := GStruct
  [GInt (-5); GString [104; 105]; GSlice [GStruct [GBool true]; GStruct [GBool false]]; GNil;
   GPtr (GFloat32 1069547520); GMap [(GString [107], GUint 300)]; GArray [GUint 1; GUint 2]].
Example sample_meets : goval one_entry sample /\ fst (sizeof 1 sample) + snd (sizeof 1 sample) = 44.
Proof.
  split; [|vm_compute; reflexivity].
  cbn; unfold one_entry, is_bytes, zlen; cbn; repeat split; try lia; repeat constructor; unfold is_byte; lia.
Qed.
Example sample_type : invertible (TStruct [TInt; TString; TSlice (TStruct [TBool]); TPtr TFloat32; TArray 2 TUint]) /\
  has_type (TStruct [TInt; TString; TSlice (TStruct [TBool]); TPtr TFloat32; TArray 2 TUint])
   (GStruct [GInt (-5); GString [104]; GSlice [GStruct [GBool true]]; GNil; GArray [GUint 1; GUint 2]]).
Proof.
  split; [cbn; tauto|]. apply ht_struct. do 4 (apply Forall2_cons; [repeat constructor|]).
  apply Forall2_cons; [apply (ht_array TUint [GUint 1; GUint 2]); repeat constructor|constructor].
Qed.
Example writer_fails : exists w1 w2, encode (mkWriter None []) 1 sample = Ok (w1, ENone) /\
  encode (mkWriter (Some 2%nat) []) 1 sample = Ok (w2, EWrite) /\ zlen (out w2) = 13.
Proof. do 2 eexists. vm_compute. auto. Qed.
Print Assumptions C10_entry_point_partial.
Print Assumptions C10_nil_panics_refuted.
Print Assumptions C79_unsupported_kinds_reported.
