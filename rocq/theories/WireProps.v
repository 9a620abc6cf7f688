(** Properties C01-C09: the protobuf wire format of api/grpc/pb.go. *)
From Verif Require Import BaseLemmas WireModel WireSpec WireProofs.

(** C01. Writing any uint64 and reading it back with any bytes following. *)
Theorem C01_varint_round_trip : forall b v suffix, 0 <= v < 2^64 ->
  exists p, appendVarint b v = b ++ p /\ consumeVarint (p ++ suffix) = (v, zlen p).
Proof.
  exact (fun b v suffix H => ex_intro _ _
    (conj (appendVarint_app b v) (consumeVarint_ok _ _ suffix (appendVarint_varint v H)))).
Qed.
Print Assumptions C01_varint_round_trip.
Example C01_case : consumeVarint (appendVarint [] (2^63 + 5) ++ [255; 1]) = (2^63 + 5, 10).
Proof. vm_compute. reflexivity. Qed.

(** C02. *)
Theorem C02_varint_size_exact : forall v, 0 <= v < 2^64 ->
  sizeVarint v = zlen (appendVarint [] v) /\ 1 <= sizeVarint v <= 10.
Proof. exact sizeVarint_exact. Qed.
Print Assumptions C02_varint_size_exact.
Example C02_case : sizeVarint (2^56 - 1) = 8 /\ sizeVarint (2^56) = 9 /\ sizeVarint 0 = 1.
Proof. vm_compute. auto. Qed.

(** C03. Success iff a complete varint is a prefix; truncated and overflow iff. Exactly
    one of the three happens. *)
Theorem C03_varint_parse_exact : forall b, is_bytes b ->
  (forall v n, 0 <= n ->
     (consumeVarint b = (v, n) <-> exists p rest, b = p ++ rest /\ zlen p = n /\ uvarint p v)) /\
  (snd (consumeVarint b) = errCodeTruncated <-> truncated b) /\
  (snd (consumeVarint b) = errCodeOverflow <-> overlong b) /\
  (0 <= snd (consumeVarint b) \/ truncated b \/ overlong b).
Proof. exact consumeVarint_spec. Qed.
Print Assumptions C03_varint_parse_exact.
Example C03_case : uvarint [172; 2] 300 /\ truncated [200; 129] /\
  overlong [255;255;255;255;255;255;255;255;255;2].
Proof. exact varint_cases_inhabited. Qed.

(** C04. *)
Theorem C04_zigzag_bijection :
  (forall x, - 2^63 <= x < 2^63 ->
     0 <= encodeZigZag x < 2^64 /\ decodeZigZag (encodeZigZag x) = x) /\
  (forall x, 0 <= x < 2^64 ->
     - 2^63 <= decodeZigZag x < 2^63 /\ encodeZigZag (decodeZigZag x) = x) /\
  (forall x, - 2^63 <= x < 2^63 ->
     encodeZigZag x = if x <? 0 then 2 * Z.abs x - 1 else 2 * Z.abs x).
Proof. exact (conj zigzag_dec_enc (conj zigzag_enc_dec encodeZigZag_abs)). Qed.
Print Assumptions C04_zigzag_bijection.
Example C04_case : encodeZigZag (- 2^63) = 2^64 - 1 /\ decodeZigZag 3 = -2.
Proof. vm_compute. auto. Qed.

(** C05. Tags: what is written is the tag of the specification, has the announced size and
    reads back; a number below 1 or above int32 is rejected; nothing else is accepted. *)
Theorem C05_tag_round_trip : forall b num typ suffix, 1 <= num < 2^31 -> 0 <= typ < 8 ->
  exists p, appendTag b num typ = b ++ p /\ tag p num typ /\
    sizeTag num = zlen p /\ consumeTag (p ++ suffix) = (num, typ, zlen p).
Proof. exact tag_round_trip. Qed.
Print Assumptions C05_tag_round_trip.
Theorem C05_tag_rejected : forall p v suffix, uvarint p v -> ~ (1 <= v / 8 < 2^31) ->
  consumeTag (p ++ suffix) = (0, 0, errCodeFieldNumber).
Proof. exact consumeTag_reject. Qed.
Print Assumptions C05_tag_rejected.
Theorem C05_tag_accepted_only : forall b num typ n, is_bytes b -> consumeTag b = (num, typ, n) ->
  0 <= n -> exists p rest, b = p ++ rest /\ zlen p = n /\ tag p num typ.
Proof. exact consumeTag_only. Qed.
Print Assumptions C05_tag_accepted_only.
Example C05_case : tag [130; 1] 16 2 /\ uvarint [7] 7 /\ ~ (1 <= 7 / 8 < 2^31).
Proof. exact tag_inhabited. Qed.

(** C06. *)
Theorem C06_fixed_round_trip : forall b v suffix,
  (0 <= v < 2^32 -> exists p, appendFixed32 b v = b ++ p /\ is_bytes p /\ zlen p = 4 /\
     le_value p = v /\ consumeFixed32 (p ++ suffix) = (v, 4)) /\
  (0 <= v < 2^64 -> exists p, appendFixed64 b v = b ++ p /\ is_bytes p /\ zlen p = 8 /\
     le_value p = v /\ consumeFixed64 (p ++ suffix) = (v, 8)).
Proof. exact fixed_round_trip. Qed.
Print Assumptions C06_fixed_round_trip.
Theorem C06_fixed_total : forall b, is_bytes b ->
  (zlen b < 4 -> consumeFixed32 b = (0, errCodeTruncated)) /\
  (zlen b < 8 -> consumeFixed64 b = (0, errCodeTruncated)) /\
  (4 <= zlen b -> consumeFixed32 b = (le_value (ztake 4 b), 4)) /\
  (8 <= zlen b -> consumeFixed64 b = (le_value (ztake 8 b), 8)).
Proof. exact fixed_total. Qed.
Print Assumptions C06_fixed_total.
Example C06_case : appendFixed32 [9] 258 = [9; 2; 1; 0; 0] /\ consumeFixed32 [2; 1; 0] = (0, -1).
Proof. vm_compute. auto. Qed.

(** C07. *)
Theorem C07_bytes_round_trip : forall b v suffix, is_bytes v -> zlen v < 2^62 ->
  exists p, appendBytes b v = b ++ p ++ v /\ sizeBytes (zlen v) = zlen (p ++ v) /\
    consumeBytes (p ++ v ++ suffix) = Ok (v, zlen (p ++ v)).
Proof. exact bytes_round_trip. Qed.
Print Assumptions C07_bytes_round_trip.
(** On arbitrary input there is no out-of-range slice ([Panic]), and the bytes returned
    are the ones between the length prefix and the reported end. *)
Theorem C07_bytes_bounds : forall b, is_bytes b -> zlen b < 2^63 ->
  exists v n, consumeBytes b = Ok (v, n) /\
    ((is_err n /\ v = []) \/
     exists p rest, b = p ++ v ++ rest /\ n = zlen (p ++ v) /\ uvarint p (zlen v)).
Proof. exact bytes_bounds. Qed.
Print Assumptions C07_bytes_bounds.
Example C07_case : consumeBytes [255;255;255;255;255;255;255;255;255;1; 7; 8] = Ok ([], -1) /\
  consumeBytes [2; 7; 8; 9] = Ok ([7; 8], 3).
Proof. vm_compute. auto. Qed.

(** C08. Terminates ([Some]) without out-of-range access ([Ok]); on success the consumed
    prefix is exactly one well-formed field, at least one byte and at most all of them. *)
Theorem C08_field_skip_safe : forall b, is_bytes b -> zlen b < 2^63 ->
  exists num typ n, consumeField b = Some (Ok (num, typ, n)) /\
    (is_err n \/
     (1 <= n <= zlen b /\ exists p q rest, b = p ++ q ++ rest /\ n = zlen (p ++ q) /\
        tag p num typ /\ fvalue 10001 num typ q)).
Proof. exact consumeField_safe. Qed.
Print Assumptions C08_field_skip_safe.
(** And every well-formed field is accepted. *)
Theorem C08_field_skip_complete : forall p q rest num typ,
  tag p num typ -> fvalue 10001 num typ q -> zlen (p ++ q ++ rest) < 2^63 ->
  consumeField (p ++ q ++ rest) = Some (Ok (num, typ, zlen (p ++ q))).
Proof. exact consumeField_ok. Qed.
Print Assumptions C08_field_skip_complete.
Example C08_case : consumeField [11; 8; 1; 19; 20; 12; 99] = Some (Ok (1, 3, 6)) /\
  consumeField [11; 8; 1; 19; 20; 20; 99] = Some (Ok (0, 0, errCodeEndGroup)).
Proof. vm_compute. auto. Qed.

(** C09. *)
Theorem C09_group_round_trip : forall b num body suffix,
  1 <= num < 2^31 -> fields 10000 body -> zlen body + zlen suffix < 2^62 ->
  exists p, appendGroup b num body = b ++ body ++ p /\
    sizeGroup num (zlen body) = zlen (body ++ p) /\
    consumeGroup num (body ++ p ++ suffix) = Some (Ok (body, zlen (body ++ p))).
Proof. exact group_round_trip. Qed.
Print Assumptions C09_group_round_trip.
(** Any other spelling of the end marker (padded varints) gives the same body, and a
    marker with another number is an error. *)
Theorem C09_group_end_marker : forall num num' body p suffix,
  fields 10000 body -> tag p num' 4 -> zlen (body ++ p ++ suffix) < 2^63 ->
  consumeGroup num (body ++ p ++ suffix) =
    if num =? num' then Some (Ok (body, zlen (body ++ p)))
    else Some (Ok ([], errCodeEndGroup)).
Proof. exact group_end_marker. Qed.
Print Assumptions C09_group_end_marker.
Example C09_case : fields 10000 [8; 1; 19; 20] /\ tag [140; 128; 0] 1 4 /\
  consumeGroup 1 ([8; 1; 19; 20] ++ [140; 128; 0] ++ [77]) = Some (Ok ([8; 1; 19; 20], 7)).
Proof. exact group_inhabited. Qed.
(** Booleans are varints: read back, and true just when they are not zero. *)
Theorem C01_bool : forall b x suffix, 0 <= x < 2^64 ->
  decodeBool (fst (consumeVarint (appendVarint [] (encodeBool b) ++ suffix))) = b /\
  (decodeBool (fst (consumeVarint (appendVarint [] x ++ suffix))) = true <-> x <> 0).
Proof.
  intros b x suffix H. split.
  - rewrite (consumeVarint_ok _ _ suffix (appendVarint_varint (encodeBool b) ltac:(destruct b; cbn; lia))). destruct b; reflexivity.
  - rewrite (consumeVarint_ok _ _ suffix (appendVarint_varint x H)). cbn [fst]. unfold decodeBool. destruct (Z.eqb_spec x 0); cbn [negb]; split; congruence.
Qed.
Print Assumptions C01_bool.
