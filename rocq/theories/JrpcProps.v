(** The properties of the JSON encoder and decoder (C44 to C49, C83, C84). [decode_from fuel
    [x]] decodes from a reader that holds the bytes x; the fuel only bounds loops, and any
    fuel over the length of the input will do. *)
From Verif Require Import GoBase BaseLemmas JrpcModel JrpcSpec JrpcProofs JrpcText JrpcSim JrpcRound JrpcMore.

Definition ft0 : fval -> bytes := fun _ => [].

(** ** C44: strings *)
(** The encoder writes a JSON string that stands for the string with its invalid bytes replaced. *)
Theorem C44_encoder_writes_json_strings ft s x : is_bytes s ->
  encode ft (VStr s) TString = Ok x -> exists s', sanitized s s' /\ utf8 s' /\ json_string x s'.
Proof.
  intros F E. change (Ok (quote s) = Ok x) in E. assert (quote s = x) as <- by congruence.
  destruct (quote_json s F) as (s' & A & B). exists s'. split; [exact A|]. split; [eapply sanitized_utf8; exact A|exact B].
Qed.
Theorem C44_round_trip ft s x tail fuel init : is_bytes s -> encode ft (VStr s) TString = Ok x ->
  (length x < fuel)%nat ->
  exists s', sanitized s s' /\ decode_from fuel [x ++ tail] TString init = Ok (Good (VStr s')).
Proof.
  intros F E L. destruct (C44_encoder_writes_json_strings ft s x F E) as (s' & A & _ & B). exists s'. split; [exact A|].
  pose proof (json_string_starts _ _ B) as SX.
  assert (NE : x ++ tail <> []). { destruct SX as (c & r & -> & _). discriminate. }
  eapply from_go; [exact NE|]. cbn [decode]. eapply go_bind; [apply go_start; [lia|exact SX]|].
  eapply go_bind; [apply go_string; [exact B|exact L]|]. apply go_ret.
Qed.
Theorem C44_valid_strings ft s x tail fuel init : utf8 s -> encode ft (VStr s) TString = Ok x ->
  (length x < fuel)%nat -> decode_from fuel [x ++ tail] TString init = Ok (Good (VStr s)).
Proof.
  intros U E L. destruct (C44_round_trip ft s x tail fuel init (utf8_bytes s U) E L) as (s' & A & B).
  rewrite (utf8_sanitized _ _ U A) in B. exact B.
Qed.
Lemma body_printable x s : body x s -> Forall (fun b => 32 <= b < 256) x.
Proof.
  induction 1 as [|c bs x s C G1 G2 G3 B IH|e c x s E B IH|h c bs x s H C B IH]; [constructor| | |].
  - apply Forall_app. split; [|assumption]. inversion C; subst; repeat constructor; lia.
  - repeat (constructor; [destruct E; lia|]). exact IH.
  - constructor; [lia|]. constructor; [lia|]. apply Forall_app. split; [|assumption].
    inversion H as [a b d e x0 y0 z0 w0 Ha Hb Hc Hd]; subst. repeat constructor;
      repeat match goal with K : hex_digit _ _ |- _ => destruct K end; lia.
Qed.
(** No control characters in the output. *)
Theorem C44_no_control_characters ft s x : is_bytes s -> encode ft (VStr s) TString = Ok x ->
  Forall (fun b => 32 <= b < 256) x.
Proof.
  intros F E. destruct (C44_encoder_writes_json_strings ft s x F E) as (s' & _ & _ & [y z B]).
  constructor; [lia|]. apply Forall_app. split; [eapply body_printable; exact B|]. repeat constructor; lia.
Qed.
Example C44_hypotheses : utf8 [240; 159; 152; 128; 34; 10; 226; 128; 168] /\ is_bytes [255; 34] /\
  encode ft0 (VStr [240; 159; 152; 128; 34; 10; 226; 128; 168]) TString
  = Ok [34; 240; 159; 152; 128; 92; 34; 92; 110; 92; 117; 50; 48; 50; 56; 34] /\
  encode ft0 (VStr [255; 34]) TString = Ok [34; 92; 117; 102; 102; 102; 100; 92; 34; 34] /\
  sanitized [255; 34] [239; 191; 189; 34].
Proof.
  split; [|split; [|split; [reflexivity|split; [reflexivity|]]]].
  - apply (Utf8Cons 128512 [240; 159; 152; 128]); [apply (Char4 128512); lia|].
    apply (Utf8Cons 34 [34]); [constructor; lia|]. apply (Utf8Cons 10 [10]); [constructor; lia|].
    apply (Utf8Cons 8232 [226; 128; 168] []); [apply (Char3 8232); lia|constructor].
  - repeat (constructor; [split; lia|]). constructor.
  - apply SanBad.
    + intros c bs r E C. inversion C; subst; apply (f_equal (hd 0)) in E; cbn [app hd] in E; Z.div_mod_to_equations; lia.
    + apply (SanChar 34 [34] [] []); [constructor; lia|constructor].
Qed.

(** ** C83: the decoder reads every JSON string *)
(** Missing: escaped surrogate pairs ([body] has every other form of the grammar). *)
Theorem C83_decoder_reads_json_strings_partial ws x s tail fuel init : Forall blank ws -> json_string x s ->
  (length (ws ++ x) < fuel)%nat -> decode_from fuel [ws ++ x ++ tail] TString init = Ok (Good (VStr s)).
Proof.
  intros B J L. rewrite app_length in L. pose proof (json_string_starts _ _ J) as SX.
  eapply from_go; [apply app_nonempty, starts_nonempty; exact SX|]. cbn [decode].
  eapply go_bind; [apply go_blanks; [lia|exact B|exact SX]|]. eapply go_bind; [apply go_string; [exact J|lia]|]. apply go_ret.
Qed.
Example C83_hypotheses : Forall blank [32; 10] /\ json_string [34; 92; 117; 48; 48; 52; 49; 92; 47; 195; 169; 34] [65; 47; 195; 169].
Proof.
  split; [repeat constructor; unfold blank; cbn; lia|]. apply (JString [92; 117; 48; 48; 52; 49; 92; 47; 195; 169]).
  apply (BHex [48; 48; 52; 49] 65 [65]); [|constructor; lia|].
  - apply (Hex4 48 48 52 49 0 0 4 1); [apply (Hex09 0)|apply (Hex09 0)|apply (Hex09 4)|apply (Hex09 1)]; lia.
  - apply BShort; [constructor|]. apply (BPlain 233 [195; 169] [] []); try lia; [apply (Char2 233); lia|constructor].
Qed.
(** A character outside the basic plane written as an escaped surrogate pair becomes two
    replacement characters. *)
Theorem C83_surrogate_pairs_refuted x bs tail fuel init : pair_escape x bs -> (5 < fuel)%nat ->
  decode_from fuel [34 :: x ++ 34 :: tail] TString init = Ok (Good (VStr [239; 191; 189; 239; 191; 189])) /\
  bs <> [239; 191; 189; 239; 191; 189].
Proof.
  intros P L. split; [eapply pair_decodes; eassumption|]. destruct P as [h l hi lo bs _ _ _ _ C]. inversion C; subst; discriminate.
Qed.
Example C83_pair : exists bs, pair_escape [92; 117; 100; 56; 51; 100; 92; 117; 68; 69; 48; 48] bs.
Proof.
  exists [240; 159; 152; 128]. apply (Pair [100; 56; 51; 100] [68; 69; 48; 48] 55357 56832 [240; 159; 152; 128]); try lia.
  - apply (Hex4 100 56 51 100 13 8 3 13); [apply (Hexaf 13)|apply (Hex09 8)|apply (Hex09 3)|apply (Hexaf 13)]; lia.
  - apply (Hex4 68 69 48 48 13 14 0 0); [apply (HexAF 13)|apply (HexAF 14)|apply (Hex09 0)|apply (Hex09 0)]; lia.
  - apply (Char4 128512); lia.
Qed.

(** ** C45: integers *)
Theorem C45_encode_int ft w z x : width w -> fits_int w z -> encode ft (VInt z) (TInt w) = Ok x -> json_int x z.
Proof.
  intros W F E. change (Ok (int_text z) = Ok x) in E. assert (int_text z = x) as <- by congruence.
  apply int_text_json. exact (width_int w z W F).
Qed.
Theorem C45_encode_uint ft w z x : width w -> fits_uint w z -> encode ft (VInt z) (TUint w) = Ok x -> json_int x z.
Proof.
  intros W F E. change (Ok (uint_text z) = Ok x) in E. assert (uint_text z = x) as <- by congruence.
  apply uint_text_json. apply (width_uint w z W F).
Qed.
Theorem C45_decode_int w z ws x rest fuel init : width w -> fits_int w z -> json_int x z -> Forall blank ws -> ended rest ->
  (length (ws ++ x ++ rest) < fuel)%nat ->
  decode_from fuel [ws ++ x ++ rest] (TInt w) init = Ok (Good (VInt z)).
Proof.
  intros W F J B E L. eapply from_goq; [apply app_nonempty, starts_nonempty, (json_int_starts _ _ J)|].
  rewrite <- (sgn_small w z W F). apply dec_int; rewrite ?(sgn_small w z W F); auto. exact (width_int w z W F).
Qed.
Theorem C45_decode_uint w z ws x rest fuel init : width w -> fits_uint w z -> json_int x z -> Forall blank ws -> ended rest ->
  (length (ws ++ x ++ rest) < fuel)%nat ->
  decode_from fuel [ws ++ x ++ rest] (TUint w) init = Ok (Good (VInt z)).
Proof.
  intros W F J B E L. destruct (width_uint w z W F) as (R & M).
  eapply from_goq; [apply app_nonempty, starts_nonempty, (json_int_starts _ _ J)|].
  rewrite <- M. apply dec_uint; rewrite ?M; auto.
Qed.
Example C45_hypotheses : width 64 /\ fits_int 64 (-9223372036854775808) /\
  encode ft0 (VInt (-9223372036854775808)) (TInt 64)
    = Ok [45; 57; 50; 50; 51; 51; 55; 50; 48; 51; 54; 56; 53; 52; 55; 55; 53; 56; 48; 56] /\
  fits_uint 64 18446744073709551615 /\ ended [93] /\ ended [] /\ ended [32; 34].
Proof.
  unfold width, fits_int, fits_uint, ended, delimiter, blank. cbn [In]. repeat split; auto; try lia. 
Qed.
(** But decoding cannot go on when the delimiter is the last byte of a 256-byte segment: an
    array of one integer then panics. *)
Theorem C45_delimiter_at_segment_end_refuted w z ws x tail fuel init : width w -> fits_int w z -> json_int x z -> Forall blank ws ->
  (length (91%Z :: ws ++ x ++ 93%Z :: tail) < fuel)%nat -> (1 + zlen ws + zlen x) mod 256 = 255 ->
  decode_from fuel [91 :: ws ++ x ++ 93 :: tail] (TSlice (TInt w)) init = Panic.
Proof. intros W F J B L M. eapply int_panic; eauto. exact (width_int w z W F). Qed.
Example C45_refuted_case : json_int [53] 5 /\ (1 + zlen (repeat 32 253) + zlen [53]) mod 256 = 255 /\ Forall blank (repeat 32 253).
Proof.
  repeat split; [apply (JPos 53 []); [lia|constructor]|]. apply Forall_forall. intros y I. apply repeat_spec in I. subst. unfold blank. cbn; auto.
Qed.

(** ** C84: integers that do not fit *)
(** They are stored modulo the width, without an error. *)
Lemma sgn_mod w z : width w -> fits_int w (sgn w z) /\ sgn w z mod 2^w = z mod 2^w.
Proof.
  intros W. unfold width in W. cbn [In] in W. unfold fits_int, sgn.
  destruct W as [<-|[<-|[<-|[<-|[]]]]]; cbn -[Z.modulo] in *; destruct (_ <? _) eqn:E; Z.div_mod_to_equations; lia.
Qed.
Theorem C84_out_of_range_unsigned_refuted w z ws x rest fuel init : width w -> json_int x z -> 0 <= z < 2^64 -> Forall blank ws -> ended rest ->
  (length (ws ++ x ++ rest) < fuel)%nat ->
  decode_from fuel [ws ++ x ++ rest] (TUint w) init = Ok (Good (VInt (z mod 2^w))).
Proof.
  intros W J R B E L. pose proof (app_nonempty ws x rest (starts_nonempty _ (json_int_starts _ _ J))) as NE.
  eapply from_goq; [exact NE|]. apply dec_uint; auto.
Qed.
Theorem C84_out_of_range_refuted w z ws x rest fuel init : width w -> json_int x z -> - 2^63 <= z < 2^63 -> Forall blank ws -> ended rest ->
  (length (ws ++ x ++ rest) < fuel)%nat ->
  exists y, decode_from fuel [ws ++ x ++ rest] (TInt w) init = Ok (Good (VInt y)) /\ fits_int w y /\ y mod 2^w = z mod 2^w.
Proof.
  intros W J R B E L. pose proof (app_nonempty ws x rest (starts_nonempty _ (json_int_starts _ _ J))) as NE.
  exists (sgn w z). split; [|exact (sgn_mod w z W)]. eapply from_goq; [exact NE|]. apply dec_int; auto.
Qed.
Example C84_case : decode_from 9 [[51; 48; 48]] (TUint 8) (VInt 0) = Ok (Good (VInt 44)) /\
  decode_from 9 [[51; 48; 48]] (TInt 8) (VInt 0) = Ok (Good (VInt 44)) /\ ~ fits_uint 8 300.
Proof. unfold fits_uint. repeat split. lia. Qed.

(** ** C46: arrays and objects *)
Theorem C46_round_trip_partial ft t v fuel x : plain t v ->
  no_ints t \/ (forall i c, nth_error x i = Some c -> delimiter c -> Nat.modulo i 256 <> 255%nat) ->
  encode ft v t = Ok x -> (length x < fuel)%nat ->
  decode_from fuel [x] t (zero t) = Ok (Good v).
Proof.
  intros P O E L. pose proof (starts_enc _ _ _ _ P E) as SX.
  pose proof (round_trip ft fuel t v x P E 0 []) as G. rewrite !app_nil_r in G.
  eapply from_go; [exact (starts_nonempty _ SX)|]. apply G; [exact I|exact L|].
  destruct O as [O|O]; [left; exact O|right]. intros i c N D. specialize (O i c N D).
  intro Q. apply O. lia.
Qed.
Theorem C46_encodes ft t v : plain t v -> exists x, encode ft v t = Ok x.
Proof. intros P. apply (enc_total_size ft (S (tsize t))); [lia|exact P]. Qed.
Example C46_hypotheses :
  let t := TMap TString (TSlice (TPtr (TStruct [([73], [105; 100], TInt 32)]))) in
  let v := VMap (Some [(VStr [97], VSlice (Some [VPtr (Some (VStruct [VInt (-7)])); VPtr (Some (VStruct [VInt 12]))])); (VStr [], VSlice (Some [VPtr (Some (VStruct [VInt 0]))]))]) in
  plain t v /\ exists x, encode ft0 v t = Ok x /\ length x = 41%nat.
Proof.
  cbn zeta. split; [|eexists; split; reflexivity].
  cbn [plain map fst snd]. split; [discriminate|].
  assert (PF : plain_field [73] [105; 100]) by (right; split; [split; [discriminate|repeat constructor; lia]|discriminate]).
  assert (PI : forall z, -100 < z < 100 -> plain_field [73] [105; 100] /\ width 32 /\ fits_int 32 z).
  { intros z Z0. split; [exact PF|]. split; [unfold width; cbn; auto|unfold fits_int; cbn; lia]. }
  split; [split|].
  - constructor; [exists [97]; split; [reflexivity|apply (Utf8Cons 97 [97] []); [constructor; lia|constructor]]|].
    constructor; [exists []; split; [reflexivity|constructor]|constructor].
  - constructor; [intros [Q|[]]; discriminate|]. constructor; [intros []|constructor].
  - constructor; [|constructor; [|constructor]]; cbn [snd]; (split; [discriminate|split; [discriminate|]]).
    + constructor; [apply PI; lia|constructor; [apply PI; lia|constructor]].
    + constructor; [apply PI; lia|constructor].
Qed.
(** An empty slice ends the slice it is in: what follows it is lost. *)
Theorem C46_empty_slice_refuted ft e v vs x fuel init : (0 < fuel)%nat -> e <> TUint 8 ->
  encode ft (VSlice (Some (VSlice (Some []) :: v :: vs))) (TSlice (TSlice e)) = Ok x ->
  decode_from fuel [x] (TSlice (TSlice e)) init = Ok (Good (VSlice (Some [VSlice (Some [])]))).
Proof. intros L N E. eapply empty_inner; eassumption. Qed.
(** An empty map does not decode. *)
Theorem C46_empty_map_refuted ft e x fuel init : (0 < fuel)%nat -> encode ft (VMap (Some [])) (TMap TString e) = Ok x ->
  exists er, decode_from fuel [x] (TMap TString e) init = Ok (Fail er) /\ er <> EFuel.
Proof. intros L E. injection E as <-. apply empty_map. exact L. Qed.
(** Fields are written without a comma between them, so a struct with two does not decode. *)
Theorem C46_two_fields_refuted ft fuel n1 t1 n2 t2 s1 s2 x : plain_field n1 t1 -> plain_field n2 t2 -> utf8 s1 ->
  encode ft (VStruct [VStr s1; VStr s2]) (TStruct [(n1, t1, TString); (n2, t2, TString)]) = Ok x -> (length x < fuel)%nat ->
  exists er, decode_from fuel [x] (TStruct [(n1, t1, TString); (n2, t2, TString)])
    (zero (TStruct [(n1, t1, TString); (n2, t2, TString)])) = Ok (Fail er) /\ er <> EFuel.
Proof. intros; eapply two_fields; eassumption. Qed.
(** Go arrays cannot be encoded at all. *)
Theorem C46_array_refuted ft l n e : encode ft (VArray l) (TArray n e) = Panic.
Proof. reflexivity. Qed.
(** Nil is written as null, which decodes into no type. *)
Theorem C46_nil_refuted ft e x fuel : (0 < fuel)%nat -> In x (map (fun p => encode ft (snd p) (fst p))
   [(TSlice e, VSlice None); (TMap TString e, VMap None); (TPtr e, VPtr None); (TIface, VIface None)]) ->
  exists y, x = Ok y /\ forall t, exists er, decode_from fuel [y] t (zero t) = Ok (Fail er) /\ er <> EFuel.
Proof.
  intros L I. exists [110; 117; 108; 108]. split.
  - cbn [map fst snd] in I. destruct I as [<-|[<-|[<-|[<-|[]]]]]; try reflexivity. destruct e; try reflexivity.
    destruct w as [|q|q]; try reflexivity. do 4 (destruct q as [q|q|]; try reflexivity).
  - intros t. apply null_no_type; [exact L|cbn; lia].
Qed.

(** ** C47: booleans, null and floats *)
Theorem C47_true ws tail fuel init : Forall blank ws -> (length ws < fuel)%nat ->
  decode_from fuel [ws ++ [116; 114; 117; 101] ++ tail] TBool init = Ok (Good (VBool true)).
Proof. intros. apply bool_four; cbn; auto. Qed.
(** Missing: a target that holds true. *)
Theorem C47_false_partial ws tail fuel : Forall blank ws -> (length ws < fuel)%nat ->
  decode_from fuel [ws ++ [102; 97; 108; 115; 101] ++ tail] TBool (VBool false) = Ok (Good (VBool false)).
Proof. intros. apply bool_five; cbn; auto. Qed.
Theorem C47_false_refuted ws tail fuel : Forall blank ws -> (length ws < fuel)%nat ->
  decode_from fuel [ws ++ [102; 97; 108; 115; 101] ++ tail] TBool (VBool true) = Ok (Good (VBool true)).
Proof. intros. apply bool_five; cbn; auto. Qed.
(** Other spellings are accepted: frue, tale, falsx and so on. *)
Theorem C47_spelling_refuted a b c e init tail fuel : In a [102; 116] -> In b [97; 114] -> In c [108; 117] -> (0 < fuel)%nat ->
  decode_from fuel [[a; b; c; 101] ++ tail] TBool init = Ok (Good (VBool true)) /\
  decode_from fuel [[a; b; c; 115; e] ++ tail] TBool (VBool false) = Ok (Good (VBool false)).
Proof.
  intros A B C L. split; [apply (bool_four fuel [])|apply (bool_five fuel [])]; auto.
Qed.
(** A literal with a decimal point and no sign, exactly (before rounding to a float). Missing:
    every other literal, see below. *)
Theorem C47_float_partial ws ds es rest fuel init : Forall blank ws -> ds <> [] -> Forall digit ds -> Forall digit es ->
  zlen es <= 19 -> digits_value 0 ds < 2^63 -> closed rest -> (length (ws ++ ds ++ 46%Z :: es ++ rest) < fuel)%nat ->
  exists n d, decode_from fuel [ws ++ ds ++ 46 :: es ++ rest] TFloat init = Ok (Good (VFloat (FRat n d))) /\
    d = 10 ^ zlen es /\ n = digits_value 0 ds * d + digits_value 0 es.
Proof. intros. eexists _, _. split; [apply float_decimal; assumption|]. auto. Qed.
(** The fraction of a negative number is added, not subtracted: -1.5 reads as -0.5. *)
Theorem C47_negative_float_refuted ds es rest fuel init : ds <> [] -> Forall digit ds -> Forall digit es -> zlen es <= 19 ->
  digits_value 0 ds < 2^63 -> closed rest -> (length (45%Z :: ds ++ 46%Z :: es ++ rest) < fuel)%nat ->
  exists n d, decode_from fuel [45 :: ds ++ 46 :: es ++ rest] TFloat init = Ok (Good (VFloat (FRat n d))) /\
    d = 10 ^ zlen es /\ n = - digits_value 0 ds * d + digits_value 0 es.
Proof. intros. eexists _, _. split; [apply float_negative; assumption|]. auto. Qed.
(** A number without a decimal point reads as NaN. *)
Theorem C47_whole_float_refuted ds rest fuel init : ds <> [] -> Forall digit ds -> digits_value 0 ds < 2^63 -> closed rest ->
  (length (ds ++ rest) < fuel)%nat -> decode_from fuel [ds ++ rest] TFloat init = Ok (Good (VFloat FNaN)).
Proof. intros. apply float_whole; assumption. Qed.
Example C47_hypotheses : Forall digit [49] /\ Forall digit [53; 48] /\ closed [44] /\ closed [] /\
  decode_from 9 [[45; 49; 46; 53]] TFloat (VFloat (FRat 0 1)) = Ok (Good (VFloat (FRat (-5) 10))).
Proof. unfold closed, delimiter. cbn [In]. repeat split; auto; repeat constructor; lia. Qed.
(** null decodes into no type, whatever follows it but a zero byte. *)
Theorem C47_null_refuted tail fuel t : (0 < fuel)%nat -> hd 1 tail <> 0 ->
  exists er, decode_from fuel [[110; 117; 108; 108] ++ tail] t (zero t) = Ok (Fail er) /\ er <> EFuel.
Proof. intros. apply null_no_type; assumption. Qed.

(** ** C48: chunking *)
Theorem C48_chunks_partial r1 r2 fuel t init : aligned r1 -> aligned r2 -> concat r1 = concat r2 ->
  decode_from fuel r1 t init = decode_from fuel r2 t init.
Proof. apply decode_chunks. Qed.
Example C48_hypotheses : aligned [repeat 32 512; [49; 44; 50]] /\ aligned [repeat 32 256; repeat 32 256 ++ [49; 44; 50]] /\
  concat [repeat 32 512; [49; 44; 50]] = concat [repeat 32 256; repeat 32 256 ++ [49; 44; 50]].
Proof. cbn [aligned]. repeat split; discriminate. Qed.
(** A string cut anywhere in its first 255 bytes loses what comes after the cut. *)
Theorem C48_cut_string_refuted x y fuel init : Forall (fun b => b <> 34 /\ b <> 92) x -> Forall (fun b => b <> 34 /\ b <> 92) y -> y <> [] ->
  (length (34%Z :: x ++ y ++ [34%Z]) < fuel)%nat -> (length x < 255)%nat ->
  decode_from fuel [34 :: x; y ++ [34]] TString init = Ok (Good (VStr x)) /\
  decode_from fuel [34 :: x ++ y ++ [34]] TString init = Ok (Good (VStr (x ++ y))).
Proof.
  intros F G N L Lx. cbn [length] in L. rewrite !app_length in L. cbn [length] in L.
  assert (1 <= length y)%nat by (destruct y; [congruence|cbn; lia]).
  split; [apply string_cut; auto; lia|].
  eapply from_go; [discriminate|]. cbn [decode]. eapply go_bind; [apply go_nospace; [lia|unfold blank; cbn; lia]|].
  eapply go_bind; [|apply go_ret]. unfold decode_string. eapply go_bind; [apply go_scan|]. change (34 =? 34) with true. cbv iota.
  rewrite app_assoc. apply go_plain; [apply Forall_app; auto|intros n' Ln|rewrite app_length; lia].
  rewrite app_length in Ln. destruct n' as [|n']; [lia|]. cbn [string_loop]. eapply go_bind; [apply go_scan|].
  change (34 =? 34) with true. cbv iota. apply go_ret.
Qed.

(** ** C49: base64 *)
(** Missing: the empty slice. *)
Theorem C49_base64_partial ft b x : is_bytes b -> b <> [] ->
  encode ft (VSlice (Some (map VInt b))) (TSlice (TUint 8)) = Ok x -> exists y, x = 34 :: y ++ [34] /\ b64 y b.
Proof.
  intros F N E. exists (base64_quanta b). split; [|eapply base64_b64; [apply le_n|exact F]].
  cbn [encode] in E. rewrite map_map in E. rewrite map_id in E. destruct b as [|c b]; [congruence|].
  set (c' := c :: b) in *. assert (Q : base64 c' = 34 :: base64_quanta c' ++ [34]) by reflexivity. rewrite Q in E. clearbody c'. congruence.
Qed.
Example C49_hypotheses : is_bytes [255; 0; 128; 7] /\
  encode ft0 (VSlice (Some (map VInt [255; 0; 128; 7]))) (TSlice (TUint 8)) = Ok [34; 47; 119; 67; 65; 66; 119; 61; 61; 34].
Proof. split; [repeat (constructor; [split; lia|]); constructor|reflexivity]. Qed.
(** The empty slice is written as "null", which is the base64 of three other bytes. *)
Theorem C49_empty_refuted ft : exists y,
  encode ft (VSlice (Some [])) (TSlice (TUint 8)) = Ok (34 :: y ++ [34]) /\
  encode ft (VSlice (Some (map VInt [158; 233; 101]))) (TSlice (TUint 8)) = Ok (34 :: y ++ [34]) /\ b64 y [158; 233; 101].
Proof.
  exists [110; 117; 108; 108]. split; [reflexivity|]. split; [reflexivity|].
  apply (base64_b64 3 [158; 233; 101] (le_n _)). repeat (constructor; [split; lia|]). constructor.
Qed.
(** The decoder does not read base64: a byte slice does not decode from what was written for it. *)
Theorem C49_decode_refuted ft b x fuel init : encode ft (VSlice (Some (map VInt b))) (TSlice (TUint 8)) = Ok x -> (0 < fuel)%nat ->
  exists er, decode_from fuel [x] (TSlice (TUint 8)) init = Ok (Fail er) /\ er <> EFuel.
Proof.
  intros E L. assert (X : exists r, x = 34 :: r).
  { cbn [encode] in E. unfold base64 in E. destruct (map _ _); injection E as <-; eauto. }
  destruct X as (r & ->). apply from_fails; [discriminate|]. rewrite decode_slice.
  eapply fails_then; [apply go_nospace; [lia|unfold blank; cbn; lia]|]. eapply fails_then; [apply go_scan|].
  change (34 =? 91) with false. cbn [negb]. apply fails_bad.
Qed.

Print Assumptions C44_encoder_writes_json_strings.
Print Assumptions C44_round_trip.
Print Assumptions C44_valid_strings.
Print Assumptions C44_no_control_characters.
Print Assumptions C83_decoder_reads_json_strings_partial.
Print Assumptions C83_surrogate_pairs_refuted.
Print Assumptions C45_encode_int.
Print Assumptions C45_encode_uint.
Print Assumptions C45_decode_int.
Print Assumptions C45_decode_uint.
Print Assumptions C45_delimiter_at_segment_end_refuted.
Print Assumptions C84_out_of_range_refuted.
Print Assumptions C84_out_of_range_unsigned_refuted.
Print Assumptions C46_round_trip_partial.
Print Assumptions C46_encodes.
Print Assumptions C46_empty_slice_refuted.
Print Assumptions C46_empty_map_refuted.
Print Assumptions C46_two_fields_refuted.
Print Assumptions C46_array_refuted.
Print Assumptions C46_nil_refuted.
Print Assumptions C47_true.
Print Assumptions C47_false_partial.
Print Assumptions C47_false_refuted.
Print Assumptions C47_spelling_refuted.
Print Assumptions C47_float_partial.
Print Assumptions C47_negative_float_refuted.
Print Assumptions C47_whole_float_refuted.
Print Assumptions C47_null_refuted.
Print Assumptions C48_chunks_partial.
Print Assumptions C48_cut_string_refuted.
Print Assumptions C49_base64_partial.
Print Assumptions C49_empty_refuted.
Print Assumptions C49_decode_refuted.
