From Verif Require Import GoBase BaseLemmas BitModel BitSpec.

Lemma copy16_prefix d : zlen d <= 16 -> firstn (length d) (copy16 (repeat 0 16) d) = d.
Proof.
  intros H. unfold zlen in H. unfold copy16.
  rewrite (firstn_all2 (n:=16) d) by lia.
  rewrite firstn_app, Nat.sub_diag, firstn_O, app_nil_r. apply firstn_all.
Qed.

Lemma copy16_len d : length (copy16 (repeat 0 16) d) = 16%nat.
Proof.
  unfold copy16. rewrite app_length, skipn_length, repeat_length, firstn_length. lia.
Qed.

Lemma quot8 n : 0 <= n -> Z.quot (n * 8) 8 = n.
Proof. intros. rewrite Z.quot_div_nonneg by lia. apply Z.div_mul. lia. Qed.

Lemma small_bytes d : zlen d <= 16 ->
  arr_bytes {| a_buffer := copy16 (repeat 0 16) d;
               a_length := zlen d * 8; a_memory := None |} = Ok d.
Proof.
  intros H. unfold arr_bytes, a_memory, a_length, a_buffer, slice_to.
  assert (0 <= zlen d) by (unfold zlen; lia).
  rewrite quot8 by lia.
  unfold zlen at 3. rewrite copy16_len.
  destruct (Z.leb_spec 0 (zlen d)); [|lia].
  destruct (Z.leb_spec (zlen d) (Z.of_nat 16)); [|lia].
  cbn [andb]. unfold ztake. unfold zlen. rewrite Nat2Z.id. now rewrite copy16_prefix.
Qed.

Lemma big_panics d n : 16 < n ->
  arr_bytes {| a_buffer := copy16 (repeat 0 16) d; a_length := n * 8; a_memory := None |} = Panic.
Proof.
  intros H. unfold arr_bytes, a_memory, a_length, a_buffer, slice_to.
  rewrite quot8 by lia. unfold zlen. rewrite copy16_len.
  destruct (Z.leb_spec n (Z.of_nat 16)); [lia|]. now rewrite andb_false_r.
Qed.

Lemma zero_len_bytes b : arr_bytes {| a_buffer := b; a_length := 0; a_memory := None |} = Ok [].
Proof.
  unfold arr_bytes, a_memory, a_length, a_buffer, slice_to.
  change (Z.quot 0 8) with 0. unfold ztake.
  destruct (Z.leb_spec 0 (zlen b)); [reflexivity|unfold zlen in *; lia].
Qed.

(** ** Any writer: a write of at most 16 bytes is exactly one array holding it. *)
Lemma write_bytes_small {S} (w : writer S) s d : zlen d <= 16 ->
  exists a, arr_bytes a = Ok d /\ arr_len a = 8 * zlen d /\ write_bytes w s d = w s a.
Proof.
  intros H. exists {| a_buffer := copy16 (repeat 0 16) d;
               a_length := zlen d * 8; a_memory := None |}.
  split; [now apply small_bytes|]. split; [unfold arr_len, a_length; lia|].
  unfold write_bytes. destruct (Z.ltb_spec 16 (zlen d)); [lia|reflexivity].
Qed.

Lemma write_string_small {S} (w : writer S) s d : zlen d <= 16 ->
  exists a, arr_bytes a = Ok d /\ arr_len a = 8 * zlen d /\ write_string w s d = w s a.
Proof.
  intros H. exists {| a_buffer := copy16 (repeat 0 16) d;
               a_length := zlen d * 8; a_memory := None |}.
  split; [now apply small_bytes|]. split; [unfold arr_len, a_length; lia|].
  unfold write_string. destruct (Z.ltb_spec 16 (zlen d)); [lia|reflexivity].
Qed.

Lemma recorder_small log a d : arr_bytes a = Ok d -> arr_len a = 8 * zlen d ->
  recorder log a = Ok (log ++ d, 8 * zlen d, None).
Proof. intros H1 H2. unfold recorder. now rewrite H1, H2. Qed.

Lemma delivers_small d : zlen d <= 16 -> WriteBytes_delivers d /\ WriteString_delivers d.
Proof.
  intros H. split; intros log.
  - destruct (write_bytes_small recorder log d H) as (a & A & L & ->). now apply recorder_small.
  - destruct (write_string_small recorder log d H) as (a & A & L & ->). now apply recorder_small.
Qed.

(** ** Longer writes. *)
Lemma write_slow_recorder fuel : forall log d n,
  write_slow fuel recorder log d n = Ok (log, n, None).
Proof.
  induction fuel as [|f IH]; intros; cbn [write_slow]; [reflexivity|].
  destruct d as [|b d]; [reflexivity|].
  unfold recorder at 1. rewrite zero_len_bytes. unfold arr_len, a_length.
  rewrite app_nil_r. rewrite IH. now rewrite Z.add_0_r.
Qed.

Lemma write_bytes_long log d : 16 < zlen d ->
  write_bytes recorder log d = Ok (log, 0, None).
Proof.
  intros H. unfold write_bytes. destruct (Z.ltb_spec 16 (zlen d)); [|lia].
  apply write_slow_recorder.
Qed.

Lemma write_string_long log d : 16 < zlen d -> write_string recorder log d = Panic.
Proof.
  intros H. unfold write_string. destruct (Z.ltb_spec 16 (zlen d)); [|lia].
  destruct d as [|b d]; [unfold zlen in H; cbn in H; lia|].
  cbn [length write_string_loop]. unfold recorder at 1. now rewrite big_panics.
Qed.

(** the fuel of the slow loop is enough: running with any larger fuel changes nothing *)
Lemma slow_fuel {S} (w : writer S) : forall f f' s d n,
  (length d <= f)%nat -> (length d <= f')%nat ->
  write_slow f w s d n = write_slow f' w s d n.
Proof.
  induction f as [|f IH]; intros f' s d n H H'.
  - destruct d; [|cbn in H; lia]. destruct f'; reflexivity.
  - destruct d as [|b d]; [destruct f'; reflexivity|].
    destruct f' as [|f']; [cbn in H'; lia|].
    cbn [write_slow]. destruct (w s _) as [[[s' add] [e|]]|]; try reflexivity.
    apply IH; rewrite skipn_length; cbn [length] in *; lia.
Qed.

Lemma string_fuel {S} (w : writer S) : forall f f' s d n,
  (length d <= f)%nat -> (length d <= f')%nat ->
  write_string_loop f w s d n = write_string_loop f' w s d n.
Proof.
  induction f as [|f IH]; intros f' s d n H H'.
  - destruct d; [|cbn in H; lia]. destruct f'; reflexivity.
  - destruct d as [|b d]; [destruct f'; reflexivity|].
    destruct f' as [|f']; [cbn in H'; lia|].
    cbn [write_string_loop]. destruct (w s _) as [[[s' add] [e|]]|]; try reflexivity.
    apply IH; rewrite skipn_length; cbn [length] in *; lia.
Qed.

(** ** Streams *)
Lemma stream_put_small {S} (w : writer S) st a d :
  arr_bytes a = Ok d -> zlen (st_buf st) + zlen d <= cap_buf ->
  stream_write w st a =
  Ok ({| st_inner := st_inner st; st_buf := st_buf st ++ d |}, arr_len a, None).
Proof.
  intros A H. unfold stream_write. rewrite A.
  destruct (Z.ltb_spec cap_buf (zlen (st_buf st) + zlen d)); [lia|].
  unfold stream_put.
  assert (0 <= zlen (st_buf st)) by (unfold zlen; lia).
  destruct (Z.ltb_spec cap_buf (zlen d)); [lia|].
  rewrite firstn_all2; [reflexivity|]. unfold zlen in *. lia.
Qed.

Lemma step_buffers {S} (w : writer S) st x :
  x <> Flush -> zlen (written1 x) <= 16 ->
  zlen (st_buf st) + zlen (written1 x) <= cap_buf ->
  do_step w st x = Ok ({| st_inner := st_inner st; st_buf := st_buf st ++ written1 x |}, None).
Proof.
  intros N H C. destruct x as [d|d|]; [| |congruence]; cbn [written1 do_step] in *.
  - destruct (write_bytes_small (stream_write w) st d H) as (a & A & L & ->).
    now rewrite (stream_put_small w st a d).
  - destruct (write_string_small (stream_write w) st d H) as (a & A & L & ->).
    now rewrite (stream_put_small w st a d).
Qed.

Lemma flush_small st : zlen (st_buf st) <= 16 ->
  flush recorder st = Ok ({| st_inner := st_inner st ++ st_buf st; st_buf := [] |}, None).
Proof.
  intros H. unfold flush. destruct st as [log b]; cbn [st_buf st_inner] in *.
  destruct (Z.ltb_spec 0 (zlen b)).
  - destruct (delivers_small b H) as [D _]. now rewrite (D log).
  - assert (b = []) by (destruct b; [reflexivity|unfold zlen in *; cbn [length] in *; lia]).
    subst. now rewrite app_nil_r.
Qed.

Lemma flush_large st : 16 < zlen (st_buf st) ->
  flush recorder st = Ok ({| st_inner := st_inner st; st_buf := [] |}, None).
Proof.
  intros H. unfold flush. destruct st as [log b]; cbn [st_buf st_inner] in *.
  destruct (Z.ltb_spec 0 (zlen b)); [|lia]. now rewrite write_bytes_long.
Qed.

Lemma runs_deliver xs : forall st,
  zlen (st_buf st) <= 16 -> runs_within 16 (zlen (st_buf st)) xs ->
  exists st', do_steps recorder st (xs ++ [Flush]) = Ok (st', None) /\
    st_inner st' = st_inner st ++ st_buf st ++ written xs /\ st_buf st' = [].
Proof.
  induction xs as [|x xs IH]; intros st H R.
  - cbn [app do_steps do_step]. rewrite flush_small by assumption.
    eexists; split; [reflexivity|]. cbn [st_inner st_buf]. split; [|reflexivity].
    unfold written. cbn [map concat]. now rewrite app_nil_r.
  - cbn [app do_steps].
    assert (B : x <> Flush \/ x = Flush) by (destruct x; [left|left|right]; congruence).
    destruct B as [N| ->].
    + assert (P : zlen (st_buf st) + zlen (written1 x) <= 16 /\
                  runs_within 16 (zlen (st_buf st) + zlen (written1 x)) xs)
        by (destruct x; [exact R|exact R|congruence]).
      destruct P as [P1 P2].
      assert (0 <= zlen (st_buf st)) by (unfold zlen; lia).
      rewrite step_buffers; [|assumption|lia|unfold cap_buf; lia].
      edestruct (IH {| st_inner := st_inner st; st_buf := st_buf st ++ written1 x |}) as (st' & E & I & Z).
      * cbn [st_buf]. rewrite zlen_app. lia.
      * cbn [st_buf]. now rewrite zlen_app.
      * exists st'. split; [exact E|]. split; [|exact Z]. rewrite I. cbn [st_inner st_buf].
        unfold written. cbn [map concat]. now rewrite <- !app_assoc.
    + cbn [do_step]. rewrite flush_small by assumption.
      destruct (IH {| st_inner := st_inner st ++ st_buf st; st_buf := [] |}) as (st' & E & I & Z).
      * cbn. lia.
      * cbn [st_buf]. exact R.
      * exists st'. split; [exact E|]. split; [|exact Z]. rewrite I. cbn [st_inner st_buf].
        unfold written. cbn [map concat written1 app]. now rewrite <- !app_assoc.
Qed.

Lemma stream_ok xs : runs_within 16 0 xs -> stream_delivers xs.
Proof.
  intros R. destruct (runs_deliver xs (new_stream [])) as (st & E & I & _).
  - cbn. lia.
  - exact R.
  - exists st. split; [exact E|]. rewrite I. reflexivity.
Qed.

(** a run of more than 16 bytes is lost whole *)
Lemma run_buffers xs : forall st,
  Forall (fun x => x <> Flush /\ zlen (written1 x) <= 16) xs ->
  zlen (st_buf st) + zlen (written xs) <= cap_buf ->
  do_steps recorder st xs =
  Ok ({| st_inner := st_inner st; st_buf := st_buf st ++ written xs |}, None).
Proof.
  induction xs as [|x xs IH]; intros st F C.
  - cbn [do_steps]. unfold written. cbn [map concat]. rewrite app_nil_r. now destruct st.
  - inversion F as [ | ? ? [N L] F2 ]; subst.
    unfold written in *. cbn [map concat] in *. fold (written xs) in *.
    rewrite zlen_app in C.
    assert (0 <= zlen (written xs)) by (unfold zlen; lia).
    cbn [do_steps]. rewrite step_buffers; [|assumption|lia|lia].
    rewrite IH; [ | assumption | cbn [st_buf]; rewrite zlen_app; lia ].
    cbn [st_inner st_buf]. now rewrite <- app_assoc.
Qed.

Lemma do_steps_app {S} (w : writer S) xs : forall st ys st',
  do_steps w st xs = Ok (st', None) -> do_steps w st (xs ++ ys) = do_steps w st' ys.
Proof.
  induction xs as [|x xs IH]; intros st ys st' H; cbn [app do_steps] in *.
  - congruence.
  - destruct (do_step w st x) as [[st1 [e|]]|]; try discriminate. now apply IH.
Qed.

Lemma run_lost xs :
  Forall (fun x => x <> Flush /\ zlen (written1 x) <= 16) xs ->
  16 < zlen (written xs) <= 1024 ->
  do_steps recorder (new_stream []) (xs ++ [Flush]) = Ok (new_stream [], None).
Proof.
  intros F L.
  assert (B : do_steps recorder (new_stream ([]:bytes)) xs =
              Ok ({| st_inner := []; st_buf := written xs |}, None)).
  { rewrite run_buffers; [reflexivity|assumption|].
    cbn [st_buf new_stream]. unfold cap_buf, zlen at 1. cbn [length]. lia. }
  etransitivity; [exact (do_steps_app _ xs _ [Flush] _ B)|].
  cbn [do_steps do_step st_inner st_buf new_stream app].
  rewrite flush_large; [reflexivity|exact (proj1 L)].
Qed.

(** ** Errors: any writer.  A failing inner writer is reported by Flush and the
    buffered bytes are kept. *)
Lemma flush_error {S} (w : writer S) st s' n e :
  st_buf st <> [] -> write_bytes w (st_inner st) (st_buf st) = Ok (s', n, Some e) ->
  flush w st = Ok ({| st_inner := s'; st_buf := st_buf st |}, Some e).
Proof.
  intros N H. unfold flush. destruct (Z.ltb_spec 0 (zlen (st_buf st))).
  - now rewrite H.
  - destruct (st_buf st); [congruence|unfold zlen in *; cbn [length] in *; lia].
Qed.

Lemma put_bounded {S} (w : writer S) st a d st' n e : zlen (st_buf st) <= 1024 ->
  stream_put w st a d = Ok (st', n, e) -> zlen (st_buf st') <= 1024.
Proof.
  intros H E. unfold stream_put in E. destruct (cap_buf <? zlen d).
  - destruct (w (st_inner st) a) as [[[s1 n1] e1]|]; [|discriminate]. injection E as <- <- <-. exact H.
  - set (k := Z.to_nat (cap_buf - zlen (st_buf st))) in E.
    assert (K : Z.of_nat k <= 1024 - zlen (st_buf st)) by (unfold k, cap_buf; lia). clearbody k.
    injection E as <- <- <-. cbn [st_buf]. rewrite zlen_app.
    pose proof (firstn_length k d) as L. unfold zlen at 2. rewrite L. lia.
Qed.
Lemma flush_shrinks {S} (w : writer S) st st' e : flush w st = Ok (st', e) -> zlen (st_buf st') <= zlen (st_buf st).
Proof.
  unfold flush. destruct (0 <? zlen (st_buf st)).
  - destruct (write_bytes w (st_inner st) (st_buf st)) as [[[s1 n1] [e1|]]|]; [| |discriminate];
    intros H; injection H as <- <-; cbn [st_buf]; [lia|]. unfold zlen; cbn; lia.
  - intros H. injection H as <- <-. lia.
Qed.
Lemma buffer_bounded {S} (w : writer S) st a st' n e : zlen (st_buf st) <= 1024 ->
  stream_write w st a = Ok (st', n, e) -> zlen (st_buf st') <= 1024.
Proof.
  intros H E. unfold stream_write in E. destruct (arr_bytes a) as [d|]; [|discriminate].
  destruct (cap_buf <? zlen (st_buf st) + zlen d).
  - destruct (flush w st) as [[st1 [e1|]]|] eqn:F; [| |discriminate]; pose proof (flush_shrinks w st st1 _ F) as G.
    + injection E as <- <- <-. lia.
    + eapply put_bounded; [|exact E]. lia.
  - eapply put_bounded; [|exact E]. exact H.
Qed.
