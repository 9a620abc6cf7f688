(** Properties C24 and C25 of package bit. *)
From Verif Require Import GoBase BaseLemmas BitModel BitSpec BitProofs.

(** C24, for data of at most 16 bytes: the recording sink gets exactly the data
    and the call reports its length in bits.  Missing: longer data, for which
    the code does not have the property (next two theorems). *)
Theorem C24_short_writes_delivered_partial :
  forall d, zlen d <= 16 -> WriteBytes_delivers d /\ WriteString_delivers d.
Proof. exact delivers_small. Qed.

(** ... and whatever the writer is, it is called once, with an array whose
    bytes are the data. *)
Theorem C24_one_array_any_writer_partial :
  forall (S : Type) (w : writer S) (s : S) (d : bytes), zlen d <= 16 ->
  exists a, arr_bytes a = Ok d /\ arr_len a = 8 * zlen d /\ write_bytes w s d = w s a.
Proof. exact @write_bytes_small. Qed.

(** Every write of more than 16 bytes with WriteBytes delivers nothing and
    reports zero bits, without an error. *)
Theorem C24_long_WriteBytes_delivers_nothing_refuted :
  forall log d, 16 < zlen d -> write_bytes recorder log d = Ok (log, 0, None).
Proof. exact write_bytes_long. Qed.

(** Every write of more than 16 bytes with WriteString makes the receiver of
    the array panic. *)
Theorem C24_long_WriteString_panics_refuted :
  forall log d, 16 < zlen d -> write_string recorder log d = Panic.
Proof. exact write_string_long. Qed.

Theorem C24_refuted : ~ (forall d, WriteBytes_delivers d) /\ ~ (forall d, WriteString_delivers d).
Proof.
  split; intros H; specialize (H (repeat 7 17) []); vm_compute in H; discriminate.
Qed.

(** C25, for histories in which no more than 16 bytes are written between two
    flushes.  Missing: all others, where the code loses the data. *)
Theorem C25_short_runs_delivered_partial :
  forall xs, runs_within 16 0 xs -> stream_delivers xs.
Proof. exact stream_ok. Qed.

(** Every history of writes of at most 16 bytes each, 17 to 1024 bytes in all,
    is lost whole at the flush, without an error. *)
Theorem C25_long_runs_lost_refuted :
  forall xs, Forall (fun x => x <> Flush /\ zlen (written1 x) <= 16) xs ->
  16 < zlen (written xs) <= 1024 ->
  do_steps recorder (new_stream []) (xs ++ [Flush]) = Ok (new_stream [], None).
Proof. exact run_lost. Qed.

Theorem C25_refuted : ~ (forall xs, stream_delivers xs).
Proof.
  intros H. destruct (H [WBytes (repeat 1 10); WString (repeat 2 7)]) as (st & E & I).
  rewrite run_lost in E.
  - injection E as <-. vm_compute in I. discriminate.
  - repeat constructor; try discriminate; cbn; lia.
  - vm_compute. split; [reflexivity|discriminate].
Qed.

(** A failing inner writer: Flush reports the error and keeps the bytes. *)
Theorem C25_flush_error_keeps_bytes :
  forall (S : Type) (w : writer S) (st : stream S) s' n e,
  st_buf st <> [] -> write_bytes w (st_inner st) (st_buf st) = Ok (s', n, Some e) ->
  flush w st = Ok ({| st_inner := s'; st_buf := st_buf st |}, Some e).
Proof. exact @flush_error. Qed.

(** ... and so does a WriteBits that had to flush first: the array is not taken. *)
Theorem C25_write_reports_failed_flush :
  forall (S : Type) (w : writer S) (st : stream S) a d s' n e,
  arr_bytes a = Ok d -> 1024 < zlen (st_buf st) + zlen d -> st_buf st <> [] ->
  write_bytes w (st_inner st) (st_buf st) = Ok (s', n, Some e) ->
  stream_write w st a = Ok ({| st_inner := s'; st_buf := st_buf st |}, 0, Some e).
Proof.
  intros S w st a d s' n e A H N W. unfold stream_write. rewrite A. unfold cap_buf.
  destruct (Z.ltb_spec 1024 (zlen (st_buf st) + zlen d)); [|lia].
  now rewrite (flush_error w st s' n e N W).
Qed.

(** An array that fits is buffered whole and reported whole, without touching the inner writer. *)
Theorem C25_buffered_write :
  forall (S : Type) (w : writer S) (st : stream S) a d,
  arr_bytes a = Ok d -> zlen (st_buf st) + zlen d <= 1024 ->
  stream_write w st a = Ok ({| st_inner := st_inner st; st_buf := st_buf st ++ d |}, arr_len a, None).
Proof. exact @stream_put_small. Qed.

(** Whatever the inner writer does, the buffer never holds more than its 1024 bytes. *)
Theorem C25_buffer_bounded :
  forall (S : Type) (w : writer S) (st : stream S) a st' n e,
  zlen (st_buf st) <= 1024 -> stream_write w st a = Ok (st', n, e) -> zlen (st_buf st') <= 1024.
Proof. exact @buffer_bounded. Qed.

(** Non-vacuity *)
Example C24_case : zlen (repeat 255 16) <= 16 /\
  write_bytes recorder [9] (repeat 255 16) = Ok (9 :: repeat 255 16, 128, None).
Proof. split; [vm_compute; discriminate|reflexivity]. Qed.
Example C25_case :
  let xs := [WBytes [1;2;3]; WString (repeat 4 13); Flush; WString [5]; WBytes []; Flush] in
  runs_within 16 0 xs /\ written xs = [1;2;3] ++ repeat 4 13 ++ [5].
Proof. cbn. repeat split; try lia. Qed.
Example C25_flush_error_case :
  exists s' n e, write_bytes (fun (_:unit) _ => Ok (tt, 0, Some 5)) tt [1;2] = Ok (s', n, Some e).
Proof. exists tt, 0, 5. reflexivity. Qed.

Print Assumptions C24_short_writes_delivered_partial.
Print Assumptions C24_one_array_any_writer_partial.
Print Assumptions C24_long_WriteBytes_delivers_nothing_refuted.
Print Assumptions C24_long_WriteString_panics_refuted.
Print Assumptions C24_refuted.
Print Assumptions C25_short_runs_delivered_partial.
Print Assumptions C25_long_runs_lost_refuted.
Print Assumptions C25_refuted.
Print Assumptions C25_flush_error_keeps_bytes.
Print Assumptions C25_write_reports_failed_flush.
Print Assumptions C25_buffered_write.
Print Assumptions C25_buffer_bounded.
