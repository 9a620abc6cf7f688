(** Properties C50, C51 and C70 to C73: websockets and event streams of api/rest. *)
From Verif Require Import GoBase BaseLemmas SockModel SockSpec SockProofs.

(** C50, for payloads of fewer than 126 bytes: what the server (client) writes is an
    unmasked (masked) RFC 6455 text frame of the payload. *)
Theorem C50_server_frame_partial :
  forall b, zlen b < 126 -> rfc_frame 1 None b (server_write (WText b)).
Proof. exact short_server_frame. Qed.
Theorem C50_client_frame_partial :
  forall key b, is_bytes key -> length key = 4%nat -> zlen b < 126 ->
  rfc_frame 1 (Some key) b (client_write key (WText b)).
Proof. exact short_client_frame. Qed.

(** What is missing: for every longer payload a standard reader finds, in what is
    written, no frame with that payload (the extended length is never written). *)
Theorem C50_long_server_frame_refuted :
  forall b, 126 <= zlen b ->
  forall op key p bs rest, server_write (WText b) = bs ++ rest -> rfc_frame op key p bs -> p <> b.
Proof. exact long_server_frame. Qed.
Theorem C50_long_client_frame_refuted :
  forall k b, length k = 4%nat -> 126 <= zlen b ->
  forall op key p bs rest, client_write k (WText b) = bs ++ rest ->
  rfc_frame op (Some key) p bs -> p <> b.
Proof. exact long_client_frame. Qed.

(** Any conversation of short values, pongs and a close written by the server is read
    by the client as exactly its values in order. *)
Theorem C50_conversation_partial :
  forall ws, Forall (fun w => zlen (wake_bytes w) < 126) ws ->
  read_all (client_read true) (concat (map server_write ws)) = (texts ws, false).
Proof. exact conversation. Qed.

(** C51.  Frames without a mask, of any length, are delivered unchanged. *)
Theorem C51_unmasked_delivered :
  forall p bs rest, rfc_frame 1 None p bs -> zlen p <= 2^48 ->
  client_read true (bs ++ rest) = (GText p, rest) /\ server_read true (bs ++ rest) = (GText p, rest).
Proof.
  intros p bs rest F M. split; [exact (client_reads_unmasked p bs rest F M)|].
  exact (server_reads_unmasked true p bs rest F M).
Qed.
(** Masked frames are delivered unchanged for palindromic keys, whatever the payload. *)
Theorem C51_palindromic_key_partial :
  forall k0 k1 p bs rest, rfc_frame 1 (Some [k0; k1; k1; k0]) p bs -> zlen p <= 2^48 ->
  server_read true (bs ++ rest) = (GText p, rest).
Proof. exact masked_symmetric. Qed.
(** For every other key, the text delivered differs from the payload: the key bytes
    are applied in reverse order. *)
Theorem C51_other_keys_refuted :
  forall k0 k1 k2 k3 p bs rest, rfc_frame 1 (Some [k0; k1; k2; k3]) p bs -> zlen p <= 2^48 ->
  (k0 <> k3 /\ p <> []) \/ (k1 <> k2 /\ (2 <= length p)%nat) ->
  forall got rest', server_read true (bs ++ rest) = (GText got, rest') -> got <> p.
Proof. exact masked_asymmetric. Qed.

(** C70 (nothing a websocket client sends crashes the server) fails: every text frame
    does, since the server is always started without a receiving channel. *)
Theorem C70_text_frame_crashes_server_refuted :
  forall key p bs rest, rfc_frame 1 key p bs -> zlen p <= 2^48 ->
  read_all host_read (bs ++ rest) = ([], true).
Proof. exact text_crashes_host. Qed.

(** C82: a ping of any length, masked or not, is read whole and answered by a pong; what is
    written is a standard pong frame, and closing the channel writes a standard close frame. *)
Theorem C82_ping_answered_partial :
  forall key p bs rest recv, rfc_frame 9 key p bs ->
  client_read recv (bs ++ rest) = (GPong, rest) /\ server_read recv (bs ++ rest) = (GPong, rest).
Proof. exact ping_read. Qed.
Theorem C82_pong_and_close_frames_partial :
  rfc_frame 10 None [] (server_write WPong) /\ rfc_frame 8 None [] (server_write WClosed) /\
  forall key, is_bytes key -> length key = 4%nat ->
  rfc_frame 10 (Some key) [] (client_write key WPong) /\ rfc_frame 8 (Some key) [] (client_write key WClosed).
Proof. exact control_frames. Qed.
(** Frames of every other kind, of any length, are skipped whole. *)
Theorem C82_other_frames_skipped_partial :
  forall op key p bs rest recv, 0 <= op < 16 -> op <> 1 -> op <> 9 -> rfc_frame op key p bs ->
  client_read recv (bs ++ rest) = (GSkip, rest) /\ server_read recv (bs ++ rest) = (GSkip, rest).
Proof. exact other_skipped. Qed.
(** What is missing: the pong never carries the data of the ping, and a close frame neither ends
    the reading loop nor is answered. *)
Theorem C82_pong_data_lost_refuted :
  forall p, p <> [] -> ~ rfc_frame 10 None p (server_write WPong).
Proof. exact pong_empty. Qed.
Theorem C82_close_ignored_refuted :
  forall key p bs rest recv, rfc_frame 8 key p bs ->
  read_all (client_read recv) (bs ++ rest) = read_all (client_read recv) rest /\
  read_all (server_read recv) (bs ++ rest) = read_all (server_read recv) rest.
Proof. exact close_ignored. Qed.

(** C71 (a linked function that returns channels can be called) fails: every such
    call returns an error or panics. *)
Theorem C71_channel_functions_refuted :
  forall outs, Exists (fun o => o <> None) outs ->
  link_channels outs false = CallError \/ link_channels outs false = CallPanic.
Proof. intros outs H. exact (link_never_channels outs H false). Qed.

(** C72: the event-stream answer for an iterator parses back to one event per item,
    in order. *)
Theorem C72_events_exact :
  forall (A : Type) (marshal : A -> option bytes) items ds,
  Forall2 (fun x d => marshal x = Some d) items ds -> Forall one_line ds ->
  snd (sse_response marshal None items) = false /\
  sse_parse (fst (sse_response marshal None items)) [] [] = ds.
Proof. exact @sse_response_all. Qed.
(** When the request is cancelled before an item, or an item does not encode,
    exactly the items before it have been written. *)
Theorem C72_events_prefix :
  forall (A : Type) (marshal : A -> option bytes) items ds c rest,
  Forall2 (fun x d => marshal x = Some d) items ds ->
  (rest = [] \/ exists x r, rest = x :: r /\ (c = Some (length items) \/ marshal x = None)) ->
  (match c with None => True | Some k => (length items <= k)%nat end) ->
  fst (sse_response marshal c (items ++ rest)) = concat (map sse_event ds).
Proof. exact @sse_iterate_stop. Qed.
(** The JSON answer holds all the items in order, or is "no content". *)
Theorem C72_json_exact :
  forall (A : Type) (items : list A),
  json_response None items = match items with [] => None | _ => Some items end.
Proof. exact @json_response_all. Qed.
(** On cancellation before item k the JSON answer holds exactly the first k items. *)
Theorem C72_json_prefix :
  forall (A : Type) (items : list A) k,
  json_response (Some k) items = match firstn k items with [] => None | l => Some l end.
Proof. intro A. exact json_response_prefix. Qed.
Theorem C72_channel_prefix :
  forall (A : Type) (items : list A) k,
  channel_get (Some k) items = match firstn k items with [] => None | x :: _ => Some x end /\
  channel_post (Some k) 0 items None = match rev (firstn k items) with [] => None | x :: _ => Some x end.
Proof. intro A. exact channel_prefix. Qed.
(** A channel answers a GET with its first value and a POST with its last. *)
Theorem C72_channel_first_or_last :
  forall (A : Type) (items : list A),
  channel_get None items = match items with [] => None | x :: _ => Some x end /\
  channel_post None 0 items None = match rev items with [] => None | x :: _ => Some x end.
Proof. intros A items. split; [reflexivity|]. exact (channel_post_last items 0 None). Qed.

(** C73 (the client of an event stream delivers its events) holds of the reading loop
    given a channel it can send on: the events that decode are delivered in order, the others
    are skipped ... *)
Theorem C73_lines_delivered_partial :
  forall (A : Type) (unmarshal : bytes -> option A) ds, Forall one_line ds ->
  Forall (fun d => d <> [] /\ zlen d + 6 < 65536) ds ->
  sse_lines unmarshal SendDir (until_too_long (scan_lines (concat (map sse_event ds)) [])) =
    Ok (flat_map (fun d => match unmarshal d with Some v => [v] | None => [] end) ds).
Proof. exact @client_lines. Qed.
(** Events whose lines end in carriage return and newline are the same events. *)
Definition crlf_event (d : bytes) : bytes := data_prefix ++ d ++ [13; 10; 13; 10].
Theorem C73_carriage_returns_partial :
  forall (A : Type) (unmarshal : bytes -> option A) ds, Forall one_line ds ->
  Forall (fun d => d <> [] /\ zlen d + 6 < 65536) ds ->
  sse_lines unmarshal SendDir (until_too_long (scan_lines (concat (map crlf_event ds)) [])) =
    Ok (flat_map (fun d => match unmarshal d with Some v => [v] | None => [] end) ds).
Proof.
  intros A unmarshal ds O N. rewrite <- (C73_lines_delivered_partial A unmarshal ds O N).
  do 2 f_equal. clear N. induction O as [|d ds H O IH]; [reflexivity|]. cbn [map concat].
  rewrite scan_event by exact H. destruct (prefix_one_line d H) as [A1 B1].
  replace (crlf_event d ++ concat (map crlf_event ds))
    with (((data_prefix ++ d) ++ [13]) ++ 10 :: 13 :: 10 :: concat (map crlf_event ds))
    by (unfold crlf_event; rewrite <- !app_assoc; reflexivity).
  rewrite (one_line_scan ((data_prefix ++ d) ++ [13])).
  2:{ intro K. apply in_app_or in K as [K|K]; [exact (A1 K)|]. cbn in K. destruct K as [K|K]; [discriminate|exact K]. }
  rewrite app_nil_r. cbn [scan_lines]. rewrite rev_involutive. f_equal.
  - unfold drop_cr. rewrite rev_app_distr. cbn [rev app]. rewrite rev_involutive. reflexivity.
  - f_equal. exact IH.
Qed.
(** ... but the client insists on a receive-only channel and panics on the first event. *)
Theorem C73_first_event_panics_refuted :
  forall (A : Type) (unmarshal : bytes -> option A) d x,
  unmarshal d = Some x -> d <> [] -> one_line d -> zlen d + 6 < 65536 ->
  forall s, sse_client unmarshal (Some RecvDir) (sse_event d ++ s) = Panic.
Proof. exact @client_panics. Qed.

(** ** The hypotheses are met *)
Example ex_short : server_write (WText [123; 125]) = [129; 2; 123; 125].
Proof. reflexivity. Qed.
Example ex_masked : client_write [1; 2; 3; 4] (WText [123; 125]) = [129; 130; 1; 2; 3; 4; 122; 127].
Proof. reflexivity. Qed.
Example ex_masked_read :
  server_read true [129; 130; 1; 2; 3; 4; 122; 127] = (GText [126; 124], []).
Proof. reflexivity. Qed.
Example ex_long : firstn 3 (server_write (WText (repeat 65 300))) = [129; 126; 65].
Proof. reflexivity. Qed.
Example ex_rfc_long : exists bs, rfc_frame 1 None (repeat 65 300) bs /\ firstn 4 bs = [129; 126; 1; 44].
Proof.
  eexists. split; [apply (Unmasked 1 (repeat 65 300) 126 (be 2 300)); apply L16; cbv; split; congruence|reflexivity].
Qed.
Example ex_crash : read_all host_read (client_write [9; 8; 7; 6] (WText [49])) = ([], true).
Proof. reflexivity. Qed.
Example ex_conversation :
  read_all (client_read true) (concat (map server_write [WText [49]; WPong; WText [50; 51]; WClosed]))
  = ([[49]; [50; 51]], false).
Proof. reflexivity. Qed.
Example ex_sse :
  sse_parse (fst (sse_response (fun x => Some [48 + x]) None [1; 2; 3])) [] [] = [[49]; [50]; [51]].
Proof. reflexivity. Qed.
Example ex_sse_client_loop :
  sse_lines (fun d => Some d) SendDir (until_too_long (scan_lines (concat (map sse_event [[49]; [50]])) []))
  = Ok [[49]; [50]].
Proof. reflexivity. Qed.
Example ex_ping : client_read true ([137; 2; 49; 50] ++ [129; 1; 51]) = (GPong, [129; 1; 51]) /\
  rfc_frame 9 None [49; 50] [137; 2; 49; 50].
Proof. split; [reflexivity|]. apply (Unmasked 9 [49; 50] 2 []). apply L7. cbv. split; discriminate. Qed.
Example ex_link : link_channels [None; Some RecvDir; None] false = CallPanic.
Proof. reflexivity. Qed.

Print Assumptions C50_server_frame_partial.
Print Assumptions C50_client_frame_partial.
Print Assumptions C50_long_server_frame_refuted.
Print Assumptions C50_long_client_frame_refuted.
Print Assumptions C50_conversation_partial.
Print Assumptions C51_unmasked_delivered.
Print Assumptions C51_palindromic_key_partial.
Print Assumptions C51_other_keys_refuted.
Print Assumptions C70_text_frame_crashes_server_refuted.
Print Assumptions C71_channel_functions_refuted.
Print Assumptions C72_events_exact.
Print Assumptions C72_events_prefix.
Print Assumptions C72_json_exact.
Print Assumptions C72_channel_first_or_last.
Print Assumptions C73_lines_delivered_partial.
Print Assumptions C73_first_event_panics_refuted.
Print Assumptions C82_ping_answered_partial.
Print Assumptions C82_pong_and_close_frames_partial.
Print Assumptions C82_other_frames_skipped_partial.
Print Assumptions C82_pong_data_lost_refuted.
Print Assumptions C82_close_ignored_refuted.
Print Assumptions C72_json_prefix.
Print Assumptions C72_channel_prefix.
