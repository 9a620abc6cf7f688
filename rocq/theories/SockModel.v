(** Model of the websocket and event-stream code of api/rest: frame writers and
    readers of sock.go, the stream writers of host.go and the channel set-up of
    link.go.

    Simplifications: a connection is the sequence of bytes read from it (any
    chunking: io.ReadAtLeast hides it) ending in an error, or written to it; write
    errors are not modelled; JSON encoding and decoding is a parameter; sha1 and the
    HTTP handshake are not modelled. *)
From Verif Require Import GoBase.

Definition sockText := 1.
Definition sockClose := 8.
Definition sockPing := 9.
Definition sockPong := 10.
Definition fin := 128.
Definition mask := 128.

(** What the writing loop was woken for. *)
Inductive wake :=
| WText (b : bytes)     (* a value arrived on the channel, b is its JSON *)
| WPong                 (* the reading goroutine asks for a pong *)
| WClosed.              (* the channel was closed *)

(** api/rest/sock.go:159-168 (server), 484-493 (client): first header byte *)
Definition opcode_byte (w : wake) : Z :=
  match w with
  | WClosed => Z.lor fin sockClose
  | WPong => Z.lor fin sockPong
  | WText _ => Z.lor fin sockText
  end.
Definition wake_bytes (w : wake) : bytes := match w with WText b => b | _ => [] end.

(** api/rest/sock.go:169-178: second header byte.  The results of AppendUint16 and
    AppendUint64 are dropped, so no length bytes follow it. *)
Definition len_byte (n : Z) : Z :=
  if n <? 126 then u8 n else if n <? 65535 then 126 else 127.

(** api/rest/sock.go:158-184: one turn of the server's writing loop *)
Definition server_write (w : wake) : bytes :=
  let b := wake_bytes w in
  [opcode_byte w; len_byte (zlen b)] ++ b.

(** api/rest/sock.go:517-520: masked[i] = b[i] ^ maskKey[i%4] *)
Fixpoint mask_from (i : nat) (key : list Z) (b : bytes) : bytes :=
  match b with
  | [] => []
  | x :: b' => Z.lxor x (nth (Nat.modulo i 4) key 0) :: mask_from (S i) key b'
  end.

(** api/rest/sock.go:482-525: one turn of the client's writing loop with the random
    key of that turn *)
Definition client_write (key : list Z) (w : wake) : bytes :=
  let b := wake_bytes w in
  [opcode_byte w; Z.lor (len_byte (zlen b)) mask] ++ key ++ mask_from 0 key b.

(** encoding/binary BigEndian.Uint16/32/64 of a buffer *)
Definition big_endian (bs : bytes) : Z := fold_left (fun a b => a * 256 + b) bs 0.

(** io.ReadAtLeast of exactly n bytes: None when the stream ends first *)
Definition read_n (n : nat) (s : bytes) : option (bytes * bytes) :=
  if Nat.leb n (length s) then Some (firstn n s, skipn n s) else None.

(** api/rest/sock.go:127-130, 424-427: buf[i] ^ byte(key>>(8*j)), j = i%4 *)
Fixpoint unmask_from (i : nat) (key : Z) (b : bytes) : bytes :=
  match b with
  | [] => []
  | x :: b' => Z.lxor x (u8 (Z.shiftr key (8 * Z.of_nat (Nat.modulo i 4)))) :: unmask_from (S i) key b'
  end.

(** What one turn of the reading loop does. *)
Inductive got :=
| GPong                   (* hand a pong to the writer, continue *)
| GText (buf : bytes)     (* unmasked text, handed to json.Unmarshal *)
| GSkip                   (* control or other frame, skipped *)
| GEnd                    (* the goroutine returns *)
| GCrash.                 (* panic in the goroutine: the process dies *)

(** io.CopyN(io.Discard, body, int64(size)) *)
Definition discard (size : Z) (s : bytes) : bytes :=
  if i64 size <? 0 then s else skipn (Z.to_nat (Z.min size (zlen s))) s.

(** api/rest/sock.go:87-105, 379-397: the header: opcode, size, key *)
Definition read_header (s : bytes) : option (Z * Z * Z * bytes) :=
  match read_n 2 s with
  | Some ([c0; c1], s) =>
    let size := Z.land c1 127 in
    match (if size =? 126 then
             match read_n 2 s with Some (l, s) => Some (big_endian l, s) | None => None end
           else if size =? 127 then
             match read_n 8 s with Some (l, s) => Some (big_endian l, s) | None => None end
           else Some (size, s)) with
    | Some (size, s) =>
      match (if Z.land c1 128 =? 0 then Some (0, s)
             else match read_n 4 s with Some (k, s) => Some (big_endian k, s) | None => None end) with
      | Some (key, s) => Some (Z.land c0 15, size, key, s)
      | None => None
      end
    | None => None
    end
  | _ => None
  end.

(** runtime.makeslice panics above maxAlloc, 2^48 bytes on 64-bit Linux *)
Definition max_alloc := 2^48.

(** api/rest/sock.go:86-144 (server): [recv] says whether the recv value is valid.
    Without one, recv.Type() at 131 panics on the first text frame. *)
Definition server_read (recv : bool) (s : bytes) : got * bytes :=
  match read_header s with
  | None => (GEnd, [])
  | Some (op, size, key, s) =>
    if op =? sockPing then (GPong, if 0 <? size then discard size s else s)
    else if op =? sockText then
      if max_alloc <? size then (GCrash, s)
      else match read_n (Z.to_nat size) s with
      | None => (GEnd, [])
      | Some (buf, s) => if recv then (GText (unmask_from 0 key buf), s) else (GCrash, s)
      end
    else (GSkip, if 0 <? size then discard size s else s)
  end.

(** api/rest/sock.go:378-446 (client): without a valid recv the frame is skipped *)
Definition client_read (recv : bool) (s : bytes) : got * bytes :=
  match read_header s with
  | None => (GEnd, [])
  | Some (op, size, key, s) =>
    if op =? sockPing then (GPong, if 0 <? size then discard size s else s)
    else if (op =? sockText) && recv then
      if max_alloc <? size then (GCrash, s)
      else match read_n (Z.to_nat size) s with
      | None => (GEnd, [])
      | Some (buf, s) => (GText (unmask_from 0 key buf), s)
      end
    else (GSkip, if 0 <? size then discard size s else s)
  end.

(** The reading loop (85, 377): the texts handed on until it ends ([true]: it
    crashed).  Each turn consumes at least two bytes, so [length s] turns suffice. *)
Fixpoint reads (rd : bytes -> got * bytes) (fuel : nat) (s : bytes) : list bytes * bool :=
  match fuel with
  | O => ([], false)
  | S f =>
    match rd s with
    | (GText b, s') => let '(bs, c) := reads rd f s' in (b :: bs, c)
    | (GPong, s') | (GSkip, s') => reads rd f s'
    | (GEnd, _) => ([], false)
    | (GCrash, _) => ([], true)
    end
  end.
Definition read_all (rd : bytes -> got * bytes) (s : bytes) := reads rd (S (length s)) s.

(** api/rest/host.go:316: the server is always started with the zero recv value. *)
Definition host_read := server_read false.

(** ** Event streams *)
(** "data: " and the two newlines, api/rest/sock.go:233, host.go:241 *)
Definition data_prefix : bytes := [100; 97; 116; 97; 58; 32].
Definition sse_event (data : bytes) : bytes := data_prefix ++ data ++ [10; 10].

Section Streams.
Variable A : Type.
Variable marshal : A -> option bytes.

(** The request context: cancelled from the k-th poll on, or never. *)
Definition done_at (c : option nat) (i : nat) : bool :=
  match c with None => false | Some k => Nat.leb k i end.

(** api/rest/host.go:179-192 and 249-262 with [sseStreamWriter] (235-246): the
    iterator yields [items]; output so far is [out]; the flag says whether an error
    was reported through [handle]. *)
Fixpoint sse_iterate (c : option nat) (i : nat) (items : list A) (out : bytes) : bytes * bool :=
  match items with
  | [] => (out, false)
  | x :: rest =>
    if done_at c i then (out, false)
    else match marshal x with
    | None => (out, true)
    | Some data => sse_iterate c (S i) rest (out ++ sse_event data)
    end
  end.
Definition sse_response (c : option nat) (items : list A) := sse_iterate c 0 items [].

(** host.go:211-222 and 249-279 with [jsonStreamWriter]: the items gathered; no items
    give status 204 and no body ([None]), otherwise they are encoded as one array. *)
Fixpoint json_iterate (c : option nat) (i : nat) (items : list A) (acc : list A) : list A :=
  match items with
  | [] => acc
  | x :: rest => if done_at c i then acc else json_iterate c (S i) rest (acc ++ [x])
  end.
Definition json_response (c : option nat) (items : list A) : option (list A) :=
  match json_iterate c 0 items [] with [] => None | l => Some l end.

(** host.go:115-141: a channel that delivers [items] and is then closed, read until
    the context is done after [c] receives.  GET hands on the first value, POST the
    last, with an error "no content" when there is none. *)
Definition channel_get (c : option nat) (items : list A) : option A :=
  if done_at c 0 then None else match items with [] => None | x :: _ => Some x end.
Fixpoint channel_post (c : option nat) (i : nat) (items : list A) (last : option A) : option A :=
  if done_at c i then last else
  match items with
  | [] => last
  | x :: rest => channel_post c (S i) rest (Some x)
  end.
End Streams.
Arguments sse_response {A}.
Arguments sse_iterate {A}.
Arguments json_iterate {A}.
Arguments json_response {A}.
Arguments channel_get {A}.
Arguments channel_post {A}.

(** bufio.ScanLines over the whole input: split at newline, drop one carriage
    return at the end of a line; a final line without newline is a line too unless
    empty. *)
Definition drop_cr (l : bytes) : bytes :=
  match rev l with 13 :: r => rev r | _ => l end.
Fixpoint scan_lines (s cur : bytes) : list bytes :=
  match s with
  | [] => match cur with [] => [] | _ => [drop_cr (rev cur)] end
  | 10 :: s' => drop_cr (rev cur) :: scan_lines s' []
  | x :: s' => scan_lines s' (x :: cur)
  end.
(** bufio.Scanner stops (ErrTooLong) at a line that does not fit its buffer of
    64*1024 bytes together with its newline. *)
Definition max_token := 65536.
Fixpoint until_too_long (ls : list bytes) : list bytes :=
  match ls with
  | [] => []
  | l :: ls' => if zlen l <? max_token then l :: until_too_long ls' else []
  end.
Fixpoint has_prefix (p l : bytes) : bool :=
  match p, l with
  | [], _ => true
  | x :: p', y :: l' => (x =? y) && has_prefix p' l'
  | _, _ => false
  end.

(** Channel directions of package reflect. *)
Inductive chan_dir := RecvDir | SendDir | BothDir.
(** reflect.Value.Send panics on a receive-only channel. *)
Definition can_send (d : chan_dir) : bool := match d with RecvDir => false | _ => true end.

(** api/rest/sock.go:253-280 [sseClientOpen]: the values sent to the channel, or a
    panic.  [unmarshal] fails on undecodable data, which is skipped. *)
Section Client.
Variable A : Type.
Variable unmarshal : bytes -> option A.
Fixpoint sse_lines (d : chan_dir) (ls : list bytes) : outcome (list A) :=
  match ls with
  | [] => Ok []
  | l :: ls' =>
    if has_prefix data_prefix l then
      match skipn 6 l with
      | [] => sse_lines d ls'
      | data =>
        match unmarshal data with
        | None => sse_lines d ls'
        | Some v => if can_send d then let! r := sse_lines d ls' in Ok (v :: r) else Panic
        end
      end
    else sse_lines d ls'
  end.
(** 246-251: nothing is done unless recv is a receive-only channel. *)
Definition sse_client (recv : option chan_dir) (body : bytes) : outcome (list A) :=
  match recv with
  | Some RecvDir => sse_lines RecvDir (until_too_long (scan_lines body []))
  | _ => Ok []
  end.
End Client.
Arguments sse_lines {A}.
Arguments sse_client {A}.

(** api/rest/link.go:269-290: preparing the results of a call to a linked function;
    [outs] gives the channel direction of each result, or None when it is not a
    channel.  reflect.MakeChan panics unless the type is bidirectional. *)
Inductive called := CallError | CallPanic | CallChannels | CallPlain.
Fixpoint link_channels (outs : list (option chan_dir)) (has : bool) : called :=
  match outs with
  | [] => if has then CallChannels else CallPlain
  | None :: r => link_channels r has
  | Some BothDir :: r => CallError
  | Some _ :: r => CallPanic
  end.
