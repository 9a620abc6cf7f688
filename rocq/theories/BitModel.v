(** Model of bit/bit.go.  A [Writer] (an interface in Go) is an arbitrary
    state machine: called with a state and an array it may panic, or give a new
    state, the number of bits it says it took, and an optional error. *)
From Verif Require Import GoBase.

(** bit/bit.go:7-11.  The 16 bytes of [buffer complex128] are kept as a byte
    list; [memory] is nil, or the bytes it points to. *)
Record array := { a_buffer : bytes; a_length : Z; a_memory : option bytes }.

(** Go zero value of [Array]. *)
Definition zero_array : array :=
  {| a_buffer := repeat 0 16; a_length := 0; a_memory := None |}.

(** Go's [copy(dst, src)] on the fixed 16 byte buffer: overwrite a prefix. *)
Definition copy16 (dst src : bytes) : bytes :=
  firstn 16 src ++ skipn (length (firstn 16 src)) dst.

(** bit/bit.go:13 *)
Definition arr_len (a : array) : Z := a_length a.

(** bit/bit.go:15-20.  [length/8] truncates toward zero ([Z.quot]); slicing the
    16 byte array out of range panics.  The memory branch ([unsafe.Slice])
    is modelled for lengths within the memory; beyond it the model panics. *)
Definition arr_bytes (a : array) : outcome bytes :=
  match a_memory a with
  | Some m => slice_to (Z.quot (a_length a) 8) m
  | None => slice_to (Z.quot (a_length a) 8) (a_buffer a)
  end.

(** bit/bit.go:22-24 *)
Definition error := Z.
Definition writer (S : Type) := S -> array -> outcome (S * Z * option error).

(** bit/bit.go:36-49.  Structural fuel: the loop removes at least one byte per
    round, so [length data] rounds suffice (see [slow_fuel] in BitProofs).
    Note that [arr.length] is never assigned. *)
Fixpoint write_slow {S} (fuel : nat) (w : writer S) (s : S) (data : bytes) (n : Z)
  : outcome (S * Z * option error) :=
  match fuel with
  | O => Ok (s, n, None)
  | Datatypes.S fuel' =>
    match data with
    | [] => Ok (s, n, None)
    | _ =>
      let a := {| a_buffer := copy16 (repeat 0 16) (firstn 16 data);
                  a_length := 0; a_memory := None |} in
      match w s a with
      | Panic => Panic
      | Ok (s', add, Some e) => Ok (s', n + add, Some e)
      | Ok (s', add, None) => write_slow fuel' w s' (skipn 16 data) (n + add)
      end
    end
  end.

(** bit/bit.go:26-34 *)
Definition write_bytes {S} (w : writer S) (s : S) (data : bytes)
  : outcome (S * Z * option error) :=
  if 16 <? zlen data then write_slow (length data) w s data 0
  else w s {| a_buffer := copy16 (repeat 0 16) data;
              a_length := zlen data * 8; a_memory := None |}.

(** bit/bit.go:51-66, the loop of WriteString: [arr.length] is the length of all
    the remaining data while only 16 bytes are stored. *)
Fixpoint write_string_loop {S} (fuel : nat) (w : writer S) (s : S) (data : bytes) (n : Z)
  : outcome (S * Z * option error) :=
  match fuel with
  | O => Ok (s, n, None)
  | Datatypes.S fuel' =>
    match data with
    | [] => Ok (s, n, None)
    | _ =>
      let a := {| a_buffer := copy16 (repeat 0 16) data;
                  a_length := zlen data * 8; a_memory := None |} in
      match w s a with
      | Panic => Panic
      | Ok (s', add, Some e) => Ok (s', n + add, Some e)
      | Ok (s', add, None) => write_string_loop fuel' w s' (skipn 16 data) (n + add)
      end
    end
  end.

(** bit/bit.go:51-71 *)
Definition write_string {S} (w : writer S) (s : S) (data : bytes)
  : outcome (S * Z * option error) :=
  if 16 <? zlen data then write_string_loop (length data) w s data 0
  else w s {| a_buffer := copy16 (repeat 0 16) data;
              a_length := zlen data * 8; a_memory := None |}.

(** bit/bit.go:77-81.  [buf[:n]] is kept as a list (the bytes at and after [n]
    are never read before being overwritten), [n] is its length. *)
Record stream (S : Type) := { st_inner : S; st_buf : bytes }.
Arguments st_inner {S} s.
Arguments st_buf {S} s.
Arguments Build_stream {S}.

Definition cap_buf : Z := 1024.

(** bit/bit.go:83-85 *)
Definition new_stream {S} (s : S) : stream S := {| st_inner := s; st_buf := [] |}.

(** bit/bit.go:102-110 *)
Definition flush {S} (w : writer S) (st : stream S) : outcome (stream S * option error) :=
  if 0 <? zlen (st_buf st) then
    match write_bytes w (st_inner st) (st_buf st) with
    | Panic => Panic
    | Ok (s', _, Some e) => Ok ({| st_inner := s'; st_buf := st_buf st |}, Some e)
    | Ok (s', _, None) => Ok ({| st_inner := s'; st_buf := [] |}, None)
    end
  else Ok (st, None).

(** bit/bit.go:94-99, the part of WriteBits after the possible flush. *)
Definition stream_put {S} (w : writer S) (st : stream S) (a : array) (dat : bytes)
  : outcome (stream S * Z * option error) :=
  if cap_buf <? zlen dat then
    match w (st_inner st) a with
    | Panic => Panic
    | Ok (s', n, e) => Ok ({| st_inner := s'; st_buf := st_buf st |}, n, e)
    end
  else
    Ok ({| st_inner := st_inner st;
           st_buf := st_buf st ++ firstn (Z.to_nat (cap_buf - zlen (st_buf st))) dat |},
        arr_len a, None).

(** bit/bit.go:87-100 *)
Definition stream_write {S} (w : writer S) : writer (stream S) :=
  fun st a =>
  match arr_bytes a with
  | Panic => Panic
  | Ok dat =>
    if cap_buf <? zlen (st_buf st) + zlen dat then
      match flush w st with
      | Panic => Panic
      | Ok (st', Some e) => Ok (st', 0, Some e)
      | Ok (st', None) => stream_put w st' a dat
      end
    else stream_put w st a dat
  end.
