(** RFC 6455 framing and the event-stream format, written from the standards and
    independently of the code (C50, C51, C70 to C73). *)
From Verif Require Import GoBase.

(** n as k big-endian bytes *)
Fixpoint be (k : nat) (n : Z) : bytes :=
  match k with O => [] | S k' => be k' (n / 256) ++ [n mod 256] end.

(** q is p with byte i combined with key byte i mod 4 by exclusive or. *)
Definition xored (key p q : bytes) : Prop :=
  length q = length p /\
  forall i x, nth_error p i = Some x ->
    nth_error q i = Some (Z.lxor x (nth (Nat.modulo i 4) key 0)).

(** The 7-bit length field and the extended length for a payload of n bytes. *)
Inductive rfc_len : Z -> Z -> bytes -> Prop :=
| L7 n : 0 <= n <= 125 -> rfc_len n n []
| L16 n : 126 <= n < 2^16 -> rfc_len n 126 (be 2 n)
| L64 n : 2^16 <= n < 2^63 -> rfc_len n 127 (be 8 n).

(** [rfc_frame op key p bs]: bs is one final frame with opcode op and payload p,
    masked with key if there is one. *)
Inductive rfc_frame (op : Z) : option bytes -> bytes -> bytes -> Prop :=
| Unmasked p l ext : rfc_len (zlen p) l ext ->
    rfc_frame op None p ([128 + op; l] ++ ext ++ p)
| Masked key p q l ext : rfc_len (zlen p) l ext -> is_bytes key -> length key = 4%nat ->
    xored key p q ->
    rfc_frame op (Some key) p ([128 + op; 128 + l] ++ ext ++ key ++ q).

(** Event-stream parser: [line] is the current line so far (reversed), [buf] the
    data lines of the event so far (reversed).  A line "data: x" or "data:x" adds x; a
    blank line dispatches the event if it has data; other lines are ignored. *)
Definition data_field (line : bytes) : option bytes :=
  match line with
  | 100 :: 97 :: 116 :: 97 :: 58 :: 32 :: d => Some d
  | 100 :: 97 :: 116 :: 97 :: 58 :: d => Some d
  | _ => None
  end.
Fixpoint join_lines (ls : list bytes) : bytes :=
  match ls with [] => [] | [l] => l | l :: ls' => l ++ 10 :: join_lines ls' end.
Fixpoint sse_parse (s line : bytes) (buf : list bytes) : list bytes :=
  match s with
  | [] => []
  | x :: s' =>
    if x =? 10 then
      match line with
      | [] => match buf with
              | [] => sse_parse s' [] []
              | _ => join_lines (rev buf) :: sse_parse s' [] []
              end
      | _ => match data_field (rev line) with
             | Some d => sse_parse s' [] (d :: buf)
             | None => sse_parse s' [] buf
             end
      end
    else sse_parse s' (x :: line) buf
  end.

(** Bytes without line terminators. *)
Definition one_line (d : bytes) : Prop := ~ In 10 d /\ ~ In 13 d.
