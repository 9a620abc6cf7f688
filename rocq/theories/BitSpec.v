(** What the properties of package bit talk about, independently of how the
    code moves bytes: a recording sink, and histories of writes to a stream. *)
From Verif Require Import GoBase BitModel.

(** A sink that asks each array it is given for its bytes and appends them to a
    log; it accepts everything and reports the array's length in bits. *)
Definition recorder : writer bytes :=
  fun log a =>
  match arr_bytes a with
  | Panic => Panic
  | Ok b => Ok (log ++ b, arr_len a, None)
  end.

(** What a user does with a StreamWriter: write some bytes with WriteBytes, some
    with WriteString, or flush. *)
Inductive step := WBytes (d : bytes) | WString (d : bytes) | Flush.

Definition do_step {S} (w : writer S) (st : stream S) (x : step)
  : outcome (stream S * option error) :=
  match x with
  | WBytes d => match write_bytes (stream_write w) st d with
                | Ok (st', _, e) => Ok (st', e) | Panic => Panic end
  | WString d => match write_string (stream_write w) st d with
                 | Ok (st', _, e) => Ok (st', e) | Panic => Panic end
  | Flush => flush w st
  end.

(** A history stops at the first error. *)
Fixpoint do_steps {S} (w : writer S) (st : stream S) (xs : list step)
  : outcome (stream S * option error) :=
  match xs with
  | [] => Ok (st, None)
  | x :: xs' =>
    match do_step w st x with
    | Panic => Panic
    | Ok (st', Some e) => Ok (st', Some e)
    | Ok (st', None) => do_steps w st' xs'
    end
  end.

(** The bytes a history writes, in order. *)
Definition written1 (x : step) : bytes :=
  match x with WBytes d | WString d => d | Flush => [] end.
Definition written (xs : list step) : bytes := concat (map written1 xs).

(** The runs of writes between flushes: the bytes written since the last flush
    never exceed [m]. [pend] is what is pending before [xs]. *)
Fixpoint runs_within (m pend : Z) (xs : list step) : Prop :=
  match xs with
  | [] => True
  | Flush :: xs' => runs_within m 0 xs'
  | x :: xs' => pend + zlen (written1 x) <= m /\
                runs_within m (pend + zlen (written1 x)) xs'
  end.

(** The full properties, as one would state them (both are refuted by the code
    and proved for a part of the inputs). *)
Definition WriteBytes_delivers (d : bytes) : Prop :=
  forall log, write_bytes recorder log d = Ok (log ++ d, 8 * zlen d, None).
Definition WriteString_delivers (d : bytes) : Prop :=
  forall log, write_string recorder log d = Ok (log ++ d, 8 * zlen d, None).
Definition stream_delivers (xs : list step) : Prop :=
  exists st, do_steps recorder (new_stream []) (xs ++ [Flush]) = Ok (st, None) /\
             st_inner st = written xs.
