(** * api/call/internal/bin: instructions written by their tags (bin.go:45-205)

    A tag as its words: a byte in hexadecimal, or items. [Arg a]: a letter for one bit;
    [Field a z]: [a00...], z zeros; [Test a c n]: [a>n], [a<n], [a=n]. Hexadecimal digits
    a to d in small letters, which would count as letters, letters more than 64 times, and
    numbers with a 0 (which panic) are left out. A byte is its bits, the highest first. *)
From Coq Require Import List Arith NArith Bool.
Import ListNotations.

Inductive cmp := More | Less | Same.
Inductive item := Fixed (b : bool) | Arg (a : nat) | Field (a zeros : nat) | Test (a : nat) (c : cmp) (n : N).
Inductive word := Hex (b : list bool) | Bits (l : list item).
Definition tag := list word.

Definition items_of (w : word) : list item := match w with Hex _ => [] | Bits l => l end.
Definition items (t : tag) : list item := flat_map items_of t.
Definition letter (i : item) : list nat := match i with Fixed _ => [] | Arg a | Field a _ | Test a _ _ => [a] end.
Definition letters (l : list item) : list nat := flat_map letter l.
Definition occurrences (a : nat) (l : list nat) : nat := count_occ Nat.eq_dec l a.
(** the [z] lowest bits, the highest of them first *)
Definition low (z : nat) (x : N) : list bool := map (fun i => N.testbit x (N.of_nat i)) (rev (seq 0 z)).
Definition holds (c : cmp) (x n : N) : bool := match c with More => N.ltb n x | Less => N.ltb x n | Same => N.eqb x n end.

(** ** What the code does. The state: the last letter, how many bits of it were written. *)
Definition state := (option nat * nat)%type.
(** bin.go:174-186; [n]: how often the letter is in the tag *)
Definition bit_of (args : nat -> N) (n : nat) (a : nat) (st : state) : bool * nat :=
  let size := n - 1 in
  let bits := match fst st with Some b => if b =? a then snd st else 0 | None => 0 end in
  (N.testbit (args a mod 2 ^ N.of_nat size) (N.of_nat (size - bits)), S bits).
(** bin.go:90-171 *)
Definition do_item (args : nat -> N) (all : list nat) (i : item) (st : state) : list bool * state :=
  match i with
  | Fixed b => ([b], st)
  | Arg a => let (b, n) := bit_of args (occurrences a all) a st in ([b], (Some a, n))
  | Field a z => (low (match z with O => 1 | _ => z end) (args a mod 2 ^ N.of_nat (match z with O => 1 | _ => z end)), (Some a, 0))
  | Test a c n => ([holds c (args a) n], (Some a, 0))
  end.
Fixpoint do_items (args : nat -> N) (all : list nat) (l : list item) (st : state) : list bool * state :=
  match l with
  | [] => ([], st)
  | i :: r => let (x, st') := do_item args all i st in let (y, st'') := do_items args all r st' in (x ++ y, st'')
  end.
(** [None]: it panics *)
Fixpoint do_words (args : nat -> N) (all : list nat) (t : tag) (st : state) : option (list (list bool)) :=
  match t with
  | [] => Some []
  | Hex b :: r => option_map (cons b) (do_words args all r st)
  | Bits l :: r =>
      let (x, st') := do_items args all l st in
      if length x =? 8 then option_map (cons x) (do_words args all r st') else None
  end.
Definition written (reverse : bool) (t : tag) (args : nat -> N) : option (list (list bool)) :=
  do_words args (letters (items t)) (if reverse then rev t else t) (None, 0).
