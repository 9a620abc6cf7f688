(** Model of the assembler package cpu/arm64: api.go, asm.go, bit.go and the part of Compile
    (cpu.go) that collects the instructions. *)
From Verif Require Import GoBase.
Notation "a |. b" := (Z.lor a b) (at level 50, left associativity).
Notation "a << k" := (Z.shiftl a k) (at level 40, left associativity).

(** ** Fields: cpu/arm64/asm.go:200-268 *)
(** [rd], [rn], [rm] (asm.go:200-210): register numbers are uint8. *)
Definition rd (r : Z) : Z := Z.land r 31 << 0.
Definition rn (r : Z) : Z := Z.land r 31 << 5.
Definition rm (r : Z) : Z := Z.land r 31 << 16.
(** [imm2], [imm3], [imm4], [imm6], [imm12] (asm.go:217-246): a negative value sets the bit above the field. *)
Definition imm (w : Z) (v : Z) : Z :=
  if v <? 0 then Z.land v (Z.ones w) |. (1 << w) else Z.land v (Z.ones w).
(** [immhi] (asm.go:254-259) and [immlo] (asm.go:260-262). *)
Definition immhi (v : Z) : Z :=
  if v <? 0 then (Z.land v (262143 << 2) |. (1 << 20)) << 3 else Z.land v (524287 << 2) << 3.
Definition immlo (v : Z) : Z := Z.land v 3 << 29.
(** [imm16] (asm.go:264-268). *)
Definition imm16 (v : Z) : Z := u16 v.

(** ** Bit patterns: cpu/arm64/bit.go *)
(** bit.go:52-54 [isConsecutiveOnes] on uint64. *)
Definition is_consecutive_ones (v : Z) : bool := negb (v =? 0) && (Z.land (u64 (v + 1)) v =? 0).
(** bit.go:57-68 [countTrailingOnes]; the loop ends after at most 64 steps. *)
Fixpoint trailing (fuel : nat) (v count : Z) : Z :=
  match fuel with
  | O => count
  | S f => if Z.odd v then trailing f (Z.shiftr v 1) (count + 1) else count
  end.
Definition count_trailing_ones (v : Z) : Z := if v =? 0 then 0 else trailing 64 v 0.

(** The first element of a list for which f gives something: the early return of a loop. *)
Fixpoint first {A B} (f : A -> option B) (l : list A) : option B :=
  match l with
  | [] => None
  | x :: r => match f x with Some y => Some y | None => first f r end
  end.
(** [for i := 0; i < n; i++]. *)
Definition upto (n : nat) : list Z := map Z.of_nat (seq 0 n).

(** bit.go:17-25: the loops for a 64 bit element. *)
Definition search64 (v : Z) : option (Z * Z * Z) :=
  first (fun s => first (fun r =>
    let w := u64 (u64 (1 << (s + 1)) - 1) in
    let rotated := Z.shiftr w r |. u64 (w << (64 - r)) in
    if rotated =? v then Some (1, Z.land r 63, Z.land s 63) else None) (upto 64)) (upto 64).
(** bit.go:30-34: the pattern repeated to 64 bits. *)
Definition expected (e pattern : Z) : Z :=
  fold_left (fun acc i => acc |. u64 (pattern << (i * e))) (upto (Z.to_nat (64 / e))) 0.
(** bit.go:27-46: the loop for a smaller element. *)
Definition search_small (v e : Z) : option (Z * Z * Z) :=
  let mask := (1 << e) - 1 in
  let pattern := Z.land v mask in
  if expected e pattern =? v then
    first (fun r =>
      let rotated := Z.shiftr pattern r |. Z.land (u64 (pattern << (e - r))) mask in
      if is_consecutive_ones rotated then
        let s := count_trailing_ones rotated - 1 in
        if s <? e then Some (0, Z.land r 63, Z.land s 63) else None
      else None) (upto (Z.to_nat e))
  else None.
(** bit.go:6-50 [BitPattern.encode]: n, immr and imms, or an error. *)
Definition encode (v : Z) : option (Z * Z * Z) :=
  if (v =? 0) || (v =? 2 ^ 64 - 1) then None
  else first (fun e => if e =? 64 then search64 v else search_small v e) [2; 4; 8; 16; 32; 64].

(** ** The instructions: cpu/arm64/api.go:16-71 (the functions of API), asm.go:16-172 *)
Inductive call :=
| ABS (dst src : Z)
| ADC (dst a b : Z)
| ADCS (dst a b : Z)
| ADD_ext (dst a b extension amount : Z)
| ADD_imm (dst a val : Z)
| ADD_shift (dst a b shift amount : Z)
| ADDG (dst src offset tag_offset : Z)
| ADDPT (dst src offset amount : Z)
| ADDS_ext (dst a b extension amount : Z)
| ADDS_imm (dst a val : Z)
| ADDS_shift (dst a b shift amount : Z)
| ADR (dst offset : Z)
| ADRP (dst offset : Z)
| AND_imm (dst src val : Z)
| AND_shift (dst a b shift amount : Z)
| ANDS_imm (dst src val : Z)
| ANDS_shift (dst a b shift amount : Z)
| APAS (src : Z)
| ASR_imm (dst src amount : Z)
| ASR_reg (dst a b : Z)
| AT (ptr stage level check : Z)
| AUTDA (dst key : Z) | AUTDZA (dst : Z) | AUTDB (dst key : Z) | AUTDZB (dst : Z)
| AUTIA (dst key : Z) | AUTIZA (dst : Z) | AUTIAZ | AUTIASP | AUTIA1716 | AUTIA171615
| AUTIASPPC (offset : Z) | AUTIASPPCR (key : Z)
| AUTIB (dst key : Z) | AUTIZB (dst : Z) | AUTIBZ | AUTIBSP | AUTIB1716 | AUTIB171615
| AUTIBSPPC (offset : Z) | AUTIBSPPCR (key : Z)
| AXFLAG
| CMPs (a b shift amount : Z)
| CSET (dst condition : Z)
| RET (lnk : Z).

(** asm.go:89-125: op1, CRm and op2 of AT. Stage1 is 1, Stage2 is 2; read is 1, write is 0,
    authentication 2 and alignment 4 (api.go:172-186). *)
Definition at_ops (stage level check : Z) : Z * Z * Z :=
  let s1 := stage =? 1 in let s12 := stage =? 3 in
  let rd := check =? 1 in let wr := check =? 0 in let al := check =? 4 in
  if s1 && (level =? 1) && rd then (0, 8, 0)
  else if s1 && (level =? 1) && wr then (0, 8, 1)
  else if s1 && (level =? 0) && rd then (0, 8, 2)
  else if s1 && (level =? 0) && wr then (0, 8, 3)
  else if s1 && (level =? 1) && negb (Z.land check 2 =? 0) && negb (Z.land check 1 =? 0) then (0, 9, 0)
  else if s1 && (level =? 1) && negb (Z.land check 2 =? 0) && negb (Z.land check 0 =? 0) then (0, 9, 1)
  else if s1 && (level =? 1) && al then (0, 9, 2)
  else if s1 && (level =? 2) && rd then (4, 8, 0)
  else if s1 && (level =? 2) && wr then (4, 8, 1)
  else if s12 && (level =? 1) && rd then (4, 8, 4)
  else if s12 && (level =? 1) && wr then (4, 8, 5)
  else if s12 && (level =? 0) && rd then (4, 8, 6)
  else if s12 && (level =? 0) && wr then (4, 8, 7)
  else if s1 && (level =? 2) && al then (4, 9, 2)
  else if s1 && (level =? 3) && rd then (6, 8, 0)
  else if s1 && (level =? 3) && wr then (6, 8, 1)
  else if s1 && (level =? 3) && al then (6, 9, 2)
  else (0, 0, 0).

(** The uint32 given to write, or None for an error. Constants are written in hexadecimal:
    0b1001101<<25 is 0x9A000000 and so on. *)
Definition word (c : call) : option Z :=
  match c with
  | ABS d s => Some (0x5AC02000 |. rd d |. rn s)                                                   (* 18 *)
  | ADC d a b => Some (0x9A000000 |. rd d |. rn a |. rm b)                                         (* 19 *)
  | ADCS d a b => Some (0xBA000000 |. rd d |. rn a |. rm b)                                        (* 20 *)
  | ADD_ext d a b x n => Some (0x8B200000 |. rd d |. rn a |. rm b |. (imm 3 n << 10) |. (imm 3 x << 13))  (* 22-24 *)
  | ADD_imm d a v => Some (0x91000000 |. rd d |. rn a |. (imm 12 v << 10))                         (* 25-27 *)
  | ADD_shift d a b s n => Some (0x8B000000 |. rd d |. rn a |. (imm 6 n << 10) |. (imm 2 s << 22) |. rm b)  (* 28-30 *)
  | ADDG d s o t => Some (0x48C00000 |. rd d |. rn s |. (imm 6 o << 16) |. (imm 4 t << 10))        (* 32-34 *)
  | ADDPT d p o n => Some (0x9A000000 |. rd d |. rn p |. (imm 3 n << 10) |. rm o)                  (* 35-37 *)
  | ADDS_ext d a b x n => Some (0xAB200000 |. rd d |. rn a |. rm b |. (imm 3 n << 10) |. (imm 3 x << 13)) (* 39-41 *)
  | ADDS_imm d a v => Some (0xB1000000 |. rd d |. rn a |. (imm 12 v << 10))                        (* 42-44 *)
  | ADDS_shift d a b s n => Some (0xAB000000 |. rd d |. rn a |. (imm 6 n << 10) |. (imm 2 s << 22) |. rm b) (* 45-47 *)
  | ADR d o => Some (0x10000000 |. rd d |. immlo o |. immhi o)                                     (* 49-51 *)
  | ADRP d o => Some (0x90000000 |. rd d |. immlo o |. immhi o)                                    (* 52-54 *)
  | AND_imm d s v =>                                                                               (* 56-62 *)
      match encode v with
      | Some (n, r, i) => Some (0x92000000 |. rd d |. rn s |. (n << 22) |. (r << 16) |. (i << 10))
      | None => None
      end
  | AND_shift d a b s n => Some (0x8A000000 |. rd d |. rn a |. rm b |. (imm 6 n << 10) |. (s << 22))  (* 63-65 *)
  | ANDS_imm d s v =>                                                                              (* 68-74 *)
      match encode v with
      | Some (n, r, i) => Some (0xF2000000 |. rd d |. rn s |. (n << 22) |. (r << 16) |. (i << 10))
      | None => None
      end
  | ANDS_shift d a b s n => Some (0xEA000000 |. rd d |. rn a |. rm b |. (imm 6 n << 10) |. (s << 22)) (* 75-77 *)
  | APAS s => Some (0xD50E7000 |. rd s)                                                            (* 79 *)
  | ASR_imm d s n => Some (0x9340FC00 |. rd d |. rn s |. (imm 6 n << 16))                          (* 81-83 *)
  | ASR_reg d a b => Some (0x9AC02800 |. rd d |. rn a |. rm b)                                     (* 84-86 *)
  | AT p s l k => let '(op1, crm, op2) := at_ops s l k in
      Some (0xD5087800 |. rd p |. (op1 << 16) |. (op2 << 5) |. (crm << 8))                         (* 126 *)
  | AUTDA d k => Some (0xDAC11800 |. rd d |. rn k)                                                 (* 128-130 *)
  | AUTDZA d => Some (0xDAC13800 |. rd d)                                                          (* 131 *)
  | AUTDB d k => Some (0xDAC11C00 |. rd d |. rn k)                                                 (* 132-134 *)
  | AUTDZB d => Some (0xDAC13C00 |. rd d)                                                          (* 135-137 *)
  | AUTIA d k => Some (0xDAC11000 |. rd d |. rn k)                                                 (* 138-140 *)
  | AUTIZA d => Some (0xDAC13000 |. rd d)                                                          (* 141 *)
  | AUTIAZ => Some 0xD503239F                                                                      (* 142 *)
  | AUTIASP => Some 0xD50323BF                                                                     (* 143 *)
  | AUTIA1716 => Some 0xD503239F                                                                   (* 144 *)
  | AUTIA171615 => Some 0xDAC1BBFE                                                                 (* 145 *)
  | AUTIASPPC o => Some (0x3CE0001F |. (imm16 o << 5))                                             (* 146-148 *)
  | AUTIASPPCR k => Some (0xDAC1901E |. rn k)                                                      (* 149 *)
  | AUTIB d k => Some (0xDAC11400 |. rd d |. rn k)                                                 (* 150-152 *)
  | AUTIZB d => Some (0xDAC137E0 |. rd d)                                                          (* 153 *)
  | AUTIBZ => Some 0xD50321DF                                                                      (* 154 *)
  | AUTIB1716 => Some 0xD50323FF                                                                   (* 155 *)
  | AUTIBSP => Some 0xD50323DF                                                                     (* 156 *)
  | AUTIB171615 => Some 0xDAC1BFFE                                                                 (* 157 *)
  | AUTIBSPPC o => Some (0x3CE8001F |. (imm16 o << 5))                                             (* 158-160 *)
  | AUTIBSPPCR k => Some (0xDAC1941E |. rn k)                                                      (* 161 *)
  | AXFLAG => Some 0xD500405F                                                                      (* 162 *)
  | CMPs a b s n => Some (0xEB000000 |. rn a |. rm b |. (imm 6 n << 10) |. (s << 22))              (* 164-166 *)
  | CSET d k => Some (0x9A9F07E0 |. rd d |. (imm 4 k << 12))                                       (* 167-169 *)
  | RET l => Some (0xD65F0000 |. rn l)                                                             (* 170 *)
  end.

(** asm.go:174-179 [write]: four bytes, lowest first. Writing to a bytes.Buffer does not fail. *)
Definition put32 (w : Z) : bytes := [u8 w; u8 (Z.shiftr w 8); u8 (Z.shiftr w 16); u8 (Z.shiftr w 24)].
(** One call: the buffer after it, and whether it gave an error. *)
Definition run_call (buf : bytes) (c : call) : bytes * bool :=
  match word c with Some w => (buf ++ put32 w, false) | None => (buf, true) end.
(** The function given to Compile makes calls and may stop at the first error or go on (as those
    of the package's tests do). [stops] tells which; the result is the buffer and whether any call
    gave an error, which is the error returned. *)
Fixpoint run_calls (stops : bool) (buf : bytes) (cs : list call) : bytes * bool :=
  match cs with
  | [] => (buf, false)
  | c :: r =>
    let '(buf', err) := run_call buf c in
    if err then if stops then (buf', true) else (fst (run_calls stops buf' r), true)
    else run_calls stops buf' r
  end.
(** cpu.go:14-24 [Compile] up to the mapping into executable memory: the code, or an error. The
    error returned by asm is dropped (line 20). *)
Definition compile (stops : bool) (cs : list call) : option bytes :=
  let '(buf, _) := run_calls stops [] cs in
  if negb (zlen buf mod 4 =? 0) then None else Some buf.
