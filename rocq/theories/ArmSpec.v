(** What ARM64 instruction words mean: an independent decoder for the instructions that the API
    offers, written from the encoding diagrams of the Arm Architecture Reference Manual (A64 base
    instructions), and the meaning of a logical immediate as a set of bits. *)
From Verif Require Import GoBase ArmModel.

(** [w<hi:lo>] of the manual, with n = hi-lo+1 bits. *)
Definition field (w lo n : Z) : Z := (w / 2 ^ lo) mod 2 ^ n.

Inductive arm :=
| Absolute (sf d n : Z)                          (* ABS *)
| WithCarry (sf s d n m : Z)                     (* ADC, ADCS: s sets the flags *)
| PointerAdd (d n m amount : Z)                  (* ADDPT *)
| TagAdd (d n uimm6 uimm4 : Z)                   (* ADDG *)
| Extended (sf op s d n m option amount : Z)     (* ADD, SUB, ADDS, SUBS (extended register) *)
| Immediate (sf op s d n sh imm12 : Z)           (* ADD, SUB, ADDS, SUBS (immediate) *)
| Shifted (sf op s d n m shift amount : Z)       (* ADD, SUB, ADDS, SUBS (shifted register) *)
| Address (page d imm : Z)                       (* ADR, ADRP: imm is signed *)
| LogicalImmediate (sf opc d n N immr imms : Z)  (* AND, ORR, EOR, ANDS (immediate) *)
| LogicalShifted (sf opc inv d n m shift amount : Z)
| BitField (sf opc N d n immr imms : Z)          (* SBFM, BFM, UBFM *)
| VariableShift (sf op2 d n m : Z)               (* LSLV, LSRV, ASRV, RORV *)
| System (op1 crn crm op2 t : Z)                 (* SYS *)
| Authenticate (opcode d n : Z)                  (* PACIA to AUTDZB; opcode 0 to 15 *)
| AuthenticateLR (opcode n d : Z)                (* FEAT_PAuth_LR, one source *)
| AuthenticatePC (b imm16 : Z)                   (* AUTIASPPC, AUTIBSPPC with a label *)
| Hint (crm op2 : Z)
| FlagConvert (crm op2 : Z)                      (* CFINV, XAFLAG, AXFLAG *)
| Select (sf op op2 cond d n m : Z)              (* CSEL, CSINC, CSINV, CSNEG *)
| Return (n : Z).

Definition sgn21 (v : Z) : Z := if v <? 2 ^ 20 then v else v - 2 ^ 21.

(** The encoding classes, each with its fixed bits. *)
Definition decode (w : Z) : option arm :=
  let f := field w in
  let d := f 0 5 in let n := f 5 5 in let m := f 16 5 in
  if (f 24 5 =? 11) && (f 21 1 =? 1) then                       (* x x x 01011 xx 1 *)
    if f 22 2 =? 0 then Some (Extended (f 31 1) (f 30 1) (f 29 1) d n m (f 13 3) (f 10 3)) else None
  else if (f 24 5 =? 11) && (f 21 1 =? 0) then                  (* x x x 01011 xx 0 *)
    Some (Shifted (f 31 1) (f 30 1) (f 29 1) d n m (f 22 2) (f 10 6))
  else if f 24 5 =? 10 then                                     (* x xx 01010 *)
    Some (LogicalShifted (f 31 1) (f 29 2) (f 21 1) d n m (f 22 2) (f 10 6))
  else if f 24 5 =? 16 then                                     (* x xx 10000 *)
    Some (Address (f 31 1) d (sgn21 (f 5 19 * 4 + f 29 2)))
  else if f 23 6 =? 34 then                                     (* x x x 100010 *)
    Some (Immediate (f 31 1) (f 30 1) (f 29 1) d n (f 22 1) (f 10 12))
  else if f 23 6 =? 36 then                                     (* x xx 100100 *)
    Some (LogicalImmediate (f 31 1) (f 29 2) d n (f 22 1) (f 16 6) (f 10 6))
  else if (f 22 10 =? 582) && (f 14 2 =? 0) then                (* 1 0 0 1000110 *)
    Some (TagAdd d n (f 16 6) (f 10 4))
  else if f 23 6 =? 38 then                                     (* x xx 100110 *)
    Some (BitField (f 31 1) (f 29 2) (f 22 1) d n (f 16 6) (f 10 6))
  else if (f 21 8 =? 208) && (f 10 6 =? 0) && (f 30 1 =? 0) then (* x 0 x 11010000 xxxxx 000000 *)
    Some (WithCarry (f 31 1) (f 29 1) d n m)
  else if (f 21 11 =? 1232) && (f 13 3 =? 1) then               (* 1 0 0 11010000 xxxxx 001 *)
    Some (PointerAdd d n m (f 10 3))
  else if f 21 8 =? 212 then                                    (* x x 0 11010100 *)
    if f 29 1 =? 0 then Some (Select (f 31 1) (f 30 1) (f 10 2) (f 12 4) d n m) else None
  else if (f 21 10 =? 214) && (f 12 4 =? 2) then                (* x 0 0 11010110 xxxxx 0010 *)
    Some (VariableShift (f 31 1) (f 10 2) d n m)
  else if (f 21 10 =? 726) && (f 16 5 =? 0) && (f 10 6 =? 8) then (* x 1 0 11010110 00000 001000 *)
    Some (Absolute (f 31 1) d n)
  else if (f 16 16 =? 56001) && (f 14 2 =? 0) then              (* 1 1 0 11010110 00001 00 *)
    if (f 13 1 =? 1) && negb (n =? 31) then None                (* the forms with Z have 11111 here *)
    else Some (Authenticate (f 10 4) d n)
  else if (f 16 16 =? 56001) && (f 14 2 =? 2) then              (* 1 1 0 11010110 00001 10 *)
    Some (AuthenticateLR (f 10 6) n d)
  else if (f 22 10 =? 974) && (f 0 5 =? 31) then                (* 1 11 100111 0 *)
    Some (AuthenticatePC (f 21 1) (f 5 16))
  else if (f 12 20 =? 872498) && (f 0 5 =? 31) then             (* 1101010100 0 00 011 0010 ... 11111 *)
    Some (Hint (f 8 4) (f 5 3))
  else if (f 12 20 =? 872452) && (f 0 5 =? 31) then             (* 1101010100 0 00 000 0100 ... 11111 *)
    Some (FlagConvert (f 8 4) (f 5 3))
  else if f 19 13 =? 6817 then                                  (* 1101010100 0 01 *)
    Some (System (f 16 3) (f 12 4) (f 8 4) (f 5 3) d)
  else if (f 10 22 =? 3512256) && (f 0 5 =? 0) then             (* 1101011 0010 11111 000000 xxxxx 00000 *)
    Some (Return n)
  else None.

(** A program in memory: words of four bytes, lowest first. *)
Inductive reads : bytes -> list Z -> Prop :=
| reads_nil : reads [] []
| reads_cons b0 b1 b2 b3 rest ws :
    is_bytes [b0; b1; b2; b3] -> reads rest ws ->
    reads (b0 :: b1 :: b2 :: b3 :: rest) (b0 + 256 * b1 + 65536 * b2 + 16777216 * b3 :: ws).

(** ** Logical immediates *)
(** DecodeBitMasks of the manual: the size of the element is the highest set bit of N:NOT(imms). *)
Definition element (N imms : Z) : option Z :=
  if N =? 1 then Some 64
  else if imms <? 32 then Some 32
  else if imms <? 48 then Some 16
  else if imms <? 56 then Some 8
  else if imms <? 60 then Some 4
  else if imms <? 62 then Some 2
  else None.
(** Bit i of the value: each element is a run of S+1 ones, rotated right by R. *)
Definition mask_bit (e S R i : Z) : bool := (i + R) mod e <=? S.
(** [immediate_is N immr imms v]: the 64 bit value of the immediate. All ones is not allowed. *)
Definition immediate_is (N immr imms v : Z) : Prop :=
  exists e, element N imms = Some e /\ let S := imms mod e in let R := immr mod e in
    S <> e - 1 /\ 0 <= v < 2 ^ 64 /\ forall i, 0 <= i < 64 -> Z.testbit v i = mask_bit e S R i.
(** A value that some instruction can hold. *)
Definition encodable (v : Z) : Prop :=
  exists N immr imms, 0 <= N < 2 /\ 0 <= immr < 64 /\ 0 <= imms < 64 /\ immediate_is N immr imms v.
(** A value that repeats after e bits. *)
Definition repeats (e v : Z) : Prop := forall i, 0 <= i -> i + e < 64 -> Z.testbit v (i + e) = Z.testbit v i.

(** ** What the calls ask for *)
Definition reg (r : Z) : Prop := 0 <= r < 32.
Definition within (n v : Z) : Prop := 0 <= v < n.
(** Immediate values that fit their types' names: Uint3 is below 8, and so on. *)
Definition fits (c : call) : Prop :=
  match c with
  | ABS d s => reg d /\ reg s
  | ADC d a b | ADCS d a b | ASR_reg d a b => reg d /\ reg a /\ reg b
  | ADD_ext d a b x n | ADDS_ext d a b x n => reg d /\ reg a /\ reg b /\ within 8 x /\ within 8 n
  | ADD_imm d a v | ADDS_imm d a v => reg d /\ reg a /\ within 4096 v
  | ADD_shift d a b s n | ADDS_shift d a b s n | AND_shift d a b s n | ANDS_shift d a b s n =>
      reg d /\ reg a /\ reg b /\ within 4 s /\ within 64 n
  | ADDG d s o t => reg d /\ reg s /\ within 64 o /\ within 16 t
  | ADDPT d s o n => reg d /\ reg s /\ reg o /\ within 8 n
  | ADR d o | ADRP d o => reg d /\ - 2 ^ 20 <= o < 2 ^ 20
  | AND_imm d s v | ANDS_imm d s v => reg d /\ reg s /\ within (2 ^ 64) v
  | APAS s => reg s
  | ASR_imm d s n => reg d /\ reg s /\ within 64 n
  | AT p s l k => reg p /\ within 4 s /\ within 4 l /\ within 8 k
  | AUTDA d k | AUTDB d k | AUTIA d k | AUTIB d k => reg d /\ reg k
  | AUTDZA d | AUTDZB d | AUTIZA d | AUTIZB d => reg d
  | AUTIASPPC o | AUTIBSPPC o => - 2 ^ 15 <= o < 2 ^ 15
  | AUTIASPPCR k | AUTIBSPPCR k => reg k
  | CMPs a b s n => reg a /\ reg b /\ within 4 s /\ within 64 n
  | CSET d k => reg d /\ within 16 k
  | RET l => reg l
  | _ => True
  end.
(** The address translation operations of the manual: op1, CRm, op2. *)
Definition translation (stage level check op1 crm op2 : Z) : Prop :=
  In (stage, level, check, (op1, crm, op2))
    [ (1,1,1,(0,8,0)) (* S1E1R *); (1,1,0,(0,8,1)) (* S1E1W *); (1,0,1,(0,8,2)) (* S1E0R *); (1,0,0,(0,8,3)) (* S1E0W *);
      (1,1,3,(0,9,0)) (* S1E1RP *); (1,1,2,(0,9,1)) (* S1E1WP *); (1,1,4,(0,9,2)) (* S1E1A *);
      (1,2,1,(4,8,0)) (* S1E2R *); (1,2,0,(4,8,1)) (* S1E2W *); (3,1,1,(4,8,4)) (* S12E1R *); (3,1,0,(4,8,5)) (* S12E1W *);
      (3,0,1,(4,8,6)) (* S12E0R *); (3,0,0,(4,8,7)) (* S12E0W *); (1,2,4,(4,9,2)) (* S1E2A *);
      (1,3,1,(6,8,0)) (* S1E3R *); (1,3,0,(6,8,1)) (* S1E3W *); (1,3,4,(6,9,2)) (* S1E3A *) ].
(** The instruction of the manual that each call names, on 64 bit registers. *)
Definition asks (c : call) (i : arm) : Prop :=
  match c with
  | ABS d s => i = Absolute 1 d s
  | ADC d a b => i = WithCarry 1 0 d a b
  | ADCS d a b => i = WithCarry 1 1 d a b
  | ADD_ext d a b x n => i = Extended 1 0 0 d a b x n
  | ADD_imm d a v => i = Immediate 1 0 0 d a 0 v
  | ADD_shift d a b s n => i = Shifted 1 0 0 d a b s n
  | ADDG d s o t => i = TagAdd d s o t
  | ADDPT d s o n => i = PointerAdd d s o n
  | ADDS_ext d a b x n => i = Extended 1 0 1 d a b x n
  | ADDS_imm d a v => i = Immediate 1 0 1 d a 0 v
  | ADDS_shift d a b s n => i = Shifted 1 0 1 d a b s n
  | ADR d o => i = Address 0 d o
  | ADRP d o => i = Address 1 d o
  | AND_imm d s v => exists N r m, immediate_is N r m v /\ i = LogicalImmediate 1 0 d s N r m
  | AND_shift d a b s n => i = LogicalShifted 1 0 0 d a b s n
  | ANDS_imm d s v => exists N r m, immediate_is N r m v /\ i = LogicalImmediate 1 3 d s N r m
  | ANDS_shift d a b s n => i = LogicalShifted 1 3 0 d a b s n
  | APAS s => i = System 6 7 0 0 s
  | ASR_imm d s n => i = BitField 1 0 1 d s n 63
  | ASR_reg d a b => i = VariableShift 1 2 d a b
  | AT p s l k => exists op1 crm op2, translation s l k op1 crm op2 /\ i = System op1 7 crm op2 p
  | AUTDA d k => i = Authenticate 6 d k
  | AUTDZA d => i = Authenticate 14 d 31
  | AUTDB d k => i = Authenticate 7 d k
  | AUTDZB d => i = Authenticate 15 d 31
  | AUTIA d k => i = Authenticate 4 d k
  | AUTIZA d => i = Authenticate 12 d 31
  | AUTIB d k => i = Authenticate 5 d k
  | AUTIZB d => i = Authenticate 13 d 31
  | AUTIA1716 => i = Hint 1 4
  | AUTIB1716 => i = Hint 1 6
  | AUTIAZ => i = Hint 3 4
  | AUTIASP => i = Hint 3 5
  | AUTIBZ => i = Hint 3 6
  | AUTIBSP => i = Hint 3 7
  | AUTIA171615 => i = AuthenticateLR 46 31 30
  | AUTIB171615 => i = AuthenticateLR 47 31 30
  | AUTIASPPCR k => i = AuthenticateLR 36 k 30
  | AUTIBSPPCR k => i = AuthenticateLR 37 k 30
  | AUTIASPPC o => i = AuthenticatePC 0 (o mod 2 ^ 16)
  | AUTIBSPPC o => i = AuthenticatePC 1 (o mod 2 ^ 16)
  | AXFLAG => i = FlagConvert 0 2
  | CMPs a b s n => i = Shifted 1 1 1 31 a b s n
  | CSET d k => i = Select 1 0 1 k d 31 31     (* CSINC Xd, XZR, XZR, of the inverted condition k *)
  | RET l => i = Return l
  end.
