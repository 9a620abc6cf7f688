(** What the bytes mean: an independent decoder for the part of the x86-64 instruction set that
    the package can produce, written from the opcode map and the ModRM, SIB and REX rules of the
    Intel manual (volume 2, chapter 2 and appendix A), in 64 bit mode. *)
From Verif Require Import GoBase AsmModel.

(** Operand places. A byte register with number 4 to 7 is AH, CH, DH or BH unless there is a REX
    prefix. *)
Inductive place :=
| General (w : width) (n : Z)            (* the low w bits of register n, 0..15 *)
| High (n : Z)                           (* bits 8 to 15 of register n, 0..3 *)
| Memory (w : width) (base : Z)          (* w bits at the address in register base *)
| Indexed (w : width) (sib : Z)          (* mod 00, r/m 100: address given by a SIB byte *)
| Relative (w : width) (disp : bytes).   (* mod 00, r/m 101: relative to the next instruction *)
Inductive source :=
| From (p : place)
| Value (w : width) (v : Z).             (* an immediate value, as a w bit number *)

(** The eight operations of the opcode rows 00 to 38 and of group 1, in this order. *)
Inductive operation := ADD | OR | ADC | SBB | AND | SUB | XOR | CMP.
Definition operation_of (n : Z) : operation :=
  match n with 0 => ADD | 1 => OR | 2 => ADC | 3 => SBB | 4 => AND | 5 => SUB | 6 => XOR | _ => CMP end.

Inductive insn :=
| Op (o : operation) (dst : place) (src : source)
| Ret.

(** REX bits: 0100WRXB. *)
Definition has (r : option Z) (bit : Z) : bool :=
  match r with Some v => Z.testbit v bit | None => false end.
Definition extend (r : option Z) (bit n : Z) : Z := if has r bit then n + 8 else n.
Definition any_rex (r : option Z) : bool := match r with Some _ => true | None => false end.

Definition register (r : option Z) (w : width) (n : Z) : place :=
  match w with
  | W8 => if negb (any_rex r) && (4 <=? n) && (n <? 8) then High (n - 4) else General W8 n
  | _ => General w n
  end.

(** [take k bs]: the next k bytes. *)
Fixpoint take (k : nat) (bs : bytes) : option (bytes * bytes) :=
  match k, bs with
  | O, _ => Some ([], bs)
  | S _, [] => None
  | S k', b :: r => match take k' r with Some (x, y) => Some (b :: x, y) | None => None end
  end.
Fixpoint little (bs : bytes) : Z :=
  match bs with [] => 0 | b :: r => b + 256 * little r end.

(** A SIB byte with base 101 (and mod 00) is followed by a displacement: not decoded. *)
Definition sib_disp (sib : Z) : bool := sib mod 8 =? 5.
(** ModRM: mod in bits 7-6, reg in bits 5-3, r/m in bits 2-0. Only mod 11 (register) and mod 00
    (memory without displacement) are decoded. *)
Definition modrm (rex : option Z) (w : width) (bs : bytes) : option (Z * place * bytes) :=
  match bs with
  | [] => None
  | m :: r =>
    let reg := (m / 8) mod 8 in
    let rm := m mod 8 in
    if m / 64 =? 3 then Some (reg, register rex w (extend rex 0 rm), r)
    else if m / 64 =? 0 then
      if rm =? 4 then
        match r with
        | sib :: r' => if sib_disp sib then None else Some (reg, Indexed w sib, r')
        | [] => None
        end
      else if rm =? 5 then
        match take 4 r with Some (d, r') => Some (reg, Relative w d, r') | None => None end
      else Some (reg, Memory w (extend rex 0 rm), r)
    else None
  end.

(** The effective operand size of the instructions that are not of byte size. *)
Definition full (p66 : bool) (rex : option Z) : width :=
  if has rex 3 then W64 else if p66 then W16 else W32.
(** Immediates of full size have 4 bytes at most; at 64 bits they are sign extended. *)
Definition immediate (w : width) (bs : bytes) : option (source * bytes) :=
  match w with
  | W8 => match take 1 bs with Some (x, r) => Some (Value W8 (little x), r) | None => None end
  | W16 => match take 2 bs with Some (x, r) => Some (Value W16 (little x), r) | None => None end
  | W32 => match take 4 bs with Some (x, r) => Some (Value W32 (little x), r) | None => None end
  | W64 => match take 4 bs with Some (x, r) => Some (Value W64 (u64 (i32 (little x))), r) | None => None end
  end.
Definition bits (w : width) : Z := match w with W8 => 8 | W16 => 16 | W32 => 32 | W64 => 64 end.
(** A byte sign extended to the operand size (opcode 83). *)
Definition short_immediate (w : width) (bs : bytes) : option (source * bytes) :=
  match bs with b :: r => Some (Value w (i8 b mod 2 ^ bits w), r) | [] => None end.

(** [group w f]: group 1, where the reg field is the operation. *)
Definition group (rex : option Z) (w : width) (imm : bytes -> option (source * bytes)) (bs : bytes) : option (insn * bytes) :=
  match modrm rex w bs with
  | Some (reg, p, r) =>
    match imm r with Some (s, r') => Some (Op (operation_of reg) p s, r') | None => None end
  | None => None
  end.

(** The opcode byte and what follows. *)
Definition opcode (p66 : bool) (rex : option Z) (b : Z) (r : bytes) : option (insn * bytes) :=
  let w := full p66 rex in
  if b =? 195 then Some (Ret, r)
  else if b =? 128 then group rex W8 (immediate W8) r
  else if b =? 129 then group rex w (immediate w) r
  else if b =? 131 then group rex w (short_immediate w) r
  else if (0 <=? b) && (b <? 64) then
    let o := operation_of (b / 8) in
    match b mod 8 with
    | 0 => match modrm rex W8 r with                       (* r/m8, r8 *)
           | Some (reg, p, r') => Some (Op o p (From (register rex W8 (extend rex 2 reg))), r') | None => None end
    | 1 => match modrm rex w r with                        (* r/m, r *)
           | Some (reg, p, r') => Some (Op o p (From (register rex w (extend rex 2 reg))), r') | None => None end
    | 2 => match modrm rex W8 r with                       (* r8, r/m8 *)
           | Some (reg, p, r') => Some (Op o (register rex W8 (extend rex 2 reg)) (From p), r') | None => None end
    | 3 => match modrm rex w r with                        (* r, r/m *)
           | Some (reg, p, r') => Some (Op o (register rex w (extend rex 2 reg)) (From p), r') | None => None end
    | 4 => match immediate W8 r with Some (s, r') => Some (Op o (General W8 0) s, r') | None => None end
    | 5 => match immediate w r with Some (s, r') => Some (Op o (General w 0) s, r') | None => None end
    | _ => None
    end
  else None.

(** Prefixes: the operand size prefix 66 and REX, which counts only directly before the opcode. *)
Fixpoint decode_with (p66 : bool) (rex : option Z) (bs : bytes) : option (insn * bytes) :=
  match bs with
  | [] => None
  | b :: r =>
    if b =? 102 then decode_with true None r
    else if (64 <=? b) && (b <? 80) then decode_with p66 (Some b) r
    else opcode p66 rex b r
  end.
Definition decode (bs : bytes) : option (insn * bytes) := decode_with false None bs.

(** A whole program: the CPU decodes one instruction after the other until the bytes are used up. *)
Inductive decodes : bytes -> list insn -> Prop :=
| decodes_nil : decodes [] []
| decodes_cons bs i rest is : decode bs = Some (i, rest) -> decodes rest is -> decodes bs (i :: is).

(** What the documentation of the constructors asks for. *)
Definition named (w : width) (n : Z) : place :=
  match w with W8 => if 4 <=? n then High (n - 4) else General W8 n | _ => General w n end.
Definition as_place (x : operand) : option place :=
  match x with Reg w n => Some (named w n) | Ptr w n => Some (Memory w n) | Imm _ _ => None end.
Definition as_source (x : operand) : source :=
  match x with Reg w n => From (named w n) | Ptr w n => From (Memory w n) | Imm w v => Value w v end.
Definition asks (o : operation) (dst src : operand) (i : insn) : Prop :=
  exists p, as_place dst = Some p /\ i = Op o p (as_source src).
Definition intends (a : appender) (i : insn) : Prop :=
  match a with
  | Add d s => asks ADD d s i
  | AddWithCarry d s | MemoryAddWithCarry d s => asks ADC d s i
  | BitwiseAnd d s | MemoryBitwiseAnd d s => asks AND d s i
  | BitwiseOr d s | MemoryBitwiseOr d s => asks OR d s i
  | BitwiseXor d s | MemoryBitwiseXor d s => asks XOR d s i
  | Return => i = Ret
  end.

(** The registers that have names in gpr.go, and those whose address needs neither a SIB byte nor
    a displacement (all of them but RSP and RBP). *)
Definition a_register (n : Z) : Prop := 0 <= n < 8.
Definition a_base (n : Z) : Prop := 0 <= n < 8 /\ n <> 4 /\ n <> 5.
Definition a_value (w : width) (v : Z) : Prop := 0 <= v < 2 ^ bits w.

(** The combinations that the type constraints of api.go and gpr.go allow. *)
Definition registers (dst src : operand) : Prop :=
  exists w d s, dst = Reg w d /\ src = Reg w s /\ a_register d /\ a_register s.
Definition reg_value (dst src : operand) : Prop :=
  exists w d v, w <> W64 /\ dst = Reg w d /\ src = Imm w v /\ a_register d /\ a_value w v.
Definition reg_memory (dst src : operand) : Prop :=
  exists w d s, dst = Reg w d /\ src = Ptr w s /\ a_register d /\ a_base s.
Definition memory_reg (dst src : operand) : Prop :=
  exists w d s, dst = Ptr w d /\ src = Reg w s /\ a_base d /\ a_register s.
Definition memory_value (dst src : operand) : Prop :=
  exists w d v, w <> W64 /\ dst = Ptr w d /\ src = Imm w v /\ a_base d /\ a_value w v.

(** Everything the exported constructors accept with the registers that have names. *)
Definition allowed (a : appender) : Prop :=
  match a with
  | Add d s | AddWithCarry d s | BitwiseAnd d s | BitwiseOr d s | BitwiseXor d s =>
      registers d s \/ reg_value d s \/ reg_memory d s
  | MemoryAddWithCarry d s | MemoryBitwiseAnd d s | MemoryBitwiseOr d s | MemoryBitwiseXor d s =>
      memory_reg d s \/ memory_value d s
  | Return => True
  end.
(** The part of it that is encoded as documented. *)
Definition sound (a : appender) : Prop :=
  match a with
  | Add d s | BitwiseAnd d s | BitwiseOr d s | BitwiseXor d s => registers d s \/ reg_value d s
  | AddWithCarry d s => (reg_value d s /\ forall v, (d, s) <> (Reg W32 0, Imm W32 v)) \/ reg_memory d s
  | MemoryAddWithCarry d s => memory_reg d s \/ (memory_value d s /\ exists n v, (d, s) = (Ptr W8 n, Imm W8 v))
  | MemoryBitwiseAnd d s | MemoryBitwiseOr d s | MemoryBitwiseXor d s => memory_value d s
  | Return => True
  end.
