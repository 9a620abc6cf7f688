(** Model of the assembler package cpu/amd64: api.go, gpr.go, asm.go and the concatenation in
    cpu.go. Only the operations that the exported constructors give are modelled (ADD, ADC, AND,
    OR, XOR and RET); the unexported instruction types of asm.go lines 294-638 (mov, sub, cmp, test,
    push, pop, jmp, call, mul, div, aaa, aas, aad, aam) have no constructor and cannot be reached
    from outside the package. *)
From Verif Require Import GoBase.

(** The type arguments uint8, uint16, uint32, uint64 of Register and Pointer
    (cpu/amd64/gpr.go:3, 14). *)
Inductive width := W8 | W16 | W32 | W64.
Definition width_eqb (a b : width) : bool :=
  match a, b with W8, W8 | W16, W16 | W32, W32 | W64, W64 => true | _, _ => false end.

(** Operands: Register[T] and Pointer[T] are uint8 register numbers, Imm8, Imm16 and Imm32 are
    immediate values of that width (cpu/amd64/gpr.go:3-36). [Imm W64] does not exist in Go. *)
Inductive operand :=
| Reg (w : width) (n : Z)
| Ptr (w : width) (n : Z)
| Imm (w : width) (v : Z).

(** Go's [byte(x)<<3] (truncating) and [|] on bytes. *)
Definition shl3 (x : Z) : Z := Z.shiftl x 3 mod 2^8.
Notation "a |. b" := (Z.lor a b) (at level 50, left associativity).
Definition and7 (x : Z) : Z := Z.land x 7.
(** [byte(v)], [byte(v>>8)], ... *)
Definition le16 (v : Z) : bytes := [u8 v; u8 (Z.shiftr v 8)].
Definition le32 (v : Z) : bytes := [u8 v; u8 (Z.shiftr v 8); u8 (Z.shiftr v 16); u8 (Z.shiftr v 24)].

(** The recurring [rex := byte(0x48); if dst >= 8 {rex |= r}; if src >= 8 {rex |= b}]. *)
Definition rex2 (dst src : Z) (dbit sbit : Z) : Z :=
  (if 8 <=? dst then 72 |. dbit else 72) |. (if 8 <=? src then sbit else 0).
(** The recurring [rex := byte(0); if dst >= 8 {rex = 0x41}; if rex != 0 {b = append(b, rex)}]. *)
Definition rex_opt (dst : Z) : bytes := if 8 <=? dst then [65] else [].

(** cpu/amd64/asm.go:35-158 [adc.AppendAMD64]: what is appended, or a panic. The cases for an
    Imm8 added to a 16 or 32 bit register, an Imm16 to a 32 bit register and a plain uint16 are
    those of the source, although the type constraints of api.go do not let them be made. *)
Definition adc_bytes (dst src : operand) : outcome bytes :=
  match dst, src with
  | Reg W8 d, Reg W8 s => Ok [16; 192 |. shl3 d |. s]
  | Reg W16 d, Reg W16 s => Ok [102; 17; 192 |. shl3 d |. s]
  | Reg W32 d, Reg W32 s => Ok [17; 192 |. shl3 d |. s]
  | Reg W64 d, Reg W64 s => Ok [rex2 d s 4 1; 17; 192 |. shl3 (and7 d) |. and7 s]
  | Reg W8 d, Imm W8 v => if d =? 0 then Ok [20; v] else Ok [128; 208 |. d; v]
  | Reg W16 d, Imm W8 v => Ok [102; 131; 208 |. d; v]
  | Reg W16 d, Imm W16 v => if d =? 0 then Ok (102 :: 21 :: le16 v) else Ok (102 :: 129 :: (208 |. d) :: le16 v)
  | Reg W32 d, Imm W8 v => Ok [131; 208 |. d; v]
  | Reg W32 d, Imm W16 v => Ok (129 :: (208 |. d) :: le16 v)
  | Reg W32 d, Imm W32 v => if d =? 0 then Ok (5 :: le32 v) else Ok (129 :: (208 |. d) :: le32 v)
  | Reg W8 d, Ptr W8 s => Ok [18; 0 |. shl3 d |. s]
  | Reg W16 d, Ptr W16 s => Ok [102; 19; 0 |. shl3 d |. s]
  | Reg W32 d, Ptr W32 s => Ok [19; 0 |. shl3 d |. s]
  | Reg W64 d, Ptr W64 s => Ok [rex2 d s 4 1; 19; 0 |. shl3 (and7 d) |. and7 s]
  | Ptr W8 d, Reg W8 s => Ok [16; 0 |. shl3 s |. and7 d]
  | Ptr W16 d, Reg W16 s => Ok [102; 17; 0 |. shl3 s |. and7 d]
  | Ptr W32 d, Reg W32 s => Ok [17; 0 |. shl3 s |. and7 d]
  | Ptr W64 d, Reg W64 s => Ok [rex2 d s 1 4; 17; 0 |. shl3 (and7 s) |. and7 d]
  | Ptr W8 d, Imm W8 v => Ok (rex_opt d ++ [128; 16 |. and7 d; v])
  | Ptr W32 d, Imm W32 v => Ok ((if 8 <=? d then 72 |. 1 else 72) :: 129 :: (16 |. and7 d) :: le32 v)
  | _, _ => Panic
  end.

(** cpu/amd64/asm.go:164-291 [add.AppendAMD64]. *)
Definition add_bytes (dst src : operand) : outcome bytes :=
  match dst, src with
  | Reg W8 d, Reg W8 s => Ok [0; 192 |. shl3 s |. d]
  | Reg W16 d, Reg W16 s => Ok [102; 1; 192 |. shl3 s |. d]
  | Reg W32 d, Reg W32 s => Ok [1; 192 |. shl3 s |. d]
  | Reg W64 d, Reg W64 s => Ok [rex2 d s 4 1; 1; 192 |. shl3 (and7 s) |. and7 d]
  | Reg W8 d, Imm W8 v => if d =? 0 then Ok [4; v] else Ok [128; 192 |. d; v]
  | Reg W16 d, Imm W8 v => Ok [102; 131; 192 |. d; v]
  | Reg W16 d, Imm W16 v => if d =? 0 then Ok (102 :: 5 :: le16 v) else Ok (102 :: 129 :: (192 |. d) :: le16 v)
  | Reg W32 d, Imm W8 v => Ok [131; 192 |. d; v]
  | Reg W32 d, Imm W16 v => Ok (129 :: (192 |. d) :: le16 v)
  | Reg W32 d, Imm W32 v => if d =? 0 then Ok (5 :: le32 v) else Ok (129 :: (192 |. d) :: le32 v)
  | Reg W8 d, Ptr W8 s => Ok [0; 0 |. shl3 s |. d]
  | Reg W16 d, Ptr W16 s => Ok [102; 1; 0 |. shl3 s |. d]
  | Reg W32 d, Ptr W32 s => Ok [1; 0 |. shl3 s |. d]
  | Reg W64 d, Ptr W64 s => Ok [rex2 d s 4 1; 1; 0 |. shl3 (and7 s) |. and7 d]
  | Ptr W8 d, Reg W8 s => Ok [2; 0 |. shl3 s |. and7 d]
  | Ptr W16 d, Reg W16 s => Ok [102; 3; 0 |. shl3 s |. and7 d]
  | Ptr W32 d, Reg W32 s => Ok [3; 0 |. shl3 s |. and7 d]
  | Ptr W64 d, Reg W64 s => Ok [rex2 d s 1 4; 3; 0 |. shl3 (and7 s) |. and7 d]
  | Ptr W8 d, Imm W8 v => Ok (rex_opt d ++ [128; 0 |. and7 d; v])
  | Ptr W32 d, Imm W32 v => Ok ((if 8 <=? d then 72 |. 1 else 72) :: 129 :: (0 |. and7 d) :: le32 v)
  | _, _ => Panic
  end.

(** cpu/amd64/asm.go:652-759 [and.AppendAMD64]. *)
Definition and_bytes (dst src : operand) : outcome bytes :=
  match dst, src with
  | Reg W8 d, Reg W8 s => Ok [32; 192 |. shl3 s |. d]
  | Reg W16 d, Reg W16 s => Ok [102; 33; 192 |. shl3 s |. d]
  | Reg W32 d, Reg W32 s => Ok [33; 192 |. shl3 s |. d]
  | Reg W64 d, Reg W64 s => Ok [rex2 d s 4 1; 33; 192 |. shl3 (and7 s) |. and7 d]
  | Reg W8 d, Imm W8 v => if d =? 0 then Ok [36; v] else Ok [128; 224 |. d; v]
  | Reg W16 d, Imm W16 v => if d =? 0 then Ok (102 :: 37 :: le16 v) else Ok (102 :: 129 :: (224 |. d) :: le16 v)
  | Reg W32 d, Imm W32 v => if d =? 0 then Ok (37 :: le32 v) else Ok (129 :: (224 |. d) :: le32 v)
  | Reg W64 d, Imm W32 v => Ok ((if 8 <=? d then 72 |. 4 else 72) :: 129 :: (224 |. and7 d) :: le32 v)
  | Ptr W8 d, Reg W8 s => Ok [32; shl3 (and7 d) |. s]
  | Ptr W16 d, Reg W16 s => Ok [102; 33; shl3 (and7 d) |. s]
  | Ptr W32 d, Reg W32 s => Ok [33; shl3 (and7 d) |. s]
  | Ptr W64 d, Reg W64 s => Ok [rex2 d s 4 1; 33; shl3 (and7 d) |. and7 s]
  | Ptr W8 d, Imm W8 v => Ok (rex_opt d ++ [128; 32 |. and7 d; v])
  | Ptr W16 d, Imm W16 v => Ok (rex_opt d ++ 102 :: 129 :: (32 |. and7 d) :: le16 v)
  | Ptr W32 d, Imm W32 v => Ok (rex_opt d ++ 129 :: (32 |. and7 d) :: le32 v)
  | _, _ => Panic
  end.

(** cpu/amd64/asm.go:770-877 [or.AppendAMD64]. *)
Definition or_bytes (dst src : operand) : outcome bytes :=
  match dst, src with
  | Reg W8 d, Reg W8 s => Ok [8; 192 |. shl3 s |. d]
  | Reg W16 d, Reg W16 s => Ok [102; 9; 192 |. shl3 s |. d]
  | Reg W32 d, Reg W32 s => Ok [9; 192 |. shl3 s |. d]
  | Reg W64 d, Reg W64 s => Ok [rex2 d s 4 1; 9; 192 |. shl3 (and7 s) |. and7 d]
  | Reg W8 d, Imm W8 v => if d =? 0 then Ok [12; v] else Ok [128; 200 |. d; v]
  | Reg W16 d, Imm W16 v => if d =? 0 then Ok (102 :: 13 :: le16 v) else Ok (102 :: 129 :: (200 |. d) :: le16 v)
  | Reg W32 d, Imm W32 v => if d =? 0 then Ok (13 :: le32 v) else Ok (129 :: (200 |. d) :: le32 v)
  | Reg W64 d, Imm W32 v => Ok ((if 8 <=? d then 72 |. 4 else 72) :: 129 :: (200 |. and7 d) :: le32 v)
  | Ptr W8 d, Reg W8 s => Ok [8; shl3 (and7 d) |. s]
  | Ptr W16 d, Reg W16 s => Ok [102; 9; shl3 (and7 d) |. s]
  | Ptr W32 d, Reg W32 s => Ok [9; shl3 (and7 d) |. s]
  | Ptr W64 d, Reg W64 s => Ok [rex2 d s 4 1; 9; shl3 (and7 d) |. and7 s]
  | Ptr W8 d, Imm W8 v => Ok (rex_opt d ++ [128; 8 |. and7 d; v])
  | Ptr W16 d, Imm W16 v => Ok (rex_opt d ++ 102 :: 129 :: (8 |. and7 d) :: le16 v)
  | Ptr W32 d, Imm W32 v => Ok (rex_opt d ++ 129 :: (8 |. and7 d) :: le32 v)
  | _, _ => Panic
  end.

(** cpu/amd64/asm.go:888-995 [xor.AppendAMD64]. *)
Definition xor_bytes (dst src : operand) : outcome bytes :=
  match dst, src with
  | Reg W8 d, Reg W8 s => Ok [48; 192 |. shl3 s |. d]
  | Reg W16 d, Reg W16 s => Ok [102; 49; 192 |. shl3 s |. d]
  | Reg W32 d, Reg W32 s => Ok [49; 192 |. shl3 s |. d]
  | Reg W64 d, Reg W64 s => Ok [rex2 d s 4 1; 49; 192 |. shl3 (and7 s) |. and7 d]
  | Reg W8 d, Imm W8 v => if d =? 0 then Ok [52; v] else Ok [128; 240 |. d; v]
  | Reg W16 d, Imm W16 v => if d =? 0 then Ok (102 :: 53 :: le16 v) else Ok (102 :: 129 :: (240 |. d) :: le16 v)
  | Reg W32 d, Imm W32 v => if d =? 0 then Ok (53 :: le32 v) else Ok (129 :: (240 |. d) :: le32 v)
  | Reg W64 d, Imm W32 v => Ok ((if 8 <=? d then 72 |. 4 else 72) :: 129 :: (240 |. and7 d) :: le32 v)
  | Ptr W8 d, Reg W8 s => Ok [48; shl3 (and7 d) |. s]
  | Ptr W16 d, Reg W16 s => Ok [102; 49; shl3 (and7 d) |. s]
  | Ptr W32 d, Reg W32 s => Ok [49; shl3 (and7 d) |. s]
  | Ptr W64 d, Reg W64 s => Ok [rex2 d s 4 1; 49; shl3 (and7 d) |. and7 s]
  | Ptr W8 d, Imm W8 v => Ok (rex_opt d ++ [128; 48 |. and7 d; v])
  | Ptr W16 d, Imm W16 v => Ok (rex_opt d ++ 102 :: 129 :: (48 |. and7 d) :: le16 v)
  | Ptr W32 d, Imm W32 v => Ok (rex_opt d ++ 129 :: (48 |. and7 d) :: le32 v)
  | _, _ => Panic
  end.

(** The exported constructors (cpu/amd64/api.go:8-74). *)
Inductive appender :=
| Add (dst src : operand)                  (* api.go:13-15 *)
| AddWithCarry (dst src : operand)         (* api.go:8-10 *)
| MemoryAddWithCarry (dst src : operand)   (* api.go:18-20 *)
| BitwiseAnd (dst src : operand)           (* api.go:28-33 *)
| BitwiseOr (dst src : operand)            (* api.go:38-43 *)
| BitwiseXor (dst src : operand)           (* api.go:48-53 *)
| MemoryBitwiseAnd (dst src : operand)     (* api.go:58-60 *)
| MemoryBitwiseOr (dst src : operand)      (* api.go:65-67 *)
| MemoryBitwiseXor (dst src : operand)     (* api.go:72-74 *)
| Return.                                  (* api.go:23, asm.go:18-21 *)

(** The method AppendAMD64 of what each constructor gives. *)
Definition append_amd64 (b : bytes) (a : appender) : outcome bytes :=
  let! r := match a with
            | Add d s => add_bytes d s
            | AddWithCarry d s | MemoryAddWithCarry d s => adc_bytes d s
            | BitwiseAnd d s | MemoryBitwiseAnd d s => and_bytes d s
            | BitwiseOr d s | MemoryBitwiseOr d s => or_bytes d s
            | BitwiseXor d s | MemoryBitwiseXor d s => xor_bytes d s
            | Return => Ok [195]
            end in
  Ok (b ++ r).

(** cpu/amd64/cpu.go:16-19: the loop of Compile. Mapping the buffer into executable memory
    (lines 20-29) is not modelled. *)
Fixpoint assemble_from (b : bytes) (prog : list appender) : outcome bytes :=
  match prog with
  | [] => Ok b
  | a :: rest => let! b' := append_amd64 b a in assemble_from b' rest
  end.
Definition assemble (prog : list appender) : outcome bytes := assemble_from [] prog.
