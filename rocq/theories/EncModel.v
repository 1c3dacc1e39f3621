(* Model of the instruction encoder of /repo/src/backend/x86_64/encoding.c.  A byte string under
   construction (struct code) is the list of its bytes; what is put into the relocation and
   displacement tables of the object file is a list of fixups. *)
From Coq Require Import List ZArith Bool.
From Verif Require Import Bytes.
Import ListNotations.
Open Scope Z_scope.

(* encoding.h:12-49 enum reg; 0 is no register *)
Definition AX : Z := 1. Definition CX : Z := 2. Definition SP : Z := 5. Definition BP : Z := 6.
Definition SI : Z := 7. Definition DI : Z := 8. Definition R8 : Z := 9. Definition R15 : Z := 16.
Definition XMM0 : Z := 17. Definition XMM8 : Z := 25. Definition XMM15 : Z := 32.
Definition IP : Z := 33. Definition ST0 : Z := 34. Definition ST7 : Z := 41.

(* encoding.h:77-90 struct address; the symbol is a number *)
Inductive addr_type := ADDR_NORMAL | ADDR_GLOBAL_OFFSET | ADDR_PLT.
Record address := Addr { a_type : addr_type; a_sym : option Z; a_disp : Z; a_base : Z; a_index : Z; a_scale : Z }.

(* encoding.h:56-59, 93-96, 103-118; IMM_STRING is not an operand of instructions.  IInt q: the
   union read as qword (its byte, word and dword members are the low bytes of q) *)
Record registr := Reg { r_width : Z; r_reg : Z }.
Record memory := Mem { m_width : Z; m_addr : address }.
Inductive immval := IInt (q : Z) | IAddr (a : address).
Record immediate := Imm { i_width : Z; i_val : immval }.

(* encoding.h:123-178 enum opcode: index of the first entry in the table *)
Definition INSTR_ADD : Z := 0. Definition INSTR_AND : Z := 2. Definition INSTR_CALL : Z := 5.
Definition INSTR_CMP : Z := 7. Definition INSTR_Cxy : Z := 10. Definition INSTR_DIV : Z := 12.
Definition INSTR_IDIV : Z := 13. Definition INSTR_Jcc : Z := 14. Definition INSTR_JMP : Z := 15.
Definition INSTR_LEA : Z := 16. Definition INSTR_LEAVE : Z := 17. Definition INSTR_MOV : Z := 18.
Definition INSTR_MOV_STR : Z := 23. Definition INSTR_MOVSX : Z := 24. Definition INSTR_MOVZX : Z := 26.
Definition INSTR_MUL : Z := 28. Definition INSTR_NOT : Z := 29. Definition INSTR_OR : Z := 30.
Definition INSTR_POP : Z := 32. Definition INSTR_PUSH : Z := 33. Definition INSTR_RET : Z := 36.
Definition INSTR_SAR : Z := 37. Definition INSTR_SETcc : Z := 39. Definition INSTR_SHL : Z := 40.
Definition INSTR_SHR : Z := 42. Definition INSTR_SUB : Z := 44. Definition INSTR_TEST : Z := 46.
Definition INSTR_XOR : Z := 48. Definition INSTR_ADDS : Z := 50. Definition INSTR_CVTSI2S : Z := 56.
Definition INSTR_CVTS2S : Z := 58. Definition INSTR_CVTTS2SI : Z := 60. Definition INSTR_DIVS : Z := 62.
Definition INSTR_MULS : Z := 64. Definition INSTR_SUBS : Z := 67. Definition INSTR_MOVAP : Z := 69.
Definition INSTR_MOVS : Z := 71. Definition INSTR_UCOMIS : Z := 77. Definition INSTR_PXOR : Z := 79.
Definition INSTR_FADDP : Z := 80. Definition INSTR_FDIVRP : Z := 81. Definition INSTR_FILD : Z := 82.
Definition INSTR_FISTP : Z := 85. Definition INSTR_FLD : Z := 88. Definition INSTR_FLDZ : Z := 92.
Definition INSTR_FLDCW : Z := 93. Definition INSTR_FMULP : Z := 94. Definition INSTR_FNSTCW : Z := 95.
Definition INSTR_FSTP : Z := 96. Definition INSTR_FSUBRP : Z := 100. Definition INSTR_FUCOMIP : Z := 101.
Definition INSTR_FXCH : Z := 102.

(* encoding.h:211-232 struct instruction: optype and the two unions as one variant; NoOp w has
   source.width = w *)
Inductive operands :=
| NoOp (w : Z) | OpImm (i : immediate) | OpReg (r : registr) | OpMem (m : memory)
| RegReg (s d : registr) | RegMem (s : registr) (d : memory) | MemReg (s : memory) (d : registr)
| ImmReg (s : immediate) (d : registr) | ImmMem (s : immediate) (d : memory).
Record instruction := Instr { n_op : Z; n_cc : Z; n_prefix : Z; n_args : operands }.

(* encoding.h:215-225 enum instr_optype *)
Definition optype (o : operands) : Z :=
  match o with
  | NoOp _ => 0 | OpImm _ => 1 | OpReg _ => 2 | OpMem _ => 4 | RegReg _ _ => 8 | RegMem _ _ => 16
  | MemReg _ _ => 32 | ImmReg _ _ => 64 | ImmMem _ _ => 128
  end.

(* source.width, dest.width (0 when there is no dest: the callers zero the struct) *)
Definition src_width (o : operands) : Z :=
  match o with
  | NoOp w => w | OpImm i => i_width i | OpReg r => r_width r | OpMem m => m_width m
  | RegReg s _ => r_width s | RegMem s _ => r_width s | MemReg s _ => m_width s
  | ImmReg s _ => i_width s | ImmMem s _ => i_width s
  end.
Definition dst_width (o : operands) : Z :=
  match o with
  | RegReg _ d => r_width d | RegMem _ d => m_width d | MemReg _ d => r_width d
  | ImmReg _ d => r_width d | ImmMem _ d => m_width d | _ => 0
  end.
(* source.reg.r, dest.reg.r; 0 where the union does not hold a register (no entry of the table looks) *)
Definition src_reg (o : operands) : Z :=
  match o with OpReg r => r_reg r | RegReg s _ => r_reg s | RegMem s _ => r_reg s | _ => 0 end.
Definition dst_reg (o : operands) : Z :=
  match o with RegReg _ d => r_reg d | MemReg _ d => r_reg d | ImmReg _ d => r_reg d | _ => 0 end.

(* encoding.c:14-19 *)
Definition reg3 (r : Z) : Z := Z.land (r - 1) 7.
Definition is_64_bit_reg (r : Z) : bool :=
  ((R8 <=? r) && (r <=? R15)) || ((XMM8 <=? r) && (r <=? XMM15)).
Definition in_byte_range (z : Z) : bool := (-128 <=? z) && (z <=? 127).
Definition in_32bit_range (z : Z) : bool := (-2147483648 <=? z) && (z <=? 2147483647).

(* encoding.c:28-37 *)
Definition b2z (b : bool) : Z := if b then 1 else 0.
Definition REX : Z := 64.
Definition rexW (w : Z) : Z := Z.shiftl (b2z (w =? 8)) 3.
Definition rexR (r : Z) : Z := Z.shiftl (b2z (is_64_bit_reg r)) 2.
Definition rexX (r : Z) : Z := Z.shiftl (b2z (is_64_bit_reg r)) 1.
Definition rexB (r : Z) : Z := b2z (is_64_bit_reg r).
Definition is_general (op : Z) : bool := op <=? INSTR_XOR.
Definition enable_rex_w (op : Z) : bool :=
  is_general op || (op =? INSTR_CVTTS2SI) || (op =? INSTR_CVTSI2S).

(* encoding.c:54-77 *)
Definition OPX_W : Z := 1. Definition OPX_S : Z := 2. Definition OPX_D : Z := 4.
Definition OPX_tttn : Z := 8. Definition OPX_REG : Z := 16.
Definition IMPL_CX : Z := 1. Definition IMPL_AX : Z := 2.

(* encoding.c:79-129 struct encoding, without the mnemonic; prefixes and opcode bytes up to the
   first zero (no entry has a zero first opcode byte followed by others) *)
Record encoding := mkEnc { opc : Z; prefix : list Z; opcode : list Z; opextra : Z; modrm : Z;
  otype : Z; w0 : Z; impl0 : Z; w1 : Z; impl1 : Z; reverse : bool; dword : bool }.
Definition opx (e : encoding) (f : Z) : bool := Z.land (opextra e) f =? f.

(* encoding.c:130-292: index and mnemonic in the comments *)
Definition encodings : list encoding := [
  mkEnc 0 [] [0] 5 0 56 0 0 0 0 false false; (* 0 add *)
  mkEnc 0 [] [128] 3 0 192 0 0 0 0 false true; (* 1 add *)
  mkEnc 2 [] [32] 5 0 56 0 0 0 0 false false; (* 2 and *)
  mkEnc 2 [] [36] 1 0 64 0 0 0 2 false true; (* 3 and *)
  mkEnc 2 [] [128] 3 32 192 0 0 0 0 false true; (* 4 and *)
  mkEnc 5 [] [232] 0 0 1 8 0 0 0 false false; (* 5 call *)
  mkEnc 5 [] [255] 0 16 6 8 0 0 0 false false; (* 6 call *)
  mkEnc 7 [] [56] 5 0 56 0 0 0 0 false false; (* 7 cmp *)
  mkEnc 7 [] [60] 1 0 64 7 0 7 2 false false; (* 8 cmp *)
  mkEnc 7 [] [128] 3 56 192 0 0 0 0 false false; (* 9 cmp *)
  mkEnc 10 [] [153] 0 0 0 4 0 0 0 false false; (* 10 cdq *)
  mkEnc 10 [] [153] 0 0 0 8 0 0 0 false false; (* 11 cqo *)
  mkEnc 12 [] [246] 1 48 6 0 0 0 0 false false; (* 12 div *)
  mkEnc 13 [] [246] 1 56 6 0 0 0 0 false false; (* 13 idiv *)
  mkEnc 14 [] [15; 128] 8 0 1 8 0 0 0 false true; (* 14 j *)
  mkEnc 15 [] [233] 2 0 1 8 0 0 0 false true; (* 15 jmp *)
  mkEnc 16 [] [141] 0 0 32 8 0 8 0 false false; (* 16 lea *)
  mkEnc 17 [] [201] 0 0 0 0 0 0 0 false false; (* 17 leave *)
  mkEnc 18 [] [136] 5 0 56 0 0 0 0 false false; (* 18 mov *)
  mkEnc 18 [] [184] 17 0 64 7 0 7 0 false false; (* 19 mov *)
  mkEnc 18 [] [198] 1 0 64 0 0 0 0 false true; (* 20 mov *)
  mkEnc 18 [] [184] 17 0 64 8 0 8 0 false false; (* 21 movq *)
  mkEnc 18 [] [198] 1 0 128 0 0 0 0 false true; (* 22 mov *)
  mkEnc 23 [] [164] 1 0 0 0 0 0 0 false false; (* 23 movs *)
  mkEnc 24 [] [99] 0 0 40 4 0 8 0 true false; (* 24 movslq *)
  mkEnc 24 [] [15; 190] 1 0 40 3 0 12 0 true false; (* 25 movs *)
  mkEnc 26 [] [15; 183] 0 0 40 4 0 8 0 true false; (* 26 movzlq *)
  mkEnc 26 [] [15; 182] 1 0 40 3 0 12 0 true false; (* 27 movz *)
  mkEnc 28 [] [246] 1 32 6 0 0 0 0 false false; (* 28 mul *)
  mkEnc 29 [] [246] 1 16 6 0 0 0 0 false false; (* 29 not *)
  mkEnc 30 [] [8] 5 0 56 0 0 0 0 false false; (* 30 or *)
  mkEnc 30 [] [128] 3 8 192 0 0 0 0 false true; (* 31 or *)
  mkEnc 32 [] [88] 16 0 2 8 0 0 0 false false; (* 32 pop *)
  mkEnc 33 [] [80] 16 0 2 8 0 0 0 false false; (* 33 push *)
  mkEnc 33 [] [104] 0 0 1 8 0 0 0 false true; (* 34 push *)
  mkEnc 33 [] [255] 0 48 4 8 0 0 0 false false; (* 35 push *)
  mkEnc 36 [] [195] 0 0 0 0 0 0 0 false false; (* 36 ret *)
  mkEnc 37 [] [192] 1 248 64 1 0 0 0 false false; (* 37 sar *)
  mkEnc 37 [] [210] 1 248 8 1 1 0 0 false false; (* 38 sar *)
  mkEnc 39 [] [15; 144] 8 192 2 1 0 0 0 false false; (* 39 set *)
  mkEnc 40 [] [192] 1 224 64 1 0 0 0 false false; (* 40 shl *)
  mkEnc 40 [] [210] 1 224 8 1 1 0 0 false false; (* 41 shl *)
  mkEnc 42 [] [192] 1 232 64 1 0 0 0 false false; (* 42 shr *)
  mkEnc 42 [] [210] 1 232 8 1 1 0 0 false false; (* 43 shr *)
  mkEnc 44 [] [40] 3 0 56 0 0 0 0 false false; (* 44 sub *)
  mkEnc 44 [] [128] 3 40 192 0 0 0 0 false true; (* 45 sub *)
  mkEnc 46 [] [132] 1 0 56 0 0 0 0 false false; (* 46 test *)
  mkEnc 46 [] [246] 1 192 64 0 0 0 0 false false; (* 47 test *)
  mkEnc 48 [] [48] 5 0 56 0 0 0 0 false false; (* 48 xor *)
  mkEnc 48 [] [128] 3 240 192 0 0 0 0 false true; (* 49 xor *)
  mkEnc 50 [243] [15; 88] 0 0 40 4 0 4 0 true false; (* 50 addss *)
  mkEnc 50 [242] [15; 88] 0 0 40 8 0 8 0 true false; (* 51 addsd *)
  mkEnc 0 [] [15; 85] 0 0 40 4 0 4 0 true false; (* 52 andnps *)
  mkEnc 0 [] [15; 84] 0 0 40 4 0 4 0 true false; (* 53 andps *)
  mkEnc 0 [102] [15; 91] 0 0 40 4 0 4 0 true false; (* 54 cvtps2dq *)
  mkEnc 0 [] [15; 91] 0 0 40 4 0 4 0 true false; (* 55 cvtdq2ps *)
  mkEnc 56 [243] [15; 42] 0 0 40 12 0 4 0 true false; (* 56 cvtsi2ss *)
  mkEnc 56 [242] [15; 42] 0 0 40 12 0 8 0 true false; (* 57 cvtsi2sd *)
  mkEnc 58 [243] [15; 90] 0 0 40 4 0 8 0 true false; (* 58 cvtss2sd *)
  mkEnc 58 [242] [15; 90] 0 0 40 8 0 4 0 true false; (* 59 cvtsd2ss *)
  mkEnc 60 [243] [15; 44] 0 0 40 4 0 12 0 true false; (* 60 cvttss2si *)
  mkEnc 60 [242] [15; 44] 0 0 40 8 0 12 0 true false; (* 61 cvttsd2si *)
  mkEnc 62 [243] [15; 94] 0 0 40 4 0 4 0 true false; (* 62 divss *)
  mkEnc 62 [242] [15; 94] 0 0 40 8 0 8 0 true false; (* 63 divsd *)
  mkEnc 64 [243] [15; 89] 0 0 40 4 0 4 0 true false; (* 64 mulss *)
  mkEnc 64 [242] [15; 89] 0 0 40 8 0 8 0 true false; (* 65 mulsd *)
  mkEnc 0 [] [15; 86] 0 0 40 4 0 4 0 true false; (* 66 orps *)
  mkEnc 67 [243] [15; 92] 0 0 40 4 0 4 0 true false; (* 67 subss *)
  mkEnc 67 [242] [15; 92] 0 0 40 8 0 8 0 true false; (* 68 subsd *)
  mkEnc 69 [] [15; 40] 0 0 40 4 0 4 0 true false; (* 69 movaps *)
  mkEnc 69 [] [15; 41] 0 0 16 4 0 4 0 false false; (* 70 movaps *)
  mkEnc 71 [243] [15; 16] 0 0 40 4 0 4 0 true false; (* 71 movss *)
  mkEnc 71 [243] [15; 17] 0 0 16 4 0 4 0 false false; (* 72 movss *)
  mkEnc 71 [242] [15; 16] 0 0 40 8 0 8 0 true false; (* 73 movsd *)
  mkEnc 71 [242] [15; 17] 0 0 16 8 0 8 0 false false; (* 74 movsd *)
  mkEnc 0 [] [15; 16] 0 0 40 4 0 4 0 true false; (* 75 movups *)
  mkEnc 0 [] [15; 17] 0 0 16 4 0 4 0 false false; (* 76 movups *)
  mkEnc 77 [] [15; 46] 0 0 40 4 0 4 0 true false; (* 77 ucomiss *)
  mkEnc 77 [102] [15; 46] 0 0 40 8 0 8 0 true false; (* 78 ucomisd *)
  mkEnc 79 [102] [15; 239] 0 0 40 8 0 8 0 true false; (* 79 pxor *)
  mkEnc 80 [] [222] 0 0 2 0 0 0 0 false false; (* 80 faddp *)
  mkEnc 81 [] [222] 0 56 2 0 0 0 0 false false; (* 81 fdivrp *)
  mkEnc 82 [] [223] 0 0 4 2 0 2 0 false false; (* 82 filds *)
  mkEnc 82 [] [219] 0 0 4 4 0 4 0 false false; (* 83 fildl *)
  mkEnc 82 [] [223] 0 40 4 8 0 8 0 false false; (* 84 fildq *)
  mkEnc 85 [] [223] 0 24 4 2 0 2 0 false false; (* 85 fistps *)
  mkEnc 85 [] [219] 0 24 4 4 0 4 0 false false; (* 86 fistpl *)
  mkEnc 85 [] [223] 0 56 4 8 0 8 0 false false; (* 87 fistpq *)
  mkEnc 88 [] [217] 0 0 4 4 0 4 0 false false; (* 88 flds *)
  mkEnc 88 [] [221] 0 0 4 8 0 8 0 false false; (* 89 fldl *)
  mkEnc 88 [] [219] 0 40 4 0 0 0 0 false false; (* 90 fldt *)
  mkEnc 88 [] [217] 0 0 2 0 0 0 0 false false; (* 91 fld *)
  mkEnc 92 [] [217; 238] 0 0 0 0 0 0 0 false false; (* 92 fldz *)
  mkEnc 93 [] [217] 0 40 4 0 0 0 0 false false; (* 93 fldcw *)
  mkEnc 94 [] [222] 0 8 2 0 0 0 0 false false; (* 94 fmulp *)
  mkEnc 95 [] [217] 0 56 4 0 0 0 0 false false; (* 95 fnstcw *)
  mkEnc 96 [] [217] 0 24 4 4 0 8 0 false false; (* 96 fstps *)
  mkEnc 96 [] [221] 0 24 4 8 0 8 0 false false; (* 97 fstpl *)
  mkEnc 96 [] [219] 0 56 4 0 0 0 0 false false; (* 98 fstpt *)
  mkEnc 96 [] [221] 0 24 2 0 0 0 0 false false; (* 99 fstp *)
  mkEnc 100 [] [222] 0 40 2 0 0 0 0 false false; (* 100 fsubrp *)
  mkEnc 101 [] [223] 0 40 2 0 0 0 0 false false; (* 101 fucomip *)
  mkEnc 102 [] [217] 0 8 2 0 0 0 0 false false (* 102 fxch *)].
Definition entry (i : Z) : option encoding := nth_error encodings (Z.to_nat i).

(* asserted conditions that fail: Failed; error and exit: Unsupported; more than 15 bytes are
   written to val: Overflow *)
Inductive res (A : Type) := Done (a : A) | Failed | Unsupported | Overflow.
Arguments Done {A} _. Arguments Failed {A}. Arguments Unsupported {A}. Arguments Overflow {A}.
Definition bind {A B} (x : res A) (f : A -> res B) : res B :=
  match x with Done a => f a | Failed => Failed | Unsupported => Unsupported | Overflow => Overflow end.
Notation "'do' x <- e ; f" := (bind e (fun x => f)) (at level 200, x pattern, e at level 100, f at level 200).
Definition check (b : bool) : res unit := if b then Done tt else Failed.

(* Entries of the tables of elf.c for one instruction; the offset is within the instruction.
   Rela: elf.c:410-429; Disp: the pending branch of elf.c:499-512 (a label that is already placed
   gets the same value at once). *)
Inductive kind := PC32 | PLT32 | GOTPCREL.
Inductive fixup := Rela (k : kind) (sym : Z) (off : Z) (addend : Z) | Disp (sym : Z) (off : Z).
Definition code : Type := list Z * list fixup.

Definition zlen {A} (l : list A) : Z := Z.of_nat (length l).
(* c->val[c->len - 1 - n] |= v *)
Definition or_back (n : nat) (v : Z) (c : list Z) : list Z :=
  let k := (length c - 1 - n)%nat in
  firstn k c ++ Z.lor (nth k c 0) v :: skipn (S k) c.

(* encoding.c:295-350 *)
Definition encode_modrm_sib_disp (reg : Z) (a : address) : res (list Z) :=
  do _ <- check (negb (a_base a =? 0) || (a_disp a =? 0));
  do _ <- check ((a_scale a =? 0) || (a_scale a =? 1) || (a_scale a =? 2) || (a_scale a =? 4) || (a_scale a =? 8));
  let nobase := a_base a =? 0 in
  let has_sib := negb (a_index a =? 0) || nobase || (reg3 (a_base a) =? reg3 SP) || (1 <? a_scale a) in
  let has_disp := nobase || negb (a_disp a =? 0) || (reg3 (a_base a) =? reg3 BP) in
  let m := Z.lor (Z.shiftl (Z.land reg 7) 3) (if has_sib then 4 else reg3 (a_base a)) in
  let m := if negb (in_byte_range (a_disp a)) then Z.lor m 128
           else if has_disp && negb nobase then Z.lor m 64 else m in
  let sib :=
    if has_sib then
      [Z.lor (Z.lor (Z.shiftl (if a_index a =? 0 then reg3 SP else reg3 (a_index a)) 3)
                    (Z.shiftl (if a_scale a =? 2 then 1 else if a_scale a =? 4 then 2 else if a_scale a =? 8 then 3 else 0) 6))
             (if nobase then 5 else reg3 (a_base a))]
    else [] in
  let disp := if negb (in_byte_range (a_disp a)) || nobase then le_bytes 4 (a_disp a)
              else if has_disp then le_bytes 1 (a_disp a) else [] in
  Done (m :: sib ++ disp).

(* encoding.c:360-385: the bytes of the address and the relocation, given the length before *)
Definition encode_address (len reg : Z) (a : address) (addend : Z) : res code :=
  match a_sym a with
  | Some y =>
      do k <- match a_type a with
              | ADDR_GLOBAL_OFFSET => Done GOTPCREL | ADDR_NORMAL => Done PC32 | ADDR_PLT => Failed
              end;
      Done (Z.lor (Z.shiftl (Z.land reg 7) 3) 5 :: [0; 0; 0; 0], [Rela k y (len + 1) (a_disp a - addend)])
  | None => do b <- encode_modrm_sib_disp reg a; Done (b, [])
  end.

(* encoding.c:392-405 *)
Definition default_operand_size (op : Z) : Z :=
  if (op =? INSTR_CALL) || (op =? INSTR_PUSH) || (op =? INSTR_POP) || (op =? INSTR_JMP) || (op =? INSTR_Jcc)
  then 8 else 4.

(* the REX.W bit as in encoding.c:428-430, 467-469, 667-668, 690-692, 730-732, 756-758 *)
Definition opt_w (e : encoding) (w : Z) : Z :=
  if enable_rex_w (opc e) && negb (w =? default_operand_size (opc e)) then rexW w else 0.
Definition put_rex (b : bool) (rex : Z) : list Z := if b then [rex] else [].
Definition isnt (a b : Z) : bool := negb (a =? b).

(* encoding.c:416-454 *)
Definition encode_reg_reg (c : list Z) (e : encoding) (ws w a b : Z) : res code :=
  let rex := Z.lor (Z.lor REX (rexB b)) (opt_w e w) in
  do _ <- check (impl1 e =? 0);
  let rex := if impl0 e =? 0 then Z.lor rex (rexR a) else rex in
  let c := c ++ put_rex (isnt rex REX) rex ++ opcode e in
  let ws := if impl0 e =? 0 then ws else w in
  let c := if opx e OPX_W then or_back 0 (b2z (isnt ws 1)) c else c in
  let m := Z.lor (Z.lor 192 (modrm e)) (reg3 b) in
  do m <- if impl0 e =? 0 then do _ <- check (modrm e =? 0); Done (Z.lor m (Z.shiftl (reg3 a) 3)) else Done m;
  Done (c ++ [m], []).

(* encoding.c:456-489 *)
Definition encode_mem_reg (c : list Z) (e : encoding) (w : Z) (d : bool) (m : memory) (b : Z) : res code :=
  let rex := Z.lor (Z.lor (Z.lor (Z.lor REX (rexR b)) (rexX (a_index (m_addr m)))) (rexB (a_base (m_addr m)))) (opt_w e w) in
  do _ <- check (impl1 e =? 0);
  let c := c ++ put_rex (isnt rex REX || (((b =? SI) || (b =? DI)) && (w =? 1))) rex ++ opcode e in
  let c := if opx e OPX_W then or_back 0 (b2z (isnt (m_width m) 1)) c else c in
  let c := if opx e OPX_D then or_back 0 (Z.shiftl (b2z d) 1) c else c in
  do (a, f) <- encode_address (zlen c) (reg3 b) (m_addr m) 0;
  Done (c ++ a, f).

(* encoding.c:491-543; sx is sx_byte_offset, dw is is_displacement_or_dword *)
Definition encode_immediate (c : list Z) (i : immediate) (sx : nat) (dw : bool) : res code :=
  match i_val i with
  | IInt q =>
      if (i_width i =? 1) || (negb (Nat.eqb sx 0) && in_byte_range q) then
        let c := if Nat.eqb sx 0 then c else or_back (sx - 1) 2 c in
        Done (c ++ le_bytes 1 q, [])
      else if i_width i =? 2 then Done (c ++ le_bytes 2 q, [])
      else if (i_width i =? 4) || dw then
        do _ <- check ((i_width i =? 4) || in_32bit_range q);
        Done (c ++ le_bytes 4 q, [])
      else
        do _ <- check (i_width i =? 8);
        Done (c ++ le_bytes 8 q, [])
  | IAddr a =>
      match a_sym a with
      | None => Failed
      | Some y =>
          if dw then
            do _ <- match a_type a with ADDR_NORMAL => Done tt | _ => Failed end;
            Done (c ++ le_bytes 4 (a_disp a - 4), [Disp y (zlen c)])
          else
            do k <- match a_type a with ADDR_NORMAL => Done PC32 | ADDR_PLT => Done PLT32 | ADDR_GLOBAL_OFFSET => Failed end;
            Done (c ++ [0; 0; 0; 0], [Rela k y (zlen c) (a_disp a)])
      end
  end.

(* encoding.c:545-591 *)
Definition encode_imm_reg (c : list Z) (e : encoding) (w : Z) (i : immediate) (b : Z) : res code :=
  let rex := Z.lor (Z.lor REX (rexW w)) (rexB b) in
  let c := c ++ put_rex (isnt rex REX || (((b =? SI) || (b =? DI)) && (w =? 1))) rex ++ opcode e in
  let w := if opx e OPX_W then (if opx e OPX_REG then Z.shiftl (b2z (isnt w 1)) 3 else b2z (isnt w 1)) else w in
  let c := if opx e OPX_W then or_back 0 w c else c in
  do (c, d) <-
    if opx e OPX_REG then
      do _ <- check (modrm e =? 0); do _ <- check (impl1 e =? 0); Done (or_back 0 (reg3 b) c, 1%nat)
    else if impl1 e =? 0 then Done (c ++ [Z.lor (Z.lor 192 (modrm e)) (reg3 b)], 2%nat)
    else Done (c, 0%nat);
  let d := if negb (opx e OPX_S) || (w =? 0) then 0%nat else d in
  encode_immediate c i d (dword e).

(* encoding.c:593-617 *)
Definition imm_encoding_width (i : immediate) (sx max32 : bool) : Z :=
  match i_val i with
  | IInt q => if (i_width i =? 1) || (sx && in_byte_range q) then 1
              else if i_width i =? 2 then 2 else if (i_width i =? 4) || max32 then 4 else 8
  | IAddr _ => 4
  end.

(* encoding.c:619-660 *)
Definition encode_imm_mem (c : list Z) (e : encoding) (w : Z) (i : immediate) (b : address) : res code :=
  let rex := Z.lor (Z.lor (Z.lor REX (rexW w)) (rexX (a_index b))) (rexB (a_base b)) in
  let c := c ++ put_rex (isnt rex REX) rex ++ opcode e in
  let c := if opx e OPX_W then or_back 0 (b2z (isnt w 1)) c else c in
  let s := opx e OPX_S in
  let w := imm_encoding_width i s (dword e) in
  do (a, f) <- encode_address (zlen c) (Z.land (Z.shiftr (modrm e) 3) 7) b w;
  let d := if s then S (length a) else 0%nat in
  do (c', g) <- encode_immediate (c ++ a) i d (dword e);
  do _ <- check (zlen c' - zlen (c ++ a) =? w);
  Done (c', f ++ g).

(* encoding.c:662-678 *)
Definition encode_none (c : list Z) (e : encoding) (w : Z) : res code :=
  let rex := Z.lor REX (opt_w e w) in
  let c := c ++ put_rex (isnt rex REX) rex ++ opcode e in
  Done (if opx e OPX_W then or_back 0 (b2z (isnt w 1)) c else c, []).

(* encoding.c:680-719 *)
Definition encode_reg (c : list Z) (e : encoding) (w r cc : Z) : res code :=
  let rex := Z.lor (Z.lor REX (rexB r)) (opt_w e w) in
  let c := c ++ put_rex (isnt rex REX) rex ++ opcode e in
  let c := if opx e OPX_W
           then or_back 0 (if opx e OPX_REG then Z.shiftl (b2z (isnt w 1)) 3 else b2z (isnt w 1)) c else c in
  do c <- if opx e OPX_tttn then do _ <- check (opextra e =? OPX_tttn); Done (or_back 0 cc c) else Done c;
  if opx e OPX_REG then do _ <- check (modrm e =? 0); Done (or_back 0 (reg3 r) c, [])
  else Done (c ++ [Z.lor (Z.lor 192 (modrm e)) (reg3 r)], []).

(* encoding.c:721-744 *)
Definition encode_mem (c : list Z) (e : encoding) (w : Z) (a : address) : res code :=
  let rex := Z.lor (Z.lor (Z.lor REX (rexX (a_index a))) (rexB (a_base a))) (opt_w e w) in
  let c := c ++ put_rex (isnt rex REX) rex ++ opcode e in
  let c := if opx e OPX_W then or_back 0 (b2z (isnt w 1)) c else c in
  do (b, f) <- encode_address (zlen c) (Z.land (Z.shiftr (modrm e) 3) 7) a 0;
  Done (c ++ b, f).

(* encoding.c:746-771 *)
Definition encode_imm (c : list Z) (e : encoding) (w : Z) (i : immediate) (cc : Z) : res code :=
  let rex := Z.lor REX (opt_w e w) in
  let c := c ++ put_rex (isnt rex REX) rex ++ opcode e in
  do c <- if opx e OPX_tttn then do _ <- check (opextra e =? OPX_tttn); Done (or_back 0 cc c) else Done c;
  encode_immediate c i 1 (dword e).

(* encoding.c:773-795 *)
Definition operand_size (i : instruction) : Z :=
  match n_args i with
  | NoOp _ | OpImm _ | OpReg _ | OpMem _ => src_width (n_args i)
  | _ => if n_op i =? INSTR_CVTSI2S then src_width (n_args i) else dst_width (n_args i)
  end.

(* encoding.c:797-807 *)
Definition is_32_bit_imm (i : immediate) : bool :=
  (i_width i <=? 4) || match i_val i with IInt q => in_32bit_range q | IAddr _ => true end.
Definition src_imm32 (o : operands) : bool :=
  match o with OpImm i | ImmReg i _ | ImmMem i _ => is_32_bit_imm i | _ => true end.

(* what encoding.c:809-853 reads of an instruction *)
Record key := Key { k_op : Z; k_type : Z; k_imm32 : bool; k_sreg : Z; k_dreg : Z; k_ws : Z; k_wd : Z }.
Definition key_of (i : instruction) : key :=
  let o := n_args i in
  Key (n_op i) (optype o) (src_imm32 o) (src_reg o) (dst_reg o) (src_width o) (dst_width o).

(* encoding.c:809-853 (the asserted equality of opcodes holds in find_encoding) *)
Definition implicit_ok (impl r : Z) : bool :=
  if impl =? IMPL_AX then r =? AX else if impl =? IMPL_CX then r =? CX else true.
Definition match_instruction_encoding (k : key) (e : encoding) : bool :=
  (k_type k =? Z.land (otype e) (k_type k))
  && negb (dword e && negb (k_imm32 k))
  && implicit_ok (impl0 e) (k_sreg k) && implicit_ok (impl1 e) (k_dreg k)
  && negb (isnt (w0 e) 0 && (Z.land (w0 e) (k_ws k) =? 0))
  && negb (isnt (k_wd k) 0 && isnt (w1 e) 0 && (Z.land (w1 e) (k_wd k) =? 0)).

(* encoding.c:863-868; past the table is the entry {0} *)
Fixpoint find_from (k : key) (l : list encoding) : option encoding :=
  match l with
  | [] => None
  | e :: l' =>
      if match_instruction_encoding k e then Some e
      else if match l' with e' :: _ => opc e' =? k_op k | [] => 0 =? k_op k end
      then find_from k l' else None
  end.

(* encoding.c:855-872 *)
Definition find_encoding (k : key) : res encoding :=
  if k_op k <? 0 then Failed else
  match entry (k_op k) with
  | None => Failed
  | Some e =>
      do _ <- check ((opc e =? 0) || (opc e =? k_op k));
      do _ <- check ((k_op k =? 0) || match entry (k_op k - 1) with Some e' => isnt (opc e') (k_op k) | None => false end);
      match find_from k (skipn (Z.to_nat (k_op k)) encodings) with Some e => Done e | None => Unsupported end
  end.

(* encoding.c:1068-1080: the bytes before the REX prefix *)
Definition prefixes (i : instruction) (e : encoding) : list Z :=
  prefix e ++ (if n_prefix i =? 0 then [] else [n_prefix i]) ++ (if operand_size i =? 2 then [102] else []).

(* encoding.c:1065-1122 *)
Definition encode (i : instruction) : res code :=
  do e <- find_encoding (key_of i);
  let c := prefixes i e in
  let w := operand_size i in
  do (b, f) <-
    match n_args i with
    | NoOp _ => encode_none c e w
    | OpReg r => encode_reg c e w (r_reg r) (n_cc i)
    | OpMem m => encode_mem c e w (m_addr m)
    | OpImm m => encode_imm c e w m (n_cc i)
    | RegReg s d =>
        if reverse e then encode_reg_reg c e (r_width s) w (r_reg d) (r_reg s)
        else encode_reg_reg c e (r_width s) w (r_reg s) (r_reg d)
    | MemReg m r => encode_mem_reg c e w true m (r_reg r)
    | RegMem r m => encode_mem_reg c e w false m (r_reg r)
    | ImmReg m r => encode_imm_reg c e w m (r_reg r)
    | ImmMem m d => encode_imm_mem c e w m (m_addr d)
    end;
  if zlen b <=? 15 then Done (b, f) else Overflow.
