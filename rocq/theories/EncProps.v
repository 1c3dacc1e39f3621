(* C31: encoded instructions decode to what was asked for. *)
From Coq Require Import ZArith Bool List.
From Verif Require Import Bytes EncModel EncSpec EncAll.
Import ListNotations.
Open Scope Z_scope.

(* The bytes of an instruction, once the linker has filled in the symbols (at address [at_], symbols at [loc]),
   are read by the processor as the operation and operands asked for, and nothing of what follows
   belongs to it; at most 15 bytes.  Missing: the instructions of [trouble], refuted below. *)
Theorem C31_encode_partial : forall loc at_ depth i b f d,
  encode i = Done (b, f) -> asked loc (at_ + zlen b) depth i = Some d -> trouble depth i = false -> near d = true ->
  let l := patch loc at_ (b, f) in
  length l = length b /\ zlen b <= 15 /\ Forall is_byte l /\ forall rest, decode (l ++ rest) = Some (d, rest).
Proof. exact encode_ok. Qed.
Print Assumptions C31_encode_partial.

(* Every instruction with a meaning is encoded, outside the defects and the list of what is not offered;
   the latter is rejected with an error message *)
Theorem C31_accepts_partial : forall loc e depth i d,
  asked loc e depth i = Some d -> trouble depth i = false ->
  (lacking i = false -> exists c, encode i = Done c) /\ (lacking i = true -> encode i = Unsupported).
Proof. exact encode_done. Qed.
Print Assumptions C31_accepts_partial.

(* The code of a function is read as its instructions, one after the other *)
Theorem C31_stream_partial : forall loc at_ l cs ds,
  encoded_as loc at_ l cs ds ->
  decodes (assembled loc at_ cs) ds /\ zlen (assembled loc at_ cs) = fold_right (fun c n => zlen (fst c) + n) 0 cs.
Proof. exact stream_ok. Qed.
Print Assumptions C31_stream_partial.

Definition at40 (k : kind) (y : Z) : Z := 4194304 + 100 * y.
(* movl 1000(%rbx,%r9,4), %r10d *)
Definition load1 : instruction := Instr INSTR_MOV 0 0 (MemReg (Mem 4 (Addr ADDR_NORMAL None 1000 4 10 4)) (Reg 4 11)).
(* cmpw $-300, sym3+2(%rip) *)
Definition cmp1 : instruction := Instr INSTR_CMP 0 0 (ImmMem (Imm 2 (IInt (-300))) (Mem 2 (Addr ADDR_NORMAL (Some 3) 2 IP 0 0))).
(* jle sym1 *)
Definition jump1 : instruction := Instr INSTR_Jcc 14 0 (OpImm (Imm 8 (IAddr (Addr ADDR_NORMAL (Some 1) 0 0 0 0)))).
Example C31_instance_1 :
  encode load1 = Done ([70; 139; 148; 139; 232; 3; 0; 0], [])
  /\ asked at40 0 0 load1 = Some (Ins MOV [R 10 4; M (At (Some 3) (Some (9, 4)) 1000) 4])
  /\ trouble 0 load1 = false /\ lacking load1 = false.
Proof. vm_compute. repeat split; reflexivity. Qed.
Example C31_instance_2 :
  exists b f, encode cmp1 = Done (b, f) /\ zlen b = 9
  /\ asked at40 (4194000 + 9) 0 cmp1 = Some (Ins CMP [M (Rip 597) 2; Imv (-300)])
  /\ patch at40 4194000 (b, f) = [102; 129; 61; 85; 2; 0; 0; 212; 254].
Proof. exists [102; 129; 61; 0; 0; 0; 0; 212; 254], [Rela PC32 3 3 0]. vm_compute. repeat split; reflexivity. Qed.
Example C31_instance_3 :
  exists b f, encode jump1 = Done (b, f)
  /\ asked at40 (4194000 + 6) 0 jump1 = Some (Ins (J 14) [Rel 398])
  /\ patch at40 4194000 (b, f) = [15; 142; 142; 1; 0; 0].
Proof. exists [15; 142; 252; 255; 255; 255], [Disp 1 2]. vm_compute. repeat split; reflexivity. Qed.
Example C31_instance_stream :
  encoded_as at40 4194000 [(0, load1); (0, cmp1); (0, jump1)]
    [([70; 139; 148; 139; 232; 3; 0; 0], []); ([102; 129; 61; 0; 0; 0; 0; 212; 254], [Rela PC32 3 3 0]); ([15; 142; 252; 255; 255; 255], [Disp 1 2])]
    [Ins MOV [R 10 4; M (At (Some 3) (Some (9, 4)) 1000) 4]; Ins CMP [M (Rip 589) 2; Imv (-300)]; Ins (J 14) [Rel 381]].
Proof. repeat (apply enc_cons; [vm_compute; reflexivity..|]). apply enc_nil. Qed.
Example C31_instance_lacking :
  let i := Instr INSTR_LEA 0 0 (MemReg (Mem 8 (Addr ADDR_NORMAL None 8 6 0 0)) (Reg 4 1)) in
  asked at40 0 0 i = Some (Ins LEA [R 0 4; M (At (Some 5) None 8) 0]) /\ trouble 0 i = false /\ encode i = Unsupported.
Proof. vm_compute. repeat split; reflexivity. Qed.

(* ------------------------------------------------------------------ *)
(* The instructions of [trouble] *)


(* asked for d, encoded as b, which with eight more bytes is read as d' leaving n of these *)
Definition after : list Z := [1; 2; 3; 4; 5; 6; 7; 8].
Definition misread (depth : Z) (i : instruction) (d d' : ins) (left : list Z) : Prop :=
  exists b, encode i = Done (b, []) /\ asked at40 0 depth i = Some d /\ decode (b ++ after) = Some (d', left).
Ltac misread b := exists b; vm_compute; repeat split; reflexivity.

(* sub mem, reg has no direction bit: subl -4(%rbp), %eax becomes subl %eax, -4(%rbp) *)
Theorem C31_sub_refuted : exists i d d',
  misread 0 i d d' after /\ d = Ins SUB [R 0 4; M (At (Some 5) None (-4)) 4] /\ d' = Ins SUB [M (At (Some 5) None (-4)) 4; R 0 4].
Proof.
  exists (Instr INSTR_SUB 0 0 (MemReg (Mem 4 (Addr ADDR_NORMAL None (-4) 6 0 0)) (Reg 4 1))). eexists _, _.
  split; [|split; reflexivity]. misread [41; 69; 252].
Qed.
Print Assumptions C31_sub_refuted.

(* movb $5, %cl: the wide form is used (B8+r), which takes three bytes of what follows *)
Theorem C31_mov_byte_refuted : exists i d d' l,
  misread 0 i d d' l /\ d = Ins MOV [R 1 1; Imv 5] /\ d' = Ins MOV [R 1 4; Imv 50462981] /\ l = skipn 3 after.
Proof.
  exists (Instr INSTR_MOV 0 0 (ImmReg (Imm 1 (IInt 5)) (Reg 1 2))). eexists _, _, _.
  split; [|repeat split; reflexivity]. misread [185; 5].
Qed.
Print Assumptions C31_mov_byte_refuted.

(* movzlq %ecx, %rax takes 16 bits only *)
Theorem C31_movzlq_refuted : exists i d d',
  misread 0 i d d' after /\ d = Ins MOVZX [R 0 8; R 1 4] /\ d' = Ins MOVZX [R 0 8; R 1 2].
Proof.
  exists (Instr INSTR_MOVZX 0 0 (RegReg (Reg 4 2) (Reg 8 1))). eexists _, _.
  split; [|split; reflexivity]. misread [72; 15; 183; 193].
Qed.
Print Assumptions C31_movzlq_refuted.

(* cmpq $1000, %rcx and testq $7, %rax are given eight bytes of immediate, of which the last four are
   then executed *)
Theorem C31_imm64_refuted : exists i d l i2 d2 l2,
  misread 0 i d d l /\ d = Ins CMP [R 1 8; Imv 1000] /\ l = [0; 0; 0; 0] ++ after
  /\ misread 0 i2 d2 d2 l2 /\ d2 = Ins TEST [R 0 8; Imv 7] /\ l2 = [0; 0; 0; 0] ++ after.
Proof.
  exists (Instr INSTR_CMP 0 0 (ImmReg (Imm 8 (IInt 1000)) (Reg 8 2))). eexists _, _.
  exists (Instr INSTR_TEST 0 0 (ImmReg (Imm 8 (IInt 7)) (Reg 8 1))). eexists _, _.
  split; [misread [72; 129; 249; 232; 3; 0; 0; 0; 0; 0; 0]|]. split; [reflexivity|]. split; [reflexivity|].
  split; [misread [72; 247; 192; 7; 0; 0; 0; 0; 0; 0; 0]|split; reflexivity].
Qed.
Print Assumptions C31_imm64_refuted.

(* cmpq $1000, 1000(%rbx,%r9,4): more than 15 bytes are stored into the array of 15 *)
Theorem C31_length_refuted : exists i d,
  asked at40 0 0 i = Some d /\ d = Ins CMP [M (At (Some 3) (Some (9, 4)) 1000) 8; Imv 1000] /\ encode i = Overflow.
Proof.
  exists (Instr INSTR_CMP 0 0 (ImmMem (Imm 8 (IInt 1000)) (Mem 8 (Addr ADDR_NORMAL None 1000 4 10 4)))). eexists.
  split; [vm_compute; reflexivity|]. split; [reflexivity|vm_compute; reflexivity].
Qed.
Print Assumptions C31_length_refuted.

(* movb %sil, %al and sete %dil and movb %spl, -4(%rbp) are encoded without REX, as %dh, %bh and %ah *)
Theorem C31_byte_register_refuted :
  (exists i d d', misread 0 i d d' after /\ d = Ins MOV [R 0 1; R 6 1] /\ d' = Ins MOV [R 0 1; Hi 2])
  /\ (exists i d d', misread 0 i d d' after /\ d = Ins (SET 4) [R 7 1] /\ d' = Ins (SET 4) [Hi 3])
  /\ (exists i d d', misread 0 i d d' after /\ d = Ins MOV [M (At (Some 5) None (-4)) 1; R 4 1] /\ d' = Ins MOV [M (At (Some 5) None (-4)) 1; Hi 0]).
Proof.
  split; [|split].
  - exists (Instr INSTR_MOV 0 0 (RegReg (Reg 1 7) (Reg 1 1))). eexists _, _. split; [misread [136; 240]|split; reflexivity].
  - exists (Instr INSTR_SETcc 4 0 (OpReg (Reg 1 8))). eexists _, _. split; [misread [15; 148; 199]|split; reflexivity].
  - exists (Instr INSTR_MOV 0 0 (RegMem (Reg 1 5) (Mem 1 (Addr ADDR_NORMAL None (-4) 6 0 0)))). eexists _, _.
    split; [misread [136; 101; 252]|split; reflexivity].
Qed.
Print Assumptions C31_byte_register_refuted.

(* cmpb $5, -4(%rbp): opcode 82, not valid in 64-bit mode *)
Theorem C31_byte_memory_refuted : exists i d b,
  asked at40 0 0 i = Some d /\ d = Ins CMP [M (At (Some 5) None (-4)) 1; Imv 5] /\ encode i = Done (b, []) /\ decode (b ++ after) = None.
Proof.
  exists (Instr INSTR_CMP 0 0 (ImmMem (Imm 1 (IInt 5)) (Mem 1 (Addr ADDR_NORMAL None (-4) 6 0 0)))). eexists _, [130; 125; 252; 5].
  split; [vm_compute; reflexivity|]. split; [reflexivity|]. split; vm_compute; reflexivity.
Qed.
Print Assumptions C31_byte_memory_refuted.

(* x87 registers are named by height on the stack, but encoded by number: with the counter at two, ST1 is
   the top (x87_stack_pos, compile.c:74-81, as used in assembly output), but is encoded as st(2).  The
   comparison of long doubles drops its second operand this way (compile.c:2257): the value remains on the stack *)
Theorem C31_x87_refuted : exists i d d',
  misread 2 i d d' after /\ d = Ins FSTP [St 0] /\ d' = Ins FSTP [St 2].
Proof.
  exists (Instr INSTR_FSTP 0 0 (OpReg (Reg 16 35))). eexists _, _. split; [misread [221; 218]|split; reflexivity].
Qed.
Print Assumptions C31_x87_refuted.

(* movl 1000, %eax (an absolute address) stops the compiler *)
Theorem C31_absolute_refuted : exists i d,
  asked at40 0 0 i = Some d /\ d = Ins MOV [R 0 4; M (At None None 1000) 4] /\ encode i = Failed.
Proof.
  exists (Instr INSTR_MOV 0 0 (MemReg (Mem 4 (Addr ADDR_NORMAL None 1000 0 0 0)) (Reg 4 1))). eexists.
  split; [vm_compute; reflexivity|]. split; [reflexivity|vm_compute; reflexivity].
Qed.
Print Assumptions C31_absolute_refuted.
