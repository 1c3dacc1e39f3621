(* C52: the assembly text says what was asked for. *)
From Coq Require Import String ZArith Bool Lia List.
From Verif Require Import Bytes EncModel EncSpec EncAll ArgsModel AttModel AttSpec AttProofs AttLine AttDataSpec AttData.
Import ListNotations.
Open Scope Z_scope.

(* A line of text that is written is read by an assembler as the operation and operands asked for, with the
   symbols at [loc] and the instruction ending at [e].  Missing: the instructions of [misspelt], refuted below. *)
Theorem C52_text_partial : forall name find loc e depth i l d,
  known name find -> asm_text name depth i = Done l -> asked loc e depth i = Some d -> misspelt i = false ->
  read_line find loc e l = Some d.
Proof. intros name find loc e depth i l d K. exact (text_ok name find loc e depth K i l d). Qed.
Print Assumptions C52_text_partial.

(* An instruction that has a meaning and is accepted for the object file has a text, if names are short *)
Theorem C52_accepts_partial : forall name loc e depth i d c,
  asked loc e depth i = Some d -> encode i = Done c -> misspelt i = false -> printable depth i = true ->
  (forall y, In y (symbols i) -> zlen (name y) <= 220) -> exists l, asm_text name depth i = Done l.
Proof. intros name loc e depth i d c A E M P S. exact (text_total name (fun _ => None) loc e depth i d c S A M P E). Qed.
Print Assumptions C52_accepts_partial.

(* -S and -c agree: the line and the bytes of one instruction, at one address, are the same to the assembler and
   to the processor.  Missing: [misspelt] and [trouble] (C31). *)
Theorem C52_agree_partial : forall name find loc at_ depth i l b f d,
  known name find -> asm_text name depth i = Done l -> encode i = Done (b, f) ->
  asked loc (at_ + zlen b) depth i = Some d -> misspelt i = false -> trouble depth i = false -> near d = true ->
  exists x, read_line find loc (at_ + zlen b) l = Some x /\ forall rest, decode (patch loc at_ (b, f) ++ rest) = Some (x, rest).
Proof.
  intros name find loc at_ depth i l b f d K T E A M Q N. exists d. split; [exact (text_ok name find loc _ depth K i l d T A M)|].
  destruct (encode_ok loc at_ depth i b f d E A Q N) as (_ & _ & _ & D). exact D.
Qed.
Print Assumptions C52_agree_partial.

(* Data directives: the bytes and addresses an assembler reserves are those of the initializer *)
Theorem C52_data : forall name find d l,
  known name find -> asm_data name d = Done l -> regular d = true -> read_data find l = Some (stands_for d).
Proof. intros name find d l K. exact (data_ok name find K d l). Qed.
Print Assumptions C52_data.

(* ------------------------------------------------------------------ *)
(* Instances.  Symbol 3 is saaa, symbol -2 is naa. *)
Definition name1 (y : Z) : list Z := if y <? 0 then text "n" ++ repeat 97 (Z.to_nat (- y)) else text "s" ++ repeat 97 (Z.to_nat y).
Definition find1 (l : list Z) : option Z := match l with 110 :: r => Some (- zlen r) | 115 :: r => Some (zlen r) | _ => None end.
Lemma known1 : known name1 find1.
Proof.
  intro y. assert (F : forall n, forallb symchar (repeat 97 n) = true) by (induction n; [reflexivity|assumption]).
  unfold name1. destruct (Z.ltb_spec y 0) as [H|H].
  - change (text "n") with [110]. split; [cbn; apply F|]. cbn [app find1]. unfold zlen. rewrite repeat_length, Z2Nat.id by lia. f_equal. lia.
  - change (text "s") with [115]. split; [cbn; apply F|]. cbn [app find1]. unfold zlen. rewrite repeat_length, Z2Nat.id by lia. reflexivity.
Qed.
Definition at41 (k : kind) (y : Z) : Z := 4194304 + 100 * y.
(* movl 1000(%rbx,%r9,4), %r10d *)
Definition load2 : instruction := Instr INSTR_MOV 0 0 (MemReg (Mem 4 (Addr ADDR_NORMAL None 1000 4 10 4)) (Reg 4 11)).
(* cmpw $-300, saaa+2(%rip) *)
Definition cmp2 : instruction := Instr INSTR_CMP 0 0 (ImmMem (Imm 2 (IInt (-300))) (Mem 2 (Addr ADDR_NORMAL (Some 3) 2 IP 0 0))).
(* jng sa *)
Definition jump2 : instruction := Instr INSTR_Jcc 14 0 (OpImm (Imm 8 (IAddr (Addr ADDR_NORMAL (Some 1) 0 0 0 0)))).
(* movq saaa@GOTPCREL(%rip), %r11 *)
Definition got2 : instruction := Instr INSTR_MOV 0 0 (MemReg (Mem 8 (Addr ADDR_GLOBAL_OFFSET (Some 3) 0 IP 0 0)) (Reg 8 12)).
Example C52_instance_text :
  asm_text name1 0 load2 = Done ([9] ++ text "movl" ++ [9] ++ text "1000(%rbx,%r9,4), %r10d" ++ [10])
  /\ asked at41 0 0 load2 = Some (Ins MOV [R 10 4; M (At (Some 3) (Some (9, 4)) 1000) 4]) /\ misspelt load2 = false /\ printable 0 load2 = true
  /\ asm_text name1 0 cmp2 = Done ([9] ++ text "cmpw" ++ [9] ++ text "$-300, saaa+2(%rip)" ++ [10])
  /\ asked at41 (4194000 + 9) 0 cmp2 = Some (Ins CMP [M (Rip 597) 2; Imv (-300)]) /\ misspelt cmp2 = false /\ printable 0 cmp2 = true
  /\ asm_text name1 0 jump2 = Done ([9] ++ text "jng" ++ [9] ++ text "sa" ++ [10])
  /\ asked at41 (4194000 + 6) 0 jump2 = Some (Ins (J 14) [Rel 398]) /\ misspelt jump2 = false /\ printable 0 jump2 = true
  /\ asm_text name1 0 got2 = Done ([9] ++ text "movq" ++ [9] ++ text "saaa@GOTPCREL(%rip), %r11" ++ [10])
  /\ misspelt got2 = false /\ printable 0 got2 = true.
Proof. vm_compute. repeat split; reflexivity. Qed.
Example C52_instance_agree :
  exists l b f, asm_text name1 0 cmp2 = Done l /\ encode cmp2 = Done (b, f) /\ zlen b = 9 /\ trouble 0 cmp2 = false /\ near (Ins CMP [M (Rip 597) 2; Imv (-300)]) = true
  /\ read_line find1 at41 (4194000 + 9) l = Some (Ins CMP [M (Rip 597) 2; Imv (-300)]).
Proof. eexists _, _, _. split; [vm_compute; reflexivity|]. split; [vm_compute; reflexivity|]. vm_compute. repeat split; reflexivity. Qed.
Example C52_instance_data :
  asm_data name1 (DInt 2 65534) = Done ([9] ++ text ".short" ++ [9] ++ text "-2" ++ [10])
  /\ stands_for (DInt 2 65534) = [Byte 254; Byte 255]
  /\ asm_data name1 (DAddr (Addr ADDR_NORMAL (Some 3) (-8) 0 0 0)) = Done ([9] ++ text ".quad" ++ [9] ++ text "saaa-8" ++ [10])
  /\ asm_data name1 (DString 4 [65; 34; 10]) = Done ([9] ++ text ".string" ++ [9; 34; 65; 92; 34; 92; 110; 34; 10])
  /\ regular (DString 4 [65; 34; 10]) = true /\ stands_for (DString 4 [65; 34; 10]) = [Byte 65; Byte 34; Byte 10; Byte 0].
Proof. vm_compute. repeat split; reflexivity. Qed.

(* ------------------------------------------------------------------ *)
(* The instructions of [misspelt]: the object file is right, the text is not read. *)
Definition unread (i : instruction) (l : list Z) (d : ins) : Prop :=
  asked at41 0 0 i = Some d /\ asm_text name1 0 i = Done l /\ read_line find1 at41 0 l = None
  /\ exists b, encode i = Done (b, []) /\ decode b = Some (d, []).

(* -8(%rax,%rbx), which can be written in an asm statement (assembler.c:277-289 leaves the scale at 0), is printed with the scale 0 *)
Theorem C52_scale_refuted : exists i d,
  unread i ([9] ++ text "movq" ++ [9] ++ text "-8(%rax,%rbx,0), %rax" ++ [10]) d /\ d = Ins MOV [R 0 8; M (At (Some 0) (Some (3, 1)) (-8)) 8].
Proof.
  exists (Instr INSTR_MOV 0 0 (MemReg (Mem 8 (Addr ADDR_NORMAL None (-8) 1 4 0)) (Reg 8 1))). eexists. split; [|reflexivity].
  repeat (split; [vm_compute; reflexivity|]). eexists. split; [vm_compute; reflexivity|]. vm_compute. reflexivity.
Qed.
Print Assumptions C52_scale_refuted.

(* an address that is zero is printed as nothing *)
Theorem C52_null_refuted : exists i d,
  unread i ([9] ++ text "movl" ++ [9] ++ text "%eax, " ++ [10]) d /\ d = Ins MOV [M (At None None 0) 4; R 0 4].
Proof.
  exists (Instr INSTR_MOV 0 0 (RegMem (Reg 4 1) (Mem 4 (Addr ADDR_NORMAL None 0 0 0 0)))). eexists. split; [|reflexivity].
  repeat (split; [vm_compute; reflexivity|]). eexists. split; [vm_compute; reflexivity|]. vm_compute. reflexivity.
Qed.
Print Assumptions C52_null_refuted.

(* an integer and a register of different widths give the operation two suffixes *)
Theorem C52_suffix_refuted : exists i d,
  unread i ([9] ++ text "addlq" ++ [9] ++ text "$5, %rax" ++ [10]) d /\ d = Ins ADD [R 0 8; Imv 5].
Proof.
  exists (Instr INSTR_ADD 0 0 (ImmReg (Imm 4 (IInt 5)) (Reg 8 1))). eexists. split; [|reflexivity].
  repeat (split; [vm_compute; reflexivity|]). eexists. split; [vm_compute; reflexivity|]. vm_compute. reflexivity.
Qed.
Print Assumptions C52_suffix_refuted.

(* a name of 250 characters is written past the end of the array of 256 (assemble.c:111) *)
Theorem C52_long_name_refuted : exists name find i d c,
  known name find /\ zlen (name 3) = 250 /\ asked at41 0 0 i = Some d /\ encode i = Done c /\ asm_text name 0 i = Overflow.
Proof.
  exists (fun y => repeat 98 246 ++ name1 y), (fun l => find1 (skipn 246 l)), cmp2. eexists _, _.
  split; [|split; [vm_compute; reflexivity|]; split; [vm_compute; reflexivity|]; split; [vm_compute; reflexivity|vm_compute; reflexivity]].
  intro y. destruct (known1 y) as [A B]. split.
  - unfold symbol_name in *. apply andb_true_iff in A as [_ A]. change (symstart 98 && forallb symchar (repeat 98 246 ++ name1 y) = true). rewrite forallb_app, A. reflexivity.
  - rewrite skipn_app. change (skipn 246 (repeat 98 246)) with (@nil Z). rewrite repeat_length. exact B.
Qed.
Print Assumptions C52_long_name_refuted.

(* the text and the object file differ: movq to %xmm8 is encoded as a load of %r8 *)
Theorem C52_agree_refuted : exists i l b x y,
  asm_text name1 0 i = Done l /\ encode i = Done (b, []) /\ read_line find1 at41 0 l = Some x /\ decode b = Some (y, [])
  /\ x = Ins (MOVSS 8) [X 8; M (At (Some 5) None (-8)) 8] /\ y = Ins MOV [R 8 8; M (At (Some 5) None (-8)) 8].
Proof.
  exists (Instr INSTR_MOV 0 0 (MemReg (Mem 8 (Addr ADDR_NORMAL None (-8) 6 0 0)) (Reg 8 25))). eexists _, _, _, _.
  repeat (split; [vm_compute; reflexivity|]). split; reflexivity.
Qed.
Print Assumptions C52_agree_refuted.
