(* What the bytes of an instruction mean in 64-bit mode (Intel 64 and IA-32 Architectures Software
   Developer's Manual, volume 2: chapter 2 for prefixes, REX, ModR/M and SIB, appendix A for the
   opcode maps; the part of the maps that follows), and what an instruction handed to the encoder
   asks for.  Neither refers to the table of encodings. *)
From Coq Require Import List ZArith Bool.
From Verif Require Import Bytes EncModel.
Import ListNotations.
Open Scope Z_scope.

(* registers are numbers 0..15 (rax, rcx, rdx, rbx, rsp, rbp, rsi, rdi, r8, ...) *)
Inductive place :=
| At (base : option Z) (index : option (Z * Z)) (disp : Z)    (* index register and scale *)
| Rip (disp : Z).                                             (* from the end of the instruction *)

Inductive arg :=
| R (n w : Z)       (* general register, w bytes of it *)
| Hi (n : Z)        (* ah, ch, dh, bh *)
| X (n : Z)         (* xmm register *)
| St (n : Z)        (* st(n) *)
| M (p : place) (w : Z)   (* memory, w bytes; 0: only the address matters *)
| Imv (v : Z)         (* immediate, sign-extended *)
| Rel (d : Z).      (* branch target, from the end of the instruction *)

Inductive mnem :=
| ADD | OR | ADC | SBB | AND | SUB | XOR | CMP | TEST | MOV | MOVSX | MOVZX | LEA | PUSH | POP
| NOT | NEG | MUL | IMUL | DIV | IDIV | INC | DEC | ROL | ROR | RCL | RCR | SHL | SHR | SAR
| CALL | JMP | J (cc : Z) | SET (cc : Z) | RET | LEAVE | CDQ | CQO | MOVSTR (rep : Z) (w : Z)
| ADDS (w : Z) | MULS (w : Z) | SUBS (w : Z) | DIVS (w : Z) | MOVSS (w : Z) | UCOMIS (w : Z)
| MOVUPS | MOVAPS | PXOR | CVTSI2S (w : Z) | CVTTS2SI (w : Z) | CVTS2S (from to : Z)
| FLD | FSTP | FILD | FISTP | FLDCW | FNSTCW | FLDZ | FXCH | FUCOMIP
| FADDP | FMULP | FSUBP | FSUBRP | FDIVP | FDIVRP.  (* Intel: FSUBP is st(i) := st(i) - st(0) *)

Record ins := Ins { i_mn : mnem; i_args : list arg }.   (* destination first *)

(* ------------------------------------------------------------------ *)
(* Reading bytes *)

Definition signed (n : nat) (v : Z) : Z :=
  let m := 256 ^ Z.of_nat n in let u := v mod m in if 2 * u <? m then u else u - m.
Definition take (n : nat) (l : list Z) : option (Z * list Z) :=
  if Nat.leb n (length l) then Some (signed n (le_val (firstn n l)), skipn n l) else None.

Record pre := Pre { p_66 : bool; p_rep : Z; p_rex : option Z }.
Definition bit (n z : Z) : Z := (z / 2 ^ n) mod 2.
Definition rex_bit (p : pre) (n : Z) : Z := match p_rex p with Some x => bit n x | None => 0 end.
Definition rexw (p : pre) : bool := rex_bit p 3 =? 1.

(* legacy prefixes in any order, then at most one REX *)
Fixpoint read_prefixes (s : bool) (rep : Z) (l : list Z) : option (pre * list Z) :=
  match l with
  | [] => None
  | b :: l' =>
      if b =? 102 then read_prefixes true rep l'
      else if (b =? 242) || (b =? 243) then read_prefixes s b l'
      else if b / 16 =? 4 then Some (Pre s rep (Some b), l')
      else Some (Pre s rep None, l)
  end.

(* opcode: one byte, or 0F and one byte *)
Definition read_opcode (l : list Z) : option ((bool * Z) * list Z) :=
  match l with
  | [] => None
  | b :: l' => if b =? 15 then match l' with [] => None | b' :: l'' => Some ((true, b'), l'') end
               else Some ((false, b), l')
  end.
Definition read_head (l : list Z) : option (pre * bool * Z * list Z) :=
  match read_prefixes false 0 l with
  | None => None
  | Some (p, l1) => match read_opcode l1 with None => None | Some ((e, o), l2) => Some (p, e, o, l2) end
  end.

(* displacement by the mod field *)
Definition read_disp (md : Z) (l : list Z) : option (Z * list Z) :=
  if md =? 0 then Some (0, l) else if md =? 1 then take 1 l else take 4 l.

Inductive rm := RmReg (n : Z) | RmMem (p : place).
(* ModR/M, SIB and displacement: the reg field and the r/m operand, both with the REX bits *)
Definition read_modrm (p : pre) (l : list Z) : option (Z * rm * list Z) :=
  match l with
  | [] => None
  | m :: l =>
      let md := m / 64 in
      let reg := (m / 8) mod 8 + 8 * rex_bit p 2 in
      let low := m mod 8 in
      if md =? 3 then Some (reg, RmReg (low + 8 * rex_bit p 0), l)
      else if low =? 4 then
        match l with
        | [] => None
        | s :: l =>
            let ix := (s / 8) mod 8 + 8 * rex_bit p 1 in
            let index := if ix =? 4 then None else Some (ix, 2 ^ (s / 64)) in
            if (s mod 8 =? 5) && (md =? 0) then
              match take 4 l with None => None | Some (d, l) => Some (reg, RmMem (At None index d), l) end
            else
              match read_disp md l with
              | None => None
              | Some (d, l) => Some (reg, RmMem (At (Some (s mod 8 + 8 * rex_bit p 0)) index d), l)
              end
        end
      else if (low =? 5) && (md =? 0) then
        match take 4 l with None => None | Some (d, l) => Some (reg, RmMem (Rip d), l) end
      else
        match read_disp md l with
        | None => None
        | Some (d, l) => Some (reg, RmMem (At (Some (low + 8 * rex_bit p 0)) None d), l)
        end
  end.

(* ------------------------------------------------------------------ *)
(* Opcode maps *)

(* operands of a form: PE r/m, PG reg field, PV xmm in reg field, PU xmm or memory in r/m, PO register in
   the opcode, PA accumulator, PC cl, PS st(i) in r/m, PN n-byte immediate, PD n-byte branch displacement *)
Inductive pat := PE (w : Z) | PG (w : Z) | PV | PU (w : Z) | PO (w : Z) | PA (w : Z) | PC | PS | PN (n : nat) | PD (n : nat).

Definition has_modrm (esc : bool) (o : Z) : bool :=
  if esc then negb ((128 <=? o) && (o <? 144))
  else ((o <? 64) && (o mod 8 <? 4)) || (o =? 99) || ((128 <=? o) && (o <? 142))
       || (o / 2 =? 96) || (o / 2 =? 99) || ((208 <=? o) && (o <? 212)) || ((216 <=? o) && (o <? 224))
       || (o / 2 =? 123) || (o / 2 =? 127).

Definition alu (n : Z) : option mnem :=
  nth_error [ADD; OR; ADC; SBB; AND; SUB; XOR; CMP] (Z.to_nat n).
Definition shift (n : Z) : option mnem :=
  match Z.to_nat n with
  | 0%nat => Some ROL | 1%nat => Some ROR | 2%nat => Some RCL | 3%nat => Some RCR
  | 4%nat => Some SHL | 5%nat => Some SHR | 7%nat => Some SAR | _ => None
  end.
Definition with_ (m : option mnem) (l : list pat) : option (mnem * list pat) :=
  match m with Some m => Some (m, l) | None => None end.

(* x87: rest = 0..7 for D8..DF; x the reg field; whether r/m is memory, else its number *)
Definition x87 (o x : Z) (mem : bool) (i : Z) : option (mnem * list pat) :=
  if mem then
    match o, x with
    | 217, 0 => Some (FLD, [PE 4]) | 217, 3 => Some (FSTP, [PE 4]) | 217, 5 => Some (FLDCW, [PE 2]) | 217, 7 => Some (FNSTCW, [PE 2])
    | 219, 0 => Some (FILD, [PE 4]) | 219, 3 => Some (FISTP, [PE 4]) | 219, 5 => Some (FLD, [PE 10]) | 219, 7 => Some (FSTP, [PE 10])
    | 221, 0 => Some (FLD, [PE 8]) | 221, 3 => Some (FSTP, [PE 8])
    | 223, 0 => Some (FILD, [PE 2]) | 223, 3 => Some (FISTP, [PE 2]) | 223, 5 => Some (FILD, [PE 8]) | 223, 7 => Some (FISTP, [PE 8])
    | _, _ => None
    end
  else
    match o, x with
    | 217, 0 => Some (FLD, [PS]) | 217, 1 => Some (FXCH, [PS])
    | 217, 5 => if i =? 6 then Some (FLDZ, []) else None
    | 221, 3 => Some (FSTP, [PS])
    | 222, 0 => Some (FADDP, [PS]) | 222, 1 => Some (FMULP, [PS]) | 222, 4 => Some (FSUBRP, [PS]) | 222, 5 => Some (FSUBP, [PS])
    | 222, 6 => Some (FDIVRP, [PS]) | 222, 7 => Some (FDIVP, [PS])
    | 223, 5 => Some (FUCOMIP, [PS])
    | _, _ => None
    end.

(* one-byte opcodes; x is the reg field without REX.R.  An operand size prefix is ignored by the x87 instructions of
   the map. *)
Definition form1 (p : pre) (o x : Z) (mem : bool) (i : Z) : option (mnem * list pat) :=
  let v := if rexw p then 8 else if p_66 p then 2 else 4 in
  let z := if v =? 2 then 2%nat else 4%nat in
  let stack := if p_66 p then 2 else 8 in
  if o <? 64 then
    match Z.to_nat (o mod 8) with
    | 0%nat => with_ (alu (o / 8)) [PE 1; PG 1] | 1%nat => with_ (alu (o / 8)) [PE v; PG v]
    | 2%nat => with_ (alu (o / 8)) [PG 1; PE 1] | 3%nat => with_ (alu (o / 8)) [PG v; PE v]
    | 4%nat => with_ (alu (o / 8)) [PA 1; PN 1] | 5%nat => with_ (alu (o / 8)) [PA v; PN z]
    | _ => None
    end
  else if o / 8 =? 10 then Some (PUSH, [PO stack])
  else if o / 8 =? 11 then Some (POP, [PO stack])
  else if o =? 99 then (if rexw p then Some (MOVSX, [PG 8; PE 4]) else None)
  else if o =? 104 then (if p_66 p then None else Some (PUSH, [PN 4]))
  else if o =? 106 then (if p_66 p then None else Some (PUSH, [PN 1]))
  else if o / 16 =? 7 then Some (J (o mod 16), [PD 1])
  else if o =? 128 then with_ (alu x) [PE 1; PN 1]
  else if o =? 129 then with_ (alu x) [PE v; PN z]
  else if o =? 131 then with_ (alu x) [PE v; PN 1]
  else if o =? 132 then Some (TEST, [PE 1; PG 1])
  else if o =? 133 then Some (TEST, [PE v; PG v])
  else if o =? 136 then Some (MOV, [PE 1; PG 1])
  else if o =? 137 then Some (MOV, [PE v; PG v])
  else if o =? 138 then Some (MOV, [PG 1; PE 1])
  else if o =? 139 then Some (MOV, [PG v; PE v])
  else if o =? 141 then (if mem then Some (LEA, [PG v; PE 0]) else None)
  else if o =? 153 then (if rexw p then Some (CQO, []) else if p_66 p then None else Some (CDQ, []))
  else if o =? 164 then Some (MOVSTR (p_rep p) 1, [])
  else if o =? 165 then Some (MOVSTR (p_rep p) v, [])
  else if o =? 168 then Some (TEST, [PA 1; PN 1])
  else if o =? 169 then Some (TEST, [PA v; PN z])
  else if o / 8 =? 22 then Some (MOV, [PO 1; PN 1])
  else if o / 8 =? 23 then Some (MOV, [PO v; PN (Z.to_nat v)])
  else if o =? 192 then with_ (shift x) [PE 1; PN 1]
  else if o =? 193 then with_ (shift x) [PE v; PN 1]
  else if o =? 195 then Some (RET, [])
  else if o =? 198 then (if x =? 0 then Some (MOV, [PE 1; PN 1]) else None)
  else if o =? 199 then (if x =? 0 then Some (MOV, [PE v; PN z]) else None)
  else if o =? 201 then (if p_66 p then None else Some (LEAVE, []))
  else if o =? 210 then with_ (shift x) [PE 1; PC]
  else if o =? 211 then with_ (shift x) [PE v; PC]
  else if (216 <=? o) && (o <? 224) then x87 o x mem i
  else if o =? 232 then (if p_66 p then None else Some (CALL, [PD 4]))
  else if o =? 233 then (if p_66 p then None else Some (JMP, [PD 4]))
  else if o =? 235 then Some (JMP, [PD 1])
  else if (o =? 246) || (o =? 247) then
    let w := if o =? 246 then 1 else v in
    match Z.to_nat x with
    | 0%nat => Some (TEST, [PE w; PN (if o =? 246 then 1%nat else z)])
    | 2%nat => Some (NOT, [PE w]) | 3%nat => Some (NEG, [PE w]) | 4%nat => Some (MUL, [PE w]) | 5%nat => Some (IMUL, [PE w])
    | 6%nat => Some (DIV, [PE w]) | 7%nat => Some (IDIV, [PE w]) | _ => None
    end
  else if o =? 254 then (if x =? 0 then Some (INC, [PE 1]) else if x =? 1 then Some (DEC, [PE 1]) else None)
  else if o =? 255 then
    match Z.to_nat x with
    | 0%nat => Some (INC, [PE v]) | 1%nat => Some (DEC, [PE v])
    | 2%nat => Some (CALL, [PE 8]) | 4%nat => Some (JMP, [PE 8]) | 6%nat => Some (PUSH, [PE stack]) | _ => None
    end
  else None.

(* opcodes after 0F; the prefixes F3, F2 and 66 select the instruction *)
Definition form2 (p : pre) (o : Z) : option (mnem * list pat) :=
  let v := if rexw p then 8 else if p_66 p then 2 else 4 in
  let iv := if rexw p then 8 else 4 in
  let scalar := if p_rep p =? 243 then Some 4 else if p_rep p =? 242 then Some 8 else None in
  let none := (p_rep p =? 0) && negb (p_66 p) in
  let with_w (f : Z -> mnem) (l : Z -> list pat) := match scalar with Some w => Some (f w, l w) | None => None end in
  if (o =? 16) || (o =? 17) then
    let l w := if o =? 16 then [PV; PU w] else [PU w; PV] in
    match scalar with
    | Some w => Some (MOVSS w, l w)
    | None => if none then Some (MOVUPS, l 16) else None
    end
  else if o =? 40 then (if none then Some (MOVAPS, [PV; PU 16]) else None)
  else if o =? 41 then (if none then Some (MOVAPS, [PU 16; PV]) else None)
  else if o =? 42 then with_w CVTSI2S (fun _ => [PV; PE iv])
  else if o =? 44 then with_w CVTTS2SI (fun w => [PG iv; PU w])
  else if o =? 46 then
    (if negb (p_rep p =? 0) then None else if p_66 p then Some (UCOMIS 8, [PV; PU 8]) else Some (UCOMIS 4, [PV; PU 4]))
  else if o =? 88 then with_w ADDS (fun w => [PV; PU w])
  else if o =? 89 then with_w MULS (fun w => [PV; PU w])
  else if o =? 90 then with_w (fun w => CVTS2S w (12 - w)) (fun w => [PV; PU w])
  else if o =? 92 then with_w SUBS (fun w => [PV; PU w])
  else if o =? 94 then with_w DIVS (fun w => [PV; PU w])
  else if o / 16 =? 8 then (if p_66 p then None else Some (J (o mod 16), [PD 4]))
  else if o / 16 =? 9 then Some (SET (o mod 16), [PE 1])
  else if o =? 182 then Some (MOVZX, [PG v; PE 1])
  else if o =? 183 then Some (MOVZX, [PG v; PE 2])
  else if o =? 190 then Some (MOVSX, [PG v; PE 1])
  else if o =? 191 then Some (MOVSX, [PG v; PE 2])
  else if o =? 239 then (if p_66 p && (p_rep p =? 0) then Some (PXOR, [PV; PU 16]) else None)
  else None.

(* a byte register 4..7 without REX is ah, ch, dh, bh *)
Definition gpr (p : pre) (n w : Z) : arg :=
  match p_rex p with
  | None => if (w =? 1) && (4 <=? n) && (n <? 8) then Hi (n - 4) else R n w
  | Some _ => R n w
  end.

Definition arg_of (p : pre) (o reg : Z) (r : rm) (t : pat) (l : list Z) : option (arg * list Z) :=
  match t with
  | PE w => Some (match r with RmReg n => gpr p n w | RmMem a => M a w end, l)
  | PG w => Some (gpr p reg w, l)
  | PV => Some (X reg, l)
  | PU w => Some (match r with RmReg n => X n | RmMem a => M a w end, l)
  | PO w => Some (gpr p (o mod 8 + 8 * rex_bit p 0) w, l)
  | PA w => Some (R 0 w, l)
  | PC => Some (R 1 1, l)
  | PS => match r with RmReg n => Some (St (n mod 8), l) | RmMem _ => None end
  | PN n => match take n l with None => None | Some (v, l) => Some (Imv v, l) end
  | PD n => match take n l with None => None | Some (v, l) => Some (Rel v, l) end
  end.
Fixpoint args_of (p : pre) (o reg : Z) (r : rm) (ts : list pat) (l : list Z) : option (list arg * list Z) :=
  match ts with
  | [] => Some ([], l)
  | t :: ts =>
      match arg_of p o reg r t l with
      | None => None
      | Some (a, l) => match args_of p o reg r ts l with None => None | Some (b, l) => Some (a :: b, l) end
      end
  end.

(* what follows the opcode *)
Definition read_tail (p : pre) (esc : bool) (o : Z) (l : list Z) : option (ins * list Z) :=
  match (if has_modrm esc o then read_modrm p l else Some (0, RmReg 0, l)) with
  | None => None
  | Some (reg, r, l) =>
      let mem := match r with RmMem _ => true | _ => false end in
      let i := match r with RmMem _ => 0 | RmReg n => n mod 8 end in
      match (if esc then form2 p o else form1 p o (reg mod 8) mem i) with
      | None => None
      | Some (m, ts) => match args_of p o reg r ts l with None => None | Some (a, l) => Some (Ins m a, l) end
      end
  end.

(* the first instruction of a byte string and what is left *)
Definition decode (l : list Z) : option (ins * list Z) :=
  match read_head l with None => None | Some (p, e, o, l) => read_tail p e o l end.

(* a sequence of instructions *)
Fixpoint decodes (l : list Z) (d : list ins) : Prop :=
  match d with [] => l = [] | x :: d => exists l', decode l = Some (x, l') /\ decodes l' d end.

(* ------------------------------------------------------------------ *)
(* What an instruction asks for.  [loc k y] is where the linker puts symbol y (or its procedure
   linkage or global offset table entry), [end_] the address of the next instruction, [depth] the
   number of values on the x87 stack.  None: not an instruction (operands of the wrong class, ...). *)

Section Asked.
Variable loc : kind -> Z -> Z.
Variable end_ : Z.
Variable depth : Z.

Definition wide (w : Z) : bool := (w =? 1) || (w =? 2) || (w =? 4) || (w =? 8).
Definition is_gp (r : Z) : bool := (1 <=? r) && (r <=? 16).
Definition is_xmm (r : Z) : bool := (17 <=? r) && (r <=? 32).
Definition gp (r : registr) (w : Z) : option arg :=
  if is_gp (r_reg r) && (r_width r =? w) && wide w then Some (R (r_reg r - 1) w) else None.
Definition xm (r : registr) (w : Z) : option arg :=
  if is_xmm (r_reg r) && (r_width r =? w) then Some (X (r_reg r - 17)) else None.

(* an x87 register is named by its height on the stack (x87_stack_pos in compile.c) *)
Definition st (r : registr) : option arg :=
  let i := depth - 1 - (r_reg r - 34) in
  if (34 <=? r_reg r) && (r_reg r <=? 41) && (r_width r =? 16) && (0 <=? i) && (i <? 8) then Some (St i) else None.

Definition int32 (d : Z) : bool := (-2147483648 <=? d) && (d <=? 2147483647).
Definition scale_ok (n : Z) : bool := (n =? 0) || (n =? 1) || (n =? 2) || (n =? 4) || (n =? 8).
Definition where_ (a : address) : option place :=
  match a_sym a with
  | Some y =>
      if ((a_base a =? 0) || (a_base a =? IP)) && (a_index a =? 0) then
        match a_type a with
        | ADDR_NORMAL => Some (Rip (loc PC32 y + a_disp a - end_))
        | ADDR_GLOBAL_OFFSET => Some (Rip (loc GOTPCREL y + a_disp a - end_))
        | ADDR_PLT => None
        end
      else None
  | None =>
      let reg r := if r =? 0 then Some None else if is_gp r then Some (Some (r - 1)) else None in
      let index :=
        if a_index a =? 0 then Some None
        else if is_gp (a_index a) && negb (a_index a =? SP)
        then Some (Some (a_index a - 1, if a_scale a =? 0 then 1 else a_scale a)) else None in
      match reg (a_base a), index with
      | Some b, Some x => if int32 (a_disp a) && scale_ok (a_scale a) then Some (At b x (a_disp a)) else None
      | _, _ => None
      end
  end.
(* m has the width w; n bytes are accessed *)
Definition me (m : memory) (w n : Z) : option arg :=
  if m_width m =? w then match where_ (m_addr m) with Some p => Some (M p n) | None => None end else None.

(* an immediate of the width of the operation, or 32 bits to be extended to 64 *)
Definition im (i : immediate) (w : Z) : option arg :=
  match i_val i with
  | IInt q => if wide (i_width i) && ((i_width i =? w) || ((i_width i =? 4) && (w =? 8)))
              then Some (Imv (signed (Z.to_nat (i_width i)) q)) else None
  | IAddr _ => None
  end.
(* a branch target; jumps are to labels of the function *)
Definition target (i : immediate) (plt : bool) : option arg :=
  match i_val i with
  | IInt _ => None
  | IAddr a =>
      if i_width i =? 8 then
        match a_sym a, a_type a with
        | Some y, ADDR_NORMAL => Some (Rel (loc PC32 y + a_disp a - end_))
        | Some y, ADDR_PLT => if plt then Some (Rel (loc PLT32 y + a_disp a - end_)) else None
        | _, _ => None
        end
      else None
  end.

Definition two (m : mnem) (a b : option arg) : option ins :=
  match a, b with Some a, Some b => Some (Ins m [a; b]) | _, _ => None end.
Definition one (m : mnem) (a : option arg) : option ins :=
  match a with Some a => Some (Ins m [a]) | None => None end.
Definition same (b : bool) (x : option ins) : option ins := if b then x else None.

(* two operands of one width; TEST does not distinguish its operands *)
Definition asked_alu (m : mnem) (o : operands) : option ins :=
  match o with
  | RegReg s d => let w := r_width d in two m (gp d w) (gp s w)
  | RegMem s d => let w := m_width d in two m (me d w w) (gp s w)
  | MemReg s d => let w := r_width d in
      match m with TEST => two m (me s w w) (gp d w) | _ => two m (gp d w) (me s w w) end
  | ImmReg s d => let w := r_width d in two m (gp d w) (im s w)
  | ImmMem s d => let w := m_width d in same (wide w) (two m (me d w w) (im s w))
  | _ => None
  end.
Definition asked_one (m : mnem) (o : operands) : option ins :=
  match o with
  | OpReg r => one m (gp r (r_width r))
  | OpMem d => same (wide (m_width d)) (one m (me d (m_width d) (m_width d)))
  | _ => None
  end.
Definition asked_none (m : mnem) (o : operands) : option ins :=
  match o with NoOp w => same ((w =? 0) || (w =? 4) || (w =? 8)) (Some (Ins m [])) | _ => None end.
(* extension of n bytes to w *)
Definition asked_extend (m : mnem) (o : operands) : option ins :=
  match o with
  | RegReg s d => same (r_width s <? r_width d) (two m (gp d (r_width d)) (gp s (r_width s)))
  | MemReg s d => same (wide (m_width s) && (m_width s <? r_width d)) (two m (gp d (r_width d)) (me s (m_width s) (m_width s)))
  | _ => None
  end.
(* a count of one byte, in cl or immediate *)
Definition asked_shift (m : mnem) (o : operands) : option ins :=
  match o with
  | RegReg s d => same (r_reg s =? CX) (two m (gp d (r_width d)) (gp s 1))
  | ImmReg s d => two m (gp d (r_width d)) (im s 1)
  | _ => None
  end.
Definition fwidth (w : Z) : bool := (w =? 4) || (w =? 8).
Definition asked_sse (m : Z -> mnem) (o : operands) : option ins :=
  match o with
  | RegReg s d => let w := r_width d in same (fwidth w) (two (m w) (xm d w) (xm s w))
  | MemReg s d => let w := r_width d in same (fwidth w) (two (m w) (xm d w) (me s w w))
  | _ => None
  end.
Definition asked_store (m : Z -> mnem) (o : operands) : option ins :=
  match o with
  | RegMem s d => let w := r_width s in same (fwidth w) (two (m w) (me d w w) (xm s w))
  | _ => asked_sse m o
  end.
(* whole xmm registers: the width n of the operands is only nominal *)
Definition asked_packed (m : mnem) (n : Z) (o : operands) : option ins :=
  match o with
  | RegReg s d => two m (xm d n) (xm s n)
  | MemReg s d => two m (xm d n) (me s n 16)
  | RegMem s d => match m with MOVAPS => two m (me d n 16) (xm s n) | _ => None end
  | _ => None
  end.
Definition asked_st (m : mnem) (o : operands) : option ins :=
  match o with OpReg r => one m (st r) | _ => None end.
(* memory operand of w bytes for each (width, w) listed *)
Fixpoint asked_fmem (m : mnem) (l : list (Z * Z)) (o : operands) : option ins :=
  match l, o with
  | (w, n) :: l, OpMem d => if m_width d =? w then one m (me d w n) else asked_fmem m l o
  | _, _ => None
  end.

Definition asked_body (i : instruction) : option ins :=
  let o := n_args i in
  let c := n_op i in
  if c =? INSTR_ADD then asked_alu ADD o
  else if c =? INSTR_AND then asked_alu AND o
  else if c =? INSTR_CMP then asked_alu CMP o
  else if c =? INSTR_MOV then asked_alu MOV o
  else if c =? INSTR_OR then asked_alu OR o
  else if c =? INSTR_SUB then asked_alu SUB o
  else if c =? INSTR_TEST then asked_alu TEST o
  else if c =? INSTR_XOR then asked_alu XOR o
  else if c =? INSTR_CALL then
    match o with OpImm m => one CALL (target m true) | OpReg r => one CALL (gp r 8) | OpMem m => one CALL (me m 8 8) | _ => None end
  else if c =? INSTR_JMP then match o with OpImm m => one JMP (target m false) | _ => None end
  else if c =? INSTR_Jcc then match o with OpImm m => one (J (n_cc i)) (target m false) | _ => None end
  else if c =? INSTR_SETcc then match o with OpReg r => one (SET (n_cc i)) (gp r 1) | _ => None end
  else if c =? INSTR_Cxy then
    match o with NoOp w => if w =? 4 then Some (Ins CDQ []) else if w =? 8 then Some (Ins CQO []) else None | _ => None end
  else if c =? INSTR_DIV then asked_one DIV o
  else if c =? INSTR_IDIV then asked_one IDIV o
  else if c =? INSTR_MUL then asked_one MUL o
  else if c =? INSTR_NOT then asked_one NOT o
  else if c =? INSTR_LEA then
    match o with MemReg s d => two LEA (gp d (r_width d)) (me s 8 0) | _ => None end
  else if c =? INSTR_LEAVE then asked_none LEAVE o
  else if c =? INSTR_RET then asked_none RET o
  else if c =? INSTR_MOV_STR then
    match o with NoOp w => same (wide w) (Some (Ins (MOVSTR (n_prefix i) w) [])) | _ => None end
  else if c =? INSTR_MOVSX then asked_extend MOVSX o
  else if c =? INSTR_MOVZX then asked_extend MOVZX o
  else if c =? INSTR_POP then match o with OpReg r => one POP (gp r 8) | _ => None end
  else if c =? INSTR_PUSH then
    match o with OpReg r => one PUSH (gp r 8) | OpMem m => one PUSH (me m 8 8) | OpImm m => one PUSH (im m 8) | _ => None end
  else if c =? INSTR_SAR then asked_shift SAR o
  else if c =? INSTR_SHL then asked_shift SHL o
  else if c =? INSTR_SHR then asked_shift SHR o
  else if c =? INSTR_ADDS then asked_sse ADDS o
  else if c =? INSTR_DIVS then asked_sse DIVS o
  else if c =? INSTR_MULS then asked_sse MULS o
  else if c =? INSTR_SUBS then asked_sse SUBS o
  else if c =? INSTR_UCOMIS then asked_sse UCOMIS o
  else if c =? INSTR_MOVS then asked_store MOVSS o
  else if c =? INSTR_MOVAP then asked_packed MOVAPS 4 o
  else if c =? INSTR_PXOR then asked_packed PXOR 8 o
  else if c =? INSTR_CVTSI2S then
    match o with
    | RegReg s d => same (fwidth (r_width s) && fwidth (r_width d)) (two (CVTSI2S (r_width d)) (xm d (r_width d)) (gp s (r_width s)))
    | MemReg s d => same (fwidth (m_width s) && fwidth (r_width d)) (two (CVTSI2S (r_width d)) (xm d (r_width d)) (me s (m_width s) (m_width s)))
    | _ => None
    end
  else if c =? INSTR_CVTTS2SI then
    match o with
    | RegReg s d => same (fwidth (r_width s) && fwidth (r_width d)) (two (CVTTS2SI (r_width s)) (gp d (r_width d)) (xm s (r_width s)))
    | MemReg s d => same (fwidth (m_width s) && fwidth (r_width d)) (two (CVTTS2SI (m_width s)) (gp d (r_width d)) (me s (m_width s) (m_width s)))
    | _ => None
    end
  else if c =? INSTR_CVTS2S then
    match o with
    | RegReg s d => same (fwidth (r_width s) && (r_width s + r_width d =? 12)) (two (CVTS2S (r_width s) (r_width d)) (xm d (r_width d)) (xm s (r_width s)))
    | MemReg s d => same (fwidth (m_width s) && (m_width s + r_width d =? 12)) (two (CVTS2S (m_width s) (r_width d)) (xm d (r_width d)) (me s (m_width s) (m_width s)))
    | _ => None
    end
  else if c =? INSTR_FADDP then asked_st FADDP o
  else if c =? INSTR_FMULP then asked_st FMULP o
  (* the AT&T names fsubrp and fdivrp, used by lacc, are FSUBP and FDIVP of the manual *)
  else if c =? INSTR_FSUBRP then asked_st FSUBP o
  else if c =? INSTR_FDIVRP then asked_st FDIVP o
  else if c =? INSTR_FUCOMIP then asked_st FUCOMIP o
  else if c =? INSTR_FXCH then asked_st FXCH o
  else if c =? INSTR_FLD then match o with OpReg _ => asked_st FLD o | _ => asked_fmem FLD [(4, 4); (8, 8); (16, 10)] o end
  else if c =? INSTR_FSTP then match o with OpReg _ => asked_st FSTP o | _ => asked_fmem FSTP [(4, 4); (8, 8); (16, 10)] o end
  else if c =? INSTR_FILD then asked_fmem FILD [(2, 2); (4, 4); (8, 8)] o
  else if c =? INSTR_FISTP then asked_fmem FISTP [(2, 2); (4, 4); (8, 8)] o
  else if c =? INSTR_FLDCW then asked_fmem FLDCW [(2, 2)] o
  else if c =? INSTR_FNSTCW then asked_fmem FNSTCW [(2, 2)] o
  else if c =? INSTR_FLDZ then match o with NoOp w => same ((w =? 0) || (w =? 4) || (w =? 8)) (Some (Ins FLDZ [])) | _ => None end
  else None.

Definition asked (i : instruction) : option ins :=
  if (0 <=? n_cc i) && (n_cc i <? 16)
     && ((n_prefix i =? 0) || ((n_prefix i =? 243) && (n_op i =? INSTR_MOV_STR)))
  then asked_body i else None.
End Asked.

(* ------------------------------------------------------------------ *)
(* What the linker and elf_flush_text_displacements put into the code at address [at_] (C32, C34) *)

Definition put (l : list Z) (off v : Z) : list Z :=
  firstn (Z.to_nat off) l ++ le_bytes 4 v ++ skipn (Z.to_nat off + 4) l.
Definition get (l : list Z) (off : Z) : Z := le_val (firstn 4 (skipn (Z.to_nat off) l)).
Definition patch1 (loc : kind -> Z -> Z) (at_ : Z) (l : list Z) (f : fixup) : list Z :=
  match f with
  | Rela k y off a => put l off (loc k y + (a - 4) - (at_ + off))
  | Disp y off => put l off (get l off + loc PC32 y - (at_ + off))
  end.
Definition patch (loc : kind -> Z -> Z) (at_ : Z) (c : code) : list Z :=
  fold_left (patch1 loc at_) (snd c) (fst c).

(* symbols are near enough for 32-bit displacements *)
Definition place_fits (p : place) : bool := match p with Rip d => int32 d | At _ _ _ => true end.
Definition arg_fits (a : arg) : bool :=
  match a with M p _ => place_fits p | Rel d => int32 d | _ => true end.
Definition near (d : ins) : bool := forallb arg_fits (i_args d).

(* ------------------------------------------------------------------ *)
(* Where the encoder goes wrong (each line has a theorem in EncProps.v), and what it does not offer *)

(* spl, bpl, sil, dil: these need a REX prefix, which there is for other reasons if a register from
   r8 on or a 64-bit operand is involved *)
Definition ext (r : Z) : bool := (9 <=? r) && (r <=? 16).
Definition ext_addr (a : address) : bool := ext (a_base a) || ext (a_index a).
Definition low_byte (r : registr) : bool := (r_width r =? 1) && (5 <=? r_reg r) && (r_reg r <=? 8).
Definition sp_bp (r : registr) : bool := low_byte r && (r_reg r <=? 6).
Definition address_of (o : operands) : option address :=
  match o with
  | OpMem m | RegMem _ m | MemReg m _ | ImmMem _ m => Some (m_addr m) | _ => None
  end.
Definition byte_value (i : immediate) : bool :=
  match i_val i with IInt q => (-128 <=? q) && (q <=? 127) | IAddr _ => false end.
Definition trouble (depth : Z) (i : instruction) : bool :=
  let c := n_op i in
  let is_alu := (c =? INSTR_ADD) || (c =? INSTR_AND) || (c =? INSTR_CMP) || (c =? INSTR_OR) || (c =? INSTR_SUB) || (c =? INSTR_XOR) in
  (* an address without base register and with a displacement *)
  match address_of (n_args i) with
  | Some a => match a_sym a with None => (a_base a =? 0) && negb (a_disp a =? 0) | Some _ => false end
  | None => false
  end
  || match n_args i with
  | RegReg s d => ((low_byte s || low_byte d) && negb (ext (r_reg s) || ext (r_reg d) || (r_width d =? 8)))
      || ((c =? INSTR_MOVZX) && (r_width s =? 4))
  | RegMem s d => sp_bp s && negb (ext_addr (m_addr d))
  | MemReg s d => (sp_bp d && negb (ext_addr (m_addr s))) || (c =? INSTR_SUB) || ((c =? INSTR_MOVZX) && (m_width s =? 4))
  | OpReg r => low_byte r || ((34 <=? r_reg r) && negb (depth =? 2 * (r_reg r - 34) + 2))
  | ImmReg s d =>
      sp_bp d || ((c =? INSTR_MOV) && (r_width d =? 1))
      || ((c =? INSTR_TEST) && (i_width s =? 8)) || ((c =? INSTR_CMP) && (i_width s =? 8) && negb (byte_value s))
  | ImmMem s d =>
      (is_alu && (m_width d =? 1)) || ((c =? INSTR_CMP) && (i_width s =? 8) && negb (byte_value s))
  | _ => false
  end.

Definition long_value (i : immediate) : bool :=
  (i_width i =? 8) && match i_val i with IInt q => negb (int32 q) | IAddr _ => false end.
Definition lacking (i : instruction) : bool :=
  let c := n_op i in
  match n_args i with
  | RegReg _ d => ((c =? INSTR_MOVSX) || (c =? INSTR_MOVZX)) && (r_width d =? 2)
  | MemReg _ d => (((c =? INSTR_MOVSX) || (c =? INSTR_MOVZX)) && (r_width d =? 2)) || ((c =? INSTR_LEA) && negb (r_width d =? 8))
  | OpImm s => (c =? INSTR_PUSH) && (negb (i_width s =? 8) || long_value s)
  | ImmReg s _ => negb (c =? INSTR_MOV) && long_value s
  | ImmMem s _ => (c =? INSTR_TEST) || long_value s
  | _ => false
  end.

(* The code of a sequence of instructions placed from address [at_] on *)
Fixpoint assembled (loc : kind -> Z -> Z) (at_ : Z) (l : list code) : list Z :=
  match l with [] => [] | c :: l => patch loc at_ c ++ assembled loc (at_ + zlen (fst c)) l end.
(* instructions (with the height of the x87 stack), their code, and what they ask for *)
Inductive encoded_as (loc : kind -> Z -> Z) : Z -> list (Z * instruction) -> list code -> list ins -> Prop :=
| enc_nil at_ : encoded_as loc at_ [] [] []
| enc_cons at_ dp i l c cs d ds :
    encode i = Done c -> asked loc (at_ + zlen (fst c)) dp i = Some d -> trouble dp i = false -> near d = true ->
    encoded_as loc (at_ + zlen (fst c)) l cs ds -> encoded_as loc at_ ((dp, i) :: l) (c :: cs) (d :: ds).
