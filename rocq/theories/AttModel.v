(* The assembly text of the compiler (-S): src/backend/x86_64/assemble.c, with get_mnemonic of encoding.c.
   Instructions are those of EncModel.  Characters are integers; what is written to the file is a list of them. *)
From Coq Require Import String ZArith Bool List.
From Verif Require Import Bytes EncModel EscModel ArgsModel.
Import ListNotations.
Open Scope Z_scope.

Notation Done := EncModel.Done. Notation Failed := EncModel.Failed. Notation Unsupported := EncModel.Unsupported. Notation Overflow := EncModel.Overflow.
Notation res := EncModel.res.

(* encoding.c:130-292: the names of the table *)
Definition mnemonics : list string := [
  "add"; "add"; "and"; "and"; "and"; "call"; "call"; "cmp"; "cmp"; "cmp";
  "cdq"; "cqo"; "div"; "idiv"; "j"; "jmp"; "lea"; "leave"; "mov"; "mov";
  "mov"; "movq"; "mov"; "movs"; "movslq"; "movs"; "movzlq"; "movz"; "mul"; "not";
  "or"; "or"; "pop"; "push"; "push"; "push"; "ret"; "sar"; "sar"; "set";
  "shl"; "shl"; "shr"; "shr"; "sub"; "sub"; "test"; "test"; "xor"; "xor";
  "addss"; "addsd"; "andnps"; "andps"; "cvtps2dq"; "cvtdq2ps"; "cvtsi2ss"; "cvtsi2sd"; "cvtss2sd"; "cvtsd2ss";
  "cvttss2si"; "cvttsd2si"; "divss"; "divsd"; "mulss"; "mulsd"; "orps"; "subss"; "subsd"; "movaps";
  "movaps"; "movss"; "movss"; "movsd"; "movsd"; "movups"; "movups"; "ucomiss"; "ucomisd"; "pxor";
  "faddp"; "fdivrp"; "filds"; "fildl"; "fildq"; "fistps"; "fistpl"; "fistpq"; "flds"; "fldl";
  "fldt"; "fld"; "fldz"; "fldcw"; "fmulp"; "fnstcw"; "fstps"; "fstpl"; "fstpt"; "fstp";
  "fsubrp"; "fucomip"; "fxch"]%string.
Definition named : list (encoding * list Z) := combine encodings (map text mnemonics).

(* encoding.c:809-872 as in EncModel, with the name of the entry *)
Fixpoint find_named (k : key) (l : list (encoding * list Z)) : option (encoding * list Z) :=
  match l with
  | [] => None
  | e :: l' =>
      if match_instruction_encoding k (fst e) then Some e
      else if match l' with e' :: _ => opc (fst e') =? k_op k | [] => 0 =? k_op k end
      then find_named k l' else None
  end.
Definition find_entry (k : key) : res (encoding * list Z) :=
  do _ <- find_encoding k;
  match find_named k (skipn (Z.to_nat (k_op k)) named) with Some e => Done e | None => Unsupported end.

(* encoding.c:874-877 *)
Definition is_single_width (w : Z) : bool := (w =? 1) || (w =? 2) || (w =? 4) || (w =? 8) || (w =? 16).
(* encoding.c:1003-1004; nothing: a character 0, which ends the string *)
Definition suffix (w : Z) : list Z := if w =? 1 then text "b" else if w =? 2 then text "w" else if w =? 4 then text "l" else if w =? 8 then text "q" else [].
(* encoding.c:1006-1012 *)
Definition tttn_mnemonics : list (list Z) := map text [
  "o"; "no"; "nae"; "ae"; "e"; "ne"; "na"; "a"; "s"; "ns"; "p"; "np"; "nge"; "ge"; "ng"; "g"]%string.

(* encoding.c:995-1063 get_mnemonic.  Widths are not negative.  The buffer (assemble.c:270) has 11 characters. *)
Definition get_mnemonic (i : instruction) : res (list Z) :=
  do (e, n) <- find_entry (key_of i);
  do cc <- if opx e OPX_tttn then do _ <- check ((0 <=? n_cc i) && (n_cc i <? 16)); Done (nth (Z.to_nat (n_cc i)) tttn_mnemonics []) else Done [];
  let ws := src_width (n_args i) in
  let wd := dst_width (n_args i) in
  let one := if negb (is_single_width (w0 e)) && (ws <=? 8) then suffix ws else [] in
  let s :=
    match n_args i with
    | OpReg _ => []
    | NoOp w => if w =? 0 then [] else one
    | OpImm _ | OpMem _ => one
    | _ =>
      if negb (is_single_width (w0 e)) && (ws <=? 8) then
        suffix ws ++ (if isnt ws wd && negb (is_single_width (w1 e)) && (wd <=? 8) then suffix wd else [])
      else if negb (is_single_width (w1 e)) && (wd <=? 8) then suffix wd else []
    end in
  let l := n ++ cc ++ s in
  if zlen l <=? 10 then Done l else Overflow.

(* assemble.c:55-84 *)
Definition reg_name : list (list Z) := map text [
  "%al"; "%ax"; "%eax"; "%rax";
  "%cl"; "%cx"; "%ecx"; "%rcx";
  "%dl"; "%dx"; "%edx"; "%rdx";
  "%bl"; "%bx"; "%ebx"; "%rbx";
  "%spl"; "%sp"; "%esp"; "%rsp";
  "%bpl"; "%bp"; "%ebp"; "%rbp";
  "%sil"; "%si"; "%esi"; "%rsi";
  "%dil"; "%di"; "%edi"; "%rdi";
  "%r8b"; "%r8w"; "%r8d"; "%r8";
  "%r9b"; "%r9w"; "%r9d"; "%r9";
  "%r10b"; "%r10w"; "%r10d"; "%r10";
  "%r11b"; "%r11w"; "%r11d"; "%r11";
  "%r12b"; "%r12w"; "%r12d"; "%r12";
  "%r13b"; "%r13w"; "%r13d"; "%r13";
  "%r14b"; "%r14w"; "%r14d"; "%r14";
  "%r15b"; "%r15w"; "%r15d"; "%r15"]%string.
Definition xmm_name : list (list Z) := map text [
  "%xmm0"; "%xmm1"; "%xmm2"; "%xmm3"; "%xmm4"; "%xmm5"; "%xmm6"; "%xmm7";
  "%xmm8"; "%xmm9"; "%xmm10"; "%xmm11"; "%xmm12"; "%xmm13"; "%xmm14"; "%xmm15"]%string.
Definition x87_name : list (list Z) := map text [
  "%st(0)"; "%st(1)"; "%st(2)"; "%st(3)"; "%st(4)"; "%st(5)"; "%st(6)"; "%st(7)"]%string.

(* outside an array: Failed (the behaviour is undefined) *)
Definition pick (l : list (list Z)) (n : Z) : res (list Z) :=
  if n <? 0 then Failed else match nth_error l (Z.to_nat n) with Some s => Done s | None => Failed end.

(* compile.c:74-81 x87_stack_pos; depth is x87_stack *)
Definition x87_stack_pos (depth r : Z) : res Z :=
  do _ <- check ((ST0 <=? r) && (r <=? ST7) && (1 <? depth)); Done (depth - 1 - (r - ST0)).

(* assemble.c:86-107 regname *)
Definition regname (depth : Z) (r : registr) : res (list Z) :=
  if r_reg r =? IP then do _ <- check (r_width r =? 8); Done (text "%rip")
  else if r_reg r <? XMM0 then
    let j := r_width r - 1 in
    let j := if j =? 3 then 2 else j in
    let j := if j =? 7 then 3 else j in
    do _ <- check ((0 <=? j) && (j <? 4));
    pick reg_name (4 * (r_reg r - 1) + j)
  else if r_reg r <? ST0 then pick xmm_name (r_reg r - XMM0)
  else do i <- x87_stack_pos depth (r_reg r); pick x87_name i.

(* C library: printf of an int or long with %d or %ld *)
Fixpoint digits (fuel : nat) (z : Z) : list Z :=
  match fuel with
  | O => []
  | S n => if z <? 10 then [48 + z] else digits n (z / 10) ++ [48 + z mod 10]
  end.
(* as many digits as a long can have *)
Definition decimal (z : Z) : list Z := if z <? 0 then text "-" ++ digits 19 (- z) else digits 19 z.

Section Text.
(* sym_name (symtab.c:203-231), and the value of x87_stack *)
Variables (name : Z -> list Z) (depth : Z).

(* assemble.c:109-152 asm_address.  More than 255 characters do not fit in the buffer: Overflow *)
Definition asm_address (a : address) : res (list Z) :=
  do s <- match a_sym a with
          | Some y =>
            do t <- match a_type a with
                    | ADDR_GLOBAL_OFFSET => do _ <- check (a_disp a =? 0); Done (text "@GOTPCREL")
                    | ADDR_PLT => do _ <- check (a_disp a =? 0); Done (text "@PLT")
                    | ADDR_NORMAL => Done (if a_disp a =? 0 then [] else (if 0 <? a_disp a then text "+" else []) ++ decimal (a_disp a))
                    end;
            Done (name y ++ t)
          | None => Done (if a_disp a =? 0 then [] else decimal (a_disp a))
          end;
  do r <- if negb (a_base a =? 0) then
            do b <- regname depth (Reg 8 (a_base a));
            do x <- if negb (a_index a =? 0) then do x <- regname depth (Reg 8 (a_index a)); Done (text "," ++ x ++ text "," ++ decimal (a_scale a))
                    else do _ <- check (a_scale a =? 0); Done [];
            Done (text "(" ++ b ++ x ++ text ")")
          else if negb (a_index a =? 0) then
            do x <- regname depth (Reg 8 (a_index a)); Done (text "(," ++ x ++ text "," ++ decimal (a_scale a) ++ text ")")
          else do _ <- check (a_scale a =? 0); Done [];
  if zlen (s ++ r) <=? 255 then Done (s ++ r) else Overflow.

(* assemble.c:154-176 immediate; the members of the union, char, short and int, are the low bytes of the long *)
Definition signed_part (n : nat) (q : Z) : Z := let m := 2 ^ (8 * Z.of_nat n) in let r := q mod m in if r <? m / 2 then r else r - m.
Definition asm_immediate (i : immediate) : res (list Z) :=
  match i_val i with
  | IInt q =>
    Done (text "$" ++ decimal (if i_width i <? 8 then if i_width i =? 1 then signed_part 1 q else if i_width i =? 2 then signed_part 2 q else signed_part 4 q
                               else signed_part 8 q))
  | IAddr a => do _ <- check (match a_sym a with Some _ => true | None => false end); asm_address a
  end.

(* assemble.c:268-321 asm_text *)
Definition asm_text (i : instruction) : res (list Z) :=
  let prefix := if n_prefix i =? 243 then text "rep " else if n_prefix i =? 242 then text "repne " else [] in
  do m <- get_mnemonic i;
  let tab x := do t <- x; Done (9 :: t) in
  let comma x := do t <- x; Done (text ", " ++ t) in
  do s <- match n_args i with
          | NoOp _ => Done []
          | OpReg r => if n_op i =? INSTR_CALL then tab (do t <- regname depth r; Done (text "*" ++ t)) else tab (regname depth r)
          | RegReg r _ | RegMem r _ => tab (regname depth r)
          | OpImm m | ImmReg m _ | ImmMem m _ => tab (asm_immediate m)
          | OpMem m | MemReg m _ => tab (asm_address (m_addr m))
          end;
  do d <- match n_args i with
          | RegReg _ r | MemReg _ r | ImmReg _ r => comma (regname depth r)
          | RegMem _ m | ImmMem _ m => comma (asm_address (m_addr m))
          | _ => Done []
          end;
  Done ([9] ++ prefix ++ m ++ s ++ d ++ [10]).

(* assemble.c:323-371 asm_data; the string has the value and the width with or without the final 0 *)
Inductive data := DInt (w : Z) (q : Z) | DAddr (a : address) | DString (w : Z) (s : list Z).
Definition directive (d : list Z) (x : list Z) : list Z := [9] ++ d ++ [9] ++ x ++ [10].
Definition asm_data (d : data) : res (list Z) :=
  match d with
  | DInt w q =>
    if w =? 1 then Done (directive (text ".byte") (decimal (signed_part 1 q)))
    else if w =? 2 then Done (directive (text ".short") (decimal (signed_part 2 q)))
    else if w =? 4 then Done (directive (text ".int") (decimal (signed_part 4 q)))
    else if w =? 8 then Done (directive (text ".quad") (decimal (signed_part 8 q)))
    else do _ <- check ((0 <? w) && (w <? 8));
      Done (concat (map (fun i => directive (text ".byte") (decimal (signed_part 1 (Z.shiftr q (8 * Z.of_nat i))))) (seq 0 (Z.to_nat w))))
  | DAddr a =>
    match a_sym a with
    | Some y => Done (directive (text ".quad") (name y ++ if a_disp a =? 0 then [] else (if a_disp a <? 0 then [] else text "+") ++ decimal (a_disp a)))
    | None => Failed
    end
  | DString w s =>
    if w =? zlen s then Done (directive (text ".ascii") (fprintstr s))
    else do _ <- check (w =? zlen s + 1); Done (directive (text ".string") (fprintstr s))
  end.
End Text.
