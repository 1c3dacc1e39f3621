(* Code for integer arithmetic.  src/backend/x86_64/compile.c:99-109, 253-419, 539-629, 649-750, 1140-1176, 1205-1334, 2352-2767,
   2824-2976.  An assignment  t = l op r  of the intermediate representation (include/lacc/ir.h) becomes a list of
   instructions, which a machine of 64 bit registers and byte memory runs.  Modelled: operands of integer and pointer type.
   Not modelled: floating point, structs and unions, calls, va_arg; comparisons are in CmpModel.v. *)
From Coq Require Import List ZArith Bool.
From Verif Require Import TypeModel EvalModel FieldModel.
Import ListNotations.
Open Scope Z_scope.

(* --- operands --- *)
(* symbol.h: the part of struct symbol used here; s_stack is stack_offset *)
Inductive linkage := LINK_EXTERN | LINK_INTERN | LINK_NONE.
Record symbol := mkSym { s_linkage : linkage; s_temporary : bool; s_slot : nat; s_stack : Z; s_type : Type_ }.
(* ir.h:18-48 struct var; v_sym and v_imm are the two members of the union, v_imm is value.imm.i *)
Inductive vkind := DIRECT | ADDRESS | DEREF | IMMEDIATE.
Record var := mkVar { v_kind : vkind; v_width : Z; v_foff : Z; v_is_symbol : bool; v_type : Type_; v_offset : Z; v_sym : nat; v_imm : Z }.
Definition vkind_eqb (a b : vkind) : bool :=
  match a, b with DIRECT, DIRECT | ADDRESS, ADDRESS | DEREF, DEREF | IMMEDIATE, IMMEDIATE => true | _, _ => false end.
(* ir.h:83 *)
Definition is_field (v : var) : bool := negb (v_width v =? 0).
Definition with_type (v : var) (t : Type_) : var := mkVar (v_kind v) (v_width v) (v_foff v) (v_is_symbol v) t (v_offset v) (v_sym v) (v_imm v).

(* --- instructions --- *)
(* encoding.h enum reg; Tmp i is temp_int_reg[i] of compile.c:50, that is rbx, r12, r13, r14 and r15 *)
Inductive reg := AX | CX | DX | R11 | Tmp (i : nat).
Definition reg_eqb (a b : reg) : bool :=
  match a, b with AX, AX | CX, CX | DX, DX | R11, R11 => true | Tmp i, Tmp j => Nat.eqb i j | _, _ => false end.
(* struct address: d(%rbp), sym+d(%rip), d(r), sym@GOTPCREL(%rip) *)
Inductive maddr := ABp (d : Z) | AIp (s : nat) (d : Z) | AReg (r : reg) (d : Z) | AGot (s : nat).
Inductive src := SReg (r : reg) | SImm (z : Z) | SMem (a : maddr).
Inductive alu := MOV | ADD | SUB | AND | OR | XOR.
Inductive shift_op := SHL | SHR | SAR.
(* w: bytes of the operands, 1, 2, 4 or 8.  The last operand is the destination. *)
Inductive instr :=
| Op (o : alu) (w : Z) (s : src) (d : reg)
| OpM (o : alu) (w : Z) (s : src) (d : maddr)
| Movzx (w wd : Z) (s : src) (d : reg)
| Movsx (w wd : Z) (s : src) (d : reg)
| Lea (a : maddr) (d : reg)
| Not (w : Z) (d : reg)
| Shift (o : shift_op) (w : Z) (s : src) (d : reg)
| MulI (w : Z) (s : src) | DivI (w : Z) (s : src) | IdivI (w : Z) (s : src)
| Cxy (w : Z).

(* --- the machine --- *)
Record mach := mkM { regs : reg -> Z; mem : Z -> Z }.
Fixpoint rdn (m : Z -> Z) (a : Z) (n : nat) : Z := match n with 0%nat => 0 | S n => m a mod 256 + 256 * rdn m (a + 1) n end.
Definition rd (m : Z -> Z) (a w : Z) : Z := rdn m a (Z.to_nat w).
Definition wr (m : Z -> Z) (a w v : Z) : Z -> Z := fun x => if (a <=? x) && (x <? a + w) then (v / 256 ^ (x - a)) mod 256 else m x.
Definition bits (w : Z) : Z := 8 * w.
(* a register of which w bytes are written: 4 bytes clear the upper half, fewer keep the rest *)
Definition merge (w old v : Z) : Z := if w =? 8 then v mod 2 ^ 64 else if w =? 4 then v mod 2 ^ 32 else store_bits (bits w) v (old mod 2 ^ 64).
Definition setr (st : mach) (r : reg) (v : Z) : mach := mkM (fun x => if reg_eqb r x then v else regs st x) (mem st).
Definition setw (st : mach) (w : Z) (r : reg) (v : Z) : mach := setr st r (merge w (regs st r) v).
Definition is_int32 (z : Z) : bool := (- 2 ^ 31 <=? z) && (z <=? 2 ^ 31 - 1).

Section Machine.
Variables (rbp : Z) (glob : nat -> Z).  (* the frame, and where the linker put the symbols *)
(* The address of d(r) is computed modulo 2^64. *)
Definition eff (st : mach) (a : maddr) : option Z :=
  match a with
  | ABp d => Some (rbp + d) | AIp s d => Some (glob s + d) | AReg r d => Some ((regs st r + d) mod 2 ^ 64) | AGot _ => None
  end.
(* The global offset table holds the address of the symbol. *)
Definition mread (st : mach) (a : maddr) (w : Z) : option Z :=
  match a with
  | AGot s => if w =? 8 then Some (glob s mod 2 ^ 64) else None
  | _ => match eff st a with Some x => Some (rd (mem st) x w) | None => None end
  end.
Definition sread (st : mach) (s : src) (w : Z) : option Z :=
  match s with
  | SReg r => Some (regs st r mod 2 ^ bits w)
  | SImm z => Some (z mod 2 ^ bits w)
  | SMem a => mread st a w
  end.
Definition alu_val (o : alu) (w d s : Z) : Z :=
  (match o with MOV => s | ADD => d + s | SUB => d - s | AND => Z.land d s | OR => Z.lor d s | XOR => Z.lxor d s end) mod 2 ^ bits w.
(* Only  mov  to a register has an 8 byte immediate; in other instructions it is 4 bytes, sign extended. *)
Definition imm_ok (o : alu) (w : Z) (s : src) (to_mem : bool) : bool :=
  match s with SImm z => (w <? 8) || is_int32 z || (match o with MOV => negb to_mem | _ => false end) | _ => true end.
Definition shift_val (o : shift_op) (w x c : Z) : Z :=
  match o with SHL => shl (bits w) x c | SHR => shr (bits w) x c | SAR => sar (bits w) x c end.
(* None: the instruction does not exist, or it faults *)
Definition step (st : mach) (i : instr) : option mach :=
  match i with
  | Op o w s d =>
    if imm_ok o w s false then
      match sread st s w with Some v => Some (setw st w d (alu_val o w (regs st d mod 2 ^ bits w) v)) | None => None end
    else None
  | OpM o w s a =>
    match s with
    | SMem _ => None
    | _ =>
      if imm_ok o w s true then
        match sread st s w, eff st a with
        | Some v, Some x => Some (mkM (regs st) (wr (mem st) x w (alu_val o w (rd (mem st) x w) v)))
        | _, _ => None
        end
      else None
    end
  | Movzx w wd s d => match sread st s w with Some v => Some (setw st wd d v) | None => None end
  | Movsx w wd s d => match sread st s w with Some v => Some (setw st wd d (to_signed (bits w) v)) | None => None end
  | Lea a d => match eff st a with Some x => Some (setr st d (x mod 2 ^ 64)) | None => None end
  | Not w d => Some (setw st w d (Z.lnot (regs st d)))
  | Shift o w s d =>
    match s with
    | SImm c => Some (setw st w d (shift_val o w (regs st d mod 2 ^ bits w) c))
    | SReg CX => Some (setw st w d (shift_val o w (regs st d mod 2 ^ bits w) (regs st CX mod 256)))
    | _ => None
    end
  | MulI w s =>
    match sread st s w with
    | Some v => let p := (regs st AX mod 2 ^ bits w) * v in Some (setw (setw st w AX p) w DX (p / 2 ^ bits w))
    | None => None
    end
  | DivI w s =>
    match sread st s w with
    | Some v =>
      let n := (regs st DX mod 2 ^ bits w) * 2 ^ bits w + regs st AX mod 2 ^ bits w in
      if v =? 0 then None else
      let q := n / v in
      if q <? 2 ^ bits w then Some (setw (setw st w AX q) w DX (n mod v)) else None
    | None => None
    end
  | IdivI w s =>
    match sread st s w with
    | Some v =>
      let n := to_signed (2 * bits w) ((regs st DX mod 2 ^ bits w) * 2 ^ bits w + regs st AX mod 2 ^ bits w) in
      let v := to_signed (bits w) v in
      if v =? 0 then None else
      let q := Z.quot n v in
      if (- 2 ^ (bits w - 1) <=? q) && (q <? 2 ^ (bits w - 1)) then Some (setw (setw st w AX q) w DX (Z.rem n v)) else None
    | None => None
    end
  | Cxy w => Some (setw st w DX (if to_signed (bits w) (regs st AX) <? 0 then -1 else 0))
  end.
Fixpoint exec (l : list instr) (st : mach) : option mach :=
  match l with [] => Some st | i :: l => match step st i with Some st => exec l st | None => None end end.
End Machine.

(* --- the compiler --- *)
(* None: a failed assertion, an error, or undefined behaviour of the compiler *)
Notation "'do' x <- e ; f" := (match e with Some x => f | None => None end) (at level 200, x pattern, e at level 100, f at level 200).
Definition assert (b : bool) : option unit := if b then Some tt else None.
Definition code := list instr.
Definition std (w : Z) : bool := (w =? 1) || (w =? 2) || (w =? 4) || (w =? 8).   (* is_standard_register_width *)

Section Compiler.
Variables (sym : nat -> symbol) (pic : bool).

(* compile.c:262-269 displacement_from_offset *)
Definition displacement (off : Z) : option Z := if off <=? 2 ^ 31 - 1 then Some off else None.
(* compile.c:271-274 *)
Definition is_global_offset (s : nat) : bool := pic && match s_linkage (sym s) with LINK_EXTERN => true | _ => false end.
(* compile.c:276-281 *)
Definition is_register_allocated (v : var) : bool :=
  vkind_eqb (v_kind v) DIRECT && s_temporary (sym (v_sym v)) && negb (Nat.eqb (s_slot (sym (v_sym v))) 0).
(* compile.c:283-295 allocated_register, for symbols that are not floating point numbers *)
Definition allocated_register (v : var) : option reg := if is_register_allocated v then Some (Tmp (s_slot (sym (v_sym v)) - 1)) else None.
(* compile.c:297-310 value_of; the width is that of the instruction *)
Definition value_of (v : var) : option Z := do _ <- assert (vkind_eqb (v_kind v) IMMEDIATE && (v_offset v =? 0)); Some (v_imm v).
(* compile.c:320-341 address_of *)
Definition address_of (v : var) : option maddr :=
  do _ <- assert (vkind_eqb (v_kind v) DIRECT || vkind_eqb (v_kind v) ADDRESS);
  do d <- displacement (v_offset v);
  Some (match s_linkage (sym (v_sym v)) with LINK_NONE => ABp (d + s_stack (sym (v_sym v))) | _ => AIp (v_sym v) d end).
(* compile.c:343-347 location_of *)
Definition location_of (v : var) : option maddr := do _ <- assert (negb (is_register_allocated v)); address_of v.
(* compile.c:404-411 is_int_constant *)
Definition is_int_constant (v : var) : bool :=
  vkind_eqb (v_kind v) IMMEDIATE && (is_integer (v_type v) || is_pointer (v_type v)) && negb (v_is_symbol v) &&
  ((size_of (v_type v) <? 4) || is_int32 (v_imm v)).
(* compile.c:513-531 is_zero *)
Definition is_zero (v : var) : bool :=
  match type_of (v_type v) with T_CHAR | T_SHORT | T_INT | T_LONG => v_imm v =? 0 | _ => false end.
(* eval.c:105-127 var_direct; not for symbols of constants *)
Definition var_direct (s : nat) : var := mkVar DIRECT 0 0 true (s_type (sym s)) 0 s 0.

Inductive lop := LMov | LMovzx | LMovsx | LLea.
Definition ld (o : lop) (w wd : Z) (s : src) (d : reg) : instr :=
  match o with LMov => Op MOV wd s d | LMovzx => Movzx w wd s d | LMovsx => Movsx w wd s d
  | LLea => match s with SMem a => Lea a d | _ => Op MOV wd s d end end.
(* compile.c:539-629 emit_load, not to an XMM register.  A pointer that is a constant (is_symbol is 0) is taken for a symbol
   (597): undefined. *)
Definition emit_load (o : lop) (v : var) (d : reg) (wd : Z) : option code :=
  let w := match o with LMov => wd | _ => size_of (v_type v) end in
  do _ <- assert (std w);
  match v_kind v with
  | IMMEDIATE =>
    if is_zero v then Some [Op XOR wd (SReg d) (d)]
    else match o with LMov => do i <- value_of v; Some [Op MOV wd (SImm i) d] | _ => None end
  | DIRECT =>
    match allocated_register v with
    | Some r => Some [ld o w wd (SReg r) d]
    | None =>
      if is_global_offset (v_sym v) then
        do x <- displacement (v_offset v);
        Some [Op MOV 8 (SMem (AGot (v_sym v))) d; ld o w wd (SMem (AReg d x)) d]
      else do a <- location_of v; Some [ld o w wd (SMem a) d]
    end
  | DEREF =>
    do _ <- assert (v_is_symbol v);
    let ptr := var_direct (v_sym v) in
    do _ <- assert (is_pointer (v_type ptr));
    do x <- displacement (v_offset v);
    match allocated_register ptr with
    | Some r => Some [ld o w wd (SMem (AReg r x)) d]
    | None =>
      if is_global_offset (v_sym v) then
        Some [Op MOV 8 (SMem (AGot (v_sym v))) d; Op MOV 8 (SMem (AReg d 0)) d; ld o w wd (SMem (AReg d x)) d]
      else do a <- location_of ptr; Some [Op MOV 8 (SMem a) R11; ld o w wd (SMem (AReg R11 x)) d]
    end
  | ADDRESS =>
    do _ <- assert (match o with LLea => wd =? 8 | _ => false end);
    if is_global_offset (v_sym v) then
      do x <- displacement (v_offset v);
      Some (Op MOV 8 (SMem (AGot (v_sym v))) d :: if x =? 0 then [] else [Lea (AReg d x) d])
    else do a <- location_of v; Some [ld o w wd (SMem a) d]
  end.

(* compile.c:649-680 load_field *)
Definition load_field (v : var) (r : reg) (w : Z) : option code :=
  do _ <- assert (is_field v && (0 <? v_width v) && (v_width v <? 64) && (v_foff v + v_width v <=? 64));
  let n := if size_of (v_type v) <=? 4 then 4 else 8 in
  do c <- emit_load LMov v r n;
  let b := bits n - (v_foff v + v_width v) in
  let c1 := if 0 <? b then [Shift SHL n (SImm b) r] else [] in
  let b := v_foff v + b in
  let c2 := if 0 <? b then [Shift (if is_signed (v_type v) then SAR else SHR) n (SImm b) r] else [] in
  let c3 := if is_signed (v_type v) && (n <? w) then [Movsx 4 8 (SReg r) r] else [] in
  Some (c ++ c1 ++ c2 ++ c3).

(* compile.c:686-727 load_int *)
Definition load_int (v : var) (r : reg) (w : Z) : option code :=
  do _ <- assert ((w =? 4) || (w =? 8));
  if is_field v then load_field v r w else
  match v_kind v with
  | ADDRESS => do _ <- assert ((w =? 8) && (size_of (v_type v) =? w)); emit_load LLea v r w
  | IMMEDIATE => emit_load LMov v r w
  | _ =>
    let s := size_of (v_type v) in
    if s <? w then
      if is_unsigned (v_type v) then
        if s <? 4 then emit_load LMovzx v r w
        else if (s =? 4) && (w =? 8) then emit_load LMov v r 4 else None
      else if is_signed (v_type v) then emit_load LMovsx v r w else None
    else if w <? s then do _ <- assert (s =? 8); emit_load LMov (with_type v basic_type__int) r w
    else emit_load LMov v r w
  end.
(* compile.c:733-750 load *)
Definition load (v : var) (r : reg) : option code := load_int v r (Z.max 4 (size_of (v_type v))).

(* compile.c:99-103 get_int_reg, n registers being in use; they are released after each statement (3061) *)
Definition get_int_reg (n : nat) : option reg := match n with 0%nat => Some AX | 1%nat => Some CX | _ => None end.
(* compile.c:1140-1176 load_cast, between integer types *)
Definition load_cast (n : nat) (v : var) (t : Type_) : option (reg * code) :=
  let t := if size_of t <? 4 then (if is_integer t then basic_type__int else basic_type__unsigned_int) else t in
  do _ <- assert ((size_of t =? 4) || (size_of t =? 8));
  do r <- get_int_reg n;
  do c <- load_int v r (size_of t);
  Some (r, c).

(* compile.c:1205-1218 bitwise_imm_reg; i is a long *)
Definition bitwise_imm_reg (o : alu) (i w : Z) (r : reg) : option code :=
  do _ <- assert (negb (reg_eqb r R11));
  Some (if (w =? 8) && negb (is_int32 i) then [Op MOV 8 (SImm i) R11; Op o 8 (SReg R11) r] else [Op o w (SImm i) r]).

Inductive operand := OImm (z : Z) | OReg (r : reg).
Definition as_src (o : operand) : src := match o with OImm z => SImm z | OReg r => SReg r end.
(* compile.c:1226-1327 store_op.  Shifts of a long are taken modulo 2^64. *)
Definition store_op (o : operand) (t : var) : option code :=
  let w := size_of (v_type t) in
  do x <-
    (if is_field t then
       do _ <- assert ((0 <? v_width t) && (v_width t <? 64));
       do c <- load (mkVar (v_kind t) 0 0 (v_is_symbol t) (v_type t) (v_offset t) (v_sym t) (v_imm t)) CX;
       let mask := sext 64 (field_mask (v_width t) (v_foff t)) in
       do c1 <- bitwise_imm_reg AND (Z.lnot mask) w CX;
       match o with
       | OImm z =>
         let m := Z.land (sext 64 (Z.shiftl z (v_foff t))) mask in
         do c2 <- (if m =? 0 then Some [] else bitwise_imm_reg OR m w CX);
         Some (OReg CX, c ++ c1 ++ c2)
       | OReg r =>
         do c2 <- bitwise_imm_reg AND mask w r;
         Some (OReg r, c ++ c1 ++ (if v_foff t =? 0 then [] else [Shift SHL w (SImm (v_foff t)) r]) ++ c2 ++ [Op OR w (SReg CX) r])
       end
     else Some (o, []));
  let (o, c) := x in
  match v_kind t with
  | DIRECT =>
    match allocated_register t with
    | Some r => Some (c ++ [Op MOV w (as_src o) r])
    | None =>
      if is_global_offset (v_sym t) then
        do d <- displacement (v_offset t);
        Some (c ++ [Op MOV 8 (SMem (AGot (v_sym t))) R11; OpM MOV w (as_src o) (AReg R11 d)])
      else do a <- location_of t; Some (c ++ [OpM MOV w (as_src o) a])
    end
  | DEREF =>
    do p <-
      (if v_is_symbol t then
         do _ <- assert (is_pointer (s_type (sym (v_sym t)))); load_int (var_direct (v_sym t)) R11 8
       else load_int (mkVar IMMEDIATE (v_width t) (v_foff t) false (v_type t) (v_offset t) (v_sym t) (v_imm t)) R11 8);
    do d <- displacement (v_offset t);
    Some (c ++ p ++ [OpM MOV w (as_src o) (AReg R11 d)])
  | _ => None
  end.
(* compile.c:1329-1334 store, and the test of a target that is void, None here *)
Definition store (r : reg) (t : var) : option code := store_op (OReg r) t.
Definition store_opt (r : reg) (t : option var) : option code := match t with Some t => store r t | None => Some [] end.

(* compile.c:2352-2361 operand_equal *)
Definition operand_equal (a b : var) : bool :=
  v_is_symbol a && v_is_symbol b && Nat.eqb (v_sym a) (v_sym b) && vkind_eqb (v_kind a) (v_kind b) &&
  (v_width a =? v_width b) && (v_foff a =? v_foff b) && (v_offset a =? v_offset b).
Definition direct (v : var) : bool := vkind_eqb (v_kind v) DIRECT.

(* compile.c:2388-2417: the target is also the operand r, and the operand l is added to it *)
Definition add_to (t : var) (ty : Type_) (l r : var) : option (reg * code) :=
  let w := size_of ty in
  if is_int_constant l then
    match allocated_register r with
    | Some cx => Some (cx, [Op ADD w (SReg AX) cx])
    | None => do i <- value_of l; do a <- location_of t; Some (AX, [OpM ADD w (SImm i) a])
    end
  else
    do (ax, c) <- load_cast 0 l ty;
    match allocated_register r with
    | Some cx => Some (cx, c ++ [Op ADD w (SReg ax) cx])
    | None => do a <- location_of t; Some (ax, c ++ [OpM ADD w (SReg ax) a])
    end.
(* compile.c:2419-2458 *)
Definition add_general (ty : Type_) (l r : var) : option (reg * code) :=
  let w := size_of ty in
  if is_int_constant l then
    do (ax, c) <- load_cast 0 r ty; do i <- value_of l; Some (ax, c ++ [Op ADD w (SImm i) ax])
  else if is_int_constant r then
    do (ax, c) <- load_cast 0 l ty; do i <- value_of r; Some (ax, c ++ [Op ADD w (SImm i) ax])
  else if direct l && negb (is_global_offset (v_sym l)) && negb (is_field l) then
    do (ax, c) <- load_cast 0 r ty;
    match allocated_register l with
    | Some cx => Some (ax, c ++ [Op ADD w (SReg cx) ax])
    | None => do a <- location_of l; Some (ax, c ++ [Op ADD w (SMem a) ax])
    end
  else if direct r && negb (is_global_offset (v_sym r)) && negb (is_field r) then
    do (ax, c) <- load_cast 0 l ty;
    match allocated_register r with
    | Some cx => Some (ax, c ++ [Op ADD w (SReg cx) ax])
    | None => do a <- location_of r; Some (ax, c ++ [Op ADD w (SMem a) ax])
    end
  else
    do (ax, c) <- load_cast 0 l ty; do (cx, c') <- load_cast 1 r ty; Some (ax, c ++ c' ++ [Op ADD w (SReg cx) ax]).
(* compile.c:2363-2468 compile_add *)
Definition compile_add (t : option var) (ty : Type_) (l r : var) : option (reg * code) :=
  let general := do (ax, c) <- add_general ty l r; do s <- store_opt ax t; Some (ax, c ++ s) in
  match t with
  | Some t =>
    if direct t && negb (is_global_offset (v_sym t)) && negb (is_field t) then
      if operand_equal t r then add_to t ty l r else if operand_equal t l then add_to t ty r l else general
    else general
  | None => general
  end.
(* compile.c:2470-2501 compile_sub *)
Definition compile_sub (t : option var) (ty : Type_) (l r : var) : option (reg * code) :=
  do (ax, c) <- load_cast 0 l ty; do (cx, c') <- load_cast 1 r ty; do s <- store_opt ax t;
  Some (ax, c ++ c' ++ [Op SUB (size_of ty) (SReg cx) ax] ++ s).
(* compile.c:2503-2516 compile_not *)
Definition compile_not (t : option var) (l : var) : option (reg * code) :=
  do c <- load l AX; do s <- store_opt AX t; Some (AX, c ++ [Not (size_of (v_type l)) AX] ++ s).
(* compile.c:2580-2595 compile_mul *)
Definition compile_mul (t : option var) (ty : Type_) (l r : var) : option (reg * code) :=
  let w := size_of ty in
  do (ax, c) <- load_cast 0 r (v_type r);
  do c' <-
    (if direct l && negb (is_register_allocated l) && negb (is_global_offset (v_sym l))
     then do a <- location_of l; Some [MulI w (SMem a)]
     else do (cx, c') <- load_cast 1 l (v_type l); Some (c' ++ [MulI w (SReg cx)]));
  do s <- store_opt ax t; Some (ax, c ++ c' ++ s).
(* compile.c:2626-2647, 2667-2689: the division of compile_div and compile_mod *)
Definition divide (ty : Type_) (l r : var) : option code :=
  do (ax, c) <- load_cast 0 l (v_type l);
  do x <-
    (if is_signed (v_type l)
     then do _ <- assert ((size_of (v_type l) =? 8) || (size_of (v_type l) =? 4)); Some [Cxy (size_of (v_type l))]
     else Some [Op XOR 8 (SReg DX) DX]);
  let opc := if is_signed ty then IdivI else DivI in
  do c' <-
    (if direct r && negb (is_global_offset (v_sym r)) && negb (is_register_allocated r) && negb (is_field r)
     then do a <- location_of r; Some [opc (size_of (v_type r)) (SMem a)]
     else do (cx, c') <- load_cast 1 r (v_type r); Some (c' ++ [opc (size_of (v_type r)) (SReg cx)]));
  Some (c ++ x ++ c').
(* compile.c:2600-2654 compile_div, 2657-2695 compile_mod *)
Definition compile_div (t : option var) (ty : Type_) (l r : var) : option (reg * code) :=
  do c <- divide ty l r; do s <- store_opt AX t; Some (AX, c ++ s).
Definition compile_mod (t : option var) (ty : Type_) (l r : var) : option (reg * code) :=
  do c <- divide ty l r; do s <- store_opt DX t; Some (DX, c ++ s).
(* compile.c:2697-2726 compile_bitwise *)
Definition compile_bitwise (t : option var) (o : alu) (l r : var) : option (reg * code) :=
  let w := size_of (v_type l) in
  do _ <- assert (size_of (v_type r) =? w);
  do c <-
    (if vkind_eqb (v_kind r) IMMEDIATE && (w <? 8) then
       do c <- load l AX; do i <- value_of r; Some (c ++ [Op o w (SImm i) AX])
     else if vkind_eqb (v_kind l) IMMEDIATE && (w <? 8) then
       do c <- load r AX; do i <- value_of l; Some (c ++ [Op o w (SImm i) AX])
     else do c <- load l AX; do c' <- load r CX; Some (c ++ c' ++ [Op o w (SReg CX) AX]));
  do s <- store_opt AX t; Some (AX, c ++ s).
(* compile.c:2734-2767 compile_shl, compile_shr *)
Definition compile_shift (t : option var) (o : shift_op) (l r : var) : option (reg * code) :=
  do c <- load l AX; do c' <- load r CX; do s <- store_opt AX t;
  Some (AX, c ++ c' ++ [Shift o (size_of (v_type l)) (SReg CX) AX] ++ s).
(* compile.c:2875-2898 compile_cast, to an integer or pointer type *)
Definition compile_cast (t : option var) (ty : Type_) (l : var) : option (reg * code) :=
  match t with
  | Some t =>
    let t := with_type t ty in
    let general := do (ax, c) <- load_cast 0 l ty; do s <- store ax t; Some (ax, c ++ s) in
    if type_equal (v_type l) ty then
      if is_int_constant l then do i <- value_of l; do s <- store_op (OImm i) t; Some (AX, s)
      else match allocated_register l with
           | Some r => do s <- store_op (OReg r) t; Some (r, s)
           | None => general
           end
    else general
  | None => load_cast 0 l ty
  end.

(* ir.h:97-122 struct expression *)
Inductive expr := ECast (ty : Type_) (l : var) | ENot (ty : Type_) (l : var) | EBin (o : binop) (ty : Type_) (l r : var).
(* compile.c:2910-2976 compile_assign: the register holding the value, and the code *)
Definition compile_assign (t : option var) (e : expr) : option (reg * code) :=
  match e with
  | ECast ty l => compile_cast t ty l
  | ENot _ l => compile_not t l
  | EBin o ty l r =>
    match o with
    | Add => compile_add t ty l r
    | Sub => compile_sub t ty l r
    | Mul => compile_mul t ty l r
    | Div => compile_div t ty l r
    | Mod => compile_mod t ty l r
    | And => compile_bitwise t AND l r
    | Or => compile_bitwise t OR l r
    | Xor => compile_bitwise t XOR l r
    | Shl => compile_shift t SHL l r
    | Shr => compile_shift t (if is_unsigned (v_type l) then SHR else SAR) l r
    | Eq | Ne | Ge | Gt => None   (* CmpModel.v *)
    end
  end.
End Compiler.
