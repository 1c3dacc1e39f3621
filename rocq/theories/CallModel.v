(* Function calls: passing arguments, entering and leaving functions.  src/backend/x86_64/compile.c:48-57, 455-513,
   844-889, 1335-1554, 1665-1873, 2133-2216, 3180-3190, 3356-3364.
   The code that is emitted is a list of op, the machine that runs it has registers and memory of bytes.  Addresses are
   integers that do not wrap around.  Operands of arguments are numbered, and a function obj gives the bytes of each
   operand (they are in the frame of the caller, in memory or in registers that passing arguments does not write; bytes past
   the end of the operand are whatever is there).  Not modelled: operands that are bit-fields, inline assembly. *)
From Coq Require Import List ZArith Bool.
From Verif Require Import Util Bytes TypeModel LayoutModel AbiModel.
Import ListNotations.
Open Scope Z_scope.

(* encoding.h enum reg; SP and BP are m_rsp and m_rbp of the machine *)
Inductive reg := AX | CX | DX | BX | SI | DI | R8 | R9 | R10 | R11 | R12 | R13 | R14 | R15 | XMM (n : nat).
(* compile.c:50-57 *)
Definition temp_int_reg := [BX; R12; R13; R14; R15].
Definition temp_sse_reg := [XMM 8; XMM 9; XMM 10; XMM 11; XMM 12; XMM 13; XMM 14; XMM 15].
Definition param_int_reg := [DI; SI; DX; CX; R8; R9].
Definition param_sse_reg := [XMM 0; XMM 1; XMM 2; XMM 3; XMM 4; XMM 5; XMM 6; XMM 7].
Definition ret_int_reg := [AX; DX].
Definition ret_sse_reg := [XMM 0; XMM 1].

Inductive op :=
| Sub (k : Z) | Add (k : Z)              (* %rsp *)
| PushArg (i : nat) (o w : Z)            (* push w bytes at offset o of operand i, extended to 8, through %rax or %rsi *)
| CopyArg (i : nat) (n : Z)              (* rep movsq, n eightbytes of operand i to 0(%rsp) *)
| Load (r : reg) (i : nat) (o w : Z)     (* w bytes at offset o of operand i to r *)
| Eax (n : Z)                            (* mov $n, %eax *)
| PushBp | MovBp                         (* push %rbp; mov %rsp, %rbp *)
| Push (r : reg) | Pop (r : reg)
| Store (r : reg) (o w : Z)              (* the low w bytes of r to o(%rbp) *)
| SaveSse (l : list (reg * Z))           (* test %al, %al; je; movaps r, o(%rbp) for each *)
| StoreSp (r : reg) | LoadSp (r : reg)   (* movsd r, 0(%rsp); movsd 0(%rsp), r *)
| LeaSp (o : Z) | Leave | Ret.

(* --- the machine --- *)
Definition reg_eqb (a b : reg) : bool :=
  match a, b with
  | AX, AX | CX, CX | DX, DX | BX, BX | SI, SI | DI, DI | R8, R8 | R9, R9 | R10, R10 | R11, R11 | R12, R12 | R13, R13
  | R14, R14 | R15, R15 => true
  | XMM n, XMM m => Nat.eqb n m
  | _, _ => false
  end.
Record mach := mkMach { m_rsp : Z; m_rbp : Z; m_reg : reg -> list Z; m_mem : Z -> Z; m_rip : list Z }.
Definition rsize (r : reg) : nat := match r with XMM _ => 16 | _ => 8 end.
Definition write (mem : Z -> Z) (a : Z) (l : list Z) : Z -> Z :=
  fun x => if (a <=? x) && (x <? a + Z.of_nat (length l)) then nth (Z.to_nat (x - a)) l 0 else mem x.
Definition read (mem : Z -> Z) (a : Z) (n : nat) : list Z := map (fun k => mem (a + Z.of_nat k)) (seq 0 n).
Definition setr (f : reg -> list Z) (r : reg) (v : list Z) : reg -> list Z := fun x => if reg_eqb r x then v else f x.

Section Machine.
(* ext: how a register is filled by a load of fewer bytes; junk: what is left in scratch registers *)
Variables (obj : nat -> Z -> Z) (ext : reg -> list Z -> list Z) (junk : reg -> list Z).
Definition bytes_of (i : nat) (o w : Z) : list Z := map (fun k => obj i (o + Z.of_nat k)) (seq 0 (Z.to_nat w)).
Definition push8 (s : mach) (v : list Z) : mach :=
  mkMach (m_rsp s - 8) (m_rbp s) (m_reg s) (write (m_mem s) (m_rsp s - 8) v) (m_rip s).
Definition with_reg (s : mach) (r : reg) (v : list Z) : mach := mkMach (m_rsp s) (m_rbp s) (setr (m_reg s) r v) (m_mem s) (m_rip s).
Definition with_mem (s : mach) (f : Z -> Z) : mach := mkMach (m_rsp s) (m_rbp s) (m_reg s) f (m_rip s).
Definition step (s : mach) (o : op) : mach :=
  match o with
  | Sub k => mkMach (m_rsp s - k) (m_rbp s) (m_reg s) (m_mem s) (m_rip s)
  | Add k => mkMach (m_rsp s + k) (m_rbp s) (m_reg s) (m_mem s) (m_rip s)
  | PushArg i o w => with_reg (with_reg (push8 s (ext AX (bytes_of i o w))) AX (junk AX)) SI (junk SI)
  | CopyArg i n =>
    with_reg (with_reg (with_reg (with_mem s (write (m_mem s) (m_rsp s) (bytes_of i 0 (8 * n)))) CX (junk CX)) DI (junk DI)) SI (junk SI)
  | Load r i o w => with_reg (with_reg s R11 (junk R11)) r (ext r (bytes_of i o w))
  | Eax n => with_reg s AX (ext AX (le_bytes 4 n))
  | PushBp => push8 s (le_bytes 8 (m_rbp s))
  | MovBp => mkMach (m_rsp s) (m_rsp s) (m_reg s) (m_mem s) (m_rip s)
  | Push r => push8 s (m_reg s r)
  | Pop r => mkMach (m_rsp s + 8) (m_rbp s) (setr (m_reg s) r (read (m_mem s) (m_rsp s) 8)) (m_mem s) (m_rip s)
  | Store r o w => with_mem s (write (m_mem s) (m_rbp s + o) (firstn (Z.to_nat w) (m_reg s r)))
  | SaveSse l =>
    if nth 0 (m_reg s AX) 0 =? 0 then s
    else fold_left (fun s x => with_mem s (write (m_mem s) (m_rbp s + snd x) (firstn 16 (m_reg s (fst x))))) l s
  | StoreSp r => with_mem s (write (m_mem s) (m_rsp s) (firstn 8 (m_reg s r)))
  | LoadSp r => with_reg s r (ext r (read (m_mem s) (m_rsp s) 8))
  | LeaSp o => mkMach (m_rbp s + o) (m_rbp s) (m_reg s) (m_mem s) (m_rip s)
  | Leave => mkMach (m_rbp s + 8) (le_val (read (m_mem s) (m_rbp s) 8)) (m_reg s) (m_mem s) (m_rip s)
  | Ret => mkMach (m_rsp s + 8) (m_rbp s) (m_reg s) (m_mem s) (read (m_mem s) (m_rsp s) 8)
  end.
Definition exec (ops : list op) (s : mach) : mach := fold_left step ops s.
(* call: push the address of the next instruction *)
Definition call (ret : list Z) (s : mach) : mach := push8 s ret.
End Machine.

(* --- what the compiler emits --- *)
(* compile.c:455-493 slice_type, as a width; None: a failed assertion *)
Definition slice_width (t : ltype) (pc : param_class) (i : nat) : option Z :=
  match nth i pc NO_CLASS with
  | (INTEGER | SSE) as c =>
    if (4 <=? i)%nat then None else
    match t with
    | LScalar _ => Some (lsize t)
    | _ =>
      let w :=
        if (Z.of_nat i + 1) * 8 <? lsize t then 8
        else let r := lsize t mod 8 in
          if r =? 1 then 1 else if r =? 2 then 2 else if (r =? 3) || (r =? 4) then 4 else 8 in
      match c with
      | SSE => if w mod 8 =? 4 then Some 4 else if w mod 8 =? 0 then Some 8 else None
      | _ => Some w
      end
    end
  | _ => None
  end.

(* compile.c:495-512 count_register_classifications *)
Definition count_cls (c : cls) (pc : param_class) : nat := countb (cls_eqb c) pc.

(* compile.c:1343-1362 alloc_register_params: the new counters if there are enough registers *)
Definition alloc_register_params (pc : param_class) (ints sses : nat) : option (nat * nat) :=
  match nth 0 pc NO_CLASS with
  | INTEGER | SSE =>
    let ints' := (ints + count_cls INTEGER pc)%nat in
    let sses' := (sses + count_cls SSE pc)%nat in
    if (ints' <=? 6)%nat && (sses' <=? 8)%nat then Some (ints', sses') else None
  | _ => None
  end.

(* compile.c:1364-1396 move_to_from_registers, not for X87: eightbytes i, ..., i + n - 1, mk r i w is the move.
   Reading past the end of the array of registers is None. *)
Fixpoint moves (mk : reg -> nat -> Z -> op) (t : ltype) (pc : param_class) (intregs sseregs : list reg) (i n : nat) : option (list op) :=
  match n with
  | O => Some []
  | S m =>
    match nth i pc NO_CLASS with
    | INTEGER =>
      match intregs, slice_width t pc i with
      | r :: intregs', Some w => option_map (cons (mk r i w)) (moves mk t pc intregs' sseregs (S i) m)
      | _, _ => None
      end
    | _ =>
      match sseregs, slice_width t pc i with
      | r :: sseregs', Some w => option_map (cons (mk r i w)) (moves mk t pc intregs sseregs' (S i) m)
      | _, _ => None
      end
    end
  end.

(* compile.c:844-889 push *)
Definition push (i : nat) (t : ltype) : list op :=
  match t with
  | LScalar T_LDOUBLE => [PushArg i 8 8; PushArg i 0 8]
  | LScalar _ => [PushArg i 0 (lsize t)]
  | _ => [Sub (eightbytes t * 8); CopyArg i (eightbytes t)]
  end.

(* compile.c:1456-1471: registers for arguments i, i + 1, ...; the ones in registers and the space for the others *)
Fixpoint classify_args (i : nat) (args : list ltype) (ints sses : nat) (mem_used : Z) (argpc : list (param_class * nat)) :
  option (list (param_class * nat) * Z) :=
  match args with
  | [] => Some (argpc, mem_used)
  | t :: r =>
    obnd (classify t) (fun pc =>
    match alloc_register_params pc ints sses with
    | Some (ints', sses') =>
      if (length argpc <? 14)%nat then classify_args (S i) r ints' sses' mem_used (argpc ++ [(pc, i)]) else None
    | None => classify_args (S i) r ints sses (mem_used + 8 * eightbytes t) argpc
    end)
  end.
(* compile.c:1489-1496: from the last argument to the first; argpc from its last element *)
Fixpoint push_args (rargs : list (nat * ltype)) (rargpc : list (param_class * nat)) : list op :=
  match rargs with
  | [] => []
  | (i, t) :: r =>
    match rargpc with
    | (_, j) :: q => if (j =? i)%nat then push_args r q else push i t ++ push_args r rargpc
    | [] => push i t ++ push_args r []
    end
  end.
(* compile.c:1509-1516 *)
Fixpoint load_args (args : list ltype) (argpc : list (param_class * nat)) (ints sses : nat) : option (list op * nat) :=
  match argpc with
  | [] => Some ([], sses)
  | (pc, i) :: r =>
    obnd (nth_error args i) (fun t =>
    obnd (moves (fun r j w => Load r i (8 * Z.of_nat j) w) t pc (skipn ints param_int_reg) (skipn sses param_sse_reg) 0 (Z.to_nat (eightbytes t))) (fun l =>
    obnd (load_args args r (ints + count_cls INTEGER pc) (sses + count_cls SSE pc)) (fun x => Some (l ++ fst x, snd x))))
  end.
Definition is_memory (pc : param_class) : bool := cls_eqb (nth 0 pc NO_CLASS) MEMORY.
(* compile.c:1437-1528 push_function_arguments; the code, and the space used on the stack *)
Definition push_function_arguments (args : list ltype) (vararg : bool) (respc : param_class) : option (list op * Z) :=
  let first := if is_memory respc then 1%nat else 0%nat in
  obnd (classify_args 0 args first 0 0 []) (fun x =>
  let '(argpc, used) := x in
  obnd (if used mod 16 =? 0 then Some ([], used) else if (used + 8) mod 16 =? 0 then Some ([Sub 8], used + 8) else None) (fun y =>
  let '(pad, mem_used) := y in
  let pushes := push_args (rev (List.combine (seq 0 (length args)) args)) (rev argpc) in
  obnd (load_args args argpc first 0) (fun z =>
  let '(loads, sses) := z in
  obnd (if vararg then if (sses <=? 8)%nat then Some [Eax (Z.of_nat sses)] else None else Some []) (fun al =>
  Some (pad ++ pushes ++ loads ++ al, mem_used))))).

(* compile.c:2133-2143 and 2145-2155 store_caller_saved_registers, load_caller_saved_registers *)
Definition store_caller_saved_registers (sses : nat) : list op := flat_map (fun r => [Sub 16; StoreSp r]) (firstn sses temp_sse_reg).
Definition load_caller_saved_registers (sses : nat) : list op := flat_map (fun r => [LoadSp r; Add 16]) (rev (firstn sses temp_sse_reg)).
(* compile.c:2163-2195 compile_call: the code before and after the call instruction.  tgt is an operand that is the address
   of the object that takes the result.  Moving a result out of registers (2196-2215) is not here. *)
Definition compile_call (sses : nat) (args : list ltype) (vararg : bool) (respc : param_class) (tgt : nat) : option (list op * list op) :=
  obnd (push_function_arguments args vararg respc) (fun x =>
  let '(ops, mem_used) := x in
  Some (store_caller_saved_registers sses ++ ops ++ (if is_memory respc then [Load DI tgt 0 8] else []),
        (if mem_used =? 0 then [] else [Add mem_used]) ++ load_caller_saved_registers sses)).

(* --- entering a function --- *)
(* a local variable: l_temp is is_temporary, l_none is linkage LINK_NONE *)
Record local := mkLocal { l_type : ltype; l_temp : bool; l_none : bool; l_vla : bool }.

(* compile.c:1665-1699 allocate_registers, without inline assembly: the slot of each local (0: none), and the numbers of
   registers *)
Fixpoint allocate_registers (ls : list local) (ints sses : nat) : list nat * nat * nat :=
  match ls with
  | [] => ([], ints, sses)
  | l :: r =>
    let next k ints sses := let '(ks, i, s) := allocate_registers r ints sses in (k :: ks, i, s) in
    match l_temp l, l_type l with
    | true, LScalar (T_BOOL | T_CHAR | T_SHORT | T_INT | T_LONG | T_POINTER) =>
      if (ints <? 5)%nat then next (S ints) (S ints) sses else next O ints sses
    | true, LScalar (T_FLOAT | T_DOUBLE) =>
      if (sses <? 8)%nat then next (S sses) ints (S sses) else next O ints sses
    | _, _ => next O ints sses
    end
  end.

(* compile.c:1535-1554 allocate_locals: the offset of each local that has one *)
Fixpoint allocate_locals (ls : list local) (slots : list nat) (reg_offset stack_offset : Z) : list (option Z) * Z :=
  match ls, slots with
  | l :: ls', k :: slots' =>
    if l_none l && (k =? 0)%nat && negb (l_vla l) then
      let stack_offset := stack_offset - eightbytes (l_type l) * 8 in
      let (os, e) := allocate_locals ls' slots' reg_offset stack_offset in (Some (stack_offset - reg_offset) :: os, e)
    else
      let (os, e) := allocate_locals ls' slots' reg_offset stack_offset in (None :: os, e)
  | _, _ => ([], stack_offset)
  end.

(* compile.c:1785-1802: the offsets of the parameters, the ones in registers, the counters and offsets *)
Record placed := mkPlaced { p_offs : list Z; p_argpc : list (param_class * nat); p_ints : nat; p_sses : nat; p_mem : Z; p_stack : Z }.
Fixpoint place_params (i : nat) (params : list ltype) (reg_offset : Z) (q : placed) : option placed :=
  match params with
  | [] => Some q
  | t :: r =>
    obnd (classify t) (fun pc =>
    match alloc_register_params pc (p_ints q) (p_sses q) with
    | Some (ints, sses) =>
      let stack := p_stack q - eightbytes t * 8 in
      if (length (p_argpc q) <? 14)%nat then
        place_params (S i) r reg_offset (mkPlaced (p_offs q ++ [stack - reg_offset]) (p_argpc q ++ [(pc, i)]) ints sses (p_mem q) stack)
      else None
    | None =>
      place_params (S i) r reg_offset
        (mkPlaced (p_offs q ++ [p_mem q]) (p_argpc q) (p_ints q) (p_sses q) (p_mem q + eightbytes t * 8) (p_stack q))
    end)
  end.

(* compile.c:1860-1872 *)
Fixpoint store_params (params : list ltype) (offs : list Z) (argpc : list (param_class * nat)) (ints sses : nat) : option (list op) :=
  match argpc with
  | [] => Some []
  | (pc, i) :: r =>
    obnd (nth_error params i) (fun t =>
    obnd (nth_error offs i) (fun off =>
    obnd (moves (fun r j w => Store r (off + 8 * Z.of_nat j) w) t pc (skipn ints param_int_reg) (skipn sses param_sse_reg) 0 (Z.to_nat (eightbytes t))) (fun l =>
    obnd (store_params params offs r (ints + count_cls INTEGER pc) (sses + count_cls SSE pc)) (fun x => Some (l ++ x)))))
  end.

(* compile.c:27-33 vararg *)
Record va := mkVa { va_gp : Z; va_fp : Z; va_overflow : Z; va_save : Z }.
Record frame := mkFrame {
  f_ops : list op;             (* from the beginning of the function *)
  f_offs : list Z;             (* parameters *)
  f_locals : list (option Z);  (* local variables *)
  f_saved : nat;               (* callee saved registers *)
  f_sses : nat;                (* caller saved registers in use *)
  f_ret : Z;                   (* return_address_offset *)
  f_size : Z;                  (* bytes below %rbp *)
  f_argpc : list (param_class * nat);
  f_va : va }.
(* compile.c:1727-1873 enter, after the two instructions of compile_function (3360-3361) *)
Definition save_ints : list op := map (fun x => Store (fst x) (snd x) 8) (List.combine (rev param_int_reg) [-136; -144; -152; -160; -168; -176]).
Definition save_sses : list (reg * Z) := List.combine (rev param_sse_reg) [-16; -32; -48; -64; -80; -96; -112; -128].
Definition enter (respc : param_class) (vararg : bool) (params : list ltype) (locals : list local) : option frame :=
  let '(slots, ints, sses) := allocate_registers locals 0 0 in
  let reg_offset := Z.of_nat ints * 8 in
  let memory := is_memory respc in
  let first := if memory then 1%nat else 0%nat in
  let ret := if memory then (if vararg then -176 - reg_offset else -8 - reg_offset) else 0 in
  let stack := if vararg then -176 else if memory then -8 else 0 in
  obnd (place_params 0 params reg_offset (mkPlaced [] [] first 0 16 stack)) (fun q =>
  let (los, stack) := allocate_locals locals slots reg_offset (p_stack q) in
  let stack := if stack - reg_offset <? 0 then stack - (16 - (reg_offset - stack) mod 16) else stack in
  obnd (store_params params (p_offs q) (p_argpc q) first 0) (fun stores =>
  Some (mkFrame
    ([PushBp; MovBp] ++ map Push (firstn ints temp_int_reg)
      ++ (if stack <? 0 then Sub (- stack) :: (if memory then [Store DI ret 8] else []) else [])
      ++ (if vararg then SaveSse save_sses :: save_ints else [])
      ++ stores)
    (p_offs q) los ints sses ret (reg_offset - stack) (p_argpc q)
    (mkVa (8 * Z.of_nat (p_ints q)) (48 + 16 * Z.of_nat (p_sses q)) (p_mem q) (-176))))).

(* compile.c:3180-3189 *)
Definition epilogue (saved : nat) : list op :=
  (match saved with O => [] | _ => LeaSp (- Z.of_nat saved * 8) :: map Pop (rev (firstn saved temp_int_reg)) end) ++ [Leave; Ret].
