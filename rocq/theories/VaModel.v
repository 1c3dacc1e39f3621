(* va_start and va_arg.  src/backend/x86_64/compile.c:804-841, 1876-2131.
   The machine is the one of CallModel.  The list is at a fixed address a, and the object that takes the argument is at a
   fixed address or in a register: the instructions that load a pointer to either of them (into %r11, that nothing else here
   uses) are not modelled, and neither is the flag register; a comparison and its jump are one instruction. *)
From Coq Require Import List ZArith Bool.
From Verif Require Import Util Bytes TypeModel LayoutModel AbiModel CallModel.
Import ListNotations.
Open Scope Z_scope.

(* compile.c:1880-1890: offsets of the members of the list *)
Definition gp_offset : Z := 0.
Definition fp_offset : Z := 4.
Definition overflow_arg_area : Z := 8.
Definition reg_save_area : Z := 16.

Inductive vop :=
| LoadF (r : reg) (o : Z) (w : nat)      (* mov o(list), r *)
| StoreF (r : reg) (o : Z) (w : nat)     (* mov r, o(list) *)
| ImmF (n : Z) (o : Z) (w : nat)         (* mov $n, o(list) *)
| AddF (n : Z) (o : Z) (w : nat)         (* add $n, o(list) *)
| MovI (n : Z) (r : reg) (w : nat)       (* mov $n, r *)
| AddR (n : Z) (r : reg) (w : nat)       (* add $n, r *)
| LeaBp (o : Z) (r : reg)                (* lea o(%rbp), r *)
| Fetch (d : Z) (x : option reg) (r : reg) (w : nat)   (* mov d(%rsi, x, 1), r *)
| Put (r : reg) (o : Z) (w : nat)        (* mov r, the object + o *)
| Take (w : nat)                         (* mov (%rsi), the register of the object: an integer move, whatever the register *)
| LeaDi                                  (* address of the object to %rdi *)
| PutDi (o : Z) (w : nat)                (* mov %rax, o(%rdi) *)
| Memcpy (n : nat).                      (* mov $n, %rdx; call memcpy *)

(* where the object is; encoding.h: the registers of temporaries, compile.c:283-295 *)
Inductive dest := InMem (a : Z) | InReg (r : reg).

(* The number of a register in an instruction says which it is together with the operation: an integer move with %xmm<n> as
   its operand is encoded with the number of the general register <n> (encoding.c, see C51_xmm_refuted; reg and rex bits are taken from
   the number of the register modulo 16). *)
Definition general (r : reg) : reg :=
  match r with
  | XMM 8 => R8 | XMM 9 => R9 | XMM 10 => R10 | XMM 11 => R11 | XMM 12 => R12 | XMM 13 => R13 | XMM 14 => R14 | XMM 15 => R15
  | r => r
  end.

(* a move of w bytes to a register: 4 bytes are zero extended, fewer keep the rest; %xmm from memory is zero extended *)
Definition fill (r : reg) (old l : list Z) : list Z :=
  match r with
  | XMM _ => l ++ repeat 0 (16 - length l)
  | _ => if (length l =? 4)%nat then l ++ repeat 0 4 else if (length l =? 8)%nat then l else l ++ skipn (length l) old
  end.
(* from %xmm to %xmm keeps the rest *)
Definition fillx (old l : list Z) : list Z := l ++ skipn (length l) old.

Section Run.
(* memcpy, called by the code, may change the registers that a function may change *)
Variables (a : Z) (d : dest) (junk : reg -> list Z).
Definition clobber (s : mach) : mach := fold_left (fun s r => with_reg s r (junk r)) ([AX; CX; DX; SI; DI; R8; R9; R10; R11] ++ map XMM (seq 0 16)) s.
Definition vstep (s : mach) (o : vop) : mach :=
  match o with
  | LoadF r o w => with_reg s r (fill r (m_reg s r) (read (m_mem s) (a + o) w))
  | StoreF r o w => with_mem s (write (m_mem s) (a + o) (firstn w (m_reg s r)))
  | ImmF n o w => with_mem s (write (m_mem s) (a + o) (le_bytes w n))
  | AddF n o w => with_mem s (write (m_mem s) (a + o) (le_bytes w (le_val (read (m_mem s) (a + o) w) + n)))
  | MovI n r w => with_reg s r (fill r (m_reg s r) (le_bytes w n))
  | AddR n r w => with_reg s r (fill r (m_reg s r) (le_bytes w (le_val (firstn w (m_reg s r)) + n)))
  | LeaBp o r => with_reg s r (le_bytes 8 (m_rbp s + o))
  | Fetch e x r w =>
    let p := le_val (m_reg s SI) + match x with Some x => le_val (m_reg s x) | None => 0 end + e in
    with_reg s r (fill r (m_reg s r) (read (m_mem s) p w))
  | Put r o w =>
    match d with
    | InMem p => with_mem s (write (m_mem s) (p + o) (firstn w (m_reg s r)))
    | InReg q =>
      with_reg s q (match q with XMM _ => fillx (m_reg s q) (firstn w (m_reg s r)) | _ => fill q (m_reg s q) (firstn w (m_reg s r)) end)
    end
  | Take w =>
    match d with
    | InReg q => with_reg s (general q) (fill (general q) (m_reg s (general q)) (read (m_mem s) (le_val (m_reg s SI)) w))
    | InMem _ => s
    end
  | LeaDi => match d with InMem p => with_reg s DI (le_bytes 8 p) | InReg _ => s end
  | PutDi o w => with_mem s (write (m_mem s) (le_val (m_reg s DI) + o) (firstn w (m_reg s AX)))
  | Memcpy n => clobber (with_mem s (write (m_mem s) (le_val (m_reg s DI)) (read (m_mem s) (le_val (m_reg s SI)) n)))
  end.
Definition vexec (l : list vop) (s : mach) : mach := fold_left vstep l s.
End Run.

(* compile.c:814-832 *)
Definition chunk_width (n : nat) : nat := match n with 1 | 2 | 4 | 8 => n | 3 => 2 | 5 | 6 | 7 => 4 | _ => 8 end%nat.
(* compile.c:810-836, the offsets and widths; the measure is an upper bound of the bytes left *)
Fixpoint chunks (fuel : nat) (i n : nat) : list (nat * nat) :=
  match fuel, n with
  | S f, S _ =>
    (i, chunk_width n) :: chunks f (i + chunk_width n) (n - chunk_width n)
  | _, _ => []
  end.
(* compile.c:804-841 emit_memcpy; mc: there is a declaration of memcpy *)
Definition emit_memcpy (mc : bool) (n : nat) : list vop :=
  if (n <=? 64)%nat || negb mc then flat_map (fun x => [Fetch (Z.of_nat (fst x)) None AX (snd x); PutDi (Z.of_nat (fst x)) (snd x)]) (chunks n 0 n)
  else [Memcpy n].

(* compile.c:1918-1953 compile__builtin_va_start; ptr: the list is reached through a pointer (args.kind is DEREF) *)
Definition va_start (ptr : bool) (v : va) : list vop :=
  (if ptr then [MovI (va_gp v) AX 4; StoreF AX gp_offset 4; MovI (va_fp v) AX 4; StoreF AX fp_offset 4]
   else [ImmF (va_gp v) gp_offset 4; ImmF (va_fp v) fp_offset 4])
  ++ [LeaBp (va_overflow v) AX; StoreF AX overflow_arg_area 8; LeaBp (va_save v) AX; StoreF AX reg_save_area 8].

(* compile.c:2069-2076, 2078-2085, 2118-2125: add to a member of the list *)
Definition bump (ptr : bool) (n : Z) (o : Z) (w : nat) : list vop :=
  if ptr then [LoadF AX o w; AddR n AX w; StoreF AX o w] else [AddF n o w].

(* compile.c:2038-2061: eightbytes i, ..., i + n - 1, with ints and sses registers loaded; off is the offset in the object *)
Fixpoint va_slices (t : ltype) (pc : param_class) (i n ints sses : nat) (off : Z) : option (list vop) :=
  match n with
  | O => Some []
  | S m =>
    match nth i pc NO_CLASS with
    | INTEGER =>
      obnd (slice_width t pc i) (fun w =>
      obnd (va_slices t pc (S i) m (S ints) sses (off + w)) (fun l =>
      Some (Fetch (Z.of_nat ints * 8) (Some CX) AX (Z.to_nat w) :: Put AX off (Z.to_nat w) :: l)))
    | SSE =>
      obnd (va_slices t pc (S i) m ints (S sses) (off + 8)) (fun l =>
      Some (Fetch (Z.of_nat sses * 16) (Some DX) (XMM 0) 8 :: Put (XMM 0) off 8 :: l))
    | _ => None
    end
  end.

Definition standard_width (n : Z) : bool := (n =? 1) || (n =? 2) || (n =? 4) || (n =? 8).
(* The code of one va_arg: comparisons (load r from member o of the list; above n: to the stack part), the part that reads
   registers, and the part that reads the stack. *)
Record va_code := mkCode { v_tests : list (reg * Z * Z); v_regs : list vop; v_stack : list vop }.
(* compile.c:1959-2131 compile__builtin_va_arg.  ptr: args.kind is not ADDRESS; deref: res.kind is DEREF.
   None: a failed assertion. *)
Definition va_arg (mc ptr deref : bool) (d : dest) (t : ltype) : option va_code :=
  if ptr && deref then None else
  obnd (classify t) (fun pc =>
  let eb := eightbytes t in
  let gp := Z.of_nat (count_cls INTEGER pc) in
  let fp := Z.of_nat (count_cls SSE pc) in
  let stack :=
    [LoadF SI overflow_arg_area 8]
    ++ (if standard_width (lsize t) && negb deref then
          match d with
          | InReg _ => [Take (Z.to_nat (lsize t))]
          | InMem _ => [Fetch 0 None AX (Z.to_nat (lsize t)); Put AX 0 (Z.to_nat (lsize t))]
          end
        else LeaDi :: emit_memcpy mc (Z.to_nat (lsize t)))
    ++ bump ptr (eb * 8) overflow_arg_area 8 in
  match nth 0 pc NO_CLASS with
  | INTEGER | SSE =>
    obnd (va_slices t pc 0 (Z.to_nat eb) 0 0 0) (fun l =>
    Some (mkCode
      ((if gp =? 0 then [] else [(CX, gp_offset, 48 - 8 * gp)]) ++ (if fp =? 0 then [] else [(DX, fp_offset, 48 + 128 - 16 * fp)]))
      ([LoadF SI reg_save_area 8] ++ l ++ (if gp =? 0 then [] else bump ptr (8 * gp) gp_offset 4) ++ (if fp =? 0 then [] else bump ptr (16 * fp) fp_offset 4))
      stack))
  | _ => Some (mkCode [] [] stack)
  end).

(* Running it: the comparisons are unsigned, of four bytes (ja).  With no comparisons there is only the stack part. *)
Fixpoint run_tests (a : Z) (d : dest) (junk : reg -> list Z) (l : list (reg * Z * Z)) (s : mach) : mach * bool :=
  match l with
  | [] => (s, true)
  | (r, o, n) :: l' =>
    let s := vstep a d junk s (LoadF r o 4) in
    if n <? le_val (firstn 4 (m_reg s r)) then (s, false) else run_tests a d junk l' s
  end.
Definition run_va (a : Z) (d : dest) (junk : reg -> list Z) (c : va_code) (s : mach) : mach :=
  match v_tests c with
  | [] => vexec a d junk (v_stack c) s
  | _ => let (s, b) := run_tests a d junk (v_tests c) s in vexec a d junk (if b then v_regs c else v_stack c) s
  end.
