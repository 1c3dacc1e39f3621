(* C51: the variable argument list.  System V x86-64 ABI, 3.5.7 Variable Argument Lists, with 3.2.3 (SysvSpec). *)
From Coq Require Import List ZArith Bool.
From Verif Require Import Bytes TypeModel LayoutModel AbiModel CallModel SysvSpec VaModel.
Import ListNotations.
Open Scope Z_scope.

(* The registers that are left, and the offset on the stack, after some arguments. *)
Fixpoint after (args : list (list cls * Z)) (free vfree : list reg) (o : Z) : list reg * list reg * Z :=
  match args with
  | [] => (free, vfree, o)
  | (l, n) :: r =>
    match assign l free vfree with
    | Some (_, free', vfree') => after r free' vfree' o
    | None => after r free vfree (o + 8 * ((n + 7) / 8))
    end
  end.

(* Figure 3.33: in the register save area each register has its place.  The first is for %rdi, at offset 0. *)
Fixpoint place_of (r : reg) (l : list reg) (o step : Z) : option Z :=
  match l with [] => None | x :: l' => if reg_eqb r x then Some o else place_of r l' (o + step) step end.
Definition save_offset (r : reg) : option Z :=
  match place_of r integer_registers 0 8 with Some o => Some o | None => place_of r vector_registers 48 16 end.

(* Byte k of an argument that is at w, in the memory of the callee: save is the register save area, base is where the
   arguments on the stack begin. *)
Definition kept_byte (mem : Z -> Z) (save base : Z) (w : location) (k : Z) : option Z :=
  match w with
  | Registers rs =>
    match nth_error rs (Z.to_nat (k / 8)) with
    | Some r => option_map (fun o => mem (save + o + k mod 8)) (save_offset r)
    | None => None
    end
  | Stack o => Some (mem (base + o + k))
  end.

Definition word (mem : Z -> Z) (a : Z) (n : nat) : Z := le_val (read mem a n).
Definition starting (result : list cls) : list reg := match result with [MEMORY] => tl integer_registers | _ => integer_registers end.

(* The list at address a of a function with arguments args, val i k being byte k of argument i: the next argument is number i.
   gp_offset and fp_offset are the offsets of the next registers, overflow_arg_area is the address of the next argument on
   the stack; and the arguments from i on are where they can be found. *)
Record va_list (val : nat -> Z -> Z) (result : list cls) (args : list (list cls * Z)) (save base : Z) (a : Z) (mem : Z -> Z) (i : nat) : Prop := {
  vl_gp : word mem a 4 = 48 - 8 * Z.of_nat (length (fst (fst (after (firstn i args) (starting result) vector_registers 0))));
  vl_fp : word mem (a + 4) 4 = 48 + 128 - 16 * Z.of_nat (length (snd (fst (after (firstn i args) (starting result) vector_registers 0))));
  vl_overflow : word mem (a + 8) 8 = base + snd (after (firstn i args) (starting result) vector_registers 0);
  vl_save : word mem (a + 16) 8 = save;
  vl_kept : forall j w l n k, (i <= j)%nat -> nth_error (locations result args) j = Some w -> nth_error args j = Some (l, n) -> 0 <= k < n ->
    kept_byte mem save base w k = Some (val j k) }.

(* The bytes that the arguments take on the stack. *)
Definition stack_size (result : list cls) (args : list (list cls * Z)) : Z := snd (after args (starting result) vector_registers 0).
(* Two pieces of memory that do not overlap: n bytes at a, m bytes at b. *)
Definition apart (a n b m : Z) : Prop := a + n <= b \/ b + m <= a.

(* Byte k of the object that takes an argument. *)
Definition object_byte (s : mach) (d : dest) (k : Z) : Z :=
  match d with InMem p => m_mem s (p + k) | InReg q => nth (Z.to_nat k) (m_reg s q) 0 end.
(* The object, of n bytes, is in memory that the list and the arguments are not in; all that is rounded up to eightbytes.
   Or it is a temporary in one of the registers for them; a floating point argument that is on the stack is left out, see
   C51_xmm_refuted. *)
Definition object_ok (save base size a : Z) (t : ltype) (w : location) (d : dest) : Prop :=
  match d with
  | InMem p => 0 <= p /\ p + lsize t <= 2 ^ 64 /\ let n := 8 * ((lsize t + 7) / 8) in apart p n a 24 /\ apart p n save 176 /\ apart p n base size
  | InReg q => exists k, t = LScalar k /\
      match k with
      | T_FLOAT | T_DOUBLE => In q temp_sse_reg /\ exists rs, w = Registers rs
      | T_BOOL | T_CHAR | T_SHORT | T_INT | T_LONG | T_POINTER => In q temp_int_reg
      | _ => False
      end
  end.
