(* C51: a variadic function reads the arguments that were passed to it. *)
From Coq Require Import List ZArith Bool Lia.
From Verif Require Import Util Bytes TypeModel LayoutModel LayoutSpec LayoutProofs AbiModel AbiSpec AbiProofs CallModel CallSpec CallProofs CallProps SysvSpec SysvProofs SysvProps VaModel VaSpec VaProofs.
From Verif Require EncModel EncProps.
Import ListNotations.
Open Scope Z_scope.

Definition fits (n : Z) : Prop := n < 2 ^ 64.
(* The arguments of a call have types cs, the first n of them are those of the parameters of the function.  The function is
   called as the ABI says, by whatever caller: byte k of argument j is val j k, %al is not 0 if there are arguments in vector
   registers.
   After va_start the list says that the next argument is the first one that is not a parameter; va_arg, with the type of
   the next argument, stores its bytes in the object, and the list then says that the next argument is the one after that.
   Of memory only the list and the object (rounded up to eightbytes) change.  The list may be passed to other functions, and
   says the same as long as its own bytes, the save area and the arguments are what they were. *)
Theorem C51_arguments_partial obj ext junk val cs ts res respc :
  Forall passable cs -> Forall2 (fun c t => elab c = Done t) cs ts -> result_class res respc ->
  exists ls l, Forall2 Abi cs ls /\ AbiResult res l /\
    let args := List.combine ls (map csize cs) in
    let L := locations l args in
    (forall n locals f s a d junk' ptr save base,
       (n <= length ts)%nat -> Forall (fun l => 0 <= lsize (l_type l)) locals -> (forall r, length (m_reg s r) = rsize r) -> enter respc true (firstn n ts) locals = Some f ->
       base = m_rsp s + 8 -> (forall j w c k, (n <= j)%nat -> nth_error L j = Some w -> nth_error cs j = Some c -> 0 <= k < csize c -> byte_at s base w k = Some (val j k)) ->
       (vectors L <> [] -> nth 0 (m_reg s AX) 0 <> 0) ->
       save = m_rsp s - 184 -> 0 <= save -> fits (base + stack_size l args) -> apart a 24 save 176 -> apart a 24 base (stack_size l args) ->
       let s2 := exec obj ext junk (f_ops f) s in
       let s3 := vexec a d junk' (va_start ptr (f_va f)) s2 in
       va_list val l args save base a (m_mem s3) n /\ (forall y, y < a \/ a + 24 <= y -> m_mem s3 y = m_mem s2 y) /\ same_but [AX] s2 s3) /\
    (forall i t w mc ptr deref d code s a junk' save base,
       nth_error ts i = Some t -> nth_error L i = Some w -> va_list val l args save base a (m_mem s) i -> va_arg mc ptr deref d t = Some code ->
       object_ok save base (stack_size l args) a t w d -> (forall q, d = InReg q -> deref = false) ->
       apart a 24 save 176 -> apart a 24 base (stack_size l args) -> 0 <= base -> fits (base + stack_size l args) ->
       let s' := run_va a d junk' code s in
       (forall k, 0 <= k < lsize t -> object_byte s' d k = val i k) /\ va_list val l args save base a (m_mem s') (S i) /\
       (forall y, ~ (a <= y < a + 16) -> (forall p, d = InMem p -> ~ (p <= y < p + 8 * eightbytes t)) -> m_mem s' y = m_mem s y) /\
       same_but (volatile ++ taken d) s s' /\ (lsize t <= 64 \/ mc = false -> same_but (scratch ++ taken d) s s')) /\
    (forall i mem mem' a save base, va_list val l args save base a mem i ->
       (forall y, a <= y < a + 24 \/ save <= y < save + 176 \/ base <= y < base + stack_size l args -> mem' y = mem y) -> va_list val l args save base a mem' i).
Proof.
  intros P F RC. destruct (passable_all cs ts P F) as (ls & A & CL & SZ). destruct (result_memory res respc RC) as (l & AR & EL).
  exists ls, l. split; [exact A|]. split; [exact AR|]. cbn zeta. unfold fits.
  assert (length ls = length cs) as LL by (clear - A; induction A; cbn; congruence).
  set (args := List.combine ls (map csize cs)) in *.
  assert (Forall (fun x : list cls * Z => 0 <= snd x) args) as PA.
  { clear - CL. induction CL as [|t x ts xs (pc & _ & _ & E & _ & _ & Q) _ IH]; constructor; [lia|exact IH]. }
  assert (forall j l0 n0, nth_error args j = Some (l0, n0) -> exists c, nth_error cs j = Some c /\ n0 = csize c) as NC.
  { intros j l0 n0 N. unfold args in N. clear - N. revert cs j N. induction ls as [|l1 ls IH]; intros [|c cs] [|j] N; try discriminate; cbn in N; [injection N as <- <-; exists c; auto|]. apply IH in N. exact N. }
  split; [|split].
  - intros n locals f s a d junk' ptr save base LE SL G EE -> HV AL -> R1 R2 AP1 AP2.
    assert (length (firstn n ts) = n) as LN by (rewrite firstn_length; lia).
    replace n with (length (firstn n ts)) at 1 by exact LN.
    apply (start_list obj ext junk val l args (firstn n ts) respc locals f s a d junk' ptr); try assumption.
    + rewrite LN. clear - CL. revert n. induction CL as [|t x ts xs Q _ IH]; intros [|n]; cbn; constructor; auto.
    + rewrite LN. intros j w l0 n0 k J NW NA K. destruct (NC _ _ _ NA) as (c & N & ->). apply (HV j w c k J NW N K).
  - intros i t w mc ptr deref d code s a junk' save base NT NW VL EV OK DR AP1 AP2 B0 B1. destruct (forall2_nth _ _ _ _ _ CL NT) as (x & NX & CX0).
    apply (arg_list val l args save base a d junk' mc ptr deref t x w code i s); assumption.
  - intros i mem mem' a save base VL H. apply (list_ext val l args save base a mem mem' i PA VL H).
Qed.
Print Assumptions C51_arguments_partial.

(* int f(int, ...), called with a double, { double; int }, five longs, a long double and a char (as int); four of these are
   on the stack. *)
Definition cs51 : list ctype := [CScalar T_INT; CScalar T_DOUBLE; di47] ++ repeat (CScalar T_LONG) 5 ++ [CScalar T_LDOUBLE; CScalar T_INT].
Definition ts51 : list ltype := map (fun c => match elab c with Done t => t | _ => LScalar T_VOID end) cs51.
Definition int51 : param_class := [INTEGER; NO_CLASS; NO_CLASS; NO_CLASS].
(* reads all of them, to memory at 4096, 4112, ... *)
Fixpoint reads51 (i : nat) (ts : list ltype) (a : Z) (ptr : bool) (s : mach) : option mach :=
  match ts with
  | [] => Some s
  | t :: ts' => obnd (va_arg true ptr false (InMem (4096 + 16 * Z.of_nat i)) t) (fun c => reads51 (S i) ts' a ptr (run_va a (InMem (4096 + 16 * Z.of_nat i)) junk28 c s))
  end.
Definition called51 : option (mach * frame) :=
  obnd (compile_call 0 ts51 true int51 20) (fun x => obnd (enter int51 true [LScalar T_INT] [mkLocal (LArray 24 (LScalar T_CHAR)) false true false]) (fun f =>
  Some (call (repeat 9 8) (exec obj28 ext28 junk28 (fst x) start28), f))).
Lemma leaf51 : Forall passable cs51.
Proof.
  unfold cs51. cbn [repeat app]. repeat (apply Forall_cons; [first [exact di47_passable | apply scalar_passable; reflexivity]|]). apply Forall_nil.
Qed.
Example C51_instance :
  Forall passable cs51 /\ Forall2 (fun c t => elab c = Done t) cs51 ts51 /\
  match called51 with
  | Some (s1, f) =>
    let s2 := exec obj28 ext28 junk28 (f_ops f) s1 in
    let s3 := vexec 1024 (InMem 0) junk28 (va_start false (f_va f)) s2 in
    (* gp_offset, fp_offset, overflow_arg_area, reg_save_area *)
    (word (m_mem s3) 1024 4, word (m_mem s3) 1028 4, word (m_mem s3) 1032 8 - m_rsp s1, word (m_mem s3) 1040 8 - m_rsp s1) = (8, 48, 8, -184) /\
    match reads51 1 (tl ts51) 1024 false s3, reads51 1 (tl ts51) 1024 true s3 with
    | Some s4, Some s5 =>
      forallb (fun i => forallb (fun s => if list_eq_dec Z.eq_dec (read (m_mem s) (4096 + 16 * Z.of_nat i) (Z.to_nat (lsize (nth i ts51 (LScalar T_VOID)))))
        (map (fun k => obj28 i (Z.of_nat k)) (seq 0 (Z.to_nat (lsize (nth i ts51 (LScalar T_VOID)))))) then true else false) [s4; s5]) (seq 1 9) = true /\
      (word (m_mem s4) 1024 4, word (m_mem s4) 1028 4, word (m_mem s4) 1032 8 - m_rsp s1) = (48, 80, 8 + 32)
    | _, _ => False
    end
  | None => False
  end.
Proof.
  split; [exact leaf51|]. split; [unfold cs51, ts51; cbn [repeat app map]; repeat (constructor; [vm_compute; reflexivity|]); constructor|]. vm_compute. auto.
Qed.

(* The full statement has any object the type of which is that of the argument, also a temporary in %xmm8 to %xmm15; neither
   the objects beside it nor the temporaries in registers change; and va_arg can be compiled whatever the object is.  Four
   parts of that are false. *)

(* An integer move with %xmm<n>, n >= 8, is the instruction with general register <n>.  (The address is (%rsi).) *)
Lemma C51_general : Forall (fun n => exists b, EncModel.encode (EncModel.Instr EncModel.INSTR_MOV 0 0 (EncModel.MemReg (EncModel.Mem 8 (EncModel.Addr EncModel.ADDR_NORMAL None 0 EncModel.SI 0 0)) (EncModel.Reg 8 (EncModel.XMM8 + n)))) = EncModel.Done b /\
  EncModel.encode (EncModel.Instr EncModel.INSTR_MOV 0 0 (EncModel.MemReg (EncModel.Mem 8 (EncModel.Addr EncModel.ADDR_NORMAL None 0 EncModel.SI 0 0)) (EncModel.Reg 8 (EncModel.R8 + n)))) = EncModel.Done b) [0; 1; 2; 3; 4; 5; 6; 7].
Proof. repeat (constructor; [eexists; split; vm_compute; reflexivity|]). constructor. Qed.

(* The ninth double of a call, read into a temporary in %xmm8: it goes to %r8. *)
Definition doubles51 : list (list cls * Z) := repeat ([SSE], 8) 9.
Definition state51 : mach :=
  mkMach 65536 65600 (fun r => repeat 0 (rsize r))
    (write (write (write (write (fun _ => 0) 1024 (le_bytes 4 0)) 1028 (le_bytes 4 176)) 1032 (le_bytes 8 8192)) 1040 (le_bytes 8 4096)) [].
Definition put51 (a : Z) (l : list Z) (s : mach) : mach := with_mem s (write (m_mem s) a l).
Theorem C51_xmm_refuted : exists code s, va_arg true false false (InReg (XMM 8)) (LScalar T_DOUBLE) = Some code /\
  va_list (fun _ _ => 77) [] doubles51 4096 8192 1024 (m_mem s) 8 /\ nth_error (locations [] doubles51) 8 = Some (Stack 0) /\ In (XMM 8) temp_sse_reg /\
  let s' := run_va 1024 (InReg (XMM 8)) junk28 code s in
  object_byte s' (InReg (XMM 8)) 0 = 0 /\ nth 0 (m_reg s' R8) 0 = 77.
Proof.
  eexists. exists (put51 8192 (repeat 77 8) state51). split; [vm_compute; reflexivity|]. split; [|split; [reflexivity|split; [cbn; auto|vm_compute; auto]]].
  constructor; lazymatch goal with |- forall _, _ => idtac | _ => vm_compute; reflexivity end. intros j w l n k J NW NA K.
  assert (j < 9)%nat as JL by (apply (proj1 (nth_error_Some doubles51 j)); rewrite NA; discriminate). assert (j = 8)%nat as -> by lia.
  vm_compute in NW. injection NW as <-. vm_compute in NA. injection NA as <- <-. cbn [kept_byte m_mem put51 with_mem]. f_equal.
  assert (k = 0 \/ k = 1 \/ k = 2 \/ k = 3 \/ k = 4 \/ k = 5 \/ k = 6 \/ k = 7) as Q by lia. repeat (destruct Q as [->|Q]; [vm_compute; reflexivity|]). subst. vm_compute. reflexivity.
Qed.

(* struct { float x; } a[2]; a[0] = va_arg(ap, struct ...): the register is stored with 8 bytes, a[1] is overwritten.
   struct { int x; char y[3]; }: the last 3 bytes are stored with 4. *)

(* struct { float x; } a[2]; a[0] = va_arg(ap, struct ...): the register is stored with 8 bytes, a[1] is overwritten.
   struct { int x; char y[3]; }: the last 3 bytes are stored with 4. *)
Definition flt51 : ctype := CStruct [(1, CScalar T_FLOAT)].
Theorem C51_tail_refuted : exists t code s p, elab flt51 = Done t /\ va_arg true false false (InMem p) t = Some code /\
  va_list (fun _ _ => 77) [] [([SSE], 4)] 4096 8192 1024 (m_mem s) 0 /\ lsize t = 4 /\
  (let s' := run_va 1024 (InMem p) junk28 code s in m_mem s (p + 4) = 13 /\ m_mem s' (p + 4) <> 13).
Proof.
  eexists. eexists. exists (put51 20004 [13] (put51 4144 (repeat 77 4) (put51 1024 (le_bytes 4 0 ++ le_bytes 4 48) state51))), 20000.
  split; [vm_compute; reflexivity|]. split; [vm_compute; reflexivity|]. split; [|split; [reflexivity|vm_compute; split; [reflexivity|discriminate]]].
  constructor; lazymatch goal with |- forall _, _ => idtac | _ => vm_compute; reflexivity end. intros j w l n k J NW NA K. destruct j as [|[|j]]; try discriminate NA.
  vm_compute in NW. injection NW as <-. vm_compute in NA. injection NA as <- <-.
  assert (k = 0 \/ k = 1 \/ k = 2 \/ k = 3) as Q by lia. repeat (destruct Q as [->|Q]; [vm_compute; reflexivity|]). subst. vm_compute. reflexivity.
Qed.

(* void f(va_list ap, int *p) { *p = va_arg(ap, int); }: a failed assertion. *)
Theorem C51_deref_refuted : exists t, passable (CScalar T_INT) /\ elab (CScalar T_INT) = Done t /\ forall mc d, va_arg mc true true d t = None /\ va_arg mc true false d t <> None /\ va_arg mc false true d t <> None.
Proof.
  eexists. split; [apply scalar_passable; reflexivity|]. split; [vm_compute; reflexivity|]. intros mc d. split; [reflexivity|].
  destruct mc, d; split; vm_compute; discriminate.
Qed.

(* An object of more than 64 bytes is copied by memcpy, if that is declared.  It may change %xmm8, in which there may be a
   temporary. *)
Definition big51 : ctype := CStruct [(1, CArray 9 (CScalar T_LONG))].
Theorem C51_memcpy_refuted : exists t code s, elab big51 = Done t /\ va_arg true false false (InMem 20000) t = Some code /\
  va_list (fun _ _ => 77) [] [([MEMORY], 72)] 4096 8192 1024 (m_mem s) 0 /\ In (XMM 8) temp_sse_reg /\ m_reg (run_va 1024 (InMem 20000) junk28 code s) (XMM 8) <> m_reg s (XMM 8).
Proof.
  eexists. eexists. exists (put51 8192 (repeat 77 72) (put51 1024 (le_bytes 4 0 ++ le_bytes 4 48) state51)).
  split; [vm_compute; reflexivity|]. split; [vm_compute; reflexivity|]. split; [|split; [cbn; auto|vm_compute; discriminate]].
  constructor; lazymatch goal with |- forall _, _ => idtac | _ => vm_compute; reflexivity end. intros j w l n k J NW NA K. destruct j as [|[|j]]; try discriminate NA.
  vm_compute in NW. injection NW as <-. vm_compute in NA. injection NA as <- <-. unfold kept_byte. f_equal.
  assert (forallb (fun i => m_mem (put51 8192 (repeat 77 72) (put51 1024 (le_bytes 4 0 ++ le_bytes 4 48) state51)) (8192 + 0 + Z.of_nat i) =? 77) (seq 0 72) = true) as Q by (vm_compute; reflexivity).
  rewrite forallb_forall in Q. specialize (Q (Z.to_nat k)). rewrite in_seq, Z2Nat.id in Q by lia. apply Z.eqb_eq, Q. lia.
Qed.
Print Assumptions C51_xmm_refuted. Print Assumptions C51_tail_refuted. Print Assumptions C51_deref_refuted. Print Assumptions C51_memcpy_refuted.
