(* C28: calls between functions compiled by lacc.  C29: stack frames. *)
From Coq Require Import List ZArith Bool Lia.
From Verif Require Import Util TypeModel LayoutModel AbiModel CallModel CallSpec CallProofs CallFrame.
Import ListNotations.
Open Scope Z_scope.

(* Loading bytes l to register r fills the whole register and puts l at its low end. *)
Definition loads_ok (ext : reg -> list Z -> list Z) : Prop :=
  forall r l, length (ext r l) = rsize r /\ ((length l <= rsize r)%nat -> firstn (length l) (ext r l) = l).

(* A caller passes args (bytes: obj i k is byte k of argument i) to a function whose parameters are the first of them (any
   others are for the dots).  When the function has been entered, byte k of parameter i is at offset f_offs i of its frame;
   the pointer to the result is in the frame if there is one; the stack is aligned at the call, and what is above the stack
   pointer of the caller is as before. *)
Theorem C28_arguments obj ext junk sses args params extra vararg respc tgt before after locals f s ret :
  loads_ok ext -> (forall r, length (junk r) = rsize r) ->
  Forall (fun t => 0 < lsize t) args -> Forall (fun l => 0 <= lsize (l_type l)) locals -> args = params ++ extra -> (sses <= 8)%nat ->
  (forall r, length (m_reg s r) = rsize r) -> m_rsp s mod 16 = 0 -> length ret = 8%nat ->
  compile_call sses args vararg respc tgt = Some (before, after) -> enter respc vararg params locals = Some f ->
  let s1 := exec obj ext junk before s in
  let s2 := exec obj ext junk (f_ops f) (call ret s1) in
  m_rsp s1 mod 16 = 0 /\
  (forall i t k, nth_error params i = Some t -> 0 <= k < lsize t ->
     exists off, nth_error (f_offs f) i = Some off /\ m_mem s2 (m_rbp s2 + off + k) = obj i k) /\
  (is_memory respc = true -> forall k, 0 <= k < 8 -> m_mem s2 (m_rbp s2 + f_ret f + k) = obj tgt k) /\
  (forall a, m_rsp s <= a -> m_mem s2 a = m_mem s a).
Proof. intros A B. exact (call_arguments obj ext junk A B sses args params extra vararg respc tgt before after locals f s ret). Qed.
Print Assumptions C28_arguments.

(* The body of the function runs from s2 to sb: it keeps the frame pointer, the saved registers and return address, what
   the caller saved, and the callee saved registers that it has not pushed.  Then returning continues after the call with
   the stack, the frame pointer, the callee saved registers and the temporaries of the caller restored, and with the
   registers of results as the body left them.
   Missing: variadic functions that push registers (see the refutation). *)
Theorem C28_return_partial obj ext junk sses args params extra vararg respc tgt before after locals f s ret sb :
  loads_ok ext -> (forall r, length (junk r) = rsize r) ->
  Forall (fun t => 0 < lsize t) args -> Forall (fun l => 0 <= lsize (l_type l)) locals -> args = params ++ extra -> (sses <= 8)%nat ->
  (forall r, length (m_reg s r) = rsize r) -> length ret = 8%nat -> 0 <= m_rbp s < 2 ^ 64 ->
  compile_call sses args vararg respc tgt = Some (before, after) -> enter respc vararg params locals = Some f ->
  (vararg = false \/ f_saved f = 0%nat) ->
  let s1 := exec obj ext junk before s in
  let s2 := exec obj ext junk (f_ops f) (call ret s1) in
  (forall r, length (m_reg sb r) = rsize r) -> m_rbp sb = m_rbp s2 ->
  (forall a, m_rbp s2 - 8 * Z.of_nat (f_saved f) <= a < m_rbp s2 + 16 \/ m_rsp s - 16 * Z.of_nat sses <= a < m_rsp s -> m_mem sb a = m_mem s2 a) ->
  (forall r, In r [BX; R12; R13; R14; R15] -> ~ In r (firstn (f_saved f) [BX; R12; R13; R14; R15]) -> m_reg sb r = m_reg s2 r) ->
  let s3 := exec obj ext junk (epilogue (f_saved f)) sb in
  let s4 := exec obj ext junk after s3 in
  m_rip s3 = ret /\ m_rsp s3 = m_rsp s1 /\ m_rsp s4 = m_rsp s /\ m_rbp s4 = m_rbp s /\ m_mem s4 = m_mem sb /\
  (forall r, In r [BX; R12; R13; R14; R15] -> m_reg s4 r = m_reg s r) /\
  (forall r, In r (firstn sses [XMM 8; XMM 9; XMM 10; XMM 11; XMM 12; XMM 13; XMM 14; XMM 15]) -> firstn 8 (m_reg s4 r) = firstn 8 (m_reg s r)) /\
  (forall r, In r [AX; DX; XMM 0; XMM 1] -> m_reg s4 r = m_reg sb r).
Proof. intros A B. exact (call_return obj ext junk A B sses args params extra vararg respc tgt before after locals f s ret sb). Qed.
Print Assumptions C28_return_partial.

(* struct big f(struct { double d; int i; } a, long double b, char c, long d1, ..., long d5, float g), called by a function
   with a temporary in %xmm8; f has two locals that are temporaries *)
Definition di : ltype := LAgg false false 16 [mkMember 1 (LScalar T_DOUBLE) 0 0 0 0; mkMember 2 (LScalar T_INT) 8 0 0 0].
Definition sig28 : list ltype := [di; LScalar T_LDOUBLE; LScalar T_CHAR] ++ repeat (LScalar T_LONG) 5 ++ [LScalar T_FLOAT].
Definition loc28 : list local :=
  [mkLocal (LScalar T_INT) true true false; mkLocal (LArray 3 (LScalar T_INT)) false true false; mkLocal (LScalar T_POINTER) true true false].
Definition mem28 : param_class := [MEMORY; NO_CLASS; NO_CLASS; NO_CLASS].
Definition obj28 (i : nat) (k : Z) : Z := (Z.of_nat i * 32 + k) mod 256.
Definition ext28 (r : reg) (l : list Z) : list Z := firstn (rsize r) (l ++ repeat 0 (rsize r)).
Definition junk28 (r : reg) : list Z := repeat 85 (rsize r).
Definition start28 : mach := mkMach 65536 65600 (fun r => repeat (match r with BX => 1 | R12 => 2 | R13 => 3 | XMM n => Z.of_nat n | _ => 7 end) (rsize r)) (fun _ => 0) [].
Lemma ext28_ok : loads_ok ext28.
Proof.
  intros r l. unfold ext28. split; [rewrite firstn_length, app_length, repeat_length; lia|]. intro L. rewrite firstn_firstn, Nat.min_l by exact L.
  rewrite firstn_app, Nat.sub_diag, firstn_all. cbn. apply app_nil_r.
Qed.
Definition run28 (sses : nat) (args params : list ltype) (vararg : bool) (respc : param_class) (locals : list local) : option (mach * mach * frame) :=
  match compile_call sses args vararg respc 20, enter respc vararg params locals with
  | Some (before, after), Some f =>
    let s2 := exec obj28 ext28 junk28 (f_ops f) (call (repeat 9 8) (exec obj28 ext28 junk28 before start28)) in
    Some (s2, exec obj28 ext28 junk28 after (exec obj28 ext28 junk28 (epilogue (f_saved f)) s2), f)
  | _, _ => None
  end.
Example C28_instance :
  loads_ok ext28 /\ (forall r, length (junk28 r) = rsize r) /\ Forall (fun t => 0 < lsize t) sig28 /\ Forall (fun l => 0 <= lsize (l_type l)) loc28 /\
  (forall r, length (m_reg start28 r) = rsize r) /\ m_rsp start28 mod 16 = 0 /\ 0 <= m_rbp start28 < 2 ^ 64 /\
  match run28 1 sig28 sig28 false mem28 loc28 with
  | Some (s2, s4, f) =>
    (f_saved f, f_offs f, f_locals f, f_ret f, f_size f) = (2%nat, [-40; 16; -48; -56; -64; -72; 32; 40; -80], [None; Some (-96); None], -24, 112) /\
    read (m_mem s2) (m_rbp s2 - 40) 12 = [0; 1; 2; 3; 4; 5; 6; 7; 8; 9; 10; 11] /\   (* a, in %xmm0 and %rsi *)
    read (m_mem s2) (m_rbp s2 + 16) 10 = [32; 33; 34; 35; 36; 37; 38; 39; 40; 41] /\ (* b, on the stack *)
    read (m_mem s2) (m_rbp s2 - 80) 4 = [0; 1; 2; 3] /\                              (* g: 256 to 259 *)
    m_rsp s4 = m_rsp start28 /\ m_reg s4 BX = m_reg start28 BX /\ m_rip s4 = repeat 9 8
  | None => False
  end.
Proof.
  split; [exact ext28_ok|]. split; [intro r; apply repeat_length|]. split; [repeat constructor|]. split; [repeat (constructor; [vm_compute; discriminate|]); constructor|].
  split; [intro r; apply repeat_length|]. split; [reflexivity|]. split; [vm_compute; split; [discriminate|reflexivity]|].
  vm_compute. repeat split.
Qed.

(* int f(int n, ...) with a local in a register, called with a double: the register save area is over the registers that
   f has pushed, and %rbx is not restored. *)
Definition loc28v : list local := [mkLocal (LScalar T_INT) true true false].
Definition args28v : list ltype := [LScalar T_INT; LScalar T_DOUBLE].
Theorem C28_variadic_refuted : exists before after f s,
  compile_call 0 args28v true [INTEGER; NO_CLASS; NO_CLASS; NO_CLASS] 20 = Some (before, after) /\
  enter [INTEGER; NO_CLASS; NO_CLASS; NO_CLASS] true [LScalar T_INT] loc28v = Some f /\
  (forall r, length (m_reg s r) = rsize r) /\
  let s2 := exec obj28 ext28 junk28 (f_ops f) (call (repeat 9 8) (exec obj28 ext28 junk28 before s)) in
  m_reg (exec obj28 ext28 junk28 after (exec obj28 ext28 junk28 (epilogue (f_saved f)) s2)) BX <> m_reg s BX.
Proof.
  eexists. eexists. eexists. exists start28. split; [vm_compute; reflexivity|]. split; [vm_compute; reflexivity|]. split; [intro r; apply repeat_length|].
  vm_compute. discriminate.
Qed.
Print Assumptions C28_variadic_refuted.

(* --- C29 --- *)
(* The parts of a frame are disjoint, between the stack pointer and the frame pointer or, for parameters passed on the
   stack, above the return address; the frame is a multiple of 16 bytes and every part is at a multiple of 8.
   Missing: variadic functions that push registers; types with an alignment of 16 (see the refutations). *)
Theorem C29_frame_partial respc vararg params locals f :
  Forall (fun t => 0 < lsize t) params -> Forall (fun l => 0 <= lsize (l_type l)) locals -> enter respc vararg params locals = Some f ->
  (vararg = false \/ f_saved f = 0%nat) ->
  f_size f mod 16 = 0 /\
  (forall a o n, extent respc vararg params locals f a = Some (o, n) -> - f_size f <= o /\ o + n <= 0 \/ 16 <= o) /\
  (forall a b o n o' n', a <> b -> extent respc vararg params locals f a = Some (o, n) -> extent respc vararg params locals f b = Some (o', n') ->
    o + n <= o' \/ o' + n' <= o) /\
  (forall a o n, extent respc vararg params locals f a = Some (o, n) -> (8 | o)).
Proof. exact (frame_ok respc vararg params locals f). Qed.
Print Assumptions C29_frame_partial.

(* the stack pointer of the function that has been entered *)
Theorem C29_alignment obj ext junk sses args params extra vararg respc tgt before after locals f s ret :
  loads_ok ext -> (forall r, length (junk r) = rsize r) ->
  Forall (fun t => 0 < lsize t) args -> Forall (fun l => 0 <= lsize (l_type l)) locals -> args = params ++ extra -> (sses <= 8)%nat ->
  (forall r, length (m_reg s r) = rsize r) -> m_rsp s mod 16 = 0 ->
  compile_call sses args vararg respc tgt = Some (before, after) -> enter respc vararg params locals = Some f ->
  let s1 := exec obj ext junk before s in
  let s2 := exec obj ext junk (f_ops f) (call ret s1) in
  m_rsp s1 mod 16 = 0 /\ m_rbp s2 mod 16 = 0 /\ m_rsp s2 = m_rbp s2 - f_size f /\ m_rsp s2 mod 16 = 0.
Proof. intros A B. exact (call_alignment obj ext junk A B sses args params extra vararg respc tgt before after locals f s ret). Qed.
Print Assumptions C29_alignment.

Example C29_instance : Forall (fun t => 0 < lsize t) sig28 /\ Forall (fun l => 0 <= lsize (l_type l)) loc28 /\ exists f,
  enter mem28 false sig28 loc28 = Some f /\ map (extent mem28 false sig28 loc28 f) [Saved 0; Saved 1; Saved 2; Area; Param 0; Param 1; Param 2; Local 0; Local 1] =
  [Some (-8, 8); Some (-16, 8); None; Some (-24, 8); Some (-40, 16); Some (16, 16); Some (-48, 1); None; Some (-96, 12)].
Proof.
  split; [repeat constructor|]. split; [repeat (constructor; [vm_compute; discriminate|]); constructor|]. eexists. split; vm_compute; reflexivity.
Qed.

(* the register save area overlaps the register that was pushed *)
Theorem C29_variadic_refuted : exists respc params locals f o n o' n', enter respc true params locals = Some f /\
  extent respc true params locals f Area = Some (o, n) /\ extent respc true params locals f (Saved 0) = Some (o', n') /\ o <= o' /\ o' + n' <= o + n.
Proof.
  exists [INTEGER; NO_CLASS; NO_CLASS; NO_CLASS], [LScalar T_INT], loc28v. do 5 eexists. split; [vm_compute; reflexivity|]. split; [vm_compute; reflexivity|].
  split; [vm_compute; reflexivity|]. vm_compute. split; discriminate.
Qed.
Print Assumptions C29_variadic_refuted.

(* a long double, whose alignment is 16, at a multiple of 8 only *)
Theorem C29_alignment_refuted : exists respc locals f o n, enter respc false [] locals = Some f /\
  nth_error locals 1 = Some (mkLocal (LScalar T_LDOUBLE) false true false) /\ extent respc false [] locals f (Local 1) = Some (o, n) /\ o mod 16 = 8.
Proof.
  exists [INTEGER; NO_CLASS; NO_CLASS; NO_CLASS], [mkLocal (LScalar T_INT) false true false; mkLocal (LScalar T_LDOUBLE) false true false].
  do 3 eexists. split; [vm_compute; reflexivity|]. split; [reflexivity|]. split; [vm_compute; reflexivity|]. vm_compute. reflexivity.
Qed.
Print Assumptions C29_alignment_refuted.
