(* C47: calls follow the System V ABI. *)
From Coq Require Import List ZArith Bool Lia.
From Verif Require Import Util TypeModel LayoutModel LayoutSpec LayoutProofs AbiModel AbiSpec AbiProofs CallModel CallSpec CallProofs CallProps SysvSpec SysvProofs.
Import ListNotations.
Open Scope Z_scope.

(* The types of the arguments are classified as the ABI says (C27: no _Bool in aggregates, small structs with members at
   multiples of their size).  At the call instruction, byte k of argument i is at the place that the ABI has for it; the
   address of a result in memory is in %rdi; %al is the number of vector registers if the call is variadic. *)
Theorem C47_caller_partial obj ext junk sses cs ts vararg res respc tgt before after s :
  loads_ok ext -> (forall r, length (junk r) = rsize r) -> Forall passable cs -> Forall2 (fun c t => elab c = Done t) cs ts -> result_class res respc ->
  (sses <= 8)%nat -> (forall r, length (m_reg s r) = rsize r) -> compile_call sses ts vararg respc tgt = Some (before, after) ->
  let s1 := exec obj ext junk before s in
  exists ls l, Forall2 Abi cs ls /\ AbiResult res l /\
    let L := locations l (List.combine ls (map csize cs)) in
    length L = length cs /\
    (forall i c w k, nth_error L i = Some w -> nth_error cs i = Some c -> 0 <= k < csize c -> byte_at s1 (m_rsp s1) w k = Some (obj i k)) /\
    (l = [MEMORY] -> forall k, 0 <= k < 8 -> nth (Z.to_nat k) (m_reg s1 DI) 0 = obj tgt k) /\
    (vararg = true -> nth 0 (m_reg s1 AX) 0 = Z.of_nat (length (vectors L))).
Proof.
  intros HE HJ P F RC S8 G EC s1. destruct (passable_all cs ts P F) as (ls & A & CL & SZ). destruct (result_memory res respc RC) as (l & AR & EL).
  destruct (caller_conforms obj ext junk HE HJ sses ts _ vararg respc tgt before after s CL S8 G EC) as (X1 & X2 & X3).
  exists ls, l. split; [exact A|]. split; [exact AR|]. unfold locations. rewrite EL. cbn zeta. fold s1 in X1, X2, X3. split; [|split; [|split]].
  - rewrite locate_length, combine_length, map_length. assert (length ls = length cs) as -> by (clear - A; induction A; cbn; congruence). apply Nat.min_id.
  - intros i c w k NW NC K. destruct (forall2_nth _ _ _ _ _ SZ NC) as (t & NT & E). apply (X1 i t w k NW NT). lia.
  - intros ->. intros k K. apply X2; [|exact K]. destruct (is_memory respc); [reflexivity|]. cbn in EL. discriminate.
  - intro V. apply (X3 V).
Qed.
Print Assumptions C47_caller_partial.

(* A function called as the ABI says, by whatever caller, finds byte k of parameter i in its frame; and the address of a
   result in memory. *)
Theorem C47_callee_partial obj ext junk cs ts vararg res respc locals f s :
  Forall passable cs -> Forall2 (fun c t => elab c = Done t) cs ts -> result_class res respc -> Forall (fun l => 0 <= lsize (l_type l)) locals ->
  (forall r, length (m_reg s r) = rsize r) -> enter respc vararg ts locals = Some f ->
  let s2 := exec obj ext junk (f_ops f) s in
  exists ls l, Forall2 Abi cs ls /\ AbiResult res l /\
    let L := locations l (List.combine ls (map csize cs)) in
    length L = length cs /\
    (forall i c w k, nth_error L i = Some w -> nth_error cs i = Some c -> 0 <= k < csize c ->
       exists off, nth_error (f_offs f) i = Some off /\ byte_at s (m_rsp s + 8) w k = Some (m_mem s2 (m_rbp s2 + off + k))) /\
    (l = [MEMORY] -> forall k, 0 <= k < 8 -> m_mem s2 (m_rbp s2 + f_ret f + k) = nth (Z.to_nat k) (m_reg s DI) 0).
Proof.
  intros P F RC SL G EE s2. destruct (passable_all cs ts P F) as (ls & A & CL & SZ). destruct (result_memory res respc RC) as (l & AR & EL).
  destruct (callee_conforms obj ext junk ts _ vararg respc locals f s CL SL G EE) as (X1 & X2).
  exists ls, l. split; [exact A|]. split; [exact AR|]. unfold locations. rewrite EL. cbn zeta. fold s2 in X1, X2. split; [|split].
  - rewrite locate_length, combine_length, map_length. assert (length ls = length cs) as -> by (clear - A; induction A; cbn; congruence). apply Nat.min_id.
  - intros i c w k NW NC K. destruct (forall2_nth _ _ _ _ _ SZ NC) as (t & NT & E). apply (X1 i t w k NW NT). lia.
  - intros ->. intros k K. apply X2; [|exact K]. destruct (is_memory respc); [reflexivity|]. cbn in EL. discriminate.
Qed.
Print Assumptions C47_callee_partial.

(* struct big f(struct { double d; int i; }, long double, char, float, ...), called with a double and four longs more *)
Definition big47 : ctype := CStruct [(1, CArray 3 (CScalar T_LONG))].
Definition di47 : ctype := CStruct [(1, CScalar T_DOUBLE); (2, CScalar T_INT)].
Definition cs47 : list ctype := [di47; CScalar T_LDOUBLE; CScalar T_CHAR; CScalar T_FLOAT; CScalar T_DOUBLE] ++ repeat (CScalar T_LONG) 4.
Lemma di47_leaf k o : Leaf di47 0 k o -> k = T_DOUBLE \/ k = T_INT.
Proof.
  intro X. inversion X as [| |? os e j n c p ? ? ? P A B X'|]; subst. destruct j as [|[|j]]; cbn in A; [| |destruct j; discriminate];
    injection A as <- <-; inversion X'; auto.
Qed.
Lemma scalar_passable k : 0 < scalar_size k -> passable (CScalar k).
Proof. intro H. split; [exact H|]. split; [discriminate|]. split; [intros []|intros _; exact Logic.I]. Qed.
Lemma di47_passable : passable di47.
Proof.
  split; [cbn; repeat split; try lia; try discriminate; repeat constructor; cbn; intuition discriminate|]. split; [discriminate|]. split.
  - intros _ o X. destruct (di47_leaf _ _ X); discriminate.
  - intros _ os e j n c p P A B. destruct (placed_unique [(1, CScalar T_DOUBLE); (2, CScalar T_INT)]) with (e := 0) (os := os) (e' := e) as [-> _]; [repeat constructor|exact P|].
    destruct j as [|[|j]]; cbn in A; [| |destruct j; discriminate]; injection A as <- <-; vm_compute in B; injection B as <-; reflexivity.
Qed.
Example C47_instance : exists ts respc before after,
  Forall passable cs47 /\ Forall2 (fun c t => elab c = Done t) cs47 ts /\ result_class (Some big47) respc /\
  loads_ok ext28 /\ (forall r, length (junk28 r) = rsize r) /\ (forall r, length (m_reg start28 r) = rsize r) /\
  compile_call 1 ts true respc 20 = Some (before, after) /\
  let L := [Registers [XMM 0; SI]; Stack 0; Registers [DX]; Registers [XMM 1]; Registers [XMM 2]; Registers [CX]; Registers [R8]; Registers [R9]; Stack 16] in
  locations [MEMORY] (List.combine [[SSE; INTEGER]; [X87; X87UP]; [INTEGER]; [SSE]; [SSE]; [INTEGER]; [INTEGER]; [INTEGER]; [INTEGER]] (map csize cs47)) = L /\
  let s1 := exec obj28 ext28 junk28 before start28 in
  map (fun w => byte_at s1 (m_rsp s1) w 0) L = map (fun i => Some (obj28 i 0)) (seq 0 9) /\ nth 0 (m_reg s1 AX) 0 = 3.
Proof.
  eexists [_; _; _; _; _; _; _; _; _], _, _, _. split.
  { unfold cs47. cbn [repeat app]. repeat (apply Forall_cons; [first [exact di47_passable | apply scalar_passable; reflexivity]|]). apply Forall_nil. }
  split; [repeat (constructor; [vm_compute; reflexivity|]); constructor|]. split.
  { split; [|eexists; split; [vm_compute; reflexivity|vm_compute; reflexivity]]. split; [cbn; repeat split; try lia; try discriminate; repeat constructor; cbn; intuition discriminate|].
    split; [discriminate|]. split; [|intro X; exfalso; vm_compute in X; apply X; reflexivity].
    intros _ o X. inversion X as [| |? os e j n c p ? ? ? P A B X'|]; subst. destruct j as [|j]; cbn in A; [|destruct j; discriminate].
    injection A as <- <-. inversion X' as [|? ? ? ? ? ? ? X2| |]; subst. inversion X2. }
  split; [exact ext28_ok|]. split; [intro r; apply repeat_length|]. split; [intro r; apply repeat_length|]. split; [vm_compute; reflexivity|].
  split; [reflexivity|]. split; vm_compute; reflexivity.
Qed.

(* f(long, ..., long, long double) with seven longs: the long double is at 8(%rsp), and not at a multiple of its alignment *)
Theorem C47_alignment_refuted : exists before after s,
  compile_call 0 (repeat (LScalar T_LONG) 7 ++ [LScalar T_LDOUBLE]) false [INTEGER; NO_CLASS; NO_CLASS; NO_CLASS] 20 = Some (before, after) /\
  (forall r, length (m_reg s r) = rsize r) /\ m_rsp s mod 16 = 0 /\
  let s1 := exec obj28 ext28 junk28 before s in
  read (m_mem s1) (m_rsp s1 + 8) 10 = map (obj28 7) (map Z.of_nat (seq 0 10)) /\ calign (CScalar T_LDOUBLE) = 16 /\ (m_rsp s1 + 8) mod 16 <> 0 /\
  read (m_mem s1) (m_rsp s1 + 16) 10 <> map (obj28 7) (map Z.of_nat (seq 0 10)).
Proof.
  eexists. eexists. exists start28. split; [vm_compute; reflexivity|]. split; [intro r; apply repeat_length|]. split; [reflexivity|].
  split; [vm_compute; reflexivity|]. split; [reflexivity|]. split; vm_compute; discriminate.
Qed.
Print Assumptions C47_alignment_refuted.
