(* Property C18: bit-field stores and loads.  Partial: the field must lie inside the first sizeof(T) bytes of
   its unit, where T is its declared type, and be narrower than 64 bits; see the refutations for the rest. *)
From Coq Require Import List ZArith Lia Bool.
From Verif Require Import TypeModel LayoutModel LayoutSpec FieldModel FieldSpec FieldProofs.
Import ListNotations.
Open Scope Z_scope.

(* A store of any value (constant or in a register) changes no bit outside the field, and afterwards the
   field holds the value reduced to its width, which is what loading it gives. *)
Theorem C18_store_load_partial : forall sign size width foff mem v w,
  (size = 1 \/ size = 2 \/ size = 4 \/ size = 8) -> 0 < width < 64 -> 0 <= foff -> foff + width <= 8 * size ->
  (w = 8 \/ w = 4 /\ width <= 32) ->
  exists m1 m2, store_reg size width foff mem v = Mem m1 /\ store_imm size width foff mem v = Mem m2 /\
    (forall i, 0 <= i -> i < foff \/ foff + width <= i -> Z.testbit m1 i = Z.testbit mem i /\ Z.testbit m2 i = Z.testbit mem i) /\
    (exists r, load_checked sign size width foff w m1 = Some r /\ reg_value sign w r = reduce sign width v) /\
    (exists r, load_checked sign size width foff w m2 = Some r /\ reg_value sign w r = reduce sign width v).
Proof.
  intros sign size width foff mem v w Hs Hw Hf Hb Hww.
  destruct (store_reg_ok size width foff mem v Hs Hw Hf Hb) as (m1 & E1 & U1).
  destruct (store_imm_ok size width foff mem v Hs Hw Hf Hb) as (m2 & E2 & U2).
  exists m1, m2. split; [exact E1|]. split; [exact E2|].
  assert (L : forall m, load_checked sign size width foff w m = Some (load_field sign size width foff w m)).
  { intro m. unfold load_checked. rewrite (proj2 (Z.ltb_lt 0 width)), (proj2 (Z.ltb_lt width 64)), (proj2 (Z.leb_le _ 64)) by lia. reflexivity. }
  split; [|split].
  - intros i Hi O. rewrite U1, U2 by lia. destruct (Z.leb_spec foff i), (Z.ltb_spec i (foff + width)); cbn [andb]; auto; lia.
  - eexists. split; [apply L|]. rewrite load_ok by (try assumption; lia). eapply updated_held; try eassumption; lia.
  - eexists. split; [apply L|]. rewrite load_ok by (try assumption; lia). eapply updated_held; try eassumption; lia.
Qed.

Example C18_instance :
  store_reg 4 5 3 (* int f:5 at bit 3 *) 1311768467463790320 (-7) = Mem 1311768467463790280 /\
  load_checked true 4 5 3 8 1311768467463790280 = Some (2 ^ 64 - 7) /\ reduce true 5 (-7) = -7 /\ reduce true 5 100 = 4 /\ reduce true 5 20 = -12.
Proof. vm_compute. repeat split. Qed.

(* Loads see the bits of the field, also when it is in the second half of a 4 byte unit of a narrow type. *)
Theorem C18_load : forall sign size width foff mem w,
  (size = 1 \/ size = 2 \/ size = 4 \/ size = 8) -> 0 < width < 64 -> 0 <= foff -> foff + width <= 8 * Z.max 4 size ->
  (w = 8 \/ w = 4 /\ width <= 32) ->
  reg_value sign w (load_field sign size width foff w mem) = held sign width foff mem.
Proof. intros. apply load_ok; assumption. Qed.

Example C18_load_instance : reg_value true 4 (load_field true 2 10 20 4 (613 * 2 ^ 20 + 77)) = 613 - 1024.
Proof. vm_compute. reflexivity. Qed.

(* The value of an assignment expression is the value then held by the field. *)
Theorem C18_assign_value : forall sign width v, 0 < width < 64 -> assign_imm sign width v = Some (reduce sign width v).
Proof. exact assign_imm_ok. Qed.

Example C18_assign_instance : assign_imm true 3 13 = Some (-3) /\ assign_imm false 3 13 = Some 5.
Proof. vm_compute. split; reflexivity. Qed.

(* struct { int a:20; short b:10; } s;  s.b = 5 is laid out with b in bits 20..29, and the store is lost. *)
Theorem C18_narrow_store_refuted : exists t b, struct_or_union false [DField 1 T_INT 20; DField 2 T_SHORT 10] = Done t /\
  nth_error (members_of t) 1 = Some b /\ m_type b = LScalar T_SHORT /\ m_offset b = 0 /\
  exists m, store_reg 2 (m_width b) (m_foff b) 0 5 = Mem m /\ held true (m_width b) (m_foff b) m <> reduce true (m_width b) 5.
Proof.
  eexists _, _. split; [vm_compute; reflexivity|]. split; [reflexivity|]. split; [reflexivity|]. split; [reflexivity|].
  eexists. split; [vm_compute; reflexivity|]. vm_compute. discriminate.
Qed.

(* struct { long a:40; int b:10; } s;  reading s.b gives bits 22..31 of the unit, which belong to a. *)
Theorem C18_narrow_load_refuted : exists t b, struct_or_union false [DField 1 T_LONG 40; DField 2 T_INT 10] = Done t /\
  nth_error (members_of t) 1 = Some b /\ m_type b = LScalar T_INT /\ m_offset b = 0 /\
  exists mem r, load_checked true 4 (m_width b) (m_foff b) 4 mem = Some r /\ reg_value true 4 r <> held true (m_width b) (m_foff b) mem.
Proof.
  eexists _, _. split; [vm_compute; reflexivity|]. split; [reflexivity|]. split; [reflexivity|]. split; [reflexivity|].
  exists (5 * 2 ^ 40). eexists. split; [vm_compute; reflexivity|]. vm_compute. discriminate.
Qed.

(* struct { long a:64; } s; accesses to s.a stop the compiler with an assertion (or undefined shift). *)
Theorem C18_full_width_refuted : exists t b, struct_or_union false [DField 1 T_LONG 64] = Done t /\ nth_error (members_of t) 0 = Some b /\ m_width b = 64 /\
  forall mem v, store_reg 8 64 (m_foff b) mem v = AssertFails /\ load_checked true 8 64 (m_foff b) 8 mem = None /\ assign_imm true 64 v = None.
Proof. eexists _, _. split; [vm_compute; reflexivity|]. split; [reflexivity|]. split; [reflexivity|]. intros. repeat split. Qed.

Print Assumptions C18_store_load_partial. Print Assumptions C18_load. Print Assumptions C18_assign_value.
Print Assumptions C18_narrow_store_refuted. Print Assumptions C18_narrow_load_refuted. Print Assumptions C18_full_width_refuted.
