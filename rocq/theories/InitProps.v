(* C35 *)
From Coq Require Import List ZArith Bool Lia.
From Verif Require Import TypeModel LayoutModel InitModel InitSpec InitProofs.
Import ListNotations.
Open Scope Z_scope.

(* Without bit-fields: whatever the order of the designators, the result writes every bit of the object once, in order,
   with the last value given to it, or zero. *)
Theorem C35_bytes size src : 0 <= size -> Forall Plain src -> Forall (Inside size) src -> (forall x y, In x src -> In y src -> Separate x y) ->
  exists out, postprocess src size = Some out /\ Correct src size out.
Proof. exact (plain_correct size src). Qed.
Print Assumptions C35_bytes.

(* With bit-fields, whenever no assertion fails.
   Missing: fields with values that are not constant, initializers that overlap in part (see the refutations). *)
Theorem C35_fields_partial size src out : Forall (Item size) src -> (forall x y, In x src -> In y src -> Apart x y) ->
  postprocess src size = Some out -> Correct src size out.
Proof. exact (fields_correct size src out). Qed.
Print Assumptions C35_fields_partial.
(* What is written is within the type it is written with, if the initializers are. *)
Theorem C35_fits_partial size src out : Forall (Item size) src -> (forall x y, In x src -> In y src -> Apart x y) -> Forall Fits src ->
  postprocess src size = Some out -> Forall Fits out.
Proof. exact (fields_fit size src out). Qed.
Print Assumptions C35_fits_partial.

(* No assertion fails when the fields of a unit are initialized in order and within 32 bits.  Missing: other orders, units
   of 64 bits, an object that is one field, fields that end where the next member begins other than at bit 8, 16 or 32 of
   their unit (see the refutations). *)
Theorem C35_order_partial size src : 0 <= size -> Forall (Item size) src -> Forall Within_int src -> (forall x y, In x src -> In y src -> Apart x y) ->
  In_order src -> Ends_well size src -> (forall x, In x src -> a_fw x <> 0 -> width x < 8 * size) ->
  exists out, postprocess src size = Some out /\ Correct src size out.
Proof. exact (int_fields_correct size src). Qed.
Print Assumptions C35_order_partial.

(* struct { char a; short b; int c[3]; long d; } x = { .d = v, .c[1] = 5, .a = 1, .c[1] = 6 }; *)
Definition ex35 : list asg := [mkAsg 16 8 0 0 (Other 0); mkAsg 8 4 0 0 (Const 5); mkAsg 0 1 0 0 (Const 1); mkAsg 8 4 0 0 (Const 6)].
Example C35_instance : Forall Plain ex35 /\ Forall (Inside 24) ex35 /\ (forall x y, In x ex35 -> In y ex35 -> Separate x y) /\
  postprocess ex35 24 = Some [mkAsg 0 1 0 0 (Const 1); mkAsg 1 1 0 0 (Const 0); mkAsg 2 1 0 0 (Const 0); mkAsg 3 1 0 0 (Const 0); mkAsg 4 4 0 0 (Const 0);
    mkAsg 8 4 0 0 (Const 6); mkAsg 12 4 0 0 (Const 0); mkAsg 16 8 0 0 (Other 0)].
Proof.
  split; [repeat constructor|]. split; [repeat (constructor; [unfold Inside; cbn; lia|]); constructor|]. split; [|vm_compute; reflexivity].
  intros x y X Y. cbn in X, Y. unfold Separate. destruct X as [<-|[<-|[<-|[<-|[]]]]]; destruct Y as [<-|[<-|[<-|[<-|[]]]]]; cbn; lia.
Qed.

(* struct { char a; int b : 3, c : 7, d : 9; short e; } x = { .e = v, .b = 3, .d = 5 }; *)
Definition st35 := [DMember 1 (LScalar T_CHAR); DField 2 T_INT 3; DField 3 T_INT 7; DField 4 T_INT 9; DMember 5 (LScalar T_SHORT)].
Definition ex35f : list asg := [mkAsg 8 2 0 0 (Other 0); mkAsg 4 4 0 3 (Const 3); mkAsg 4 4 10 9 (Const 5)].
Example C35_field_layout : exists f ms, struct_or_union false st35 = Done (LAgg false f 12 ms) /\
  map (fun m => (m_offset m, m_foff m, m_width m)) ms = [(0, 0, 0); (4, 0, 3); (4, 3, 7); (4, 10, 9); (8, 0, 0)].
Proof. eexists. eexists. split; vm_compute; reflexivity. Qed.
Ltac each X := cbn [In ex35f] in X; repeat match type of X with _ \/ _ => destruct X as [<-|X] end; try contradiction X.
Ltac ordp := unfold In_order; repeat (apply FOP_cons; [repeat (apply Forall_cons; [cbn [a_off]; let Q := fresh in intro Q; first [discriminate Q
  |right; vm_compute; split; [discriminate|split; discriminate]]|]); apply Forall_nil|]); apply FOP_nil.
Example C35_fields_instance : Forall (Item 12) ex35f /\ Forall Within_int ex35f /\ (forall x y, In x ex35f -> In y ex35f -> Apart x y) /\ In_order ex35f /\ Ends_well 12 ex35f /\
  (forall x, In x ex35f -> a_fw x <> 0 -> width x < 8 * 12) /\ Forall Fits ex35f /\
  postprocess ex35f 12 = Some [mkAsg 0 4 0 0 (Const 0); mkAsg 4 4 0 0 (Const 5123); mkAsg 8 2 0 0 (Other 0); mkAsg 10 2 0 0 (Const 0)] /\ 5123 = Z.lor 3 (Z.shiftl 5 10).
Proof.
  split; [|split; [|split; [|split; [|split; [|split; [|split; [|vm_compute; split; reflexivity]]]]]]].
  - apply Forall_forall. intros x X. each X; (split; [cbn; lia|split; [vm_compute; discriminate|]]); [left; vm_compute; auto|right|right]; cbn; (split; [lia|split; [lia|split; [lia|eauto]]]).
  - apply Forall_forall. intros x X. each X; vm_compute; try discriminate; intuition discriminate.
  - intros x y X Y. each X; each Y; unfold Apart, last, first, width; cbn; lia.
  - ordp.
  - intros x e X N HE. each X; unfold last, first, width; cbn; try lia; destruct HE as [->|(y & Y & <-)]; try lia; each Y; cbn; lia.
  - intros x X N. each X; vm_compute; reflexivity.
  - apply Forall_forall. intros x X. each X; unfold Fits; cbn; lia.
Qed.

(* Not so with values that are not constant: struct { int a : 4, b : 4, c : 4; } x = { v, 1, 2 };  b is 0. *)
Theorem C35_merge_refuted : exists size src out x q, (forall x y, In x src -> In y src -> Apart x y) /\ In_order src /\ Forall Within_int src /\ Ends_well size src /\
  postprocess src size = Some out /\ In x out /\ covers x q /\ bit_at x q = B false /\ Initial src q (B true).
Proof.
  exists 4, [mkAsg 0 4 0 4 (Other 0); mkAsg 0 4 4 4 (Const 1); mkAsg 0 4 8 4 (Const 2)]. eexists. eexists. exists 4.
  split; [intros x y X Y; each X; each Y; unfold Apart, last, first, width; cbn; lia|].
  split; [ordp|].
  split; [apply Forall_forall; intros x X; each X; vm_compute; intuition discriminate|].
  split; [intros x e X N HE; each X; unfold last, first, width; cbn; (destruct HE as [->|(y & Y & <-)]; [lia|each Y; cbn; lia])|].
  split; [vm_compute; reflexivity|]. split; [right; left; reflexivity|]. split; [vm_compute; split; [discriminate|reflexivity]|]. split; [vm_compute; reflexivity|].
  left. exists [mkAsg 0 4 0 4 (Other 0)], (mkAsg 0 4 4 4 (Const 1)), [mkAsg 0 4 8 4 (Const 2)]. split; [reflexivity|]. split; [vm_compute; split; [discriminate|reflexivity]|]. split; [vm_compute; reflexivity|].
  constructor; [|constructor]. unfold covers. cbn. unfold first. cbn. lia.
Qed.
Print Assumptions C35_merge_refuted.

(* A field that is followed at once by another member: struct { int a : 24; char c; } x = { 1, 2 }; fails an assertion. *)
Theorem C35_ends_refuted : exists f ms src, struct_or_union false [DField 1 T_INT 24; DMember 2 (LScalar T_CHAR)] = Done (LAgg false f 4 ms) /\
  map (fun m => (m_offset m, m_foff m, m_width m)) ms = map (fun x => (a_off x, a_foff x, a_fw x)) src /\ postprocess src 4 = None.
Proof.
  eexists. eexists. exists [mkAsg 0 4 0 24 (Const 1); mkAsg 3 1 0 0 (Const 2)]. split; [vm_compute; reflexivity|]. split; vm_compute; reflexivity.
Qed.
Print Assumptions C35_ends_refuted.
(* With x = { v, 2 }; four bytes of zeros are written over a. *)
Theorem C35_ends_other_refuted : exists src out x, map a_val src = [Other 0; Const 2] /\ map (fun x => (a_off x, a_foff x, a_fw x)) src = [(0, 0, 24); (3, 0, 0)] /\
  postprocess src 4 = Some out /\ In x out /\ a_off x = 0 /\ a_size x = 4 /\ a_fw x = 0 /\ a_val x = Const 0 /\ ~ Contiguous 0 out (8 * 4).
Proof.
  exists [mkAsg 0 4 0 24 (Other 0); mkAsg 3 1 0 0 (Const 2)]. eexists. exists (mkAsg 0 4 24 0 (Const 0)). split; [reflexivity|]. split; [reflexivity|].
  split; [vm_compute; reflexivity|]. split; [right; left; reflexivity|]. repeat (split; [reflexivity|]). vm_compute. intros (_ & _ & _ & _ & X & _). discriminate X.
Qed.
Print Assumptions C35_ends_other_refuted.

(* Other orders: struct { int a : 4, b : 4; } x = { .b = 1, .a = 2 }; and x = { .a = 1, .b = 2, .a = 3 }; *)
Theorem C35_order_refuted : exists size src, Forall (Item size) src /\ Forall Within_int src /\ (forall x y, In x src -> In y src -> Apart x y) /\ Ends_well size src /\
  NoDup (map (fun x => (a_off x, a_foff x)) src) /\ postprocess src size = None.
Proof.
  exists 4, [mkAsg 0 4 4 4 (Const 1); mkAsg 0 4 0 4 (Const 2)].
  split; [repeat (constructor; [split; [cbn; lia|split; [vm_compute; discriminate|right; cbn; split; [lia|split; [lia|split; [lia|eauto]]]]]|]); constructor|].
  split; [apply Forall_forall; intros x X; each X; vm_compute; intuition discriminate|].
  split; [intros x y X Y; each X; each Y; unfold Apart, last, first, width; cbn; lia|].
  split; [intros x e X N HE; each X; unfold last, first, width; cbn; (destruct HE as [->|(y & Y & <-)]; [lia|each Y; cbn; lia])|].
  split; [|vm_compute; reflexivity]. cbn. repeat constructor; cbn; intuition discriminate.
Qed.
Print Assumptions C35_order_refuted.
Theorem C35_twice_refuted : exists size src, Forall (Item size) src /\ Forall Within_int src /\ (forall x y, In x src -> In y src -> Apart x y) /\ Ends_well size src /\
  map a_foff src = [0; 4; 0] /\ postprocess src size = None.
Proof.
  exists 4, [mkAsg 0 4 0 4 (Const 1); mkAsg 0 4 4 4 (Const 2); mkAsg 0 4 0 4 (Const 3)].
  split; [repeat (constructor; [split; [cbn; lia|split; [vm_compute; discriminate|right; cbn; split; [lia|split; [lia|split; [lia|eauto]]]]]|]); constructor|].
  split; [apply Forall_forall; intros x X; each X; vm_compute; intuition discriminate|].
  split; [intros x y X Y; each X; each Y; unfold Apart, last, first, width; cbn; lia|].
  split; [intros x e X N HE; each X; unfold last, first, width; cbn; (destruct HE as [->|(y & Y & <-)]; [lia|each Y; cbn; lia])|].
  split; [reflexivity|vm_compute; reflexivity].
Qed.
Print Assumptions C35_twice_refuted.

(* struct { int a : 32; } x = { 1 };  and  struct { int a : 16, b : 16; long c : 10; } x = { 1, 2, 3 }; fail an assertion. *)
Theorem C35_units_refuted : exists ds f size ms src, struct_or_union false ds = Done (LAgg false f size ms) /\
  map (fun m => (m_offset m, m_foff m, m_width m)) ms = map (fun x => (a_off x, a_foff x, a_fw x)) src /\ In_order src /\ Ends_well size src /\
  ds = [DField 1 T_INT 16; DField 2 T_INT 16; DField 3 T_LONG 10] /\ postprocess src size = None.
Proof.
  eexists. eexists. eexists. eexists. exists [mkAsg 0 4 0 16 (Const 1); mkAsg 0 4 16 16 (Const 2); mkAsg 0 8 32 10 (Const 3)].
  split; [|split; [|split; [|split; [|split; [reflexivity|]]]]].
  - vm_compute. reflexivity.
  - reflexivity.
  - ordp.
  - intros x e X N HE. each X; unfold last, first, width; cbn; (destruct HE as [->|(y & Y & <-)]; [lia|each Y; cbn; lia]).
  - vm_compute. reflexivity.
Qed.
Print Assumptions C35_units_refuted.
Theorem C35_single_refuted : exists f ms src, struct_or_union false [DField 1 T_INT 32] = Done (LAgg false f 4 ms) /\
  map (fun m => (m_offset m, m_foff m, m_width m)) ms = map (fun x => (a_off x, a_foff x, a_fw x)) src /\ postprocess src 4 = None.
Proof. eexists. eexists. exists [mkAsg 0 4 0 32 (Const 1)]. split; [vm_compute; reflexivity|]. split; vm_compute; reflexivity. Qed.
Print Assumptions C35_single_refuted.

(* Initializers that overlap in part: struct { struct { int x, y; } a; } b = { .a = v, .a.x = 1 };  y should be that of v and is 0. *)
Theorem C35_overlap_refuted : exists size src out x q, Forall Plain src /\ Forall (Inside size) src /\ postprocess src size = Some out /\
  In x out /\ covers x q /\ bit_at x q = B false /\ Initial src q (BOf 0 q).
Proof.
  exists 8, [mkAsg 0 8 0 0 (Other 0); mkAsg 0 4 0 0 (Const 1)]. eexists. eexists. exists 40.
  split; [repeat constructor|]. split; [repeat (constructor; [unfold Inside; cbn; lia|]); constructor|]. split; [vm_compute; reflexivity|]. split; [right; left; reflexivity|].
  split; [vm_compute; split; [discriminate|reflexivity]|]. split; [vm_compute; reflexivity|].
  left. exists [], (mkAsg 0 8 0 0 (Other 0)), [mkAsg 0 4 0 0 (Const 1)]. split; [reflexivity|]. split; [vm_compute; split; [discriminate|reflexivity]|]. split; [vm_compute; reflexivity|].
  constructor; [|constructor]. unfold covers, last, first, width. cbn. lia.
Qed.
Print Assumptions C35_overlap_refuted.
