(* C27: how values are passed to and returned from functions. *)
From Coq Require Import List ZArith Bool Lia.
From Verif Require Import TypeModel LayoutModel LayoutSpec LayoutProofs AbiModel AbiSpec AbiProofs.
Import ListNotations.
Open Scope Z_scope.

(* Every complete scalar, struct and union type is classified as the ABI says.
   Missing: aggregates with _Bool members, and aggregates of at most 16 bytes with a member that is not at a multiple of its
   own size (see the refutations below); a long double overlapping an integer at an offset of 8 or more (Abi says nothing);
   bit-fields and flexible array members (not in ctype). *)
Theorem C27_classify_partial c : complete c -> (forall n e, c <> CArray n e) -> (aggregate c -> forall o, ~ Leaf c 0 T_BOOL o) ->
  (csize c <= 16 -> size_aligned c) ->
  exists t pc, elab c = Done t /\ classify t = Some pc /\ Abi c (classes ((csize c + 7) / 8) pc).
Proof. exact (classify_ok c). Qed.
Print Assumptions C27_classify_partial.

(* struct { double d; struct { int i; char c[4]; } s; }: SSE, INTEGER *)
Definition s27 : ctype := CStruct [(1, CScalar T_DOUBLE); (2, CStruct [(1, CScalar T_INT); (2, CArray 4 (CScalar T_CHAR))])].
Lemma leaf27 k o : Leaf s27 0 k o -> k <> T_BOOL.
Proof.
  intros X ->. inversion X as [| |? os e j n c p ? ? ? P A B X'|]; subst. destruct j as [|[|j]]; cbn in A; [| |destruct j; discriminate].
  - injection A as <- <-. inversion X'.
  - injection A as <- <-. inversion X' as [| |? os' e' j' n' c' p' ? ? ? P' A' B' X2|]; subst. destruct j' as [|[|j']]; cbn in A'; [| |destruct j'; discriminate].
    + injection A' as <- <-. inversion X2.
    + injection A' as <- <-. inversion X2 as [|? ? ? ? ? ? ? X3| |]; subst. inversion X3.
Qed.
Lemma placed27 os e : Placed 0 [(1, CScalar T_DOUBLE); (2, CStruct [(1, CScalar T_INT); (2, CArray 4 (CScalar T_CHAR))])] os e -> os = [0; 8].
Proof. intro P. apply placed_unique in P; [|repeat constructor]. destruct P as [-> _]. reflexivity. Qed.
Example C27_instance :
  complete s27 /\ (forall n e, s27 <> CArray n e) /\ (aggregate s27 -> forall o, ~ Leaf s27 0 T_BOOL o) /\ (csize s27 <= 16 -> size_aligned s27) /\
  exists t, elab s27 = Done t /\ classify t = Some [SSE; INTEGER; NO_CLASS; NO_CLASS].
Proof.
  split; [cbn; repeat split; try lia; try discriminate; try (intro X; cbn in X; intuition discriminate); repeat constructor; cbn; intuition discriminate|].
  split; [discriminate|]. split; [intros _ o X; exact (leaf27 _ _ X eq_refl)|]. split.
  - intros _ os e j n c p P A B. rewrite (placed27 _ _ P) in B. destruct j as [|[|j]]; cbn in A, B; [| |destruct j; discriminate];
      injection A as <- <-; injection B as <-; reflexivity.
  - eexists. split; [vm_compute; reflexivity|vm_compute; reflexivity].
Qed.

(* struct { int x; int a[2]; }: two eightbytes of integers, but passed in memory: the member a is at offset 4, not a
   multiple of its size (abi.c:20). *)
Theorem C27_unaligned_refuted : exists c t, complete c /\ elab c = Done t /\ classify t = Some [MEMORY; NO_CLASS; NO_CLASS; NO_CLASS] /\
  ~ Abi c (classes ((csize c + 7) / 8) [MEMORY; NO_CLASS; NO_CLASS; NO_CLASS]).
Proof.
  exists (CStruct [(1, CScalar T_INT); (2, CArray 2 (CScalar T_INT))]). eexists. split; [|split; [vm_compute; reflexivity|split; [vm_compute; reflexivity|]]].
  - cbn; repeat split; try lia; try discriminate; try (intro X; cbn in X; intuition discriminate); repeat constructor; cbn; intuition discriminate.
  - intros [_ A]. destruct A as [A _]; [vm_compute; discriminate|]. destruct A as [A _].
    + intros o X. inversion X as [| |? os e j n c p ? ? ? P A B X'|]; subst. destruct j as [|[|j]]; cbn in A; [| |destruct j; discriminate].
      * injection A as <- <-. inversion X'.
      * injection A as <- <-. inversion X' as [|? ? ? ? ? ? ? X2| |]; subst. inversion X2.
    + vm_compute in A. discriminate A.
Qed.
Print Assumptions C27_unaligned_refuted.

(* struct { _Bool b; }: a failed assertion (abi.c:50) *)
Theorem C27_bool_refuted : exists c t, complete c /\ elab c = Done t /\ classify t = None.
Proof.
  exists (CStruct [(1, CScalar T_BOOL)]). eexists. split; [|split; [vm_compute; reflexivity|vm_compute; reflexivity]].
  cbn; repeat split; try lia; try discriminate; try (intro X; cbn in X; intuition discriminate); repeat constructor; cbn; intuition discriminate.
Qed.
Print Assumptions C27_bool_refuted.
