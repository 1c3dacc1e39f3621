(* C15: integer promotions, usual arithmetic conversions and default argument promotions. *)
From Coq Require Import ZArith Bool.
From Verif Require Import TypeModel TypeSpec TypeProofs.
Open Scope Z_scope.

(* For all arithmetic types with all qualifiers: the common type is the one C99 6.3.1.8 prescribes,
   without qualifiers, and does not depend on the order of the operands. *)
Theorem C15_common_type : forall t1 t2 a1 a2, denotes t1 a1 -> denotes t2 a2 ->
  exists c, Common a1 a2 c /\ (forall d, Common a1 a2 d -> d = c) /\
    denotes (usual_arithmetic_conversion t1 t2) c /\ unqualified (usual_arithmetic_conversion t1 t2) /\
    denotes (usual_arithmetic_conversion t2 t1) c.
Proof.
  intros t1 t2 a1 a2 H1 H2. destruct (common_ok _ _ _ _ H1 H2) as (c & HD & HC). exists c.
  split; [exact HC|]. split; [intros d Hd; exact (common_unique _ _ _ _ Hd HC)|]. split; [exact HD|].
  split; [exact (common_unqualified _ _ _ _ H1 H2)|].
  destruct (common_ok _ _ _ _ H2 H1) as (c' & HD' & HC'). apply common_sym in HC'.
  rewrite (common_unique _ _ _ _ HC HC'). exact HD'.
Qed.
Print Assumptions C15_common_type.

Theorem C15_promotion : forall t k, denotes t (I k) ->
  exists p, Promoted k p /\ (forall q, Promoted k q -> q = p) /\ denotes (promote_integer t) (I p).
Proof.
  intros t k H. exists (prom k). split; [apply prom_ok|]. split; [|apply promote_denotes, H].
  intros q Hq. exact (promoted_unique _ _ _ Hq (prom_ok k)).
Qed.
Print Assumptions C15_promotion.

Theorem C15_default_argument_promotion : forall t a, denotes t a ->
  exists c, DefaultArg a c /\ denotes (default_argument_promotion t) c.
Proof. intros t a H. destruct (default_ok t a H) as (c & HD & HC). eauto. Qed.
Print Assumptions C15_default_argument_promotion.

(* const unsigned int and volatile long *)
Example C15_instance :
  let t1 := mkType T_INT true true false false false false false false 0 in
  let t2 := mkType T_LONG false false true false false false false false 0 in
  denotes t1 (I UInt) /\ denotes t2 (I Long) /\ usual_arithmetic_conversion t1 t2 = basic_type__long.
Proof. vm_compute. auto. Qed.
