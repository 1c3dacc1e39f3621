(* C56: an expression is accepted when C gives it a type, and has that type. *)
From Coq Require Import List Bool Arith ZArith Lia.
From Verif Require Import PtrModel PtrSpec PtrProofs PtrMain PtrProps StoreModel TypedModel TypedSpec TypedProofs TypedDenotes TypedAssign.
Import ListNotations.
Open Scope Z_scope.

(* An expression that has a type is accepted, whatever its value would be, and even if it has none; what it is compiled to has the
   type, and code there was is kept.  An object is an lvalue; a value is of an integer or pointer type. *)
Theorem C56_accepted : forall G e t o, tags_ok G -> types_ok G e -> typed G e = Some (t, o) ->
  forall k l, exists x k' l', compile G e (k, l) = Ok (x, (k', l ++ l')) /\ e_type x = t /\ (k <= k')%nat /\
    if o then exists v, x = as_expr v /\ vtype v = t /\ lvalue v = true else scalar t = true.
Proof.
  intros G e t o GO Y T k l. destruct (compile_t G GO e Y t o k T l) as (x & k' & l' & E & L & R). exists x, k', l'. split; [exact E|].
  destruct R as [(v & -> & W & Ev & C)|[-> (_ & Ex & _ & S & _)]].
  - split; [exact Ev|]. split; [exact L|]. destruct o; [exists v; repeat split; auto; apply C|exact C].
  - auto.
Qed.
Print Assumptions C56_accepted.

(* One that has no type is refused: the compiler stops, with a diagnostic or a failed assertion (C54_member_of_integer_refuted). *)
Theorem C56_refused : forall G e, tags_ok G -> types_ok G e -> checked G e -> typed G e = None ->
  forall s, (compile G e s = Stop \/ compile G e s = Bad) /\ (compile_sizeof G e s = Stop \/ compile_sizeof G e s = Bad).
Proof.
  intros G e GO Y C T [k l]. pose proof (compile_no G GO e Y C T k) as F. split.
  - specialize (F l). destruct (compile G e (k, l)); [destruct F|auto|auto].
  - specialize (F []). unfold compile_sizeof. destruct (compile G e (k, [])); [destruct F|auto|auto].
Qed.
Print Assumptions C56_refused.

(* What C54 says expressions denote, and so what they are compiled to, is of the type they have here. *)
Theorem C56_values : forall G w e, tags_ok G -> world_ok w -> types_ok G e ->
  (forall t a, denotes G w e = Some (At t a) -> typed G e = Some (t, true)) /\
  (forall t z, denotes G w e = Some (Val t z) -> typed G e = Some (t, false) /\ fits t z).
Proof.
  intros G w e GO WO Y. split; [intros t a D; exact (denotes_typed G w GO WO e Y _ D)|]. intros t z D. split; [exact (denotes_typed G w GO WO e Y _ D)|].
  exact (proj2 (proj1 (compile_ok G w GO WO e _ Y D))).
Qed.
Print Assumptions C56_values.
Example C56_values_ex : types_ok ex_tags ex_e /\ denotes ex_tags ex_world ex_e = Some (At int 3024) /\ denotes ex_tags ex_world (EUn Minus ex_e) = Some (Val int 2).
Proof. split; [cbn; auto 10|]. split; vm_compute; reflexivity. Qed.

(* 6.5.3.4: sizeof is the number of bytes of the type, an unsigned long; the operand is not evaluated: there is no code for it *)
Theorem C56_sizeof : forall G e t o, tags_ok G -> types_ok G e -> typed G e = Some (t, o) ->
  forall k l, exists v k', compile_sizeof G e (k, l) = Ok (as_expr v, (k', l)) /\ (k <= k')%nat /\
    vtype v = ulong /\ lvalue v = false /\ forall w T, value G w T v = Some (width G t).
Proof.
  intros G e t o GO Y T k l. destruct (compile_t G GO e Y t o k T []) as (x & k' & l' & E & L & R).
  assert (X : e_type x = t /\ type_ok G t). { destruct R as [(v & -> & (Yv & _) & Ev & _)|[_ (_ & Ex & Yt & _)]]; [split; [exact Ev|rewrite <- Ev; exact Yv]|auto]. }
  destruct X as [Ex Yt]. exists (imm_int ulong (size_of G t)), k'. unfold compile_sizeof. rewrite E, Ex. split; [reflexivity|]. split; [exact L|]. split; [reflexivity|]. split; [reflexivity|].
  intros w T'. pose proof (size_ok G GO t Yt) as [A B]. unfold imm_int, ulong. cbn [convert]. rewrite extend8.
  unfold value, var_numeric. cbn [kind sym offset imm vtype]. rewrite Z.eqb_refl. f_equal. etransitivity; [apply wrap_id; rewrite p63 in B; rewrite p64; lia|symmetry; exact (width_size G t)].
Qed.
Print Assumptions C56_sizeof.

(* An assignment that has a type is accepted; what is stored is of the type of the object, and so is the result. *)
Theorem C56_assignment : forall G s t, tags_ok G -> assignment_types_ok G s -> typed_assignment G s = Some t ->
  forall k l, exists st v k' l', compile_assignment G s (k, l) = Ok ((st, v), (k', l ++ l')) /\ (k <= k')%nat /\
    vtype (target st) = t /\ e_type (source st) = t /\ vtype v = t.
Proof.
  intros G s t GO Y T k l. destruct (assignment_t G GO s t Y T k l) as ([st v] & k' & l' & E & L & D). exists st, v, k', l'. split; [exact E|]. split; [exact L|exact D].
Qed.
Print Assumptions C56_assignment.
(* One that has none is refused. *)
Theorem C56_assignment_refused : forall G s, tags_ok G -> assignment_types_ok G s -> checked_assignment G s -> typed_assignment G s = None ->
  forall x, compile_assignment G s x = Stop \/ compile_assignment G s x = Bad.
Proof.
  intros G s GO Y C T [k l]. pose proof (assignment_no G GO s Y C T k l) as F. destruct (compile_assignment G s (k, l)); [destruct F|auto|auto].
Qed.
Print Assumptions C56_assignment_refused.

(* ---- examples ---- *)
Definition ex_c := EVar 2 char.
Definition ex_q := EVar 3 (TPtr int).
Definition ex_v := EVar 4 (TPtr TVoid).
(* p->next[c].a, &x[2].next, c << 1ul, c * 1u, x - p, p == 0, ~c, !x; and 1 / 0, which has a type but no value *)
Example C56_accepted_ex :
  typed ex_tags (EMember (EIndex (EArrow ex_p 1) ex_c) 2) = Some (TArr 3 int, true) /\
  typed ex_tags (EAddr (EMember (EIndex ex_x (ENum int 2)) 1)) = Some (TPtr (TPtr node), false) /\
  typed ex_tags (EBin Shl ex_c (ENum ulong 1)) = Some (int, false) /\ typed ex_tags (EBin Mul ex_c (ENum (TInt 4 false) 1)) = Some (TInt 4 false, false) /\
  typed ex_tags (EBin Sub ex_x ex_p) = Some (long, false) /\ typed ex_tags (EBin Eq ex_p (ENum int 0)) = Some (int, false) /\
  typed ex_tags (EUn Not ex_c) = Some (int, false) /\ typed ex_tags (EUn LNot ex_x) = Some (int, false) /\
  typed ex_tags (EBin Div (ENum int 1) (ENum int 0)) = Some (int, false) /\ denotes ex_tags ex_world (EBin Div (ENum int 1) (ENum int 0)) = None /\
  types_ok ex_tags (EMember (EIndex (EArrow ex_p 1) ex_c) 2).
Proof. repeat (split; [vm_compute; reflexivity|]). cbn; repeat split; auto. Qed.
(* p + x, c * p, v + 1 for a void *v, p < q, *c, p->next.v, x[0]->v, p->w, ~p, x[0] + 1, (int) *p, c[1] *)
Definition ex_refused : list exp :=
  [EBin Add ex_p ex_x; EBin Mul ex_c ex_p; EBin Add ex_v (ENum int 1); EBin Lt ex_p ex_q; EDeref ex_c; EMember (EArrow ex_p 1) 0; EArrow (EIndex ex_x (ENum int 0)) 0;
   EArrow ex_p 7; EUn Not ex_p; EBin Add (EIndex ex_x (ENum int 0)) (ENum int 1); ECast int (EDeref ex_p); EIndex ex_c (ENum int 1)].
Example C56_refused_ex : forall e, In e ex_refused -> types_ok ex_tags e /\ checked ex_tags e /\ typed ex_tags e = None.
Proof.
  intros e H. repeat (destruct H as [<-|H]; [split; [cbn; repeat split; auto; lia || reflexivity|split; [cbn; repeat split; auto; discriminate|vm_compute; reflexivity]]|]). destruct H.
Qed.
(* p = x, c = 1ul, *p = x[1], c <<= 1, p -= c, q++, --c *)
Example C56_assignment_ex :
  map (typed_assignment ex_tags) [Simple ex_p ex_x; Simple ex_c (ENum ulong 1); Simple (EDeref ex_p) (EIndex ex_x (ENum int 1)); Compound Shl ex_c (ENum int 1); Compound Sub ex_p ex_c; Postfix true ex_q; Prefix false ex_c] =
  map Some [TPtr node; char; node; char; TPtr node; TPtr int; char] /\ assignment_types_ok ex_tags (Simple (EDeref ex_p) (EIndex ex_x (ENum int 1))).
Proof. split; [vm_compute; reflexivity|cbn; repeat split; auto; lia || reflexivity]. Qed.
(* x = p, x++, c = p, c = *p, *p = c, *p += 1, p *= 2, v++ for a void *v, c += p, p = *p *)
Definition ex_wrong : list assignment :=
  [Simple ex_x ex_p; Postfix true ex_x; Simple ex_c ex_p; Simple ex_c (EDeref ex_p); Simple (EDeref ex_p) ex_c; Compound Add (EDeref ex_p) (ENum int 1);
   Compound Mul ex_p (ENum int 2); Prefix true ex_v; Compound Add ex_c ex_p; Simple ex_p (EDeref ex_p)].
Example C56_assignment_refused_ex : forall s, In s ex_wrong -> assignment_types_ok ex_tags s /\ checked_assignment ex_tags s /\ typed_assignment ex_tags s = None.
Proof.
  intros e H. repeat (destruct H as [<-|H]; [split; [cbn; repeat split; auto; lia || reflexivity|split; [cbn; repeat split; auto; discriminate|vm_compute; reflexivity]]|]). destruct H.
Qed.
(* sizeof x, sizeof (x + 0), sizeof p->next->a, sizeof *p, sizeof (c + c), sizeof c *)
Example C56_sizeof_ex :
  map (fun e => option_map (fun r => width ex_tags (fst r)) (typed ex_tags e))
      [ex_x; EBin Add ex_x (ENum int 0); EArrow (EArrow ex_p 1) 2; EDeref ex_p; EBin Add ex_c ex_c; ex_c] = map Some [128; 8; 12; 32; 4; 1] /\
  types_ok ex_tags (EArrow (EArrow ex_p 1) 2).
Proof. split; [vm_compute; reflexivity|cbn; auto]. Qed.

(* ---- what is not as C says ---- *)
(* 6.5.6: pointers that are subtracted have to be of the same type; but p - q is accepted for a struct node *p and an int *q, and
   even for a void *p: the bytes between are divided by the size of what the right one points to *)
Theorem C56_difference_refuted : forall e, In e [EBin Sub ex_p ex_q; EBin Sub ex_v ex_q] ->
  types_ok ex_tags e /\ typed ex_tags e = None /\ exists x s, compile ex_tags e (0%nat, []) = Ok (x, s).
Proof.
  intros e [<-|[<-|[]]]; (split; [cbn; auto|]; split; [vm_compute; reflexivity|]).
  - destruct (compile ex_tags (EBin Sub ex_p ex_q) (0%nat, [])) as [[x s]| |] eqn:E; [eauto|vm_compute in E; discriminate E|vm_compute in E; discriminate E].
  - destruct (compile ex_tags (EBin Sub ex_v ex_q) (0%nat, [])) as [[x s]| |] eqn:E; [eauto|vm_compute in E; discriminate E|vm_compute in E; discriminate E].
Qed.
Print Assumptions C56_difference_refuted.
(* 6.5.3.4: sizeof must not be applied to an incomplete type; but sizeof *v is 0 for a void *v, and so for a struct that is not defined *)
Theorem C56_sizeof_incomplete_refuted : forall e, In e [EDeref ex_v; EDeref (EVar 5 (TPtr (TStr 1)))] ->
  exists t, typed ex_tags e = Some (t, true) /\ complete ex_tags t = false /\ snd (ex_tags 1%nat) = [] /\
    compile_sizeof ex_tags e (0%nat, []) = Ok (as_expr (var_numeric ulong 0), (0%nat, [])).
Proof. intros e [<-|[<-|[]]]; eexists; repeat split; vm_compute; reflexivity. Qed.
Print Assumptions C56_sizeof_incomplete_refuted.
