(* C54: expressions of integers, objects and pointers are what C says. *)
From Coq Require Import List Bool Arith ZArith Lia.
From Verif Require Import PtrModel PtrSpec PtrProofs PtrMain.
Import ListNotations.
Open Scope Z_scope.

(* An expression that designates an object is compiled to statements that change no temporary there was, and an operand that is an
   object of the type and is found at the address. *)
Theorem C54_object : forall G w e t a, tags_ok G -> world_ok w -> types_ok G e -> denotes G w e = Some (At t a) ->
  forall k l T, exists v k' l' T', compile G e (k, l) = Ok (as_expr v, (k', l ++ l')) /\
    run G w l' T = Some T' /\ (forall i, (i < k)%nat -> T' i = T i) /\
    vtype v = t /\ lvalue v = true /\ location w T' v = Some a.
Proof.
  intros G w e t a GO WO Y D k l T. destruct (compile_ok G w GO WO e _ Y D) as [_ H].
  destruct (H k T l) as (x & k' & l' & T' & E & _ & R & A & v & -> & _ & B). exists v, k', l', T'. split; [exact E|]. split; [exact R|]. split; [exact A|exact B].
Qed.
Print Assumptions C54_object.

(* One that is a value is compiled to an expression of its type, whose 64 bits are the value. *)
Theorem C54_value : forall G w e t z, tags_ok G -> world_ok w -> types_ok G e -> denotes G w e = Some (Val t z) ->
  forall k l T, exists x k' l' T', compile G e (k, l) = Ok (x, (k', l ++ l')) /\
    run G w l' T = Some T' /\ (forall i, (i < k)%nat -> T' i = T i) /\
    e_type x = t /\ meaning G w T' x = Some (z mod 2 ^ 64) /\ fits t z.
Proof.
  intros G w e t z GO WO Y D k l T. destruct (compile_ok G w GO WO e _ Y D) as [O H].
  destruct (H k T l) as (x & k' & l' & T' & E & _ & R & A & B & S). exists x, k', l', T'. split; [exact E|]. split; [exact R|]. split; [exact A|].
  destruct B as [(v & -> & W & Ev & V)|(_ & Ex & _ & _ & M & _)].
  - split; [exact Ev|]. split; [|apply O]. unfold meaning, as_expr. cbn [e_l e_op e_type]. rewrite V, Ev. f_equal. apply (num_convert G). exact O.
  - split; [exact Ex|]. split; [exact M|apply O].
Qed.
Print Assumptions C54_value.

(* And where its value is used, that is what the object holds, or the address of the first element of an array. *)
Theorem C54_read : forall G w e r t z, tags_ok G -> world_ok w -> types_ok G e -> denotes G w e = Some r -> value_of w r = Some (t, z) ->
  forall k l T, exists v k' l' T', (let* x := compile G e in let* v := eval x in rvalue G v) (k, l) = Ok (v, (k', l ++ l')) /\
    run G w l' T = Some T' /\ (forall i, (i < k)%nat -> T' i = T i) /\
    vtype v = t /\ value G w T' v = Some (z mod 2 ^ 64) /\ fits t z.
Proof.
  intros G w e r t z GO WO Y D E k l T. pose proof (compile_ok G w GO WO e _ Y D) as C.
  assert (F : fits t z).
  { eapply (of_operand G w e r); [exact C|]. intros v k0 T0 W H. apply (rvalue_ok G w GO k0 T0 v r t z W H (result_fits _ _ (proj1 C)) E). }
  assert (X : gives G w (let* x := compile G e in let* v := eval x in rvalue G v) k T (var_is G w t (wrap z))).
  { eapply operand; [exact C|]. intros v k1 T1 _ _ W H. apply (rvalue_ok G w GO k1 T1 v r t z W H (result_fits _ _ (proj1 C)) E). }
  destruct (X l) as (v & k' & l' & T' & R & _ & Q & A & _ & B). exists v, k', l', T'. split; [exact R|]. split; [exact Q|]. split; [exact A|]. split; [apply B|]. split; [apply B|exact F].
Qed.
Print Assumptions C54_read.

(* ---- examples ---- *)
(* struct node { int v; struct node *next; int a[3]; }; struct node *p; struct node x[4]; *)
Definition node : cty := TStr 0.
Definition ex_tags : tagged := fun i => match i with O => (32, [(0%nat, (0, int)); (1%nat, (8, TPtr node)); (2%nat, (16, TArr 3 int))]) | _ => (0, []) end.
(* p is at 1000 and holds 2000; there, next is 3000, and at 3024 there is -2 *)
Definition ex_world : world :=
  mkW (fun a => if a =? 1000 then 208 else if a =? 1001 then 7 else if a =? 2008 then 184 else if a =? 2009 then 11
                else if a =? 3024 then 254 else if (3024 <? a) && (a <? 3028) then 255 else 0)
      (fun x => match x with O => 1000 | S O => 2000 | _ => 4096 end).
Definition ex_p := EVar 0 (TPtr node).
Definition ex_x := EVar 1 (TArr 4 node).
Example ex_tags_ok : tags_ok ex_tags.
Proof.
  intros [|i]; cbn; [|split; [split; [lia|reflexivity]|contradiction]]. split; [split; [lia|reflexivity]|].
  intros m o t [E|[E|[E|[]]]]; injection E as <- <- <-; cbn; repeat split; auto; lia.
Qed.
Example ex_world_ok : world_ok ex_world.
Proof. intros [|[|x]]; cbn; split; (lia || reflexivity). Qed.
(* p->next->a[2] *)
Definition ex_e := EIndex (EArrow (EArrow ex_p 1) 2) (ENum int 2).
Example C54_object_ex : types_ok ex_tags ex_e /\ denotes ex_tags ex_world ex_e = Some (At int 3024) /\ value_of ex_world (At int 3024) = Some (int, -2).
Proof. split; [cbn; auto 10|]. split; vm_compute; reflexivity. Qed.
Example C54_object_code : match compile ex_tags ex_e (0%nat, []) with Ok (x, (n, l)) => n = 3%nat /\ length l = 3%nat | _ => False end.
Proof. vm_compute. split; reflexivity. Qed.
(* (p + 1) - x, where p is x; and &x[3].next *)
Example C54_value_ex :
  types_ok ex_tags (ESub (EAdd ex_p (ENum int 1)) ex_x) /\ denotes ex_tags ex_world (ESub (EAdd ex_p (ENum int 1)) ex_x) = Some (Val long 1) /\
  denotes ex_tags ex_world (ESub ex_p (EAdd ex_x (ENum int 3))) = Some (Val long (-3)) /\
  denotes ex_tags ex_world (EAddr (EMember (EIndex ex_x (ENum int 3)) 1)) = Some (Val (TPtr (TPtr node)) 2104).
Proof.
  split; [cbn; repeat split; auto; lia || reflexivity|]. split; [vm_compute; reflexivity|]. split; [vm_compute; reflexivity|]. vm_compute. reflexivity.
Qed.

(* x[2 * (x + 1 - p) + 1u - 1].a: the index is of type long, and 0u - 1 of type unsigned int is 4294967295 *)
Example C54_index_ex :
  denotes ex_tags ex_world (EMember (EIndex ex_x (ESub (EAdd (EMul (ENum int 2) (ESub (EAdd ex_x (ENum int 1)) ex_p)) (ENum (TInt 4 false) 1)) (ENum int 1))) 2) = Some (At (TArr 3 int) 2080) /\
  denotes ex_tags ex_world (ESub (ENum (TInt 4 false) 0) (ENum char 1)) = Some (Val (TInt 4 false) 4294967295) /\
  denotes ex_tags ex_world (EMul (ENum int 65536) (ENum int 65536)) = None.
Proof. split; [vm_compute; reflexivity|]. split; vm_compute; reflexivity. Qed.

(* p->next->a[2] is -2: divided by 3, and the rest; shifted; as unsigned long; and there is no x / 0, 1 << 32, INT_MIN / -1 *)
Definition ex_bin (o : bop) (b : exp) := denotes ex_tags ex_world (EBin o ex_e b).
Example C54_operators_ex :
  ex_bin Div (ENum int 3) = Some (Val int 0) /\ ex_bin Mod (ENum int 3) = Some (Val int (-2)) /\ ex_bin Shr (ENum char 1) = Some (Val int (-1)) /\
  ex_bin And (ENum ulong 255) = Some (Val ulong 254) /\ ex_bin Xor (ENum char 1) = Some (Val int (-1)) /\ ex_bin Or (ENum long 1) = Some (Val long (-1)) /\
  ex_bin Lt (ENum int 0) = Some (Val int 1) /\ ex_bin Lt (ENum (TInt 4 false) 0) = Some (Val int 0) /\ ex_bin Ge (ENum long (-2)) = Some (Val int 1) /\
  ex_bin Div (ENum int 0) = None /\ denotes ex_tags ex_world (EBin Shl (ENum int 1) (ENum int 32)) = None /\
  denotes ex_tags ex_world (EBin Shl (ENum (TInt 4 false) 3) (ENum int 31)) = Some (Val (TInt 4 false) 2147483648) /\
  denotes ex_tags ex_world (EBin Div (ENum int (-2147483648)) (ENum int (-1))) = None.
Proof. repeat split; vm_compute; reflexivity. Qed.
(* !(x + 1 <= p), p != 0, !p, x == p; -p->next->a[2], ~ and + of the type char *)
Example C54_unary_ex :
  denotes ex_tags ex_world (EUn LNot (EBin Le (EAdd ex_x (ENum int 1)) ex_p)) = Some (Val int 1) /\
  denotes ex_tags ex_world (EBin Ne ex_p (ENum int 0)) = Some (Val int 1) /\ denotes ex_tags ex_world (EUn LNot ex_p) = Some (Val int 0) /\
  denotes ex_tags ex_world (EBin Eq ex_x ex_p) = Some (Val int 1) /\ denotes ex_tags ex_world (EUn Minus ex_e) = Some (Val int 2) /\
  denotes ex_tags ex_world (EUn Not (ECast char ex_e)) = Some (Val int 1) /\ denotes ex_tags ex_world (EUn Plus (ECast char ex_e)) = Some (Val int (-2)) /\
  types_ok ex_tags (EUn LNot (EBin Le (EAdd ex_x (ENum int 1)) ex_p)).
Proof. repeat (split; [vm_compute; reflexivity|]). cbn; repeat split; auto; lia || reflexivity. Qed.
(* and the comparison that ! turns around is still one statement *)
Example C54_unary_code : match compile ex_tags (EUn LNot (EBin Le (EAdd ex_x (ENum int 1)) ex_p)) (0%nat, []) with Ok (x, (_, _)) => e_op x = GT | _ => False end.
Proof. vm_compute. reflexivity. Qed.

(* ---- what is not as C says ---- *)
Definition operand_of (e : exp) : var := match compile ex_tags e (0%nat, []) with Ok (x, _) => e_l x | _ => none end.
(* 6.5.3.2, 6.5.6, 6.5.4: the results are not lvalues; but &x, &*p, x + 1 for an array x, and (long) p are taken for such, and so can
   be assigned to: eval_assign looks only at the flag. *)
Theorem C54_lvalue_refuted : forall e, In e [EAddr ex_x; EAddr (EDeref ex_p); EAdd ex_x (ENum int 1); ECast long ex_p] ->
  (exists t z, denotes ex_tags ex_world e = Some (Val t z)) /\
  exists v, compile ex_tags e (0%nat, []) = Ok (as_expr v, (0%nat, [])) /\ lvalue v = true.
Proof.
  intros e H. split.
  - destruct H as [<-|[<-|[<-|[<-|[]]]]]; eexists; eexists; vm_compute; reflexivity.
  - exists (operand_of e). destruct H as [<-|[<-|[<-|[<-|[]]]]]; split; vm_compute; reflexivity.
Qed.
Print Assumptions C54_lvalue_refuted.
(* The address of such a thing is a constraint violation.  For & &x there is no diagnostic but a failed assertion; & &*p and
   &(long) p are the address of p. *)
Theorem C54_address_of_value_refuted :
  compile ex_tags (EAddr (EAddr ex_x)) (0%nat, []) = Bad /\
  (forall e, In e [EAddr (EDeref ex_p); ECast long ex_p] -> denotes ex_tags ex_world (EAddr e) = None /\
    exists v, compile ex_tags (EAddr e) (0%nat, []) = Ok (as_expr v, (0%nat, [])) /\ value ex_tags ex_world (fun _ => 0) v = Some 1000).
Proof.
  split; [vm_compute; reflexivity|].
  intros e H. split; [destruct H as [<-|[<-|[]]]; vm_compute; reflexivity|]. exists (operand_of (EAddr e)). destruct H as [<-|[<-|[]]]; split; vm_compute; reflexivity.
Qed.
Print Assumptions C54_address_of_value_refuted.
(* A member of what is not a struct: a failed assertion *)
Theorem C54_member_of_integer_refuted : exists e, compile ex_tags e (0%nat, []) = Bad /\ forall w, denotes ex_tags w e = None.
Proof. exists (EMember (EVar 0 int) 0). split; [vm_compute; reflexivity|]. intros w. reflexivity. Qed.
Print Assumptions C54_member_of_integer_refuted.
(* Pointers to different types are subtracted, when the second is larger than a char *)
Theorem C54_difference_refuted : exists a b, denotes ex_tags ex_world (ESub a b) = None /\
  match compile ex_tags (ESub a b) (0%nat, []) with Ok _ => True | _ => False end.
Proof. exists ex_p, (EVar 1 (TPtr int)). split; vm_compute; [reflexivity|exact I]. Qed.
Print Assumptions C54_difference_refuted.
(* In a struct of 3 GB, the address of a member behind the first 2 GB is before the struct.
   struct { char a[2147483648]; char b; } *p;  &p->b *)
Definition big_tags : tagged := fun i => match i with O => (2147483652, [(0%nat, (0, TArr 2147483648 char)); (1%nat, (2147483648, char))]) | _ => (0, []) end.
Definition big_world : world := mkW (fun a => if a =? 1005 then 1 else 0) (fun _ => 1000).
Definition big_e := EAddr (EArrow (EVar 0 (TPtr (TStr 0))) 1).
Theorem C54_large_refuted : exists z, denotes big_tags big_world big_e = Some (Val (TPtr char) z) /\
  match compile big_tags big_e (0%nat, []) with
  | Ok (x, (_, l)) => match run big_tags big_world l (fun _ => 0) with Some T => meaning big_tags big_world T x = Some (z - 2 ^ 32) | None => False end
  | _ => False
  end.
Proof. exists (2 ^ 40 + 2147483648). split; vm_compute; reflexivity. Qed.
Print Assumptions C54_large_refuted.
