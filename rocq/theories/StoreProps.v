(* C55: an assignment changes the object it is to, and nothing else. *)
From Coq Require Import List Bool Arith ZArith Lia.
From Verif Require Import PtrModel PtrSpec PtrProofs PtrMain PtrProps StoreModel StoreSpec StoreProofs StoreMain.
Import ListNotations.
Open Scope Z_scope.

(* a = b, a += b, a -= b, a *= b, ++a, --a, a++, a--: afterwards the object that a designates holds the value, converted to its type;
   no other byte of memory is changed, and no temporary that there was. *)
Theorem C55_assign : forall G w s t a z, tags_ok G -> world_ok w -> types_of G s -> assigns G w s t a z ->
  forall k l T, exists st r k' l' T' w', compile_assignment G s (k, l) = Ok ((st, r), (k', l ++ l')) /\
    run G w l' T = Some T' /\ (forall i, (i < k)%nat -> T' i = T i) /\ perform G w T' st = Some w' /\
    addr w' = addr w /\ held w' t a = Some z /\ (forall x, ~ (a <= x < a + width G t) -> mem w' x = mem w x).
Proof.
  intros G w s t a z GO WO Y A k l T. destruct (assignment_ok G w GO WO s t a z k T Y A l) as ([st r] & k' & l' & T' & E & _ & R & K & F).
  exists st, r, k', l', T', (stored G w t a (wrap z)). split; [exact E|]. split; [exact R|]. split; [exact K|].
  assert (P : perform G w T' st = Some (stored G w t a (wrap z))) by (destruct s; apply F). split; [exact P|]. split; [reflexivity|].
  destruct A as (D & u & y & C & M & ->). pose proof (may_scalar _ _ _ M) as S.
  assert (Y' : type_ok G t).
  { assert (X : types_ok G (left s)) by (destruct s; cbn in *; tauto). apply (compile_ok G w GO WO (left s) _ X D). }
  split; [apply held_put; [exact Y'|exact S|apply (converted_fits G); assumption]|]. intros x X. apply put_other. rewrite <- (width_size G). exact X.
Qed.
Print Assumptions C55_assign.

(* The value of the expression is of the type of the object, and is no object itself.  That of all but a++ and a-- is what was stored;
   apart says that on the way to the object there is no pointer that the assignment itself changes. *)
Theorem C55_value : forall G w s t a z, tags_ok G -> world_ok w -> types_of G s -> assigns G w s t a z ->
  forall k l T, exists st r k' l' T' w', compile_assignment G s (k, l) = Ok ((st, r), (k', l ++ l')) /\
    run G w l' T = Some T' /\ perform G w T' st = Some w' /\
    vtype r = t /\ (kind r = IMMEDIATE \/ lvalue r = false) /\
    match s with
    | Postfix _ e => exists z', StoreSpec.value G w e = Some (t, z') /\ PtrModel.value G w' T' r = Some (z' mod 2 ^ 64)
    | _ => apart w (left s) a (width G t) -> PtrModel.value G w' T' r = Some (z mod 2 ^ 64)
    end.
Proof.
  intros G w s t a z GO WO Y A k l T. destruct (assignment_ok G w GO WO s t a z k T Y A l) as ([st r] & k' & l' & T' & E & _ & R & K & F).
  exists st, r, k', l', T', (stored G w t a (wrap z)). split; [exact E|]. split; [exact R|]. rewrite (width_size G).
  assert (I : is_imm r = true -> kind r = IMMEDIATE) by (unfold is_imm; destruct (kind r); intros H; try discriminate H; reflexivity).
  destruct s; cbn [finished done fst snd] in F; destruct F as (F1 & F2 & F3 & F4); split; try exact F1; split; try exact F2; (split; [destruct F3; auto|]); try exact F4.
  destruct F4 as (z' & V & H). exists z'. split; [exact V|apply H].
Qed.
Print Assumptions C55_value.

(* Structs and unions are copied, byte by byte. *)
Theorem C55_struct : forall G w a b i p q, tags_ok G -> world_ok w -> types_ok G a -> types_ok G b ->
  denotes G w a = Some (At (TStr i) p) -> denotes G w b = Some (At (TStr i) q) ->
  forall k l T, exists st r k' l' T' w', compile_assignment G (Simple a b) (k, l) = Ok ((st, r), (k', l ++ l')) /\
    run G w l' T = Some T' /\ (forall i, (i < k)%nat -> T' i = T i) /\ (k <= k')%nat /\ perform G w T' st = Some w' /\ addr w' = addr w /\ vtype r = TStr i /\ lvalue r = false /\
    (forall j, 0 <= j < fst (G i) -> mem w' (p + j) = mem w (q + j)) /\ (forall x, ~ (p <= x < p + fst (G i)) -> mem w' x = mem w x).
Proof.
  intros G w a b i p q GO WO Ya Yb Da Db k l T. pose proof (compile_ok G w GO WO a _ Ya Da) as Ra. pose proof (compile_ok G w GO WO b _ Yb Db) as [_ Rb].
  assert (X : gives G w (compile_assignment G (Simple a b)) k T (fun r _ T' =>
    perform G w T' (fst r) = Some (mkW (fun x => if (p <=? x) && (x <? p + size_of G (TStr i)) then mem w (q + (x - p)) else mem w x) (addr w)) /\ vtype (snd r) = TStr i /\ lvalue (snd r) = false)).
  { cbn [compile_assignment]. eapply target_ok; [exact Ra|]. intros v k1 T1 _ _ W L _. eapply gives_bind; [apply Rb|]. cbv beta. intros e k2 T2 L2 A2 (u & -> & Wu & Lu).
    eapply gives_imp; [apply (struct_ok G w k2 T2 v i p u q (sound_more _ _ _ _ L2 W) (result_agree G w k1 T1 T2 v (At (TStr i) p) W A2 L) Wu Lu)|].
    cbv beta. intros r k3 T3 _ [P ->]. split; [exact P|]. split; reflexivity. }
  destruct (X l) as ([st r] & k' & l' & T' & E & LE & R & K & P & V & LV). eexists st, r, k', l', T', _. split; [exact E|]. split; [exact R|]. split; [exact K|]. split; [exact LE|]. split; [exact P|].
  split; [reflexivity|]. split; [exact V|]. split; [exact LV|]. cbn [mem size_of]. split.
  - intros j B. destruct (Z.leb_spec p (p + j)); [|lia]. destruct (Z.ltb_spec (p + j) (p + fst (G i))); [|lia]. cbn [andb]. f_equal. lia.
  - intros x B. destruct (Z.leb_spec p x); [|reflexivity]. destruct (Z.ltb_spec x (p + fst (G i))); [lia|reflexivity].
Qed.
Print Assumptions C55_struct.

(* Statements that assign, one after another: the code of all of them leaves memory as the statements do, each in what the one before it
   left.  The temporaries there were before are unchanged. *)
Theorem C55_sequence : forall G ss w, tags_ok G -> world_ok w -> defined G w ss ->
  forall k T, exists c k' w' T', compile_all G ss k = Ok (c, k') /\ run_all G w T c = Some (w', T') /\ length c = length ss /\
    (forall i, (i < k)%nat -> T' i = T i) /\ happens G w ss w'.
Proof.
  intros G ss. induction ss as [|s ss IH]; intros w GO WO D k T.
  - exists [], k, w, T. repeat split; reflexivity.
  - destruct D as (Y & (w1 & E) & D).
    assert (X : exists st r k' l' T' w', compile_assignment G s (k, []) = Ok ((st, r), (k', l')) /\ run G w l' T = Some T' /\ (forall i, (i < k)%nat -> T' i = T i) /\ (k <= k')%nat /\
      perform G w T' st = Some w' /\ effect G w s w' /\ addr w' = addr w).
    { destruct E as [s t a z w1 A _ _ _|a b i p q w1 Da Db _ _ _].
      - destruct (C55_assign G w s t a z GO WO Y A k [] T) as (st & r & k' & l' & T' & w' & C & R & K & P & AD & H & O).
        exists st, r, k', l', T', w'. split; [exact C|]. split; [exact R|]. split; [exact K|]. split.
        { destruct (assignment_ok G w GO WO s t a z k T Y A []) as (q & k2 & l2 & T2 & C2 & L2 & _). cbn [app] in C, C2. rewrite C in C2. injection C2 as _ -> _. exact L2. }
        split; [exact P|]. split; [|exact AD]. econstructor; eassumption.
      - destruct Y as [Ya Yb]. destruct (C55_struct G w a b i p q GO WO Ya Yb Da Db k [] T) as (st & r & k' & l' & T' & w' & C & R & K & L & P & AD & _ & _ & H & O).
        exists st, r, k', l', T', w'. split; [exact C|]. split; [exact R|]. split; [exact K|]. split; [exact L|]. split; [exact P|]. split; [|exact AD]. econstructor; eassumption. }
    destruct X as (st & r & k1 & l1 & T1 & w2 & C & R & K & L & P & F & AD).
    assert (WO' : world_ok w2) by (intros x; rewrite AD; apply WO).
    destruct (IH w2 GO WO' (D w2 F) k1 T1) as (c & k' & w' & T' & C' & R' & N & K' & H).
    exists ((l1, st) :: c), k', w', T'. cbn [compile_all run_all length]. rewrite C, C', R, P, R', N. split; [reflexivity|]. split; [reflexivity|]. split; [reflexivity|].
    split; [intros i I; rewrite K' by lia; apply K; exact I|]. exists w2. auto.
Qed.
Print Assumptions C55_sequence.

(* ---- examples ---- *)
(* p->next = &x[3] *)
Definition ex_step := Simple (EArrow ex_p 1) (EAddr (EIndex ex_x (ENum int 3))).
Example C55_assign_ex : types_of ex_tags ex_step /\ assigns ex_tags ex_world ex_step (TPtr node) 2008 2096.
Proof.
  split; [cbn; repeat split; auto; lia || reflexivity|]. split; [vm_compute; reflexivity|]. exists (TPtr node), 2096. split; [vm_compute; reflexivity|]. split; reflexivity.
Qed.
(* p++, for the struct of 32 bytes; p was 2000 *)
Example C55_postfix_ex : assigns ex_tags ex_world (Postfix true ex_p) (TPtr node) 1000 2032 /\
  match compile_assignment ex_tags (Postfix true ex_p) (0%nat, []) with
  | Ok ((st, r), (n, l)) => n = 1%nat /\ kind r = DIRECT /\ length l = 1%nat
  | _ => False
  end.
Proof.
  split; [split; [vm_compute; reflexivity|]; exists (TPtr node), 2032; split; [vm_compute; reflexivity|]; split; reflexivity|]. vm_compute. repeat split; reflexivity.
Qed.
(* ((char) that holds 254) -= 130 is -132 as int, and 124 as char; *= 3 is -6 *)
Example C55_compound_ex :
  let c := EDeref (ECast (TPtr char) (EAddr (EIndex (EArrow (EArrow ex_p 1) 2) (ENum int 2)))) in
  assigns ex_tags ex_world (Compound Sub c (ENum int 130)) char 3024 124 /\ assigns ex_tags ex_world (Compound Mul c (ENum int 3)) char 3024 (-6) /\
  apart ex_world c 3024 1.
Proof.
  split; [split; [vm_compute; reflexivity|]; exists int, (-132); split; [vm_compute; reflexivity|]; split; reflexivity|].
  split; [split; [vm_compute; reflexivity|]; exists int, (-6); split; [vm_compute; reflexivity|]; split; reflexivity|].
  intros x t H. cbn in H. destruct H as [E|[]]. injection E as <- _. cbn. lia.
Qed.
(* /= 2 is -1; <<= is not defined for -2; %= 0 neither *)
Example C55_compound_ex2 :
  let c := EDeref (ECast (TPtr char) (EAddr (EIndex (EArrow (EArrow ex_p 1) 2) (ENum int 2)))) in
  assigns ex_tags ex_world (Compound Div c (ENum long 2)) char 3024 (-1) /\ assigns ex_tags ex_world (Compound And c (ENum int 200)) char 3024 (-56) /\
  computed ex_tags ex_world (Compound Shl c (ENum int 1)) = None /\ computed ex_tags ex_world (Compound Mod c (ENum int 0)) = None.
Proof.
  split; [split; [vm_compute; reflexivity|]; exists long, (-1); split; [vm_compute; reflexivity|]; split; reflexivity|].
  split; [split; [vm_compute; reflexivity|]; exists int, 200; split; [vm_compute; reflexivity|]; split; reflexivity|].
  split; vm_compute; reflexivity.
Qed.
(* x[1] = *p->next *)
Example C55_struct_ex : denotes ex_tags ex_world (EIndex ex_x (ENum int 1)) = Some (At node 2032) /\ denotes ex_tags ex_world (EDeref (EArrow ex_p 1)) = Some (At node 3000).
Proof. split; vm_compute; reflexivity. Qed.

(* i = 5; i *= 3; p = x + 1; for an int i: after that p is 2032, and i is 15 *)
Definition ex_i := EVar 2 int.
Definition ex_list := [Simple ex_i (ENum int 5); Compound Mul ex_i (ENum int 3); Simple ex_p (EAdd ex_x (ENum int 1))].
Example C55_sequence_ex : defined ex_tags ex_world ex_list /\
  match compile_all ex_tags ex_list 0 with
  | Ok (c, _) => match run_all ex_tags ex_world (fun _ => 0) c with Some (w', _) => held w' (TPtr node) 1000 = Some 2032 /\ held w' int 4096 = Some 15 | None => False end
  | _ => False
  end.
Proof.
  assert (S : forall w s t a z, tags_ok ex_tags -> world_ok w -> types_of ex_tags s -> assigns ex_tags w s t a z -> exists w', effect ex_tags w s w').
  { intros w s t a z GO WO Y A. destruct (C55_assign ex_tags w s t a z GO WO Y A 0%nat [] (fun _ => 0)) as (_ & _ & _ & _ & _ & w' & _ & _ & _ & _ & AD & H & O). exists w'. econstructor; eassumption. }
  assert (A1 : assigns ex_tags ex_world (Simple ex_i (ENum int 5)) int 4096 5).
  { split; [reflexivity|]. exists int, 5. split; [vm_compute; reflexivity|]. split; reflexivity. }
  split; [|vm_compute; split; reflexivity]. cbn [defined ex_list]. split; [cbn; auto|]. split; [eapply S; eauto using ex_tags_ok, ex_world_ok; cbn; auto|].
  intros w1 E1. assert (W1 : addr w1 = addr ex_world /\ held w1 int 4096 = Some 5).
  { inversion E1 as [s t a z w' A AD H O|a b i p q w' Da Db]; subst; [|discriminate Da]. destruct A as (D & u & y & C & M & ->). cbn in D. injection D as <- <-.
    vm_compute in C. injection C as <- <-. auto. }
  destruct W1 as [AD1 H1]. assert (WO1 : world_ok w1) by (intros x; rewrite AD1; apply ex_world_ok).
  assert (A2 : assigns ex_tags w1 (Compound Mul ex_i (ENum int 3)) int 4096 15).
  { split; [cbn; rewrite AD1; reflexivity|]. exists int, 15. split; [|split; reflexivity]. unfold computed, StoreSpec.value, ex_i. cbn [denotes into value_of]. rewrite AD1. cbn [addr ex_world].
    change (held w1 int 4096) with (held w1 int 4096) in *. unfold value_of. rewrite H1. vm_compute. reflexivity. }
  split; [cbn; auto|]. split; [eapply S; eauto using ex_tags_ok; cbn; auto|].
  intros w2 E2. assert (AD2 : addr w2 = addr ex_world) by (inversion E2; congruence).
  assert (WO2 : world_ok w2) by (intros x; rewrite AD2; apply ex_world_ok).
  assert (A3 : assigns ex_tags w2 (Simple ex_p (EAdd ex_x (ENum int 1))) (TPtr node) 1000 2032).
  { split; [cbn; rewrite AD2; reflexivity|]. exists (TPtr node), 2032. split; [|split; reflexivity]. unfold computed, StoreSpec.value, ex_x. cbn [denotes into value_of]. rewrite AD2. vm_compute. reflexivity. }
  split; [cbn; repeat split; auto; lia || reflexivity|]. split; [eapply S; eauto using ex_tags_ok; cbn; repeat split; auto; lia || reflexivity|]. intros w3 _. exact I.
Qed.

(* ---- what is not as C says ---- *)
Definition after (G : tagged) (w : world) (s : assignment) : option (world * option Z) :=
  match compile_assignment G s (0%nat, []) with
  | Ok ((st, r), (_, l)) =>
      match run G w l (fun _ => 0) with
      | Some T => match perform G w T st with Some w' => Some (w', PtrModel.value G w' T r) | None => None end
      | None => None
      end
  | _ => None
  end.
(* An int that is assigned to a pointer, for which there is a warning only, is read as if it had eight bytes: the int at 3024 is -2,
   the pointer gets what is there and in the four bytes behind. *)
Theorem C55_integer_to_pointer_refuted : exists i, StoreSpec.value ex_tags ex_world i = Some (int, -2) /\
  match after ex_tags ex_world (Simple ex_p i) with Some (w', _) => held w' (TPtr node) 1000 = Some (2 ^ 32 - 2) | None => False end.
Proof. exists ex_e. split; vm_compute; reflexivity. Qed.
Print Assumptions C55_integer_to_pointer_refuted.
(* What is not an object is assigned to: (long) p = 5 changes p. *)
Theorem C55_lvalue_refuted : exists a, (exists t z, denotes ex_tags ex_world a = Some (Val t z)) /\
  match after ex_tags ex_world (Simple a (ENum int 5)) with Some (w', _) => held w' (TPtr node) 1000 = Some 5 | None => False end.
Proof. exists (ECast long ex_p). split; [exists long, 2000; vm_compute; reflexivity|]. vm_compute. reflexivity. Qed.
Print Assumptions C55_lvalue_refuted.
(* The value of an assignment is read from the object again, by way of the pointer: when that was what has been assigned, it is
   another object.  For struct link { struct link *next; } and a pointer p to itself, p->next = q has the value of q->next. *)
Definition link_tags : tagged := fun i => match i with O => (8, [(0%nat, (0, TPtr (TStr 0)))]) | _ => (0, []) end.
Definition link_world : world := mkW (fun a => if a =? 16 then 16 else if a =? 32 then 64 else if a =? 64 then 7 else 0) (fun x => match x with O => 16 | _ => 32 end).
Definition link (x : nat) := EVar x (TPtr (TStr 0)).
Theorem C55_value_refuted : exists s z, assigns link_tags link_world s (TPtr (TStr 0)) 16 z /\
  match after link_tags link_world s with Some (w', v) => held w' (TPtr (TStr 0)) 16 = Some z /\ v <> Some z | None => False end.
Proof.
  exists (Simple (EArrow (link 0) 0) (link 1)), 64. split.
  - split; [vm_compute; reflexivity|]. exists (TPtr (TStr 0)), 64. split; [vm_compute; reflexivity|]. split; reflexivity.
  - vm_compute. split; [reflexivity|discriminate].
Qed.
Print Assumptions C55_value_refuted.
