(* Types of assignments. *)
From Coq Require Import List Bool Arith ZArith Lia.
From Verif Require Import PtrModel PtrSpec PtrProofs PtrMain StoreModel TypedModel TypedSpec TypedProofs.
Import ListNotations.
Open Scope Z_scope.

Section Code.
Variable G : tagged.
Hypothesis GO : tags_ok G.
Notation vis := (vis G). Notation vres := (vres G). Notation eis := (eis G). Notation eres := (eres G). Notation gv := (gv G).

Definition etype (t : cty) (e : expr) (k : nat) : Prop := e_type e = t.
Lemma ready u lv e k : eres u lv e k ->
  tg (if is_identity e then let* v := rvalue G (e_l e) in ret (as_expr v) else ret e) k
     (fun e k => e_type e = vt u lv /\ (scalar (vt u lv) = true -> eis (vt u lv) e k)).
Proof.
  intros [(v & -> & H)|[-> F]].
  - rewrite as_expr_identity. eapply tg_bind; [exact (rvalue_any G _ u lv k H)|]. intros a k1 _ (E & V & _). apply tg_ret. split; [exact E|]. intros S. apply as_t. exact (V S).
  - pose proof F as (I & E & Y & S & _). rewrite I. apply tg_ret. assert (X : vt u false = u) by (destruct u; try discriminate S; reflexivity). rewrite X. split; [exact E|]. intros _. right. exact F.
Qed.
Lemma imm_eis t e k : is_immediate e = true -> eis t e k -> vis t (e_l e) k.
Proof.
  unfold is_immediate. intros I [(v & -> & V)|(N & _)]; [exact V|]. rewrite N in I. discriminate I.
Qed.
Lemma prepare_t u lv e t k : eres u lv e k -> type_ok G t -> assignable t (u, lv) = true -> tg (eval_prepare_assign G e t) k (etype t).
Proof.
  intros H Y A. unfold eval_prepare_assign. eapply tg_bind; [exact (ready u lv e k H)|]. clear e H. intros e k1 _ [E V]. destruct t as [|s sg|t| |i]; try discriminate A.
  - cbn [is_pointer is_integer andb]. unfold vt in *. cbn [assignable] in A. destruct (decayed (u, lv)) as [[|s' sg'| | |]|]; try discriminate A. specialize (V eq_refl). rewrite E. cbn [is_integer].
    destruct (is_immediate e) eqn:I.
    { eapply tg_bind; [exact (cast_t G _ _ (TInt s sg) k1 (imm_eis _ _ _ I V) Y eq_refl)|]. intros v k2 _ W. apply tg_ret. exact (proj1 (proj2 W)). }
    destruct (type_equal (TInt s sg) (TInt s' sg')) eqn:Q; cbn [negb].
    { apply type_equal_eq in Q. rewrite Q. apply tg_ret. exact E. }
    eapply tg_bind; [exact (eval_t G _ _ _ V)|]. intros v k2 _ W. destruct (vis_vres G _ _ _ W) as [W1 W2]. eapply tg_imp; [exact (cast_2 G v _ false _ (TInt s sg) k2 W1 W2 Y eq_refl)|].
    intros x k3 _ [(z & -> & Z)|(_ & X & _)]; [exact (proj1 (proj2 Z))|exact X].
  - cbn [is_pointer]. unfold prepare_pointer. rewrite E. unfold vt. cbn [assignable] in A. destruct (decayed (u, lv)) as [x|] eqn:D; [|discriminate A].
    assert (S : is_pointer x || is_integer x = true) by (destruct u, lv; try discriminate D; injection D as <-; reflexivity). rewrite S. apply tg_ret. reflexivity.
  - cbn [is_pointer is_integer andb]. destruct u as [| | | |j]; try (destruct lv; discriminate A). cbn [assignable] in A. rewrite E. assert (X : vt (TStr j) lv = TStr j) by (destruct lv; reflexivity). rewrite X. rewrite A. apply tg_ret. unfold etype. apply Nat.eqb_eq in A. congruence.
Qed.
Lemma prepare_no u lv e t k : eres u lv e k -> assignable t (u, lv) = false -> fails (eval_prepare_assign G e t) k.
Proof.
  intros H A. unfold eval_prepare_assign. pose proof H as H0. eapply fails_bind; [exact (ready u lv e k H)|]. clear e H H0. intros e k1 [E V]. destruct t as [|s sg|t|n t|i].
  - cbn [is_pointer is_integer andb]. apply fails_stop.
  - cbn [is_pointer is_integer andb]. rewrite E. cbn [assignable] in A. assert (N : is_integer (vt u lv) = false).
    { unfold vt. destruct (decayed (u, lv)) as [[| | | |]|] eqn:D; try reflexivity; [discriminate A|]. destruct u; try reflexivity. destruct lv; discriminate D. }
    rewrite N. apply fails_stop.
  - cbn [is_pointer]. unfold prepare_pointer. rewrite E. cbn [assignable] in A. destruct (decayed (u, lv)) as [x|] eqn:D; [discriminate A|]. destruct (vt_none _ _ D) as [-> S]. destruct u; try discriminate S; apply fails_stop.
  - cbn [is_pointer is_integer andb]. apply fails_stop.
  - cbn [is_pointer is_integer andb]. rewrite E. unfold vt. destruct u as [| | | |j]; destruct lv; cbn [decayed]; try apply fails_stop; cbn [assignable] in A; rewrite A; apply fails_stop.
Qed.
Definition done (t : cty) (r : store * var) (k : nat) : Prop := vtype (target (fst r)) = t /\ e_type (source (fst r)) = t /\ vtype (snd r) = t.
Lemma assign_t v t u lv e k : vres t true v k -> eres u lv e k -> assignable t (u, lv) = true -> tg (eval_assign G v e) k (done t).
Proof.
  intros (W & E & L & _) H A. unfold eval_assign. rewrite L, E. cbn [negb].
  assert (B : tg (let* e := eval_prepare_assign G e t in ret (mkStore v e, if is_immediate e then e_l e else mkV (kind v) t (sym v) (offset v) (imm v) false)) k (done t)).
  { eapply tg_bind; [apply (prepare_t u lv e t k H); [rewrite <- E; apply W|exact A]|]. intros x k1 _ X. apply tg_ret. split; [exact E|]. split; [exact X|]. cbn [snd]. destruct (is_immediate x) eqn:I; [|reflexivity].
    unfold is_immediate, is_identity in I. apply andb_prop in I as [I _]. destruct (e_op x); try discriminate I. apply type_equal_eq in I. unfold etype in X. congruence. }
  destruct t; try exact B. discriminate A.
Qed.
Lemma assign_no v t u lv e k : vres t true v k -> eres u lv e k -> assignable t (u, lv) = false -> fails (eval_assign G v e) k.
Proof.
  intros (W & E & L & _) H A. unfold eval_assign. rewrite L, E. cbn [negb].
  destruct t; try (apply fails_first; exact (prepare_no u lv e _ k H A)). apply fails_bad.
Qed.
Lemma operation_binop o l r : operation G o l r = if comparison o then stop else binop G o l r.
Proof. destruct o; reflexivity. Qed.
Lemma by_one_operation up v : by_one G up v = operation G (if up then Add else Sub) v (var_int 1).
Proof. destruct up; reflexivity. Qed.
Lemma object_inv a t : object_type G a = Some t -> typed G a = Some (t, true).
Proof. unfold object_type. destruct (typed G a) as [[x [|]]|]; cbn; try discriminate. intros H. injection H as <-. reflexivity. Qed.
Lemma operation_t o v r t tb vb b u k : vres t true v k -> vres tb vb r k -> decayed (tb, vb) = Some b -> typed_operation G o t b = Some u ->
  u = t /\ tg (let* e := operation G o v r in eval_assign G v e) k (done t).
Proof.
  intros V R D T. unfold typed_operation in T. rewrite operation_binop. destruct (comparison o); [discriminate T|]. apply into_some in T as (a & Da & T). apply into_some in T as (x & B & T).
  unfold when in T. destruct (assignable t (x, false)) eqn:A; [|discriminate T]. injection T as <-. split; [reflexivity|].
  eapply tg_bind; [exact (binop_t G o v r t tb true vb a b x k V R Da D B)|]. intros e k1 L E. apply (assign_t v t x false e k1); auto; [exact (vres_more G _ _ _ _ _ L V)|exact (eis_eres G _ _ _ E)].
Qed.
Lemma operation_no o v r t tb vb k : vres t true v k -> vres tb vb r k -> into (decayed (tb, vb)) (typed_operation G o t) = None ->
  (o = Sub -> forall x y, vt t true = TPtr x -> vt tb vb = TPtr y -> x = y) -> fails (let* e := operation G o v r in eval_assign G v e) k.
Proof.
  intros V R T SM. rewrite operation_binop. destruct (comparison o) eqn:C; [apply fails_first; apply fails_stop|].
  destruct (into (decayed (t, true)) (fun a => into (decayed (tb, vb)) (type_binary G o a))) as [x|] eqn:B.
  - apply into_some in B as (a & Da & B). apply into_some in B as (b & Db & B). rewrite Db in T. cbn [into] in T. unfold typed_operation in T. rewrite C, Da in T. cbn [into] in T. rewrite B in T. cbn [into] in T. apply when_none in T.
    intros l0. destruct (binop_t G o v r t tb true vb a b x k V R Da Db B l0) as (e & k1 & l1 & E1 & L1 & E). unfold bind. rewrite E1.
    exact (assign_no v t x false e k1 (vres_more G _ _ _ _ _ L1 V) (eis_eres G _ _ _ E) T (l0 ++ l1)).
  - apply fails_first. apply (binop_no G GO o v r t tb true vb k V R); [exact (binary_none' G o t true tb vb B)|exact SM].
Qed.
Lemma copy_t v t k : vres t true v k -> tg (eval_copy G v) k (fun c _ => vtype c = vt t true).
Proof.
  intros V. unfold eval_copy. eapply tg_bind; [exact (rvalue_any G v t true k V)|]. intros a k1 _ (E & _). intros l. eexists _, _, [_]. split; [reflexivity|]. split; [lia|]. cbn [vtype]. exact E.
Qed.
Lemma one_res k : vres int false (var_int 1) k. Proof. exact (proj1 (vis_vres G _ _ _ (var_int_t G 1 k))). Qed.
Theorem assignment_t s t : assignment_types_ok G s -> typed_assignment G s = Some t -> forall k, tg (compile_assignment G s) k (done t).
Proof.
  destruct s as [a b|o a b|up a|up a]; cbn [assignment_types_ok typed_assignment]; intros Y T k; apply into_some in T as (t0 & O & T); apply object_inv in O; cbn [compile_assignment].
  - destruct Y as [Ya Yb]. apply into_some in T as ([u lv] & B & T). unfold when in T. destruct (assignable t0 (u, lv)) eqn:A; [|discriminate T]. injection T as <-.
    eapply tg_bind; [exact (compile_t G GO a Ya _ _ k O)|]. intros x k1 _ X. eapply tg_bind; [exact (eval_r G _ _ _ _ X)|]. intros v k2 _ V.
    eapply tg_bind; [exact (compile_t G GO b Yb _ _ k2 B)|]. intros e k3 L3 E. exact (assign_t v t0 u lv e k3 (vres_more G _ _ _ _ _ L3 V) E A).
  - destruct Y as [Ya Yb]. apply into_some in T as (b' & B & T). apply into_some in B as ([tb vb] & B & D).
    eapply tg_bind; [exact (compile_t G GO a Ya _ _ k O)|]. intros x k1 _ X. eapply tg_bind; [exact (eval_r G _ _ _ _ X)|]. intros v k2 _ V.
    eapply tg_bind; [exact (compile_t G GO b Yb _ _ k2 B)|]. intros e k3 L3 E. eapply tg_bind; [exact (eval_r G _ _ _ _ E)|]. intros r k4 L4 R.
    assert (V4 : vres t0 true v k4) by (apply (vres_more G _ _ _ k2); [lia|exact V]). destruct (operation_t o v r t0 tb vb b' t k4 V4 R D T) as [-> H]. exact H.
  - eapply tg_bind; [exact (compile_t G GO a Y _ _ k O)|]. intros x k1 _ X. eapply tg_bind; [exact (eval_r G _ _ _ _ X)|]. intros v k2 _ V. rewrite by_one_operation.
    destruct (operation_t _ v _ t0 int false int t k2 V (one_res k2) eq_refl T) as [-> H]. exact H.
  - eapply tg_bind; [exact (compile_t G GO a Y _ _ k O)|]. intros x k1 _ X. eapply tg_bind; [exact (eval_r G _ _ _ _ X)|]. intros v k2 _ V.
    eapply tg_bind; [exact (copy_t v t0 k2 V)|]. intros c k3 L3 C. rewrite by_one_operation.
    destruct (operation_t _ v _ t0 int false int t k3 (vres_more G _ _ _ _ _ L3 V) (one_res k3) eq_refl T) as [-> H].
    assert (X1 : vt t0 true = t0). { unfold typed_operation in T. destruct (comparison _); [discriminate T|]. apply into_some in T as (a' & _ & T). apply into_some in T as (u & _ & T). unfold when in T. destruct (assignable t0 (u, false)) eqn:A; [|discriminate T]. destruct t0; try discriminate A; reflexivity. }
    intros l. destruct (H l) as (q & k4 & l4 & E4 & L4 & Q). exists (fst q, c), k4, l4. unfold bind in *. destruct (operation G _ v (var_int 1) (k3, l)) as [[e s]| |]; try discriminate E4. rewrite E4. split; [reflexivity|]. split; [exact L4|].
    destruct Q as (Q1 & Q2 & _). split; [exact Q1|]. split; [exact Q2|]. cbn [snd]. congruence.
Qed.
Lemma object_none a : types_ok G a -> checked G a -> (forall t, typed G a <> Some (t, false)) -> object_type G a = None -> forall k, fails (compile G a) k.
Proof.
  intros Y C N O k. apply (compile_no G GO a Y C). unfold object_type in O. destruct (typed G a) as [[t [|]]|] eqn:T; [discriminate O|destruct (N t eq_refl)|reflexivity].
Qed.
Theorem assignment_no s : assignment_types_ok G s -> checked_assignment G s -> typed_assignment G s = None -> forall k, fails (compile_assignment G s) k.
Proof.
  destruct s as [a b|o a b|up a|up a]; cbn [assignment_types_ok typed_assignment checked_assignment compile_assignment].
  - intros [Ya Yb] (Ca & N & Cb) T k. destruct (object_type G a) as [t|] eqn:O; [|apply fails_first; exact (object_none a Ya Ca N O k)]. apply object_inv in O. cbn [into] in T.
    eapply fails_bind; [exact (compile_t G GO a Ya _ _ k O)|]. intros x k1 X. eapply fails_bind; [exact (eval_r G _ _ _ _ X)|]. intros v k2 V.
    destruct (typed G b) as [[u lv]|] eqn:B; [|apply fails_first; exact (compile_no G GO b Yb Cb B k2)]. cbn [into] in T. apply when_none in T.
    intros l. destruct (compile_t G GO b Yb _ _ k2 B l) as (e & k3 & l3 & E3 & L3 & E). unfold bind. rewrite E3. exact (assign_no v t u lv e k3 (vres_more G _ _ _ _ _ L3 V) E T _).
  - intros [Ya Yb] ((Ca & Cb & SM) & N) T k. destruct (object_type G a) as [t|] eqn:O; [|apply fails_first; exact (object_none a Ya Ca N O k)]. apply object_inv in O. cbn [into] in T.
    eapply fails_bind; [exact (compile_t G GO a Ya _ _ k O)|]. intros x k1 X. eapply fails_bind; [exact (eval_r G _ _ _ _ X)|]. intros v k2 V.
    destruct (typed G b) as [[tb vb]|] eqn:B; [|apply fails_first; exact (compile_no G GO b Yb Cb B k2)]. cbn [into] in T.
    intros l. destruct (compile_t G GO b Yb _ _ k2 B l) as (e & k3 & l3 & E3 & L3 & E). unfold bind at 1. rewrite E3. destruct (eval_r G _ _ _ _ E (l ++ l3)) as (r & k4 & l4 & E4 & L4 & R). unfold bind at 1. rewrite E4.
    refine (operation_no o v r t tb vb k4 _ R T _ _); [apply (vres_more G _ _ _ k2); [lia|exact V]|]. intros OS p q P Q. apply (SM OS p q); [rewrite O; cbn [into]; apply vt_ptr; exact P|cbn [into]; apply vt_ptr; exact Q].
  - intros Ya (Ca & N) T k. destruct (object_type G a) as [t|] eqn:O; [|apply fails_first; exact (object_none a Ya Ca N O k)]. apply object_inv in O. cbn [into] in T.
    eapply fails_bind; [exact (compile_t G GO a Ya _ _ k O)|]. intros x k1 X. eapply fails_bind; [exact (eval_r G _ _ _ _ X)|]. intros v k2 V. rewrite by_one_operation.
    apply (operation_no _ v _ t int false k2 V (one_res k2) T). intros _ p q _ Q. discriminate Q.
  - intros Ya (Ca & N) T k. destruct (object_type G a) as [t|] eqn:O; [|apply fails_first; exact (object_none a Ya Ca N O k)]. apply object_inv in O. cbn [into] in T.
    eapply fails_bind; [exact (compile_t G GO a Ya _ _ k O)|]. intros x k1 X. eapply fails_bind; [exact (eval_r G _ _ _ _ X)|]. intros v k2 V. rewrite by_one_operation.
    intros l. destruct (copy_t v t k2 V l) as (c & k3 & l3 & E3 & L3 & _). unfold bind at 1. rewrite E3.
    pose proof (operation_no (if up then Add else Sub) v _ t int false k3 (vres_more G _ _ _ _ _ L3 V) (one_res k3) T (fun _ p q _ Q => ltac:(discriminate Q)) (l ++ l3)) as F.
    unfold bind in *. destruct (operation G _ v (var_int 1) (k3, l ++ l3)) as [[e s]| |]; try exact I. destruct (eval_assign G v e s); [destruct F|exact I|exact I].
Qed.
End Code.
