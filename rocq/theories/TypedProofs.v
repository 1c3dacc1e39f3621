From Coq Require Import List Bool Arith ZArith Lia.
From Verif Require Import PtrModel PtrSpec PtrProofs PtrMain TypedModel TypedSpec.
Import ListNotations.
Open Scope Z_scope.

Section Code.
Variable G : tagged.
Hypothesis GO : tags_ok G.
Notation sound := (sound G).

Definition tg {A} (m : M A) (k : nat) (Q : A -> nat -> Prop) : Prop :=
  forall l, exists a k' l', m (k, l) = Ok (a, (k', l ++ l')) /\ (k <= k')%nat /\ Q a k'.
Lemma tg_ret {A} (a : A) k (Q : A -> nat -> Prop) : Q a k -> tg (ret a) k Q.
Proof. intros H l. exists a, k, []. rewrite app_nil_r. repeat split; auto. Qed.
Lemma tg_bind {A B} (m : M A) (f : A -> M B) k P Q : tg m k P -> (forall a k1, (k <= k1)%nat -> P a k1 -> tg (f a) k1 Q) -> tg (bind m f) k Q.
Proof.
  intros H F l. destruct (H l) as (a & k1 & l1 & E & L & X). destruct (F a k1 L X (l ++ l1)) as (b & k2 & l2 & E2 & L2 & Y).
  exists b, k2, (l1 ++ l2). unfold bind. rewrite E, E2, app_assoc. repeat split; auto. lia.
Qed.
Lemma tg_imp {A} (m : M A) k (P Q : A -> nat -> Prop) : tg m k P -> (forall a k1, (k <= k1)%nat -> P a k1 -> Q a k1) -> tg m k Q.
Proof. intros H F l. destruct (H l) as (a & k1 & l1 & E & L & X). exists a, k1, l1. auto. Qed.

Definition vis (t : cty) (v : var) (k : nat) : Prop := sound k v /\ vtype v = t /\ scalar t = true.
Definition vres (t : cty) (lv : bool) (v : var) (k : nat) : Prop :=
  sound k v /\ vtype v = t /\ if lv then lvalue v = true /\ (kind v = DIRECT \/ kind v = DEREF) else scalar t = true.
Definition cmp_int (e : expr) : Prop := match e_op e with EQ | NE | GE | GT => e_type e = int | _ => True end.
Definition fresh (t : cty) (e : expr) : Prop := is_identity e = false /\ e_type e = t /\ type_ok G t /\ scalar t = true /\ cmp_int e.
Definition eis (t : cty) (e : expr) (k : nat) : Prop := (exists v, e = as_expr v /\ vis t v k) \/ fresh t e.
Definition eres (t : cty) (lv : bool) (e : expr) (k : nat) : Prop := (exists v, e = as_expr v /\ vres t lv v k) \/ (lv = false /\ fresh t e).
Lemma eis_eres t e k : eis t e k -> eres t false e k.
Proof. intros [(v & -> & H & E & S)|F]; [left; exists v; repeat split; auto; try apply H|right; auto]. Qed.

Lemma eval_fresh t e k : fresh t e -> tg (eval e) k (vis t).
Proof.
  intros (I & E & Y & S & _) l. unfold eval. rewrite I. exists (mkV DIRECT t (Some (mkSym (Tmp k) t)) 0 0 false), (Datatypes.S k), [mkS k e].
  split; [unfold assign_tmp; rewrite E; reflexivity|]. split; [lia|]. split; [|split; [reflexivity|exact S]]. split; [exact Y|]. cbn. repeat split; auto.
Qed.
Lemma eval_t t e k : eis t e k -> tg (eval e) k (vis t).
Proof.
  intros [(v & -> & H)|F]; [|exact (eval_fresh t e k F)]. unfold eval. rewrite as_expr_identity. apply tg_ret. exact H.
Qed.
Lemma eval_r t lv e k : eres t lv e k -> tg (eval e) k (vres t lv).
Proof.
  intros [(v & -> & H)|[-> F]].
  - unfold eval. rewrite as_expr_identity. apply tg_ret. exact H.
  - eapply tg_imp; [exact (eval_fresh t e k F)|]. intros v k1 _ (H & E & S). repeat split; auto; apply H.
Qed.
Lemma vis_more t v k k' : (k <= k')%nat -> vis t v k -> vis t v k'.
Proof. intros L (H & E & S). split; [exact (sound_more G k k' v L H)|auto]. Qed.
Lemma vres_more t lv v k k' : (k <= k')%nat -> vres t lv v k -> vres t lv v k'.
Proof. intros L (H & E & S). split; [exact (sound_more G k k' v L H)|auto]. Qed.
Lemma vis_type t v k : vis t v k -> type_ok G t.
Proof. intros (H & <- & _). apply H. Qed.
Lemma imm_t t z k : type_ok G t -> scalar t = true -> 0 <= z < 2 ^ 64 -> vis t (var_numeric t z) k.
Proof. intros Y S R. split; [|split; [reflexivity|exact S]]. split; [exact Y|]. cbn. auto. Qed.
Lemma imm_int_t t z k : type_ok G t -> scalar t = true -> vis t (imm_int t z) k.
Proof. intros Y S. apply imm_t; auto. apply (convert_range G). exact Y. Qed.
Lemma int_ok : type_ok G int. Proof. cbn. auto. Qed.
Lemma var_int_t z k : vis int (var_int z) k.
Proof. apply imm_t; [exact int_ok|reflexivity|apply wrap_range]. Qed.
Lemma as_t t v k : vis t v k -> eis t (as_expr v) k.
Proof. intros H. left. exists v. auto. Qed.
Lemma retype_t t u v k : vis t v k -> is_imm v = false -> wide t -> wide u -> type_ok G u -> vis u (retype v u) k.
Proof.
  intros ((Y & W) & E & S) I Wt Wu Yu. split; [|split; [reflexivity|exact (wide_scalar u Wu)]]. split; [exact Yu|].
  pose proof (wide_size G _ Wt) as St. pose proof (wide_size G _ Wu) as Su. unfold is_imm, near in *. subst t.
  destruct (kind v) eqn:K; destruct (sym v) as [[[x|n] s]|] eqn:Sy; try contradiction W; cbn [kind sym retype vtype offset lvalue]; rewrite ?K, ?Sy; try discriminate I; auto.
  - destruct W as (A & B & C & D & F & H). rewrite Su, <- St. repeat split; auto. exact (wide_scalar u Wu).
  - unfold near in *. cbn [offset vtype retype]. rewrite Su, <- St. exact W.
  - unfold near in *. cbn [offset vtype retype]. rewrite Su, <- St. exact W.
  - unfold near in *. cbn [offset vtype retype]. rewrite Su, <- St. exact W.
Qed.
Lemma imm_zero v k : sound k v -> is_imm v = true -> offset v = 0 /\ 0 <= imm v < 2 ^ 64 /\ kind v = IMMEDIATE /\ sym v = None.
Proof. intros [_ W] I. unfold is_imm in I. destruct (kind v); try discriminate I. destruct (sym v) as [[[x|n] s]|]; try contradiction W. intuition. Qed.
Lemma both_wide t u : scalar t = true -> scalar u = true -> (size_of G t =? size_of G u) && (is_pointer t || is_pointer u) = true -> wide t /\ wide u.
Proof.
  intros S U H. apply andb_prop in H as [E P]. apply Z.eqb_eq in E. apply orb_prop in P as [P|P].
  - assert (W : wide t) by (right; exact P). split; [exact W|]. apply (wide_of G u U). rewrite <- E. exact (wide_size G t W).
  - assert (W : wide u) by (right; exact P). split; [|exact W]. apply (wide_of G t S). rewrite E. exact (wide_size G u W).
Qed.
Lemma fresh_cast t v k u : vis u v k -> type_equal u t = false -> type_ok G t -> scalar t = true -> fresh t (mkE CAST t v none).
Proof.
  intros (_ & E & _) N Y S. split; [|repeat split; auto]. unfold is_identity. cbn [e_op e_type e_l]. rewrite E.
  destruct (type_equal t u) eqn:Q; [|reflexivity]. apply type_equal_eq in Q. subst. rewrite type_equal_refl in N. discriminate N.
Qed.
Lemma cast_t v u t k : vis u v k -> type_ok G t -> scalar t = true -> tg (cast_operand G v t) k (vis t).
Proof.
  intros H Y S. pose proof H as (W & E & Su). unfold cast_operand. rewrite E. destruct (type_equal u t) eqn:Q.
  { apply type_equal_eq in Q. subst t. apply tg_ret. exact H. }
  destruct (is_imm v) eqn:I.
  { destruct (imm_zero v k W I) as [-> _]. cbn [Z.eqb]. apply tg_ret. apply imm_int_t; auto. }
  destruct (_ && _) eqn:B.
  - destruct (both_wide u t Su S B) as [Wu Wt]. apply tg_ret. apply (retype_t u t v k); auto.
  - apply eval_fresh. apply (fresh_cast t v k u); auto.
Qed.
Lemma cast_expr_t v u t k : vis u v k -> type_ok G t -> scalar t = true -> type_equal u t = false ->
  tg (if is_imm v then if offset v =? 0 then ret (as_expr (var_numeric t (convert (imm v) t))) else bad else ret (mkE CAST t v none)) k (eis t).
Proof.
  intros H Y S Q. pose proof H as (W & _ & _). destruct (is_imm v) eqn:I.
  - destruct (imm_zero v k W I) as [-> _]. cbn [Z.eqb]. apply tg_ret. apply as_t. apply imm_int_t; auto.
  - apply tg_ret. right. apply (fresh_cast t v k u); auto.
Qed.
Lemma binary_t o t l r : o <> CAST -> type_ok G t -> scalar t = true -> (t = int \/ cmp_int (binary o t l r)) -> fresh t (binary o t l r).
Proof.
  intros N Y S C. unfold fresh, cmp_int, is_identity, binary in *. cbn [e_op e_type] in *. destruct o; try contradiction; repeat split; auto; destruct C as [C|C]; auto.
Qed.

(* the address of an object, taken for one of type t *)
Lemma wp_ok t : wide (TPtr t). Proof. right. reflexivity. Qed.
Lemma shift_t t v d k : vis t v k -> is_addr v = true -> vis t (shift v d) k.
Proof.
  intros ((Y & W) & E & S) A. split; [|split; assumption]. split; [exact Y|]. unfold is_addr in A. cbn [kind sym shift vtype]. destruct (kind v); try discriminate A. exact W.
Qed.
Lemma mul_t l r u u' t k : vis u l k -> vis u' r k -> is_integer u = true -> is_integer u' = true -> usual_conversion G u u' = t -> type_ok G t -> scalar t = true ->
  tg (eval_mul G l r) k (eis t).
Proof.
  intros Hl Hr Iu Iu' U Y S. unfold eval_mul. rewrite (proj1 (proj2 Hl)), (proj1 (proj2 Hr)), Iu, Iu', U. cbn [negb orb].
  eapply tg_bind; [exact (cast_t l u t k Hl Y S)|]. intros a k1 L1 H1. eapply tg_bind; [exact (cast_t r u' t k1 (vis_more _ _ _ _ L1 Hr) Y S)|]. intros b k2 L2 H2.
  apply tg_ret. destruct (_ && _); [apply as_t; apply imm_int_t; auto|right; apply binary_t; [discriminate|auto|auto|right; exact I]].
Qed.
Lemma ulong_ok sg : type_ok G (TInt 8 sg). Proof. cbn. auto. Qed.
Lemma scaled_t sg r k size : vis long r k -> tg (bind (eval_mul G (imm_int (TInt 8 sg) size) r) eval) k (vis (TInt 8 sg)).
Proof.
  intros H. eapply tg_bind.
  - apply (mul_t _ r (TInt 8 sg) long (TInt 8 sg)); auto; try reflexivity; [apply imm_int_t; [apply ulong_ok|reflexivity]|destruct sg; reflexivity|apply ulong_ok].
  - intros e k1 _ E. apply eval_t. exact E.
Qed.
Lemma offset_t l r t u k : vis (TPtr t) l k -> vis u r k -> is_integer u = true -> 0 < size_of G t -> tg (add_offset G l r) k (eis (TPtr t)).
Proof.
  intros Hl Hr I P. unfold add_offset. pose proof Hl as (Wl & El & _). pose proof (vis_type _ _ _ Hl) as Yt. rewrite El. cbn zeta.
  eapply tg_bind; [apply (cast_t r u long k Hr (ulong_ok true) eq_refl)|]. intros b k1 L1 H1. pose proof (vis_more _ _ _ _ L1 Hl) as Hl1.
  destruct (Z.eqb_spec (size_of G t) 0) as [Z0|_]; [lia|].
  destruct (is_addr l && is_imm b) eqn:A.
  { apply andb_prop in A as [A _]. apply tg_ret. apply as_t. apply shift_t; auto. }
  destruct (is_imm l && is_imm b) eqn:B.
  { apply andb_prop in B as [B _]. apply tg_ret. apply as_t. destruct (imm_zero l k Wl B) as (O & _ & _ & Sy). split; [|split; reflexivity]. split; [exact Yt|].
    cbn [kind sym offset imm]. rewrite Sy. split; [exact O|apply wrap_range]. }
  destruct (negb _); [|apply tg_ret; apply as_t; exact Hl1].
  eapply tg_bind; [apply (cast_t l (TPtr t) long k1 Hl1 (ulong_ok true) eq_refl)|]. intros a k2 L2 H2. pose proof (vis_more _ _ _ _ L2 H1) as H1'.
  eapply tg_bind with (P := vis long).
  - destruct (size_of G t =? 1); [apply tg_ret; exact H1'|]. exact (scaled_t true b k2 (size_of G t) H1').
  - intros c k3 _ _. apply tg_ret. right. apply binary_t; [discriminate|exact Yt|reflexivity|right; exact Logic.I].
Qed.
Lemma addr_t v t k : sound k v -> lvalue v = true -> (kind v = DIRECT \/ kind v = DEREF) -> type_ok G t -> tg (eval_addr G (retype v t)) k (vis (TPtr t)).
Proof.
  intros [Y W] L K Yt. unfold eval_addr. cbn [kind retype sym offset imm lvalue vtype].
  destruct K as [K|K]; rewrite K in *; destruct (sym v) as [[[x|n] s]|] eqn:Sy; try contradiction W.
  - rewrite L. apply tg_ret. split; [|split; reflexivity]. split; [exact Yt|]. cbn [kind sym vtype]. apply wp_ok.
  - destruct W as (_ & _ & X & _). congruence.
  - destruct W as [P N]. cbn [s_type]. rewrite P. cbn [negb].
    eapply tg_bind with (P := fun tmp k => vis (TPtr t) (retype tmp (TPtr t)) k).
    + destruct (offset v =? 0).
      * apply tg_ret. split; [|split; reflexivity]. split; [exact Yt|]. cbn. exact I.
      * eapply tg_bind with (P := vis (TPtr char)).
        { unfold cast_operand. cbn [var_direct vtype s_type s_id is_imm kind]. destruct (type_equal s (TPtr char)) eqn:Q.
          - apply type_equal_eq in Q. subst s. apply tg_ret. split; [|split; reflexivity]. split; [cbn; auto|]. cbn. exact I.
          - destruct s as [| |s'| |]; try discriminate P. cbn [size_of Z.eqb Pos.eqb is_pointer andb orb]. apply tg_ret. split; [|split; reflexivity]. split; [cbn; auto|]. cbn. exact I. }
        intros p k1 _ H1. eapply tg_bind; [apply (offset_t p _ char int k1 H1)|].
        { exact (imm_int_t int (offset v) k1 int_ok eq_refl). } { reflexivity. } { reflexivity. }
        intros e k2 _ E. eapply tg_imp; [apply eval_t; exact E|]. intros q k3 _ H3. destruct (is_imm q) eqn:Iq.
        -- destruct H3 as (H3 & _ & _). destruct (imm_zero q k3 H3 Iq) as (O & R & Kq & Sq). split; [|split; reflexivity]. split; [exact Yt|]. cbn [kind sym retype offset imm]. rewrite Kq, Sq. auto.
        -- apply (retype_t (TPtr char) (TPtr t) q k3); auto; apply wp_ok.
    + intros tmp k1 _ H. apply tg_ret. exact H.
  - destruct W as (P & N & LT). cbn [s_type]. rewrite P. cbn [negb].
    eapply tg_bind with (P := fun tmp k => vis (TPtr t) (retype tmp (TPtr t)) k).
    + destruct s as [| |s'| |]; try discriminate P. destruct (offset v =? 0).
      * apply tg_ret. split; [|split; reflexivity]. split; [exact Yt|]. cbn. repeat split; auto.
      * eapply tg_bind with (P := vis (TPtr char)).
        { unfold cast_operand. cbn [var_direct vtype s_type s_id is_imm kind]. destruct (type_equal (TPtr s') (TPtr char)) eqn:Q.
          - apply type_equal_eq in Q. injection Q as ->. apply tg_ret. split; [|split; reflexivity]. split; [cbn; auto|]. cbn. repeat split; auto.
          - cbn [size_of Z.eqb Pos.eqb is_pointer andb orb]. apply tg_ret. split; [|split; reflexivity]. split; [cbn; auto|]. cbn. repeat split; auto. }
        intros p k1 _ H1. eapply tg_bind; [apply (offset_t p _ char int k1 H1)|].
        { exact (imm_int_t int (offset v) k1 int_ok eq_refl). } { reflexivity. } { reflexivity. }
        intros e k2 _ E. eapply tg_imp; [apply eval_t; exact E|]. intros q k3 _ H3. destruct (is_imm q) eqn:Iq.
        -- destruct H3 as (H3 & _ & _). destruct (imm_zero q k3 H3 Iq) as (O & R & Kq & Sq). split; [|split; reflexivity]. split; [exact Yt|]. cbn [kind sym retype offset imm]. rewrite Kq, Sq. auto.
        -- apply (retype_t (TPtr char) (TPtr t) q k3); auto; apply wp_ok.
    + intros tmp k1 _ H. apply tg_ret. exact H.
  - apply tg_ret. split; [|split; reflexivity]. split; [exact Yt|]. cbn [kind sym vtype offset imm]. split; [reflexivity|apply wrap_range].
Qed.
Lemma rvalue_t v t lv u k : vres t lv v k -> decayed (t, lv) = Some u -> tg (rvalue G v) k (vis u).
Proof.
  intros (W & E & C) D. unfold rvalue. rewrite E. destruct t as [|s sg|t|n t|i]; destruct lv; try discriminate D; injection D as <-;
    try (apply tg_ret; split; [exact W|split; [exact E|reflexivity]]).
  destruct C as [L K]. apply addr_t; auto. destruct W as [Y _]. rewrite E in Y. apply Y.
Qed.
(* a value of scalar type is left alone *)
Lemma rvalue_vis v t k : vis t v k -> tg (rvalue G v) k (vis t).
Proof. intros H. pose proof H as (W & E & S). unfold rvalue. rewrite E. destruct t; try discriminate S; apply tg_ret; exact H. Qed.
Lemma scalar_cases t : scalar t = true -> (exists s sg, t = TInt s sg) \/ (exists u, t = TPtr u).
Proof. destruct t; intros H; try discriminate H; eauto. Qed.
Lemma deref_t v t lv u k : vres t lv v k -> decayed (t, lv) = Some (TPtr u) -> tg (eval_deref G v) k (vres u true).
Proof.
  intros H D. unfold eval_deref. eapply tg_bind; [exact (rvalue_t v t lv _ k H D)|]. clear v H D. intros v k1 _ H. pose proof H as ((_ & W) & E & _). pose proof (vis_type _ _ _ H) as Yu. cbn in Yu.
  rewrite E.
  assert (TMP : tg (let* v := assign_tmp (TPtr u) (as_expr v) in ret (mkV DEREF u (sym v) (offset v) (imm v) true)) k1 (vres u true)).
  { intros l. eexists _, _, [_]. split; [reflexivity|]. split; [lia|]. split; [|split; [reflexivity|split; [reflexivity|right; reflexivity]]]. split; [exact Yu|]. cbn [kind sym]. split; [reflexivity|]. split; [split; [cbn; lia|left; reflexivity]|lia]. }
  destruct (kind v) eqn:K; destruct (sym v) as [[[x|n] s]|] eqn:Sy; try contradiction W; try exact TMP.
  - apply tg_ret. split; [|split; [reflexivity|split; [reflexivity|right; reflexivity]]]. split; [exact Yu|]. cbn [kind sym]. rewrite ?Sy. destruct W as [O _]. unfold near. cbn [offset]. rewrite O. split; [lia|left; reflexivity].
  - cbn [s_type]. destruct (Z.eqb_spec (offset v) 0) as [O|O]; cbn [negb orb]; [|exact TMP]. destruct (is_pointer s) eqn:P; cbn [negb]; [|exact TMP].
    apply tg_ret. split; [|split; [reflexivity|split; [reflexivity|right; reflexivity]]]. split; [exact Yu|]. cbn [kind sym]. rewrite ?Sy. split; [exact P|]. unfold near. cbn [offset]. rewrite O. split; [lia|left; reflexivity].
  - destruct W as (L & O & _). cbn [s_type]. rewrite O. cbn [Z.eqb negb orb]. destruct (is_pointer s) eqn:P; cbn [negb]; [|exact TMP].
    apply tg_ret. split; [|split; [reflexivity|split; [reflexivity|right; reflexivity]]]. split; [exact Yu|]. cbn [kind sym]. rewrite ?Sy. split; [exact P|]. split; [|exact L]. unfold near. cbn [offset]. rewrite ?O. split; [lia|left; reflexivity].
  - apply tg_ret. split; [|split; [reflexivity|split; [reflexivity|left; reflexivity]]]. split; [exact Yu|]. cbn [kind sym]. rewrite ?Sy. exact I.
Qed.
Lemma member_t other v i m u k : vres (TStr i) true v k -> member_of G (TStr i) m = Some (u, true) -> tg (member G other v m) k (eres u true).
Proof.
  intros (W & E & L & K) P. unfold member_of in P. destruct (find _ _) as [[x [o t]]|] eqn:FD; [|discriminate P]. injection P as <-.
  destruct (GO i) as [SI MS]. destruct (MS _ _ _ (proj1 (find_some _ _ FD))) as (Yt & O0 & OS). rewrite width_size in OS.
  unfold member. rewrite E, find_same, FD. cbn [option_map snd]. apply tg_ret. left. exists (retype (shift v o) t). split; [reflexivity|].
  split; [|split; [reflexivity|split; [exact L|exact K]]]. destruct W as [_ W]. pose proof (size_ok G GO _ Yt) as ST. split; [exact Yt|].
  assert (NR : near G v -> near G (retype (shift v o) t)).
  { intros [N1 N2]. rewrite E in N2. cbn [size_of] in N2. rewrite p31 in *. assert (X : wrap (offset v + o) = offset v + o) by (apply wrap_id; rewrite p64; lia).
    unfold near. cbn [offset vtype retype shift]. rewrite X, p31. lia. }
  destruct K as [K|K]; rewrite K in *; cbn [kind sym retype shift]; rewrite K; destruct (sym v) as [[[x'|n] s]|]; try contradiction W; auto.
  - destruct W as (_ & _ & X & _). congruence.
  - destruct W as [A B]. split; [exact A|apply NR; exact B].
  - destruct W as (A & B & C). split; [exact A|split; [apply NR; exact B|exact C]].
Qed.

(* operators *)
Lemma two_casts {A} l r u u' t k (f : var -> var -> M A) Q : vis u l k -> vis u' r k -> type_ok G t -> scalar t = true ->
  (forall a b k', (k <= k')%nat -> vis t a k' -> vis t b k' -> tg (f a b) k' Q) ->
  tg (let* l := cast_operand G l t in let* r := cast_operand G r t in f l r) k Q.
Proof.
  intros Hl Hr Y S F. eapply tg_bind; [exact (cast_t l u t k Hl Y S)|]. intros a k1 L1 H1. eapply tg_bind; [exact (cast_t r u' t k1 (vis_more _ _ _ _ L1 Hr) Y S)|]. intros b k2 L2 H2.
  apply F; [lia|exact (vis_more _ _ _ _ L2 H1)|exact H2].
Qed.
Ltac number := apply as_t; apply imm_int_t; auto.
Ltac instr := right; apply binary_t; [discriminate|auto|auto|right; exact Logic.I].
Lemma usual_t a sa b sb : type_ok G (TInt a sa) -> type_ok G (TInt b sb) -> usual_conversion G (TInt a sa) (TInt b sb) = common a sa b sb /\ type_ok G (common a sa b sb) /\ scalar (common a sa b sb) = true.
Proof. intros A B. destruct (usual_common G a sa b sb A B) as [U Y]. auto. Qed.
Section Numbers.
Variables (l r : var) (s s' : Z) (sg sg' : bool) (k : nat).
Hypothesis Hl : vis (TInt s sg) l k.
Hypothesis Hr : vis (TInt s' sg') r k.
Let t := common s sg s' sg'.
Lemma usual_here : usual_conversion G (vtype l) (vtype r) = t /\ type_ok G t /\ scalar t = true.
Proof. rewrite (proj1 (proj2 Hl)), (proj1 (proj2 Hr)). apply usual_t; [exact (vis_type _ _ _ Hl)|exact (vis_type _ _ _ Hr)]. Qed.
Lemma operands_t f : (forall a b k', vis t a k' -> vis t b k' -> eis t (f t a b) k') -> tg (int_operands G l r f) k (eis t).
Proof.
  intros F. destruct usual_here as (U & Y & S). unfold int_operands. rewrite U. rewrite (proj1 (proj2 Hl)), (proj1 (proj2 Hr)). cbn [is_integer negb orb].
  apply (two_casts l r _ _ t k _ _ Hl Hr Y S). intros a b k' _ A B. apply tg_ret. apply F; auto.
Qed.
Lemma mul_n : tg (eval_mul G l r) k (eis t).
Proof. destruct usual_here as (U & Y & S). rewrite (proj1 (proj2 Hl)), (proj1 (proj2 Hr)) in U. exact (mul_t l r _ _ t k Hl Hr eq_refl eq_refl U Y S). Qed.
Lemma div_n : tg (eval_div G l r) k (eis t).
Proof. destruct usual_here as (U & Y & S). apply operands_t. intros a b k' A B. destruct (_ && _); [instr|]. destruct (_ && _); [number|instr]. Qed.
Lemma mod_n : tg (eval_mod G l r) k (eis t).
Proof. destruct usual_here as (U & Y & S). apply operands_t. intros a b k' A B. destruct (_ && _); [instr|]. destruct (_ && _); [number|instr]. Qed.
Lemma or_n : tg (eval_or G l r) k (eis t).
Proof. destruct usual_here as (U & Y & S). apply operands_t. intros a b k' A B. destruct (_ && _); [number|instr]. Qed.
Lemma xor_n : tg (eval_xor G l r) k (eis t).
Proof. destruct usual_here as (U & Y & S). apply operands_t. intros a b k' A B. destruct (_ && _); [number|instr]. Qed.
Lemma and_n : tg (eval_and G l r) k (eis t).
Proof. destruct usual_here as (U & Y & S). apply operands_t. intros a b k' A B. destruct (_ && _); [number|instr]. Qed.
Lemma add_n : tg (add_int G l r) k (eis t).
Proof.
  destruct usual_here as (U & Y & S). unfold add_int. rewrite U. apply (two_casts l r _ _ t k _ _ Hl Hr Y S). intros a b k' _ A B. apply tg_ret.
  destruct (is_imm a && is_imm b); [number|]. destruct (is_addr a && is_imm b) eqn:X; [apply andb_prop in X as [X _]; apply as_t; apply shift_t; auto|].
  destruct (is_imm a && is_addr b) eqn:Z; [apply andb_prop in Z as [_ Z]; apply as_t; apply shift_t; auto|instr].
Qed.
Lemma sub_n : tg (sub_int G l r) k (eis t).
Proof.
  destruct usual_here as (U & Y & S). unfold sub_int. rewrite U. apply (two_casts l r _ _ t k _ _ Hl Hr Y S). intros a b k' _ A B. apply tg_ret.
  destruct (is_imm a && is_imm b); [number|]. destruct (is_addr a && is_imm b) eqn:X; [apply andb_prop in X as [X _]; apply as_t; apply shift_t; auto|instr].
Qed.
Lemma promote_t : promote G (TInt s sg) = at_least_int s sg /\ type_ok G (at_least_int s sg) /\ scalar (at_least_int s sg) = true.
Proof. pose proof (vis_type _ _ _ Hl) as Y. unfold promote, at_least_int. cbn [size_of]. destruct (s <? 4); repeat split; auto. exact int_ok. Qed.
Lemma shl_n : tg (eval_lshift G l r) k (eis (at_least_int s sg)).
Proof.
  destruct promote_t as (U & Y & S). unfold eval_lshift. rewrite (proj1 (proj2 Hl)), (proj1 (proj2 Hr)), U. cbn [is_integer negb orb].
  eapply tg_bind; [exact (cast_t l _ _ k Hl Y S)|]. intros a k1 L1 H1. apply tg_ret. destruct (_ && _); [number|instr].
Qed.
Lemma shr_n : tg (eval_rshift G l r) k (eis (at_least_int s sg)).
Proof.
  destruct promote_t as (U & Y & S). unfold eval_rshift. rewrite (proj1 (proj2 Hl)), (proj1 (proj2 Hr)), U. cbn [is_integer negb orb].
  eapply tg_bind; [exact (cast_t l _ _ k Hl Y S)|]. intros a k1 L1 H1. apply tg_ret. destruct (_ && _); [number|instr].
Qed.
Lemma not_n : tg (eval_not G l) k (eis (at_least_int s sg)).
Proof.
  destruct promote_t as (U & Y & S). unfold eval_not. rewrite (proj1 (proj2 Hl)), U. cbn [is_integer negb].
  eapply tg_bind; [exact (cast_t l _ _ k Hl Y S)|]. intros a k1 L1 H1. apply tg_ret. destruct (is_imm a); [number|]. rewrite (proj1 (proj2 H1)). right. repeat split; auto.
Qed.
Lemma plus_n : tg (eval_plus G l) k (eis (at_least_int s sg)).
Proof.
  destruct promote_t as (U & Y & S). unfold eval_plus. cbv zeta. rewrite (proj1 (proj2 Hl)). cbn [vtype is_integer negb]. rewrite U. cbn [offset imm is_imm kind].
  set (v := mkV _ _ _ _ _ _). assert (V : vis (TInt s sg) v k).
  { destruct Hl as ((Yl & W) & E & Sc). split; [|split; [reflexivity|exact Sc]]. rewrite E in Yl. split; [exact Yl|]. unfold v. cbn [kind sym offset imm lvalue vtype]. rewrite E in W. unfold near in *. cbn [offset vtype]. rewrite E in W. destruct (kind l); destruct (sym l) as [[[x|n] y]|]; auto. intuition. }
  destruct (type_equal (TInt s sg) (at_least_int s sg)) eqn:Q.
  - apply type_equal_eq in Q. rewrite <- Q. apply tg_ret. apply as_t. exact V.
  - exact (cast_expr_t v (TInt s sg) _ k V Y S Q).
Qed.
End Numbers.
Lemma integer_vis t lv v k s sg : vres t lv v k -> decayed (t, lv) = Some (TInt s sg) -> vis (TInt s sg) v k.
Proof. intros (W & E & C) D. destruct t as [|a b|u|n u|i]; destruct lv; try discriminate D; injection D as -> ->; repeat split; auto; apply W. Qed.
Section Two.
Variables (l r : var) (tl tr : cty) (vl vr : bool) (ul ur : cty) (k : nat).
Hypothesis Hl : vres tl vl l k.
Hypothesis Hr : vres tr vr r k.
Hypothesis Dl : decayed (tl, vl) = Some ul.
Hypothesis Dr : decayed (tr, vr) = Some ur.
Lemma two_rvalues {A} (f : var -> var -> M A) Q : (forall a b k', vis ul a k' -> vis ur b k' -> tg (f a b) k' Q) ->
  tg (let* l := rvalue G l in let* r := rvalue G r in f l r) k Q.
Proof.
  intros F. eapply tg_bind; [exact (rvalue_t l tl vl ul k Hl Dl)|]. intros a k1 L1 H1. eapply tg_bind; [exact (rvalue_t r tr vr ur k1 (vres_more _ _ _ _ _ L1 Hr) Dr)|]. intros b k2 L2 H2.
  apply F; [exact (vis_more _ _ _ _ L2 H1)|exact H2].
Qed.
Lemma complete_size t : complete G t = true -> 0 < size_of G t.
Proof. unfold complete. rewrite width_size. apply Z.ltb_lt. Qed.
Lemma add_2 u : type_binary G Add ul ur = Some u -> tg (eval_add G l r) k (eis u).
Proof.
  intros B. unfold eval_add. apply two_rvalues. intros a b k' A Bb. rewrite (proj1 (proj2 A)), (proj1 (proj2 Bb)).
  destruct ul as [|s sg|t| |]; destruct ur as [|s' sg'|t'| |]; try discriminate B; cbn [type_binary is_integer is_pointer andb] in *; rewrite ?(proj1 (proj2 A)), ?(proj1 (proj2 Bb)); cbn [is_integer is_pointer andb].
  - injection B as <-. apply add_n; auto.
  - unfold when in B. destruct (complete G t') eqn:C; [|discriminate B]. injection B as <-. apply (offset_t b a t' (TInt s sg) k'); auto. apply complete_size. exact C.
  - unfold when in B. destruct (complete G t) eqn:C; [|discriminate B]. injection B as <-. apply (offset_t a b t (TInt s' sg') k'); auto. apply complete_size. exact C.
Qed.
Lemma sub_2 u : type_binary G Sub ul ur = Some u -> tg (eval_sub G l r) k (eis u).
Proof.
  intros B. unfold eval_sub. apply two_rvalues. intros a b k' A Bb. pose proof (vis_type _ _ _ A) as Ya. rewrite (proj1 (proj2 A)), (proj1 (proj2 Bb)).
  destruct ul as [|s sg|t| |]; destruct ur as [|s' sg'|t'| |]; try discriminate B; cbn [type_binary] in B.
  - injection B as <-. apply sub_n; auto.
  - unfold when in B. destruct (complete G t) eqn:C; [|discriminate B]. injection B as <-. apply complete_size in C. cbv zeta.
    eapply tg_bind; [apply (cast_t b _ long k' Bb (ulong_ok true) eq_refl)|]. intros c k1 L1 H1. pose proof (vis_more _ _ _ _ L1 A) as A1.
    destruct (Z.eqb_spec (size_of G t) 0) as [Z0|_]; [lia|].
    destruct (is_addr a && is_imm c) eqn:X; [apply andb_prop in X as [X _]; apply tg_ret; apply as_t; apply shift_t; auto|].
    destruct (is_imm a && is_imm c) eqn:I.
    { apply andb_prop in I as [I _]. apply tg_ret. apply as_t. destruct (imm_zero a k' (proj1 A) I) as (O & _ & _ & Sy). split; [|split; reflexivity]. split; [exact Ya|].
      cbn [kind sym offset imm]. rewrite Sy. split; [exact O|apply wrap_range]. }
    destruct (is_imm c && (imm c =? 0)); [apply tg_ret; apply as_t; exact A1|].
    eapply tg_bind with (P := fun _ _ => True).
    + destruct (1 <? size_of G t); [eapply tg_imp; [apply (scaled_t false c k1 (size_of G t) H1)|auto]|apply tg_ret; exact Logic.I].
    + intros d k2 _ _. apply tg_ret. instr.
  - unfold when in B. destruct (same t t') eqn:SM; [|discriminate B]. unfold same in SM. destruct (same_type t t') as [<-|]; [|discriminate SM]. destruct (complete G t) eqn:C; [|discriminate B]. injection B as <-.
    apply complete_size in C. cbv zeta. apply (two_casts a b _ _ long k' _ _ A Bb (ulong_ok true) eq_refl). intros c d k1 _ Hc Hd.
    eapply tg_bind; [exact (sub_n c d 8 8 true true k1 Hc Hd)|]. intros e k2 _ He. change (common 8 true 8 true) with long in He. destruct (1 <? size_of G t) eqn:O.
    + eapply tg_bind; [exact (eval_t _ _ _ He)|]. intros f k3 _ Hf. exact (div_n f _ 8 8 true true k3 Hf (imm_int_t long _ k3 (ulong_ok true) eq_refl)).
    + destruct (Z.eqb_spec (size_of G t) 0) as [Z0|_]; [lia|]. rewrite Z.eqb_refl. cbn [negb orb]. apply tg_ret. exact He.
Qed.
Definition cmp_op (o : op) : Prop := match o with EQ | NE | GE | GT => True | _ => False end.
Lemma compare_t o a b k' : cmp_op o -> eis int (binary o int a b) k'.
Proof. intros C. right. apply binary_t; [intros ->; exact C|exact int_ok|reflexivity|left; reflexivity]. Qed.
Lemma equality_2 o : cmp_op o -> type_binary G Eq ul ur = Some int -> tg (eval_equality G o l r) k (eis int).
Proof.
  intros C B. unfold eval_equality. apply two_rvalues. intros a b k' A Bb. eapply tg_bind with (P := fun _ _ => True).
  - unfold prepare_comparison. rewrite (proj1 (proj2 A)), (proj1 (proj2 Bb)).
    assert (TC : forall x y t, (vis ul x k' /\ vis ur y k' \/ vis ur x k' /\ vis ul y k') -> type_ok G t -> scalar t = true ->
      forall f : var -> var -> M (var * var), (forall c d, exists p, f c d = ret p) -> tg (let* l := cast_operand G x t in let* r := cast_operand G y t in f l r) k' (fun _ _ => True)).
    { intros x y t [[X Y]|[X Y]] Yt St f F; eapply (two_casts x y); try eassumption; intros c d k1 _ _ _; destruct (F c d) as [p ->]; apply tg_ret; exact Logic.I. }
    destruct ul as [|s sg|t| |]; destruct ur as [|s' sg'|t'| |]; try discriminate B; cbn [is_integer is_scalar is_pointer andb orb].
    + destruct (usual_t s sg s' sg' (vis_type _ _ _ A) (vis_type _ _ _ Bb)) as (U & Y & S). rewrite U. apply TC; eauto.
    + apply TC; eauto using ulong_ok.
    + destruct t; apply TC; eauto using ulong_ok.
    + destruct t, t'; apply TC; eauto using ulong_ok.
  - intros [c d] k1 _ _. apply tg_ret. destruct (_ && _); [apply as_t; apply var_int_t|apply compare_t; exact C].
Qed.
Lemma relation_2 o : cmp_op o -> type_binary G Lt ul ur = Some int -> tg (eval_relation G o l r) k (eis int).
Proof.
  intros C B. unfold eval_relation. apply two_rvalues. intros a b k' A Bb. rewrite (proj1 (proj2 A)), (proj1 (proj2 Bb)).
  eapply tg_bind with (P := fun t k1 => k1 = k' /\ type_ok G t /\ scalar t = true).
  - destruct ul as [|s sg|t| |]; destruct ur as [|s' sg'|t'| |]; try discriminate B; cbn [type_binary] in B.
    + destruct (usual_t s sg s' sg' (vis_type _ _ _ A) (vis_type _ _ _ Bb)) as (U & Y & S). rewrite U. apply tg_ret. auto.
    + unfold when, same in B. destruct (same_type t t') as [<-|]; [|discriminate B]. rewrite type_equal_refl. apply tg_ret. split; [reflexivity|]. split; [apply ulong_ok|reflexivity].
  - intros t k1 _ (-> & Y & S). apply (two_casts a b _ _ t k' _ _ A Bb Y S). intros c d k2 _ _ _. apply tg_ret. destruct (_ && _); [apply as_t; apply var_int_t|apply compare_t; exact C].
Qed.
End Two.
Lemma binop_t o l r tl tr vl vr ul ur u k : vres tl vl l k -> vres tr vr r k -> decayed (tl, vl) = Some ul -> decayed (tr, vr) = Some ur ->
  type_binary G o ul ur = Some u -> tg (binop G o l r) k (eis u).
Proof.
  intros Hl Hr Dl Dr B. destruct o; cbn [binop].
  1: exact (add_2 l r tl tr vl vr ul ur k Hl Hr Dl Dr u B).
  1: exact (sub_2 l r tl tr vl vr ul ur k Hl Hr Dl Dr u B).
  1-8: destruct ul as [|s sg|t| |]; destruct ur as [|s' sg'|t'| |]; try discriminate B; injection B as <-;
       pose proof (integer_vis _ _ _ _ _ _ Hl Dl) as Vl; pose proof (integer_vis _ _ _ _ _ _ Hr Dr) as Vr.
  - apply mul_n; auto.
  - apply div_n; auto.
  - apply mod_n; auto.
  - apply and_n; auto.
  - apply or_n; auto.
  - apply xor_n; auto.
  - exact (shl_n l r s s' sg sg' k Vl Vr).
  - exact (shr_n l r s s' sg sg' k Vl Vr).
  - assert (X : u = int /\ type_binary G Lt ur ul = Some int). { destruct ul, ur; try discriminate B; cbn [type_binary] in *; try (injection B as <-; auto; fail). unfold when, same in *. destruct (same_type ul ur) as [<-|]; [|discriminate B]. injection B as <-. destruct (same_type ul ul); [auto|contradiction]. }
    destruct X as [-> X]. exact (relation_2 r l tr tl vr vl ur ul k Hr Hl Dr Dl GT Logic.I X).
  - assert (X : u = int /\ type_binary G Lt ul ur = Some int). { destruct ul, ur; try discriminate B; cbn [type_binary] in *; try (injection B as <-; auto; fail). unfold when, same in *. destruct (same_type ul ur) as [<-|]; [|discriminate B]. injection B as <-. auto. }
    destruct X as [-> X]. exact (relation_2 l r tl tr vl vr ul ur k Hl Hr Dl Dr GT Logic.I X).
  - assert (X : u = int /\ type_binary G Lt ur ul = Some int). { destruct ul, ur; try discriminate B; cbn [type_binary] in *; try (injection B as <-; auto; fail). unfold when, same in *. destruct (same_type ul ur) as [<-|]; [|discriminate B]. injection B as <-. destruct (same_type ul ul); [auto|contradiction]. }
    destruct X as [-> X]. exact (relation_2 r l tr tl vr vl ur ul k Hr Hl Dr Dl GE Logic.I X).
  - assert (X : u = int /\ type_binary G Lt ul ur = Some int). { destruct ul, ur; try discriminate B; cbn [type_binary] in *; try (injection B as <-; auto; fail). unfold when, same in *. destruct (same_type ul ur) as [<-|]; [|discriminate B]. injection B as <-. auto. }
    destruct X as [-> X]. exact (relation_2 l r tl tr vl vr ul ur k Hl Hr Dl Dr GE Logic.I X).
  - assert (X : u = int /\ type_binary G Eq ul ur = Some int). { destruct ul, ur; try discriminate B; cbn [type_binary] in *; injection B as <-; auto. }
    destruct X as [-> X]. exact (equality_2 l r tl tr vl vr ul ur k Hl Hr Dl Dr EQ Logic.I X).
  - assert (X : u = int /\ type_binary G Eq ul ur = Some int). { destruct ul, ur; try discriminate B; cbn [type_binary] in *; injection B as <-; auto. }
    destruct X as [-> X]. exact (equality_2 l r tl tr vl vr ul ur k Hl Hr Dl Dr NE Logic.I X).
Qed.
Lemma vis_vres t v k : vis t v k -> vres t false v k /\ decayed (t, false) = Some t.
Proof. intros (W & E & S). split; [repeat split; auto; apply W|]. destruct t; try discriminate S; reflexivity. Qed.
Lemma common_least s sg : type_ok G (TInt s sg) -> common 4 true s sg = at_least_int s sg.
Proof. cbn. intros [->|[->|[->| ->]]]; destruct sg; reflexivity. Qed.
Lemma unop_t o e t lv u w k : eres t lv e k -> decayed (t, lv) = Some u -> type_unary o u = Some w -> tg (unop G o e) k (eis w).
Proof.
  intros H D B. destruct o; cbn [unop].
  1-3: destruct u as [|s sg| | |]; try discriminate B; injection B as <-; eapply tg_bind; [exact (eval_r _ _ _ _ H)|]; intros v k1 _ V; pose proof (integer_vis _ _ _ _ _ _ V D) as N.
  - exact (plus_n v s sg k1 N).
  - unfold eval_neg. rewrite (proj1 (proj2 N)). cbn [is_integer]. destruct (vis_vres _ _ _ (var_int_t 0 k1)) as [Z0 Z1]. destruct (vis_vres _ _ _ N) as [N0 N1].
    rewrite <- (common_least s sg (vis_type _ _ _ N)). exact (sub_2 (var_int 0) v int _ false false int (TInt s sg) k1 Z0 N0 Z1 N1 _ eq_refl).
  - exact (not_n v s sg k1 N).
  - assert (w = int) as -> by (destruct u; try discriminate B; injection B as <-; reflexivity).
    assert (GEN : tg (let* v := eval e in eval_equality G EQ (var_int 0) v) k (eis int)).
    { eapply tg_bind; [exact (eval_r _ _ _ _ H)|]. intros v k1 _ V. destruct (vis_vres _ _ _ (var_int_t 0 k1)) as [Z0 Z1].
      apply (equality_2 (var_int 0) v int t false lv int u k1 Z0 V Z1 D EQ Logic.I). destruct u; try discriminate B; reflexivity. }
    unfold logical_not. destruct H as [(v & -> & _)|[-> (I & E & Y & S & C)]]; [exact GEN|]. unfold cmp_int in C.
    destruct (e_op e) eqn:O; try exact GEN; rewrite C in *; apply tg_ret; apply compare_t; exact Logic.I.
Qed.
Lemma cast_2 v t lv u to k : vres t lv v k -> decayed (t, lv) = Some u -> type_ok G to -> scalar to = true -> tg (eval_cast G v to) k (eis to).
Proof.
  intros H D Y S. unfold eval_cast. eapply tg_bind; [exact (rvalue_t v t lv u k H D)|]. clear v H D. intros v k1 _ H. pose proof H as (W & E & Su).
  rewrite E, !scalar_is, Su, S. cbn [negb orb]. destruct (type_equal u to) eqn:Q.
  { apply type_equal_eq in Q. subst to. apply tg_ret. apply as_t. exact H. }
  destruct (is_imm v) eqn:I.
  { destruct (imm_zero v k1 W I) as [-> _]. cbn [Z.eqb]. apply tg_ret. apply as_t. apply imm_int_t; auto. }
  destruct (_ && _) eqn:B; apply tg_ret.
  - destruct (both_wide u to Su S B) as [Wu Wt]. apply as_t. apply (retype_t u to v k1); auto.
  - right. apply (fresh_cast to v k1 u); auto.
Qed.
Lemma into_some {A B} (x : option A) (f : A -> option B) b : into x f = Some b -> exists a, x = Some a /\ f a = Some b.
Proof. destruct x as [a|]; [eauto|discriminate]. Qed.
Theorem compile_t e : types_ok G e -> forall t lv k, typed G e = Some (t, lv) -> tg (compile G e) k (eres t lv).
Proof.
  induction e as [x t0|t0 z|a IHa i IHi|a IHa|a IHa|a IHa m|a IHa m|o a IHa b IHb|o a IHa|t0 a IHa]; cbn [types_ok]; intros Y t lv k T; cbn [typed] in T; cbn [compile].
  - injection T as <- <-. apply tg_ret. left. eexists. split; [reflexivity|]. split; [|split; [reflexivity|split; [reflexivity|left; reflexivity]]]. split; [exact Y|]. cbn. exact I.
  - unfold when in T. destruct t0 as [|s sg| | |]; try discriminate T. injection T as <- <-. apply tg_ret. apply eis_eres. apply as_t. apply imm_int_t; [exact Y|reflexivity].
  - destruct Y as [Ya Yi]. apply into_some in T as (ua & Ta & T). apply into_some in Ta as ((ta & va) & Ta & Da). apply into_some in T as (ui & Ti & T). apply into_some in Ti as ((ti & vi) & Ti & Di).
    apply into_some in T as (s & B & P). destruct s as [| |u| |]; try discriminate P. injection P as <- <-.
    eapply tg_bind; [exact (IHa Ya ta va k Ta)|]. intros ea k1 _ Ea. eapply tg_bind; [exact (eval_r _ _ _ _ Ea)|]. intros xa k2 _ Xa.
    eapply tg_bind; [exact (IHi Yi ti vi k2 Ti)|]. intros ei k3 L3 Ei. eapply tg_bind; [exact (eval_r _ _ _ _ Ei)|]. intros xi k4 L4 Xi.
    eapply tg_bind; [apply (add_2 xa xi ta ti va vi ua ui k4)|]; try eassumption. { apply (vres_more _ _ _ k2); [lia|exact Xa]. }
    intros es k5 _ Es. eapply tg_bind; [exact (eval_t _ _ _ Es)|]. intros xs k6 _ Xs. destruct (vis_vres _ _ _ Xs) as [V D].
    eapply tg_bind; [exact (deref_t _ _ _ _ _ V D)|]. intros v k7 _ V7. apply tg_ret. left. exists v. auto.
  - apply into_some in T as (ua & Ta & T). apply into_some in Ta as ((ta & va) & Ta & Da). destruct ua as [| |u| |]; try discriminate T. injection T as <- <-.
    eapply tg_bind; [exact (IHa Y ta va k Ta)|]. intros ea k1 _ Ea. eapply tg_bind; [exact (eval_r _ _ _ _ Ea)|]. intros xa k2 _ Xa.
    eapply tg_bind; [exact (deref_t _ _ _ _ _ Xa Da)|]. intros v k3 _ V. apply tg_ret. left. exists v. auto.
  - destruct (typed G a) as [[ta [|]]|] eqn:Ta; try discriminate T. injection T as <- <-.
    eapply tg_bind; [exact (IHa Y ta true k eq_refl)|]. intros ea k1 _ Ea. eapply tg_bind; [exact (eval_r _ _ _ _ Ea)|]. intros xa k2 _ (W & E & L & K).
    eapply tg_bind with (P := vis (TPtr ta)).
    + replace xa with (retype xa ta) by (rewrite <- E; destruct xa; reflexivity). apply addr_t; auto. rewrite <- E. apply W.
    + intros v k3 _ V. apply tg_ret. apply eis_eres. apply as_t. exact V.
  - destruct (typed G a) as [[ta [|]]|] eqn:Ta; try discriminate T. assert (lv = true) as -> by (unfold member_of in T; destruct ta; try discriminate T; destruct (find _ _); [injection T as _ <-; reflexivity|discriminate T]).
    destruct ta as [| | | |i]; try discriminate T.
    eapply tg_bind; [exact (IHa Y _ true k eq_refl)|]. intros ea k1 _ Ea. eapply tg_bind; [exact (eval_r _ _ _ _ Ea)|]. intros xa k2 _ Xa. exact (member_t _ xa i m t k2 Xa T).
  - apply into_some in T as (ua & Ta & T). apply into_some in Ta as ((ta & va) & Ta & Da). destruct ua as [| |u| |]; try discriminate T.
    assert (lv = true) as -> by (unfold member_of in T; destruct u; try discriminate T; destruct (find _ _); [injection T as _ <-; reflexivity|discriminate T]).
    destruct u as [| | | |i]; try discriminate T.
    eapply tg_bind; [exact (IHa Y ta va k Ta)|]. intros ea k1 _ Ea. eapply tg_bind; [exact (eval_r _ _ _ _ Ea)|]. intros xa k2 _ Xa.
    eapply tg_bind; [exact (deref_t _ _ _ _ _ Xa Da)|]. intros v k3 _ V. exact (member_t _ v i m t k3 V T).
  - destruct Y as [Ya Yb]. apply into_some in T as (ua & Ta & T). apply into_some in Ta as ((ta & va) & Ta & Da). apply into_some in T as (ub & Tb & T). apply into_some in Tb as ((tb & vb) & Tb & Db).
    destruct (type_binary G o ua ub) as [u|] eqn:B; [|discriminate T]. injection T as <- <-.
    eapply tg_bind; [exact (IHa Ya ta va k Ta)|]. intros ea k1 _ Ea. eapply tg_bind; [exact (eval_r _ _ _ _ Ea)|]. intros xa k2 _ Xa.
    eapply tg_bind; [exact (IHb Yb tb vb k2 Tb)|]. intros eb k3 L3 Eb. eapply tg_bind; [exact (eval_r _ _ _ _ Eb)|]. intros xb k4 L4 Xb.
    eapply tg_imp; [|intros; apply eis_eres; eassumption]. apply (binop_t o xa xb ta tb va vb ua ub u k4); auto. apply (vres_more _ _ _ k2); [lia|exact Xa].
  - apply into_some in T as (ua & Ta & T). apply into_some in Ta as ((ta & va) & Ta & Da). destruct (type_unary o ua) as [u|] eqn:B; [|discriminate T]. injection T as <- <-.
    eapply tg_bind; [exact (IHa Y ta va k Ta)|]. intros ea k1 _ Ea. eapply tg_imp; [|intros; apply eis_eres; eassumption]. exact (unop_t o ea ta va ua u k1 Ea Da B).
  - destruct Y as [Yt Ya]. apply into_some in T as (ua & Ta & T). apply into_some in Ta as ((ta & va) & Ta & Da). unfold when in T. destruct (scalar t0) eqn:S; [|discriminate T]. injection T as <- <-.
    eapply tg_bind; [exact (IHa Ya ta va k Ta)|]. intros ea k1 _ Ea. eapply tg_bind; [exact (eval_r _ _ _ _ Ea)|]. intros xa k2 _ Xa.
    eapply tg_imp; [|intros; apply eis_eres; eassumption]. exact (cast_2 xa ta va ua t0 k2 Xa Da Yt S).
Qed.

(* what has no type is refused *)
Definition fails {A} (m : M A) (k : nat) : Prop := forall l, match m (k, l) with Ok _ => False | _ => True end.
Lemma fails_first {A B} (m : M A) (f : A -> M B) k : fails m k -> fails (bind m f) k.
Proof. intros F l. specialize (F l). unfold bind. destruct (m (k, l)) as [[a s]| |]; [destruct F|exact I|exact I]. Qed.
Lemma fails_bind {A B} (m : M A) (f : A -> M B) k P : tg m k P -> (forall a k1, P a k1 -> fails (f a) k1) -> fails (bind m f) k.
Proof. intros H F l. destruct (H l) as (a & k1 & l1 & E & _ & X). unfold bind. rewrite E. apply F. exact X. Qed.
Lemma fails_stop {A} k : fails (@stop A) k. Proof. intros l. exact I. Qed.
Lemma fails_bad {A} k : fails (@bad A) k. Proof. intros l. exact I. Qed.
Definition vt (t : cty) (lv : bool) : cty := match decayed (t, lv) with Some u => u | None => t end.
Definition gv (u : cty) (v : var) (k : nat) : Prop := vtype v = u /\ (scalar u = true -> vis u v k) /\ match u with TArr _ _ => False | _ => True end.
Lemma gv_more u v k k' : (k <= k')%nat -> gv u v k -> gv u v k'.
Proof. intros L (E & H & N). split; [exact E|]. split; [|exact N]. intros S. exact (vis_more _ _ _ _ L (H S)). Qed.
Lemma rvalue_any v t lv k : vres t lv v k -> tg (rvalue G v) k (gv (vt t lv)).
Proof.
  intros H. unfold vt. destruct (decayed (t, lv)) as [u|] eqn:D.
  - eapply tg_imp; [exact (rvalue_t v t lv u k H D)|]. intros a k1 _ V. pose proof V as (_ & E & S). split; [exact E|]. split; [auto|]. destruct u; try exact Logic.I. discriminate S.
  - destruct H as (W & E & C). unfold rvalue. rewrite E. destruct t as [|s sg|u|n u|i]; destruct lv; try discriminate D; try discriminate C; apply tg_ret;
      (split; [exact E|split; [intros X; discriminate X|exact Logic.I]]).
Qed.
Lemma vt_int t lv : is_integer t = true -> vt t lv = t.
Proof. destruct t; intros H; try discriminate H. destruct lv; reflexivity. Qed.
Lemma both_any {A} l r tl tr vl vr k (f : var -> var -> M A) : vres tl vl l k -> vres tr vr r k ->
  (forall a b k', gv (vt tl vl) a k' -> gv (vt tr vr) b k' -> fails (f a b) k') -> fails (let* l := rvalue G l in let* r := rvalue G r in f l r) k.
Proof.
  intros Hl Hr F l0. destruct (rvalue_any l tl vl k Hl l0) as (a & k1 & l1 & E1 & L1 & Va). destruct (rvalue_any r tr vr k1 (vres_more _ _ _ _ _ L1 Hr) (l0 ++ l1)) as (b & k2 & l2 & E2 & L2 & Vb).
  unfold bind. rewrite E1, E2. exact (F a b k2 (gv_more _ _ _ _ L2 Va) Vb ((l0 ++ l1) ++ l2)).
Qed.
Lemma incomplete_size t : type_ok G t -> complete G t = false -> size_of G t = 0.
Proof. intros Y C. unfold complete in C. rewrite width_size in C. apply Z.ltb_ge in C. pose proof (size_ok G GO t Y). lia. Qed.
Lemma when_none {A} b (a : A) : when b a = None -> b = false.
Proof. destruct b; [discriminate|reflexivity]. Qed.
Section Refused.
Variables (l r : var) (tl tr : cty) (vl vr : bool) (k : nat).
Hypothesis Hl : vres tl vl l k.
Hypothesis Hr : vres tr vr r k.
Lemma not_ints : (match vt tl vl, vt tr vr with TInt _ _, TInt _ _ => False | _, _ => True end) -> negb (is_integer (vtype l)) || negb (is_integer (vtype r)) = true.
Proof.
  rewrite (proj1 (proj2 Hl)), (proj1 (proj2 Hr)). destruct (is_integer tl) eqn:A; [|reflexivity]. destruct (is_integer tr) eqn:B; [|reflexivity].
  rewrite (vt_int _ _ A), (vt_int _ _ B). destruct tl, tr; try discriminate A; try discriminate B. contradiction.
Qed.
Lemma add_no : type_binary G Add (vt tl vl) (vt tr vr) = None -> fails (eval_add G l r) k.
Proof.
  intros B. unfold eval_add. apply (both_any l r tl tr vl vr k _ Hl Hr). intros a b k' (Ea & Va & Na) (Eb & Vb & Nb). rewrite Ea, Eb.
  destruct (vt tl vl) as [|s sg|t| |]; destruct (vt tr vr) as [|s' sg'|t'| |]; try discriminate B; try contradiction; cbn [is_integer is_pointer andb]; rewrite ?Ea, ?Eb; cbn [is_integer is_pointer andb];
    try apply fails_stop; apply when_none in B.
  - unfold add_offset. rewrite Eb. cbv zeta. eapply fails_bind; [apply (cast_t a _ long k' (Va eq_refl) (ulong_ok true) eq_refl)|]. intros c k1 _.
    rewrite (incomplete_size t' (vis_type _ _ _ (Vb eq_refl)) B). apply fails_stop.
  - unfold add_offset. rewrite Ea. cbv zeta. eapply fails_bind; [apply (cast_t b _ long k' (Vb eq_refl) (ulong_ok true) eq_refl)|]. intros c k1 _.
    rewrite (incomplete_size t (vis_type _ _ _ (Va eq_refl)) B). apply fails_stop.
Qed.
Lemma sub_no : type_binary G Sub (vt tl vl) (vt tr vr) = None -> (forall t u, vt tl vl = TPtr t -> vt tr vr = TPtr u -> t = u) -> fails (eval_sub G l r) k.
Proof.
  intros B SM. unfold eval_sub. apply (both_any l r tl tr vl vr k _ Hl Hr). intros a b k' (Ea & Va & Na) (Eb & Vb & Nb). rewrite Ea, Eb.
  destruct (vt tl vl) as [|s sg|t| |]; destruct (vt tr vr) as [|s' sg'|t'| |]; try discriminate B; try contradiction; try apply fails_stop; apply when_none in B; cbv zeta.
  - eapply fails_bind; [apply (cast_t b _ long k' (Vb eq_refl) (ulong_ok true) eq_refl)|]. intros c k1 _.
    rewrite (incomplete_size t (vis_type _ _ _ (Va eq_refl)) B). apply fails_stop.
  - rewrite <- (SM t t' eq_refl eq_refl) in *. unfold same in B. destruct (same_type t t); [|contradiction]. cbn [andb] in B.
    rewrite (incomplete_size t (vis_type _ _ _ (Va eq_refl)) B).
    intros l0. destruct (cast_t a _ long k' (Va eq_refl) (ulong_ok true) eq_refl l0) as (c & k1 & l1 & E1 & L1 & C1). unfold bind. rewrite E1.
    destruct (cast_t b _ long k1 (vis_more _ _ _ _ L1 (Vb eq_refl)) (ulong_ok true) eq_refl (l0 ++ l1)) as (d & k2 & l2 & E2 & L2 & C2). rewrite E2.
    destruct (sub_n c d 8 8 true true k2 (vis_more _ _ _ _ L2 C1) C2 ((l0 ++ l1) ++ l2)) as (x & k3 & l3 & E3 & _). rewrite E3. exact Logic.I.
Qed.
Lemma equality_no o : type_binary G Eq (vt tl vl) (vt tr vr) = None -> fails (eval_equality G o l r) k.
Proof.
  intros B. unfold eval_equality. apply (both_any l r tl tr vl vr k _ Hl Hr). intros a b k' (Ea & Va & Na) (Eb & Vb & Nb). apply fails_first. unfold prepare_comparison. rewrite Ea, Eb.
  destruct (vt tl vl) as [|s sg|t| |]; destruct (vt tr vr) as [|s' sg'|t'| |]; try discriminate B; try contradiction; cbn [is_integer is_pointer is_scalar andb orb]; try apply fails_stop; try apply fails_bad;
    destruct t; first [apply fails_stop|apply fails_bad].
Qed.
Lemma relation_no o : type_binary G Lt (vt tl vl) (vt tr vr) = None -> fails (eval_relation G o l r) k.
Proof.
  intros B. unfold eval_relation. apply (both_any l r tl tr vl vr k _ Hl Hr). intros a b k' (Ea & Va & Na) (Eb & Vb & Nb). apply fails_first. rewrite Ea, Eb.
  destruct (vt tl vl) as [|s sg|t| |]; destruct (vt tr vr) as [|s' sg'|t'| |]; try discriminate B; try contradiction; try apply fails_stop.
  cbn [type_binary] in B. apply when_none in B. unfold same in B. destruct (same_type t t') as [|N]; [discriminate B|]. destruct (type_equal t t') eqn:Q; [apply type_equal_eq in Q; contradiction|apply fails_stop].
Qed.
End Refused.
Lemma relation_none a b o : (o = Lt \/ o = Gt \/ o = Le \/ o = Ge) -> type_binary G o a b = None -> type_binary G Lt a b = None /\ type_binary G Lt b a = None.
Proof.
  intros O B. destruct a as [|s sg|t| |]; destruct b as [|s' sg'|t'| |]; try (split; reflexivity).
  - destruct O as [-> | [-> | [-> | ->]]]; discriminate B.
  - assert (S : same t t' = false) by (destruct O as [-> | [-> | [-> | ->]]]; exact (when_none _ _ B)). cbn. rewrite S. unfold same in *. destruct (same_type t t') as [|N]; [discriminate S|]. destruct (same_type t' t) as [E|]; [symmetry in E; contradiction|]. split; reflexivity.
Qed.
Lemma binop_no o l r tl tr vl vr k : vres tl vl l k -> vres tr vr r k -> type_binary G o (vt tl vl) (vt tr vr) = None ->
  (o = Sub -> forall t u, vt tl vl = TPtr t -> vt tr vr = TPtr u -> t = u) -> fails (binop G o l r) k.
Proof.
  intros Hl Hr B SM. destruct o; cbn [binop].
  1: exact (add_no l r tl tr vl vr k Hl Hr B).
  1: exact (sub_no l r tl tr vl vr k Hl Hr B (SM eq_refl)).
  1-8: assert (N : negb (is_integer (vtype l)) || negb (is_integer (vtype r)) = true) by
         (apply (not_ints l r tl tr vl vr k Hl Hr); destruct (vt tl vl); try exact Logic.I; destruct (vt tr vr); try exact Logic.I; discriminate B);
       unfold eval_mul, eval_div, eval_mod, eval_and, eval_or, eval_xor, eval_lshift, eval_rshift, int_operands; rewrite N; apply fails_stop.
  - apply (relation_no r l tr tl vr vl k Hr Hl). refine (proj2 (relation_none _ _ Lt _ B)); auto.
  - apply (relation_no l r tl tr vl vr k Hl Hr). refine (proj1 (relation_none _ _ Gt _ B)); auto.
  - apply (relation_no r l tr tl vr vl k Hr Hl). refine (proj2 (relation_none _ _ Le _ B)); auto.
  - apply (relation_no l r tl tr vl vr k Hl Hr). refine (proj1 (relation_none _ _ Ge _ B)); auto.
  - exact (equality_no l r tl tr vl vr k Hl Hr EQ B).
  - apply (equality_no l r tl tr vl vr k Hl Hr NE). destruct (vt tl vl), (vt tr vr); try discriminate B; reflexivity.
Qed.
Lemma unop_no o e t lv k : eres t lv e k -> type_unary o (vt t lv) = None -> fails (unop G o e) k.
Proof.
  intros H B. destruct o; cbn [unop].
  1-3: eapply fails_bind; [exact (eval_r _ _ _ _ H)|]; intros v k1 (W & E & _);
       assert (N : is_integer (vtype v) = false) by (rewrite E; destruct (is_integer t) eqn:I; [rewrite (vt_int _ _ I) in B; destruct t; try discriminate I; discriminate B|reflexivity]).
  - unfold eval_plus. rewrite N. apply fails_stop.
  - unfold eval_neg. rewrite N. apply fails_stop.
  - unfold eval_not. rewrite N. apply fails_stop.
  - destruct H as [(v & -> & V)|[-> (_ & _ & _ & S & _)]].
    + unfold logical_not. cbn [as_expr e_op]. unfold eval. rewrite as_expr_identity. change (fails (eval_equality G EQ (var_int 0) v) k). destruct (vis_vres _ _ _ (var_int_t 0 k)) as [Z0 _].
      apply (equality_no (var_int 0) v int t false lv k Z0 V). destruct (vt t lv); try discriminate B; reflexivity.
    + unfold vt in B. destruct t; try discriminate S; discriminate B.
Qed.
Lemma deref_no v t lv k : vres t lv v k -> pointee (vt t lv) = None -> fails (eval_deref G v) k.
Proof.
  intros H P. unfold eval_deref. eapply fails_bind; [exact (rvalue_any v t lv k H)|]. intros a k1 (E & _). rewrite E. destruct (vt t lv); try discriminate P; apply fails_stop.
Qed.
Lemma member_no other v t m k : (forall k, fails other k) -> vtype v = t -> member_of G t m = None -> fails (member G other v m) k.
Proof.
  intros F E P. unfold member. rewrite E. destruct t as [| | | |i]; try apply F. rewrite find_same. unfold member_of in P. destruct (find _ _) as [[x [o u]]|]; [discriminate P|apply fails_stop].
Qed.
Lemma vt_some t lv u : decayed (t, lv) = Some u -> vt t lv = u.
Proof. unfold vt. intros ->. reflexivity. Qed.
Lemma vt_none t lv : decayed (t, lv) = None -> vt t lv = t /\ scalar t = false.
Proof. intros D. unfold vt. rewrite D. split; [reflexivity|]. destruct t; try reflexivity; destruct lv; discriminate D. Qed.
Lemma vt_ptr t lv u : vt t lv = TPtr u -> decayed (t, lv) = Some (TPtr u).
Proof. unfold vt. destruct (decayed (t, lv)) as [x|] eqn:D; [congruence|]. intros ->. discriminate D. Qed.
(* in terms of the types the operands would have *)
Lemma binary_none o ta va tb vb : into (decayed (ta, va)) (fun a => into (decayed (tb, vb)) (type_binary G o a)) = None -> scalar (vt ta va) = true -> scalar (vt tb vb) = true ->
  type_binary G o (vt ta va) (vt tb vb) = None.
Proof.
  unfold vt. destruct (decayed (ta, va)) as [a|] eqn:A; cbn [into].
  - destruct (decayed (tb, vb)) as [b|] eqn:B; cbn [into]; [auto|]. intros _ _ S. destruct tb; try discriminate S; discriminate B.
  - intros _ S _. destruct ta; try discriminate S; discriminate A.
Qed.
Lemma not_scalar o a b : scalar a = false \/ scalar b = false -> type_binary G o a b = None.
Proof. intros [S|S]; destruct a; try discriminate S; destruct b; try discriminate S; reflexivity. Qed.
Lemma binary_none' o ta va tb vb : into (decayed (ta, va)) (fun a => into (decayed (tb, vb)) (type_binary G o a)) = None -> type_binary G o (vt ta va) (vt tb vb) = None.
Proof.
  intros H. destruct (scalar (vt ta va)) eqn:A; [|apply not_scalar; auto]. destruct (scalar (vt tb vb)) eqn:B; [|apply not_scalar; auto]. apply binary_none; auto.
Qed.
Theorem compile_no e : types_ok G e -> checked G e -> typed G e = None -> forall k, fails (compile G e) k.
Proof.
  induction e as [x t0|t0 z|a IHa i IHi|a IHa|a IHa|a IHa m|a IHa m|o a IHa b IHb|o a IHa|t0 a IHa]; cbn [types_ok checked]; intros Y C T k; cbn [typed] in T; cbn [compile].
  - discriminate T.
  - rewrite C in T. discriminate T.
  - destruct Y as [Ya Yi], C as [Ca Ci]. destruct (typed G a) as [[ta va]|] eqn:Ta; [|apply fails_first; apply IHa; auto].
    eapply fails_bind; [exact (compile_t a Ya ta va k Ta)|]. intros ea k1 Ea. intros l0. destruct (eval_r _ _ _ _ Ea l0) as (xa & k2 & l2 & E2 & L2 & Xa). unfold bind at 1. rewrite E2. generalize (l0 ++ l2). clear l0 l2 E2.
    destruct (typed G i) as [[ti vi]|] eqn:Ti; [|apply fails_first; apply IHi; auto].
    intros l0. destruct (compile_t i Yi ti vi k2 Ti l0) as (ei & k3 & l3 & E3 & L3 & Ei). unfold bind at 1. rewrite E3. generalize (l0 ++ l3). clear l0 l3 E3.
    intros l0. destruct (eval_r _ _ _ _ Ei l0) as (xi & k4 & l4 & E4 & L4 & Xi). unfold bind at 1. rewrite E4. generalize (l0 ++ l4). clear l0 l4 E4.
    assert (Xa4 : vres ta va xa k4) by (apply (vres_more _ _ _ k2); [lia|exact Xa]).
    cbn [into] in T. destruct (into (decayed (ta, va)) (fun a => into (decayed (ti, vi)) (type_binary G Add a))) as [s|] eqn:B.
    + apply into_some in B as (ua & Da & B). apply into_some in B as (ui & Di & B). rewrite Da, Di in T. cbn [into] in T. rewrite B in T. cbn [into] in T.
      eapply fails_bind; [exact (add_2 xa xi ta ti va vi ua ui k4 Xa4 Xi Da Di s B)|]. intros es k5 Es. eapply fails_bind; [exact (eval_t _ _ _ Es)|]. intros xs k6 Xs. destruct (vis_vres _ _ _ Xs) as [V D].
      apply fails_first. apply (deref_no xs s false k6 V). rewrite (vt_some _ _ _ D). exact T.
    + apply fails_first. exact (add_no xa xi ta ti va vi k4 Xa4 Xi (binary_none' Add ta va ti vi B)).
  - destruct (typed G a) as [[ta va]|] eqn:Ta; [|apply fails_first; apply IHa; auto].
    eapply fails_bind; [exact (compile_t a Y ta va k Ta)|]. intros ea k1 Ea. eapply fails_bind; [exact (eval_r _ _ _ _ Ea)|]. intros xa k2 Xa. apply fails_first. apply (deref_no xa ta va k2 Xa).
    cbn [into] in T. destruct (decayed (ta, va)) as [u|] eqn:D; [rewrite (vt_some _ _ _ D); exact T|]. destruct (vt_none _ _ D) as [-> S]. destruct ta; try discriminate S; reflexivity.
  - destruct C as [Ca N]. destruct (typed G a) as [[ta [|]]|] eqn:Ta; [discriminate T|destruct (N ta eq_refl)|apply fails_first; apply IHa; auto].
  - destruct (typed G a) as [[ta va]|] eqn:Ta; [|apply fails_first; apply IHa; auto].
    eapply fails_bind; [exact (compile_t a Y ta va k Ta)|]. intros ea k1 Ea. eapply fails_bind; [exact (eval_r _ _ _ _ Ea)|]. intros xa k2 (_ & E & S).
    apply (member_no _ xa ta m k2 (fun k => fails_bad k) E). destruct va; [exact T|destruct ta; try discriminate S; reflexivity].
  - destruct (typed G a) as [[ta va]|] eqn:Ta; [|apply fails_first; apply IHa; auto].
    eapply fails_bind; [exact (compile_t a Y ta va k Ta)|]. intros ea k1 Ea. eapply fails_bind; [exact (eval_r _ _ _ _ Ea)|]. intros xa k2 Xa. cbn [into] in T.
    destruct (pointee (vt ta va)) as [[u b]|] eqn:P; [|apply fails_first; exact (deref_no xa ta va k2 Xa P)].
    assert (V : vt ta va = TPtr u) by (destruct (vt ta va); try discriminate P; injection P as -> _; reflexivity). pose proof (vt_ptr _ _ _ V) as D. rewrite D in T. cbn [into] in T.
    eapply fails_bind; [exact (deref_t _ _ _ _ _ Xa D)|]. intros v k3 (_ & E & _). exact (member_no _ v u m k3 (fun k => fails_stop k) E T).
  - destruct Y as [Ya Yb], C as (Ca & Cb & SM). destruct (typed G a) as [[ta va]|] eqn:Ta; [|apply fails_first; apply IHa; auto].
    eapply fails_bind; [exact (compile_t a Ya ta va k Ta)|]. intros ea k1 Ea. intros l0. destruct (eval_r _ _ _ _ Ea l0) as (xa & k2 & l2 & E2 & L2 & Xa). unfold bind at 1. rewrite E2. generalize (l0 ++ l2). clear l0 l2 E2.
    destruct (typed G b) as [[tb vb]|] eqn:Tb; [|apply fails_first; apply IHb; auto].
    intros l0. destruct (compile_t b Yb tb vb k2 Tb l0) as (eb & k3 & l3 & E3 & L3 & Eb). unfold bind at 1. rewrite E3. generalize (l0 ++ l3). clear l0 l3 E3.
    intros l0. destruct (eval_r _ _ _ _ Eb l0) as (xb & k4 & l4 & E4 & L4 & Xb). unfold bind at 1. rewrite E4. generalize (l0 ++ l4). clear l0 l4 E4.
    assert (Xa4 : vres ta va xa k4) by (apply (vres_more _ _ _ k2); [lia|exact Xa]). cbn [into] in T, SM.
    apply (binop_no o xa xb ta tb va vb k4 Xa4 Xb).
    + apply binary_none'. destruct (decayed (ta, va)); [|reflexivity]. cbn [into] in *. destruct (decayed (tb, vb)); [|reflexivity]. cbn [into] in *. destruct (type_binary G o _ _); [discriminate T|reflexivity].
    + intros O t u A B. apply (SM O t u); apply vt_ptr; assumption.
  - destruct (typed G a) as [[ta va]|] eqn:Ta; [|apply fails_first; apply IHa; auto].
    eapply fails_bind; [exact (compile_t a Y ta va k Ta)|]. intros ea k1 Ea. apply (unop_no o ea ta va k1 Ea). cbn [into] in T.
    destruct (decayed (ta, va)) as [u|] eqn:D; [rewrite (vt_some _ _ _ D); cbn [into] in T; destruct (type_unary o u); [discriminate T|reflexivity]|].
    destruct (vt_none _ _ D) as [-> S]. destruct ta; try discriminate S; destruct o; reflexivity.
  - destruct Y as [Yt Ya], C as [Ca NV]. destruct (typed G a) as [[ta va]|] eqn:Ta; [|apply fails_first; apply IHa; auto].
    eapply fails_bind; [exact (compile_t a Ya ta va k Ta)|]. intros ea k1 Ea. eapply fails_bind; [exact (eval_r _ _ _ _ Ea)|]. intros xa k2 Xa. unfold eval_cast.
    eapply fails_bind; [exact (rvalue_any xa ta va k2 Xa)|]. intros v k3 (E & _). rewrite E, !scalar_is. cbn [into] in T.
    destruct (decayed (ta, va)) as [u|] eqn:D.
    + cbn [into] in T. apply when_none in T. rewrite T, orb_true_r. apply fails_stop.
    + destruct (vt_none _ _ D) as [-> S]. rewrite S. apply fails_stop.
Qed.
End Code.
