(* Assignment to objects: memory, and the code. *)
From Coq Require Import List Bool Arith ZArith Lia.
From Verif Require Import PtrModel PtrSpec PtrProofs PtrMain StoreModel StoreSpec.
Import ListNotations.
Open Scope Z_scope.

(* ---- memory ---- *)
Lemma read_put m a n z : forall j i, i + Z.of_nat j = n -> 0 <= i -> read (put m a n z) (a + i) j = (z / 2 ^ (8 * i)) mod 2 ^ (8 * Z.of_nat j).
Proof.
  induction j as [|j IH]; intros i E P.
  - cbn [read]. change (2 ^ (8 * Z.of_nat 0)) with 1. rewrite Z.mod_1_r. reflexivity.
  - cbn [read]. replace (a + i + 1) with (a + (i + 1)) by lia. rewrite IH by lia.
    replace (put m a n z (a + i)) with ((z / 2 ^ (8 * i)) mod 256).
    2:{ unfold put. destruct (Z.leb_spec a (a + i)); [|lia]. destruct (Z.ltb_spec (a + i) (a + n)); [|lia]. cbn [andb]. replace (a + i - a) with i by lia. reflexivity. }
    rewrite Z.mod_mod by lia. replace (8 * Z.of_nat (S j)) with (8 + 8 * Z.of_nat j) by lia. rewrite (Z.pow_add_r 2 8) by lia. change (2 ^ 8) with 256.
    rewrite Z.rem_mul_r by (try apply Z.pow_pos_nonneg; lia). f_equal. f_equal. replace (8 * (i + 1)) with (8 * i + 8) by lia. rewrite Z.pow_add_r by lia.
    rewrite <- Z.div_div by (try apply Z.pow_pos_nonneg; lia). reflexivity.
Qed.
Lemma read_other m m' n : forall a, (forall i, 0 <= i < Z.of_nat n -> m' (a + i) = m (a + i)) -> read m' a n = read m a n.
Proof.
  induction n as [|n IH]; intros a H; [reflexivity|]. cbn [read]. rewrite IH.
  - pose proof (H 0 ltac:(lia)) as E. rewrite Z.add_0_r in E. rewrite E. reflexivity.
  - intros i B. replace (a + 1 + i) with (a + (1 + i)) by lia. apply H. lia.
Qed.
Lemma put_other m a n z x : ~ (a <= x < a + n) -> put m a n z x = m x.
Proof. intros H. unfold put. destruct (Z.leb_spec a x); [|reflexivity]. destruct (Z.ltb_spec x (a + n)); [lia|reflexivity]. Qed.
Lemma read_same m a n z : 0 <= n -> read (put m a n z) a (Z.to_nat n) = z mod 2 ^ (8 * n).
Proof.
  intros P. rewrite <- (Z.add_0_r a) at 2. rewrite (read_put m a n z (Z.to_nat n) 0) by lia. change (2 ^ (8 * 0)) with 1. rewrite Z.div_1_r. do 3 f_equal. lia.
Qed.
Lemma converted_mod t y z : y mod 2 ^ bits t = z mod 2 ^ bits t -> converted t y = converted t z.
Proof. intros E. unfold converted. f_equal. rewrite Zminus_mod, E, <- Zminus_mod. reflexivity. Qed.
(* what was stored is there *)
Lemma held_put G w t a z : type_ok G t -> scalar t = true -> fits t z -> held (mkW (put (mem w) a (size_of G t) (wrap z)) (addr w)) t a = Some z.
Proof.
  intros Y S F. destruct t as [|s sg|u| |]; try discriminate S; cbn [held mem size_of]; rewrite <- read_bytes.
  - destruct (halves _ _ _ Y) as [P D]. assert (B : 0 < s <= 8) by (cbn in Y; lia). rewrite read_same by lia. f_equal.
    rewrite <- (converted_id G (TInt s sg) z Y F) at 2. apply converted_mod. cbn [bits]. rewrite Z.mod_mod by lia. unfold wrap.
    symmetry. apply Znumtheory.Zmod_div_mod; [lia|reflexivity|]. exists (2 ^ (64 - 8 * s)). rewrite <- Z.pow_add_r by lia. f_equal. lia.
  - rewrite (read_same _ a 8) by lia. f_equal. change (2 ^ (8 * 8)) with (2 ^ 64). fold (wrap (wrap z)). rewrite wrap_wrap. apply wrap_id, F.
Qed.

Section Code.
Variable G : tagged.
Variable w : world.
Hypothesis GO : tags_ok G.
Hypothesis WO : world_ok w.
Notation gives := (gives G w).
Notation sound := (sound G).
Notation holds := (holds G w).
Notation located := (located w).
Notation is_result := (is_result G w).
Notation var_is := (var_is G w).
Notation expr_is := (expr_is G w).
Notation expr_result := (expr_result G w).

(* the right side, as it is stored *)
Definition ready (t : cty) (b : Z) : expr -> nat -> temps -> Prop := fun e _ T =>
  e_type e = t /\ meaning G w T e = Some b /\ (is_immediate e = true -> vtype (e_l e) = t /\ kind (e_l e) = IMMEDIATE /\ sym (e_l e) = None /\ offset (e_l e) = 0 /\ imm (e_l e) = b).
Lemma is_ready t b e k T : convert b t = b -> expr_is t b e k T -> ready t b e k T.
Proof.
  intros C [(v & -> & W & E & V)|((I & _) & E & Y & S & M & _)]; unfold ready, is_immediate.
  - split; [exact E|]. split; [unfold meaning; cbn [e_l e_op e_type as_expr]; rewrite V, E; f_equal; exact C|]. rewrite as_expr_identity. cbn [andb e_l as_expr].
    intros I. destruct (imm_value _ _ _ _ _ _ W I V) as (A1 & A2 & A3 & A4). auto.
  - rewrite I. split; [exact E|]. split; [exact M|discriminate].
Qed.
Lemma first_ok e r u y k T : expr_result r e k T -> result_ok G r -> value_of w r = Some (u, y) ->
  num_ok G (u, y) /\ gives (if is_identity e then let* v := rvalue G (e_l e) in ret (as_expr v) else ret e) k T (expr_is u (wrap y)).
Proof.
  intros X O E. destruct r as [t a|t z]; cbn [PtrProofs.expr_result] in X.
  - destruct X as (v & -> & W & L). destruct (rvalue_ok G w GO k T v (At t a) u y W L (result_fits _ _ O) E) as [N GV]. split; [exact N|].
    rewrite as_expr_identity. cbn [e_l as_expr]. eapply gives_bind; [exact GV|]. cbv beta. intros x k1 T1 _ _ [W1 H1]. apply gives_ret. apply as_is; assumption.
  - cbn in E. injection E as -> ->. split; [exact O|]. destruct X as [X S]. destruct X as [(v & -> & W & H)|X].
    + rewrite as_expr_identity. cbn [e_l as_expr]. unfold rvalue. rewrite (proj1 H). destruct u; try discriminate S; (eapply gives_bind; [apply gives_ret with (P := fun x _ _ => x = v); reflexivity|]; cbv beta;
      intros x k1 T1 L A ->; apply gives_ret; apply as_is; [exact (sound_more _ _ _ _ L W)|exact (holds_agree _ _ _ _ _ _ _ _ W A H)]).
    + destruct X as ((I & J) & X). rewrite I. apply gives_ret. right. auto.
Qed.
Lemma prepare_ok k T e r u y t zero : expr_result r e k T -> result_ok G r -> value_of w r = Some (u, y) -> type_ok G t -> may_assign t u zero = true ->
  (zero = true -> y = 0 /\ exists v, e = as_expr v /\ is_imm v = true) ->
  gives (eval_prepare_assign G e t) k T (ready t (wrap (converted t y))).
Proof.
  intros X O E Y A Z. destruct (first_ok _ _ _ _ _ _ X O E) as [N F]. unfold eval_prepare_assign.
  assert (S : scalar t = true) by (destruct t, u; try discriminate A; reflexivity).
  assert (C : convert (wrap (converted t y)) t = wrap (converted t y)).
  { rewrite (convert_converted G) by assumption. f_equal. apply (converted_id G); [exact Y|]. apply (converted_fits G); assumption. }
  destruct t as [|s sg|t| |]; try discriminate S.
  - destruct u as [|s' sg'| | |]; try discriminate A. cbn [is_pointer is_integer]. eapply gives_bind; [exact F|]. cbv beta. clear X O E F Z e. intros e k1 T1 _ _ X.
    assert (ET : e_type e = TInt s' sg') by (destruct X as [(v & -> & _ & H)|(_ & H & _)]; [apply H|exact H]). rewrite ET. cbn [is_integer andb].
    assert (CC : convert (wrap y) (TInt s sg) = wrap (converted (TInt s sg) y)) by (apply (convert_converted G); [exact Y|reflexivity]).
    destruct (is_immediate e) eqn:I.
    + unfold is_immediate in I. apply andb_true_iff in I as [I1 I2]. destruct X as [(v & -> & W & H)|((I & _) & _)]; [|congruence]. cbn [e_l as_expr] in *.
      eapply gives_bind; [eapply cast_ok with (t := TInt s sg); [exact W|exact H|reflexivity|exact Y|reflexivity|apply (num_convert G), N]|]. cbv beta.
      intros x k2 T2 _ _ [W2 H2]. apply gives_ret. apply is_ready; [exact C|]. rewrite CC in H2. apply as_is; assumption.
    + destruct (type_equal (TInt s sg) (TInt s' sg')) eqn:Q; cbn [negb].
      * apply type_equal_eq in Q. rewrite <- Q in *. apply gives_ret. apply is_ready; [exact C|]. rewrite (converted_id G) by (exact Y || apply N). exact X.
      * eapply gives_bind; [apply eval_ok; exact X|]. cbv beta. intros v k2 T2 _ _ [W H].
        assert (R : is_result T2 v (Val (TInt s' sg') y)) by (split; [exact H|reflexivity]).
        destruct (eval_cast_ok G w GO k2 T2 v (Val (TInt s' sg') y) (TInt s' sg') y (TInt s sg) W R N eq_refl Y eq_refl) as [_ K].
        eapply gives_imp; [exact K|]. cbv beta. intros x k3 T3 _ [B _]. apply is_ready; assumption.
  - cbn [is_pointer]. destruct u as [|s' sg'|u| |]; try discriminate A.
    + cbn in A. destruct (Z A) as (-> & v & -> & I). clear Z. cbn [PtrProofs.expr_result] in X.
      assert (H : sound k v /\ holds T v (TInt s' sg') (wrap 0)).
      { destruct r as [t0 a|t0 z0].
        - destruct X as (v' & E' & W & L). assert (v' = v) by (unfold as_expr in E'; congruence). subst v'. exfalso. destruct L as (_ & _ & L). unfold location in L. unfold is_imm in I. destruct (kind v); discriminate I || discriminate L.
        - cbn in E. injection E as -> ->. destruct X as [X _]. destruct X as [(v' & E' & W & L)|((J & _) & _)]; [|rewrite as_expr_identity in J; discriminate J].
          assert (v' = v) by (unfold as_expr in E'; congruence). subst v'. split; [exact W|]. exact L. }
      destruct H as [W H]. rewrite as_expr_identity. cbn [e_l as_expr]. unfold rvalue. rewrite (proj1 H).
      eapply gives_bind; [eapply gives_bind; [apply gives_ret with (P := fun x _ _ => x = v); reflexivity|]; cbv beta; intros x k1 T1 _ _ ->; apply gives_ret with (P := fun x _ _ => x = as_expr v); reflexivity|].
      cbv beta. intros x k1 T1 _ _ ->. unfold prepare_pointer. rewrite as_expr_identity. cbn [e_type e_op e_l e_r as_expr]. rewrite (proj1 H). cbn [is_pointer is_integer orb].
      apply gives_ret. destruct (imm_value _ _ _ _ _ _ W I (proj2 H)) as (A1 & A2 & A3 & A4). unfold ready. split; [reflexivity|]. split.
      * unfold meaning. cbn [e_l e_op e_type]. unfold PtrModel.value. cbn [kind sym retype offset imm]. rewrite A1, A2, A3, A4. cbn [Z.eqb]. reflexivity.
      * intros _. cbn [e_l vtype retype kind sym offset imm]. repeat split; auto.
    + clear Z. eapply gives_bind; [exact F|]. cbv beta. clear X O E F e. intros e k1 T1 _ _ X.
      assert (EY : converted (TPtr t) y = y) by (apply (converted_id G); [exact Y|apply N]). rewrite EY in *.
      unfold prepare_pointer. destruct X as [(v & -> & W & H)|((I & J) & ET & YU & SU & M & CU)].
      * rewrite as_expr_identity. cbn [e_type e_op e_l e_r as_expr]. rewrite (proj1 H). cbn [is_pointer orb]. apply gives_ret.
        change (ready (TPtr t) (wrap y) (as_expr (retype v (TPtr t))) k1 T1). apply (is_ready _ _ _ k1); [exact C|].
        destruct (retype_wide G w k1 T1 v (TPtr t) (wrap y) W) as [W' H'].
        { rewrite (proj1 H). apply wp. } { apply wp. } { exact Y. } { apply H. }
        apply as_is; assumption.
      * rewrite I, ET. cbn [is_pointer orb]. apply gives_ret. unfold ready, is_immediate, is_identity. cbn [e_type e_op e_l e_r]. split; [reflexivity|].
        unfold meaning in *. cbn [e_l e_r e_op e_type] in *. rewrite ET in M. split.
        -- change (size_of G (TPtr t)) with 8. change (size_of G (TPtr u)) with 8 in M. destruct (PtrModel.value _ _ _ (e_l e)); [|discriminate M].
           destruct (e_op e); try exact M; (destruct (PtrModel.value _ _ _ (e_r e)); [|discriminate M]); rewrite andb_comm in M; discriminate M.
        -- destruct (e_op e) eqn:OP; cbn [andb]; try discriminate. rewrite (J eq_refl), andb_false_r. discriminate.
Qed.

(* ---- the assignment ---- *)
Definition stored (t : cty) (a b : Z) : world := mkW (put (mem w) a (size_of G t) b) (addr w).
Definition outcome_is (v : var) (t : cty) (a b : Z) : store * var -> nat -> temps -> Prop := fun p _ T =>
  perform G w T (fst p) = Some (stored t a b) /\ vtype (snd p) = t /\
  (kind (snd p) = IMMEDIATE /\ (forall w', PtrModel.value G w' T (snd p) = Some b) \/ snd p = mkV (kind v) t (sym v) (offset v) (imm v) false).
Lemma assign_ok k T v t a e r u y zero : sound k v -> located T v t a -> scalar t = true ->
  expr_result r e k T -> result_ok G r -> value_of w r = Some (u, y) -> may_assign t u zero = true ->
  (zero = true -> y = 0 /\ exists v, e = as_expr v /\ is_imm v = true) ->
  gives (eval_assign G v e) k T (outcome_is v t a (wrap (converted t y))).
Proof.
  intros W (E & L & LO) S X O V A Z. unfold eval_assign. rewrite L, E. cbn [negb]. assert (Y : type_ok G t) by (rewrite <- E; apply W).
  assert (P : gives (eval_prepare_assign G e t) k T (fun x k' T' => ready t (wrap (converted t y)) x k' T' /\ location w T' v = Some a)).
  { intros l. destruct (prepare_ok k T e r u y t zero X O V Y A Z l) as (x & k' & l' & T' & R1 & R2 & R3 & R4 & R5). exists x, k', l', T'.
    repeat (split; [assumption|]). rewrite (location_agree G w k T T' v W R4). exact LO. }
  destruct t as [|s sg|t| |]; try discriminate S; (eapply gives_bind; [exact P|]; cbv beta; intros x k1 T1 _ _ ((ET & M & I) & LO1); apply gives_ret; unfold outcome_is, perform;
    cbn [fst snd target source]; rewrite E, ET, type_equal_refl, LO1; cbn [negb]; rewrite M; cbn [option_map]; split; [reflexivity|]; destruct (is_immediate x);
    [destruct (I eq_refl) as (I1 & I2 & I3 & I4 & I5); split; [exact I1|]; left; split; [exact I2|]; intros w'; unfold PtrModel.value; rewrite I2, I3, I4, I5; reflexivity
    |split; [reflexivity|]; right; reflexivity]).
Qed.
(* structs *)
Lemma struct_ok k T v i a u b : sound k v -> located T v (TStr i) a -> sound k u -> located T u (TStr i) b ->
  gives (eval_assign G v (as_expr u)) k T (fun p _ T' =>
    perform G w T' (fst p) = Some (mkW (fun x => if (a <=? x) && (x <? a + size_of G (TStr i)) then mem w (b + (x - a)) else mem w x) (addr w)) /\
    snd p = mkV (kind v) (TStr i) (sym v) (offset v) (imm v) false).
Proof.
  intros W (E & L & LO) Wu (Eu & Lu & LOu). unfold eval_assign. rewrite L, E. cbn [negb]. unfold eval_prepare_assign. rewrite as_expr_identity. cbn [e_l as_expr]. unfold rvalue. rewrite Eu.
  assert (D : is_immediate (as_expr u) = false).
  { unfold is_immediate. rewrite as_expr_identity. cbn [e_l as_expr andb]. unfold is_imm. unfold location in LOu. destruct (kind u); try reflexivity. discriminate LOu. }
  intros l. exists (mkStore v (as_expr u), mkV (kind v) (TStr i) (sym v) (offset v) (imm v) false), k, [], T. rewrite app_nil_r. split.
  { unfold bind, ret. cbn [is_pointer is_integer andb e_type as_expr]. rewrite Eu, Nat.eqb_refl, D. reflexivity. }
  split; [lia|]. split; [reflexivity|]. split; [apply agree_refl|]. split; [|reflexivity]. unfold perform. cbn [fst target source]. rewrite E. cbn [e_type as_expr].
  rewrite Eu, type_equal_refl, LO. cbn [negb]. change (mkE CAST (vtype u) u none) with (as_expr u). rewrite as_expr_identity. cbn [e_l as_expr]. rewrite LOu. reflexivity.
Qed.

(* where the object is, afterwards *)
Definition from (L : list (nat * cty)) (v : var) : Prop := match sym v with Some (mkSym (Obj x) t) => In (x, t) L | _ => True end.
Lemma stays k T v t a b : sound k v -> located T v t a -> 0 <= a < 2 ^ 64 ->
  (kind v = DEREF -> forall x u, sym v = Some (mkSym (Obj x) (TPtr u)) -> a + size_of G t <= addr w x \/ addr w x + 8 <= a) ->
  location (stored t a b) T v = Some a.
Proof.
  intros [_ W] (_ & _ & L) R D. rewrite <- L. unfold location in *. destruct (kind v) eqn:K; try reflexivity. destruct (sym v) as [[[x|n] s]|] eqn:S; try reflexivity.
  destruct s as [| |u| |]; try reflexivity. cbn [is_pointer load stored addr mem]. rewrite (wrap_id _ (WO x)). cbn [option_map]. do 3 f_equal. apply read_other. intros i I.
  apply put_other. specialize (D eq_refl x u eq_refl). cbn in I. lia.
Qed.
Lemma result_value k T v t a z : sound k v -> located T v t a -> scalar t = true -> 0 <= a < 2 ^ 64 -> fits t z ->
  (kind v = DEREF -> forall x u, sym v = Some (mkSym (Obj x) (TPtr u)) -> a + size_of G t <= addr w x \/ addr w x + 8 <= a) ->
  PtrModel.value G (stored t a (wrap z)) T (mkV (kind v) t (sym v) (offset v) (imm v) false) = Some (wrap z).
Proof.
  intros W L S R F D. pose proof (stays k T v t a (wrap z) W L R D) as X. assert (Y : type_ok G t) by (rewrite <- (proj1 L); apply W).
  destruct (held_load G (stored t a (wrap z)) t a z Y R (held_put G w t a z Y S F)) as [LD _]. unfold PtrModel.value. cbn [kind sym offset imm vtype].
  change (location (stored t a (wrap z)) T (mkV (kind v) t (sym v) (offset v) (imm v) false)) with (location (stored t a (wrap z)) T v). rewrite X, LD.
  destruct L as (_ & LV & LO). destruct W as [_ W]. unfold location in LO. destruct (kind v) eqn:K; try discriminate LO; destruct (sym v) as [[[x|n] s]|]; try reflexivity; discriminate LO.
Qed.
End Code.

(* ---- the names a designator goes through ---- *)
Definition post {A} (m : M A) (P : A -> Prop) : Prop := forall s a s', m s = Ok (a, s') -> P a.
Lemma post_ret {A} (a : A) (P : A -> Prop) : P a -> post (ret a) P.
Proof. intros H s b s' E. unfold ret in E. congruence. Qed.
Lemma post_stop {A} (P : A -> Prop) : post stop P. Proof. intros s b s' E. discriminate E. Qed.
Lemma post_bad {A} (P : A -> Prop) : post bad P. Proof. intros s b s' E. discriminate E. Qed.
Lemma post_bind {A B} (m : M A) (f : A -> M B) P Q : post m P -> (forall a, P a -> post (f a) Q) -> post (bind m f) Q.
Proof. intros H F s b s' E. unfold bind in E. destruct (m s) as [[a s1]| |] eqn:D; try discriminate E. exact (F a (H _ _ _ D) _ _ _ E). Qed.
Lemma post_any {A} (m : M A) : post m (fun _ => True).
Proof. intros s a s' _. exact I. Qed.
Section Names.
Variable G : tagged.
Variable L : list (nat * cty).
Notation from := (from L).
Definition efrom (e : expr) : Prop := is_identity e = true -> from (e_l e).
Lemma tmp_from t e : post (assign_tmp t e) from.
Proof. intros [n l] a s' E. unfold assign_tmp in E. injection E as <- _. exact I. Qed.
Lemma eval_from e : efrom e -> post (eval e) from.
Proof. intros H. unfold eval. destruct (is_identity e) eqn:E; [apply post_ret; apply H; exact E|apply tmp_from]. Qed.
Lemma is_from e : from (e_l e) -> efrom e.
Proof. intros H _. exact H. Qed.
Ltac posts := repeat (cbv zeta; first
  [ apply post_stop | apply post_bad
  | apply post_ret; solve [assumption | exact I | apply is_from; assumption | apply is_from; exact I]
  | match goal with |- post (if ?b then _ else _) _ => destruct b | |- post (match ?b with _ => _ end) _ => destruct b eqn:? end ]).
Lemma cast_from v t : from v -> post (cast_operand G v t) from.
Proof. intros H. unfold cast_operand. posts. apply eval_from, is_from. exact H. Qed.
Lemma two_from l r t (f : var -> var -> expr) : from l -> from r -> (forall l r, from l -> from r -> efrom (f l r)) ->
  post (let* l := cast_operand G l t in let* r := cast_operand G r t in ret (f l r)) efrom.
Proof.
  intros Hl Hr F. eapply post_bind; [apply cast_from; exact Hl|]. cbv beta. intros l' Hl'. eapply post_bind; [apply cast_from; exact Hr|]. cbv beta. intros r' Hr'. apply post_ret. auto.
Qed.
Lemma add_int_from l r : from l -> from r -> post (add_int G l r) efrom.
Proof. intros Hl Hr. unfold add_int. cbv zeta. apply two_from; auto. intros a b A B. apply is_from. destruct (_ && _); [exact I|]. destruct (_ && _); [exact A|]. destruct (_ && _); [exact B|exact A]. Qed.
Lemma mul_from l r : from l -> from r -> post (eval_mul G l r) efrom.
Proof. intros Hl Hr. unfold eval_mul. destruct (_ || _); [apply post_stop|]. cbv zeta. apply two_from; auto. intros a b A B. apply is_from. destruct (_ && _); [exact I|exact A]. Qed.
Lemma operands_from l r f : from l -> from r -> (forall t l r, from l -> from r -> efrom (f t l r)) -> post (int_operands G l r f) efrom.
Proof. intros Hl Hr F. unfold int_operands. destruct (_ || _); [apply post_stop|]. cbv zeta. apply two_from; auto. Qed.
Lemma div_from l r : from l -> from r -> post (eval_div G l r) efrom.
Proof. intros Hl Hr. apply operands_from; auto. intros t a b A B. apply is_from. destruct (_ && _); [exact A|]. destruct (_ && _); [exact I|exact A]. Qed.
Lemma mod_from l r : from l -> from r -> post (eval_mod G l r) efrom.
Proof. intros Hl Hr. apply operands_from; auto. intros t a b A B. apply is_from. destruct (_ && _); [exact A|]. destruct (_ && _); [exact I|exact A]. Qed.
Lemma bits_from l r : from l -> from r -> post (eval_and G l r) efrom /\ post (eval_or G l r) efrom /\ post (eval_xor G l r) efrom.
Proof. intros Hl Hr. repeat split; (apply operands_from; auto; intros t a b A B; apply is_from; destruct (_ && _); [exact I|exact A]). Qed.
Lemma shifts_from l r : from l -> from r -> post (eval_lshift G l r) efrom /\ post (eval_rshift G l r) efrom.
Proof.
  intros Hl Hr. split; [unfold eval_lshift|unfold eval_rshift]; (destruct (_ || _); [apply post_stop|]); cbv zeta;
    (eapply post_bind; [apply cast_from; exact Hl|]); cbv beta; intros a A; apply post_ret, is_from; (destruct (_ && _); [exact I|exact A]).
Qed.
Lemma not_from v : from v -> post (eval_not G v) efrom.
Proof. intros H. unfold eval_not. destruct (negb _); [apply post_stop|]. cbv zeta. eapply post_bind; [apply cast_from; exact H|]. cbv beta. intros a A. apply post_ret, is_from. destruct (is_imm a); [exact I|exact A]. Qed.
Lemma plus_from v : from v -> post (eval_plus G v) efrom.
Proof. intros H. unfold eval_plus. posts; apply post_ret, is_from; exact H || exact I. Qed.
Lemma offset_from l r : from l -> from r -> post (add_offset G l r) efrom.
Proof.
  intros Hl Hr. unfold add_offset. destruct (vtype l) as [| |t| |]; try apply post_bad. cbv zeta. eapply post_bind; [apply cast_from; exact Hr|]. cbv beta. intros r' Hr'.
  posts. eapply post_bind; [apply cast_from; exact Hl|]. cbv beta. intros l' Hl'. eapply post_bind; [apply post_any|]. cbv beta. intros r2 _. apply post_ret, is_from. exact Hl'.
Qed.
Lemma addr_from v : from v -> post (eval_addr G v) from.
Proof.
  intros H. unfold eval_addr. destruct (kind v); posts. cbv zeta. assert (D : from (var_direct s)) by (unfold StoreProofs.from in *; rewrite Heqo in H; destruct s as [[x|n] t]; exact H).
  eapply post_bind with (P := from).
  - destruct (_ =? _); [apply post_ret; exact D|]. eapply post_bind; [apply cast_from; exact D|]. cbv beta. intros p Hp. eapply post_bind; [apply offset_from; [exact Hp|exact I]|].
    cbv beta. intros e He. apply eval_from. exact He.
  - intros t Ht. apply post_ret. exact Ht.
Qed.
Lemma rvalue_from v : from v -> post (rvalue G v) from.
Proof. intros H. unfold rvalue. destruct (vtype v); try (apply post_ret; exact H). apply addr_from. exact H. Qed.
Lemma add_from l r : from l -> from r -> post (eval_add G l r) efrom.
Proof.
  intros Hl Hr. unfold eval_add. eapply post_bind; [apply rvalue_from; exact Hl|]. cbv beta. intros a A. eapply post_bind; [apply rvalue_from; exact Hr|]. cbv beta. intros b B.
  destruct (_ && _); cbv beta iota; (destruct (_ && _); [apply add_int_from; assumption|]; destruct (_ && _); [apply offset_from; assumption|apply post_stop]).
Qed.
Lemma sub_from l r : from l -> from r -> post (eval_sub G l r) efrom.
Proof.
  intros Hl Hr. unfold eval_sub. eapply post_bind; [apply rvalue_from; exact Hl|]. cbv beta. intros a A. eapply post_bind; [apply rvalue_from; exact Hr|]. cbv beta. intros b B.
  assert (SI : forall l r, from l -> from r -> post (sub_int G l r) efrom).
  { intros l0 r0 H0 H1. unfold sub_int. cbv zeta. apply two_from; auto. intros x y X Y. apply is_from. destruct (_ && _); [exact I|]. destruct (_ && _); exact X. }
  destruct (vtype a) as [| |t| |]; try apply post_stop; destruct (vtype b) as [| |u| |]; try apply post_stop; cbv zeta.
  - apply SI; assumption.
  - eapply post_bind; [apply cast_from; exact B|]. cbv beta. intros b' B'. posts. eapply post_bind; [apply post_any|]. cbv beta. intros r2 _. apply post_ret, is_from. exact A.
  - eapply post_bind; [apply cast_from; exact A|]. cbv beta. intros a' A'. eapply post_bind; [apply cast_from; exact B|]. cbv beta. intros b' B'.
    eapply post_bind; [apply SI; assumption|]. cbv beta. intros e E. posts. eapply post_bind; [apply eval_from; exact E|]. cbv beta. intros x X. apply div_from; [exact X|exact I].
Qed.
Lemma equality_from o l r : from l -> from r -> post (eval_equality G o l r) efrom.
Proof.
  intros Hl Hr. unfold eval_equality. eapply post_bind; [apply rvalue_from; exact Hl|]. cbv beta. intros a A. eapply post_bind; [apply rvalue_from; exact Hr|]. cbv beta. intros b B.
  eapply post_bind with (P := fun p => from (fst p)); [|intros [x y] X; apply post_ret, is_from; destruct (_ && _); [exact I|exact X]].
  unfold prepare_comparison. cbv zeta.
  assert (X : forall t, post (let* l := cast_operand G a t in let* r := cast_operand G b t in ret (l, r)) (fun p => from (fst p))).
  { intros t. eapply post_bind; [apply cast_from; exact A|]. cbv beta. intros x X. eapply post_bind; [apply post_any|]. cbv beta. intros y _. apply post_ret. exact X. }
  assert (Y : forall t, post (let* r := cast_operand G b t in let* l := cast_operand G a t in ret (l, r)) (fun p => from (fst p))).
  { intros t. eapply post_bind; [apply post_any|]. cbv beta. intros y _. eapply post_bind; [apply cast_from; exact A|]. cbv beta. intros x Z. apply post_ret. exact Z. }
  destruct (_ && _); [apply X|]. destruct (match vtype a with TVoid => _ | _ => _ end).
  - destruct (is_scalar _); [apply Y|apply post_bad].
  - destruct (is_pointer _); [|apply post_stop]. destruct (is_scalar _); [apply X|apply post_bad].
Qed.
Lemma relation_from o l r : from l -> from r -> post (eval_relation G o l r) efrom.
Proof.
  intros Hl Hr. unfold eval_relation. eapply post_bind; [apply rvalue_from; exact Hl|]. cbv beta. intros a A. eapply post_bind; [apply rvalue_from; exact Hr|]. cbv beta. intros b B.
  eapply post_bind; [apply post_any|]. cbv beta. intros t _. apply two_from; auto. intros x y X Y. apply is_from. destruct (_ && _); [exact I|exact X].
Qed.
Lemma binop_from o l r : from l -> from r -> post (binop G o l r) efrom.
Proof.
  intros Hl Hr. destruct o; cbn [binop]; auto using add_from, sub_from, mul_from, div_from, mod_from, relation_from, equality_from; apply bits_from || apply shifts_from; assumption.
Qed.
Lemma unop_from o e : efrom e -> post (unop G o e) efrom.
Proof.
  intros H. pose proof (eval_from e H) as E. destruct o; cbn [unop].
  - eapply post_bind; [exact E|]. apply plus_from.
  - eapply post_bind; [exact E|]. cbv beta. intros v V. unfold eval_neg. destruct (is_integer _); [apply sub_from; [exact I|exact V]|apply post_stop].
  - eapply post_bind; [exact E|]. apply not_from.
  - unfold logical_not. assert (D : post (let* v := eval e in eval_equality G EQ (var_int 0) v) efrom).
    { eapply post_bind; [exact E|]. cbv beta. intros v V. apply equality_from; [exact I|exact V]. }
    destruct (e_op e); try exact D; apply post_ret; intros Q; discriminate Q.
Qed.
Lemma deref_from v : from v -> post (eval_deref G v) from.
Proof.
  intros H. unfold eval_deref. eapply post_bind; [apply rvalue_from; exact H|]. cbv beta. intros x X. destruct (vtype x) as [| |t| |]; try apply post_stop. cbv zeta.
  destruct (kind x); try (apply post_ret; exact X).
  - destruct (sym x) as [s|] eqn:S; [|apply post_bad]. destruct (_ || _); [|apply post_ret; unfold StoreProofs.from in *; cbn [sym]; rewrite S in *; exact X].
    eapply post_bind; [apply tmp_from|]. cbv beta. intros y Y. apply post_ret. exact Y.
  - eapply post_bind; [apply tmp_from|]. cbv beta. intros y Y. apply post_ret. exact Y.
Qed.
Lemma cast_expr_from v t : from v -> post (eval_cast G v t) efrom.
Proof. intros H. unfold eval_cast. eapply post_bind; [apply rvalue_from; exact H|]. cbv beta. intros x X. posts. Qed.
Lemma member_from other v m : post other efrom -> from v -> post (member G other v m) efrom.
Proof. intros O H. unfold member. destruct (vtype v); try exact O. destruct (find_member _ _) as [[o t]|]; [apply post_ret, is_from; exact H|apply post_stop]. Qed.
End Names.
Lemma from_more L L' v : (forall x, In x L -> In x L') -> from L v -> from L' v.
Proof. unfold from. intros H F. destruct (sym v) as [[[x|n] t]|]; auto. Qed.
Lemma post_imp {A} (m : M A) (P Q : A -> Prop) : post m P -> (forall a, P a -> Q a) -> post m Q.
Proof. intros H F s a s' E. apply F. exact (H _ _ _ E). Qed.
Lemma compile_from G e : post (compile G e) (efrom (names e)).
Proof.
  assert (X : forall L (m : M expr) L', post m (efrom L) -> (forall x, In x L -> In x L') -> post (let* a := m in eval a) (from L')).
  { intros L m L' H S. eapply post_bind; [exact H|]. cbv beta. intros a A. apply eval_from. intros Q. exact (from_more _ _ _ S (A Q)). }
  assert (ONE : forall a {B} (f : var -> M B) (Q : B -> Prop), post (compile G a) (efrom (names a)) -> (forall v, from (names a) v -> post (f v) Q) ->
    post (let* a := compile G a in let* a := eval a in f a) Q).
  { intros a B f Q H F. eapply post_bind; [exact H|]. cbv beta. intros x A. eapply post_bind; [apply eval_from; exact A|exact F]. }
  assert (TWO : forall a b {B} (f : var -> var -> M B) (Q : B -> Prop), post (compile G a) (efrom (names a)) -> post (compile G b) (efrom (names b)) ->
    (forall v u, from (names a ++ names b) v -> from (names a ++ names b) u -> post (f v u) Q) ->
    post (let* a := compile G a in let* a := eval a in let* b := compile G b in let* b := eval b in f a b) Q).
  { intros a b B f Q Ha Hb F. apply ONE; [exact Ha|]. intros v V. apply ONE; [exact Hb|]. intros u U. apply F; (eapply from_more; [|eassumption]; intros x I; apply in_or_app; auto). }
  clear X. induction e as [x t|t z|a IHa b IHb|a IHa|a IHa|a IHa m|a IHa m|o a IHa b IHb|o a IHa|t a IHa]; cbn [compile names].
  - apply post_ret, is_from. cbn. auto.
  - apply post_ret, is_from. exact I.
  - apply TWO; auto. intros v u V U. eapply post_bind; [apply add_from; eassumption|]. cbv beta. intros s S. eapply post_bind; [apply eval_from; exact S|]. cbv beta. intros p P.
    eapply post_bind; [apply deref_from; exact P|]. cbv beta. intros d D. apply post_ret, is_from. exact D.
  - apply ONE; auto. intros v V. eapply post_bind; [apply deref_from; exact V|]. cbv beta. intros d D. apply post_ret, is_from. exact D.
  - apply ONE; auto. intros v V. eapply post_bind; [apply addr_from; exact V|]. cbv beta. intros d D. apply post_ret, is_from. exact D.
  - apply ONE; auto. intros v V. apply member_from; [apply post_bad|exact V].
  - apply ONE; auto. intros v V. eapply post_bind; [apply deref_from; exact V|]. cbv beta. intros d D. apply member_from; [apply post_stop|exact D].
  - apply TWO; auto. intros v u V U. apply binop_from; assumption.
  - eapply post_bind; [exact IHa|]. cbv beta. intros x X. apply unop_from. exact X.
  - apply ONE; auto. intros v V. apply cast_expr_from. exact V.
Qed.
(* a pointer that is dereferenced is of those *)
Lemma compile_through G e : post (compile G e) (fun x => kind (e_l x) = DEREF -> efrom (through e) x).
Proof.
  induction e; try solve [eapply post_imp; [apply compile_from|]; cbv beta; intros x X _; exact X]; cbn [through].
  - cbn [compile]. apply post_ret. intros E. discriminate E.
  - cbn [compile]. eapply post_bind; [exact IHe|]. cbv beta. intros x X. eapply post_bind with (P := fun v => kind v = DEREF -> from (through e) v).
    + unfold eval. destruct (is_identity x) eqn:Q; [apply post_ret; intros K; exact (X K Q)|]. eapply post_imp; [apply (tmp_from (through e))|]. auto.
    + intros v V. unfold member. destruct (vtype v); try apply post_bad. destruct (find_member _ _) as [[o t]|]; [apply post_ret|apply post_stop]. intros K. apply is_from. exact (V K).
Qed.
