(* Objects and pointers, continued: addresses, dereferencing, differences, and whole expressions. *)
From Coq Require Import List Bool Arith ZArith Lia.
From Verif Require Import PtrModel PtrSpec PtrProofs.
Import ListNotations.
Open Scope Z_scope.

Section Code.
Variable G : tagged.
Variable w : world.
Hypothesis GO : tags_ok G.
Hypothesis WO : world_ok w.
Notation gives := (gives G w).
Notation sound := (sound G).
Notation holds := (holds G w).
Notation located := (located w).
Notation is_result := (is_result G w).
Notation var_is := (var_is G w).
Notation var_result := (var_result G w).
Notation expr_is := (expr_is G w).
Notation expr_result := (expr_result G w).

Lemma width_size t : width G t = size_of G t.
Proof. induction t; cbn; congruence. Qed.
Lemma size_ok t : type_ok G t -> 0 <= size_of G t < 2 ^ 63.
Proof.
  rewrite p63. induction t as [|s sg|u IH|n u IH|i]; cbn [type_ok size_of]; intros Y; try lia.
  - destruct Y as (N & Y & B). rewrite p63, width_size in B. specialize (IH Y). nia.
  - destruct (GO i) as [S _]. rewrite p31 in S. lia.
Qed.

Lemma addr_ok k T v t a : sound k v -> lvalue v = true -> location w T v = Some a -> type_ok G t -> gives (eval_addr G (retype v t)) k T (var_is (TPtr t) a).
Proof.
  intros [Y W] L E Yt. unfold eval_addr. cbn [kind retype lvalue sym offset vtype imm].
  assert (N : near G v -> 0 <= offset v < 2 ^ 31).
  { intros [A B]. pose proof (size_ok _ Y). rewrite p31 in *. lia. }
  unfold location in E. destruct (kind v) eqn:K; destruct (sym v) as [[[x|n] s]|] eqn:S; try contradiction W; try discriminate E.
  - rewrite L. apply gives_ret. injection E as <-. split; [split; [exact Yt|]; cbn; apply wp|]. split; [reflexivity|]. reflexivity.
  - destruct W as [P W]. cbn [s_type]. rewrite P in *. cbn [negb]. specialize (N W).
    destruct (load w s (addr w x)) as [p|] eqn:LD; [|discriminate E]. cbn [option_map] in E. injection E as <-.
    assert (V : forall u, sound k (retype (var_direct (mkSym (Obj x) s)) (TPtr u)) -> holds T (retype (var_direct (mkSym (Obj x) s)) (TPtr u)) (TPtr u) p).
    { intros u _. split; [reflexivity|]. unfold value, location. cbn [kind sym retype var_direct offset vtype s_id s_type]. rewrite Z.add_0_r, <- LD.
      rewrite (wide_load w (TPtr u) s); [|apply wp|right; exact P]. destruct s; try discriminate P. cbn [load]. rewrite wrap_wrap. reflexivity. }
    assert (R : 0 <= p < 2 ^ 64) by (destruct s; try discriminate P; injection LD as <-; apply read8).
    assert (SD : forall u, type_ok G u -> sound k (retype (var_direct (mkSym (Obj x) s)) (TPtr u))) by (intros u Yu; split; [exact Yu|exact I]).
    destruct (Z.eqb_spec (offset v) 0) as [O|O].
    + rewrite O, Z.add_0_r, wrap_id by exact R. apply gives_ret. split; [apply SD; exact Yt|apply V, SD; exact Yt].
    + apply gives_bind with (P := fun u k' T' => var_is (TPtr char) (wrap (p + offset v)) u k' T').
      2:{ intros u k' T' _ _ [Wu Hu]. apply gives_ret. apply (retype_wide G w k' T' u (TPtr t)); [exact Wu|rewrite (proj1 Hu); apply wp|apply wp|exact Yt|apply Hu]. }
      apply gives_bind with (P := var_is (TPtr char) p).
      { unfold cast_operand. cbn [vtype var_direct s_type is_imm kind s_id]. rewrite P. cbn [orb].
        assert (Z8 : size_of G s = 8) by (destruct s; try discriminate P; reflexivity). rewrite Z8.
        destruct (type_equal s (TPtr char)) eqn:Q.
        - apply type_equal_eq in Q as ->. apply gives_ret. split; [apply (SD char); cbn; auto|apply (V char), SD; cbn; auto].
        - cbn. apply gives_ret. split; [apply (SD char); cbn; auto|apply (V char), SD; cbn; auto]. }
      intros ptr k1 T1 L1 A1 [W1 H1].
      assert (EX : extend 4 true (offset v) = offset v).
      { unfold extend, low. change (2 ^ (8 * 4 - 1)) with (2 ^ 31). rewrite Z.mod_small by (rewrite p31 in N; change (2 ^ (8 * 4)) with 4294967296; lia).
        destruct (Z.leb_spec (2 ^ 31) (offset v)); [lia|reflexivity]. }
      rewrite EX. destruct (imm_ok G w k1 T1 int (offset v)) as [W2 H2]; [cbn; auto|rewrite p31 in N; rewrite p64; lia|].
      eapply gives_bind; [eapply add_offset_ok with (t := char) (u := int); [exact W1|exact H1|exact W2|exact H2|cbn; auto|reflexivity|exact EX|reflexivity|cbn; auto]|].
      cbv beta. intros e k2 T2 _ _ X. change (size_of G char) with 1 in X. rewrite Z.mul_1_r in X. apply eval_ok. exact X.
  - destruct W as (P & W & LT). cbn [s_type]. rewrite P in *. cbn [negb]. specialize (N W). injection E as <-.
    set (p := wrap (T n)). assert (EQ : wrap (T n + offset v) = wrap (p + offset v)) by (symmetry; apply wrap_add). rewrite EQ.
    assert (PS : scalar s = true) by (destruct s; try discriminate P; reflexivity).
    assert (Z8 : size_of G s = 8) by (destruct s; try discriminate P; reflexivity).
    assert (V : forall u, holds T (retype (var_direct (mkSym (Tmp n) s)) (TPtr u)) (TPtr u) p).
    { intros u. split; [reflexivity|]. unfold value. cbn [kind sym retype var_direct offset vtype s_id s_type]. rewrite !scalar_is, PS, Z8. reflexivity. }
    assert (SD : forall u, type_ok G u -> sound k (retype (var_direct (mkSym (Tmp n) s)) (TPtr u))).
    { intros u Yu. split; [exact Yu|]. cbn [kind sym retype var_direct offset vtype s_id s_type lvalue]. repeat split; auto. }
    destruct (Z.eqb_spec (offset v) 0) as [O|O].
    + rewrite O, Z.add_0_r. unfold p. rewrite wrap_wrap. apply gives_ret. split; [apply SD; exact Yt|apply V].
    + apply gives_bind with (P := fun u k' T' => var_is (TPtr char) (wrap (p + offset v)) u k' T').
      2:{ intros u k' T' _ _ [Wu Hu]. apply gives_ret. apply (retype_wide G w k' T' u (TPtr t)); [exact Wu|rewrite (proj1 Hu); apply wp|apply wp|exact Yt|apply Hu]. }
      apply gives_bind with (P := var_is (TPtr char) p).
      { unfold cast_operand. cbn [vtype var_direct s_type is_imm kind s_id]. rewrite P. cbn [orb]. rewrite Z8.
        destruct (type_equal s (TPtr char)) eqn:Q.
        - apply type_equal_eq in Q as ->. apply gives_ret. split; [apply (SD char); cbn; auto|apply (V char)].
        - cbn. apply gives_ret. split; [apply (SD char); cbn; auto|apply (V char)]. }
      intros ptr k1 T1 L1 A1 [W1 H1].
      assert (EX : extend 4 true (offset v) = offset v).
      { unfold extend, low. change (2 ^ (8 * 4 - 1)) with (2 ^ 31). rewrite Z.mod_small by (rewrite p31 in N; change (2 ^ (8 * 4)) with 4294967296; lia).
        destruct (Z.leb_spec (2 ^ 31) (offset v)); [lia|reflexivity]. }
      rewrite EX. destruct (imm_ok G w k1 T1 int (offset v)) as [W2 H2]; [cbn; auto|rewrite p31 in N; rewrite p64; lia|].
      eapply gives_bind; [eapply add_offset_ok with (t := char) (u := int); [exact W1|exact H1|exact W2|exact H2|cbn; auto|reflexivity|exact EX|reflexivity|cbn; auto]|].
      cbv beta. intros e k2 T2 _ _ X. change (size_of G char) with 1 in X. rewrite Z.mul_1_r in X. apply eval_ok. exact X.
  - injection E as <-. apply gives_ret. split.
    + split; [exact Yt|]. cbn. split; [reflexivity|apply wrap_range].
    + split; reflexivity.
Qed.
Lemma retype_same v : retype v (vtype v) = v.
Proof. destruct v. reflexivity. Qed.
Lemma location_range k T v a : sound k v -> location w T v = Some a -> 0 <= a < 2 ^ 64.
Proof.
  intros [_ W] E. unfold location in E. destruct (kind v); destruct (sym v) as [[[x|n] s]|]; try discriminate E; try (destruct (is_pointer s); [|discriminate E]);
    try (destruct (load _ _ _); [|discriminate E]); injection E as <-; apply wrap_range.
Qed.

(* r-values *)
Definition num_ok (v : cty * Z) : Prop := type_ok G (fst v) /\ fits (fst v) (snd v).
Lemma rvalue_ok k T v r t z : sound k v -> is_result T v r -> (forall u y, r = Val u y -> fits u y) -> value_of w r = Some (t, z) ->
  num_ok (t, z) /\ gives (rvalue G v) k T (var_is t (wrap z)).
Proof.
  intros W H F E. destruct r as [u a|u y]; cbn [is_result PtrProofs.is_result value_of] in *.
  - destruct H as (Eu & L & LO). pose proof (location_range _ _ _ _ W LO) as R. pose proof (proj1 W) as Y. rewrite Eu in Y. unfold rvalue. rewrite Eu.
    assert (X : forall h, u = t -> held w t a = h -> h = Some z -> num_ok (t, z) /\ gives (ret v) k T (var_is t (wrap z))).
    { intros h <- Q ->. destruct (held_load G w u a z Y R Q) as [A B]. split; [split; assumption|]. apply gives_ret. split; [exact W|].
      split; [exact Eu|]. pose proof (proj2 W) as W'. unfold value. rewrite LO, Eu, A. unfold location in LO.
      destruct (kind v); destruct (sym v) as [[[x|n] s]|]; try reflexivity; try contradiction W'; discriminate LO. }
    destruct u as [|s sg|u|n u|i]; cbn [value_of held option_map] in E; try discriminate E.
    + injection E as <- E. apply (X (Some z)); [reflexivity|cbn [held]; rewrite E; reflexivity|reflexivity].
    + injection E as <- E. apply (X (Some z)); [reflexivity|cbn [held]; f_equal; exact E|reflexivity].
    + injection E as <- <-. cbn [type_ok] in Y. split; [split; [apply Y|exact R]|]. rewrite (wrap_id _ R). apply addr_ok; [exact W|exact L|exact LO|apply Y].
  - injection E as <- <-. destruct H as [H S]. split; [split; [|apply F; reflexivity]|]; cbn [fst].
    + destruct H as [<- _]. apply W.
    + unfold rvalue. destruct H as [E1 H]. rewrite E1. destruct u; try discriminate S; apply gives_ret; (split; [exact W|split; assumption]).
Qed.
Lemma num_convert t z : num_ok (t, z) -> convert (wrap z) t = wrap z.
Proof.
  intros [Y F]. cbn [fst snd] in *. assert (S : scalar t = true) by (destruct t; try contradiction F; reflexivity).
  rewrite (convert_converted G) by assumption. f_equal. apply (converted_id G); assumption.
Qed.
Definition result_ok (r : result) : Prop := match r with At t a => type_ok G t /\ 0 <= a < 2 ^ 64 | Val t z => num_ok (t, z) end.
Lemma result_fits r : result_ok r -> forall u y, r = Val u y -> fits u y.
Proof. intros H u y ->. apply H. Qed.
Lemma num_scalar t z : num_ok (t, z) -> scalar t = true.
Proof. intros [_ F]. cbn in F. destruct t; try contradiction F; reflexivity. Qed.

(* both operands of an operator *)
Lemma rvalues k T a b ra rb ta za tb zb (f : var -> var -> M expr) Q :
  sound k a -> is_result T a ra -> result_ok ra -> value_of w ra = Some (ta, za) ->
  sound k b -> is_result T b rb -> result_ok rb -> value_of w rb = Some (tb, zb) ->
  (num_ok (ta, za) -> num_ok (tb, zb) -> forall l r k' T', (k <= k')%nat -> sound k' l -> holds T' l ta (wrap za) -> sound k' r -> holds T' r tb (wrap zb) ->
     gives (f l r) k' T' Q) ->
  gives (let* l := rvalue G a in let* r := rvalue G b in f l r) k T Q.
Proof.
  intros Wa Ha Oa Ea Wb Hb Ob Eb F.
  destruct (rvalue_ok k T a ra ta za Wa Ha (result_fits _ Oa) Ea) as [Na Ga].
  apply gives_bind with (P := var_is ta (wrap za)); [exact Ga|]. intros l k1 T1 L1 A1 [Wl Hl].
  destruct (rvalue_ok k1 T1 b rb tb zb (sound_more _ _ _ _ L1 Wb) (result_agree _ _ _ _ _ _ _ Wb A1 Hb) (result_fits _ Ob) Eb) as [Nb Gb].
  apply gives_bind with (P := var_is tb (wrap zb)); [exact Gb|]. intros r k2 T2 L2 A2 [Wr Hr].
  apply F; auto; [lia|exact (sound_more _ _ _ _ L2 Wl)|exact (holds_agree _ _ _ _ _ _ _ _ Wl A2 Hl)].
Qed.

(* ---- arithmetic of integers ---- *)
Lemma usual_common a sa b sb : type_ok G (TInt a sa) -> type_ok G (TInt b sb) -> usual_conversion G (TInt a sa) (TInt b sb) = common a sa b sb /\ type_ok G (common a sa b sb).
Proof. cbn [type_ok]. intros [->|[->|[->| ->]]] [->|[->|[->| ->]]]; destruct sa, sb; split; try reflexivity; cbn; auto. Qed.
Lemma casts_ok {A} k T l r u v b c t (f : var -> var -> A) (Q : A -> nat -> temps -> Prop) : sound k l -> holds T l u b -> scalar u = true -> convert b u = b ->
  sound k r -> holds T r v c -> scalar v = true -> convert c v = c -> type_ok G t -> scalar t = true ->
  (forall l r k T, sound k l -> holds T l t (convert b t) -> sound k r -> holds T r t (convert c t) -> Q (f l r) k T) ->
  gives (let* l := cast_operand G l t in let* r := cast_operand G r t in ret (f l r)) k T Q.
Proof.
  intros Wl Hl Su Cu Wr Hr Sv Cv Y S F. eapply gives_bind; [eapply cast_ok with (t := t); [exact Wl|exact Hl|exact Su|exact Y|exact S|exact Cu]|].
  cbv beta. intros l1 k1 T1 L1 A1 [W1 H1].
  eapply gives_bind; [eapply cast_ok with (t := t); [exact (sound_more _ _ _ _ L1 Wr)|exact (holds_agree _ _ _ _ _ _ _ _ Wr A1 Hr)|exact Sv|exact Y|exact S|exact Cv]|].
  cbv beta. intros r2 k2 T2 L2 A2 [W2 H2]. apply gives_ret. apply F; auto; [exact (sound_more _ _ _ _ L2 W1)|exact (holds_agree _ _ _ _ _ _ _ _ W1 A2 H1)].
Qed.
Lemma imm_expr k T t z : type_ok G t -> expr_is t (convert z t) (as_expr (imm_int t z)) k T.
Proof. intros Y. apply as_is; apply (imm_ok G w k T t); auto; apply (convert_range G); exact Y. Qed.
Lemma shift_expr k T v t b d : sound k v -> is_addr v = true -> holds T v t b -> expr_is t (convert (b + d) t) (as_expr (shift v d)) k T.
Proof.
  intros W A H. destruct (addr_value _ _ _ _ _ _ W A (proj2 H)) as (_ & D & _). rewrite (proj1 H) in D. rewrite convert8 by exact D.
  destruct (shift_ok _ _ _ _ _ _ _ d W A H) as [X Y]. apply as_is; assumption.
Qed.
Ltac imms := repeat match goal with
  | W : PtrProofs.sound G ?k ?v, I : is_imm ?v = true, H : PtrProofs.holds G w ?T ?v _ _ |- _ => destruct (imm_value _ _ _ _ _ _ W I (proj2 H)) as (_ & -> & _); clear I end.
Lemma add_int_ok k T l r u v b c : sound k l -> holds T l u b -> scalar u = true -> convert b u = b ->
  sound k r -> holds T r v c -> scalar v = true -> convert c v = c ->
  forall t, usual_conversion G u v = t -> type_ok G t -> scalar t = true -> gives (add_int G l r) k T (expr_is t (convert (convert b t + convert c t) t)).
Proof.
  intros Wl Hl Su Cu Wr Hr Sv Cv t E Y S. unfold add_int. rewrite (proj1 Hl), (proj1 Hr), E.
  eapply (casts_ok k T l r u v b c t); try eassumption. clear k T l r Wl Hl Wr Hr. intros l r k T Wl Hl Wr Hr.
  destruct (is_imm l && is_imm r) eqn:B; [apply andb_true_iff in B as [B1 B2]; imms; apply imm_expr; exact Y|].
  destruct (is_addr l && is_imm r) eqn:B'; [apply andb_true_iff in B' as [B1 B2]; imms; apply shift_expr; assumption|].
  destruct (is_imm l && is_addr r) eqn:B''; [apply andb_true_iff in B'' as [B1 B2]; imms; rewrite Z.add_comm; apply shift_expr; assumption|].
  eapply (binary_gen G w ADD); [exact S|exact Y|apply Hl|apply Hr|rewrite (proj1 Hl); reflexivity|rewrite (proj1 Hr); reflexivity|reflexivity].
Qed.
Lemma sub_int_ok k T l r u v b c : sound k l -> holds T l u b -> scalar u = true -> convert b u = b ->
  sound k r -> holds T r v c -> scalar v = true -> convert c v = c ->
  forall t, usual_conversion G u v = t -> type_ok G t -> scalar t = true -> gives (sub_int G l r) k T (expr_is t (convert (convert b t - convert c t) t)).
Proof.
  intros Wl Hl Su Cu Wr Hr Sv Cv t E Y S. unfold sub_int. rewrite (proj1 Hl), (proj1 Hr), E.
  eapply (casts_ok k T l r u v b c t); try eassumption. clear k T l r Wl Hl Wr Hr. intros l r k T Wl Hl Wr Hr.
  destruct (is_imm l && is_imm r) eqn:B; [apply andb_true_iff in B as [B1 B2]; imms; apply imm_expr; exact Y|].
  destruct (is_addr l && is_imm r) eqn:B'; [apply andb_true_iff in B' as [B1 B2]; imms; rewrite <- Z.add_opp_r; apply shift_expr; assumption|].
  eapply (binary_gen G w SUB); [exact S|exact Y|apply Hl|apply Hr|rewrite (proj1 Hl); reflexivity|rewrite (proj1 Hr); reflexivity|reflexivity].
Qed.
Lemma mul_ok k T l r u v b c : sound k l -> holds T l u b -> is_integer u = true -> convert b u = b ->
  sound k r -> holds T r v c -> is_integer v = true -> convert c v = c ->
  forall t, usual_conversion G u v = t -> type_ok G t -> scalar t = true -> gives (eval_mul G l r) k T (expr_is t (convert (convert b t * convert c t) t)).
Proof.
  intros Wl Hl Su Cu Wr Hr Sv Cv t E Y S. unfold eval_mul. rewrite (proj1 Hl), (proj1 Hr), E, Su, Sv. cbn [negb orb].
  eapply (casts_ok k T l r u v b c t); try eassumption; [destruct u; try discriminate Su; reflexivity|destruct v; try discriminate Sv; reflexivity|].
  clear k T l r Wl Hl Wr Hr. intros l r k T Wl Hl Wr Hr.
  destruct (is_imm l && is_imm r) eqn:B; [apply andb_true_iff in B as [B1 B2]; imms; apply imm_expr; exact Y|].
  eapply (binary_gen G w MUL); [exact S|exact Y|apply Hl|apply Hr|rewrite (proj1 Hl); reflexivity|rewrite (proj1 Hr); reflexivity|reflexivity].
Qed.
(* what arith says, in bits *)
Lemma arith_vals ok f a sa x b sb y r : num_ok (TInt a sa, x) -> num_ok (TInt b sb, y) -> arith ok f (TInt a sa, x) (TInt b sb, y) = Some r ->
  exists t z X Y, r = Val t z /\ result_ok r /\ usual_conversion G (TInt a sa) (TInt b sb) = t /\ type_ok G t /\ is_integer t = true /\
    X = converted t x /\ Y = converted t y /\ fits t X /\ fits t Y /\ ok t X Y = true /\ z = converted t (f X Y).
Proof.
  intros Na Nb A. destruct (usual_common a sa b sb (proj1 Na) (proj1 Nb)) as [U Y]. cbn [arith] in A. set (t := common a sa b sb) in *.
  assert (S : scalar t = true) by reflexivity. set (p := converted t x) in *. set (q := converted t y) in *. destruct (ok t p q) eqn:OK; [|discriminate A].
  assert (R : fits t (converted t (f p q)) /\ r = Val t (converted t (f p q))).
  { split; [apply (converted_fits G); assumption|]. destruct (match t with TInt _ true => true | _ => false end) eqn:SG.
    - assert (A' : (if fitsb t (f p q) then Some (Val t (f p q)) else None) = Some r) by (destruct t as [|? [|]| | |]; try discriminate SG; exact A).
      destruct (fitsb t _) eqn:FB; [|discriminate A']. injection A' as <-. apply fitsb_fits in FB. rewrite (converted_id G) by assumption. reflexivity.
    - assert (A' : Some (Val t (converted t (f p q))) = Some r) by (destruct t as [|? [|]| | |]; try discriminate SG; exact A). injection A' as <-. reflexivity. }
  destruct R as [F ->]. exists t, (converted t (f p q)), p, q. split; [reflexivity|]. split; [split; [exact Y|exact F]|]. split; [exact U|]. split; [exact Y|]. split; [reflexivity|].
  split; [reflexivity|]. split; [reflexivity|]. split; [apply (converted_fits G); assumption|]. split; [apply (converted_fits G); assumption|]. auto.
Qed.
Lemma int_scalar t : is_integer t = true -> scalar t = true.
Proof. destruct t; intros H; try discriminate H; reflexivity. Qed.
Lemma arith_bits ok f a sa x b sb y r : (forall p q, wrap (f (wrap p) (wrap q)) = wrap (f p q)) ->
  num_ok (TInt a sa, x) -> num_ok (TInt b sb, y) -> arith ok f (TInt a sa, x) (TInt b sb, y) = Some r ->
  exists t z, r = Val t z /\ result_ok r /\ usual_conversion G (TInt a sa) (TInt b sb) = t /\ type_ok G t /\ scalar t = true /\
    wrap z = convert (f (convert (wrap x) t) (convert (wrap y) t)) t.
Proof.
  intros F Na Nb A. destruct (arith_vals _ _ _ _ _ _ _ _ _ Na Nb A) as (t & z & X & Y' & E & O & U & Y & I & -> & -> & _ & _ & _ & ->).
  pose proof (int_scalar _ I) as S. exists t, (converted t (f (converted t x) (converted t y))). repeat (split; [assumption|]).
  rewrite !(convert_converted G t) by assumption. rewrite <- (convert_wrap G t) by assumption. rewrite F, (convert_converted G t) by assumption. reflexivity.
Qed.
(* division *)
Lemma fits_signed t z : type_ok G t -> fits t z -> is_signed t = true -> signed (wrap z) = z.
Proof.
  intros Y F S. destruct t as [|s [|]| | |]; try discriminate S. apply signed_id. destruct (halves _ _ _ Y) as [P D]. cbn [fits] in F. unfold least, most in F. rewrite p63, p64 in *. lia.
Qed.
Lemma fits_unsigned t z : type_ok G t -> fits t z -> is_signed t = false -> wrap z = z /\ 0 <= z.
Proof.
  intros Y F S. destruct t as [|s [|]|u| |]; try discriminate S; try contradiction F.
  - destruct (halves _ _ _ Y) as [P D]. cbn [fits] in F. unfold least, most in F. split; [apply wrap_id; lia|lia].
  - cbn [fits] in F. split; [apply wrap_id; exact F|lia].
Qed.
Lemma quot_ok t x y : type_ok G t -> is_integer t = true -> fits t x -> fits t y -> divides t x y = true ->
  wrap y <> 0 /\ quotient t (wrap x) (wrap y) = Some (Z.quot x y, Z.rem x y) /\
  (if is_signed t then Z.quot (signed (wrap x)) (signed (wrap y)) else wrap x / wrap y) = Z.quot x y /\
  (if is_signed t then Z.rem (signed (wrap x)) (signed (wrap y)) else wrap x mod wrap y) = Z.rem x y.
Proof.
  intros Y I Fx Fy D. apply andb_true_iff in D as [D F]. apply negb_true_iff, Z.eqb_neq in D. apply fitsb_fits in F. unfold quotient.
  destruct (is_signed t) eqn:SG.
  - rewrite !(fits_signed t) by assumption. assert (N : wrap y <> 0) by (intros E; apply D; rewrite <- (fits_signed t y Y Fy SG), E; reflexivity). split; [exact N|].
    destruct (Z.eqb_spec (wrap y) 0); [contradiction|]. rewrite (convert_is G) by (exact Y || apply int_scalar, I). rewrite (converted_id G) by assumption. rewrite Z.eqb_refl. auto.
  - destruct (fits_unsigned t x Y Fx SG) as [-> Px]. destruct (fits_unsigned t y Y Fy SG) as [-> Py]. split; [exact D|]. destruct (Z.eqb_spec y 0); [contradiction|].
    rewrite Z.quot_div_nonneg, Z.rem_mod_nonneg by lia. auto.
Qed.
Lemma int_operands_ok k T l r u v b c t f (Q : expr -> nat -> temps -> Prop) : sound k l -> holds T l u b -> is_integer u = true -> convert b u = b ->
  sound k r -> holds T r v c -> is_integer v = true -> convert c v = c -> usual_conversion G u v = t -> type_ok G t -> scalar t = true ->
  (forall l r k T, sound k l -> holds T l t (convert b t) -> sound k r -> holds T r t (convert c t) -> Q (f t l r) k T) ->
  gives (int_operands G l r f) k T Q.
Proof.
  intros Wl Hl Su Cu Wr Hr Sv Cv E Y S F. unfold int_operands. rewrite (proj1 Hl), (proj1 Hr), E, Su, Sv. cbn [negb orb].
  eapply (casts_ok k T l r u v b c t); try eassumption; apply int_scalar; assumption.
Qed.
Lemma div_ok k T l r u v x y t (md : bool) : sound k l -> holds T l u (wrap x) -> is_integer u = true -> convert (wrap x) u = wrap x ->
  sound k r -> holds T r v (wrap y) -> is_integer v = true -> convert (wrap y) v = wrap y -> usual_conversion G u v = t -> type_ok G t -> is_integer t = true ->
  divides t (converted t x) (converted t y) = true ->
  gives ((if md then eval_mod else eval_div) G l r) k T (expr_is t (wrap (converted t ((if md then Z.rem else Z.quot) (converted t x) (converted t y))))).
Proof.
  intros Wl Hl Su Cu Wr Hr Sv Cv E Y I D. pose proof (int_scalar _ I) as S.
  destruct (quot_ok t _ _ Y I (converted_fits G t x Y S) (converted_fits G t y Y S) D) as (N & QE & QD & QM). rewrite <- (convert_is G) by assumption.
  destruct md; unfold eval_mod, eval_div; (eapply int_operands_ok; try eassumption);
    rewrite !(convert_converted G t) by assumption; clear k T l r Wl Hl Wr Hr; intros l r k T Wl Hl Wr Hr.
  all: destruct (is_imm r && (imm r =? 0)) eqn:B0;
    [apply andb_true_iff in B0 as [B1 B2]; destruct (imm_value _ _ _ _ _ _ Wr B1 (proj2 Hr)) as (_ & B3 & _); rewrite B3 in B2; apply Z.eqb_eq in B2; contradiction|].
  all: destruct (is_imm l && is_imm r) eqn:B; [apply andb_true_iff in B as [B1 B2]; imms; rewrite ?QD, ?QM; apply imm_expr; exact Y|].
  - eapply (binary_gen G w MOD); [exact S|exact Y|apply Hl|apply Hr|rewrite (proj1 Hl); reflexivity|rewrite (proj1 Hr); reflexivity|]. eexists. split; [exact QE|reflexivity].
  - eapply (binary_gen G w DIV); [exact S|exact Y|apply Hl|apply Hr|rewrite (proj1 Hl); reflexivity|rewrite (proj1 Hr); reflexivity|]. eexists. split; [exact QE|reflexivity].
Qed.
(* bits *)
Lemma wrap_bit z i : 0 <= i -> Z.testbit (wrap z) i = (i <? 64) && Z.testbit z i.
Proof. intros I. unfold wrap. destruct (Z.ltb_spec i 64); cbn [andb]; [apply Z.mod_pow2_bits_low; lia|apply Z.mod_pow2_bits_high; lia]. Qed.
Ltac by_bits := apply Z.bits_inj'; intros i I; repeat (rewrite ?wrap_bit, ?Z.land_spec, ?Z.lor_spec, ?Z.lxor_spec by exact I); destruct (i <? 64); cbn [andb]; reflexivity.
Lemma wrap_land2 p q : wrap (Z.land (wrap p) (wrap q)) = wrap (Z.land p q). Proof. by_bits. Qed.
Lemma wrap_lor2 p q : wrap (Z.lor (wrap p) (wrap q)) = wrap (Z.lor p q). Proof. by_bits. Qed.
Lemma wrap_lxor2 p q : wrap (Z.lxor (wrap p) (wrap q)) = wrap (Z.lxor p q). Proof. by_bits. Qed.
Lemma wrap_lnot2 p q : wrap ((fun _ y => Z.lnot y) (wrap p) (wrap q)) = wrap ((fun _ y => Z.lnot y) p q).
Proof. cbv beta. unfold Z.lnot. rewrite <- !Z.sub_1_r. rewrite <- (wrap_sub (- wrap q)), <- (wrap_sub (- q)). do 2 f_equal. rewrite <- !Z.sub_0_l. apply wrap_sub_r. Qed.
Lemma wrap_add2 p q : wrap (wrap p + wrap q) = wrap (p + q). Proof. rewrite wrap_add, wrap_add_r. reflexivity. Qed.
Lemma wrap_sub2 p q : wrap (wrap p - wrap q) = wrap (p - q). Proof. rewrite wrap_sub, wrap_sub_r. reflexivity. Qed.
Lemma wrap_mul2 p q : wrap (wrap p * wrap q) = wrap (p * q). Proof. rewrite wrap_mul, wrap_mul_r. reflexivity. Qed.

Lemma step_inv t p n q : step G t p n = Some q -> q = p + n * size_of G t /\ 0 < size_of G t /\ 0 <= q < 2 ^ 64.
Proof.
  unfold step. rewrite width_size. destruct (_ && _) eqn:B; [|discriminate]. intros E. injection E as <-.
  apply andb_true_iff in B as [B B3]. apply andb_true_iff in B as [B1 B2]. apply Z.ltb_lt in B1, B3. apply Z.leb_le in B2. auto.
Qed.

Lemma add_ok k T a b ra rb va vb r : sound k a -> is_result T a ra -> result_ok ra -> value_of w ra = Some va ->
  sound k b -> is_result T b rb -> result_ok rb -> value_of w rb = Some vb -> plus G va vb = Some r ->
  result_ok r /\ gives (eval_add G a b) k T (expr_result r).
Proof.
  intros Wa Ha Oa Ea Wb Hb Ob Eb P. destruct va as [ta za], vb as [tb zb].
  assert (X : num_ok (ta, za) /\ num_ok (tb, zb)) by (split; [apply (rvalue_ok k T a ra ta za Wa Ha (result_fits _ Oa) Ea)|apply (rvalue_ok k T b rb tb zb Wb Hb (result_fits _ Ob) Eb)]).
  destruct X as [Na Nb]. destruct (is_integer ta && is_integer tb) eqn:II.
  { destruct ta as [|a1 sa| | |]; try discriminate II. destruct tb as [|b1 sb| | |]; try discriminate II.
    destruct (arith_bits _ _ _ _ _ _ _ _ _ wrap_add2 Na Nb P) as (t & z & -> & O & U & Y & S & V). split; [exact O|].
    unfold eval_add. eapply rvalues; [exact Wa|exact Ha|exact Oa|exact Ea|exact Wb|exact Hb|exact Ob|exact Eb|].
    intros _ _ l x k' T' _ Wl Hl Wx Hx. rewrite (proj1 Hl), (proj1 Hx). cbn [is_integer is_pointer andb]. rewrite (proj1 Hl), (proj1 Hx). cbn [is_integer andb].
    eapply gives_imp; [eapply add_int_ok with (t := t); [exact Wl|exact Hl|reflexivity|apply num_convert, Na|exact Wx|exact Hx|reflexivity|apply num_convert, Nb|exact U|exact Y|exact S]|].
    cbv beta. intros e k2 T2 _ X. split; [|exact S]. rewrite V. exact X. }
  assert (Y : exists t p u n q, ((ta, za) = (TPtr t, p) /\ (tb, zb) = (u, n) \/ (ta, za) = (u, n) /\ (tb, zb) = (TPtr t, p)) /\ is_integer u = true /\
                step G t p n = Some q /\ r = Val (TPtr t) q).
  { cbn [plus] in P. destruct ta as [|s sg|t| |]; destruct tb as [|s' sg'|t'| |]; try discriminate P; try discriminate II.
    - destruct (step G t' zb za) as [q|] eqn:E; [|discriminate P]. injection P as <-. exists t', zb, (TInt s sg), za, q. auto.
    - destruct (step G t za zb) as [q|] eqn:E; [|discriminate P]. injection P as <-. exists t, za, (TInt s' sg'), zb, q. auto. }
  destruct Y as (t & p & u & n & q & C & I & E & ->). destruct (step_inv _ _ _ _ E) as (Q & S & R).
  assert (NP : num_ok (TPtr t, p) /\ num_ok (u, n)) by (destruct C as [[C1 C2]|[C1 C2]]; rewrite C1, C2 in *; auto). destruct NP as [NP NU].
  split; [split; [apply NP|exact R]|].
  assert (FIN : forall l x k' T', sound k' l -> holds T' l (TPtr t) (wrap p) -> sound k' x -> holds T' x u (wrap n) ->
            gives (add_offset G l x) k' T' (expr_result (Val (TPtr t) q))).
  { intros l x k' T' Wl Hl Wx Hx. eapply gives_imp; [eapply add_offset_ok; [exact Wl|exact Hl|exact Wx|exact Hx|apply NU|exact I|apply num_convert, NU|exact S|apply NP]|].
    cbv beta. intros e k2 T2 _ X. split; [|reflexivity]. replace (wrap q) with (wrap (wrap p + wrap n * size_of G t)); [exact X|].
    rewrite wrap_add, <- wrap_add_r, wrap_mul, wrap_add_r, Q. reflexivity. }
  unfold eval_add. eapply rvalues; [exact Wa|exact Ha|exact Oa|exact Ea|exact Wb|exact Hb|exact Ob|exact Eb|].
  intros _ _ l x k' T' _ Wl Hl Wx Hx. rewrite (proj1 Hl), (proj1 Hx).
  destruct C as [[C1 C2]|[C1 C2]]; injection C1 as -> ->; injection C2 as -> ->.
  - cbn [is_integer is_pointer andb]. rewrite (proj1 Hl), (proj1 Hx). cbn [is_integer is_pointer andb]. rewrite I. apply FIN; assumption.
  - rewrite I. cbn [is_pointer andb]. rewrite (proj1 Hl), (proj1 Hx). cbn [is_integer is_pointer andb]. rewrite I. apply FIN; assumption.
Qed.

Lemma div_long_ok k T l d s : sound k l -> holds T l long (wrap d) -> - 2 ^ 63 <= d < 2 ^ 63 -> 1 < s < 2 ^ 63 -> d mod s = 0 ->
  gives (eval_div G l (imm_int long s)) k T (expr_is long (wrap (d / s))).
Proof.
  intros Wl Hl D S M. rewrite (imm_int8 long) by apply wl. destruct (imm_ok G w k T long (wrap s) (long_ok G true) (wrap_range s)) as [Wi Hi].
  assert (DQ : Z.quot d s = d / s).
  { pose proof (Z.div_mod d s ltac:(lia)) as E. rewrite M in E. replace d with ((d / s) * s) at 1 by lia. apply Z.quot_mul. lia. }
  assert (Fd : fits long d) by exact D. assert (Fs : fits long s) by (cbn [fits long]; change (least 8 true) with (- 2 ^ 63); change (most 8 true) with (2 ^ 63); rewrite p63 in *; lia).
  assert (Fq : fits long (d / s)).
  { cbn [fits long]. change (least 8 true) with (- 2 ^ 63) in *. change (most 8 true) with (2 ^ 63) in *. pose proof (Z.div_mod d s ltac:(lia)) as E. rewrite M in E. rewrite p63 in *. nia. }
  pose proof (div_ok k T l (var_numeric long (wrap s)) long long d s long false Wl Hl eq_refl) as X. cbv iota in X.
  rewrite !(converted_id G long) in X; [|apply (long_ok G true)|rewrite DQ; exact Fq|apply (long_ok G true)|exact Fs|apply (long_ok G true)|exact Fd]. rewrite DQ in X. apply X; try reflexivity.
  - apply wide_convert; [apply wl|apply wrap_range].
  - exact Wi.
  - exact Hi.
  - apply wide_convert; [apply wl|apply wrap_range].
  - apply (long_ok G true).
  - unfold divides. destruct (Z.eqb_spec s 0); [lia|]. rewrite DQ. cbn [negb andb fitsb long]. cbn [fits long] in Fq. apply andb_true_iff. split; [apply Z.leb_le|apply Z.ltb_lt]; apply Fq.
Qed.
Lemma sub_ok k T a b ra rb va vb r : sound k a -> is_result T a ra -> result_ok ra -> value_of w ra = Some va ->
  sound k b -> is_result T b rb -> result_ok rb -> value_of w rb = Some vb -> minus G va vb = Some r ->
  result_ok r /\ gives (eval_sub G a b) k T (expr_result r).
Proof.
  intros Wa Ha Oa Ea Wb Hb Ob Eb P. destruct va as [ta za], vb as [tb zb].
  assert (X : num_ok (ta, za) /\ num_ok (tb, zb)) by (split; [apply (rvalue_ok k T a ra ta za Wa Ha (result_fits _ Oa) Ea)|apply (rvalue_ok k T b rb tb zb Wb Hb (result_fits _ Ob) Eb)]).
  destruct X as [Na Nb]. destruct (is_integer ta) eqn:II.
  { destruct ta as [|a1 sa| | |]; try discriminate II. destruct tb as [|b1 sb| | |]; try discriminate P.
    destruct (arith_bits _ _ _ _ _ _ _ _ _ wrap_sub2 Na Nb P) as (t & z & -> & O & U & Y & S & V). split; [exact O|].
    unfold eval_sub. eapply rvalues; [exact Wa|exact Ha|exact Oa|exact Ea|exact Wb|exact Hb|exact Ob|exact Eb|].
    intros _ _ l x k' T' _ Wl Hl Wx Hx. rewrite (proj1 Hl), (proj1 Hx).
    eapply gives_imp; [eapply sub_int_ok with (t := t); [exact Wl|exact Hl|reflexivity|apply num_convert, Na|exact Wx|exact Hx|reflexivity|apply num_convert, Nb|exact U|exact Y|exact S]|].
    cbv beta. intros e k2 T2 _ X. split; [|exact S]. rewrite V. exact X. }
  cbn [minus] in P. destruct ta as [| |t| |]; try discriminate P; try discriminate II. rewrite ?width_size in P. destruct tb as [|s sg|u| |]; try discriminate P.
  - destruct (step G t za (- zb)) as [q|] eqn:E; [|discriminate P]. injection P as <-. destruct (step_inv _ _ _ _ E) as (Q & S & R).
    split; [split; [apply Na|exact R]|]. unfold eval_sub. eapply rvalues; [exact Wa|exact Ha|exact Oa|exact Ea|exact Wb|exact Hb|exact Ob|exact Eb|].
    intros _ _ l x k' T' _ Wl Hl Wx Hx. rewrite (proj1 Hl), (proj1 Hx). set (size := size_of G t) in *.
    assert (QE : wrap q = wrap (wrap za - wrap zb * size)).
    { rewrite wrap_sub, <- wrap_sub_r, wrap_mul, wrap_sub_r, Q. f_equal. lia. }
    eapply gives_imp with (P := expr_is (TPtr t) (wrap q)); [|intros e k2 T2 _ X; split; [exact X|reflexivity]]. rewrite QE. clear QE.
    pose proof (wrap_range za) as RA. pose proof (wrap_range zb) as RB. pose proof (num_convert _ _ Nb) as CB.
    set (p := wrap za) in *. set (n := wrap zb) in *.
    eapply gives_bind; [eapply cast_ok with (t := long); [exact Wx|exact Hx|reflexivity|apply long_ok|reflexivity|exact CB]|].
    cbv beta. intros r1 k1 T1 L1 A1 [W1 H1]. rewrite (wide_convert long) in H1 by (exact RB || apply wl).
    pose proof (sound_more _ _ _ _ L1 Wl) as Wl1. pose proof (holds_agree _ _ _ _ _ _ _ _ Wl A1 Hl) as Hl1.
    destruct (Z.eqb_spec size 0) as [Z0|_]; [lia|].
    destruct (is_addr l && is_imm r1) eqn:B1.
    { apply andb_true_iff in B1 as [B1 B2]. destruct (imm_value _ _ _ _ _ _ W1 B2 (proj2 H1)) as (_ & -> & _). apply gives_ret.
      destruct (shift_ok _ _ _ _ _ _ _ (- (signed n * size)) Wl1 B1 Hl1) as [X Y]. apply as_is; [exact X|].
      replace (wrap (p - n * size)) with (wrap (p + - (signed n * size))); [exact Y|]. rewrite Z.add_opp_r.
      rewrite <- (wrap_sub_r p (signed n * size)), <- (wrap_mul (signed n)), signed_wrap, wrap_mul, wrap_sub_r. reflexivity. }
    destruct (is_imm l && is_imm r1) eqn:B2.
    { apply andb_true_iff in B2 as [B2 B3]. destruct (imm_value _ _ _ _ _ _ W1 B3 (proj2 H1)) as (_ & -> & _).
      destruct (imm_value _ _ _ _ _ _ Wl1 B2 (proj2 Hl1)) as (K & -> & SY & O). apply gives_ret. apply as_is.
      - split; [apply Na|]. cbn [kind sym offset imm]. rewrite SY. split; [exact O|apply wrap_range].
      - split; [reflexivity|]. unfold value. cbn [kind sym offset imm]. rewrite SY, O. reflexivity. }
    destruct (is_imm r1 && (imm r1 =? 0)) eqn:B3.
    { apply andb_true_iff in B3 as [B3 B4]. destruct (imm_value _ _ _ _ _ _ W1 B3 (proj2 H1)) as (_ & I & _). apply Z.eqb_eq in B4. rewrite I in B4. rewrite B4.
      apply gives_ret. rewrite Z.mul_0_l, Z.sub_0_r, wrap_id by exact RA. apply as_is; assumption. }
    apply gives_bind with (P := fun v k' T' => sound k' v /\ exists c sg, holds T' v (TInt 8 sg) c /\ wrap (p - c) = wrap (p - n * size)).
    { destruct (Z.ltb_spec 1 size) as [S1|S1].
      - eapply gives_imp; [apply scaled with (b := n); [exact W1|exact H1]|]. intros v k3 T3 _ [X Y]. split; [exact X|]. exists (wrap (n * size)), false. split; [exact Y|apply wrap_sub_r].
      - apply gives_ret. split; [exact W1|]. exists n, true. split; [exact H1|]. replace size with 1 by lia. rewrite Z.mul_1_r. reflexivity. }
    cbv beta. intros r3 k3 T3 L3 A3 (W3 & c & sg3 & H3 & QQ). apply gives_ret. pose proof (holds_agree _ _ _ _ _ _ _ _ Wl1 A3 Hl1) as H23.
    apply (binary_ok G w SUB) with (b := p) (c := c); try apply wp; auto.
    + apply Na.
    + exact (sound_more _ _ _ _ L3 Wl1).
    + apply H23.
    + apply H3.
    + rewrite (proj1 H23). apply wp.
    + rewrite (proj1 H3). apply wl.
  - destruct (_ && _) eqn:B in P; [|discriminate P]. injection P as <-. apply andb_true_iff in B as [B FB]. apply andb_true_iff in B as [B MB]. apply andb_true_iff in B as [TB SB].
    destruct (same_type t u) as [<-|]; [|discriminate TB]. apply Z.ltb_lt in SB. apply Z.eqb_eq in MB. apply fitsb_fits in FB. cbn [fits long] in FB. change (least 8 true) with (- 2 ^ 63) in FB. change (most 8 true) with (2 ^ 63) in FB.
    pose proof (size_ok t (proj1 Na)) as SZ. set (size := size_of G t) in *.
    split.
    { split; [apply (long_ok G true)|]. cbn [fst snd fits long]. change (least 8 true) with (- 2 ^ 63). change (most 8 true) with (2 ^ 63).
      pose proof (Z.div_mod (za - zb) size ltac:(lia)) as E. rewrite MB in E. rewrite p63 in *. nia. }
    unfold eval_sub. eapply rvalues; [exact Wa|exact Ha|exact Oa|exact Ea|exact Wb|exact Hb|exact Ob|exact Eb|].
    intros _ _ l x k' T' _ Wl Hl Wx Hx. rewrite (proj1 Hl), (proj1 Hx). fold size.
    eapply gives_imp with (P := expr_is long (wrap ((za - zb) / size))); [|intros e k2 T2 _ X; split; [exact X|reflexivity]].
    eapply gives_bind; [eapply cast_wide with (t := long); [exact Wl|exact Hl|apply wp|apply long_ok|apply wl]|]. cbv beta. intros l1 k1 T1 L1 A1 [W1 H1].
    eapply gives_bind; [eapply cast_wide with (t := long); [exact (sound_more _ _ _ _ L1 Wx)|exact (holds_agree _ _ _ _ _ _ _ _ Wx A1 Hx)|apply wp|apply long_ok|apply wl]|].
    cbv beta. intros r2 k2 T2 L2 A2 [W2 H2].
    eapply gives_bind.
    { eapply sub_int_ok with (t := long); [exact (sound_more _ _ _ _ L2 W1)|exact (holds_agree _ _ _ _ _ _ _ _ W1 A2 H1)|reflexivity| |exact W2|exact H2|reflexivity| |reflexivity|apply (long_ok G true)|reflexivity];
        apply wide_convert; try apply wl; apply wrap_range. }
    cbv beta. intros e k3 T3 _ _ X. rewrite !(convert8 long), !wrap_wrap, wrap_sub2 in X by apply wl. destruct (Z.ltb_spec 1 size) as [S1|S1].
    + eapply gives_bind; [apply eval_ok; exact X|]. cbv beta. intros l4 k4 T4 _ _ [W4 H4]. apply div_long_ok; auto; lia.
    + assert (S1' : size = 1) by lia. rewrite S1'. cbn [Z.eqb Pos.eqb orb negb]. apply gives_ret. rewrite Z.div_1_r. exact X.
Qed.

Lemma deref_ok k T v r t a : sound k v -> is_result T v r -> result_ok r -> value_of w r = Some (TPtr t, a) ->
  result_ok (At t a) /\ gives (eval_deref G v) k T (var_result (At t a)).
Proof.
  intros W H O E. destruct (rvalue_ok k T v r (TPtr t) a W H (result_fits _ O) E) as [N GV]. pose proof N as [Yt F]. cbn [fst snd fits type_ok] in Yt, F.
  split; [split; assumption|]. unfold eval_deref. eapply gives_bind; [exact GV|]. clear v r W H O E GV. cbv beta. intros v k1 T1 _ _ [W [E V]].
  rewrite (wrap_id _ F) in V. rewrite E.
  assert (TMP : gives (let* v := assign_tmp (TPtr t) (as_expr v) in ret (mkV DEREF t (sym v) (offset v) (imm v) true)) k1 T1 (var_result (At t a))).
  { eapply gives_bind; [apply (new_tmp G w (TPtr t) (as_expr v) k1 T1 a)|].
    - exact Yt.
    - reflexivity.
    - unfold meaning, as_expr. cbn [e_l e_op e_type]. rewrite V, E, wide_convert by (exact F || apply wp). reflexivity.
    - apply wide_convert; [apply wp|exact F].
    - cbv beta. intros u k2 T2 _ _ [-> [[_ W2] H2]]. apply gives_ret. cbn [kind sym offset imm vtype] in *. split.
      + split; [exact Yt|]. cbn [kind sym]. split; [reflexivity|]. split; [split; [cbn; lia|left; reflexivity]|apply W2].
      + split; [reflexivity|]. split; [reflexivity|]. unfold location. cbn [kind sym is_pointer offset]. rewrite Z.add_0_r.
        destruct H2 as [_ H2]. unfold value in H2. cbn [kind sym offset vtype size_of Z.eqb Pos.eqb andb is_scalar is_pointer is_integer orb convert] in H2. exact H2. }
  pose proof W as [Y0 W']. destruct (kind v) eqn:K; destruct (sym v) as [[[x|n] s]|] eqn:S; try contradiction W'; try exact TMP.
  - apply gives_ret. destruct W' as [O R]. split.
    + split; [exact Yt|]. cbn [kind sym]. rewrite ?S. unfold near. cbn [offset]. rewrite ?O. split; [lia|left; reflexivity].
    + split; [reflexivity|]. split; [reflexivity|]. unfold location. cbn [kind sym offset imm]. rewrite ?S, ?O, Z.add_0_r.
      unfold value in V. rewrite K, S, O in V. injection V as ->. rewrite wrap_id by exact F. reflexivity.
  - cbn [s_type]. destruct (Z.eqb_spec (offset v) 0) as [O|O]; cbn [negb orb]; [|exact TMP]. destruct (is_pointer s) eqn:P; cbn [negb]; [|exact TMP].
    apply gives_ret. split.
    + split; [exact Yt|]. cbn [kind sym]. rewrite ?S. split; [exact P|]. unfold near. cbn [offset]. rewrite ?O. split; [lia|left; reflexivity].
    + split; [reflexivity|]. split; [reflexivity|]. unfold location. cbn [kind sym offset]. rewrite ?S, P, ?O.
      unfold value, location in V. rewrite K, S, O, E, Z.add_0_r in V. destruct s as [| |s'| |]; try discriminate P. cbn [load] in *. rewrite wrap_wrap in V.
      cbn [option_map]. assert (V' : read (mem w) (wrap (addr w x)) 8 = a) by congruence. rewrite V', Z.add_0_r, wrap_id by exact F. reflexivity.
  - destruct W' as (L & O & LV & SZ & SS & SV). cbn [s_type]. rewrite O. cbn [Z.eqb negb orb]. destruct (is_pointer s) eqn:P; cbn [negb]; [|exact TMP].
    apply gives_ret. split.
    + split; [exact Yt|]. cbn [kind sym]. rewrite ?S. split; [exact P|]. split; [|exact L]. unfold near. cbn [offset]. rewrite ?O. split; [lia|left; reflexivity].
    + split; [reflexivity|]. split; [reflexivity|]. unfold location. cbn [kind sym offset]. rewrite ?S, P, ?O, Z.add_0_r.
      unfold value in V. rewrite K, S, O, E in V. destruct (_ && _) in V; [|discriminate V]. exact V.
  - apply gives_ret. split.
    + split; [exact Yt|]. cbn [kind sym]. rewrite ?S. exact I.
    + split; [reflexivity|]. split; [reflexivity|]. unfold location. cbn [kind sym offset]. rewrite ?S. unfold value in V. rewrite K, S in V. exact V.
Qed.

Lemma find_same ms m : find_member ms m = option_map snd (find (fun x => Nat.eqb (fst x) m) ms).
Proof. induction ms as [|[x r] ms IH]; cbn; [reflexivity|]. rewrite (Nat.eqb_sym x m). destruct (Nat.eqb m x); [reflexivity|exact IH]. Qed.
Lemma member_ok other k T v q m r : sound k v -> is_result T v q -> result_ok q -> part G q m = Some r ->
  result_ok r /\ gives (member G other v m) k T (expr_result r).
Proof.
  intros W H O P. destruct q as [t a|]; [|discriminate P]. destruct t as [| | | |i]; try discriminate P. destruct H as (E & L & LO). destruct O as [_ R].
  cbn [part] in P. destruct (find _ _) as [[x [o t]]|] eqn:FD; [|discriminate P]. destruct (Z.ltb_spec (a + o) (2 ^ 64)) as [B|]; [|discriminate P]. injection P as <-.
  destruct (GO i) as [SI MS]. destruct (MS _ _ _ (proj1 (find_some _ _ FD))) as (Yt & O0 & OS). rewrite width_size in OS.
  split; [split; [exact Yt|lia]|]. unfold member. rewrite E, find_same, FD. cbn [option_map snd]. apply gives_ret.
  exists (retype (shift v o) t). split; [reflexivity|]. pose proof W as [_ W']. pose proof (size_ok _ Yt) as ST.
  assert (NR : near G v -> near G (retype (shift v o) t) /\ wrap (offset v + o) = offset v + o).
  { intros [N1 N2]. rewrite E in N2. cbn [size_of] in N2. rewrite p31 in *. assert (X : wrap (offset v + o) = offset v + o) by (apply wrap_id; rewrite p64; lia).
    split; [|exact X]. unfold near. cbn [offset vtype retype shift]. rewrite X, p31. lia. }
  unfold location in LO. destruct (kind v) eqn:K; destruct (sym v) as [[[y|n] s]|] eqn:S; try contradiction W'; try discriminate LO.
  - split; [split; [exact Yt|]; cbn [kind sym retype shift]; rewrite K, S; exact I|]. split; [reflexivity|]. split; [exact L|]. unfold location. cbn [kind sym retype shift offset]. rewrite K, S.
    injection LO as LO. rewrite wrap_add_r, Z.add_assoc, <- wrap_add, LO. f_equal. apply wrap_id. lia.
  - destruct W' as [P N]. destruct (NR N) as [N' X]. split; [split; [exact Yt|]; cbn [kind sym retype shift]; rewrite K, S; split; assumption|]. split; [reflexivity|]. split; [exact L|].
    unfold location. cbn [kind sym retype shift offset]. rewrite K, S. rewrite P in *. destruct (load w s (addr w y)) as [p|]; [|discriminate LO]. cbn [option_map] in *. injection LO as LO.
    rewrite X, Z.add_assoc, <- wrap_add, LO. f_equal. apply wrap_id. lia.
  - destruct W' as (P & N & LT). destruct (NR N) as [N' X]. split; [split; [exact Yt|]; cbn [kind sym retype shift]; rewrite K, S; repeat split; try assumption; apply N'|]. split; [reflexivity|]. split; [exact L|].
    unfold location. cbn [kind sym retype shift offset]. rewrite K, S. rewrite P in *. injection LO as LO. rewrite X, Z.add_assoc, <- wrap_add, LO. f_equal. apply wrap_id. lia.
  - destruct (NR W') as [N' X]. split; [split; [exact Yt|]; cbn [kind sym retype shift]; rewrite K, S; exact N'|]. split; [reflexivity|]. split; [exact L|].
    unfold location. cbn [kind sym retype shift offset imm]. rewrite K, S. injection LO as LO. rewrite X, Z.add_assoc, <- wrap_add, LO. f_equal. apply wrap_id. lia.
Qed.

Lemma eval_cast_ok k T v r u z t : sound k v -> is_result T v r -> result_ok r -> value_of w r = Some (u, z) -> type_ok G t -> scalar t = true ->
  result_ok (Val t (converted t z)) /\ gives (eval_cast G v t) k T (expr_result (Val t (converted t z))).
Proof.
  intros W H O E Y S. destruct (rvalue_ok k T v r u z W H (result_fits _ O) E) as [N GV]. split; [split; [exact Y|apply (converted_fits G); assumption]|].
  unfold eval_cast. eapply gives_bind; [exact GV|]. clear v r W H O E GV. cbv beta. intros v k1 T1 _ _ [W [E V]]. pose proof (num_scalar _ _ N) as SU.
  rewrite !scalar_is, E, SU, S. cbn [negb orb]. eapply gives_imp with (P := expr_is t (convert (wrap z) t)).
  2:{ intros e k2 T2 _ X. split; [|exact S]. rewrite <- (convert_converted G) by assumption. exact X. }
  destruct (type_equal u t) eqn:Q.
  { apply type_equal_eq in Q as <-. apply gives_ret. rewrite (num_convert _ _ N). apply as_is; [exact W|split; assumption]. }
  destruct (is_imm v) eqn:B.
  { destruct (imm_value _ _ _ _ _ _ W B V) as (_ & -> & _ & ->). cbn [Z.eqb]. apply gives_ret. apply as_is; apply (imm_ok G w k1 T1 t); auto; apply (convert_range G); exact Y. }
  destruct (_ && _) eqn:P.
  - apply andb_true_iff in P as [P1 P2]. apply Z.eqb_eq in P1.
    assert (X : wide u /\ wide t).
    { apply orb_true_iff in P2 as [P2|P2].
      - assert (wide u) by (right; exact P2). split; [assumption|]. apply (wide_of G); [exact S|]. rewrite <- P1. apply (wide_size G). assumption.
      - assert (wide t) by (right; exact P2). split; [|assumption]. apply (wide_of G); [exact SU|]. rewrite P1. apply (wide_size G). assumption. }
    destruct X as [X1 X2]. rewrite wide_convert by (exact X2 || apply wrap_range). apply gives_ret.
    assert (Z : sound k1 (retype v t) /\ holds T1 (retype v t) t (wrap z)) by (apply retype_wide; rewrite ?E; assumption).
    apply as_is; apply Z.
  - apply gives_ret. right. split; [split; [cbn; rewrite E; destruct (type_equal t u) eqn:Q'; [apply type_equal_eq in Q' as ->; rewrite type_equal_refl in Q; discriminate Q|reflexivity]|intros _; exact B]|].
    split; [reflexivity|]. split; [exact Y|]. split; [exact S|]. split; [unfold meaning; cbn [e_l e_op e_type]; rewrite V; reflexivity|]. apply (convert_twice G); assumption.
Qed.

(* ---- expressions ---- *)
Lemma into_some {A B} (x : option A) (f : A -> option B) b : into x f = Some b -> exists a, x = Some a /\ f a = Some b.
Proof. destruct x as [a|]; cbn; [eauto|discriminate]. Qed.
Definition right_code (e : exp) (r : result) : Prop := result_ok r /\ forall k T, gives (compile G e) k T (expr_result r).
(* the operand is compiled, and evaluated *)
Lemma operand e r k T {B} (f : var -> M B) Q : right_code e r ->
  (forall v k' T', (k <= k')%nat -> agree k T T' -> sound k' v -> is_result T' v r -> gives (f v) k' T' Q) ->
  gives (let* a := compile G e in let* a := eval a in f a) k T Q.
Proof.
  intros [_ R] F. eapply gives_bind; [apply R|]. cbv beta. intros x k1 T1 L1 A1 X. eapply gives_bind; [apply eval_result; exact X|]. cbv beta.
  intros v k2 T2 L2 A2 [W H]. apply F; auto; [lia|]. intros i I. rewrite A2 by lia. apply A1. exact I.
Qed.
Lemma operands a b ra rb k T {B} (f : var -> var -> M B) Q : right_code a ra -> right_code b rb ->
  (forall v u k' T', sound k' v -> is_result T' v ra -> sound k' u -> is_result T' u rb -> gives (f v u) k' T' Q) ->
  gives (let* a := compile G a in let* a := eval a in let* b := compile G b in let* b := eval b in f a b) k T Q.
Proof.
  intros Ra Rb F. eapply operand; [exact Ra|]. intros v k1 T1 _ _ Wv Hv. eapply operand; [exact Rb|]. intros u k2 T2 L2 A2 Wu Hu.
  apply F; auto; [exact (sound_more _ _ _ _ L2 Wv)|exact (result_agree _ _ _ _ _ _ _ Wv A2 Hv)].
Qed.
(* some world and state, to extract what does not depend on them *)
Lemma result_var r k T v : var_result r v k T -> expr_result r (as_expr v) k T.
Proof. destruct r; intros [W H]; cbn in *; [exists v; auto|]. split; [|apply H]. apply as_is; [exact W|apply H]. Qed.
Lemma gives_ok {A} (m : M A) k T P (X : Prop) : gives m k T P -> (forall a k T, P a k T -> X) -> X.
Proof. intros H F. destruct (H []) as (a & k' & l' & T' & _ & _ & _ & _ & p). eauto. Qed.
Lemma of_operand e r (X : Prop) : right_code e r -> (forall v k T, sound k v -> is_result T v r -> X) -> X.
Proof.
  intros R F. eapply gives_ok with (m := let* a := compile G e in let* a := eval a in ret a) (k := 0%nat) (T := fun _ => 0) (P := var_result r).
  - eapply operand; [exact R|]. intros. apply gives_ret. split; assumption.
  - intros a k T [W H]. eauto.
Qed.
Lemma of_operands a b ra rb (X : Prop) : right_code a ra -> right_code b rb ->
  (forall v u k T, sound k v -> is_result T v ra -> sound k u -> is_result T u rb -> X) -> X.
Proof.
  intros Ra Rb F. apply gives_ok with (m := let* a := compile G a in let* a := eval a in let* b := compile G b in let* b := eval b in ret (a, b)) (k := 0%nat) (T := fun _ => 0)
    (P := fun p k T => sound k (fst p) /\ is_result T (fst p) ra /\ sound k (snd p) /\ is_result T (snd p) rb).
  - eapply operands; [exact Ra|exact Rb|]. intros. apply gives_ret. auto.
  - intros [x y] k T (A & B & C & D). exact (F x y k T A B C D).
Qed.

Lemma ret_inv {A} (a : A) k T (P : A -> nat -> temps -> Prop) : gives (ret a) k T P -> P a k T.
Proof.
  intros H. destruct (H []) as (b & k' & l' & T' & E & _ & R & _ & p). cbn in E. injection E as <- <- E. rewrite <- E in R. cbn in R. injection R as <-. exact p.
Qed.
Lemma plain_ok k T v r s sg z : sound k v -> is_result T v r -> result_ok r -> value_of w r = Some (TInt s sg, z) -> num_ok (TInt s sg, z) /\ holds T v (TInt s sg) (wrap z).
Proof.
  intros W H O E. destruct (rvalue_ok k T v r _ z W H (result_fits _ O) E) as [N GV]. split; [exact N|].
  assert (V : vtype v = TInt s sg).
  { destruct r as [[| | | |] a|t y]; cbn in E; try discriminate E; injection E as <- <- || injection E; intros; subst; apply H. }
  unfold rvalue in GV. rewrite V in GV. apply (ret_inv _ _ _ _ GV).
Qed.

(* ---- the other operators ---- *)
Section Binary.
Variables (k : nat) (T : temps) (a b : var) (ra rb : result) (va vb : cty * Z).
Hypothesis Wa : sound k a. Hypothesis Ha : is_result T a ra. Hypothesis Oa : result_ok ra. Hypothesis Ea : value_of w ra = Some va.
Hypothesis Wb : sound k b. Hypothesis Hb : is_result T b rb. Hypothesis Ob : result_ok rb. Hypothesis Eb : value_of w rb = Some vb.
Lemma arith_two ok f r : arith ok f va vb = Some r -> exists s sg x s' sg' y, va = (TInt s sg, x) /\ vb = (TInt s' sg', y) /\
  num_ok (TInt s sg, x) /\ holds T a (TInt s sg) (wrap x) /\ num_ok (TInt s' sg', y) /\ holds T b (TInt s' sg') (wrap y).
Proof.
  intros P. destruct va as [[|a1 sa| | |] za]; try discriminate P. destruct vb as [[|b1 sb| | |] zb]; try discriminate P.
  destruct (plain_ok _ _ _ _ _ _ _ Wa Ha Oa Ea) as [Na Va]. destruct (plain_ok _ _ _ _ _ _ _ Wb Hb Ob Eb) as [Nb Vb]. exists a1, sa, za, b1, sb, zb. auto 10.
Qed.
Lemma times_ok r : arith any Z.mul va vb = Some r -> result_ok r /\ gives (eval_mul G a b) k T (expr_result r).
Proof.
  intros P. destruct (arith_two _ _ _ P) as (s & sg & x & s' & sg' & y & -> & -> & Na & Va & Nb & Vb).
  destruct (arith_bits _ _ _ _ _ _ _ _ _ wrap_mul2 Na Nb P) as (t & z & -> & O & U & Y & S & V). split; [exact O|].
  eapply gives_imp; [eapply mul_ok with (t := t); [exact Wa|exact Va|reflexivity|apply num_convert, Na|exact Wb|exact Vb|reflexivity|apply num_convert, Nb|exact U|exact Y|exact S]|].
  cbv beta. intros e k2 T2 _ X. split; [|exact S]. rewrite V. exact X.
Qed.
Lemma divide_ok (md : bool) r : arith divides (if md then Z.rem else Z.quot) va vb = Some r -> result_ok r /\ gives ((if md then eval_mod else eval_div) G a b) k T (expr_result r).
Proof.
  intros P. destruct (arith_two _ _ _ P) as (s & sg & x & s' & sg' & y & -> & -> & Na & Va & Nb & Vb).
  destruct (arith_vals _ _ _ _ _ _ _ _ _ Na Nb P) as (t & z & X & Y' & -> & O & U & Y & I & -> & -> & _ & _ & D & ->). split; [exact O|].
  eapply gives_imp; [eapply (div_ok k T a b) with (t := t) (md := md); [exact Wa|exact Va|reflexivity|apply num_convert, Na|exact Wb|exact Vb|reflexivity|apply num_convert, Nb|exact U|exact Y|exact I|exact D]|].
  cbv beta. intros e k2 T2 _ X. split; [|apply int_scalar, I]. exact X.
Qed.
Lemma bits_ok o f r : (forall p q, wrap (f (wrap p) (wrap q)) = wrap (f p q)) -> (forall t b c, combined o t b c (convert (f b c) t)) ->
  arith any f va vb = Some r -> result_ok r /\
  gives (int_operands G a b (fun t l r => if is_imm l && is_imm r then as_expr (imm_int t (f (imm l) (imm r))) else binary o t l r)) k T (expr_result r).
Proof.
  intros F C P. destruct (arith_two _ _ _ P) as (s & sg & x & s' & sg' & y & -> & -> & Na & Va & Nb & Vb).
  destruct (arith_bits _ _ _ _ _ _ _ _ _ F Na Nb P) as (t & z & -> & O & U & Y & S & V). split; [exact O|].
  eapply (int_operands_ok k T a b) with (t := t); [exact Wa|exact Va|reflexivity|apply num_convert, Na|exact Wb|exact Vb|reflexivity|apply num_convert, Nb|exact U|exact Y|exact S|].
  intros l r k1 T1 Wl Hl Wr Hr. split; [|exact S]. rewrite V.
  destruct (is_imm l && is_imm r) eqn:B; [apply andb_true_iff in B as [B1 B2]; imms; apply imm_expr; exact Y|].
  eapply (binary_gen G w o); [exact S|exact Y|apply Hl|apply Hr|rewrite (proj1 Hl); reflexivity|rewrite (proj1 Hr); reflexivity|apply C].
Qed.
Lemma promote_is s sg x : num_ok (TInt s sg, x) -> exists t, promote G (TInt s sg) = t /\ (if s <? 4 then int else TInt s sg) = t /\ type_ok G t /\ is_integer t = true /\ fits t x.
Proof.
  intros [Y F]. exists (if s <? 4 then int else TInt s sg). split; [reflexivity|]. split; [reflexivity|]. cbn [fst snd type_ok fits] in *.
  destruct Y as [->|[->|[->| ->]]]; cbn [Z.ltb Z.compare Pos.compare Pos.compare_cont type_ok int is_integer]; (split; [auto|]); (split; [reflexivity|]); cbn [fits int]; try exact F;
    destruct sg; unfold least, most in *; repeat match goal with |- context [2 ^ ?e] => let v := eval vm_compute in (2 ^ e) in change (2 ^ e) with v in * end;
    repeat match goal with H : context [2 ^ ?e] |- _ => let v := eval vm_compute in (2 ^ e) in change (2 ^ e) with v in H end; lia.
Qed.
Lemma right_fits t x n : type_ok G t -> is_integer t = true -> fits t x -> 0 <= n -> fits t (x / 2 ^ n).
Proof.
  intros Y I F N. destruct t as [|s sg| | |]; try discriminate I. destruct (halves _ _ _ Y) as [P D]. cbn [fits] in *. assert (Q : 0 < 2 ^ n) by (apply Z.pow_pos_nonneg; lia).
  pose proof (Z.mul_div_le x (2 ^ n) Q). destruct (Z.le_gt_cases 0 x) as [L|L].
  - pose proof (Z.div_pos x (2 ^ n) L Q). pose proof (Z.div_le_upper_bound x (2 ^ n) x Q ltac:(nia)). unfold least, most in *. destruct sg; lia.
  - pose proof (Z.div_lt_upper_bound x (2 ^ n) 0 Q ltac:(lia)). pose proof (Z.div_le_lower_bound x (2 ^ n) x Q ltac:(nia)). unfold least, most in *. destruct sg; lia.
Qed.
Lemma shift_count t n : type_ok G t -> is_integer t = true -> 0 <= n < bits t -> wrap n = n /\ n mod 64 = n /\ n < 8 * size_of G t.
Proof.
  intros Y I N. destruct t as [|s sg| | |]; try discriminate I. cbn [bits size_of type_ok] in *. split; [apply wrap_id; rewrite p64; lia|]. split; [apply Z.mod_small; lia|lia].
Qed.
Lemma shift_expr_ok k' T' o t l r z n x : sound k' l -> holds T' l t (wrap x) -> sound k' r -> holds T' r (vtype r) n -> type_ok G t -> is_integer t = true -> 0 <= n < bits t ->
  match o with SHL => z = convert (Z.shiftl (wrap x) n) t | SHR => z = convert (Z.shiftr (if is_signed t then signed (wrap x) else wrap x) n) t | _ => False end ->
  expr_is t z (binary o t l r) k' T'.
Proof.
  intros Wl Hl Wr Hr Y I N Z. destruct (shift_count t n Y I N) as (_ & _ & L). right. destruct o; try contradiction Z;
  (split; [split; [reflexivity|discriminate]|]); (split; [reflexivity|]); (split; [exact Y|]); (split; [apply int_scalar, I|]);
  unfold meaning, binary; cbn [e_l e_r e_op e_type]; cbv zeta; rewrite (proj2 Hl), (proj2 Hr), (proj1 Hl), Z.eqb_refl; apply Z.ltb_lt in L; rewrite L; cbn [andb];
  rewrite Z; (split; [reflexivity|apply (convert_twice G); [exact Y|apply int_scalar, I]]).
Qed.
Lemma shift_operands left r : shifted left va vb = Some r -> result_ok r /\ gives ((if left then eval_lshift else eval_rshift) G a b) k T (expr_result r).
Proof.
  intros P. destruct va as [[|s sg| | |] x]; try discriminate P. destruct vb as [[|s' sg'| | |] n]; try discriminate P.
  destruct (plain_ok _ _ _ _ _ _ _ Wa Ha Oa Ea) as [Na Va]. destruct (plain_ok _ _ _ _ _ _ _ Wb Hb Ob Eb) as [Nb Vb].
  destruct (promote_is _ _ _ Na) as (t & PR & PS & Y & I & F). cbn [shifted] in P. rewrite PS in P.
  destruct (_ && (n <? bits t)) eqn:B; [|discriminate P]. apply andb_true_iff in B as [B1 B2]. apply Z.leb_le in B1. apply Z.ltb_lt in B2.
  destruct (shift_count t n Y I (conj B1 B2)) as (C1 & C2 & C3). rewrite C1 in Vb. pose proof (int_scalar _ I) as S.
  assert (R : exists z, r = Val t z /\ fits t z /\
    wrap z = convert (if left then Z.shiftl (wrap x) n else Z.shiftr (if is_signed t then signed (wrap x) else wrap x) n) t).
  { destruct left.
    - assert (R : r = Val t (converted t (x * 2 ^ n)) /\ fits t (converted t (x * 2 ^ n))).
      { split; [|apply (converted_fits G); assumption]. destruct t as [|st [|]| | |]; try discriminate I.
        - destruct (_ && fitsb _ _) eqn:FB; [|discriminate P]. injection P as <-. apply andb_true_iff in FB as [_ FB]. apply fitsb_fits in FB. rewrite (converted_id G) by assumption. reflexivity.
        - injection P as <-. reflexivity. }
      destruct R as [-> R]. eexists. split; [reflexivity|]. split; [exact R|]. rewrite Z.shiftl_mul_pow2 by exact B1. rewrite <- (convert_is G) by assumption.
      rewrite <- (convert_wrap G t (wrap x * _)) by assumption. rewrite wrap_mul, (convert_wrap G) by assumption. reflexivity.
    - injection P as <-. eexists. split; [reflexivity|]. split; [apply right_fits; assumption|].
      replace (if is_signed t then signed (wrap x) else wrap x) with x by (destruct (is_signed t) eqn:SG; [symmetry; apply (fits_signed t); assumption|symmetry; apply (fits_unsigned t); assumption]).
      rewrite Z.shiftr_div_pow2, (convert_is G), (converted_id G); auto. apply right_fits; assumption. }
  destruct R as (z & -> & Fz & V). split; [split; assumption|].
  destruct left; unfold eval_lshift, eval_rshift; rewrite (proj1 Va), (proj1 Vb); cbn [is_integer negb orb]; rewrite PR; cbv zeta;
    (eapply gives_bind; [eapply cast_ok with (t := t); [exact Wa|exact Va|reflexivity|exact Y|exact S|apply num_convert, Na]|]);
    cbv beta; intros l k1 T1 L1 A1 [Wl Hl]; rewrite (convert_converted G t), (converted_id G) in Hl by assumption;
    pose proof (sound_more _ _ _ _ L1 Wb) as Wr; pose proof (holds_agree _ _ _ _ _ _ _ _ Wb A1 Vb) as Hr; apply gives_ret; (split; [|exact S]); rewrite V.
  all: destruct (is_imm l && is_imm b) eqn:B; [apply andb_true_iff in B as [I1 I2]; imms; rewrite C2; apply imm_expr; exact Y|].
  all: eapply shift_expr_ok; [exact Wl|exact Hl|exact Wr|rewrite (proj1 Hr); exact Hr|exact Y|exact I|split; assumption|reflexivity].
Qed.
End Binary.

(* ---- comparison ---- *)
Definition compares (o : op) : bool := match o with EQ | NE | GE | GT => true | _ => false end.
Lemma compared_is o t x y : type_ok G t -> is_integer t = true -> fits t x -> fits t y -> compared o t (wrap x) (wrap y) = if holds_for o x y then 1 else 0.
Proof.
  intros Y I Fx Fy. unfold compared. destruct (is_signed t) eqn:SG.
  - rewrite !(fits_signed t) by assumption. reflexivity.
  - destruct (fits_unsigned t x Y Fx SG) as [-> _]. destruct (fits_unsigned t y Y Fy SG) as [-> _]. reflexivity.
Qed.
Definition bit (b : bool) : Z := if b then 1 else 0.
Lemma bit_wrap b : wrap (bit b) = bit b. Proof. destruct b; reflexivity. Qed.
Lemma int_ok : type_ok G int. Proof. cbn. auto. Qed.
Lemma truth_ok b : result_ok (Val int (bit b)).
Proof. split; [exact int_ok|]. destruct b; cbn; unfold least, most; lia. Qed.
Lemma compare_expr o k T t l r x y : compares o = true -> sound k l -> holds T l t (wrap x) -> sound k r -> holds T r t (wrap y) ->
  type_ok G t -> is_integer t = true -> fits t x -> fits t y ->
  expr_result (Val int (bit (holds_for o x y))) (if is_imm l && is_imm r then as_expr (var_int (compared o t (imm l) (imm r))) else binary o int l r) k T.
Proof.
  intros CO Wl Hl Wr Hr Y I Fx Fy. split; [|reflexivity]. rewrite bit_wrap. destruct (is_imm l && is_imm r) eqn:B.
  - apply andb_true_iff in B as [B1 B2]. imms. rewrite compared_is by assumption. fold (bit (holds_for o x y)).
    replace (var_int (bit (holds_for o x y))) with (var_numeric int (bit (holds_for o x y))) by (destruct (holds_for o x y); reflexivity).
    apply as_is; apply (imm_ok G w k T int); try exact int_ok; destruct (holds_for o x y); cbn; lia.
  - right. split; [split; [destruct o; try discriminate CO; reflexivity|intros X; cbn in X; subst o; discriminate CO]|]. split; [reflexivity|]. split; [exact int_ok|]. split; [reflexivity|].
    split; [|destruct (holds_for o x y); reflexivity]. unfold meaning, binary. cbn [e_l e_r e_op e_type]. cbv zeta. rewrite (proj2 Hl), (proj2 Hr), (proj1 Hl), (proj1 Hr), !type_equal_refl.
    cbn [andb]. destruct o; try discriminate CO; rewrite compared_is by assumption; reflexivity.
Qed.
(* the operands, when they have been converted to t *)
Definition prepared (t : cty) (x y : Z) : var * var -> nat -> temps -> Prop := fun p k T =>
  sound k (fst p) /\ holds T (fst p) t (wrap x) /\ sound k (snd p) /\ holds T (snd p) t (wrap y).
Lemma casts_prepared k T l r u v x y t : sound k l -> holds T l u (wrap x) -> num_ok (u, x) -> sound k r -> holds T r v (wrap y) -> num_ok (v, y) -> type_ok G t -> scalar t = true ->
  gives (let* l := cast_operand G l t in let* r := cast_operand G r t in ret (l, r)) k T (prepared t (converted t x) (converted t y)).
Proof.
  intros Wl Hl Nl Wr Hr Nr Y S. eapply (casts_ok k T l r u v (wrap x) (wrap y) t pair); try eassumption; try (apply num_convert; assumption); try (eapply num_scalar; eassumption).
  rewrite !(convert_converted G t) by assumption. intros. repeat split; cbn [fst snd]; apply H || apply H0 || apply H1 || apply H2.
Qed.
Lemma swaps_prepared k T l r u v x y t : sound k l -> holds T l u (wrap x) -> num_ok (u, x) -> sound k r -> holds T r v (wrap y) -> num_ok (v, y) -> type_ok G t -> scalar t = true ->
  gives (let* r := cast_operand G r t in let* l := cast_operand G l t in ret (l, r)) k T (prepared t (converted t x) (converted t y)).
Proof.
  intros Wl Hl Nl Wr Hr Nr Y S. eapply (casts_ok k T r l v u (wrap y) (wrap x) t (fun r l => (l, r))); try eassumption; try (apply num_convert; assumption); try (eapply num_scalar; eassumption).
  rewrite !(convert_converted G t) by assumption. intros. repeat split; cbn [fst snd]; apply H || apply H0 || apply H1 || apply H2.
Qed.
Lemma prepare_comparison_ok k T l r u v x y : sound k l -> holds T l u (wrap x) -> num_ok (u, x) -> sound k r -> holds T r v (wrap y) -> num_ok (v, y) ->
  exists t, match u, v with TInt s sg, TInt s' sg' => t = common s sg s' sg' | _, _ => t = ulong end /\ type_ok G t /\ is_integer t = true /\
    gives (prepare_comparison G l r) k T (prepared t (converted t x) (converted t y)).
Proof.
  intros Wl Hl Nl Wr Hr Nr. unfold prepare_comparison. rewrite (proj1 Hl), (proj1 Hr).
  destruct u as [|s sg|u| |]; try (destruct (proj2 Nl); fail); try contradiction (proj2 Nl); destruct v as [|s' sg'|v| |]; try contradiction (proj2 Nr); cbn [is_integer is_pointer is_scalar andb].
  - destruct (usual_common s sg s' sg' (proj1 Nl) (proj1 Nr)) as [U Y]. exists (common s sg s' sg'). split; [reflexivity|]. split; [exact Y|]. split; [reflexivity|]. cbv zeta. rewrite U.
    eapply casts_prepared; eauto.
  - exists ulong. split; [reflexivity|]. split; [apply long_ok|]. split; [reflexivity|]. eapply swaps_prepared; eauto. apply long_ok.
  - exists ulong. split; [reflexivity|]. split; [apply long_ok|]. split; [reflexivity|]. destruct u; eapply casts_prepared; eauto; apply long_ok.
  - exists ulong. split; [reflexivity|]. split; [apply long_ok|]. split; [reflexivity|].
    destruct u; [destruct v|..]; try (eapply casts_prepared; eauto; apply long_ok); eapply swaps_prepared; eauto; apply long_ok.
Qed.
Lemma pointer_converted u p : num_ok (TPtr u, p) -> converted ulong p = p.
Proof. intros [_ F]. apply (converted_id G); [apply long_ok|]. exact F. Qed.
Lemma equality_ok o f k T a b ra rb va vb r : compares o = true -> (forall x y, f x y = holds_for o x y) -> sound k a -> is_result T a ra -> result_ok ra -> value_of w ra = Some va ->
  sound k b -> is_result T b rb -> result_ok rb -> value_of w rb = Some vb -> equality f va vb = Some r ->
  result_ok r /\ gives (eval_equality G o a b) k T (expr_result r).
Proof.
  intros CO F Wa Ha Oa Ea Wb Hb Ob Eb P. destruct va as [ta za], vb as [tb zb].
  destruct (rvalue_ok k T a ra ta za Wa Ha (result_fits _ Oa) Ea) as [Na _]. destruct (rvalue_ok k T b rb tb zb Wb Hb (result_fits _ Ob) Eb) as [Nb _].
  assert (R : exists t, match ta, tb with TInt s sg, TInt s' sg' => t = common s sg s' sg' | _, _ => t = ulong end /\ r = Val int (bit (holds_for o (converted t za) (converted t zb)))).
  { destruct ta as [|s sg|u| |]; try contradiction (proj2 Na); destruct tb as [|s' sg'|v| |]; try contradiction (proj2 Nb); cbn [equality relation] in P; cbv zeta in P; eexists; (split; [reflexivity|]);
      unfold truth in P; rewrite F in P; injection P as <-; rewrite ?(pointer_converted _ _ Na), ?(pointer_converted _ _ Nb); reflexivity. }
  destruct R as (t & Et & ->). split; [apply truth_ok|]. unfold eval_equality.
  eapply (rvalues k T a b ra rb ta za tb zb); try eassumption. clear Na Nb. intros Na Nb l r k1 T1 _ Wl Hl Wr Hr.
  destruct (prepare_comparison_ok k1 T1 l r ta tb za zb Wl Hl Na Wr Hr Nb) as (t' & Et' & Y & I & GP).
  assert (t' = t) as -> by (destruct ta, tb; congruence).
  eapply gives_bind; [exact GP|]. cbv beta. intros [l2 r2] k2 T2 _ _ (Wl2 & Hl2 & Wr2 & Hr2). cbn [fst snd] in *. apply gives_ret. rewrite (proj1 Hl2).
  apply compare_expr; auto; apply (converted_fits G); auto; apply int_scalar, I.
Qed.
Lemma relation_ok o f k T a b ra rb va vb r : compares o = true -> (forall x y, f x y = holds_for o x y) -> sound k a -> is_result T a ra -> result_ok ra -> value_of w ra = Some va ->
  sound k b -> is_result T b rb -> result_ok rb -> value_of w rb = Some vb -> relation f va vb = Some r ->
  result_ok r /\ gives (eval_relation G o a b) k T (expr_result r).
Proof.
  intros CO F Wa Ha Oa Ea Wb Hb Ob Eb P. destruct va as [ta za], vb as [tb zb].
  destruct (rvalue_ok k T a ra ta za Wa Ha (result_fits _ Oa) Ea) as [Na _]. destruct (rvalue_ok k T b rb tb zb Wb Hb (result_fits _ Ob) Eb) as [Nb _].
  assert (R : exists t, match ta, tb with TInt s sg, TInt s' sg' => t = common s sg s' sg' | TPtr u, TPtr v => u = v /\ t = ulong | _, _ => False end /\
                r = Val int (bit (holds_for o (converted t za) (converted t zb)))).
  { destruct ta as [|s sg|u| |]; try contradiction (proj2 Na); destruct tb as [|s' sg'|v| |]; try contradiction (proj2 Nb); cbn [relation] in P; cbv zeta in P; try discriminate P.
    - eexists. split; [reflexivity|]. unfold truth in P. rewrite F in P. injection P as <-. reflexivity.
    - destruct (same_type u v) as [->|]; [|discriminate P]. eexists. split; [split; reflexivity|]. unfold truth in P. rewrite F in P. injection P as <-.
      rewrite ?(pointer_converted _ _ Na), ?(pointer_converted _ _ Nb). reflexivity. }
  destruct R as (t & Et & ->). split; [apply truth_ok|]. unfold eval_relation.
  eapply (rvalues k T a b ra rb ta za tb zb); try eassumption. clear Na Nb. intros Na Nb l r k1 T1 _ Wl Hl Wr Hr.
  assert (R : type_ok G t /\ is_integer t = true /\
    gives (match vtype l, vtype r with TInt _ _, TInt _ _ => ret (usual_conversion G (vtype l) (vtype r)) | TPtr t, TPtr u => if type_equal t u then ret ulong else stop | _, _ => stop end)
      k1 T1 (fun t' k' T' => t' = t /\ T' = T1 /\ k' = k1)).
  { rewrite (proj1 Hl), (proj1 Hr). destruct ta as [|s sg|u| |]; try contradiction Et; destruct tb as [|s' sg'|v| |]; try contradiction Et.
    - destruct (usual_common s sg s' sg' (proj1 Na) (proj1 Nb)) as [U Y]. rewrite U, <- Et. split; [rewrite Et; exact Y|]. split; [rewrite Et; reflexivity|]. apply gives_ret. auto.
    - destruct Et as [-> ->]. rewrite type_equal_refl. split; [apply long_ok|]. split; [reflexivity|]. apply gives_ret. auto. }
  destruct R as (Y & I & GT'). pose proof (int_scalar _ I) as S. eapply gives_bind; [exact GT'|]. cbv beta. intros t' k2 T2 _ _ (-> & -> & ->).
  eapply (casts_ok k1 T1 l r ta tb (wrap za) (wrap zb) t); try eassumption; try (apply num_convert; assumption); try (eapply num_scalar; eassumption).
  rewrite !(convert_converted G t) by assumption. intros. apply compare_expr; auto; apply (converted_fits G); auto.
Qed.
Lemma relation_swap f va vb : relation f va vb = relation (fun x y => f y x) vb va.
Proof.
  destruct va as [[|s sg|u| |] x], vb as [[|s' sg'|v| |] y]; try reflexivity; cbn [relation].
  - replace (common s' sg' s sg) with (common s sg s' sg') by (unfold common; rewrite (Z.max_comm s s'), orb_comm; reflexivity). reflexivity.
  - destruct (same_type u v) as [E|N], (same_type v u) as [E'|N']; try reflexivity; congruence.
Qed.
Lemma binop_ok o k T a b ra rb va vb r : sound k a -> is_result T a ra -> result_ok ra -> value_of w ra = Some va ->
  sound k b -> is_result T b rb -> result_ok rb -> value_of w rb = Some vb -> calculate G o va vb = Some r ->
  result_ok r /\ gives (binop G o a b) k T (expr_result r).
Proof.
  intros Wa Ha Oa Ea Wb Hb Ob Eb P. destruct o; cbn [calculate binop] in *.
  - eapply (add_ok k T a b ra rb); eassumption.
  - eapply (sub_ok k T a b ra rb); eassumption.
  - eapply (times_ok k T a b ra rb); eassumption.
  - eapply (divide_ok k T a b ra rb) with (md := false); eassumption.
  - eapply (divide_ok k T a b ra rb) with (md := true); eassumption.
  - eapply (bits_ok k T a b ra rb) with (o := AND) (f := Z.land); try eassumption; [exact wrap_land2|reflexivity].
  - eapply (bits_ok k T a b ra rb) with (o := OR) (f := Z.lor); try eassumption; [exact wrap_lor2|reflexivity].
  - eapply (bits_ok k T a b ra rb) with (o := XOR) (f := Z.lxor); try eassumption; [exact wrap_lxor2|reflexivity].
  - eapply (shift_operands k T a b ra rb) with (left := true); eassumption.
  - eapply (shift_operands k T a b ra rb) with (left := false); eassumption.
  - rewrite relation_swap in P. eapply (relation_ok GT _ k T b a rb ra); try eassumption; reflexivity.
  - eapply (relation_ok GT Z.gtb k T a b ra rb); try eassumption; [reflexivity|]. intros. apply Z.gtb_ltb.
  - rewrite relation_swap in P. eapply (relation_ok GE _ k T b a rb ra); try eassumption; reflexivity.
  - eapply (relation_ok GE Z.geb k T a b ra rb); try eassumption; [reflexivity|]. intros. apply Z.geb_leb.
  - eapply (equality_ok EQ Z.eqb k T a b ra rb); try eassumption; reflexivity.
  - eapply (equality_ok NE _ k T a b ra rb); try eassumption; reflexivity.
Qed.
(* ---- one operand ---- *)
Lemma zero_ok k T : sound k (var_int 0) /\ is_result T (var_int 0) (Val int 0) /\ result_ok (Val int 0).
Proof.
  destruct (imm_ok G w k T int 0 int_ok ltac:(lia)) as [A B]. split; [exact A|]. split; [split; [exact B|reflexivity]|]. exact (truth_ok false).
Qed.
Lemma promote_common s sg x : num_ok (TInt s sg, x) -> exists t, promote G (TInt s sg) = t /\ common 4 true s sg = t /\ type_ok G t /\ is_integer t = true /\ fits t x.
Proof.
  intros N. destruct (promote_is s sg x N) as (t & A & B & C & D & E). exists t. repeat split; auto. rewrite <- B. destruct N as [Y _]. cbn [fst type_ok] in Y.
  destruct Y as [->|[->|[->| ->]]]; destruct sg; reflexivity.
Qed.
Lemma fits_zero t : type_ok G t -> is_integer t = true -> fits t 0.
Proof. intros Y I. destruct t as [|s sg| | |]; try discriminate I; destruct (halves _ _ _ Y) as [P D]; cbn [fits]; unfold least, most; destruct sg; lia. Qed.
Lemma unop_ok o k T e ra va r : expr_result ra e k T -> result_ok ra -> value_of w ra = Some va -> unary o va = Some r ->
  result_ok r /\ gives (unop G o e) k T (expr_result r).
Proof.
  intros X O E U. pose proof (eval_result _ _ _ _ _ _ X) as EV.
  assert (INT : forall ok f, arith ok f (int, 0) va = Some r -> exists s sg z, va = (TInt s sg, z)).
  { intros ok f P. destruct va as [[|s sg| | |] z]; try discriminate P. eauto. }
  assert (ONE : forall (f : var -> M expr), (exists s sg z, va = (TInt s sg, z)) ->
    (forall v k T s sg z, va = (TInt s sg, z) -> sound k v -> is_result T v ra -> num_ok (TInt s sg, z) -> holds T v (TInt s sg) (wrap z) -> result_ok r /\ gives (f v) k T (expr_result r)) ->
    result_ok r /\ gives (let* v := eval e in f v) k T (expr_result r)).
  { intros f (s & sg & z & ->) F. split.
    - eapply gives_ok; [exact EV|]. intros v k1 T1 [W H]. destruct (plain_ok _ _ _ _ _ _ _ W H O E) as [N V]. eapply F; eauto.
    - eapply gives_bind; [exact EV|]. cbv beta. intros v k1 T1 _ _ [W H]. destruct (plain_ok _ _ _ _ _ _ _ W H O E) as [N V]. eapply F; eauto. }
  destruct o; cbn [unary unop] in *.
  - apply ONE; [eapply INT; exact U|]. intros v k1 T1 s sg z -> W H N V. pose proof (proj2 (proj2 (zero_ok 0 T))) as NZ.
    destruct (arith_vals _ _ _ _ _ _ _ _ _ NZ N U) as (t & q & X' & Y' & -> & O' & UC & Y & I & -> & -> & _ & _ & _ & ->). split; [exact O'|].
    destruct (promote_common _ _ _ N) as (t' & P1 & P2 & _ & _ & F). rewrite (proj1 (usual_common _ _ _ _ (proj1 NZ) (proj1 N))) in UC. assert (t' = t) as -> by congruence.
    pose proof (int_scalar _ I) as S. rewrite (converted_id G t 0 Y (fits_zero t Y I)), Z.add_0_l, !(converted_id G t z Y F).
    unfold eval_plus. rewrite (proj1 V). cbn [is_integer negb vtype]. rewrite P1. cbv zeta.
    assert (W' : sound k1 (mkV (kind v) (TInt s sg) (sym v) (offset v) (imm v) false)).
    { destruct V as [<- _]. destruct W as [W1 W2]. split; [exact W1|]. cbn. destruct (kind v), (sym v) as [[[|] ?]|]; try exact W2. tauto. }
    assert (V' : holds T1 (mkV (kind v) (TInt s sg) (sym v) (offset v) (imm v) false) (TInt s sg) (wrap z)) by (destruct V as [<- V]; split; [reflexivity|exact V]).
    destruct (type_equal (TInt s sg) t) eqn:TE.
    + apply type_equal_eq in TE as <-. apply gives_ret. split; [|exact S]. apply as_is; assumption.
    + destruct (is_imm _) eqn:IM.
      * destruct (imm_value _ _ _ _ _ _ W' IM (proj2 V')) as (_ & -> & _ & ->). cbn [Z.eqb]. apply gives_ret. split; [|exact S].
        rewrite (convert_converted G t), (converted_id G) by assumption. apply as_is; apply (imm_ok G w k1 T1 t); auto; apply wrap_range.
      * apply gives_ret. split; [|exact S]. right. split; [split; [unfold is_identity; cbn [e_op e_type e_l vtype]; destruct (type_equal t _) eqn:TE'; [apply type_equal_eq in TE' as ->; rewrite type_equal_refl in TE; discriminate TE|reflexivity]|intros _; exact IM]|]. split; [reflexivity|]. split; [exact Y|]. split; [exact S|].
        unfold meaning. cbn [e_l e_op e_type]. rewrite (proj2 V'). rewrite (convert_converted G t), (converted_id G) by assumption. auto.
  - apply ONE; [eapply INT; exact U|]. intros v k1 T1 s sg z -> W H N V. unfold eval_neg. rewrite (proj1 V). cbn [is_integer].
    destruct (zero_ok k1 T1) as (Wz & Hz & Oz). exact (sub_ok k1 T1 (var_int 0) v (Val int 0) ra (int, 0) (TInt s sg, z) r Wz Hz Oz eq_refl W H O E U).
  - apply ONE; [eapply INT; exact U|]. intros v k1 T1 s sg z -> W H N V. pose proof (proj2 (proj2 (zero_ok 0 T))) as NZ.
    destruct (arith_vals _ _ _ _ _ _ _ _ _ NZ N U) as (t & q & X' & Y' & -> & O' & UC & Y & I & -> & -> & _ & _ & _ & ->). split; [exact O'|].
    destruct (promote_common _ _ _ N) as (t' & P1 & P2 & _ & _ & F). rewrite (proj1 (usual_common _ _ _ _ (proj1 NZ) (proj1 N))) in UC. assert (t' = t) as -> by congruence.
    pose proof (int_scalar _ I) as S. unfold eval_not. rewrite (proj1 V). cbn [is_integer negb]. rewrite P1. cbv zeta.
    eapply gives_bind; [eapply cast_ok with (t := t); [exact W|exact V|reflexivity|exact Y|exact S|apply num_convert, N]|]. cbv beta. intros u k2 T2 _ _ [Wu Hu].
    rewrite (convert_converted G t) in Hu by assumption. apply gives_ret. split; [|exact S]. rewrite <- (convert_is G) by assumption.
    assert (LN : convert (Z.lnot (wrap (converted t z))) t = convert (Z.lnot (converted t z)) t).
    { rewrite <- (convert_wrap G t (Z.lnot (wrap _))), <- (convert_wrap G t (Z.lnot (converted t z))) by assumption. f_equal. apply (wrap_lnot2 0). }
    destruct (is_imm u) eqn:IM; [imms; rewrite <- LN; apply imm_expr; exact Y|]. right. split; [split; [reflexivity|discriminate]|]. rewrite (proj1 Hu). split; [reflexivity|]. split; [exact Y|]. split; [exact S|].
    unfold meaning. cbn [e_l e_op e_type]. rewrite (proj2 Hu), (proj1 Hu), Z.eqb_refl, LN. split; [reflexivity|]. apply (convert_twice G); assumption.
  - assert (R : exists z, snd va = z /\ r = Val int (bit (z =? 0)) /\ num_ok va).
    { assert (N : num_ok va) by (eapply gives_ok; [exact EV|]; intros v k1 T1 [W H]; destruct va as [t z]; apply (rvalue_ok k1 T1 v ra t z W H (result_fits _ O) E)).
      destruct va as [[|s sg|u| |] z]; try discriminate U; exists z; (split; [reflexivity|]); (split; [|exact N]); unfold truth in U; injection U as <-; reflexivity. }
    destruct R as (z & Ez & -> & N). split; [apply truth_ok|].
    assert (DEF : gives (let* v := eval e in eval_equality G EQ (var_int 0) v) k T (expr_result (Val int (bit (z =? 0))))).
    { eapply gives_bind; [exact EV|]. cbv beta. intros v k1 T1 _ _ [W H]. destruct (zero_ok k1 T1) as (Wz & Hz & Oz).
      refine (proj2 (equality_ok EQ Z.eqb k1 T1 (var_int 0) v (Val int 0) ra (int, 0) va _ eq_refl (fun _ _ => eq_refl) Wz Hz Oz eq_refl W H O E _)).
      destruct va as [t y]. cbn [snd] in Ez. subst y. destruct t as [|s sg|u| |]; try discriminate U.
      - cbn [equality relation int]. destruct (promote_common _ _ _ N) as (t & _ & -> & Y & I & F). cbv zeta. rewrite (converted_id G t 0 Y (fits_zero t Y I)), (converted_id G t z Y F).
        rewrite Z.eqb_sym. reflexivity.
      - cbn [equality int]. change (converted (TPtr u) 0) with 0. rewrite Z.eqb_sym. reflexivity. }
    assert (FLIP : forall o o' (sw : bool), compares o = true -> e_op e = o -> (forall x y, holds_for o' (if sw then y else x) (if sw then x else y) = negb (holds_for o x y)) -> compares o' = true ->
      gives (ret (if sw then mkE o' (e_type e) (e_r e) (e_l e) else mkE o' (e_type e) (e_l e) (e_r e))) k T (expr_result (Val int (bit (z =? 0))))).
    { intros o o' sw CO EO HF CO'. apply gives_ret. destruct ra as [t a|t y]; [destruct X as (v & -> & _); cbn in EO; subst o; discriminate CO|].
      destruct X as [[(v & -> & _)|(_ & ET & Yt & St & ME & CE)] _]; [cbn in EO; subst o; discriminate CO|]. injection E as <-. cbn [snd] in Ez. subst y.
      assert (M' : exists l r, value G w T (e_l e) = Some l /\ value G w T (e_r e) = Some r /\ vtype (e_l e) = vtype (e_r e) /\ t = int /\ wrap z = compared o (vtype (e_l e)) l r).
      { unfold meaning in ME. destruct (PtrModel.value G w T (e_l e)) as [l|]; [|discriminate ME]. exists l. rewrite EO in ME.
        destruct (PtrModel.value G w T (e_r e)) as [r|]; [|destruct o; discriminate ME || discriminate CO]. exists r. split; [reflexivity|]. split; [reflexivity|]. cbv zeta in ME.
        destruct (type_equal (vtype (e_l e)) (vtype (e_r e)) && type_equal (e_type e) int) eqn:TE; [|destruct o; discriminate ME || discriminate CO].
        apply andb_true_iff in TE as [T1 T2]. apply type_equal_eq in T1. apply type_equal_eq in T2. split; [exact T1|]. split; [congruence|]. destruct o; try discriminate CO; injection ME as <-; reflexivity. }
      destruct M' as (l & q & Vl & Vr & TT & -> & WZ).
      assert (BZ : z = compared o (vtype (e_l e)) l q).
      { rewrite <- (fits_signed int z int_ok (proj2 N) eq_refl), WZ. unfold compared. destruct (if is_signed _ then _ else _); reflexivity. }
      assert (FL : compared o' (vtype (e_l e)) (if sw then q else l) (if sw then l else q) = bit (z =? 0)).
      { rewrite BZ. unfold compared. destruct (is_signed _).
        - specialize (HF (signed l) (signed q)). destruct sw; rewrite HF; destruct (holds_for o _ _); reflexivity.
        - specialize (HF l q). destruct sw; rewrite HF; destruct (holds_for o _ _); reflexivity. }
      split; [|reflexivity]. rewrite bit_wrap. right. rewrite ET. split; [destruct sw; split; try (destruct o'; reflexivity || discriminate CO'); intros Q; cbn in Q; subst o'; discriminate CO'|].
      split; [destruct sw; reflexivity|]. split; [exact int_ok|]. split; [reflexivity|]. split; [|destruct (z =? 0); reflexivity].
      destruct sw; unfold meaning; cbn [e_l e_r e_op e_type]; cbv zeta; rewrite Vl, Vr, TT, !type_equal_refl; cbn [andb]; rewrite TT in FL; destruct o'; try discriminate CO'; f_equal; exact FL. }
    unfold logical_not. destruct (e_op e) eqn:OP; try exact DEF.
    + apply (FLIP EQ NE false); auto.
    + apply (FLIP NE EQ false); auto. intros. cbn. rewrite negb_involutive. reflexivity.
    + apply (FLIP GE GT true); auto. intros. cbn. apply Z.ltb_antisym.
    + apply (FLIP GT GE true); auto. intros. cbn. apply Z.leb_antisym.
Qed.
Theorem compile_ok e : forall r, types_ok G e -> denotes G w e = Some r -> right_code e r.
Proof.
  induction e as [x t|t z|a IHa b IHb|a IHa|a IHa|a IHa m|a IHa m|o a IHa b IHb|o a IHa|t a IHa]; cbn [types_ok denotes]; intros r Y D.
  - injection D as <-. split; [split; [exact Y|apply WO]|]. intros k T. apply gives_ret. exists (var_direct (mkSym (Obj x) t)). split; [reflexivity|].
    split; [split; [exact Y|exact I]|]. split; [reflexivity|]. split; [reflexivity|]. unfold location. cbn. rewrite Z.add_0_r, wrap_id by apply WO. reflexivity.
  - destruct t as [|s sg| | |]; try discriminate D. destruct (fitsb _ _) eqn:F; [|discriminate D]. injection D as <-. apply fitsb_fits in F.
    split; [split; assumption|]. intros k T. apply gives_ret. split; [|reflexivity]. rewrite (convert_is G) by (exact Y || reflexivity).
    rewrite (converted_id G) by assumption. apply as_is; apply (imm_ok G w k T (TInt s sg)); auto; apply wrap_range.
  - apply into_some in D as (va & Ea & D). apply into_some in Ea as (ra & Da & Ea). apply into_some in D as (vb & Eb & D). apply into_some in Eb as (rb & Db & Eb).
    apply into_some in D as (rs & Es & D). apply into_some in D as (vs & Ev & D). destruct vs as [[| |t| |] p]; try discriminate D. injection D as <-.
    destruct Y as [Ya Yb]. specialize (IHa _ Ya Da). specialize (IHb _ Yb Db). split.
    + eapply of_operands; [exact IHa|exact IHb|]. intros v u k T Wv Hv Wu Hu.
      destruct (add_ok _ _ _ _ _ _ _ _ _ Wv Hv (proj1 IHa) Ea Wu Hu (proj1 IHb) Eb Es) as [Rs Gs].
      eapply gives_ok with (m := let* s := eval_add G v u in eval s) (k := k) (T := T) (P := var_result rs).
      { eapply gives_bind; [exact Gs|]. cbv beta. intros x k1 T1 _ _ X. apply eval_result. exact X. }
      intros s k1 T1 [Ws Hs]. apply (deref_ok _ _ _ _ _ _ Ws Hs Rs Ev).
    + intros k T. cbn [compile]. eapply operands; [exact IHa|exact IHb|]. intros v u k1 T1 Wv Hv Wu Hu.
      destruct (add_ok _ _ _ _ _ _ _ _ _ Wv Hv (proj1 IHa) Ea Wu Hu (proj1 IHb) Eb Es) as [Rs Gs].
      eapply gives_bind; [exact Gs|]. cbv beta. intros x k2 T2 _ _ X. eapply gives_bind; [apply eval_result; exact X|]. cbv beta. intros s k3 T3 _ _ [Ws Hs].
      eapply gives_bind; [apply (deref_ok _ _ _ _ _ _ Ws Hs Rs Ev)|]. cbv beta. intros y k4 T4 _ _ Hy. apply gives_ret. apply result_var. exact Hy.
  - apply into_some in D as ([[| |t| |] p] & Ea & D); try discriminate D. injection D as <-. apply into_some in Ea as (ra & Da & Ea). specialize (IHa _ Y Da). split.
    + eapply of_operand; [exact IHa|]. intros v k T W H. apply (deref_ok _ _ _ _ _ _ W H (proj1 IHa) Ea).
    + intros k T. cbn [compile]. eapply operand; [exact IHa|]. intros v k1 T1 _ _ W H.
      eapply gives_bind; [apply (deref_ok _ _ _ _ _ _ W H (proj1 IHa) Ea)|]. cbv beta. intros y k4 T4 _ _ Hy. apply gives_ret. apply result_var. exact Hy.
  - destruct (denotes G w a) as [[t p|]|] eqn:Da; try discriminate D. injection D as <-. specialize (IHa _ Y eq_refl). pose proof (proj1 IHa) as [Yt R]. split; [split; assumption|].
    intros k T. cbn [compile]. eapply operand; [exact IHa|]. intros v k1 T1 _ _ W (E & L & LO).
    pose proof (addr_ok k1 T1 v (vtype v) p W L LO (proj1 W)) as X. rewrite retype_same, E in X. eapply gives_bind; [exact X|].
    cbv beta. intros y k4 T4 _ _ [Wy Hy]. apply gives_ret. split; [|reflexivity]. apply as_is; [exact Wy|]. rewrite (wrap_id _ R). exact Hy.
  - apply into_some in D as (ra & Da & D). specialize (IHa _ Y Da). split.
    + eapply of_operand; [exact IHa|]. intros v k T W H. apply (member_ok bad _ _ _ _ _ _ W H (proj1 IHa) D).
    + intros k T. cbn [compile]. eapply operand; [exact IHa|]. intros v k1 T1 _ _ W H. apply (member_ok bad _ _ _ _ _ _ W H (proj1 IHa) D).
  - apply into_some in D as ([[| |t| |] p] & Ea & D); try discriminate D. cbn [object into] in D. apply into_some in Ea as (ra & Da & Ea). specialize (IHa _ Y Da). split.
    + eapply of_operand; [exact IHa|]. intros v k T W H. destruct (deref_ok _ _ _ _ _ _ W H (proj1 IHa) Ea) as [O X]. eapply gives_ok; [exact X|]. cbv beta.
      intros u k1 T1 [Wu Hu]. apply (member_ok stop _ _ _ _ _ _ Wu Hu O D).
    + intros k T. cbn [compile]. eapply operand; [exact IHa|]. intros v k1 T1 _ _ W H. destruct (deref_ok _ _ _ _ _ _ W H (proj1 IHa) Ea) as [O X].
      eapply gives_bind; [exact X|]. cbv beta. intros u k2 T2 _ _ [Wu Hu]. apply (member_ok stop _ _ _ _ _ _ Wu Hu O D).
  - apply into_some in D as (va & Ea & D). apply into_some in Ea as (ra & Da & Ea). apply into_some in D as (vb & Eb & D). apply into_some in Eb as (rb & Db & Eb).
    destruct Y as [Ya Yb]. specialize (IHa _ Ya Da). specialize (IHb _ Yb Db). split.
    + eapply of_operands; [exact IHa|exact IHb|]. intros v u k T Wv Hv Wu Hu. apply (binop_ok _ _ _ _ _ _ _ _ _ _ Wv Hv (proj1 IHa) Ea Wu Hu (proj1 IHb) Eb D).
    + intros k T. cbn [compile]. eapply operands; [exact IHa|exact IHb|]. intros v u k1 T1 Wv Hv Wu Hu. apply (binop_ok _ _ _ _ _ _ _ _ _ _ Wv Hv (proj1 IHa) Ea Wu Hu (proj1 IHb) Eb D).
  - apply into_some in D as (va & Ea & D). apply into_some in Ea as (ra & Da & Ea). specialize (IHa _ Y Da). split.
    + eapply gives_ok; [apply (proj2 IHa 0%nat (fun _ => 0))|]. intros x k T X. apply (unop_ok _ _ _ _ _ _ _ X (proj1 IHa) Ea D).
    + intros k T. cbn [compile]. eapply gives_bind; [apply (proj2 IHa)|]. cbv beta. intros x k1 T1 _ _ X. apply (unop_ok _ _ _ _ _ _ _ X (proj1 IHa) Ea D).
  - apply into_some in D as ([u z] & Ea & D). cbn [snd] in D. destruct (scalar t) eqn:S; [|discriminate D]. injection D as <-. apply into_some in Ea as (ra & Da & Ea).
    destruct Y as [Yt Ya]. specialize (IHa _ Ya Da). split.
    + eapply of_operand; [exact IHa|]. intros v k T W H. apply (eval_cast_ok _ _ _ _ _ _ _ W H (proj1 IHa) Ea Yt S).
    + intros k T. cbn [compile]. eapply operand; [exact IHa|]. intros v k1 T1 _ _ W H. apply (eval_cast_ok _ _ _ _ _ _ _ W H (proj1 IHa) Ea Yt S).
Qed.
End Code.
