(* Lemmas for C29: the parts of a stack frame. *)
From Coq Require Import List ZArith Bool Lia.
From Verif Require Import Util TypeModel LayoutModel AbiModel CallModel CallSpec CallProofs.
Import ListNotations.
Open Scope Z_scope.

Lemma eight_ge t : lsize t <= 8 * eightbytes t.
Proof. unfold eightbytes. pose proof (Z.div_mod (lsize t + 7) 8 ltac:(lia)). pose proof (Z.mod_pos_bound (lsize t + 7) 8 ltac:(lia)). lia. Qed.
Lemma desc_range R : forall B offs, desc B R offs -> Forall (fun x : param_class * (nat * ltype) => 0 < lsize (snd (snd x))) R ->
  forall pc k t o, In (pc, (k, t)) R -> nth_error offs k = Some o -> B - total (map snd R) <= o /\ o + lsize t <= B.
Proof.
  induction R as [|[pc [k t]] R IH]; intros B offs D F pc' k' t' o I O; [destruct I|]. cbn [desc] in D. destruct D as [D1 D2].
  inversion F as [|? ? F1 F2]; subst. cbn in F1. pose proof (eight_ge t). cbn [map snd total fold_right]. fold (total (map snd R)).
  assert (0 <= total (map snd R)) as T by (apply total_nonneg; clear - F2; induction F2; cbn; constructor; auto).
  destruct I as [E|I].
  - injection E as <- <- <-. assert (o = B - 8 * eightbytes t) by congruence. lia.
  - destruct (IH _ _ D2 F2 _ _ _ _ I O). lia.
Qed.
Lemma desc_disj R : forall B offs, desc B R offs -> Forall (fun x : param_class * (nat * ltype) => 0 < lsize (snd (snd x))) R ->
  forall pc k t o pc' k' t' o', In (pc, (k, t)) R -> In (pc', (k', t')) R -> k <> k' -> nth_error offs k = Some o -> nth_error offs k' = Some o' ->
  o + lsize t <= o' \/ o' + lsize t' <= o.
Proof.
  induction R as [|[pc0 [k0 t0]] R IH]; intros B offs D F pc k t o pc' k' t' o' I I' N O O'; [destruct I|]. cbn [desc] in D. destruct D as [D1 D2].
  inversion F as [|? ? F1 F2]; subst. cbn in F1. pose proof (eight_ge t0).
  destruct I as [E|I], I' as [E'|I'].
  - congruence.
  - injection E as <- <- <-. destruct (desc_range _ _ _ D2 F2 _ _ _ _ I' O'). assert (o = B - 8 * eightbytes t0) by congruence. lia.
  - injection E' as <- <- <-. destruct (desc_range _ _ _ D2 F2 _ _ _ _ I O). assert (o' = B - 8 * eightbytes t0) by congruence. lia.
  - eapply IH; eauto.
Qed.
Lemma asc_range l : forall M offs, asc M l offs -> Forall (fun x : nat * ltype => 0 < lsize (snd x)) l ->
  forall k t o, In (k, t) l -> nth_error offs k = Some o -> M <= o.
Proof.
  induction l as [|[k t] l IH]; intros M offs D F k' t' o I O; [destruct I|]. cbn [asc] in D. destruct D as [D1 D2].
  inversion F as [|? ? F1 F2]; subst. cbn in F1. pose proof (eight_ge t). destruct I as [E|I].
  - injection E as <- <-. assert (o = M) by congruence. lia.
  - specialize (IH _ _ D2 F2 _ _ _ I O). lia.
Qed.
Lemma asc_disj l : forall M offs, asc M l offs -> Forall (fun x : nat * ltype => 0 < lsize (snd x)) l ->
  forall k t o k' t' o', In (k, t) l -> In (k', t') l -> k <> k' -> nth_error offs k = Some o -> nth_error offs k' = Some o' ->
  o + lsize t <= o' \/ o' + lsize t' <= o.
Proof.
  induction l as [|[k0 t0] l IH]; intros M offs D F k t o k' t' o' I I' N O O'; [destruct I|]. cbn [asc] in D. destruct D as [D1 D2].
  inversion F as [|? ? F1 F2]; subst. cbn in F1. pose proof (eight_ge t0).
  destruct I as [E|I], I' as [E'|I'].
  - congruence.
  - injection E as <- <-. pose proof (asc_range _ _ _ D2 F2 _ _ _ I' O'). assert (o = M) by congruence. lia.
  - injection E' as <- <-. pose proof (asc_range _ _ _ D2 F2 _ _ _ I O). assert (o' = M) by congruence. lia.
  - eapply IH; eauto.
Qed.
Lemma locals_range ls : locals_sized ls -> forall slots ro st os e, allocate_locals ls slots ro st = (os, e) ->
  e <= st /\ forall i l o, nth_error ls i = Some l -> nth_error os i = Some (Some o) -> e - ro <= o /\ o + lsize (l_type l) <= st - ro.
Proof.
  induction 1 as [|l ls H F IH]; intros slots ro st os e E; cbn in E.
  - injection E as <- <-. split; [lia|]. intros [|i] ? ? X; discriminate.
  - pose proof (eight_ge (l_type l)). destruct slots as [|k slots].
    + injection E as <- <-. split; [lia|]. intros [|i] ? ? _ X; discriminate.
    + destruct (l_none l && (k =? 0)%nat && negb (l_vla l)).
      * destruct (allocate_locals ls slots ro (st - eightbytes (l_type l) * 8)) as [os' e'] eqn:E'. injection E as <- <-.
        destruct (IH _ _ _ _ _ E') as [A B]. cbn beta in H. split; [lia|]. intros [|i] l' o X Y; cbn in X, Y.
        -- injection X as <-. injection Y as <-. lia.
        -- specialize (B _ _ _ X Y). lia.
      * destruct (allocate_locals ls slots ro st) as [os' e'] eqn:E'. injection E as <- <-.
        destruct (IH _ _ _ _ _ E') as [A B]. split; [lia|]. intros [|i] l' o X Y; cbn in X, Y; [discriminate|]. apply (B _ _ _ X Y).
Qed.
Lemma locals_disj ls : locals_sized ls -> forall slots ro st os e, allocate_locals ls slots ro st = (os, e) ->
  forall i l o i' l' o', nth_error ls i = Some l -> nth_error os i = Some (Some o) -> nth_error ls i' = Some l' -> nth_error os i' = Some (Some o') -> i <> i' ->
  o + lsize (l_type l) <= o' \/ o' + lsize (l_type l') <= o.
Proof.
  induction 1 as [|l0 ls H F IH]; intros slots ro st os e E i l o i' l' o' X O X' O' N; cbn in E.
  - destruct i; discriminate.
  - pose proof (eight_ge (l_type l0)). destruct slots as [|k slots].
    + injection E as <- <-. destruct i; discriminate.
    + destruct (l_none l0 && (k =? 0)%nat && negb (l_vla l0)).
      * destruct (allocate_locals ls slots ro (st - eightbytes (l_type l0) * 8)) as [os' e'] eqn:E'. injection E as <- <-.
        destruct (locals_range _ F _ _ _ _ _ E') as [_ B]. destruct i as [|i], i' as [|i']; cbn in X, O, X', O'.
        -- congruence.
        -- injection O as <-. specialize (B _ _ _ X' O'). lia.
        -- injection O' as <-. specialize (B _ _ _ X O). lia.
        -- eapply IH; eauto.
      * destruct (allocate_locals ls slots ro st) as [os' e'] eqn:E'. injection E as <- <-.
        destruct i as [|i], i' as [|i']; cbn in X, O, X', O'; try discriminate. eapply IH; eauto.
Qed.
Lemma locals_mult ls : forall slots ro st os e, (8 | ro) -> (8 | st) -> allocate_locals ls slots ro st = (os, e) ->
  forall i o, nth_error os i = Some (Some o) -> (8 | o).
Proof.
  induction ls as [|l ls IH]; intros slots ro st os e D1 D2 E i o O; cbn in E; [injection E as <- <-; destruct i; discriminate|].
  destruct slots as [|k slots]; [injection E as <- <-; destruct i; discriminate|].
  assert (8 | st - eightbytes (l_type l) * 8) as D3 by (apply Z.divide_sub_r; [exact D2|exists (eightbytes (l_type l)); reflexivity]).
  destruct (l_none l && (k =? 0)%nat && negb (l_vla l)).
  - destruct (allocate_locals ls slots ro (st - eightbytes (l_type l) * 8)) as [os' e'] eqn:E'. injection E as <- <-.
    destruct i as [|i]; cbn in O; [injection O as <-; apply Z.divide_sub_r; assumption|]. apply (IH _ _ _ _ _ D1 D3 E' _ _ O).
  - destruct (allocate_locals ls slots ro st) as [os' e'] eqn:E'. injection E as <- <-. destruct i as [|i]; cbn in O; [discriminate|]. apply (IH _ _ _ _ _ D1 D2 E' _ _ O).
Qed.

Theorem frame_ok respc vararg params locals f : sized params -> locals_sized locals -> enter respc vararg params locals = Some f ->
  (vararg = false \/ f_saved f = 0%nat) ->
  f_size f mod 16 = 0 /\
  (forall a o n, extent respc vararg params locals f a = Some (o, n) -> - f_size f <= o /\ o + n <= 0 \/ 16 <= o) /\
  (forall a b o n o' n', a <> b -> extent respc vararg params locals f a = Some (o, n) -> extent respc vararg params locals f b = Some (o', n') ->
    o + n <= o' \/ o' + n' <= o) /\
  (forall a o n, extent respc vararg params locals f a = Some (o, n) -> (8 | o)).
Proof.
  intros SP SL EE VA. destruct (enter_ok _ _ _ _ _ SP SL EE) as (R & S0 & st0 & st2 & st3 & sub & stores & EN).
  destruct EN as [(E1a & E1b) E2 E3 E4 E5 E6 E7 (E8a & E8b) (E9a & E9b & E9c) (E10a & E10b) E11 E12 E13 E14 _ (E15 & E16)].
  set (n0 := nsaved locals) in *. rewrite E1a in VA. destruct (sized_stack _ _ _ _ _ _ SP E3) as [FS FR].
  assert (0 <= total (map snd R)) as TR by (apply total_nonneg; clear - FR; induction FR; cbn; constructor; auto).
  destruct (split_index _ _ _ _ _ _ E3) as (_ & _ & IX).
  destruct (locals_range _ SL _ _ _ _ _ E7) as [_ LR]. pose proof (locals_disj _ SL _ _ _ _ _ E7) as LD.
  assert (8 | st0) as D0 by (rewrite E2; destruct vararg; [exists (-22); reflexivity|destruct (is_memory respc); [exists (-1); reflexivity|exists 0; reflexivity]]).
  assert (8 | 8 * Z.of_nat n0) as DN by (exists (Z.of_nat n0); lia).
  assert (8 | st0 - total (map snd R)) as D1 by (apply Z.divide_sub_r; [exact D0|apply Z.mod_divide; [lia|apply total_mod]]).
  pose proof (locals_mult _ _ _ _ _ _ DN D1 E7) as LM.
  (* where each kind is *)
  assert (forall a o n, extent respc vararg params locals f a = Some (o, n) ->
    match a with
    | Saved k => (k < n0)%nat /\ o = -8 * (Z.of_nat k + 1) /\ n = 8
    | Area => st0 - 8 * Z.of_nat n0 <= o /\ o + n <= - 8 * Z.of_nat n0
    | Param i => exists t, n = lsize t /\ nth_error (f_offs f) i = Some o /\
        ((exists pc, In (pc, (i, t)) R) /\ st0 - 8 * Z.of_nat n0 - total (map snd R) <= o /\ o + n <= st0 - 8 * Z.of_nat n0 \/ In (i, t) S0 /\ 16 <= o)
    | Local i => st2 - 8 * Z.of_nat n0 <= o /\ o + n <= st0 - total (map snd R) - 8 * Z.of_nat n0
    end) as W.
  { intros [k| |i|i] o n X; cbn [extent] in X.
    - rewrite E1a in X. destruct (Nat.ltb_spec k n0); [|discriminate]. split; [assumption|]. split; congruence.
    - rewrite E16, E11 in X. destruct vararg; cbv iota in *; [injection X as <- <-; destruct VA as [|Q]; [discriminate|lia]|].
      destruct (is_memory respc); [|discriminate]. assert (o = -8 - 8 * Z.of_nat n0 /\ n = 8) as [-> ->] by (split; congruence). lia.
    - destruct (nth_error (f_offs f) i) as [o1|] eqn:EO; [|discriminate]. destruct (nth_error params i) as [t|] eqn:ET; [|discriminate]. injection X as <- <-.
      exists t. split; [reflexivity|]. split; [reflexivity|]. destruct (IX _ _ ET) as [[pc I]|I]; cbn [Nat.add] in I.
      + left. split; [exists pc; exact I|]. apply (desc_range _ _ _ E5 FR _ _ _ _ I EO).
      + right. split; [exact I|]. apply (asc_range _ _ _ E6 FS _ _ _ I EO).
    - destruct (nth_error (f_locals f) i) as [[o1|]|] eqn:EO; try discriminate. destruct (nth_error locals i) as [l|] eqn:ET; [|discriminate]. injection X as <- <-.
      destruct (LR _ _ _ ET EO). lia. }
  assert (st0 <= 0) as S00 by (rewrite E2; destruct vararg; [lia|destruct (is_memory respc); lia]).
  split; [exact E10b|]. split; [|split].
  - intros a o n X. specialize (W _ _ _ X). destruct a as [k| |i|i]; [left; lia|left; lia| |left; lia].
    destruct W as (t & _ & _ & [(_ & W)|(_ & W)]); [left; lia|right; lia].
  - intros a b o n o' n' N X Y. pose proof (W _ _ _ X) as WX. pose proof (W _ _ _ Y) as WY.
    destruct a as [k| |i|i], b as [k'| |i'|i']; try congruence; try lia.
    + assert (k <> k') by congruence. lia.
    + destruct WY as (t & _ & _ & [(_ & WY)|(_ & WY)]); lia.
    + destruct WY as (t & _ & _ & [(_ & WY)|(_ & WY)]); lia.
    + destruct WX as (t & _ & _ & [(_ & WX)|(_ & WX)]); lia.
    + destruct WX as (t & _ & _ & [(_ & WX)|(_ & WX)]); lia.
    + assert (i <> i') as NI by congruence. destruct WX as (t & -> & OX & WX), WY as (t' & -> & OY & WY).
      destruct WX as [((pc & IX1) & WX)|(IX1 & WX)], WY as [((pc' & IY1) & WY)|(IY1 & WY)]; try lia.
      * apply (desc_disj _ _ _ E5 FR _ _ _ _ _ _ _ _ IX1 IY1 NI OX OY).
      * apply (asc_disj _ _ _ E6 FS _ _ _ _ _ _ IX1 IY1 NI OX OY).
    + destruct WX as (t & _ & _ & [(_ & WX)|(_ & WX)]); lia.
    + destruct WY as (t & _ & _ & [(_ & WY)|(_ & WY)]); lia.
    + assert (i <> i') as NI by congruence. cbn [extent] in X, Y.
      destruct (nth_error (f_locals f) i) as [[o1|]|] eqn:EO; try discriminate. destruct (nth_error locals i) as [l|] eqn:ET; [|discriminate]. injection X as <- <-.
      destruct (nth_error (f_locals f) i') as [[o2|]|] eqn:EO'; try discriminate. destruct (nth_error locals i') as [l'|] eqn:ET'; [|discriminate]. injection Y as <- <-.
      apply (LD _ _ _ _ _ _ ET EO ET' EO' NI).
  - intros a o n X. destruct a as [k| |i|i]; cbn [extent] in X.
    + destruct (k <? f_saved f)%nat; [|discriminate]. assert (o = -8 * (Z.of_nat k + 1)) as -> by congruence. exists (- (Z.of_nat k + 1)). lia.
    + rewrite E16, E11 in X. destruct vararg; [injection X as <- <-; exists (-22); reflexivity|]. destruct (is_memory respc); [|discriminate]. assert (o = -8 - 8 * Z.of_nat n0) as -> by congruence.
      exists (-1 - Z.of_nat n0). lia.
    + destruct (nth_error (f_offs f) i) as [o1|] eqn:EO; [|discriminate]. destruct (nth_error params i) as [t|] eqn:ET; [|discriminate]. injection X as <- <-.
      destruct (IX _ _ ET) as [[pc I]|I]; cbn [Nat.add] in I.
      * clear - E5 I EO D0 DN. assert (8 | st0 - 8 * Z.of_nat n0) as DB by (apply Z.divide_sub_r; assumption). revert DB E5. generalize (st0 - 8 * Z.of_nat n0) as B. induction R as [|[pc' [k t']] R IH]; intros B DB D; [destruct I|].
        cbn [desc] in D. destruct D as [A1 A2]. assert (8 | B - 8 * eightbytes t') as DB' by (apply Z.divide_sub_r; [exact DB|exists (eightbytes t'); lia]).
        destruct I as [E|I]; [injection E as <- <- <-; assert (o1 = B - 8 * eightbytes t') by congruence; subst; exact DB'|]. apply (IH I _ DB' A2).
      * clear - E6 I EO. assert (8 | 16) as DB by (exists 2; reflexivity). revert DB E6. generalize 16 as B. induction S0 as [|[k t'] S0 IH]; intros B DB D; [destruct I|].
        cbn [asc] in D. destruct D as [A1 A2]. assert (8 | B + 8 * eightbytes t') as DB' by (apply Z.divide_add_r; [exact DB|exists (eightbytes t'); lia]).
        destruct I as [E|I]; [injection E as <- <-; assert (o1 = B) by congruence; subst; exact DB|]. apply (IH I _ DB' A2).
    + destruct (nth_error (f_locals f) i) as [[o1|]|] eqn:EO; try discriminate. destruct (nth_error locals i); [|discriminate]. injection X as <- <-. apply (LM _ _ EO).
Qed.
