(* Assignment to objects: expressions that assign. *)
From Coq Require Import List Bool Arith ZArith Lia.
From Verif Require Import PtrModel PtrSpec PtrProofs PtrMain StoreModel StoreSpec StoreProofs.
Import ListNotations.
Open Scope Z_scope.

Section Code.
Variable G : tagged.
Variable w : world.
Hypothesis GO : tags_ok G.
Hypothesis WO : world_ok w.
Notation gives := (gives G w).
Notation sound := (sound G).
Notation located := (located w).
Notation is_result := (is_result G w).
Notation expr_result := (expr_result G w).

(* the target, which goes only through the pointers there are *)
Definition aimed (a : exp) (v : var) : Prop := kind v = DEREF -> from (through a) v.
Lemma target_ok a t p k T {B} (f : var -> M B) Q : right_code G w a (At t p) ->
  (forall v k' T', (k <= k')%nat -> agree k T T' -> sound k' v -> located T' v t p -> aimed a v -> gives (f v) k' T' Q) ->
  gives (let* x := compile G a in let* v := eval x in f v) k T Q.
Proof.
  intros [_ R] F. eapply gives_bind with (P := fun x k' T' => (exists v, x = as_expr v /\ sound k' v /\ located T' v t p /\ aimed a v)).
  - intros l. destruct (R k T l) as (x & k1 & l1 & T1 & E & L1 & R1 & A1 & v & -> & W & H). exists (as_expr v), k1, l1, T1. repeat (split; [assumption|]).
    exists v. split; [reflexivity|]. split; [exact W|]. split; [exact H|]. intros K. exact (compile_through G a _ _ _ E K (as_expr_identity v)).
  - cbv beta. intros x k1 T1 L1 A1 (v & -> & W & H & D). unfold eval. rewrite as_expr_identity. cbn [e_l as_expr].
    intros l. apply (F v k1 T1 L1 A1 W H D).
Qed.
(* what comes of it *)
Definition done (a : exp) (t : cty) (p z : Z) : store * var -> nat -> temps -> Prop := fun r _ T =>
  perform G w T (fst r) = Some (stored G w t p (wrap z)) /\ vtype (snd r) = t /\ (is_imm (snd r) = true \/ lvalue (snd r) = false) /\
  (apart w a p (size_of G t) -> PtrModel.value G (stored G w t p (wrap z)) T (snd r) = Some (wrap z)).
Lemma is_done a k T v t p z r k' T' : sound k v -> located T v t p -> aimed a v -> scalar t = true -> type_ok G t -> fits t z -> agree k T T' ->
  outcome_is G w v t p (wrap z) r k' T' -> done a t p z r k' T'.
Proof.
  intros W L D S Y F A (P & V & X). split; [exact P|]. split; [exact V|].
  assert (L' : located T' v t p) by exact (result_agree G w k T T' v (At t p) W A L). assert (R : 0 <= p < 2 ^ 64) by (apply (location_range G w k T' v p W), L').
  destruct X as [[K X]|X].
  - split; [left; unfold is_imm; rewrite K; reflexivity|]. intros _. apply X.
  - rewrite X. split; [right; reflexivity|]. intros AP. apply (result_value G w WO k T' v t p z W L' S R F).
    intros K x u SY. specialize (D K). unfold from in D. rewrite SY in D. exact (AP x u D).
Qed.
Lemma assign_done a k T v t p e r u y zero : sound k v -> located T v t p -> aimed a v -> scalar t = true ->
  expr_result r e k T -> result_ok G r -> value_of w r = Some (u, y) -> may_assign t u zero = true ->
  (zero = true -> y = 0 /\ exists v, e = as_expr v /\ is_imm v = true) ->
  gives (eval_assign G v e) k T (done a t p (converted t y)).
Proof.
  intros W L D S X O V A Z. assert (Y : type_ok G t) by (rewrite <- (proj1 L); apply W). intros l.
  destruct (assign_ok G w GO k T v t p e r u y zero W L S X O V A Z l) as (q & k1 & l1 & T1 & E & L1 & R1 & A1 & Q). exists q, k1, l1, T1. repeat (split; [assumption|]).
  apply (is_done a k T v t p (converted t y) q k1 T1 W L D S Y); [apply (converted_fits G); assumption|exact A1|exact Q].
Qed.

Lemma may_scalar t u zero : may_assign t u zero = true -> scalar t = true.
Proof. destruct t, u; cbn; intros H; try discriminate H; reflexivity. Qed.
Lemma one_ok k T : sound k (var_int 1) /\ is_result T (var_int 1) (Val int 1) /\ result_ok G (Val int 1).
Proof.
  split; [split; [cbn; auto|]; cbn; split; [reflexivity|]; split; [discriminate|reflexivity]|]. split; [split; [split; reflexivity|reflexivity]|]. split; [cbn; auto|]. cbn. split; [discriminate|reflexivity].
Qed.
Lemma operation_is o a b : may_compound o = true -> operation G o a b = binop G o a b.
Proof. destruct o; intros H; try discriminate H; reflexivity. Qed.
Lemma operation_ok o k T a b ra rb va vb r : may_compound o = true -> sound k a -> is_result T a ra -> result_ok G ra -> value_of w ra = Some va ->
  sound k b -> is_result T b rb -> result_ok G rb -> value_of w rb = Some vb -> calculate G o va vb = Some r ->
  result_ok G r /\ gives (operation G o a b) k T (expr_result r).
Proof. intros. rewrite operation_is by assumption. eapply binop_ok; eassumption. Qed.
Lemma by_one_is up v : by_one G up v = operation G (if up then Add else Sub) v (var_int 1).
Proof. destruct up; reflexivity. Qed.

(* the new value is computed from the old one, and another operand *)
Lemma update_ok a o k T v t p va b rb vb r u y : may_compound o = true -> sound k v -> located T v t p -> aimed a v -> result_ok G (At t p) -> value_of w (At t p) = Some va ->
  sound k b -> is_result T b rb -> result_ok G rb -> value_of w rb = Some vb -> calculate G o va vb = Some r -> value_of w r = Some (u, y) -> may_assign t u false = true ->
  gives (let* e := operation G o v b in eval_assign G v e) k T (done a t p (converted t y)).
Proof.
  intros MO W L D O V Wb Hb Ob Vb C E A. destruct (operation_ok o k T v b (At t p) rb va vb r MO W L O V Wb Hb Ob Vb C) as [Or GE].
  eapply gives_bind; [exact GE|]. cbv beta. intros e k1 T1 L1 A1 X.
  assert (L' : located T1 v t p) by exact (result_agree G w k T T1 v (At t p) W A1 L).
  eapply assign_done with (zero := false); [exact (sound_more _ _ _ _ L1 W)|exact L'|exact D|exact (may_scalar _ _ _ A)|exact X|exact Or|exact E|exact A|discriminate].
Qed.
Definition old (s : assignment) : option (cty * Z) := match s with Postfix _ a => StoreSpec.value G w a | _ => None end.
Definition finished (s : assignment) (t : cty) (p z : Z) : store * var -> nat -> temps -> Prop := fun r k T =>
  match s with
  | Postfix _ a =>
      perform G w T (fst r) = Some (stored G w t p (wrap z)) /\ vtype (snd r) = t /\ (is_imm (snd r) = true \/ lvalue (snd r) = false) /\
      exists z', StoreSpec.value G w a = Some (t, z') /\ forall w', PtrModel.value G w' T (snd r) = Some (wrap z')
  | _ => done (left s) t p z r k T
  end.
Theorem assignment_ok s t p z k T : types_of G s -> assigns G w s t p z -> gives (compile_assignment G s) k T (finished s t p z).
Proof.
  intros Y (D & u & y & C & A & ->). destruct s as [a b|o a b|up a|up a]; cbn [left types_of zero computed finished compile_assignment] in *.
  - destruct Y as [Ya Yb]. apply into_some in C as (rb & Db & Eb). pose proof (compile_ok G w GO WO a _ Ya D) as Ra. pose proof (compile_ok G w GO WO b _ Yb Db) as [Ob Rb].
    eapply target_ok; [exact Ra|]. intros v k1 T1 _ _ W L AI.
    destruct (is_zero b) eqn:ZB.
    + destruct b as [|tb zb| | | | | | | |]; try discriminate ZB. destruct tb as [|sb gb| | |]; try discriminate ZB. destruct zb; try discriminate ZB.
      cbn [denotes] in Db. destruct (fitsb (TInt sb gb) 0); [|discriminate Db]. injection Db as <-. cbn in Eb. injection Eb as <- <-.
      pose proof (Rb k1 T1) as X. cbn [compile] in X |- *. apply ret_inv in X.
      eapply gives_bind; [apply gives_ret with (P := fun x k' T' => x = as_expr (var_numeric (TInt sb gb) (convert 0 (TInt sb gb))) /\ k' = k1 /\ T' = T1); auto|].
      cbv beta. intros x k2 T2 _ _ (-> & -> & ->).
      eapply assign_done with (zero := true); [exact W|exact L|exact AI|exact (may_scalar _ _ _ A)|exact X|exact Ob|reflexivity|exact A|].
      intros _. split; [reflexivity|]. eexists. split; reflexivity.
    + eapply gives_bind; [apply Rb|]. cbv beta. intros e k2 T2 L2 A2 X. assert (L' : located T2 v t p) by exact (result_agree G w k1 T1 T2 v (At t p) W A2 L).
      eapply assign_done with (zero := false); [exact (sound_more _ _ _ _ L2 W)|exact L'|exact AI|exact (may_scalar _ _ _ A)|exact X|exact Ob|exact Eb|exact A|discriminate].
  - destruct Y as [Ya Yb]. apply into_some in C as (va & Va & C). apply into_some in C as (vb & Vb & C). destruct (may_compound o) eqn:MO; [|discriminate C]. apply into_some in C as (r & Cr & Er).
    unfold StoreSpec.value in Va. rewrite D in Va. cbn [into] in Va. apply into_some in Vb as (rb & Db & Vb).
    pose proof (compile_ok G w GO WO a _ Ya D) as Ra. pose proof (compile_ok G w GO WO b _ Yb Db) as Rb.
    eapply target_ok; [exact Ra|]. intros v k1 T1 _ _ W L AI. eapply operand; [exact Rb|]. intros x k2 T2 L2 A2 Wx Hx.
    assert (L' : located T2 v t p) by exact (result_agree G w k1 T1 T2 v (At t p) W A2 L).
    eapply update_ok; [exact MO|exact (sound_more _ _ _ _ L2 W)|exact L'|exact AI|exact (proj1 Ra)|exact Va|exact Wx|exact Hx|exact (proj1 Rb)|exact Vb|exact Cr|exact Er|exact A].
  - apply into_some in C as (va & Va & C). apply into_some in C as (r & Cr & Er). unfold StoreSpec.value in Va. rewrite D in Va. cbn [into] in Va.
    pose proof (compile_ok G w GO WO a _ Y D) as Ra. eapply target_ok; [exact Ra|]. intros v k1 T1 _ _ W L AI. rewrite by_one_is. destruct (one_ok k1 T1) as (W1 & H1 & O1).
    eapply update_ok; [destruct up; reflexivity|exact W|exact L|exact AI|exact (proj1 Ra)|exact Va|exact W1|exact H1|exact O1|reflexivity|exact Cr|exact Er|exact A].
  - apply into_some in C as (va & Va & C). apply into_some in C as (r & Cr & Er). unfold StoreSpec.value in Va. rewrite D in Va. cbn [into] in Va.
    pose proof (compile_ok G w GO WO a _ Y D) as Ra. eapply target_ok; [exact Ra|]. intros v k1 T1 _ _ W L AI. pose proof (may_scalar _ _ _ A) as S.
    assert (VA : va = (t, snd va)).
    { destruct t; try discriminate S; cbn in Va; injection Va as <-; reflexivity. }
    rewrite VA in Va. destruct (rvalue_ok G w GO k1 T1 v (At t p) t (snd va) W L (result_fits _ _ (proj1 Ra)) Va) as [N RV].
    unfold eval_copy. eapply gives_bind with (P := fun c k' T' => sound k' v /\ located T' v t p /\ sound k' c /\ PtrProofs.holds G w T' c t (wrap (snd va)) /\ lvalue c = false /\ exists n, c = mkV DIRECT t (Some (mkSym (Tmp n) t)) 0 0 false).
    { assert (X : gives (let* v := rvalue G v in assign_tmp (vtype v) (as_expr v)) k1 T1 (fun c k' T' => sound k' c /\ PtrProofs.holds G w T' c t (wrap (snd va)) /\ exists n, c = mkV DIRECT t (Some (mkSym (Tmp n) t)) 0 0 false)).
      { eapply gives_bind; [exact RV|]. cbv beta. intros x k2 T2 _ _ [Wx [Ex Vx]]. rewrite Ex. eapply gives_imp; [apply (new_tmp G w t (as_expr x) k2 T2 (wrap (snd va)))|].
        - rewrite <- Ex. apply Wx.
        - exact S.
        - unfold meaning. cbn [e_l e_op e_type as_expr]. rewrite Vx, Ex. f_equal. apply (num_convert G). exact N.
        - apply (num_convert G). exact N.
        - cbv beta. intros c k3 T3 _ (-> & Wc & Hc). split; [exact Wc|]. split; [exact Hc|]. eexists. reflexivity. }
      intros l. destruct (X l) as (c & k2 & l2 & T2 & E & L2 & R2 & A2 & Wc & Hc & n & ->). exists (mkV DIRECT t (Some (mkSym (Tmp n) t)) 0 0 false), k2, l2, T2. repeat (split; [assumption|]).
      split; [exact (sound_more _ _ _ _ L2 W)|]. split; [exact (result_agree G w k1 T1 T2 v (At t p) W A2 L)|]. split; [exact Wc|]. split; [exact Hc|]. split; [reflexivity|]. eexists. reflexivity. }
    cbv beta. intros c k2 T2 _ _ (W2 & L2 & Wc & Hc & LV & n & CE). rewrite by_one_is. destruct (one_ok k2 T2) as (W1 & H1 & O1).
    assert (U : gives (let* e := operation G (if up then Add else Sub) v (var_int 1) in eval_assign G v e) k2 T2 (done a t p (converted t y))).
    { eapply update_ok; [destruct up; reflexivity|exact W2|exact L2|exact AI|exact (proj1 Ra)|exact Va|exact W1|exact H1|exact O1|reflexivity|rewrite VA in Cr; exact Cr|exact Er|exact A]. }
    intros l. destruct (U l) as (q & k3 & l3 & T3 & E & K3 & R3 & A3 & P & _ & _ & _). exists (fst q, c), k3, l3, T3. split.
    { unfold bind in *. destruct (operation _ _ _ _ _) as [[e [k4 l4]]| |]; try discriminate E. rewrite E. reflexivity. }
    split; [exact K3|]. split; [exact R3|]. split; [exact A3|]. cbn [fst snd]. split; [exact P|]. split; [apply Hc|]. split; [right; exact LV|].
    exists (snd va). split; [unfold StoreSpec.value; rewrite D; exact Va|]. intros w'. pose proof (holds_agree G w k2 T2 T3 c t _ Wc A3 Hc) as [_ H3]. rewrite <- H3. rewrite CE. reflexivity.
Qed.
End Code.
