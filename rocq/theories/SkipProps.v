(* C25: skipping empty blocks. *)
From Coq Require Import List Bool Arith Lia.
From Verif Require Import SkipModel SkipSpec DfsProofs.
Import ListNotations.

Lemma skippable_inv : forall x, skippable x = true -> count x = 0 /\ jump1 x = None /\ exists t, jump0 x = Some t.
Proof. intros [[|c] [t|] [u|]]; simpl; intro H; try discriminate; eauto. Qed.
Lemma set_same : forall g b x, set_block g b x b = x.
Proof. intros. unfold set_block. rewrite Nat.eqb_refl. reflexivity. Qed.
Lemma set_other : forall g b x c, c <> b -> set_block g b x c = g c.
Proof. intros. unfold set_block. rewrite (proj2 (Nat.eqb_neq c b)); auto. Qed.

(* One redirection of a jump of b from t to the target of t. *)
Inductive redirect (g : graph) (b : nat) : graph -> Prop :=
| redirect0 : forall t t2, jump0 (g b) = Some t -> skippable (g t) = true -> jump0 (g t) = Some t2 ->
    redirect g b (set_block g b (mk_blk (count (g b)) (Some t2) (jump1 (g b))))
| redirect1 : forall t t2, jump0 (g b) <> None -> jump1 (g b) = Some t -> skippable (g t) = true -> jump0 (g t) = Some t2 ->
    redirect g b (set_block g b (mk_blk (count (g b)) (jump0 (g b)) (Some t2))).

Lemma redirect_skippable : forall g b g1, redirect g b g1 -> forall x, skippable (g1 x) = skippable (g x).
Proof.
  intros g b g1 [t t2 J S J2|t t2 N J S J2] x; (destruct (Nat.eq_dec x b) as [->|NE]; [rewrite set_same|rewrite set_other by exact NE; reflexivity]);
    unfold skippable; cbn.
  - rewrite J. reflexivity.
  - rewrite J. destruct (jump0 (g b)); reflexivity.
Qed.
Lemma redirect_reach : forall g b g1, redirect g b g1 -> forall x u, reach g x u <-> reach g1 x u.
Proof.
  intros g b g1 R x u. pose proof (redirect_skippable _ _ _ R) as SK. split; intro H.
  - induction H as [x NS|x t' u S J H IH]; [apply reach_here; rewrite SK; exact NS|].
    destruct R as [t t2 Jb St J2|t t2 N Jb St J2].
    + destruct (Nat.eq_dec x b) as [->|NE].
      * assert (t' = t) by congruence. subst t'. destruct (Nat.eq_dec t b) as [->|NT].
        -- exact IH.
        -- inversion IH as [? NS|? t3 ? ? J3 IH']; subst; [rewrite SK in NS; congruence|].
           rewrite set_other in J3 by exact NT. apply (reach_next _ _ t2); [rewrite SK; exact S|rewrite set_same; reflexivity|congruence].
      * apply (reach_next _ _ t'); [rewrite SK; exact S|rewrite set_other by exact NE; exact J|exact IH].
    + destruct (Nat.eq_dec x b) as [->|NE].
      * apply skippable_inv in S as (_ & S & _). congruence.
      * apply (reach_next _ _ t'); [rewrite SK; exact S|rewrite set_other by exact NE; exact J|exact IH].
  - induction H as [x NS|x t' u S J H IH]; [apply reach_here; rewrite <- SK; exact NS|]. rewrite SK in S.
    destruct R as [t t2 Jb St J2|t t2 N Jb St J2].
    + destruct (Nat.eq_dec x b) as [->|NE].
      * rewrite set_same in J. injection J as <-. apply (reach_next _ _ t _ S Jb). apply (reach_next _ _ t2 _ St J2). exact IH.
      * rewrite set_other in J by exact NE. apply (reach_next _ _ t'); assumption.
    + destruct (Nat.eq_dec x b) as [->|NE].
      * apply skippable_inv in S as (_ & S & _). congruence.
      * rewrite set_other in J by exact NE. apply (reach_next _ _ t'); assumption.
Qed.

Section Run.
Variable St : Type.
Variable body : nat -> St -> St.
Variable cond : nat -> St -> St * bool.
Notation run := (run St body cond).

Lemma run_start : forall g b c, (forall u, reach g b u <-> reach g c u) -> forall n s tr f, run g n b s tr f -> run g n c s tr f.
Proof.
  intros g b c E n s tr f H. destruct H.
  - apply run_stop.
  - apply run_return; [apply E; assumption|assumption].
  - eapply run_jump; [apply E; eassumption|eassumption..].
  - eapply run_branch; [apply E; eassumption|eassumption..].
Qed.
Lemma reach_skip : forall g t t2, skippable (g t) = true -> jump0 (g t) = Some t2 -> forall u, reach g t u <-> reach g t2 u.
Proof.
  intros g t t2 S J u. split; intro H.
  - inversion H; subst; congruence.
  - eapply reach_next; eassumption.
Qed.
Lemma redirect_run : forall g b g1, redirect g b g1 -> forall n x s tr f, run g n x s tr f <-> run g1 n x s tr f.
Proof.
  intros g b g1 R. pose proof (redirect_reach _ _ _ R) as RE.
  (* the jumps of a block lead to the same places *)
  assert (J0 : forall u t, jump0 (g u) = Some t -> exists t', jump0 (g1 u) = Some t' /\ forall v, reach g t v <-> reach g1 t' v).
  { intros u t J. destruct R as [t1 t2 Jb Sk J2|t1 t2 N Jb Sk J2]; (destruct (Nat.eq_dec u b) as [->|NE]; [rewrite set_same|rewrite set_other by exact NE; eauto]); cbn.
    - exists t2. split; [reflexivity|]. intro v. assert (t = t1) by congruence. subst. rewrite (reach_skip g t1 t2 Sk J2). apply RE.
    - eauto. }
  assert (J1 : forall u t, jump1 (g u) = Some t -> exists t', jump1 (g1 u) = Some t' /\ forall v, reach g t v <-> reach g1 t' v).
  { intros u t J. destruct R as [t1 t2 Jb Sk J2|t1 t2 N Jb Sk J2]; (destruct (Nat.eq_dec u b) as [->|NE]; [rewrite set_same|rewrite set_other by exact NE; eauto]); cbn.
    - eauto.
    - exists t2. split; [reflexivity|]. intro v. assert (t = t1) by congruence. subst. rewrite (reach_skip g t1 t2 Sk J2). apply RE. }
  assert (N0 : forall u, jump0 (g u) = None <-> jump0 (g1 u) = None).
  { intro u. destruct R as [t1 t2 Jb Sk J2|t1 t2 N Jb Sk J2]; (destruct (Nat.eq_dec u b) as [->|NE]; [rewrite set_same|rewrite set_other by exact NE; tauto]); cbn; [rewrite Jb; split; discriminate|tauto]. }
  assert (N1 : forall u, jump1 (g u) = None <-> jump1 (g1 u) = None).
  { intro u. destruct R as [t1 t2 Jb Sk J2|t1 t2 N Jb Sk J2]; (destruct (Nat.eq_dec u b) as [->|NE]; [rewrite set_same|rewrite set_other by exact NE; tauto]); cbn; [tauto|rewrite Jb; split; discriminate]. }
  intros n x s tr f. split; intro H.
  - assert (G : forall n x s tr f, run g n x s tr f -> forall y, (forall v, reach g x v <-> reach g1 y v) -> run g1 n y s tr f).
    { clear n x s tr f H. induction 1 as [x s|n x u s R1 J|n x u t s tr f R1 Ja Jb H IH|n x u t v s s' c tr f R1 Ja Jb C H IH]; intros y E.
      - apply run_stop.
      - apply run_return; [apply E; exact R1|apply N0; exact J].
      - destruct (J0 _ _ Ja) as (t' & Ja' & Et). eapply run_jump; [apply E; exact R1|exact Ja'|apply N1; exact Jb|]. apply IH. exact Et.
      - destruct (J0 _ _ Ja) as (t' & Ja' & Et). destruct (J1 _ _ Jb) as (v' & Jb' & Ev).
        eapply run_branch; [apply E; exact R1|exact Ja'|exact Jb'|exact C|]. apply IH. destruct c; assumption. }
    apply (G _ _ _ _ _ H). apply RE.
  - assert (G : forall n y s tr f, run g1 n y s tr f -> forall x, (forall v, reach g x v <-> reach g1 y v) -> run g n x s tr f).
    { clear n x s tr f H. induction 1 as [y s|n y u s R1 J|n y u t' s tr f R1 Ja Jb H IH|n y u t' v' s s' c tr f R1 Ja Jb C H IH]; intros x E.
      - apply run_stop.
      - apply run_return; [apply E; exact R1|apply N0; exact J].
      - destruct (jump0 (g u)) as [t|] eqn:Jg; [|apply N0 in Jg; congruence]. destruct (J0 _ _ Jg) as (t1 & Ja' & Et).
        eapply run_jump; [apply E; exact R1|exact Jg|apply N1; exact Jb|]. apply IH. assert (t1 = t') by congruence. subst. exact Et.
      - destruct (jump0 (g u)) as [t|] eqn:Jg; [|apply N0 in Jg; congruence]. destruct (J0 _ _ Jg) as (t1 & Ja' & Et).
        destruct (jump1 (g u)) as [v|] eqn:Kg; [|apply N1 in Kg; congruence]. destruct (J1 _ _ Kg) as (v1 & Jb' & Ev).
        assert (t1 = t') by congruence. assert (v1 = v') by congruence. subst.
        eapply run_branch; [apply E; exact R1|exact Jg|exact Kg|exact C|]. apply IH. destruct c; assumption. }
    apply (G _ _ _ _ _ H). apply RE.
Qed.

Lemma follow0_run : forall fuel g b g', follow0 fuel g b = Some g' ->
  (forall n x s tr f, run g n x s tr f <-> run g' n x s tr f) /\ (forall x u, reach g x u <-> reach g' x u) /\
  (forall x, x <> b -> g' x = g x) /\ (jump0 (g b) <> None -> jump0 (g' b) <> None) /\ jump1 (g' b) = jump1 (g b) /\ forall x, skippable (g' x) = skippable (g x).
Proof.
  induction fuel as [|k IH]; intros g b g' H; [discriminate|]. cbn [follow0] in H.
  destruct (jump0 (g b)) as [t|] eqn:J.
  - destruct (skippable (g t)) eqn:S.
    + destruct (skippable_inv _ S) as (_ & _ & t2 & J2). rewrite J2 in H.
      pose proof (redirect0 g b t t2 J S J2) as R. apply IH in H as (A & B & C & D & E & F).
      split; [intros; rewrite (redirect_run _ _ _ R); apply A|].
      split; [intros; rewrite (redirect_reach _ _ _ R); apply B|].
      split; [intros x X; rewrite C, set_other; auto|].
      split; [intros _; apply D; rewrite set_same; discriminate|].
      split; [rewrite E, set_same; reflexivity|]. intro x. rewrite F. apply (redirect_skippable _ _ _ R).
    + inversion H; subst. rewrite J. repeat split; auto.
  - inversion H; subst. rewrite J. repeat split; auto.
Qed.
Lemma follow1_run : forall fuel g b g', jump0 (g b) <> None -> follow1 fuel g b = Some g' ->
  (forall n x s tr f, run g n x s tr f <-> run g' n x s tr f) /\ (forall x u, reach g x u <-> reach g' x u).
Proof.
  induction fuel as [|k IH]; intros g b g' N H; [discriminate|]. cbn [follow1] in H.
  destruct (jump1 (g b)) as [t|] eqn:J; [|inversion H; subst; split; tauto].
  destruct (skippable (g t)) eqn:S; [|inversion H; subst; split; tauto].
  destruct (skippable_inv _ S) as (_ & _ & t2 & J2). rewrite J2 in H.
  pose proof (redirect1 g b t t2 N J S J2) as R. apply IH in H as (A & B); [|rewrite set_same; exact N].
  split; intros; [rewrite (redirect_run _ _ _ R); apply A|rewrite (redirect_reach _ _ _ R); apply B].
Qed.
Lemma skip_block_run : forall fuel g b g', skip_block fuel g b = Some g' ->
  (forall n x s tr f, run g n x s tr f <-> run g' n x s tr f) /\ (forall x u, reach g x u <-> reach g' x u).
Proof.
  intros fuel g b g' H. unfold skip_block in H. destruct (jump0 (g b)) as [t|] eqn:J; [|inversion H; subst; split; tauto].
  destruct (follow0 fuel g b) as [g1|] eqn:F; [|discriminate].
  apply follow0_run in F as (A & B & _ & D & _). apply follow1_run in H as (A2 & B2); [|apply D; congruence].
  split; intros; [rewrite A; apply A2|rewrite B; apply B2].
Qed.
Lemma skip_run : forall l fuel g g', skip_empty_blocks fuel g l = Some g' -> forall n x s tr f, run g n x s tr f <-> run g' n x s tr f.
Proof.
  induction l as [|b l IH]; intros fuel g g' H n x s tr f; cbn [skip_empty_blocks] in H; [inversion H; subst; tauto|].
  destruct (skip_block fuel g b) as [g1|] eqn:S; [|discriminate].
  apply skip_block_run in S as (A & _). rewrite A. apply (IH _ _ _ H).
Qed.
End Run.

(* When the pass ends, every execution visits the same non-empty blocks in the same states as before: all finite parts of
   executions, and the final state of those that return. *)
Theorem C25_execution : forall St (body : nat -> St -> St) (cond : nat -> St -> St * bool) fuel g l g',
  skip_empty_blocks fuel g l = Some g' ->
  forall n b s tr f, run St body cond g n b s tr f <-> run St body cond g' n b s tr f.
Proof. intros until g'. intro H. exact (skip_run St body cond l fuel g g' H). Qed.
Print Assumptions C25_execution.

(* ---- Termination ---- *)
Inductive chain (g : graph) : nat -> nat -> nat -> Prop :=
| chain_here : forall b, skippable (g b) = false -> chain g 0 b b
| chain_next : forall k b t u, skippable (g b) = true -> jump0 (g b) = Some t -> chain g k t u -> chain g (S k) b u.
Lemma chain_det : forall g k b u, chain g k b u -> forall k' u', chain g k' b u' -> k = k'.
Proof.
  induction 1 as [b NS|k b t u S J H IH]; intros k' u' H'; inversion H'; subst; try congruence.
  f_equal. eapply IH. assert (t = t0) by congruence. subst. eassumption.
Qed.
Lemma reach_chain : forall g b u, reach g b u <-> exists k, chain g k b u.
Proof.
  intros g b u. split.
  - induction 1 as [b NS|b t u S J H (k & IH)]; [exists 0; apply chain_here; exact NS|exists (Datatypes.S k); eapply chain_next; eassumption].
  - intros (k & H). induction H; [apply reach_here; assumption|eapply reach_next; eassumption].
Qed.

Lemma follow0_mono : forall fuel g b g' m, follow0 fuel g b = Some g' -> fuel <= m -> follow0 m g b = Some g'.
Proof.
  induction fuel as [|k IH]; intros g b g' m H L; [discriminate|]. destruct m as [|m]; [lia|]. cbn [follow0] in *.
  destruct (jump0 (g b)); [|exact H]. destruct (skippable _); [|exact H]. apply IH; [exact H|lia].
Qed.
Lemma follow1_mono : forall fuel g b g' m, follow1 fuel g b = Some g' -> fuel <= m -> follow1 m g b = Some g'.
Proof.
  induction fuel as [|k IH]; intros g b g' m H L; [discriminate|]. destruct m as [|m]; [lia|]. cbn [follow1] in *.
  destruct (jump1 (g b)); [|exact H]. destruct (skippable _); [|exact H]. apply IH; [exact H|lia].
Qed.

Lemma follow0_ends : forall g k t u, chain g k t u -> forall b gc,
  (forall x, x <> b -> gc x = g x) -> (forall x, skippable (gc x) = skippable (g x)) -> jump0 (gc b) = Some t ->
  (skippable (g b) = true -> exists j, forall k u, chain g k t u -> chain g (S j + k) b u) ->
  exists fuel g', follow0 fuel gc b = Some g'.
Proof.
  induction 1 as [t NS|k t t2 u S J H IH]; intros b gc E SK JB LP.
  - exists 1, gc. cbn. rewrite JB, SK, NS. reflexivity.
  - assert (NT : t <> b).
    { intro X. subst t. destruct (LP S) as (j & L). pose proof (chain_next _ _ _ _ _ S J H) as C.
      pose proof (chain_det _ _ _ _ C _ _ (L _ _ C)). lia. }
    destruct (IH b (set_block gc b (mk_blk (count (gc b)) (jump0 (gc t)) (jump1 (gc b))))) as (f & g' & F).
    + intros x X. rewrite set_other by exact X. apply E. exact X.
    + intro x. destruct (Nat.eq_dec x b) as [->|X]; [|rewrite set_other by exact X; apply SK]. rewrite set_same, <- SK.
      unfold skippable. cbn. rewrite JB, (E t NT), J. reflexivity.
    + rewrite set_same. cbn. rewrite (E t NT). exact J.
    + intro SB. destruct (LP SB) as (j & L). exists (Datatypes.S j). intros k0 u0 C. replace (Datatypes.S (Datatypes.S j) + k0) with (Datatypes.S j + Datatypes.S k0) by lia.
      apply L. eapply chain_next; eassumption.
    + exists (Datatypes.S f), g'. cbn [follow0]. rewrite JB, SK, S. exact F.
Qed.
Lemma follow1_ends : forall g k t u, chain g k t u -> forall b gc, jump1 (gc b) = Some t ->
  (forall x, x <> b -> gc x = g x) -> (forall x, skippable (gc x) = skippable (g x)) ->
  exists fuel g', follow1 fuel gc b = Some g'.
Proof.
  induction 1 as [t NS|k t t2 u S J H IH]; intros b gc JB E SK.
  - exists 1, gc. cbn. rewrite JB, SK, NS. reflexivity.
  - assert (NT : t <> b).
    { intro X. subst t. rewrite <- SK in S. apply skippable_inv in S as (_ & S & _). congruence. }
    destruct (IH b (set_block gc b (mk_blk (count (gc b)) (jump0 (gc b)) (jump0 (gc t))))) as (f & g' & F).
    + rewrite set_same. cbn. rewrite (E t NT). exact J.
    + intros x X. rewrite set_other by exact X. apply E. exact X.
    + intro x. destruct (Nat.eq_dec x b) as [->|X]; [|rewrite set_other by exact X; apply SK]. rewrite set_same, <- SK.
      unfold skippable. cbn. rewrite JB, (E t NT), J. destruct (jump0 (gc b)); reflexivity.
    + exists (Datatypes.S f), g'. cbn [follow1]. rewrite JB, SK, S. exact F.
Qed.
Definition reach_g (g : graph) (t : nat) : Prop := exists u, reach g t u.
Lemma follow0_needs : forall fuel g b g' t, follow0 fuel g b = Some g' -> jump0 (g b) = Some t -> reach_g g t.
Proof.
  induction fuel as [|k IH]; intros g b g' t H J; [discriminate|]. cbn [follow0] in H. rewrite J in H.
  destruct (skippable (g t)) eqn:S; [|exists t; apply reach_here; exact S].
  destruct (skippable_inv _ S) as (_ & _ & t2 & J2). rewrite J2 in H.
  destruct (IH _ _ _ t2 H) as (u & U); [rewrite set_same; reflexivity|]. exists u.
  apply (redirect_reach _ _ _ (redirect0 g b t t2 J S J2)) in U. eapply reach_next; eassumption.
Qed.
Lemma follow1_needs : forall fuel g b g' t, jump0 (g b) <> None -> follow1 fuel g b = Some g' -> jump1 (g b) = Some t -> reach_g g t.
Proof.
  induction fuel as [|k IH]; intros g b g' t N H J; [discriminate|]. cbn [follow1] in H. rewrite J in H.
  destruct (skippable (g t)) eqn:S; [|exists t; apply reach_here; exact S].
  destruct (skippable_inv _ S) as (_ & _ & t2 & J2). rewrite J2 in H.
  apply IH with (t := t2) in H; [|rewrite set_same; exact N|rewrite set_same; reflexivity]. destruct H as (u & U). exists u.
  apply (redirect_reach _ _ _ (redirect1 g b t t2 N J S J2)) in U. eapply reach_next; eassumption.
Qed.

(* Every jump of b leads to a block that does something. *)
Definition leads (g : graph) (b : nat) : Prop :=
  forall t, jump0 (g b) = Some t \/ jump0 (g b) <> None /\ jump1 (g b) = Some t -> reach_g g t.

Lemma skip_block_ends : forall g b, leads g b -> exists fuel g', skip_block fuel g b = Some g'.
Proof.
  intros g b L. unfold skip_block. destruct (jump0 (g b)) as [t|] eqn:J; [|exists 0, g; reflexivity].
  destruct (L t (or_introl J)) as (u & U). apply reach_chain in U as (k & C).
  destruct (follow0_ends g k t u C b g) as (f & g1 & F); auto.
  { intro S. exists 0. intros k0 u0 C0. eapply chain_next; eassumption. }
  destruct (follow0_run unit (fun _ s => s) (fun _ s => (s, true)) _ _ _ _ F) as (_ & R & E & _ & J1 & SK).
  destruct (jump1 (g b)) as [v|] eqn:K.
  - destruct (L v) as (w & W); [right; split; [congruence|exact K]|]. apply reach_chain in W as (k2 & C2).
    assert (C3 : chain g1 k2 v w).
    { assert (K' : jump1 (g b) <> None) by congruence. clear - C2 E SK K'. induction C2 as [x NS|k x t u S J C IH]; [apply chain_here; rewrite SK; exact NS|].
      eapply chain_next; [rewrite SK; exact S| |exact IH]. rewrite E; [exact J|]. intro. subst. apply skippable_inv in S as (_ & S & _). congruence. }
    destruct (follow1_ends g1 k2 v w C3 b g1) as (f2 & g2 & F2); auto.
    exists (f + f2), g2. rewrite (follow0_mono _ _ _ _ _ F) by lia. apply (follow1_mono _ _ _ _ _ F2). lia.
  - exists (S f), g1. rewrite (follow0_mono _ _ _ _ _ F) by lia. cbn. rewrite J1. reflexivity.
Qed.
Lemma skip_block_mono : forall fuel g b g' m, skip_block fuel g b = Some g' -> fuel <= m -> skip_block m g b = Some g'.
Proof.
  intros fuel g b g' m H L. unfold skip_block in *. destruct (jump0 (g b)); [|exact H].
  destruct (follow0 fuel g b) as [g1|] eqn:F; [|discriminate]. rewrite (follow0_mono _ _ _ _ _ F L). apply (follow1_mono _ _ _ _ _ H L).
Qed.
Lemma skip_mono : forall l fuel g g' m, skip_empty_blocks fuel g l = Some g' -> fuel <= m -> skip_empty_blocks m g l = Some g'.
Proof.
  induction l as [|b l IH]; intros fuel g g' m H L; cbn [skip_empty_blocks] in *; [exact H|].
  destruct (skip_block fuel g b) as [g1|] eqn:S; [|discriminate]. rewrite (skip_block_mono _ _ _ _ _ S L). eapply IH; eassumption.
Qed.
Lemma skip_block_needs : forall fuel g b g', skip_block fuel g b = Some g' -> leads g b.
Proof.
  intros fuel g b g' H t [J|[N J]]; unfold skip_block in H.
  - rewrite J in H. destruct (follow0 fuel g b) as [g1|] eqn:F; [|discriminate]. eapply follow0_needs; eassumption.
  - destruct (jump0 (g b)) as [t0|] eqn:J0; [|congruence]. destruct (follow0 fuel g b) as [g1|] eqn:F; [|discriminate].
    destruct (follow0_run unit (fun _ s => s) (fun _ s => (s, true)) _ _ _ _ F) as (_ & R & E & D & J1 & SK).
    destruct (follow1_needs fuel g1 b g' t) as (u & U); [apply D; congruence|exact H|congruence|]. exists u. apply R. exact U.
Qed.
(* The other blocks keep leading somewhere, or not. *)
Lemma skip_block_leads : forall fuel g b g', skip_block fuel g b = Some g' -> forall c, leads g c <-> leads g' c.
Proof.
  intros fuel g b g' H c. pose proof (skip_block_needs _ _ _ _ H) as L.
  assert (O : forall x, x <> b -> g' x = g x).
  { unfold skip_block in H. destruct (jump0 (g b)) as [t|] eqn:J; [|inversion H; subst; auto].
    destruct (follow0 fuel g b) as [g1|] eqn:F; [|discriminate].
    destruct (follow0_run unit (fun _ s => s) (fun _ s => (s, true)) _ _ _ _ F) as (_ & _ & E & _).
    intros x X. rewrite <- (E x X). revert H X. clear. revert g1. induction fuel as [|k IH]; intros g1 H X; [discriminate|]. cbn [follow1] in H.
    destruct (jump1 (g1 b)); [|inversion H; reflexivity]. destruct (skippable _); [|inversion H; reflexivity]. rewrite (IH _ H X), set_other; auto. }
  pose proof (skip_block_run unit (fun _ s => s) (fun _ s => (s, true)) _ _ _ _ H) as (_ & R).
  assert (RG : forall t, reach_g g t <-> reach_g g' t) by (intro t; split; intros (u & U); exists u; apply R; exact U).
  destruct (Nat.eq_dec c b) as [->|NE].
  - split; [|intros _; exact L]. intros _.
    unfold skip_block in H. destruct (jump0 (g b)) as [t0|] eqn:J; [|inversion H; subst; exact L].
    destruct (follow0 fuel g b) as [g1|] eqn:F; [|discriminate].
    destruct (follow0_run unit (fun _ s => s) (fun _ s => (s, true)) _ _ _ _ F) as (_ & R1 & E & D & J1 & SK).
    assert (F0 : forall t, jump0 (g1 b) = Some t -> skippable (g1 t) = false).
    { clear - F. revert g F. induction fuel as [|k IH]; intros g F t T; [discriminate|]. cbn [follow0] in F.
      destruct (jump0 (g b)) eqn:J; [|inversion F; subst; congruence]. destruct (skippable _) eqn:S; [eapply IH; eassumption|].
      inversion F; subst. congruence. }
    assert (F1 : forall t, jump1 (g' b) = Some t -> skippable (g' t) = false).
    { clear - H. revert g1 H. induction fuel as [|k IH]; intros g1 H t T; [discriminate|]. cbn [follow1] in H.
      destruct (jump1 (g1 b)) eqn:J; [|inversion H; subst; congruence]. destruct (skippable _) eqn:S; [eapply IH; eassumption|].
      inversion H; subst. congruence. }
    assert (SAME : jump0 (g' b) = jump0 (g1 b) /\ forall x, skippable (g' x) = skippable (g1 x)).
    { assert (N1 : jump0 (g1 b) <> None) by (apply D; congruence). clear - H N1. revert g1 H N1.
      induction fuel as [|k IH]; intros g1 H N1; [discriminate|]. cbn [follow1] in H.
      destruct (jump1 (g1 b)) as [v|] eqn:J; [|inversion H; subst; auto]. destruct (skippable (g1 v)) eqn:S; [|inversion H; subst; auto].
      destruct (skippable_inv _ S) as (_ & _ & t2 & J2). rewrite J2 in H.
      pose proof (redirect1 g1 b v t2 N1 J S J2) as RD.
      destruct (IH _ H) as [A B]; [rewrite set_same; exact N1|]. rewrite set_same in A. split; [exact A|].
      intro x. rewrite B. apply (redirect_skippable _ _ _ RD). }
    destruct SAME as [S0 SK2]. intros t [T|[_ T]]; exists t; apply reach_here; [rewrite SK2; apply F0; congruence|apply F1; exact T].
  - split; intros X t T; apply RG; apply X; rewrite (O c NE) in *; exact T.
Qed.

(* The pass ends exactly when every jump of the blocks of the function leads, through empty blocks, to a block that does
   something. *)
Theorem C25_termination : forall g l, (exists fuel g', skip_empty_blocks fuel g l = Some g') <->
  (forall b, In b l -> forall t, jump0 (g b) = Some t \/ jump0 (g b) <> None /\ jump1 (g b) = Some t -> exists u, reach g t u).
Proof.
  intros g l. revert g. induction l as [|b l IH]; intro g.
  - split; [intros _ b []|]. intros _. exists 0, g. reflexivity.
  - split.
    + intros (fuel & g' & H) c [->|I]; cbn [skip_empty_blocks] in H; (destruct (skip_block fuel g _) as [g1|] eqn:S; [|discriminate]).
      * exact (skip_block_needs _ _ _ _ S).
      * apply (skip_block_leads _ _ _ _ S). exact (proj1 (IH g1) (ex_intro _ fuel (ex_intro _ g' H)) c I).
    + intro A. destruct (skip_block_ends g b (A b (or_introl eq_refl))) as (f & g1 & S).
      destruct (proj2 (IH g1)) as (f2 & g2 & H).
      { intros c I. apply (skip_block_leads _ _ _ _ S). exact (A c (or_intror I)). }
      exists (f + f2), g2. cbn [skip_empty_blocks]. rewrite (skip_block_mono _ _ _ _ (f + f2) S) by lia. apply (skip_mono _ _ _ _ _ H). lia.
Qed.
Print Assumptions C25_termination.

(* ---- The list of blocks ---- *)
Definition targets (g : graph) (b : nat) : list nat :=
  match jump0 (g b) with None => [] | Some t => t :: match jump1 (g b) with None => [] | Some u => [u] end end.
Lemma serialize_dfs : forall fuel g black b, serialize fuel g black b = dfs (targets g) fuel black b.
Proof.
  induction fuel as [|n IH]; intros g black b; [reflexivity|]. cbn [serialize dfs]. unfold mem.
  destruct (existsb (Nat.eqb b) black); [reflexivity|].
  assert (T : targets g b = match jump0 (g b) with None => [] | Some t => t :: match jump1 (g b) with None => [] | Some u => [u] end end) by reflexivity.
  rewrite T. clear T. destruct (jump0 (g b)) as [t|]; [|reflexivity]. cbn [each]. rewrite IH.
  destruct (dfs (targets g) n (black ++ [b]) t) as [bl|]; [|reflexivity]. destruct (jump1 (g b)) as [u|]; [|reflexivity]. cbn [each]. rewrite IH.
  destruct (dfs _ n bl u); reflexivity.
Qed.

(* An execution can get from the first block to the second. *)
Inductive flows (g : graph) : nat -> nat -> Prop :=
| flows_here : forall b, flows g b b
| flows_zero : forall b t c, flows g b t -> jump0 (g t) = Some c -> flows g b c
| flows_one : forall b t c, flows g b t -> jump0 (g t) <> None -> jump1 (g t) = Some c -> flows g b c.
Lemma flows_path : forall g b c, flows g b c <-> path (targets g) b c.
Proof.
  intros g b c. split.
  - induction 1 as [b|b t c _ IH J|b t c _ IH N J]; [apply path_here| |].
    + eapply path_last; [exact IH|]. unfold targets. rewrite J. left. reflexivity.
    + eapply path_last; [exact IH|]. unfold targets. destruct (jump0 (g t)); [|congruence]. rewrite J. right. left. reflexivity.
  - assert (G : forall x y, path (targets g) x y -> forall a, flows g a x -> flows g a y).
    { induction 1 as [x|x y z I _ IH]; intros a F; [exact F|]. apply IH. unfold targets in I. destruct (jump0 (g x)) as [t|] eqn:J; [|contradiction].
      destruct I as [->|I]; [eapply flows_zero; eassumption|]. destruct (jump1 (g x)) as [u|] eqn:K; [|contradiction].
      destruct I as [->|[]]. eapply flows_one; [exact F|congruence|exact K]. }
    intro P. apply (G _ _ P). apply flows_here.
Qed.

(* The optimizer lists every block an execution can get to exactly once, and no other. *)
Theorem C25_blocks : forall g entry,
  (forall fuel l, serialize fuel g [] entry = Some l -> NoDup l /\ forall b, In b l <-> flows g entry b) /\
  (forall n, entry < n -> (forall b t, b < n -> jump0 (g b) = Some t \/ jump1 (g b) = Some t -> t < n) ->
    exists fuel l, serialize fuel g [] entry = Some l).
Proof.
  intros g entry. split.
  - intros fuel l H. rewrite serialize_dfs in H. apply dfs_reachable in H as [N P]. split; [exact N|].
    intro b. rewrite P. symmetry. apply flows_path.
  - intros n E C. exists (S n). rewrite serialize_dfs. apply (dfs_fuel (targets g) n).
    + intros b c B I. unfold targets in I. destruct (jump0 (g b)) as [t|] eqn:J; [|contradiction].
      destruct I as [->|I]; [eapply C; eauto|]. destruct (jump1 (g b)) as [u|] eqn:K; [|contradiction]. destruct I as [->|[]]. eapply C; eauto.
    + exact E.
    + rewrite white_nil. lia.
Qed.
Print Assumptions C25_blocks.

(* while (c) { if (d) ; else x(); }  return: 0 condition c, 1 condition d, 2 empty, 3 x(), 4 joins, 5 returns. *)
Definition a_graph : graph := fun b =>
  match b with
  | 0 => mk_blk 1 (Some 5) (Some 1)
  | 1 => mk_blk 1 (Some 3) (Some 2)
  | 2 => mk_blk 0 (Some 4) None
  | 3 => mk_blk 1 (Some 4) None
  | 4 => mk_blk 0 (Some 0) None
  | _ => mk_blk 0 None None
  end.
Example C25_instance : exists g', skip_empty_blocks 3 a_graph [0; 5; 1; 3; 4; 2] = Some g' /\
  map (fun b => (jump0 (g' b), jump1 (g' b))) [0; 1; 2; 3; 4; 5] =
    [(Some 5, Some 1); (Some 3, Some 0); (Some 0, None); (Some 0, None); (Some 0, None); (None, None)] /\
  serialize 7 a_graph [] 0 = Some [0; 5; 1; 3; 4; 2] /\ serialize 7 g' [] 0 = Some [0; 5; 1; 3].
Proof. eexists. split; [reflexivity|]. vm_compute. auto. Qed.
Example C25_run_instance : exists g', skip_empty_blocks 3 a_graph [0; 5; 1; 3; 4; 2] = Some g' /\
  run nat (fun _ s => s) (fun _ s => (s - 1, Nat.eqb s 2)) g' 4 0 2 [(0, 2); (1, 1); (3, 0); (0, 0)] None.
Proof.
  eexists. split; [reflexivity|].
  eapply run_branch; [apply reach_here; reflexivity|reflexivity..|]. eapply run_branch; [apply reach_here; reflexivity|reflexivity..|].
  eapply run_jump; [apply reach_here; reflexivity|reflexivity..|].
  eapply run_branch; [apply reach_here; reflexivity|reflexivity..|]. apply run_stop.
Qed.

(* The function  void f(void) { for (;;) ; }  has a block that jumps to itself and is empty: with optimization on, the
   compiler does not end.  Nor does it for two empty blocks in a ring. *)
Theorem C25_termination_refuted : exists g l, serialize 3 g [] 0 = Some l /\ forall fuel, skip_empty_blocks fuel g l = None.
Proof.
  exists (fun b => match b with 0 => mk_blk 0 (Some 1) None | _ => mk_blk 0 (Some 1) None end), [0; 1]. split; [reflexivity|].
  intro fuel. destruct (skip_empty_blocks fuel _ [0; 1]) as [g'|] eqn:H; [|reflexivity]. exfalso.
  destruct (proj1 (C25_termination _ _) (ex_intro _ fuel (ex_intro _ g' H)) 0 (or_introl eq_refl) 1) as (u & U); [left; reflexivity|].
  apply reach_chain in U as (k & C). revert C. induction k as [|k IH]; intro C; inversion C; subst; [discriminate|].
  cbn in *. match goal with J : Some 1 = Some _ |- _ => injection J as <- end. auto.
Qed.
Print Assumptions C25_termination_refuted.
