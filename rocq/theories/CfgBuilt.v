(* The graph of a function does what the function means. *)
From Coq Require Import ZArith List Bool Arith Lia.
From Verif Require Import CfgSyntax CfgModel CfgSpec CfgProofs CfgExpr CfgCond CfgStmt CfgBuild CfgBranch CfgJump CfgLoop CfgFor CfgSwitch.
Import ListNotations.

Section Built.
Variable L : lang.
Hypothesis law : lawful L.
Local Notation graph := (id -> blk L).
Local Notation state := (st L).

Lemma all_PS : forall c : stmt L, PS c.
Proof.
  induction c.
  - apply PS_skip.
  - now apply PS_expr.
  - now apply PS_seq.
  - now apply PS_if.
  - now apply PS_ifelse.
  - now apply PS_do.
  - now apply PS_while.
  - now apply PS_for.
  - now apply PS_switch.
  - now apply PS_case.
  - now apply PS_default.
  - now apply PS_label.
  - apply PS_goto.
  - apply PS_break.
  - apply PS_continue.
  - now apply PS_return.
Qed.
Lemma no_default : forall (c : stmt L) loop, placed loop false c -> defaults c = 0.
Proof.
  induction c; intros loop H; cbn [placed defaults] in *; eauto; try (destruct H; congruence); destruct H as [H1 H2]; erewrite IHc1, IHc2; eauto.
Qed.

Variable f : func L.
Hypothesis pl : placed false false (body f).
Hypothesis nd : NoDup (labels (body f)).
Hypothesis go_ : incl (gotos (body f)) (labels (body f)).
Theorem build_some : exists g, build f = Some g.
Proof.
  pose proof (no_default _ _ pl) as D.
  destruct (all_PS (body f) None None false false false (B 0) init_st) as (b' & s' & cs & df & E & _); [|exact pl|discriminate|discriminate|].
  { split; [now left|]. split; [cbn; lia|]. split; [repeat split|]. split; [exact nd|]. split; [|split; [auto|lia]].
    intros l Hl. split; [auto|]. split; [reflexivity|congruence]. }
  unfold build. rewrite E. cbn [bind]. eauto.
Qed.
Hypothesis fn : fine_s (body f).
Theorem build_ok : exists g, build f = Some g /\ forall m,
  (forall ev v m', (exists n, steps late_ f n (start f m) ev (Ret v m')) <-> (exists n, gsteps g n (gstart m) ev (End v m'))) /\
  (forall n ev gs, gsteps g n (gstart m) ev gs -> exists k ev2 s, steps late_ f k (start f m) (ev ++ ev2) s) /\
  (forall k ev s, steps late_ f k (start f m) ev s ->
     (step late_ f s = None -> exists v m', s = Ret v m') /\ exists n gs, gsteps g n (gstart m) ev gs).
Proof.
  pose proof (no_default _ _ pl) as D.
  destruct (all_PS (body f) None None false false false (B 0) init_st) as (b' & s' & cs & df & E & (G & C & T & A & I) & _ & X); [|exact pl|discriminate|discriminate|].
  { split; [now left|]. split; [cbn; lia|]. split; [repeat split|]. split; [exact nd|]. split; [|split; [auto|lia]].
    intros l Hl. split; [auto|]. split; [reflexivity|congruence]. }
  unfold build. rewrite E. cbn [bind].
  set (g := blocks (if main f then setret b' (int_ty f) (sete b' (RId zero) s') else s')). exists g. split; [reflexivity|].
  assert (Gb : g b' = if main f then Blk (head (blocks s' b')) (code (blocks s' b')) (RId zero) (jump0 (blocks s' b')) (jump1 (blocks s' b')) (Some (int_ty f)) else blocks s' b').
  { unfold g. destruct (main f); [|reflexivity]. now rewrite blocks_setret_same, blocks_sete_same. }
  assert (Go : forall c, c <> b' -> g c = blocks s' c).
  { intros c N. unfold g. destruct (main f); [|reflexivity]. now rewrite blocks_setret_other, blocks_sete_other by auto. }
  assert (Gc : forall c, code (g c) = code (blocks s' c)).
  { intros c. destruct (id_eqb_spec c b') as [->|N]; [rewrite Gb; now destruct (main f)|now rewrite Go]. }
  destruct I as (I0 & I1 & I2).
  apply (graph_ok L g (labels (body f)) f eq_refl b' (at_ s' b') cs df fn).
  - apply X; auto. split.
    + intros c _ _ N. apply Go. intros ->. apply N. now left.
    + intros c _ _. exists []. now rewrite Gc, app_nil_r.
  - split; [auto|]. split; [auto|]. intros m t. apply plus_one. cbn [gstep].
    assert (NT : nth_error (code (g b')) (at_ s' b') = None) by (apply nth_error_None; rewrite Gc; reflexivity).
    rewrite NT, Gb. destruct (main f); cbn [jump0 jump1 retv bexpr]; rewrite I0; [reflexivity|]. now rewrite I2.
Qed.
End Built.
