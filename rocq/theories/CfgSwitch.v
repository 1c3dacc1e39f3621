(* switch statements *)
From Coq Require Import ZArith List Bool Arith Lia.
From Verif Require Import CfgSyntax CfgModel CfgSpec CfgProofs CfgExpr CfgCond CfgStmt CfgBuild CfgLoop.
Import ListNotations.

Section Switch.
Variable L : lang.
Hypothesis law : lawful L.
Local Notation graph := (id -> blk L).
Local Notation state := (st L).

Definition finish (p : id) (d : opd L) (l : list (val L * id)) (dd : id) (s : state) : state := let (c, s) := chain p d l s in setj0 c (Some dd) s.
Lemma chain_ok : forall l p d dd s, old s p ->
  grows s (finish p d l dd s) /\ same_sw s (finish p d l dd s) /\ chg s [p] (finish p d l dd s) /\
  exists n, blocks (finish p d l dd s) p = Blk (head (blocks s p)) (code (blocks s p)) (bexpr (blocks s p)) (Some n) (jump1 (blocks s p)) (retv (blocks s p)) /\
  forall g : graph, (forall k, next s <= k < next (finish p d l dd s) -> g (B k) = blocks (finish p d l dd s) (B k)) ->
  forall m t, star g (Run n 0 m t []) [] (Run (target (opdv d m t) l dd) 0 m t []).
Proof.
  induction l as [|[v lab] l IH]; intros p d dd s O.
  - unfold finish. cbn [chain]. split; [split; reflexivity|]. split; [repeat split|]. split; [apply chg_setj0'|].
    exists dd. split; [apply blocks_setj0_same|]. intros g _ m t. cbn [target]. apply star_refl.
  - set (c := B (next s)). set (s1 := setj0 p (Some c) (setj1 c (Some lab) (sete c (cmp Eq_ (DImm v) d) (new_ s)))).
    change (finish p d ((v, lab) :: l) dd s) with (finish c d l dd s1).
    assert (Npc : p <> c) by (apply (old_neq L s); auto).
    assert (C1 : chg s [p] s1).
    { unfold s1. apply chg_setj0; [|intros; now left]. apply chg_setj1; [|unfold c; cbn [old]; lia]. apply chg_sete; [|unfold c; cbn [old]; lia]. apply chg_new1. }
    assert (G1 : grows s s1) by (split; cbn; lia). assert (Oc : old s1 c) by (unfold c; cbn; lia).
    assert (Bc : blocks s1 c = Blk 0 [] (cmp Eq_ (DImm v) d) None (Some lab) None).
    { unfold s1. rewrite blocks_setj0_other by auto. rewrite blocks_setj1_same, blocks_sete_same. unfold c. rewrite new_same. reflexivity. }
    assert (Bp : blocks s1 p = Blk (head (blocks s p)) (code (blocks s p)) (bexpr (blocks s p)) (Some c) (jump1 (blocks s p)) (retv (blocks s p))).
    { unfold s1. rewrite blocks_setj0_same, blocks_setj1_other, blocks_sete_other, new_keep by auto. reflexivity. }
    destruct (IH c d dd s1 Oc) as (G2 & W2 & C2 & n & Bn & X). clear IH.
    remember (finish c d l dd s1) as s2 eqn:Hs2. clear Hs2.
    split; [apply grows_trans with s1; auto|]. split; [apply same_trans with s1; auto; repeat split|].
    split; [apply chg_trans with s1 [c]; auto; intros y [<-|[]] Hy; unfold c in Hy; cbn in Hy; lia|].
    exists c. split.
    + rewrite (proj1 C2); [exact Bp|now apply old_grows with s|]. intros [Q|[]]. auto.
    + intros g H m t. assert (N1 : next s1 = S (next s)) by reflexivity.
      assert (Gc : g c = blocks s2 c) by (apply H; destruct G2; lia). rewrite Bn, Bc in Gc. cbn [head code bexpr jump0 jump1 retv] in Gc.
      eapply star_trans with (t := []) (u := []); [| |reflexivity].
      * pose proof (step_branch L g c m t [] n lab) as SB. rewrite Gc in SB. cbn [code length] in SB. eapply SB; cbn [jump0 jump1 bexpr]; auto. apply run_cmp.
      * rewrite (truth01 L law). cbn [rel_of opdv target app]. destruct (relv L Req v (opdv d m t)); [apply star_refl|].
        apply X. intros k Hk. apply H. lia.
Qed.

Lemma statement_switch : forall brk cnt insw e x b s, statement brk cnt insw (SSwitch e x) b s =
  bind (lower e b (setsw [] None (news L 2 s))) (fun '(p, r, s1) => bind (eval_ p r s1) (fun '(d, s1) =>
  bind (statement (Some (B (S (next s)))) cnt true x (B (next s)) (sete p (RId d) s1)) (fun '(last, s1) =>
  let s1 := setj0 last (Some (B (S (next s)))) s1 in
  Some (B (S (next s)), setsw (cases s) (dflt s) (finish p d (cases s1) (match dflt s1 with Some x => x | None => B (S (next s)) end) s1))))).
Proof.
  intros brk cnt insw e x b s. cbn [statement]. change (new_ (new_ s)) with (news L 2 s). change (next (new_ s)) with (S (next s)). cbv zeta.
  change (cases (news L 2 s)) with (cases s). change (dflt (news L 2 s)) with (dflt s).
  destruct (lower e b _) as [[[p r] s1]|]; [|reflexivity]. cbn [bind].
  destruct (eval_ p r s1) as [[d s2]|]; [|reflexivity]. cbn [bind].
  destruct (statement _ _ _ _ _ _) as [[last s3]|]; [|reflexivity]. cbn [bind]. unfold finish.
  destruct (cases (setj0 last (Some (B (S (next s)))) s3)) as [|k l]; [destruct (dflt (setj0 last (Some (B (S (next s)))) s3)); reflexivity|reflexivity].
Qed.

Lemma PS_switch : forall e x, PS x -> PS (L := L) (SSwitch e x).
Proof.
  intros e x Hx brk cnt insw loop sw b s (A & O & I & ND & Lf & D1 & D2) (Pl & D3) Hb Hc. cbn [labels defaults] in *. rewrite statement_switch.
  destruct (news_facts L 2 s) as (G2 & C2 & N2 & T2 & LEN & SW2 & EM). remember (setsw [] None (news L 2 s)) as s3 eqn:Hs3.
  assert (G3 : grows s s3) by now rewrite Hs3. assert (C3 : chg s [] s3) by now rewrite Hs3. assert (N3 : next s3 = S (S (next s))) by now rewrite Hs3.
  assert (LEN3 : len s3 = len s) by now rewrite Hs3. assert (SW3 : defs s3 = defs s /\ cases s3 = [] /\ dflt s3 = None) by (rewrite Hs3; repeat split; apply SW2).
  assert (Eb : blocks s3 (B (next s)) = empty_blk) by (rewrite Hs3; apply (EM 0); lia).
  assert (En : blocks s3 (B (S (next s))) = empty_blk) by (rewrite Hs3; apply (EM 1); lia).
  clear Hs3 EM G2 C2 N2 T2 LEN SW2.
  assert (O3 : old s3 b) by now apply old_grows with s.
  assert (B3 : blocks s3 b = blocks s b) by (apply C3; auto).
  assert (Nx : forall l, In l (labels x) -> b = Lb l -> False) by (intros l H; now apply Lf).
  assert (I3 : isopen s3 b) by (unfold isopen; now rewrite B3).
  destruct (value_ok L e b s3 (proj1 (lower_ok L law) e)) as (p & r & s4 & d & s5 & E4 & E5 & _ & _ & G5 & X5); auto.
  { unfold canapp. now rewrite B3, LEN3. }
  rewrite E4. cbn [bind]. rewrite E5. cbn [bind]. clear E4 E5 s4.
  assert (Gr5 : grows s3 s5) by apply G5. assert (C5 : chg s3 [b] s5) by apply G5. assert (T5 : tgt s3 b s5 p) by apply G5.
  assert (O5 : old s5 p) by now apply good_old with s3 b. assert (NUM5 : next s3 <= next s5) by apply Gr5. assert (I5 : isopen s5 p) by now apply G5.
  set (s6 := sete p (RId d) s5).
  assert (C6 : chg s5 [p] s6) by (apply chg_sete; [apply chg_refl|intros; now left]). assert (Gr6 : grows s5 s6) by (split; reflexivity).
  assert (N6 : next s6 = next s5) by reflexivity.
  assert (C36 : chg s3 ([b] ++ [p]) s6) by (apply chg_cat with s5; auto). assert (C06 : chg s ([] ++ [b] ++ [p]) s6) by (apply chg_cat with s3; auto).
  assert (Gr36 : grows s3 s6) by (apply grows_trans with s5; auto).
  assert (SW6 : defs s6 = defs s /\ cases s6 = [] /\ dflt s6 = None).
  { destruct G5 as (_ & (W1 & W2 & W3) & _). destruct SW3 as (V1 & V2 & V3). repeat split; cbn; congruence. } destruct SW6 as (SWa & SWb & SWc).
  assert (Eb6 : blocks s6 (B (next s)) = empty_blk).
  { rewrite <- Eb. apply (proj1 C36); [simpl; lia|]. intros Hi. clear - Hi T5 O NUM5 N3. bid b; ids. }
  destruct (empty_ok s6 _ Eb6) as (_ & _ & Zb).
  assert (Rd : ready s6 (B (next s)) x).
  { eapply ready_new; [auto| |exact C06| |auto|lia| |lia].
    - intros l Hl. rewrite SWa. destruct (Lf l Hl) as (? & ? & ?); auto.
    - intros l Hl Hi. clear - Hi T5 Nx Hl. ids.
    - rewrite SWc. congruence. }
  destruct (Hx (Some (B (S (next s)))) cnt true loop true (B (next s)) s6 Rd Pl) as (last & s7 & cs & df & E7 & G7 & (S1 & S2 & S3 & S4) & X7).
  { intros Q. split; [congruence|now apply Hb]. } { split; congruence. } rewrite E7. cbn [bind].
  assert (O7 : old s7 last) by (eapply goodS_oldl; eauto; apply Rd). destruct G7 as (Gr7 & C7 & T7 & A7 & I7).
  cbv zeta. set (s8 := setj0 last (Some (B (S (next s)))) s7).
  assert (C8 : chg s7 [last] s8) by apply chg_setj0'. assert (Gr8 : grows s7 s8) by (split; reflexivity).
  assert (N8 : next s8 = next s7) by reflexivity. assert (NUM7 : next s6 <= next s7) by apply Gr7.
  change (cases s8) with (cases s7). change (dflt s8) with (dflt s7). rewrite S2, SWb, S3, SWc. cbn [app orelse].
  assert (C68 : chg s6 ((B (next s) :: lbs x) ++ [last]) s8) by (apply chg_cat with s7; auto). assert (Gr68 : grows s6 s8) by (apply grows_trans with s7; auto).
  assert (Bp8 : blocks s8 p = blocks s6 p).
  { apply (proj1 C68); [now apply old_grows with s5|]. intros Hi. clear - Hi T5 T7 O NUM5 NUM7 N3 N6 Nx. bid b; ids. }
  assert (O8 : old s8 p) by (apply old_grows with s6; auto; now apply old_grows with s5).
  destruct (chain_ok cs p d (match df with Some z => z | None => B (S (next s)) end) s8 O8) as (Gr9 & SW9 & C9 & n & Bn & X9).
  remember (finish p d cs _ s8) as s9 eqn:Hs9. clear Hs9. set (s10 := setsw (cases s) (dflt s) s9).
  assert (C10 : chg s9 [] s10) by exact (chg_refl L s9 []). assert (Gr10 : grows s9 s10) by (split; reflexivity).
  assert (NUM9 : next s8 <= next s9) by apply Gr9. assert (N10 : next s10 = next s9) by reflexivity.
  assert (C3x : chg s3 (([b] ++ [p]) ++ ((B (next s) :: lbs x) ++ [last]) ++ [p]) s10).
  { apply chg_cat with s6; auto. apply chg_cat with s8; auto. }
  exists (B (S (next s))), s10, [], None. split; [reflexivity|].
  assert (En10 : blocks s10 (B (S (next s))) = empty_blk).
  { rewrite <- En. apply (proj1 C3x); [simpl; lia|]. intros Hi. clear - Hi T5 T7 O NUM5 NUM7 NUM9 N3 N6 N8. bid b; ids. }
  split; [|split].
  - split; [|split; [|split; [|split]]].
    + apply grows_trans with s3; auto. apply grows_trans with s6; auto. apply grows_trans with s8; auto.
    + eapply chg_sub; [apply chg_cat with s3; [auto|exact C3|exact C3x]|].
      intros y Hy Oy. clear - Hy Oy T5 T7 O NUM5 NUM7 NUM9 N3 N6 N8. bid b; ids.
    + right; right. eexists. split; [reflexivity|]. lia.
    + now apply empty_ok.
    + now apply empty_ok.
  - split; [|split; [|split]]; cbn [labels defaults].
    + intros l. change (defs s10) with (defs s9). rewrite (proj1 SW9). change (defs s8) with (defs s7). rewrite S1, SWa. tauto.
    + unfold s10. cbn. now rewrite app_nil_r.
    + unfold s10. cbn. now destruct (dflt s).
    + congruence.
  - intros lbls g (F1 & F2) Go Ag. cbn [gotos] in Go. cbn [tr].
    assert (Ag9 : agrE g (ownS s b (lbs x) s10) s9 [B (S (next s))]) by exact Ag.
    assert (Ag8 := agrE_back _ _ s8 s9 _ _ Ag9 Gr9 C9).
    assert (Ag7 := agrE_back _ _ s7 s8 _ _ Ag8 Gr8 C8).
    assert (Ag6 := agrE_back _ _ s6 s7 _ _ Ag7 Gr7 C7).
    assert (Ag5 := agrE_back _ _ s5 s6 _ _ Ag6 Gr6 C6).
    assert (Gp : g p = blocks s9 p).
    { apply (proj1 Ag9).
      - clear - T5 NUM5 NUM7 NUM9 N3 N6 N8 N10. ids.
      - now apply old_grows with s8.
      - intros Hi. clear - Hi T5 O N3. bid b; ids. }
    exists (B (next s)), last, (at_ s7 last), cs, df. split; [|split; [|split; [|split]]].
    + rewrite <- Zb. apply X7; auto. eapply agrE_sub; [exact Ag7|]. intros c Hc0. clear - Hc0 T5 T7 O NUM5 NUM7 NUM9 N3 N6 N8 N10 Nx. bid b; ids.
    + apply ends_setj0; auto. apply (proj1 Ag8).
      * clear - T5 T7 NUM5 NUM7 NUM9 N3 N6 N8 N10. ids.
      * apply O7.
      * intros Hi. clear - Hi T5 T7 O NUM5 NUM7 NUM9 N3 N6 N8 N10 Nx. bid b; ids.
    + intros m t ev m' v V. destruct (value_of_sem _ _ _ _ _ V) as (q & Q & ->).
      destruct (X5 true F1) as (_ & _ & X). assert (H5 : agr g s3 b s5 p).
      { eapply agrE_agr; [exact Ag5|auto|auto|]. intros c Hc0. clear - Hc0 T5 T7 O NUM5 NUM7 NUM9 N3 N6 N8 N10 Nx. bid b; ids. }
      destruct (X I3 g H5 m t _ _ _ Q) as (t' & R1 & _ & R2 & _). exists t'.
      rewrite (at_keep s s3 [] b) in R1 by auto.
      rewrite <- (opd_now L _ _ _ m' R2).
      assert (BP6 : blocks s6 p = Blk (head (blocks s5 p)) (code (blocks s5 p)) (RId d) (jump0 (blocks s5 p)) (jump1 (blocks s5 p)) (retv (blocks s5 p))) by apply blocks_sete_same.
      assert (R3 : ends g p (at_ s5 p) n).
      { apply jump_ends; rewrite Gp, Bn; cbn [code jump0 jump1]; rewrite ?Bp8, ?BP6; cbn [code jump0 jump1]; auto. apply I5. }
      eapply star_plus; [exact R1| |rewrite app_nil_r; reflexivity].
      eapply plus_star_plus; [apply R3| |reflexivity]. apply X9.
      intros k Hk. apply (proj1 Ag9).
      * clear - Hk T5 NUM5 NUM7 NUM9 N3 N6 N8 N10. ids.
      * simpl; lia.
      * intros [Q1|[]]. injection Q1 as Q1. lia.
    + now apply empty_ok.
    + auto.
Qed.
End Switch.
