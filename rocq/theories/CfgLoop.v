(* while and do statements *)
From Coq Require Import ZArith List Bool Arith Lia.
From Verif Require Import CfgSyntax CfgModel CfgSpec CfgProofs CfgExpr CfgCond CfgStmt CfgBuild.
Import ListNotations.

Section Loop.
Variable L : lang.
Hypothesis law : lawful L.
Local Notation graph := (id -> blk L).
Local Notation state := (st L).

Fixpoint news (k : nat) (s : state) : state := match k with 0 => s | S k => news k (new_ s) end.
Lemma news_facts : forall k s, grows s (news k s) /\ chg s [] (news k s) /\ next (news k s) = k + next s /\ tmp (news k s) = tmp s /\ len (news k s) = len s /\ same_sw s (news k s)
  /\ forall j, j < k -> blocks (news k s) (B (j + next s)) = empty_blk.
Proof.
  induction k; intros s; cbn [news].
  - split; [apply grows_refl|]. split; [apply chg_refl|]. repeat split; auto. lia.
  - destruct (IHk (new_ s)) as (G & C & N & T & Ln & W & E). simpl in N.
    split; [apply grows_trans with (new_ s); auto; apply grows_new|]. split; [|split; [lia|split; [auto|split; [auto|split; [apply same_trans with (new_ s); auto; apply same_new|]]]]].
    + apply chg_trans with (new_ s) []; auto; [apply grows_new|apply chg_new1].
    + intros [|j] Hj.
      * rewrite (proj1 C); auto; [apply new_same|simpl; lia].
      * replace (S j + next s) with (j + next (new_ s)) by (simpl; lia). apply E. lia.
Qed.

Lemma PS_while : forall e x, PS x -> PS (L := L) (SWhile e x).
Proof.
  intros e x Hx brk cnt insw loop sw b s (A & O & I & ND & Lf & D1 & D2) Pl Hb Hc. cbn [labels defaults placed] in *. cbn [statement].
  destruct (news_facts 3 s) as (G2 & C2 & N2 & T2 & LEN & SW2 & EM).
  change (next (new_ (new_ s))) with (2 + next s). change (next (new_ s)) with (1 + next s).
  change (new_ (new_ (new_ s))) with (news 3 s). remember (news 3 s) as s2 eqn:Hs2. clear Hs2.
  pose proof (EM 0 ltac:(lia)) as Et. pose proof (EM 1 ltac:(lia)) as Eb. pose proof (EM 2 ltac:(lia)) as En. clear EM.
  cbn [Nat.add] in Et, Eb, En, N2 |- *.
  assert (O2 : old s2 b) by now apply old_grows with s.
  assert (B2 : blocks s2 b = blocks s b) by (apply C2; auto).
  assert (Nx : forall l, In l (labels x) -> b = Lb l -> False) by (intros l H; now apply Lf).
  remember (setj0 b (Some (B (next s))) s2) as s3 eqn:Hs3.
  assert (C3 : chg s2 [b] s3) by (subst s3; apply chg_setj0'). assert (N3 : next s3 = next s2 /\ tmp s3 = tmp s2 /\ same_sw s2 s3) by (subst s3; repeat split).
  destruct N3 as (N3 & T3 & SW3). assert (Gr3 : grows s2 s3) by (split; lia).
  assert (Et3 : blocks s3 (B (next s)) = empty_blk).
  { rewrite <- Et. apply (proj1 C3); [simpl; lia|]. intros Hi. clear - Hi O. bid b; ids. }
  destruct (empty_ok s3 _ Et3) as (At & It & Zt).
  destruct (cond_ok law e (B (next s)) s3) as (p & r & s4 & E4 & G4 & I4 & X4); auto; [simpl; lia|].
  rewrite E4. cbn [bind]. destruct (branch_facts s4 p r (B (S (next s))) (B (S (S (next s))))) as (N5 & T5 & L5 & SW5 & C5).
  pose proof (brs_branch s4 p r (B (S (next s))) (B (S (S (next s)))) I4) as BR. pose proof (code_branch s4 p r (B (S (next s))) (B (S (S (next s)))) p) as BC.
  remember (branch p r (B (S (next s))) (B (S (S (next s)))) s4) as s5 eqn:Hs5. clear Hs5.
  assert (Gr4 : grows s3 s4) by apply G4. assert (C4 : chg s3 [B (next s)] s4) by apply G4. assert (T4 : tgt s3 (B (next s)) s4 p) by apply G4.
  assert (Gr5 : grows s4 s5) by (split; lia).
  assert (Op4 : old s4 p) by (eapply good_old; [|exact G4]; simpl; lia).
  assert (C25 : chg s2 ([b] ++ [B (next s)] ++ [p]) s5) by (apply chg_cat with s3; auto; apply chg_cat with s4; auto).
  assert (C05 : chg s ([] ++ [b] ++ [B (next s)] ++ [p]) s5) by (apply chg_cat with s2; auto).
  assert (SW : same_sw s s5). { apply same_trans with s2; auto; apply same_trans with s3; auto. apply same_trans with s4; auto. apply G4. }
  destruct SW as (SWa & SWb & SWc).
  assert (NUM : next s3 <= next s4 /\ next s4 = next s5) by (destruct Gr4; lia).
  assert (Eb5 : blocks s5 (B (S (next s))) = empty_blk).
  { rewrite <- Eb. apply (proj1 C25); [simpl; lia|]. intros Hi. clear - Hi T4 O NUM N2 N3. bid b; ids. }
  destruct (empty_ok s5 _ Eb5) as (_ & _ & Zb).
  assert (Rd : ready s5 (B (S (next s))) x).
  { eapply ready_new; [auto| |exact C05| |auto|lia| |lia].
    - intros l Hl. rewrite SWa. destruct (Lf l Hl) as (? & ? & ?); auto.
    - intros l Hl Hi. clear - Hi T4 Nx Hl. ids.
    - now rewrite SWc. }
  destruct (Hx (Some (B (S (S (next s))))) (Some (B (next s))) insw true sw (B (S (next s))) s5 Rd Pl) as (b1 & s6 & cs & df & E6 & G6 & (S1 & S2 & S3 & S4) & X6).
  { split; congruence. } { intros Q. split; [now apply Hc|congruence]. } rewrite E6. cbn [bind].
  assert (O6 : old s6 b1) by (eapply goodS_oldl; eauto; apply Rd). destruct G6 as (Gr6 & C6 & T6 & A6 & I6).
  set (s7 := setj0 b1 (Some (B (next s))) s6).
  assert (C67 : chg s6 [b1] s7) by apply chg_setj0'. assert (Gr7 : grows s6 s7) by (split; reflexivity).
  assert (Gr25 : grows s2 s5) by (apply grows_trans with s3; auto; apply grows_trans with s4; auto).
  assert (C27 : chg s2 (([b] ++ [B (next s)] ++ [p]) ++ (B (S (next s)) :: lbs x) ++ [b1]) s7).
  { apply chg_cat with s5; auto. apply chg_cat with s6; auto. }
  assert (NUM6 : next s5 <= next s6 /\ next s7 = next s6) by (split; [apply Gr6|reflexivity]).
  exists (B (S (S (next s)))), s7, cs, df. split; [reflexivity|].
  assert (En7 : blocks s7 (B (S (S (next s)))) = empty_blk).
  { rewrite <- En. apply (proj1 C27); [simpl; lia|]. intros Hi. clear - Hi T4 T6 O NUM NUM6 N2 N3. bid b; ids. }
  split; [|split].
  - split; [|split; [|split; [|split]]].
    + apply grows_trans with s2; auto. apply grows_trans with s5; auto.
    + eapply chg_sub; [apply chg_cat with s2; [auto|exact C2|exact C27]|].
      intros y Hy Oy. clear - Hy Oy T4 T6 O NUM NUM6 N2 N3. bid b; ids.
    + right; right. eexists. split; [reflexivity|]. lia.
    + now apply empty_ok.
    + now apply empty_ok.
  - split; [|split; [|split]]; cbn [labels defaults].
    + intros l. change (defs s7) with (defs s6). rewrite S1, SWa. tauto.
    + change (cases s7) with (cases s6). now rewrite S2, SWb.
    + change (dflt s7) with (dflt s6). now rewrite S3, SWc.
    + exact S4.
  - intros lbls g (F1 & F2) Go Ag. cbn [gotos] in Go. cbn [tr].
    assert (Ag6 := agrE_back _ _ s6 s7 _ _ Ag Gr7 C67).
    assert (Ag5 := agrE_back _ _ s5 s6 _ _ Ag6 Gr6 C6).
    assert (Ag4 := agrE_back _ _ s4 s5 _ _ Ag5 Gr5 C5).
    assert (Ag3 := agrE_back _ _ s3 s4 _ _ Ag4 Gr4 C4).
    exists (B (next s)), (B (S (next s))), b1, (at_ s6 b1). split; [|split; [|split; [|split]]].
    + right. rewrite <- (at_keep s s2 [] b); auto. apply ends_setj0; [unfold isopen; now rewrite B2|]. rewrite <- Hs3. apply (proj1 Ag3).
      * now left.
      * now apply old_grows with s2.
      * intros Hi. clear - Hi T4 T6 O NUM NUM6 N2 N3 Nx. bid b; ids.
    + assert (GP : g p = blocks s5 p).
      { apply (proj1 Ag5).
        - clear - T4 NUM NUM6 N2 N3. ids.
        - apply old_grows with s4; auto.
        - intros Hi. clear - Hi T4 T6 NUM NUM6 N2 N3. ids. }
      rewrite <- Zt. apply X4; auto.
      * eapply agrE_agr; [exact Ag4|simpl; lia|auto|]. intros c Hc0. clear - Hc0 T4 T6 NUM NUM6 N2 N3. ids.
      * rewrite GP. exact BC.
      * rewrite GP. exact BR.
    + rewrite <- Zb. apply X6; auto. eapply agrE_sub; [exact Ag6|]. intros c Hc0. clear - Hc0 T4 T6 O NUM NUM6 N2 N3. ids.
    + apply ends_setj0; auto. apply (proj1 Ag).
      * clear - T6 NUM NUM6 N2 N3. ids.
      * apply O6.
      * intros Hi. clear - Hi T6 NUM NUM6 N2 N3. ids.
    + now apply empty_ok.
Qed.

Lemma PS_do : forall e x, PS x -> PS (L := L) (SDo x e).
Proof.
  intros e x Hx brk cnt insw loop sw b s (A & O & I & ND & Lf & D1 & D2) Pl Hb Hc. cbn [labels defaults placed] in *. cbn [statement].
  destruct (news_facts 3 s) as (G2 & C2 & N2 & T2 & LEN & SW2 & EM).
  change (next (new_ (new_ s))) with (2 + next s). change (next (new_ s)) with (1 + next s).
  change (new_ (new_ (new_ s))) with (news 3 s). remember (news 3 s) as s2 eqn:Hs2. clear Hs2.
  pose proof (EM 0 ltac:(lia)) as Et. pose proof (EM 1 ltac:(lia)) as Ec. pose proof (EM 2 ltac:(lia)) as En. clear EM.
  cbn [Nat.add] in Et, Ec, En, N2 |- *.
  assert (O2 : old s2 b) by now apply old_grows with s.
  assert (B2 : blocks s2 b = blocks s b) by (apply C2; auto).
  assert (Nx : forall l, In l (labels x) -> b = Lb l -> False) by (intros l H; now apply Lf).
  remember (setj0 b (Some (B (next s))) s2) as s3 eqn:Hs3.
  assert (C3 : chg s2 [b] s3) by (subst s3; apply chg_setj0'). assert (N3 : next s3 = next s2 /\ tmp s3 = tmp s2 /\ same_sw s2 s3) by (subst s3; repeat split).
  destruct N3 as (N3 & T3 & SW3). assert (Gr3 : grows s2 s3) by (split; lia).
  assert (Et3 : blocks s3 (B (next s)) = empty_blk).
  { rewrite <- Et. apply (proj1 C3); [simpl; lia|]. intros Hi. clear - Hi O. bid b; ids. }
  destruct (empty_ok s3 _ Et3) as (At & It & Zt).
  assert (C03 : chg s ([] ++ [b]) s3) by (apply chg_cat with s2; auto).
  assert (SW : same_sw s s3) by (apply same_trans with s2; auto). destruct SW as (SWa & SWb & SWc).
  assert (Rd : ready s3 (B (next s)) x).
  { eapply ready_new; [auto| |exact C03| |auto|lia| |lia].
    - intros l Hl. rewrite SWa. destruct (Lf l Hl) as (? & ? & ?); auto.
    - intros l Hl Hi. clear - Hi Nx Hl. ids.
    - now rewrite SWc. }
  destruct (Hx (Some (B (S (S (next s))))) (Some (B (S (next s)))) insw true sw (B (next s)) s3 Rd Pl) as (b1 & s4 & cs & df & E4 & G4 & (S1 & S2 & S3 & S4) & X4).
  { split; congruence. } { intros Q. split; [now apply Hc|congruence]. } rewrite E4. cbn [bind].
  assert (O4 : old s4 b1) by (eapply goodS_oldl; eauto; apply Rd). destruct G4 as (Gr4 & C4 & T4 & A4 & I4).
  remember (setj0 b1 (Some (B (S (next s)))) s4) as s5 eqn:Hs5.
  assert (C5 : chg s4 [b1] s5) by (subst s5; apply chg_setj0'). assert (N5 : next s5 = next s4 /\ tmp s5 = tmp s4 /\ same_sw s4 s5) by (subst s5; repeat split).
  destruct N5 as (N5 & T5 & SW5). assert (Gr5 : grows s4 s5) by (split; lia).
  assert (NUM4 : next s3 <= next s4) by apply Gr4.
  assert (C25 : chg s2 ([b] ++ (B (next s) :: lbs x) ++ [b1]) s5) by (apply chg_cat with s3; auto; apply chg_cat with s4; auto).
  assert (Gr25 : grows s2 s5) by (apply grows_trans with s3; auto; apply grows_trans with s4; auto).
  assert (Ec5 : blocks s5 (B (S (next s))) = empty_blk).
  { rewrite <- Ec. apply (proj1 C25); [simpl; lia|]. intros Hi. clear - Hi T4 O NUM4 N2 N3. bid b; ids. }
  destruct (empty_ok s5 _ Ec5) as (Ac & Ic & Zc).
  destruct (cond_ok law e (B (S (next s))) s5) as (p & r & s6 & E6 & G6 & I6 & X6); auto; [simpl; lia|].
  rewrite E6. cbn [bind]. destruct (branch_facts s6 p r (B (next s)) (B (S (S (next s))))) as (N7 & T7 & L7 & SW7 & C7).
  pose proof (brs_branch s6 p r (B (next s)) (B (S (S (next s)))) I6) as BR. pose proof (code_branch s6 p r (B (next s)) (B (S (S (next s)))) p) as BC.
  remember (branch p r (B (next s)) (B (S (S (next s)))) s6) as s7 eqn:Hs7. clear Hs7.
  assert (Gr6 : grows s5 s6) by apply G6. assert (C6 : chg s5 [B (S (next s))] s6) by apply G6. assert (T6 : tgt s5 (B (S (next s))) s6 p) by apply G6.
  assert (Gr7 : grows s6 s7) by (split; lia).
  assert (Op6 : old s6 p) by (eapply good_old; [|exact G6]; simpl; lia).
  assert (C27 : chg s2 (([b] ++ (B (next s) :: lbs x) ++ [b1]) ++ [B (S (next s))] ++ [p]) s7) by (apply chg_cat with s5; auto; apply chg_cat with s6; auto).
  assert (NUM : next s5 <= next s6 /\ next s6 = next s7) by (destruct Gr6; lia).
  assert (SWf : same_sw s4 s7). { apply same_trans with s5; auto. apply same_trans with s6; auto. apply G6. } destruct SWf as (SFa & SFb & SFc).
  exists (B (S (S (next s)))), s7, cs, df. split; [reflexivity|].
  assert (En7 : blocks s7 (B (S (S (next s)))) = empty_blk).
  { rewrite <- En. apply (proj1 C27); [simpl; lia|]. intros Hi. clear - Hi T4 T6 O NUM NUM4 N2 N3 N5. bid b; ids. }
  split; [|split].
  - split; [|split; [|split; [|split]]].
    + apply grows_trans with s2; auto. apply grows_trans with s5; auto. apply grows_trans with s6; auto.
    + eapply chg_sub; [apply chg_cat with s2; [auto|exact C2|exact C27]|].
      intros y Hy Oy. clear - Hy Oy T4 T6 O NUM NUM4 N2 N3 N5. bid b; ids.
    + right; right. eexists. split; [reflexivity|]. lia.
    + now apply empty_ok.
    + now apply empty_ok.
  - split; [|split; [|split]]; cbn [labels defaults].
    + intros l. rewrite SFa, S1, SWa. tauto.
    + now rewrite SFb, S2, SWb.
    + now rewrite SFc, S3, SWc.
    + exact S4.
  - intros lbls g (F1 & F2) Go Ag. cbn [gotos] in Go. cbn [tr].
    assert (Ag6 := agrE_back _ _ s6 s7 _ _ Ag Gr7 C7).
    assert (Ag5 := agrE_back _ _ s5 s6 _ _ Ag6 Gr6 C6).
    assert (Ag4 := agrE_back _ _ s4 s5 _ _ Ag5 Gr5 C5).
    assert (Ag3 := agrE_back _ _ s3 s4 _ _ Ag4 Gr4 C4).
    exists (B (next s)), (B (S (next s))), b1, (at_ s4 b1). split; [|split; [|split; [|split]]].
    + right. rewrite <- (at_keep s s2 [] b); auto. apply ends_setj0; [unfold isopen; now rewrite B2|]. rewrite <- Hs3. apply (proj1 Ag3).
      * now left.
      * now apply old_grows with s2.
      * intros Hi. clear - Hi T4 T6 O NUM NUM4 N2 N3 N5 Nx. bid b; ids.
    + rewrite <- Zt. apply X4; auto. eapply agrE_sub; [exact Ag4|]. intros c Hc0. clear - Hc0 T4 T6 O NUM NUM4 N2 N3 N5. ids.
    + apply ends_setj0; auto. rewrite <- Hs5. apply (proj1 Ag5).
      * clear - T4 T6 NUM NUM4 N2 N3 N5. ids.
      * apply old_grows with s4; auto.
      * intros Hi. clear - Hi T4 T6 NUM NUM4 N2 N3 N5. ids.
    + assert (GP : g p = blocks s7 p).
      { apply (proj1 Ag).
        - clear - T4 T6 NUM NUM4 N2 N3 N5. ids.
        - apply old_grows with s6; auto.
        - intros Hi. clear - Hi T4 T6 NUM NUM4 N2 N3 N5. ids. }
      rewrite <- Zc. apply X6; auto.
      * eapply agrE_agr; [exact Ag6|simpl; lia|auto|]. intros c Hc0. clear - Hc0 T4 T6 NUM NUM4 N2 N3 N5. ids.
      * rewrite GP. exact BC.
      * rewrite GP. exact BR.
    + now apply empty_ok.
Qed.
End Loop.
