(* if statements, labels and jumps *)
From Coq Require Import ZArith List Bool Arith Lia.
From Verif Require Import CfgSyntax CfgModel CfgSpec CfgProofs CfgExpr CfgCond CfgStmt CfgBuild.
Import ListNotations.

Section Branch.
Variable L : lang.
Hypothesis law : lawful L.
Local Notation graph := (id -> blk L).
Local Notation state := (st L).

Lemma PS_if : forall (e : expr L) x, PS x -> PS (SIf e x).
Proof.
  intros e x Hx brk cnt insw loop sw b s (A & O & I & ND & Lf & D1 & D2) Pl Hb Hc. cbn [labels defaults placed] in *. cbn [statement].
  destruct (new2_facts s) as (G2 & C2 & N2 & T2 & Er & En). rewrite next_new. remember (new_ (new_ s)) as s2 eqn:Hs2.
  assert (O2 : old s2 b) by now apply old_grows with s.
  assert (B2 : blocks s2 b = blocks s b) by (apply C2; auto).
  assert (SW2 : same_sw s s2) by (subst s2; repeat split). assert (LEN : len s2 = len s) by (subst s2; reflexivity). clear Hs2.
  assert (Nx : forall l, In l (labels x) -> b = Lb l -> False) by (intros l H; now apply Lf).
  destruct (cond_ok law e b s2) as (p & r & s3 & E3 & G3 & I3 & X3); auto.
  { unfold canapp. now rewrite B2, LEN. } { unfold isopen. now rewrite B2. }
  rewrite E3. cbn [bind]. destruct (branch_facts s3 p r (B (next s)) (B (S (next s)))) as (N4 & T4 & L4 & SW4 & C4).
  pose proof (brs_branch s3 p r (B (next s)) (B (S (next s))) I3) as BR. pose proof (code_branch s3 p r (B (next s)) (B (S (next s))) p) as BC.
  remember (branch p r (B (next s)) (B (S (next s))) s3) as s4 eqn:Hs4. clear Hs4.
  assert (Gr3 : grows s2 s3) by apply G3. assert (C3 : chg s2 [b] s3) by apply G3. assert (T3 : tgt s2 b s3 p) by apply G3.
  assert (Gr4 : grows s3 s4) by (split; lia).
  assert (C24 : chg s2 ([b] ++ [p]) s4) by (apply chg_cat with s3; auto).
  assert (C04 : chg s ([] ++ [b] ++ [p]) s4) by (apply chg_cat with s2; auto).
  assert (SW : same_sw s s4) by (apply same_trans with s2; auto; apply same_trans with s3; auto; apply G3). destruct SW as (SWa & SWb & SWc).
  assert (NUM : next s2 <= next s3 /\ next s3 = next s4) by (destruct Gr3; lia).
  assert (Rd : ready s4 (B (next s)) x).
  { apply ready_new with s ([] ++ [b] ++ [p]); auto; try lia.
    - intros l Hl. rewrite SWa. destruct (Lf l Hl) as (? & ? & ?); auto.
    - intros l Hl Hi. clear - Hi T3 Nx Hl. ids.
    - rewrite <- Er. apply (proj1 C24); [simpl; lia|]. intros Hi. clear - Hi T3 O NUM N2. bid b; ids.
    - now rewrite SWc. }
  destruct (Hx brk cnt insw loop sw (B (next s)) s4 Rd Pl Hb Hc) as (b1 & s5 & cs & df & E5 & G5 & (S1 & S2 & S3 & S4) & X5). rewrite E5. cbn [bind].
  assert (O5 : old s5 b1) by (eapply goodS_oldl; eauto; apply Rd). destruct G5 as (Gr5 & C5 & T5 & A5 & I5).
  set (s6 := setj0 b1 (Some (B (S (next s)))) s5).
  assert (C56 : chg s5 [b1] s6) by apply chg_setj0'.
  assert (C26 : chg s2 (([b] ++ [p]) ++ (B (next s) :: lbs x) ++ [b1]) s6).
  { apply chg_cat with s4; auto; [apply grows_trans with s3; auto|]. apply chg_cat with s5; auto. }
  assert (NUM5 : next s4 <= next s5 /\ next s6 = next s5) by (split; [apply Gr5|reflexivity]).
  exists (B (S (next s))), s6, cs, df. split; [reflexivity|].
  assert (En6 : blocks s6 (B (S (next s))) = empty_blk).
  { rewrite <- En. apply (proj1 C26); [simpl; lia|]. intros Hi. clear - Hi T3 T5 O NUM NUM5 N2. bid b; ids. }
  split; [|split].
  - split; [|split; [|split; [|split]]].
    + destruct G2, Gr3, Gr4, Gr5. split; [lia|]. change (tmp s6) with (tmp s5). lia.
    + apply chg_sub with ([] ++ (([b] ++ [p]) ++ (B (next s) :: lbs x) ++ [b1])); [apply chg_cat with s2; auto|].
      intros y Hy Oy. clear - Hy Oy T3 T5 O NUM NUM5 N2. bid b; ids.
    + right; right. eexists. split; [reflexivity|]. lia.
    + now apply empty_ok.
    + now apply empty_ok.
  - split; [|split; [|split]]; cbn [labels defaults].
    + intros l. change (defs s6) with (defs s5). rewrite S1, SWa. tauto.
    + change (cases s6) with (cases s5). now rewrite S2, SWb.
    + change (dflt s6) with (dflt s5). now rewrite S3, SWc.
    + exact S4.
  - intros lbls g (F1 & F2) Go Ag. cbn [gotos] in Go. cbn [tr].
    assert (Ag5 := agrE_back _ _ s5 s6 _ _ Ag ltac:(split; reflexivity) C56).
    assert (Ag4 := agrE_back _ _ s4 s5 _ _ Ag5 Gr5 C5).
    assert (Ag3 := agrE_back _ _ s3 s4 _ _ Ag4 Gr4 C4).
    exists (B (next s)), b1, (at_ s5 b1). split; [|split; [|split]].
    + assert (GP : g p = blocks s4 p).
      { apply (proj1 Ag4).
        - clear - T3 NUM NUM5 N2. ids.
        - apply old_grows with s3; auto. now apply good_old with s2 b.
        - intros Hi. clear - Hi T3 T5 O NUM NUM5 N2 Nx. bid b; ids. }
      rewrite <- (at_keep s s2 [] b); auto. apply X3; auto.
      * eapply agrE_agr; [exact Ag3|auto|auto|]. intros c Hc0. clear - Hc0 T3 T5 O NUM NUM5 N2 Nx. bid b; ids.
      * rewrite GP. exact BC.
      * rewrite GP. exact BR.
    + destruct (empty_ok s4 (B (next s))) as (_ & _ & Z).
      { rewrite <- Er. apply (proj1 C24); [simpl; lia|]. intros Hi. clear - Hi T3 O NUM N2. bid b; ids. }
      rewrite <- Z. apply X5; auto. eapply agrE_sub; [exact Ag5|]. intros c Hc0. clear - Hc0 T3 T5 O NUM NUM5 N2 Nx. bid b; ids.
    + apply ends_setj0; auto. apply (proj1 Ag).
      * clear - T5 NUM NUM5 N2. ids.
      * apply O5.
      * intros [Q|[]]. clear - Q T5 NUM NUM5 N2. ids.
    + now apply empty_ok.
Qed.

Definition relink (r : res L) (p lft : id) (s : state) : state := match imm_bool r with Some true => s | _ => setj0 p (Some lft) s end.
Lemma relink_facts : forall r p lft s yes no, brs (blocks s p) r yes no -> next (relink r p lft s) = next s /\ tmp (relink r p lft s) = tmp s /\ same_sw s (relink r p lft s) /\
  chg s [p] (relink r p lft s) /\ brs (blocks (relink r p lft s) p) r yes lft /\ code (blocks (relink r p lft s) p) = code (blocks s p).
Proof.
  intros r p lft s yes no H. unfold relink, brs in *. destruct (imm_bool r) as [[|]|];
  (split; [reflexivity|]; split; [reflexivity|]; split; [repeat split|]; split; [try apply chg_setj0'; apply chg_refl|]; split; [|try rewrite blocks_setj0_same; reflexivity]).
  - exact H.
  - rewrite blocks_setj0_same. cbn. split; [auto|apply H].
  - rewrite blocks_setj0_same. cbn. split; [apply H|]. split; [auto|apply H].
Qed.

Lemma PS_ifelse : forall (e : expr L) x y, PS x -> PS y -> PS (SIfElse e x y).
Proof.
  intros e x y Hx Hy brk cnt insw loop sw b s (A & O & I & ND & Lf & D1 & D2) (Pl1 & Pl2) Hb Hc. cbn [labels defaults placed] in *. cbn [statement].
  destruct (new2_facts s) as (G2 & C2 & N2 & T2 & Er & En). rewrite next_new. remember (new_ (new_ s)) as s2 eqn:Hs2.
  assert (O2 : old s2 b) by now apply old_grows with s.
  assert (B2 : blocks s2 b = blocks s b) by (apply C2; auto).
  assert (SW2 : same_sw s s2) by (subst s2; repeat split). assert (LEN : len s2 = len s) by (subst s2; reflexivity). clear Hs2.
  destruct (nodup_app _ _ ND) as (NDx & NDy & DJ).
  assert (Nx : forall l, In l (labels x) -> b = Lb l -> False) by (intros l H; apply Lf, in_or_app; auto).
  assert (Ny : forall l, In l (labels y) -> b = Lb l -> False) by (intros l H; apply Lf, in_or_app; auto).
  destruct (cond_ok law e b s2) as (p & r & s3 & E3 & G3 & I3 & X3); auto.
  { unfold canapp. now rewrite B2, LEN. } { unfold isopen. now rewrite B2. }
  rewrite E3. cbn [bind]. destruct (branch_facts s3 p r (B (next s)) (B (S (next s)))) as (N4 & T4 & L4 & SW4 & C4).
  pose proof (brs_branch s3 p r (B (next s)) (B (S (next s))) I3) as BR. pose proof (code_branch s3 p r (B (next s)) (B (S (next s))) p) as BC.
  remember (branch p r (B (next s)) (B (S (next s))) s3) as s4 eqn:Hs4. clear Hs4.
  assert (Gr3 : grows s2 s3) by apply G3. assert (C3 : chg s2 [b] s3) by apply G3. assert (T3 : tgt s2 b s3 p) by apply G3.
  assert (Gr4 : grows s3 s4) by (split; lia).
  assert (Op4 : old s4 p) by (apply old_grows with s3; auto; now apply good_old with s2 b).
  assert (C24 : chg s2 ([b] ++ [p]) s4) by (apply chg_cat with s3; auto).
  assert (C04 : chg s ([] ++ [b] ++ [p]) s4) by (apply chg_cat with s2; auto).
  assert (SW : same_sw s s4) by (apply same_trans with s2; auto; apply same_trans with s3; auto; apply G3). destruct SW as (SWa & SWb & SWc).
  assert (NUM : next s2 <= next s3 /\ next s3 = next s4) by (destruct Gr3; lia).
  assert (Er4 : blocks s4 (B (next s)) = empty_blk).
  { rewrite <- Er. apply (proj1 C24); [simpl; lia|]. intros Hi. clear - Hi T3 O NUM N2. bid b; ids. }
  assert (Rd : ready s4 (B (next s)) x).
  { apply ready_new with s ([] ++ [b] ++ [p]); auto; try lia.
    - intros l Hl. rewrite SWa. destruct (Lf l) as (? & ? & ?); auto. apply in_or_app; auto.
    - intros l Hl Hi. clear - Hi T3 Nx Hl. ids.
    - rewrite SWc. intros Q. apply D1 in Q. lia. }
  destruct (Hx brk cnt insw loop sw (B (next s)) s4 Rd Pl1 Hb Hc) as (b1 & s5 & c1 & d1 & E5 & G5 & (S1 & S2 & S3 & S4) & X5). rewrite E5. cbn [bind].
  assert (O5 : old s5 b1) by (eapply goodS_oldl; eauto; apply Rd). destruct G5 as (Gr5 & C5 & T5 & A5 & I5).
  change (next (setj0 b1 (Some (B (S (next s)))) s5)) with (next s5).
  remember (setj0 b1 (Some (B (S (next s)))) s5) as s6 eqn:Hs6.
  assert (C56 : chg s5 [b1] s6) by (subst s6; apply chg_setj0'). assert (N6 : next s6 = next s5 /\ tmp s6 = tmp s5 /\ same_sw s5 s6) by (subst s6; repeat split).
  destruct N6 as (N6 & T6 & SW6).
  assert (El : blocks (new_ s6) (B (next s5)) = empty_blk) by (rewrite <- N6; apply new_same).
  assert (C67 : chg s6 [] (new_ s6)) by apply chg_new1.
  assert (N7 : next (new_ s6) = S (next s5) /\ tmp (new_ s6) = tmp s5 /\ same_sw s6 (new_ s6)) by (subst s6; repeat split). destruct N7 as (N7 & T7 & SW7).
  remember (new_ s6) as s7 eqn:Hs7. clear Hs7.
  assert (NUM5 : next s4 <= next s5) by apply Gr5.
  assert (Gr46 : grows s4 s6) by (destruct Gr5; split; lia). assert (Gr47 : grows s4 s7) by (destruct Gr5; split; lia). assert (Gr56 : grows s5 s6) by (split; lia).
  assert (Gr67 : grows s6 s7) by (split; lia).
  assert (C47 : chg s4 ((B (next s) :: lbs x) ++ [b1] ++ []) s7).
  { apply chg_cat with s5; auto. apply chg_cat with s6; auto. }
  assert (Bp : blocks s7 p = blocks s4 p).
  { apply (proj1 C47); auto. intros Hi. clear - Hi T3 T5 O NUM NUM5 N2 Nx. bid b; ids. }
  fold (relink r p (B (next s5)) s7).
  destruct (relink_facts r p (B (next s5)) s7 (B (next s)) (B (S (next s)))) as (N8 & T8 & SW8 & C8 & BR8 & BC8); [now rewrite Bp|].
  rewrite Bp in BC8. remember (relink r p (B (next s5)) s7) as s8 eqn:Hs8. clear Hs8.
  assert (Gr78 : grows s7 s8) by (split; lia). assert (Gr48 : grows s4 s8) by (apply grows_trans with s7; auto).
  assert (C48 : chg s4 (((B (next s) :: lbs x) ++ [b1] ++ []) ++ [p]) s8) by (apply chg_cat with s7; auto).
  assert (C08 : chg s (([] ++ [b] ++ [p]) ++ (((B (next s) :: lbs x) ++ [b1] ++ []) ++ [p])) s8).
  { apply chg_cat with s4; auto. apply grows_trans with s2; auto. apply grows_trans with s3; auto. }
  assert (SWy : same_sw s5 s8) by (apply same_trans with s6; auto; apply same_trans with s7; auto). destruct SWy as (SW8a & SW8b & SW8c).
  assert (El8 : blocks s8 (B (next s5)) = empty_blk).
  { rewrite <- El. apply (proj1 C8); [simpl; lia|]. intros Hi. clear - Hi T3 O NUM NUM5 N2. bid b; ids. }
  assert (Rd2 : ready s8 (B (next s5)) y).
  { eapply ready_new; [auto| |exact C08| |auto|lia| |lia].
    - intros l Hl. destruct (Lf l) as (? & ? & ?); [apply in_or_app; auto|]. split; auto. rewrite SW8a, S1, SWa. intros [Q|Q]; eauto.
    - intros l Hl Hi. clear - Hi T3 T5 Nx Ny DJ Hl. bid b; ids.
    - rewrite SW8c, S3, SWc. intros Q. destruct (dflt s) eqn:Z; [specialize (D1 ltac:(congruence)); lia|]. cbn [orelse] in Q. specialize (S4 Q). lia. }
  destruct (Hy brk cnt insw loop sw (B (next s5)) s8 Rd2 Pl2 Hb Hc) as (b2 & s9 & c2 & d2 & E9 & G9 & (S5 & S6 & S7 & S8) & X9). rewrite E9. cbn [bind].
  assert (O9 : old s9 b2) by (eapply goodS_oldl; eauto; apply Rd2). destruct G9 as (Gr9 & C9 & T9 & A9 & I9).
  assert (NUM9 : next s8 <= next s9 /\ next s8 = S (next s5)) by (destruct Gr9; split; lia).
  set (s10 := setj0 b2 (Some (B (S (next s)))) s9).
  assert (C10 : chg s9 [b2] s10) by apply chg_setj0'. assert (Gr10 : grows s9 s10) by (split; reflexivity).
  assert (C4f : chg s4 ((((B (next s) :: lbs x) ++ [b1] ++ []) ++ [p]) ++ (B (next s5) :: lbs y) ++ [b2]) s10).
  { apply chg_cat with s8; auto. apply chg_cat with s9; auto. }
  assert (Gr24 : grows s2 s4) by (apply grows_trans with s3; auto).
  assert (C2f : chg s2 (([b] ++ [p]) ++ (((B (next s) :: lbs x) ++ [b1] ++ []) ++ [p]) ++ (B (next s5) :: lbs y) ++ [b2]) s10) by (apply chg_cat with s4; auto).
  exists (B (S (next s))), s10, (c1 ++ c2), (orelse d1 d2). split; [reflexivity|].
  assert (N10 : next s10 = next s9) by reflexivity.
  assert (Enf : blocks s10 (B (S (next s))) = empty_blk).
  { rewrite <- En. apply (proj1 C2f); [simpl; lia|]. intros Hi. clear - Hi T3 T5 T9 O NUM NUM5 NUM9 N2. bid b; ids. }
  split; [|split].
  - split; [|split; [|split; [|split]]].
    + apply grows_trans with s2; auto. apply grows_trans with s4; auto. apply grows_trans with s8; auto.
    + eapply chg_sub; [apply chg_cat with s2; [auto|exact C2|exact C2f]|].
      intros z Hz Oz. clear - Hz Oz T3 T5 T9 O NUM NUM5 NUM9 N2. bid b; ids.
    + right; right. eexists. split; [reflexivity|]. lia.
    + now apply empty_ok.
    + now apply empty_ok.
  - split; [|split; [|split]]; cbn [labels defaults].
    + intros l. change (defs s10) with (defs s9). rewrite S5, SW8a, S1, SWa, in_app_iff. tauto.
    + change (cases s10) with (cases s9). now rewrite S6, SW8b, S2, SWb, app_assoc.
    + change (dflt s10) with (dflt s9). rewrite S7, SW8c, S3, SWc. now destruct (dflt s), d1.
    + destruct d1; cbn [orelse]; intros Q; [specialize (S4 ltac:(congruence)); lia|specialize (S8 Q); lia].
  - intros lbls g (F0 & F1 & F2) Go Ag. cbn [gotos] in Go. cbn [tr].
    assert (Ag9 := agrE_back _ _ s9 s10 _ _ Ag Gr10 C10).
    assert (Ag8 := agrE_back _ _ s8 s9 _ _ Ag9 Gr9 C9).
    assert (Ag7 := agrE_back _ _ s7 s8 _ _ Ag8 Gr78 C8).
    assert (Ag6 := agrE_back _ _ s6 s7 _ _ Ag7 Gr67 C67).
    assert (Ag5 := agrE_back _ _ s5 s6 _ _ Ag6 Gr56 C56).
    assert (Ag4 := agrE_back _ _ s4 s5 _ _ Ag5 Gr5 C5).
    assert (Ag3 := agrE_back _ _ s3 s4 _ _ Ag4 Gr4 C4).
    exists (B (next s)), (B (next s5)), b1, (at_ s5 b1), b2, (at_ s9 b2), c1, d1, c2, d2.
    split; [|split; [|split; [|split; [|split; [|auto]]]]].
    + assert (GP : g p = blocks s8 p).
      { apply (proj1 Ag8).
        - clear - T3 NUM NUM5 NUM9 N10 N2. ids.
        - apply old_grows with s4; auto.
        - intros Hi. clear - Hi T3 T5 T9 O NUM NUM5 NUM9 N2 Nx Ny. bid b; ids. }
      rewrite <- (at_keep s s2 [] b); auto. apply X3; auto.
      * eapply agrE_agr; [exact Ag3|auto|auto|]. intros c Hc0. clear - Hc0 T3 T5 T9 O NUM NUM5 NUM9 N10 N2 Nx Ny. bid b; ids.
      * rewrite GP, BC8. exact BC.
      * rewrite GP. exact BR8.
    + destruct (empty_ok s4 (B (next s)) Er4) as (_ & _ & Z). rewrite <- Z. apply X5; auto. { intros z Hz. apply Go, in_or_app. auto. }
      eapply agrE_sub; [exact Ag5|]. intros c Hc0. clear - Hc0 T3 T5 T9 O NUM NUM5 NUM9 N10 N2 Nx Ny DJ. bid b; ids.
    + apply ends_setj0; auto. rewrite <- Hs6. apply (proj1 Ag6).
      * clear - T5 NUM NUM5 NUM9 N10 N2. ids.
      * apply old_grows with s5; auto.
      * intros Hi. clear - Hi T3 T5 T9 O NUM NUM5 NUM9 N10 N2 Nx Ny DJ. bid b; ids.
    + destruct (empty_ok s8 (B (next s5)) El8) as (_ & _ & Z). rewrite <- Z. apply X9; auto. { intros z Hz. apply Go, in_or_app. auto. }
      eapply agrE_sub; [exact Ag9|]. intros c Hc0. clear - Hc0 T3 T5 T9 O NUM NUM5 NUM9 N10 N2 Nx Ny DJ. bid b; ids.
    + apply ends_setj0; auto. apply (proj1 Ag).
      * clear - T5 T9 NUM NUM5 NUM9 N10 N2. ids.
      * apply O9.
      * intros Hi. clear - Hi T9 O NUM NUM5 NUM9 N10 N2. bid b; ids.
    + split; [now apply empty_ok|auto].
Qed.
End Branch.
