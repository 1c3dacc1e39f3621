(* for statements *)
From Coq Require Import ZArith List Bool Arith Lia.
From Verif Require Import CfgSyntax CfgModel CfgSpec CfgProofs CfgExpr CfgCond CfgStmt CfgBuild CfgLoop.
Import ListNotations.

Section For.
Variable L : lang.
Hypothesis law : lawful L.
Local Notation graph := (id -> blk L).
Local Notation state := (st L).

Definition for_init (i : option (expr L)) (b : id) (s : state) : option (id * state) := match i with Some i => expression_statement i b s | None => Some (b, s) end.
Definition for_cond (e : option (expr L)) (b top body tail : id) (s : state) : option (id * state) :=
  match e with
  | Some e => bind (lower e top (setj0 b (Some top) s)) (fun '(c, r, s) => Some (top, branch c r body tail s))
  | None => Some (body, setj0 b (Some body) s)
  end.
Definition for_inc (e : option (expr L)) (increment top : id) (s : state) : option (id * state) :=
  match e with
  | Some e => bind (expression_statement e increment s) (fun '(i, s) => Some (increment, setj0 i (Some top) s))
  | None => Some (top, s)
  end.
Lemma statement_for : forall brk cnt insw i e inc x b s, statement brk cnt insw (SFor i e inc x) b s =
  let top := B (next s) in let body := B (S (next s)) in let increment := B (S (S (next s))) in let tail := B (S (S (S (next s)))) in
  bind (for_init i b (news L 4 s)) (fun '(b, s) => bind (for_cond e b top body tail s) (fun '(top, s) => bind (for_inc inc increment top s) (fun '(con, s) =>
  bind (statement (Some tail) (Some con) insw x body s) (fun '(body, s) => Some (tail, setj0 body (Some con) s))))).
Proof.
  intros brk cnt insw i e inc x b s. cbn [statement]. change (new_ (new_ (new_ (new_ s)))) with (news L 4 s).
  change (next (new_ (new_ (new_ s)))) with (S (S (S (next s)))). change (next (new_ (new_ s))) with (S (S (next s))). change (next (new_ s)) with (S (next s)).
  unfold for_init, for_cond, for_inc. cbv zeta.
  destruct (match i with Some i0 => expression_statement i0 b (news L 4 s) | None => Some (b, news L 4 s) end) as [[b0 s3]|]; [|reflexivity]. cbn [bind].
  destruct (match e with Some e0 => _ | None => _ end) as [[top s5]|]; [|reflexivity]. cbn [bind].
  destruct inc as [inc|]; [|reflexivity]. destruct (expression_statement inc _ s5) as [[i6 s6]|]; reflexivity.
Qed.

Lemma init_ok : forall i b s, canapp s b -> old s b -> isopen s b ->
  exists b0 s3, for_init i b s = Some (b0, s3) /\ good s b s3 b0 /\ isopen s3 b0 /\
  (fineo false i -> forall g, agr g s b s3 b0 -> match i with Some e => exs g e b (at_ s b) b0 (at_ s3 b0) | None => b0 = b /\ at_ s3 b0 = at_ s b end).
Proof.
  intros [e|] b s A O I; unfold for_init.
  - destruct (expr_stmt_ok law e b s A O) as (b' & s' & E & G & X). exists b', s'. split; [auto|]. split; [auto|]. split; [now apply G|]. intros F g Ag. apply X; auto.
  - exists b, s. split; [auto|]. split; [now apply good_refl|]. auto.
Qed.
Lemma for_cond_ok : forall e b top body tail s, old s b -> isopen s b -> blocks s top = empty_blk -> old s top -> b <> top ->
  exists top' s5, for_cond e b top body tail s = Some (top', s5) /\ (top' = top \/ top' = body) /\ grows s s5 /\ same_sw s s5 /\ chg s [b; top] s5 /\
  (fineo true e -> forall g, (forall d, d = b \/ d = top \/ (exists n, d = B n /\ next s <= n < next s5) -> g d = blocks s5 d) ->
   ends g b (at_ s b) top' /\ match e with Some e => top' = top /\ cond g e top 0 body tail | None => top' = body end).
Proof.
  intros [e|] b top body tail s O I Et Ot N; unfold for_cond.
  - remember (setj0 b (Some top) s) as s4 eqn:Hs4.
    assert (C4 : chg s [b] s4) by (subst s4; apply chg_setj0'). assert (N4 : next s4 = next s /\ tmp s4 = tmp s /\ same_sw s s4) by (subst s4; repeat split).
    destruct N4 as (N4 & T4 & SW4). assert (Gr4 : grows s s4) by (split; lia).
    assert (Et4 : blocks s4 top = empty_blk). { rewrite <- Et. apply (proj1 C4); auto. intros [Q|[]]. auto. }
    assert (O4 : old s4 b) by now apply old_grows with s. assert (Ot4 : old s4 top) by now apply old_grows with s.
    destruct (empty_ok s4 _ Et4) as (At & It & Zt).
    destruct (cond_ok law e top s4 At Ot4 It) as (p & r & s5 & E5 & G5 & I5 & X5). rewrite E5. cbn [bind].
    destruct (branch_facts s5 p r body tail) as (N6 & T6 & L6 & SW6 & C6).
    pose proof (brs_branch s5 p r body tail I5) as BR. pose proof (code_branch s5 p r body tail p) as BC.
    remember (branch p r body tail s5) as s6 eqn:Hs6. clear Hs6.
    assert (Gr5 : grows s4 s5) by apply G5. assert (C5 : chg s4 [top] s5) by apply G5. assert (T5 : tgt s4 top s5 p) by apply G5.
    assert (Gr6 : grows s5 s6) by (split; lia). assert (NUM : next s4 <= next s5 /\ next s5 = next s6) by (destruct Gr5; lia).
    exists top, s6. split; [reflexivity|]. split; [auto|]. split; [apply grows_trans with s4; auto; apply grows_trans with s5; auto|].
    split; [apply same_trans with s4; auto; apply same_trans with s5; auto; apply G5|].
    assert (C46 : chg s4 ([top] ++ [p]) s6) by (apply chg_cat with s5; auto).
    split.
    + eapply chg_sub; [apply chg_cat with s4; [auto|exact C4|exact C46]|]. intros y Hy Oy. clear - Hy Oy T5 O Ot N NUM N4. bid top; ids.
    + intros F g H. split; [|split; [auto|]].
      * apply ends_setj0; auto. rewrite <- Hs4. rewrite H by auto. apply (proj1 C46); auto. intros Hi. clear - Hi T5 O N NUM N4. bid b; bid top; ids.
      * assert (GP : g p = blocks s6 p). { apply H. clear - T5 NUM N4. destruct T5 as [->|(n & -> & Hn)]; auto. right; right. exists n. split; auto; lia. }
        rewrite <- Zt. apply X5; auto; [|now rewrite GP|now rewrite GP].
        split.
        -- intros c Hc Nc. rewrite H; [|destruct Hc as [->|(n & -> & Hn)]; auto; right; right; exists n; split; auto; lia].
           apply (proj1 C6); [|intros [Q|[]]; auto]. destruct Hc as [->|(n & -> & Hn)]; [now apply old_grows with s4|simpl; lia].
        -- exists []. now rewrite GP, BC, app_nil_r.
  - exists body, (setj0 b (Some body) s). split; [auto|]. split; [auto|]. split; [split; reflexivity|]. split; [repeat split|].
    split; [apply chg_setj0; [apply chg_refl|intros; now left]|]. intros _ g H. split; [|auto]. apply ends_setj0; auto.
Qed.
Lemma for_inc_ok : forall e incr top s, blocks s incr = empty_blk -> old s incr ->
  exists con s7, for_inc e incr top s = Some (con, s7) /\ con = match e with Some _ => incr | None => top end /\ grows s s7 /\ same_sw s s7 /\ chg s [incr] s7 /\
  (fineo false e -> forall g, (forall d, d = incr \/ (exists n, d = B n /\ next s <= n < next s7) -> g d = blocks s7 d) ->
   match e with Some e => exists b3 i3, exs g e con 0 b3 i3 /\ ends g b3 i3 top | None => True end).
Proof.
  intros [e|] incr top s Ei Oi; unfold for_inc.
  - destruct (empty_ok s _ Ei) as (Ai & Ii & Zi). destruct (expr_stmt_ok law e incr s Ai Oi) as (p & s6 & E & G & X). rewrite E. cbn [bind].
    remember (setj0 p (Some top) s6) as s7 eqn:Hs7.
    assert (C7 : chg s6 [p] s7) by (subst s7; apply chg_setj0'). assert (N7 : next s7 = next s6 /\ tmp s7 = tmp s6 /\ same_sw s6 s7) by (subst s7; repeat split).
    destruct N7 as (N7 & T7 & SW7). assert (Gr7 : grows s6 s7) by (split; lia). assert (T6 : tgt s incr s6 p) by apply G. assert (Gr6 : grows s s6) by apply G.
    assert (Op : old s6 p) by now apply good_old with s incr.
    exists incr, s7. split; [auto|]. split; [auto|]. split; [apply grows_trans with s6; auto|]. split; [apply same_trans with s6; auto; apply G|]. split.
    + apply chg_trans with s6 [p]; auto; [apply G|]. intros y [<-|[]] Oy. clear - T6 Oy. destruct T6 as [->|(n & -> & Hn)]; [now left|]. simpl in Oy. lia.
    + intros F g H. exists p, (at_ s6 p). assert (GP : g p = blocks s7 p). { apply H. clear - T6 N7. destruct T6 as [->|(n & -> & Hn)]; auto. right. exists n. split; auto; lia. }
      split.
      * rewrite <- Zi. apply X; auto. split.
        -- intros c Hc Nc. rewrite H; [|destruct Hc as [->|(n & -> & Hn)]; auto; right; exists n; split; auto; lia].
           apply (proj1 C7); [|intros [Q|[]]; auto]. destruct Hc as [->|(n & -> & Hn)]; [now apply old_grows with s|simpl; lia].
        -- exists []. rewrite GP, Hs7, blocks_setj0_same, app_nil_r. reflexivity.
      * apply ends_setj0; [now apply G|]. rewrite GP. now rewrite Hs7.
  - exists top, s. split; [auto|]. split; [auto|]. split; [apply grows_refl|]. split; [apply same_refl|]. split; [apply chg_refl|auto].
Qed.

Lemma PS_for : forall i e inc x, PS x -> PS (L := L) (SFor i e inc x).
Proof.
  intros i e inc x Hx brk cnt insw loop sw b s (A & O & I & ND & Lf & D1 & D2) Pl Hb Hc. cbn [labels defaults placed] in *. rewrite statement_for. cbv zeta.
  destruct (news_facts L 4 s) as (G2 & C2 & N2 & T2 & LEN & SW2 & EM). remember (news L 4 s) as s2 eqn:Hs2. clear Hs2.
  pose proof (EM 0 ltac:(lia)) as Et. pose proof (EM 1 ltac:(lia)) as Eb. pose proof (EM 2 ltac:(lia)) as Ei. pose proof (EM 3 ltac:(lia)) as En. clear EM.
  cbn [Nat.add] in Et, Eb, Ei, En, N2 |- *.
  assert (O2 : old s2 b) by now apply old_grows with s.
  assert (B2 : blocks s2 b = blocks s b) by (apply C2; auto).
  assert (Nx : forall l, In l (labels x) -> b = Lb l -> False) by (intros l H; now apply Lf).
  destruct (init_ok i b s2) as (b0 & s3 & E3 & G3 & I3 & X3); auto.
  { unfold canapp. now rewrite B2, LEN. } { unfold isopen. now rewrite B2. }
  rewrite E3. cbn [bind].
  assert (Gr3 : grows s2 s3) by apply G3. assert (C3 : chg s2 [b] s3) by apply G3. assert (T3 : tgt s2 b s3 b0) by apply G3.
  assert (O3 : old s3 b0) by now apply good_old with s2 b. assert (NUM3 : next s2 <= next s3) by apply Gr3.
  assert (Et3 : blocks s3 (B (next s)) = empty_blk).
  { rewrite <- Et. apply (proj1 C3); [simpl; lia|]. intros Hi. clear - Hi O. bid b; ids. }
  destruct (for_cond_ok e b0 (B (next s)) (B (S (next s))) (B (S (S (S (next s))))) s3) as (top' & s5 & E5 & Ht & Gr5 & SW5 & C5 & X5); auto.
  { simpl; lia. } { intros Q. clear - Q T3 O N2. bid b; ids. }
  rewrite E5. cbn [bind]. assert (NUM5 : next s3 <= next s5) by apply Gr5.
  assert (C25 : chg s2 ([b] ++ [b0; B (next s)]) s5) by (apply chg_cat with s3; auto). assert (Gr25 : grows s2 s5) by (apply grows_trans with s3; auto).
  assert (Ei5 : blocks s5 (B (S (S (next s)))) = empty_blk).
  { rewrite <- Ei. apply (proj1 C25); [simpl; lia|]. intros Hi. clear - Hi T3 O N2. bid b; ids. }
  destruct (for_inc_ok inc (B (S (S (next s)))) top' s5 Ei5) as (con & s7 & E7 & Hcon & Gr7 & SW7 & C7 & X7); [simpl; lia|]. rewrite E7. cbn [bind].
  assert (NUM7 : next s5 <= next s7) by apply Gr7. assert (Gr27 : grows s2 s7) by (apply grows_trans with s5; auto).
  assert (C27 : chg s2 (([b] ++ [b0; B (next s)]) ++ [B (S (S (next s)))]) s7) by (apply chg_cat with s5; auto).
  assert (C07 : chg s ([] ++ (([b] ++ [b0; B (next s)]) ++ [B (S (S (next s)))])) s7) by (apply chg_cat with s2; auto).
  assert (SW : same_sw s s7). { apply same_trans with s2; auto; apply same_trans with s3; [apply G3|]. apply same_trans with s5; auto. } destruct SW as (SWa & SWb & SWc).
  assert (Eb7 : blocks s7 (B (S (next s))) = empty_blk).
  { rewrite <- Eb. apply (proj1 C27); [simpl; lia|]. intros Hi. clear - Hi T3 O N2. bid b; ids. }
  destruct (empty_ok s7 _ Eb7) as (_ & _ & Zb).
  assert (Rd : ready s7 (B (S (next s))) x).
  { eapply ready_new; [auto| |exact C07| |auto|lia| |lia].
    - intros l Hl. rewrite SWa. destruct (Lf l Hl) as (? & ? & ?); auto.
    - intros l Hl Hi. clear - Hi T3 Nx Hl. ids.
    - now rewrite SWc. }
  destruct (Hx (Some (B (S (S (S (next s)))))) (Some con) insw true sw (B (S (next s))) s7 Rd Pl) as (b1 & s8 & cs & df & E8 & G8 & (S1 & S2 & S3 & S4) & X8).
  { split; congruence. } { intros Q. split; [now apply Hc|congruence]. } rewrite E8. cbn [bind].
  assert (O8 : old s8 b1) by (eapply goodS_oldl; eauto; apply Rd). destruct G8 as (Gr8 & C8 & T8 & A8 & I8).
  set (s9 := setj0 b1 (Some con) s8).
  assert (C89 : chg s8 [b1] s9) by apply chg_setj0'. assert (Gr9 : grows s8 s9) by (split; reflexivity).
  assert (C29 : chg s2 ((([b] ++ [b0; B (next s)]) ++ [B (S (S (next s)))]) ++ (B (S (next s)) :: lbs x) ++ [b1]) s9).
  { apply chg_cat with s7; auto. apply chg_cat with s8; auto. }
  assert (NUM8 : next s7 <= next s8 /\ next s9 = next s8) by (split; [apply Gr8|reflexivity]).
  exists (B (S (S (S (next s))))), s9, cs, df. split; [reflexivity|].
  assert (En9 : blocks s9 (B (S (S (S (next s))))) = empty_blk).
  { rewrite <- En. apply (proj1 C29); [simpl; lia|]. intros Hi. clear - Hi T3 T8 O NUM3 NUM5 NUM7 NUM8 N2. bid b; ids. }
  split; [|split].
  - split; [|split; [|split; [|split]]].
    + apply grows_trans with s2; auto. apply grows_trans with s7; auto.
    + eapply chg_sub; [apply chg_cat with s2; [auto|exact C2|exact C29]|].
      intros y Hy Oy. clear - Hy Oy T3 T8 O NUM3 NUM5 NUM7 NUM8 N2. bid b; ids.
    + right; right. eexists. split; [reflexivity|]. lia.
    + now apply empty_ok.
    + now apply empty_ok.
  - split; [|split; [|split]]; cbn [labels defaults].
    + intros l. change (defs s9) with (defs s8). rewrite S1, SWa. tauto.
    + change (cases s9) with (cases s8). now rewrite S2, SWb.
    + change (dflt s9) with (dflt s8). now rewrite S3, SWc.
    + exact S4.
  - intros lbls g (F1 & F2 & F3 & F4) Go Ag. cbn [gotos] in Go. cbn [tr].
    assert (Ag8 := agrE_back _ _ s8 s9 _ _ Ag Gr9 C89).
    assert (Ag7 := agrE_back _ _ s7 s8 _ _ Ag8 Gr8 C8).
    assert (Ag5 := agrE_back _ _ s5 s7 _ _ Ag7 Gr7 C7).
    assert (Ag3 := agrE_back _ _ s3 s5 _ _ Ag5 Gr5 C5).
    assert (H3 : agr g s2 b s3 b0).
    { eapply agrE_agr; [exact Ag3|auto|auto|]. intros c Hc0. clear - Hc0 T3 T8 O NUM3 NUM5 NUM7 NUM8 N2 Nx. bid b; ids. }
    specialize (X3 F1 g H3). rewrite (at_keep s s2 [] b) in X3 by auto.
    assert (H5 : forall d, d = b0 \/ d = B (next s) \/ (exists n, d = B n /\ next s3 <= n < next s5) -> g d = blocks s5 d).
    { intros d Hd. apply (proj1 Ag5).
      - clear - Hd T3 NUM3 NUM5 NUM7 NUM8 N2. ids.
      - destruct Hd as [->|[->|(n & -> & Hn)]]; [now apply old_grows with s3|simpl; lia|simpl; lia].
      - intros Hi. clear - Hi Hd T3 T8 O NUM3 NUM5 NUM7 NUM8 N2 Nx. bid b; ids. }
    destruct (X5 F2 g H5) as (Y1 & Y2).
    assert (H7 : forall d, d = B (S (S (next s))) \/ (exists n, d = B n /\ next s5 <= n < next s7) -> g d = blocks s7 d).
    { intros d Hd. apply (proj1 Ag7).
      - clear - Hd T3 NUM3 NUM5 NUM7 NUM8 N2. ids.
      - destruct Hd as [->|(n & -> & Hn)]; simpl; lia.
      - intros Hi. clear - Hi Hd T3 T8 O NUM3 NUM5 NUM7 NUM8 N2. ids. }
    specialize (X7 F3 g H7).
    exists b0, (at_ s3 b0), top', (B (S (next s))), b1, (at_ s8 b1), con. split; [|split; [|split; [|split; [|split; [|split]]]]].
    + destruct i; auto.
    + right. exact Y1.
    + destruct e; [destruct Y2 as (-> & Y2); auto|auto].
    + rewrite <- Zb. apply X8; auto. eapply agrE_sub; [exact Ag8|]. intros c Hc0. clear - Hc0 T3 T8 NUM3 NUM5 NUM7 NUM8 N2. ids.
    + apply ends_setj0; auto. apply (proj1 Ag).
      * clear - T8 NUM3 NUM5 NUM7 NUM8 N2. ids.
      * apply O8.
      * intros Hi. clear - Hi T8 NUM3 NUM5 NUM7 NUM8 N2. ids.
    + destruct inc as [inc|]; [|auto]. destruct X7 as (b3 & i3 & Z1 & Z2). exists b3, i3. split; [auto|]. right. auto.
    + now apply empty_ok.
Qed.
End For.
