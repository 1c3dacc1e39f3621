(* Expressions: the conditional operator, and all expressions together. *)
From Coq Require Import ZArith List Bool Arith Lia.
From Verif Require Import CfgSyntax CfgModel CfgSpec CfgProofs CfgExpr.
Import ListNotations.

Section Cond.
Variable L : lang.
Hypothesis law : lawful L.
Local Notation state := (st L).
Local Notation graph := (id -> blk L).

Definition pickb (u : bool) {X} (y z : X) : X := if u then y else z.
Definition again (ty : option Z) (lft : id) (rl : res L) (s : state) : option (id * res L * state) :=
  match ty with None => Some (lft, RId (DImm (voidv L)), s) | Some _ => bind (eval_ lft rl s) (fun '(d, s) => Some (lft, cast_res ty d, s)) end.
Definition cond_none (ty : option Z) (y z : expr L) (b : id) (r : res L) (s : state) : option (id * res L * state) :=
      let lft := B (next s) in let s := new_ s in
      let rgt := B (next s) in let s := new_ s in
      let s := setj1 b (Some lft) (setj0 b (Some rgt) (sete b r s)) in
      let join := B (next s) in let s := new_ s in
      bind (lower y lft s) (fun '(lft, rl, s) => bind (eval_ lft rl s) (fun '(dl, s) =>
      bind (lower z rgt s) (fun '(rgt, rr, s) => bind (eval_ rgt rr s) (fun '(dr, s) =>
      match ty with
      | None => Some (join, RId (DImm (voidv L)), setj0 rgt (Some join) (setj0 lft (Some join) s))
      | Some ty =>
        let n := tmp s in
        bind (append rgt (ITemp n (Some ty) (RId dr)) (settmp (S n) s)) (fun s =>
        let extra := B (next s) in
        bind (append extra (ITemp n (Some ty) (RId dl)) (setj0 lft (Some extra) (new_ s))) (fun s =>
        Some (join, RId (DTmp n), setj0 rgt (Some join) (setj0 extra (Some join) s))))
      end)))).
Lemma lower_cond : forall ty x y z b s, lower (ECond ty x y z) b s =
  bind (lower x b s) (fun '(b, r, s) =>
  match imm_bool r with
  | Some true =>
    bind (lower y b s) (fun '(lft, rl, s) => bind (eval_ lft rl s) (fun '(_, s) => let n := len s in
    bind (lower z (B (next s)) (new_ s)) (fun '(rgt, rr, s) => bind (eval_ rgt rr s) (fun '(_, s) => again ty lft rl (setlen n s)))))
  | Some false =>
    let n := len s in
    bind (lower y (B (next s)) (new_ s)) (fun '(lft, rl, s) => bind (eval_ lft rl s) (fun '(_, s) =>
    let s := setlen n s in
    bind (lower z b s) (fun '(rgt, rr, s) => bind (eval_ rgt rr s) (fun '(_, s) => again ty rgt rr s))))
  | None => cond_none ty y z b r s
  end).
Proof. reflexivity. Qed.

Lemma shape_cond_const : forall ty (x y z : expr L) u c, constant x = Some u ->
  (ty = None -> c = RId (DImm (voidv L))) /\ (forall k v, ty = Some k -> constant (if truth L u then y else z) = Some v -> c = RId (DImm (castv L k v)))
          /\ (forall k, ty = Some k -> constant (if truth L u then y else z) = None -> exists d, c = RCast k d) -> shape (ECond ty x y z) c.
Proof.
  intros ty x y z u c Cx (H1 & H2 & H3). destruct ty as [k|].
  - assert (Cc : constant (ECond (Some k) x y z) = match constant (if truth L u then y else z) with Some v => Some (castv L k v) | None => None end)
      by (cbn [constant]; rewrite Cx; destruct (truth L u); reflexivity).
    destruct (constant (if truth L u then y else z)) as [v|].
    + rewrite (H2 k v eq_refl eq_refl). unfold shape. rewrite Cc. split; [intros; congruence|]. split; [discriminate|]. split; [reflexivity|].
      split; [intros; eexists; reflexivity|]. split; [split; discriminate|discriminate].
    + destruct (H3 k eq_refl eq_refl) as [d ->]. unfold shape. rewrite Cc. split; [discriminate|]. split; [discriminate|]. split; [reflexivity|].
      split; [|split; [split; discriminate|discriminate]]. cbn [direct]. rewrite Cc, Cx. discriminate.
  - rewrite H1 by reflexivity. unfold shape. cbn [constant direct]. split; [intros; congruence|]. split; [discriminate|]. split; [reflexivity|].
    split; [intros; eexists; reflexivity|]. split; [split; discriminate|discriminate].
Qed.
Lemma sem_cond : forall ty (x y z : expr L) m, sem late_ (ECond ty x y z) m =
    let '(t1, m, r1) := sem late_ x m in
    let '(t2, m, r2) := sem late_ (if truth L (rvalue r1 m) then y else z) m in
    (t1 ++ t2, m, Val (val_ ty (rvalue r2 m))).
Proof. intros ty x y z m. cbn [sem]. destruct (sem late_ x m) as [[t1 m1] r1]. destruct (truth L (rvalue r1 m1)); reflexivity. Qed.

Section Const.
Variables (ty : option Z) (x y z : expr L).
Hypotheses (Px : P x) (Py : P y) (Pz : P z).
Lemma P_cond_const : forall b s b1 u s1, canapp s b -> old s b -> lower x b s = Some (b1, RId (DImm u), s1) ->
  exists b' c s', lower (ECond ty x y z) b s = Some (b', c, s') /\ good s b s' b'
    /\ forall v, fine v (ECond ty x y z) -> shape (ECond ty x y z) c /\ (isopen s b -> forall g, agr g s b s' b' -> exr g (ECond ty x y z) b (at_ s b) b' (at_ s' b') c (tmp s) (tmp s')).
Proof.
  intros b s b1 u s1 A O E1. rewrite lower_cond, E1. cbn [bind imm_bool].
  destruct (Px b s A O) as (b1' & c1' & s1' & E1' & G1 & F1).
  assert (b1' = b1 /\ c1' = RId (DImm u) /\ s1' = s1) as (-> & -> & ->) by (repeat split; congruence). clear E1'.
  assert (O1 : old s1 b1) by now apply good_old with s b. assert (A1 : canapp s1 b1) by apply G1.
  (* the arm, from a state which is as good as s1 *)
  assert (Z : exists s1x b' c s', good s1 b1 s1x b1 /\ blocks s1x b1 = blocks s1 b1 /\
    (if truth L u then
      bind (lower y b1 s1) (fun '(lft, rl, s) => bind (eval_ lft rl s) (fun '(_, s) => let n := len s in
      bind (lower z (B (next s)) (new_ s)) (fun '(rgt, rr, s) => bind (eval_ rgt rr s) (fun '(_, s) => again ty lft rl (setlen n s)))))
     else let n := len s1 in
      bind (lower y (B (next s1)) (new_ s1)) (fun '(lft, rl, s) => bind (eval_ lft rl s) (fun '(_, s) =>
      let s := setlen n s in
      bind (lower z b1 s) (fun '(rgt, rr, s) => bind (eval_ rgt rr s) (fun '(_, s) => again ty rgt rr s))))) = Some (b', c, s')
    /\ good s1x b1 s' b' /\ let w := if truth L u then y else z in
     (fine (valued_ ty) w -> (ty <> None -> is_call w = false) ->
         ((ty = None -> c = RId (DImm (voidv L))) /\ (forall y v, ty = Some y -> constant w = Some v -> c = RId (DImm (castv L y v)))
          /\ (forall y, ty = Some y -> constant w = None -> exists d, c = RCast y d))
         /\ (isopen s1x b1 -> forall g, agr g s1x b1 s' b' -> forall m t tr m' r, sem late_ w m = (tr, m', r) ->
             exists t', star g (Run b1 (at_ s1x b1) m t []) tr (Run b' (at_ s' b') m' t' []) /\ (forall n, n < tmp s1x -> t' n = t n)
               /\ run c m' t' [] = (val_ ty (rvalue r m'), m', [], []) /\ plain c /\ belowr c (tmp s')))).
  { destruct (truth L u).
    - destruct (pick L ty y Py b1 s1 A1 O1) as (lft & rl & s2 & d & s3 & E2 & E3 & G3 & X).
      assert (O3 : old s3 lft) by now apply good_old with s1 b1. assert (A3 : canapp s3 lft) by apply G3.
      destruct (throwaway L z lft s3 Pz A3 O3) as (rgt & rr & s4 & d4 & s5 & E4 & E5 & G5 & Bl).
      destruct (X (setlen (len s3) s5) G5 Bl) as (c & s6 & E6 & G6 & F).
      exists s1, lft, c, s6. split; [now apply good_refl|]. split; [reflexivity|]. rewrite E2. cbn [bind]. rewrite E3. cbn [bind]. cbv zeta. rewrite E4. cbn [bind]. rewrite E5. cbn [bind].
      split; [exact E6|]. split; [|exact F]. apply good_trans with s3 lft; [exact G3|]. now apply good_trans with (setlen (len s3) s5) lft.
    - destruct (throwaway L y b1 s1 Py A1 O1) as (rgt & rr & s4 & d4 & s5 & E4 & E5 & G5 & Bl).
      set (s1x := setlen (len s1) s5) in *.
      assert (O5 : old s1x b1) by now apply good_old with s1 b1. assert (A5 : canapp s1x b1) by apply G5.
      destruct (pick L ty z Pz b1 s1x A5 O5) as (lft & rl & s2 & d & s3 & E2 & E3 & G3 & X).
      destruct (X s3 (good_refl L s3 lft ltac:(apply G3)) eq_refl) as (c & s6 & E6 & G6 & F).
      exists s1x, lft, c, s6. split; [exact G5|]. split; [exact Bl|]. cbv zeta. rewrite E4. cbn [bind]. rewrite E5. cbn [bind]. fold s1x. rewrite E2. cbn [bind]. rewrite E3. cbn [bind].
      split; [exact E6|]. split; [|exact F]. now apply good_trans with s3 lft. }
  destruct Z as (s1x & b' & c & s' & Gx & Bx & E & G2 & F). exists b', c, s'.
  split; [destruct (truth L u); exact E|]. assert (G1x : good s b s1x b1) by now apply good_trans with s1 b1.
  split; [now apply good_trans with s1x b1|]. intros v (Hv & Fx & Fy & Fz & Hc). cbv zeta in F.
  destruct (F1 _ Fx) as ((S1 & S2 & _) & X1).
  assert (Cx : constant x = Some u) by (destruct (constant x) as [w|] eqn:Cw; [pose proof (S1 w eq_refl); congruence|now destruct (S2 eq_refl u)]).
  rewrite Cx in Hc.
  assert (Fw : fine (valued_ ty) (if truth L u then y else z)) by (destruct (truth L u); [exact Fy|exact Fz]).
  assert (Hc' : ty <> None -> is_call (if truth L u then y else z) = false) by (destruct ty; [auto|congruence]).
  destruct (F Fw Hc') as (Sh & X). split; [now apply shape_cond_const with u|].
  intros I g Ag m t tr m' r S. destruct (agr_trans L g s b s1x b1 s' b' O G1x G2 Ag) as [Ag1 Ag2].
  destruct (agr_trans L g s b s1 b1 s1x b1 O G1 Gx Ag1) as [Ag3 _].
  rewrite sem_cond in S. destruct (sem late_ x m) as [[t1 m1] ra] eqn:Sx.
  destruct (exr_imm L _ _ _ _ _ _ _ _ _ _ t _ _ _ (X1 I g Ag3) Sx) as (Rv & t' & T & K). rewrite Rv in S.
  destruct (sem late_ (if truth L u then y else z) m1) as [[t2 m2] rb] eqn:Sw. 
  assert (Ix : isopen s1x b1) by (apply G1x; auto).
  destruct (X Ix g Ag2 m1 t' _ _ _ Sw) as (t'' & T' & K' & R & Pl & Bw).
  assert (tr = t1 ++ t2 /\ m' = m2 /\ r = Val (val_ ty (rvalue rb m2))) as (-> & -> & ->) by (repeat split; congruence).
  apply exr_plain with t''; auto.
  - eapply star_trans; [exact T| |reflexivity]. replace (at_ s1 b1) with (at_ s1x b1) by (unfold at_; now rewrite Bx). exact T'.
  - intros n Hn. rewrite K'; auto. assert (tmp s <= tmp s1x) by apply G1x. lia.
Qed.
End Const.

(* the ends of the two arms *)
Definition cond_end (ty : option Z) (join lft rgt : id) (dl dr : opd L) (s : state) : option (id * res L * state) :=
      match ty with
      | None => Some (join, RId (DImm (voidv L)), setj0 rgt (Some join) (setj0 lft (Some join) s))
      | Some ty =>
        let n := tmp s in
        bind (append rgt (ITemp n (Some ty) (RId dr)) (settmp (S n) s)) (fun s =>
        let extra := B (next s) in
        bind (append extra (ITemp n (Some ty) (RId dl)) (setj0 lft (Some extra) (new_ s))) (fun s =>
        Some (join, RId (DTmp n), setj0 rgt (Some join) (setj0 extra (Some join) s))))
      end.
Lemma cond_end_ok : forall ty join lft rgt dl dr s, old s lft -> old s rgt -> old s join -> lft <> rgt -> join <> lft -> join <> rgt -> canapp s rgt ->
  exists c sf, cond_end ty join lft rgt dl dr s = Some (join, c, sf) /\ grows s sf /\ same_sw s sf /\ chg s [lft; rgt] sf
    /\ c = match ty with None => RId (DImm (voidv L)) | Some _ => RId (DTmp (tmp s)) end /\ belowr c (tmp sf)
    /\ (isopen s lft -> isopen s rgt -> forall g : graph, g lft = blocks sf lft -> g rgt = blocks sf rgt -> (forall k, next s <= k < next sf -> g (B k) = blocks sf (B k)) ->
        forall (u : bool) m t r, opd_ok (if u then dl else dr) r t ->
        exists t', star g (Run (if u then lft else rgt) (at_ s (if u then lft else rgt)) m t []) [] (Run join 0 m t' []) /\ (forall n, n < tmp s -> t' n = t n)
          /\ pend_ok c (Val (val_ ty (rvalue r m))) t').
Proof.
  intros ty join lft rgt dl dr s Ol Or Oj N N1 N2 A. unfold cond_end. destruct ty as [k|].
  - destruct (append_tmp_ok L rgt (ITemp (tmp s) (Some k) (RId dr)) (S (tmp s)) s A Or) as (s1 & E1 & G1 & C1 & _ & J1 & K1 & _ & Nx1 & T1 & F1); [lia|].
    rewrite E1. cbn [bind]. set (ex := B (next s1)). set (s2 := setj0 lft (Some ex) (new_ s1)).
    assert (Nl : lft <> ex) by (unfold ex; rewrite Nx1; nq). assert (Nr : rgt <> ex) by (unfold ex; rewrite Nx1; nq). assert (Nj : join <> ex) by (unfold ex; rewrite Nx1; nq).
    assert (A2 : canapp s2 ex) by (left; unfold s2, ex in *; gt; reflexivity).
    assert (O2 : old s2 ex) by (unfold ex; simpl; lia).
    destruct (append_ok L ex (ITemp (tmp s) (Some k) (RId dl)) s2 A2 O2) as (s3 & E3 & G3 & C3 & _ & J3 & K3 & _ & Nx3 & T3 & F3).
    rewrite E3. cbn [bind]. set (sf := setj0 rgt (Some join) (setj0 ex (Some join) s3)).
    assert (Bl : blocks sf lft = let k := blocks s lft in Blk (head k) (code k) (bexpr k) (Some ex) (jump1 k) (retv k)).
    { unfold sf. rewrite !blocks_setj0_other by auto. rewrite F3 by auto. unfold s2. rewrite blocks_setj0_same, new_other by auto. rewrite F1 by auto. reflexivity. }
    assert (Cr : code (blocks sf rgt) = code (blocks s rgt) ++ [ITemp (tmp s) (Some k) (RId dr)] /\ jump0 (blocks sf rgt) = Some join /\ jump1 (blocks sf rgt) = jump1 (blocks s rgt)).
    { unfold sf. rewrite blocks_setj0_same. rewrite blocks_setj0_other by auto. rewrite F3 by auto. unfold s2. rewrite blocks_setj0_other, new_other by auto. simpl. auto. }
    assert (Ce : code (blocks sf ex) = [ITemp (tmp s) (Some k) (RId dl)] /\ jump0 (blocks sf ex) = Some join /\ jump1 (blocks sf ex) = None).
    { unfold sf. rewrite blocks_setj0_other by auto. rewrite blocks_setj0_same. simpl. rewrite C3, K3. unfold s2. rewrite blocks_setj0_other by auto.
      unfold ex. rewrite new_same. simpl. auto. }
    assert (Nxf : next sf = S (next s)) by (transitivity (next s3); [reflexivity|]; rewrite Nx3; change (S (next s1) = S (next s)); now rewrite Nx1).
    assert (Tf : tmp sf = S (tmp s)) by (unfold sf; change (tmp s3 = S (tmp s)); rewrite T3; exact T1).
    exists (RId (DTmp (tmp s))), sf. split; [reflexivity|]. split; [split; lia|]. split; [|split; [|split; [reflexivity|split; [change (tmp s < tmp sf); lia|]]]].
    + apply same_trans with s1; [apply G1|]. apply same_trans with s2; [repeat split|]. apply same_trans with s3; [apply G3|repeat split].
    + assert (C02 : chg s [lft; rgt] s2).
      { apply chg_setj0; [|intros _; simpl; auto]. apply chg_new; [apply G1|]. destruct G1 as (_ & _ & (Ca & Cb) & _). split; [|exact Cb].
        intros c Oc Nc. apply Ca; auto. intros [<-|[]]. apply Nc. simpl; auto. }
      assert (Ge : grows s s2) by (split; unfold s2; simpl; lia).
      assert (Nex : ~ old s ex) by (unfold ex; simpl; lia).
      apply chg_setj0; [apply chg_setj0; [|intros O'; contradiction]|intros _; simpl; auto].
      apply chg_trans with s2 [ex]; [exact Ge|exact C02|apply G3|]. intros c [<-|[]] O'. contradiction.
    + intros Il Ir g Gl Gr Gn u m t r Hd.
      assert (Ge : g ex = blocks sf ex) by (unfold ex; apply Gn; lia).
      destruct Cr as (Cr1 & Cr2 & Cr3). destruct Ce as (Ce1 & Ce2 & Ce3).
      assert (Ex : exec (ITemp (tmp s) (Some k) (RId (if u then dl else dr))) m t [] = (m, fun j => if Nat.eqb j (tmp s) then castv L k (rvalue r m) else t j, [], [])).
      { cbn [exec run]. now rewrite (opd_now L _ _ _ m Hd). }
      exists (fun j => if Nat.eqb j (tmp s) then castv L k (rvalue r m) else t j). split; [|split].
      * destruct u.
        -- eapply star_trans with (t := []) (u := []); [| |reflexivity].
           ++ replace (at_ s lft) with (length (code (g lft))) by (rewrite Gl, Bl; reflexivity). apply step_jump with (j := ex); rewrite Gl, Bl; [reflexivity|apply Il].
           ++ eapply star_trans with (t := []) (u := []); [| |reflexivity].
              ** eapply step_instr; [rewrite Ge, Ce1; reflexivity|exact Ex].
              ** replace 1 with (length (code (g ex))) by (rewrite Ge, Ce1; reflexivity). apply step_jump; rewrite Ge; auto.
        -- eapply star_trans with (t := []) (u := []); [| |reflexivity].
           ++ eapply step_instr; [rewrite Gr, Cr1; unfold at_; rewrite nth_error_app2 by lia; rewrite Nat.sub_diag; reflexivity|exact Ex].
           ++ replace (S (at_ s rgt)) with (length (code (g rgt))) by (rewrite Gr, Cr1, app_length; unfold at_; simpl; lia).
              apply step_jump; rewrite Gr; auto. rewrite Cr3. apply Ir.
      * intros n Hn. destruct (Nat.eqb_spec n (tmp s)); [lia|reflexivity].
      * simpl. now rewrite Nat.eqb_refl.
  - set (sf := setj0 rgt (Some join) (setj0 lft (Some join) s)). exists (RId (DImm (voidv L))), sf. split; [reflexivity|].
    split; [split; simpl; lia|]. split; [repeat split|]. split; [|split; [reflexivity|split; [exact Logic.I|]]].
    + apply chg_setj0; [apply chg_setj0; [apply chg_refl|]|]; intros _; simpl; auto.
    + intros Il Ir g Gl Gr _ u m t r Hd. exists t. split; [|split; [auto|reflexivity]].
      assert (Bl : blocks sf lft = let k := blocks s lft in Blk (head k) (code k) (bexpr k) (Some join) (jump1 k) (retv k)) by (unfold sf; gt; reflexivity).
      assert (Br : blocks sf rgt = let k := blocks s rgt in Blk (head k) (code k) (bexpr k) (Some join) (jump1 k) (retv k)) by (unfold sf; gt; reflexivity).
      destruct u.
      * replace (at_ s lft) with (length (code (g lft))) by (rewrite Gl, Bl; reflexivity). apply step_jump; rewrite Gl, Bl; [reflexivity|apply Il].
      * replace (at_ s rgt) with (length (code (g rgt))) by (rewrite Gr, Br; reflexivity). apply step_jump; rewrite Gr, Br; [reflexivity|apply Ir].
Qed.

Lemma P_cond_none : forall ty (x y z : expr L), P x -> P y -> P z -> forall b s b1 r s1, canapp s b -> old s b -> lower x b s = Some (b1, r, s1) -> imm_bool r = None ->
  exists b' c s', lower (ECond ty x y z) b s = Some (b', c, s') /\ good s b s' b'
    /\ forall v, fine v (ECond ty x y z) -> shape (ECond ty x y z) c /\ (isopen s b -> forall g, agr g s b s' b' -> exr g (ECond ty x y z) b (at_ s b) b' (at_ s' b') c (tmp s) (tmp s')).
Proof.
  intros ty x y z Px Py Pz b s b1 r s1 A O E1 IB. rewrite lower_cond, E1. cbn [bind]. rewrite IB. unfold cond_none. norm_next.
  destruct (Px b s A O) as (b1' & c1' & s1' & E1' & G1 & F1).
  assert (b1' = b1 /\ c1' = r /\ s1' = s1) as (-> & -> & ->) by (repeat split; congruence). clear E1'.
  assert (O1 : old s1 b1) by now apply good_old with s b.
  set (n := next s1) in *. set (lft := B n). set (rgt := B (S n)). set (join := B (S (S n))).
  set (s2 := new_ (setj1 b1 (Some lft) (setj0 b1 (Some rgt) (sete b1 r (new_ (new_ s1)))))).
  assert (D : b1 <> lft /\ b1 <> rgt /\ b1 <> join /\ lft <> rgt /\ lft <> join /\ rgt <> join) by (unfold lft, rgt, join, n; repeat split; nq).
  destruct D as (D1 & D2 & D3 & D4 & D5 & D6).
  assert (Nx2 : next s2 = S (S (S n))) by reflexivity. assert (Tm2 : tmp s2 = tmp s1) by reflexivity.
  assert (Bb : blocks s2 b1 = Blk (head (blocks s1 b1)) (code (blocks s1 b1)) r (Some rgt) (Some lft) (retv (blocks s1 b1))).
  { unfold s2. rewrite new_other by exact D3. rewrite blocks_setj1_same, blocks_setj0_same, blocks_sete_same. rewrite new_other by exact D2. rewrite new_other by exact D1. reflexivity. }
  assert (Be : blocks s2 lft = empty_blk /\ blocks s2 rgt = empty_blk /\ blocks s2 join = empty_blk).
  { unfold s2. split; [|split].
    - rewrite new_other by exact D5. rewrite blocks_setj1_other, blocks_setj0_other, blocks_sete_other by auto. rewrite new_other by exact D4. apply new_same.
    - rewrite new_other by exact D6. rewrite blocks_setj1_other, blocks_setj0_other, blocks_sete_other by auto. apply new_same.
    - apply new_same. }
  destruct Be as (Be1 & Be2 & Be3).
  assert (C12 : chg s1 [b1] s2).
  { unfold s2. apply chg_new; [split; simpl; lia|]. apply chg_setj1; [apply chg_setj0; [apply chg_sete|]|]; try (intros _; now left).
    apply chg_new; [split; simpl; lia|]. apply chg_new1. }
  assert (Sw12 : same_sw s1 s2) by repeat split. assert (Gr12 : grows s1 s2) by (split; lia).
  assert (A2 : canapp s2 lft) by (left; now rewrite Be1). assert (O2 : old s2 lft) by (simpl; lia).
  assert (I2 : isopen s2 lft) by (unfold isopen; now rewrite Be1).
  clearbody s2.
  destruct (value_ok L y lft s2 Py A2 O2) as (lft' & rl & s2' & dl & s3 & E2 & E3 & _ & _ & G3 & F3).
  rewrite E2. cbn [bind]. rewrite E3. cbn [bind].
  assert (Gr23 : grows s2 s3) by apply G3. assert (C23 : chg s2 [lft] s3) by apply G3. assert (T3 : tgt s2 lft s3 lft') by apply G3.
  assert (Br3 : blocks s3 rgt = empty_blk). { rewrite (proj1 C23 rgt); [auto|simpl; lia|]. intros [Q|[]]. now apply D4. }
  assert (Bj3 : blocks s3 join = empty_blk). { rewrite (proj1 C23 join); [auto|simpl; lia|]. intros [Q|[]]. now apply D5. }
  assert (Ol3 : old s3 lft') by now apply good_old with s2 lft.
  assert (A3 : canapp s3 rgt) by (left; now rewrite Br3). assert (O3 : old s3 rgt) by (simpl; destruct Gr23; lia).
  assert (I3 : isopen s3 rgt) by (unfold isopen; now rewrite Br3).
  destruct (value_ok L z rgt s3 Pz A3 O3) as (rgt' & rr & s3' & dr & s4 & E4 & E5 & _ & _ & G4 & F4).
  rewrite E4. cbn [bind]. rewrite E5. cbn [bind].
  assert (Gr34 : grows s3 s4) by apply G4. assert (C34 : chg s3 [rgt] s4) by apply G4. assert (T4 : tgt s3 rgt s4 rgt') by apply G4.
  assert (Dl : lft' <> rgt /\ lft' <> join /\ lft' <> b1).
  { destruct T3 as [->|(k & -> & Hk)]; [auto|]. unfold rgt, join. repeat split; try (intros Q; injection Q; lia). intros <-. simpl in O1. unfold n in *. lia. }
  destruct Dl as (Dl1 & Dl2 & Dl3).
  assert (Dr : rgt' <> lft' /\ rgt' <> join /\ rgt' <> b1).
  { destruct T4 as [->|(k & -> & Hk)]; [auto|]. destruct Gr23. split; [|split].
    - intros <-. simpl in Ol3. lia.
    - unfold join. intros Q; injection Q; lia.
    - intros <-. simpl in O1. unfold n in *. lia. }
  destruct Dr as (Dr1 & Dr2 & Dr3).
  assert (Bj4 : blocks s4 join = empty_blk). { rewrite (proj1 C34 join); [auto|simpl; destruct Gr23; lia|]. intros [Q|[]]. now apply D6. }
  assert (Bl4 : blocks s4 lft' = blocks s3 lft'). { apply (proj1 C34 lft'); auto. intros [Q|[]]. now apply Dl1. }
  assert (Ol4 : old s4 lft') by now apply old_grows with s3. assert (Or4 : old s4 rgt') by now apply good_old with s3 rgt.
  assert (Oj4 : old s4 join) by (simpl; destruct Gr23, Gr34; lia).
  assert (A4 : canapp s4 rgt') by apply G4.
  destruct (cond_end_ok ty join lft' rgt' dl dr s4 Ol4 Or4 Oj4 (not_eq_sym Dr1) (not_eq_sym Dl2) (not_eq_sym Dr2) A4) as (c & sf & Ef & Gr4f & Sw4f & C4f & Ec & Bc & X).
  unfold cond_end in Ef. rewrite Ef. exists join, c, sf. split; [reflexivity|].
  assert (Bjf : blocks sf join = empty_blk). { rewrite (proj1 C4f join); auto. intros [Q|[Q|[]]]; [now apply Dl2|now apply Dr2]. }
  assert (Grf : grows s2 sf). { apply grows_trans with s3; [auto|]. now apply grows_trans with s4. }
  assert (C3f : chg s3 [rgt; lft'] sf).
  { apply chg_trans with s4 [lft'; rgt']; [exact Gr34| |exact C4f|].
    - split; [|apply C34]. intros q Oq Nq. apply C34; auto. intros [<-|[]]. apply Nq. simpl; auto.
    - intros q [<-|[<-|[]]] Oq; [simpl; auto|]. destruct T4 as [->|(k & -> & Hk)]; [simpl; auto|]. simpl in Oq. lia. }
  assert (C2f : chg s2 [lft; rgt] sf).
  { apply chg_trans with s3 [rgt; lft']; [exact Gr23| |exact C3f|].
    - split; [|apply C23]. intros q Oq Nq. apply C23; auto. intros [<-|[]]. apply Nq. simpl; auto.
    - intros q [<-|[<-|[]]] Oq; [simpl; auto|]. destruct T3 as [->|(k & -> & Hk)]; [simpl; auto|]. simpl in Oq. lia. }
  assert (C1f : chg s1 [b1] sf).
  { apply chg_trans with s2 [lft; rgt]; auto. intros q [<-|[<-|[]]] Oq; simpl in Oq; unfold n in *; lia. }
  assert (Gr1 : grows s s1) by apply G1.
  assert (Grsf : grows s sf) by (apply grows_trans with s1; [auto|]; now apply grows_trans with s2).
  split.
  - split; [exact Grsf|]. split; [|split; [|split; [|split; [|split]]]].
    + apply same_trans with s1; [apply G1|]. apply same_trans with s2; [exact Sw12|]. apply same_trans with s3; [apply G3|]. apply same_trans with s4; [apply G4|exact Sw4f].
    + apply chg_trans with s1 [b1]; [exact Gr1|apply G1|exact C1f|]. intros q [<-|[]] Oq. destruct G1 as (_ & _ & _ & [->|(k & -> & Hk)] & _); [now left|]. simpl in Oq. lia.
    + right. exists (S (S n)). split; [reflexivity|]. destruct Gr1, Grf. unfold n in *. lia.
    + left. now rewrite Bjf.
    + intros _. unfold isopen. now rewrite Bjf.
    + intros Ob Q. subst b. simpl in Ob. destruct Gr1. unfold n in *. lia.
  - intros v (Hv & Fx & Fy & Fz & _). destruct (F1 _ Fx) as ((S1 & S2 & _) & X1).
    assert (Cx : constant x = None) by (destruct (constant x) as [w|]; auto; rewrite (S1 w eq_refl) in IB; discriminate).
    split.
    + subst c. unfold shape. destruct ty as [k|]; cbn [constant direct is_call relational_ isvoid]; rewrite ?Cx.
      * split; [discriminate|]. split; [discriminate|]. split; [reflexivity|]. split; [intros; eexists; reflexivity|]. split; [split; discriminate|discriminate].
      * split; [intros; congruence|]. split; [discriminate|]. split; [reflexivity|]. split; [intros; eexists; reflexivity|]. split; [split; discriminate|discriminate].
    + intros I g Ag m t tr m' rs Hs. rewrite sem_cond in Hs. destruct (sem late_ x m) as [[t1 m1] ra] eqn:Sx.
      destruct Gr1 as [Gr1 Grt1], Grf as [Grf Grft].
      assert (Own1 : forall q, own s b s1 q -> old s1 q).
      { intros q [->|(k & -> & Hk)]; [apply old_grows with s; [auto|apply G1]|simpl; lia]. }
      assert (Ownf : forall q, (q = b1 \/ exists k, q = B k /\ n <= k < next sf) -> q <> join -> g q = blocks sf q).
      { intros q Hq Nq. apply (agr_full L _ _ _ _ _ _ Ag); auto. destruct Hq as [->|(k & -> & Hk)]; [|right; exists k; split; auto; unfold n in *; lia].
        destruct G1 as (_ & _ & _ & [->|(k & -> & Hk)] & _); [now left|right; exists k; split; auto; unfold n in *; lia]. }
      assert (Ag1 : agr g s b s1 b1).
      { apply agr_sub with s b sf join [b1]; auto.
        - intros q [->|(k & -> & Hk)]; [now left|right; exists k; split; auto; unfold n in *; lia].
        - intros q [<-|[]]. now left.
        - right. intros Q. apply Own1 in Q. simpl in Q. unfold n in *. lia. }
      assert (Ag2 : agr g s2 lft s3 lft').
      { apply agr_sub with s b sf join [rgt; lft']; auto.
        - intros q [->|(k & -> & Hk)]; right; eexists; (split; [reflexivity|]); destruct Gr34, Gr4f; unfold n in *; lia.
        - intros q [<-|[<-|[]]]; [right|now left]. intros [Q|(k & Q & Hk)]; [now apply D4|]. injection Q. unfold n in *. lia.
        - right. intros [Q|(k & Q & Hk)]; [now apply D5|]. injection Q. unfold n in *. lia. }
      assert (Ag3 : agr g s3 rgt s4 rgt').
      { apply agr_sub with s b sf join [lft'; rgt']; auto.
        - intros q [->|(k & -> & Hk)]; right; eexists; (split; [reflexivity|]); destruct Gr4f, Gr23, Gr34; unfold n in *; lia.
        - intros q [<-|[<-|[]]]; [right|now left]. intros [Q|(k & Q & Hk)]; [congruence|]. subst lft'. simpl in Ol3. lia.
        - right. intros [Q|(k & Q & Hk)]; [now apply D6|]. injection Q. unfold n in *. destruct Gr23. lia. }
      destruct (X1 I g Ag1 m t _ _ _ Sx) as (tr1 & tr2 & mm & t' & ps & T & -> & K & Rn & _ & _).
      assert (Gb : g b1 = blocks s2 b1).
      { rewrite Ownf; auto. apply (proj1 C2f); [apply old_grows with s1; auto|]. intros [Q|[Q|[]]]; congruence. }
      assert (Tb : star g (Run b (at_ s b) m t []) (tr1 ++ tr2) (Run (if truth L (rvalue ra m1) then lft else rgt) 0 m1 t' [])).
      { eapply star_trans; [exact T| |reflexivity]. replace (at_ s1 b1) with (length (code (g b1))) by (rewrite Gb, Bb; reflexivity).
        apply step_branch; rewrite Gb, Bb; auto. }
      destruct (sem late_ (if truth L (rvalue ra m1) then y else z) m1) as [[t2 m2] rb] eqn:Sw.
      assert (tr = (tr1 ++ tr2) ++ t2 /\ m' = m2 /\ rs = Val (val_ ty (rvalue rb m2))) as (-> & -> & ->) by (repeat split; congruence).
      destruct (F3 _ Fy) as (_ & _ & Xy). destruct (F4 _ Fz) as (_ & _ & Xz).
      specialize (Xy I2 g Ag2). specialize (Xz I3 g Ag3).
      replace (at_ s2 lft) with 0 in Xy by (unfold at_; now rewrite Be1). replace (at_ s3 rgt) with 0 in Xz by (unfold at_; now rewrite Br3).
      set (u := truth L (rvalue ra m1)) in *.
      assert (Arm : exists t'', star g (Run (if u then lft else rgt) 0 m1 t' []) t2 (Run (if u then lft' else rgt') (at_ s4 (if u then lft' else rgt')) m2 t'' [])
                     /\ (forall k, k < tmp s2 -> t'' k = t' k) /\ opd_ok (if u then dl else dr) rb t'').
      { destruct u.
        - destruct (Xy m1 t' _ _ _ Sw) as (t'' & T' & K' & Pd & _). exists t''. unfold at_. rewrite Bl4. auto.
        - destruct (Xz m1 t' _ _ _ Sw) as (t'' & T' & K' & Pd & _). exists t''. split; [exact T'|]. split; [|exact Pd]. intros k Hk. apply K'. destruct Gr23. lia. }
      destruct Arm as (t2' & T2 & K2 & P2).
      assert (Il : isopen s4 lft') by (unfold isopen; rewrite Bl4; apply G3; auto). assert (Ir : isopen s4 rgt') by (apply G4; auto).
      destruct Gr23 as [Gr23 _], Gr34 as [Gr34 Grt34], Gr4f as [Gr4f _].
      assert (Gl : g lft' = blocks sf lft').
      { apply Ownf; auto. right. destruct T3 as [->|(k & -> & Hk)]; eexists; (split; [reflexivity|]); unfold n in *; lia. }
      assert (Grg : g rgt' = blocks sf rgt').
      { apply Ownf; auto. right. destruct T4 as [->|(k & -> & Hk)]; eexists; (split; [reflexivity|]); unfold n in *; lia. }
      assert (Gn : forall k, next s4 <= k < next sf -> g (B k) = blocks sf (B k)).
      { intros k Hk. apply Ownf; [right; exists k; split; auto; unfold n in *; lia|]. unfold join. intros Q. injection Q. unfold n in *. lia. }
      destruct (X Il Ir g Gl Grg Gn u m2 t2' rb P2) as (t3 & T3' & K3 & P3).
      exists (((tr1 ++ tr2) ++ t2)), [], m2, t3, []. split; [|split; [symmetry; apply app_nil_r|split; [|split; [|split; [exact P3|exact Bc]]]]].
      * replace (at_ sf join) with 0 by (unfold at_; now rewrite Bjf).
        eapply star_trans; [exact Tb| |reflexivity]. eapply star_trans; [exact T2|exact T3'|symmetry; apply app_nil_r].
      * intros k Hk. rewrite K3 by (destruct G3 as ((_ & Q) & _); lia). rewrite K2 by lia. auto.
      * subst c. destruct ty as [k|]; cbn [run]; simpl in P3; simpl; now rewrite <- ?P3.
Qed.

Lemma P_cond : forall ty (x y z : expr L), P x -> P y -> P z -> P (ECond ty x y z).
Proof.
  intros ty x y z Px Py Pz b s A O. destruct (Px b s A O) as (b1 & r & s1 & E & _). destruct (imm_bool r) as [v|] eqn:IB.
  - destruct (imm_bool_inv L _ _ IB) as (u & -> & _). now apply P_cond_const with b1 u s1.
  - now apply P_cond_none with b1 r s1.
Qed.

Theorem lower_ok : (forall e : expr L, P e) /\ (forall l : exprs L, PL l).
Proof.
  apply expr_exprs.
  - apply P_const.
  - apply P_var.
  - intros o a Pa b Pb. now apply P_op.
  - intros o a Pa b Pb. now apply P_rel.
  - intros a Pa. now apply P_not.
  - intros a Pa b Pb. now apply (P_log L law false).
  - intros a Pa b Pb. now apply (P_log L law true).
  - intros t a Pa b Pb c Pc. now apply P_cond.
  - intros a Pa b Pb. now apply P_comma.
  - intros t a Pa. now apply P_cast.
  - intros x a Pa. now apply P_assign.
  - apply P_post.
  - intros v f Pf l Pl. now apply P_call.
  - apply PL_nil.
  - intros a Pa l Pl. now apply PL_cons.
Qed.
End Cond.
