(* Statements: the graph that is built fits. *)
From Coq Require Import ZArith List Bool Arith Lia.
From Verif Require Import CfgSyntax CfgModel CfgSpec CfgProofs CfgExpr CfgCond CfgStmt.
Import ListNotations.

Lemma in_lb : forall a l, In (Lb a) (map Lb l) <-> In a l.
Proof. intros a l. rewrite in_map_iff. split; [intros (x & E & I); congruence|eauto]. Qed.
Lemma in_b : forall a l, In (B a) (map Lb l) <-> False.
Proof. intros a l. rewrite in_map_iff. split; [intros (x & E & I); congruence|tauto]. Qed.

Lemma lbs_app : forall a b : list Z, map Lb (a ++ b) = map Lb a ++ map Lb b.
Proof. intros. apply map_app. Qed.

Ltac deco := repeat match goal with
  | H : _ /\ _ |- _ => destruct H
  | H : exists _, _ |- _ => destruct H
  | H : _ \/ _ |- _ => destruct H
  | H : In _ (_ ++ _) |- _ => apply in_app_iff in H
  | H : In _ (_ :: _) |- _ => destruct H
  | H : In _ [] |- _ => destruct H
  | H : In (Lb _) (map Lb _) |- _ => apply in_lb in H
  | H : In (B _) (map Lb _) |- _ => apply in_b in H; destruct H
  | H : In ?x (map Lb _) |- _ => is_var x; apply in_map_iff in H as (? & <- & H)
  | H : B _ = B _ |- _ => injection H as H
  | H : Lb _ = Lb _ |- _ => injection H as H
  | H : B _ = Lb _ |- _ => discriminate H
  | H : Lb _ = B _ |- _ => discriminate H
  | H : False |- _ => destruct H
  end.

Ltac inb := cbn [In]; rewrite ?in_app_iff; cbn [In]; rewrite ?in_lb.
Ltac leaf := first [lia | congruence | (exfalso; eauto; fail) | (inb; tauto) | (left; congruence) | (right; left; inb; tauto) | (right; right; eexists; split; [reflexivity|lia])].

Section Build.
Variable L : lang.
Hypothesis law : lawful L.
Local Notation graph := (id -> blk L).
Local Notation state := (st L).

Definition lbs (c : stmt L) : list id := map Lb (labels c).
(* the blocks made for, or touched by, statement c *)
Definition ownS (s : state) (b : id) (X : list id) (s' : state) (d : id) : Prop := d = b \/ In d X \/ exists n, d = B n /\ next s <= n < next s'.
Definition agrE (g : graph) (W : id -> Prop) (s : state) (E : list id) : Prop :=
  (forall c, W c -> old s c -> ~ In c E -> g c = blocks s c) /\ (forall c, W c -> old s c -> exists l, code (g c) = code (blocks s c) ++ l).
Lemma agrE_back : forall g W s s' E Y, agrE g W s' E -> grows s s' -> chg s Y s' -> agrE g W s (Y ++ E).
Proof.
  intros g W s s' E Y [A1 A2] G [C1 C2]. split.
  - intros c Hc O N. rewrite in_app_iff in N. rewrite A1; auto. now apply old_grows with s.
  - intros c Hc O. destruct (C2 c O) as [l E1]. destruct (A2 c Hc) as [l2 E2]; [now apply old_grows with s|]. exists (l ++ l2). now rewrite E2, E1, app_assoc.
Qed.
Lemma agrE_sub : forall g (W V : id -> Prop) s E F, agrE g W s E -> (forall c, V c -> W c /\ (In c E -> In c F)) -> agrE g V s F.
Proof. intros g W V s E F [A1 A2] H. split; intros c Hc O; [intros N|]; destruct (H c Hc); auto. Qed.
Lemma agrE_agr : forall g W s b s' b' E, agrE g W s' E -> old s b -> good s b s' b' -> (forall c, own s b s' c -> W c /\ (In c E -> c = b')) -> agr g s b s' b'.
Proof.
  intros g W s b s' b' E [A1 A2] O G H.
  assert (O1 : forall c, own s b s' c -> old s' c). { intros c [->|(n & -> & Hn)]; [|simpl; lia]. apply old_grows with s; [auto|apply G]. }
  split.
  - intros c Hc N. destruct (H c Hc). apply A1; auto.
  - apply A2; [apply H|apply O1]; now apply own_tgt.
Qed.
Lemma chg_cat : forall (a : state) X b Y c, grows a b -> chg a X b -> chg b Y c -> chg a (X ++ Y) c.
Proof.
  intros a X b Y c G H K. apply chg_trans with b Y; auto.
  - destruct H as [H1 H2]. split; auto. intros d O N. apply H1; auto. intros I. apply N, in_or_app. now left.
  - intros y I _. apply in_or_app. now right.
Qed.
Lemma chg_sub : forall (a : state) X b Z, chg a X b -> (forall y, In y X -> old a y -> In y Z) -> chg a Z b.
Proof. intros a X b Z [H1 H2] H. split; auto. Qed.

Definition goodS (s : state) (b : id) (X : list id) (s' : state) (b' : id) : Prop :=
  grows s s' /\ chg s (b :: X) s' /\ ownS s b X s' b' /\ canapp s' b' /\ isopen s' b'.

Lemma empty_ok : forall (s : state) b, blocks s b = empty_blk -> canapp s b /\ isopen s b /\ at_ s b = 0.
Proof. intros s b H. unfold canapp, isopen, at_. rewrite H. cbn. auto. Qed.

(* jumps *)
Lemma plus_one : forall (g : graph) a t b, gstep g a = Some (t, b) -> plus g a t b.
Proof. intros g a t b H. exists 0. rewrite <- (app_nil_r t). apply gsteps_S with b; [auto|constructor]. Qed.
Lemma jump_ends : forall (g : graph) b i n, i = length (code (g b)) -> jump0 (g b) = Some n -> jump1 (g b) = None -> ends g b i n.
Proof.
  intros g b i n -> H1 H2 m t. apply plus_one. simpl. rewrite (proj2 (nth_error_None (code (g b)) (length (code (g b))))) by lia. now rewrite H1, H2.
Qed.
Lemma ends_setj0 : forall (g : graph) (s : state) b n, isopen s b -> g b = blocks (setj0 b (Some n) s) b -> ends g b (at_ s b) n.
Proof. intros g s b n (I0 & I1 & _) E. rewrite blocks_setj0_same in E. apply jump_ends; rewrite E; cbn; auto. Qed.

(* conditions *)
Definition brs (k : blk L) (r : res L) (yes no : id) : Prop :=
  match imm_bool r with
  | Some true => jump0 k = Some yes /\ jump1 k = None
  | Some false => jump0 k = Some no /\ jump1 k = None
  | None => bexpr k = r /\ jump0 k = Some no /\ jump1 k = Some yes
  end.
Lemma brs_branch : forall (s : state) p r yes no, isopen s p -> brs (blocks (branch p r yes no s) p) r yes no.
Proof.
  intros s p r yes no (I0 & I1 & _). unfold brs, branch. destruct (imm_bool r) as [[|]|].
  - rewrite blocks_setj0_same. cbn. auto.
  - rewrite blocks_setj0_same. cbn. auto.
  - unfold setj1, setj0, sete. rewrite !modb_same. cbn. auto.
Qed.
Lemma code_branch : forall (s : state) p r yes no c, code (blocks (branch p r yes no s) c) = code (blocks s c).
Proof.
  intros s p r yes no c. unfold branch, setj1, setj0, sete.
  destruct (imm_bool r) as [[|]|]; (destruct (id_eqb_spec c p) as [->|N]; [rewrite !modb_same; reflexivity|rewrite !modb_other by auto; reflexivity]).
Qed.
Lemma branch_facts : forall (s : state) p r yes no, next (branch p r yes no s) = next s /\ tmp (branch p r yes no s) = tmp s /\ len (branch p r yes no s) = len s /\ same_sw s (branch p r yes no s)
  /\ chg s [p] (branch p r yes no s).
Proof.
  intros s p r yes no. split; [|split; [|split; [|split]]]; try (unfold branch; destruct (imm_bool r) as [[|]|]; try reflexivity; repeat split; reflexivity).
  split.
  - intros c _ N. unfold branch, setj1, setj0, sete. assert (c <> p) by (intros ->; apply N; now left). destruct (imm_bool r) as [[|]|]; rewrite !modb_other by auto; reflexivity.
  - intros c _. exists []. now rewrite code_branch, app_nil_r.
Qed.

Lemma value_of_sem : forall (e : expr L) m tr m' v, value_of late_ e m = (tr, m', v) -> exists r, sem late_ e m = (tr, m', r) /\ v = rvalue r m'.
Proof. intros e m tr m' v H. unfold value_of in H. destruct (sem late_ e m) as [[t1 m1] r]. inversion H; subst. eauto. Qed.

Lemma cond_exr : forall (g : graph) (e : expr L) b i p r lo hi yes no, exr g e b i p (length (code (g p))) r lo hi -> brs (g p) r yes no -> cond g e b i yes no.
Proof.
  intros g e b i p r lo hi yes no H Br m t ev m' v V. destruct (value_of_sem _ _ _ _ _ V) as (q & Q & ->).
  destruct (H m t ev m' q Q) as (tr1 & tr2 & m1 & t' & ps & S1 & -> & _ & R & Pn & _). exists t'.
  assert (NT : nth_error (code (g p)) (length (code (g p))) = None) by (apply nth_error_None; lia).
  apply (star_plus L g) with tr1 (Run p (length (code (g p))) m1 t' ps) tr2; auto.
  unfold brs in Br. destruct (imm_bool r) as [u|] eqn:IB.
  - destruct (imm_bool_inv L r u IB) as (w & -> & Hw). cbn [run opdv] in R. inversion R; subst.
    apply plus_one. cbn [gstep]. rewrite NT. destruct (truth L (rvalue q m')) eqn:T; destruct Br as (J0 & J1); rewrite J0, J1; reflexivity.
  - destruct Br as (E & J0 & J1). apply plus_one. cbn [gstep]. now rewrite NT, J0, J1, E, R.
Qed.
Lemma exs_exv : forall (g : graph) (e : expr L) b i b' i' d lo hi, exv g e b i b' i' d lo hi -> exs g e b i b' i'.
Proof.
  intros g e b i b' i' d lo hi H m t ev m' v V. destruct (value_of_sem _ _ _ _ _ V) as (q & Q & ->). destruct (H m t ev m' q Q) as (t' & S1 & _). now exists t'.
Qed.

Lemma expr_stmt_ok : forall (e : expr L) b (s : state), canapp s b -> old s b ->
  exists b' s', expression_statement e b s = Some (b', s') /\ good s b s' b'
    /\ (isopen s b -> fine false e -> forall g, agr g s b s' b' -> exs g e b (at_ s b) b' (at_ s' b')).
Proof.
  intros e b s A O. destruct (proj1 (lower_ok L law) e b s A O) as (b' & r & s1 & E & G & X). unfold expression_statement. rewrite E. cbn [bind].
  assert (O1 : old s1 b') by now apply good_old with s b. assert (A1 : canapp s1 b') by apply G.
  destruct (has_side_effects r) eqn:HS.
  - destruct (append_ok L b' (IExpr r) s1 A1 O1) as (s' & -> & G2 & C & _). exists b', s'. split; [reflexivity|]. split; [now apply good_trans with s1 b'|].
    intros I F g Ag. destruct (agr_trans L g s b s1 b' s' b' O G G2 Ag) as [Ag1 [_ [l Ag2]]]. destruct (X false F) as [_ X1]. specialize (X1 I g Ag1).
    intros m t ev m' v V. destruct (value_of_sem _ _ _ _ _ V) as (q & Q & ->).
    destruct (X1 m t ev m' q Q) as (tr1 & tr2 & m1 & t' & ps & S1 & -> & _ & R & _). exists t'.
    eapply star_trans; [exact S1| |reflexivity]. unfold at_. rewrite C, app_length. simpl. rewrite Nat.add_1_r.
    eapply step_instr; [rewrite Ag2, C; apply nth_end|]. cbn [exec]. now rewrite R.
  - exists b', s1. split; [reflexivity|]. split; [auto|]. intros I F g Ag. destruct (X false F) as [_ X1]. specialize (X1 I g Ag).
    intros m t ev m' v V. destruct (value_of_sem _ _ _ _ _ V) as (q & Q & ->).
    destruct (X1 m t ev m' q Q) as (tr1 & tr2 & m1 & t' & ps & S1 & -> & _ & R & _). exists t'.
    destruct (run_pure L _ _ _ _ _ _ _ _ HS R) as (-> & <- & ->). now rewrite app_nil_r.
Qed.
Lemma cond_ok : forall (e : expr L) b (s : state), canapp s b -> old s b -> isopen s b ->
  exists p r s1, lower e b s = Some (p, r, s1) /\ good s b s1 p /\ isopen s1 p
    /\ (fine true e -> forall g yes no, agr g s b s1 p -> code (g p) = code (blocks s1 p) -> brs (g p) r yes no -> cond g e b (at_ s b) yes no).
Proof.
  intros e b s A O I. destruct (proj1 (lower_ok L law) e b s A O) as (b' & r & s1 & E & G & X). exists b', r, s1. split; [auto|]. split; [auto|]. split; [now apply G|].
  intros F g yes no Ag C Br. destruct (X true F) as [_ X1]. specialize (X1 I g Ag). unfold at_ in X1 at 2. rewrite <- C in X1. now apply cond_exr with b' r (tmp s) (tmp s1).
Qed.

(* what a switch statement around collects *)
Definition swS (s : state) (c : stmt L) (s' : state) (cs : list (val L * id)) (df : option id) : Prop :=
  (forall l, In l (defs s') <-> In l (labels c) \/ In l (defs s)) /\ cases s' = cases s ++ cs /\ dflt s' = orelse (dflt s) df /\ (df <> None -> 0 < defaults c).
Definition ready (s : state) (b : id) (c : stmt L) : Prop :=
  canapp s b /\ old s b /\ isopen s b /\ NoDup (labels c) /\ (forall l, In l (labels c) -> ~ In l (defs s) /\ blocks s (Lb l) = empty_blk /\ b <> Lb l)
  /\ (dflt s <> None -> defaults c = 0) /\ defaults c <= 1.
Definition PS (c : stmt L) : Prop := forall brk cnt insw loop sw b s, ready s b c -> placed loop sw c ->
  (loop = true -> brk <> None /\ cnt <> None) -> (sw = true -> insw = true /\ brk <> None) ->
  exists b' s' cs df, statement brk cnt insw c b s = Some (b', s') /\ goodS s b (lbs c) s' b' /\ swS s c s' cs df
    /\ forall lbls g, fine_s c -> incl (gotos c) lbls -> agrE g (ownS s b (lbs c) s') s' [b'] -> tr g lbls brk cnt c b (at_ s b) b' (at_ s' b') cs df.

Lemma sw_same : forall (s : state) c s', same_sw s s' -> labels c = [] -> swS s c s' [] None.
Proof.
  intros s c s' (D & C & F) E. split; [|split; [|split]].
  - intros l. rewrite D, E. simpl. tauto.
  - now rewrite C, app_nil_r.
  - rewrite F. now destruct (dflt s).
  - congruence.
Qed.
Lemma good_goodS : forall (s : state) b s' b' X, good s b s' b' -> isopen s b -> goodS s b X s' b'.
Proof.
  intros s b s' b' X (G & _ & C & T & A & I & _) O. split; [auto|]. split; [|split; [|auto]].
  - apply chg_sub with [b]; auto. intros y [<-|[]] _. now left.
  - destruct T as [->|T]; [now left|right; right; auto].
Qed.

Lemma PS_skip : PS SSkip.
Proof.
  intros brk cnt insw loop sw b s (A & O & I & _) _ _ _. exists b, s, [], None. cbn [statement]. split; [reflexivity|].
  split; [apply good_goodS; auto; now apply good_refl|]. split; [now apply sw_same|]. intros; cbn [tr]; auto.
Qed.
Lemma PS_expr : forall e, PS (SExpr e).
Proof.
  intros e brk cnt insw loop sw b s (A & O & I & _) _ _ _. cbn [statement]. destruct (expr_stmt_ok e b s A O) as (b' & s' & E & G & X). rewrite E.
  exists b', s', [], None. split; [reflexivity|]. split; [now apply good_goodS|]. split; [apply sw_same; [apply G|reflexivity]|].
  intros lbls g F _ Ag. cbn [tr]. split; [|auto]. apply X; auto. apply agrE_agr with (ownS s b (lbs (SExpr e)) s') [b']; auto.
  intros c Hc. split; [|intros [->|[]]; reflexivity]. destruct Hc as [->|Hc]; [now left|right; right; auto].
Qed.

Lemma nodup_app : forall a b : list Z, NoDup (a ++ b) -> NoDup a /\ NoDup b /\ forall l, In l a -> In l b -> False.
Proof.
  induction a as [|x a IH]; cbn [app]; intros b H; [split; [constructor|]; split; [auto|intros l []]|].
  inversion H as [|? ? N H1]; subst. destruct (IH b H1) as (A1 & A2 & A3). rewrite in_app_iff in N. split; [constructor; tauto|]. split; [auto|].
  intros l [->|I] J; [tauto|eauto].
Qed.

Ltac prep := unfold ownS, own, tgt, lbs, grows in *; cbn [labels] in *; rewrite ?lbs_app in *; cbn [old app] in *.
Ltac ids := prep; intros; deco; subst; cbn [old] in *; deco; try split; intros; deco; subst; cbn [old] in *; leaf.
Ltac bid b := destruct b as [?nb|?lb]; cbn [old] in *.

Lemma PS_seq : forall x y, PS x -> PS y -> PS (SSeq x y).
Proof.
  intros x y Hx Hy brk cnt insw loop sw b s (A & O & I & ND & Lf & D1 & D2) (Pl1 & Pl2) Hb Hc. cbn [labels defaults] in *.
  destruct (nodup_app _ _ ND) as (NDx & NDy & DJ).
  assert (Nx : forall l, In l (labels x) -> b = Lb l -> False) by (intros l H; apply Lf, in_or_app; auto).
  assert (Ny : forall l, In l (labels y) -> b = Lb l -> False) by (intros l H; apply Lf, in_or_app; auto).
  destruct (Hx brk cnt insw loop sw b s) as (b1 & s1 & c1 & d1 & E1 & (G1 & C1 & T1 & A1 & I1) & (S1 & S2 & S3 & S4) & X1); auto.
  { split; [auto|]. split; [auto|]. split; [auto|]. split; [auto|]. split; [|split; [|lia]].
    - intros l Hl. apply Lf, in_or_app. auto.
    - intros H. apply D1 in H. lia. }
  assert (O1 : old s1 b1).
  { destruct T1 as [->|[T1|(n & -> & Hn)]]; [now apply old_grows with s| |simpl; lia]. apply in_map_iff in T1 as (z & <- & _). exact Logic.I. }
  destruct (Hy brk cnt insw loop sw b1 s1) as (b2 & s2 & c2 & d2 & E2 & (G2 & C2 & T2 & A2 & I2) & (S5 & S6 & S7 & S8) & X2); auto.
  { split; [auto|]. split; [auto|]. split; [auto|]. split; [auto|]. split; [|split; [|lia]].
    - intros l Hl. destruct (Lf l) as (L1 & L2 & L3); [apply in_or_app; auto|]. split; [|split].
      + rewrite S1. intros [Q|Q]; eauto.
      + rewrite <- L2. apply (proj1 C1); [exact Logic.I|]. intros [Q|Q]; [congruence|]. unfold lbs in Q. rewrite in_lb in Q. eauto.
      + intros Q. destruct T1 as [T1|[T1|(n & T1 & Hn)]]; [congruence| |congruence]. rewrite Q in T1. unfold lbs in T1. rewrite in_lb in T1. eauto.
    - rewrite S3. intros H. destruct (dflt s) eqn:Q; [assert (Q2 : dflt s <> None) by congruence; rewrite Q in *; specialize (D1 ltac:(congruence)); lia|]. cbn [orelse] in H.
      specialize (S4 H). lia. }
  exists b2, s2, (c1 ++ c2), (orelse d1 d2). cbn [statement]. rewrite E1. cbn [bind]. rewrite E2. split; [reflexivity|].
  destruct G1 as [G1 G1'], G2 as [G2 G2']. split; [|split].
  - split; [split; lia|]. split; [|split; [|auto]].
    + apply chg_sub with ((b :: lbs x) ++ (b1 :: lbs y)); [apply chg_cat with s1; auto; now split|]. unfold lbs. cbn [labels]. rewrite lbs_app.
      intros z Hz Oz. cbn [In]. rewrite !in_app_iff in *. cbn [In] in Hz. destruct Hz as [[->|Hz]|[->|Hz]]; auto.
      destruct T1 as [->|[T1|(n & -> & Hn)]]; auto. simpl in Oz. lia.
    + unfold ownS, lbs in *. cbn [labels]. rewrite lbs_app, in_app_iff. destruct T2 as [->|[T2|(n & -> & Hn)]]; [|auto|right; right; exists n; split; auto; lia].
      destruct T1 as [->|[T1|(n & -> & Hn)]]; auto. right; right; exists n; split; auto; lia.
  - split; [|split; [|split]].
    + intros l. cbn [labels]. rewrite in_app_iff, S5, S1. tauto.
    + now rewrite S6, S2, app_assoc.
    + rewrite S7, S3. now destruct (dflt s), d1.
    + cbn [defaults]. destruct d1; cbn [orelse]; intros Q; [specialize (S4 ltac:(congruence)); lia|specialize (S8 Q); lia].
  - intros lbls g (F1 & F2) Go Ag. cbn [tr]. exists b1, (at_ s1 b1), c1, d1, c2, d2. cbn [gotos] in Go.
    split; [|split; [|auto]].
    + apply X1; auto. { intros z Hz. apply Go, in_or_app. auto. }
      assert (Ag1 := agrE_back _ _ s1 s2 _ _ Ag (conj G2 G2') C2). apply agrE_sub with (1 := Ag1).
      unfold ownS, lbs in *. cbn [labels]. intros c Hc0. rewrite lbs_app in *. split.
      * clear - Hc0 G1 G2. ids.
      * clear - Hc0 G1 G2 T1 T2 O DJ Nx Ny. bid b; ids.
    + apply X2; auto. { intros z Hz. apply Go, in_or_app. auto. }
      apply agrE_sub with (1 := Ag). intros c Hc0. clear - Hc0 G1 G2 T1 T2 O DJ Nx Ny. split; [|auto]. ids.
Qed.

Lemma ready_new : forall (s s4 : state) x n Y, NoDup (labels x) -> (forall l, In l (labels x) -> ~ In l (defs s4) /\ blocks s (Lb l) = empty_blk) ->
  chg s Y s4 -> (forall l, In l (labels x) -> ~ In (Lb l) Y) -> blocks s4 (B n) = empty_blk -> n < next s4 -> (dflt s4 <> None -> defaults x = 0) -> defaults x <= 1 ->
  ready s4 (B n) x.
Proof.
  intros s s4 x n Y ND Lf [C _] NY E O D1 D2. destruct (empty_ok s4 (B n) E) as (A & I & _). split; [auto|]. split; [exact O|]. split; [auto|]. split; [auto|]. split; [|auto].
  intros l Hl. destruct (Lf l Hl) as (L1 & L2). split; [auto|]. split; [|congruence]. rewrite (C (Lb l) Logic.I); auto.
Qed.
Lemma chg_setj0' : forall (s : state) b j, chg s [b] (setj0 b j s).
Proof. intros. apply chg_setj0; [apply chg_refl|intros; now left]. Qed.
Lemma goodS_old : forall (s : state) b X s' b', goodS s b X s' b' -> old s b -> (forall x, In x X -> exists l, x = Lb l) -> old s' b'.
Proof.
  intros s b X s' b' (G & _ & [->|[T|(n & -> & Hn)]] & _) O H; [now apply old_grows with s| |simpl; lia]. destruct (H _ T) as (l & ->). exact Logic.I.
Qed.
Lemma goodS_oldl : forall (s : state) b c s' b', goodS s b (lbs c) s' b' -> old s b -> old s' b'.
Proof. intros s b c s' b' G O. apply goodS_old with (1 := G); auto. intros x Hx. apply in_map_iff in Hx as (l & <- & _). eauto. Qed.
Lemma new_keep : forall (s : state) c, old s c -> blocks (new_ s) c = blocks s c.
Proof. intros s c O. apply new_other. apply (old_neq L s); auto. Qed.

Lemma new2_facts : forall s : state, grows s (new_ (new_ s)) /\ chg s [] (new_ (new_ s)) /\ next (new_ (new_ s)) = S (S (next s)) /\ tmp (new_ (new_ s)) = tmp s
  /\ blocks (new_ (new_ s)) (B (next s)) = empty_blk /\ blocks (new_ (new_ s)) (B (S (next s))) = empty_blk.
Proof.
  intros s. split; [split; simpl; lia|]. split; [apply chg_new; [split; simpl; lia|apply chg_new1]|]. split; [reflexivity|]. split; [reflexivity|]. split.
  - rewrite new_other by (intros Q; injection Q as Q; simpl in Q; lia). apply new_same.
  - change (S (next s)) with (next (new_ s)). apply new_same.
Qed.
Lemma at_keep : forall (s s' : state) X b, chg s X s' -> old s b -> ~ In b X -> at_ s' b = at_ s b.
Proof. intros s s' X b [C _] O N. unfold at_. now rewrite C. Qed.

End Build.
Arguments lbs {L}. Arguments ownS {L}. Arguments agrE {L}. Arguments goodS {L}. Arguments brs {L}. Arguments swS {L}. Arguments ready {L}. Arguments PS {L}.
Ltac prep := unfold ownS, own, tgt, lbs, grows in *; cbn [labels] in *; rewrite ?lbs_app in *; cbn [old app] in *.
Ltac ids := prep; intros; deco; subst; cbn [old] in *; deco; try split; intros; deco; subst; cbn [old] in *; leaf.
Ltac bid b := destruct b as [?nb|?lb]; cbn [old] in *.
Arguments agrE_back {L}. Arguments agrE_sub {L}. Arguments agrE_agr {L}. Arguments chg_cat {L}. Arguments chg_sub {L}. Arguments empty_ok {L}. Arguments plus_one {L}. Arguments jump_ends {L}. Arguments ends_setj0 {L}. Arguments brs_branch {L}. Arguments code_branch {L}. Arguments branch_facts {L}. Arguments value_of_sem {L}. Arguments cond_exr {L}. Arguments exs_exv {L}. Arguments expr_stmt_ok {L}. Arguments cond_ok {L}. Arguments sw_same {L}. Arguments good_goodS {L}. Arguments PS_skip {L}. Arguments PS_expr {L}. Arguments PS_seq {L}. Arguments ready_new {L}. Arguments chg_setj0' {L}. Arguments goodS_old {L}. Arguments goodS_oldl {L}. Arguments new_keep {L}. Arguments new2_facts {L}. Arguments at_keep {L}.
