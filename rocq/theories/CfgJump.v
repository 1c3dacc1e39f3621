(* Labels and jumps *)
From Coq Require Import ZArith List Bool Arith Lia.
From Verif Require Import CfgSyntax CfgModel CfgSpec CfgProofs CfgExpr CfgCond CfgStmt CfgBuild.
Import ListNotations.

Section Jump.
Variable L : lang.
Hypothesis law : lawful L.
Local Notation graph := (id -> blk L).
Local Notation state := (st L).

(* a statement after which control does not come back: the block ends, and a new one begins *)
Lemma leave_ok : forall (c : stmt L) (s s1 : state) b, old s b -> grows s s1 -> chg s [b] s1 -> same_sw s s1 -> labels c = [] ->
  goodS s b (lbs c) (new_ s1) (B (next s1)) /\ swS s c (new_ s1) [] None
  /\ forall g p, p <> B (next s1) -> ownS s b (lbs c) (new_ s1) p -> old s1 p -> agrE g (ownS s b (lbs c) (new_ s1)) (new_ s1) [B (next s1)] -> g p = blocks s1 p.
Proof.
  intros c s s1 b O (G1 & G2) C SW E. unfold lbs. rewrite E. cbn [map]. split; [|split].
  - split; [split; simpl; lia|]. split; [apply chg_new; [split; auto|auto]|]. split; [right; right; exists (next s1); split; [auto|simpl; lia]|].
    destruct (empty_ok (new_ s1) (B (next s1)) (new_same L s1)) as (A & I & _). auto.
  - apply sw_same; auto.
  - intros g p N W Op [Ag _]. rewrite Ag; auto.
    + now apply new_keep.
    + now apply old_new'.
    + intros [Q|[]]. congruence.
Qed.

Lemma jump_ok : forall (c : stmt L) (s : state) b n, canapp s b -> old s b -> isopen s b -> labels c = [] ->
  goodS s b (lbs c) (new_ (setj0 b (Some n) s)) (B (next s)) /\ swS s c (new_ (setj0 b (Some n) s)) [] None
  /\ forall g, agrE g (ownS s b (lbs c) (new_ (setj0 b (Some n) s))) (new_ (setj0 b (Some n) s)) [B (next s)] -> ends g b (at_ s b) n.
Proof.
  intros c s b n A O I E. destruct (leave_ok c s (setj0 b (Some n) s) b O) as (H1 & H2 & H3); auto; try (split; reflexivity); try apply chg_setj0'; try (repeat split; reflexivity).
  split; [auto|]. split; [auto|]. intros g Ag. apply ends_setj0; auto. apply H3; auto; [|now left].
  apply (old_neq L s); auto.
Qed.

Lemma PS_goto : forall l, PS (L := L) (SGoto l).
Proof.
  intros l brk cnt insw loop sw b s (A & O & I & _) _ _ _. cbn [statement]. destruct (jump_ok (SGoto l) s b (Lb l) A O I eq_refl) as (H1 & H2 & H3).
  do 4 eexists. split; [reflexivity|]. split; [exact H1|]. split; [exact H2|]. intros lbls g _ Go Ag. cbn [tr]. split; [apply H3; exact Ag|]. split; [|auto]. apply Go. now left.
Qed.
Lemma PS_break : PS (L := L) SBreak.
Proof.
  intros brk cnt insw loop sw b s (A & O & I & _) Pl Hb Hc. cbn [statement]. destruct brk as [n|].
  - destruct (jump_ok SBreak s b n A O I eq_refl) as (H1 & H2 & H3). do 4 eexists. split; [reflexivity|]. split; [exact H1|]. split; [exact H2|].
    intros lbls g _ _ Ag. cbn [tr]. split; [|auto]. exists n. split; [auto|]. apply H3. exact Ag.
  - exfalso. destruct Pl as [->| ->]; [destruct Hb|destruct Hc]; auto.
Qed.
Lemma PS_continue : PS (L := L) SContinue.
Proof.
  intros brk cnt insw loop sw b s (A & O & I & _) Pl Hb Hc. cbn [statement]. destruct cnt as [n|].
  - destruct (jump_ok SContinue s b n A O I eq_refl) as (H1 & H2 & H3). do 4 eexists. split; [reflexivity|]. split; [exact H1|]. split; [exact H2|].
    intros lbls g _ _ Ag. cbn [tr]. split; [|auto]. exists n. split; [auto|]. apply H3. exact Ag.
  - exfalso. cbn [placed] in Pl. destruct Hb; auto.
Qed.
Lemma PS_return : forall e, PS (L := L) (SReturn e).
Proof.
  intros [[ty e]|] brk cnt insw loop sw b s (A & O & I & _) Pl Hb Hc; cbn [statement].
  - destruct (proj1 (lower_ok L law) e b s A O) as (p & r & s1 & E & G & X). rewrite E. cbn [bind].
    set (s2 := setret p ty (sete p r s1)).
    assert (Op : old s1 p) by now apply good_old with s b.
    assert (G12 : grows s1 s2) by (split; reflexivity). assert (C12 : chg s1 [p] s2).
    { apply chg_setret; [apply chg_sete; [apply chg_refl|]|]; intros; now left. }
    assert (C02 : chg s [b] s2).
    { apply chg_trans with s1 [p]; [apply G|apply G|auto|]. intros y [<-|[]] Oy. destruct G as (_ & _ & _ & [->|(n & -> & Hn)] & _); [now left|]. simpl in Oy. lia. }
    destruct (leave_ok (SReturn (Some (ty, e))) s s2 b O) as (H1 & H2 & H3); auto.
    { apply grows_trans with s1; auto. apply G. } { apply same_trans with s1; [apply G|repeat split]. }
    do 4 eexists. split; [reflexivity|]. split; [exact H1|]. split; [exact H2|]. intros lbls g F _ Ag. cbn [tr fine_s] in *. split; [|auto].
    destruct (X true F) as [_ X1].
    assert (Gp : g p = blocks s2 p).
    { apply H3; auto; [apply (old_neq L s1); auto|]. destruct G as (_ & _ & _ & [->|(n & -> & Hn)] & _); [now left|right; right]. exists n. split; [auto|simpl; lia]. }
    assert (Bp : blocks s2 p = Blk (head (blocks s1 p)) (code (blocks s1 p)) r (jump0 (blocks s1 p)) (jump1 (blocks s1 p)) (Some ty)).
    { unfold s2, setret, sete. rewrite !modb_same. reflexivity. }
    assert (Ag1 : agr g s b s1 p).
    { pose proof (agrE_back _ _ s1 (new_ s2) _ _ Ag ltac:(split; simpl; lia) ltac:(apply chg_new; [exact G12|exact C12])) as Ag1.
      eapply agrE_agr; [exact Ag1|auto|auto|]. assert (T : tgt s b s1 p) by apply G. assert (GG : grows s s1) by apply G. assert (NN : next s2 = next s1) by reflexivity.
      intros c Hc0. assert (N3 : next (new_ s2) = S (next s1)) by reflexivity. clear - Hc0 T GG N3 NN O. bid b; ids. }
    specialize (X1 I g Ag1). intros m t ev m' v V. destruct (value_of_sem _ _ _ _ _ V) as (q & Q & ->).
    destruct (X1 m t ev m' q Q) as (tr1 & tr2 & m1 & t' & ps & S1 & -> & _ & R & _).
    eapply (star_plus L g); [exact S1| |reflexivity]. apply plus_one. unfold at_. cbn [gstep]. rewrite Gp, Bp. cbn [code jump0 jump1 retv bexpr].
    rewrite (proj2 (nth_error_None _ _)) by lia. destruct G as (_ & _ & _ & _ & _ & IG & _). destruct (IG I) as (-> & _ & _). now rewrite R.
  - destruct (leave_ok (SReturn None) s s b O) as (H1 & H2 & H3); auto; [apply grows_refl|apply chg_refl|apply same_refl|].
    do 4 eexists. split; [reflexivity|]. split; [exact H1|]. split; [exact H2|]. intros lbls g F _ Ag. cbn [tr]. split; [|auto].
    assert (Gp : g b = blocks s b) by (apply H3; auto; [apply (old_neq L s); auto|now left]).
    intros m t. apply plus_one. unfold at_. cbn [gstep]. rewrite Gp. rewrite (proj2 (nth_error_None _ _)) by lia. destruct I as (-> & _ & ->). reflexivity.
Qed.

(* statements with a label: the part before ends in a jump to the label *)
Lemma labelled : forall (c x : stmt L) (s s1 : state) b n b' s' brk cnt lbls cs df, old s b -> isopen s b -> grows s s1 -> blocks s1 b = blocks (setj0 b (Some n) s) b -> chg s [b] s1 -> old s1 n ->
  (forall l, In l (labels x) -> In l (labels c)) -> (forall l, In l (labels c) -> b <> Lb l) -> (In n (lbs c) \/ exists k, n = B k /\ next s <= k) -> (forall l, In l (labels x) -> n <> Lb l) ->
  goodS s1 n (lbs x) s' b' ->
  goodS s b (lbs c) s' b' /\
  forall g, blocks s1 n = empty_blk -> agrE g (ownS s b (lbs c) s') s' [b'] -> (agrE g (ownS s1 n (lbs x) s') s' [b'] -> tr g lbls brk cnt x n (at_ s1 n) b' (at_ s' b') cs df) ->
    ends g b (at_ s b) n /\ tr g lbls brk cnt x n 0 b' (at_ s' b') cs df.
Proof.
  intros c x s s1 b n b' s' brk cnt lbls cs df O I G Eb C On Hl Nb Nn Nn2 (G' & C' & T' & A' & I').
  assert (NUM : next s <= next s1 /\ next s1 <= next s') by (destruct G, G'; split; lia).
  assert (Hl' : forall z, In z (lbs x) -> In z (lbs c)) by (intros z Hz; apply in_map_iff in Hz as (l & <- & Hz); apply in_map, Hl, Hz).
  assert (Nb' : ~ In b (lbs c)) by (intros Hz; apply in_map_iff in Hz as (l & <- & Hz); now apply (Nb l)).
  assert (Nbn : b <> n).
  { destruct Nn as [Q|(k & -> & Hk)]; [intros ->; auto|]. now apply (old_neq L s). }
  split.
  - split; [now apply grows_trans with s1|]. split; [|split; [|auto]].
    + eapply chg_sub; [apply chg_cat with s1; [auto|exact C|exact C']|]. intros z Hz Oz. cbn [app] in Hz. destruct Hz as [->|[<-|Hz]]; [now left| |right; auto].
      destruct Nn as [Q|(k & -> & Hk)]; [now right|]. simpl in Oz. lia.
    + destruct T' as [->|[T'|(k & -> & Hk)]]; [|right; left; auto|right; right; exists k; split; auto; lia].
      destruct Nn as [Q|(k & -> & Hk)]; [right; left; auto|]. right; right. exists k. split; auto. simpl in On. lia.
  - intros g En Ag Hx. destruct (empty_ok s1 n En) as (_ & _ & Z). rewrite <- Z. split.
    + apply ends_setj0; auto. rewrite <- Eb. pose proof (agrE_back _ _ s1 s' _ _ Ag G' C') as Ag1. apply (proj1 Ag1).
      * now left.
      * now apply old_grows with s.
      * intros Hi. cbn [app In] in Hi. destruct Hi as [Q|Hi]; [congruence|]. apply in_app_or in Hi. destruct Hi as [Hi|[Q|[]]]; [auto|].
        subst b. destruct T' as [Q|[T'|(k & Q & Hk)]]; [congruence|auto|]. subst b'. simpl in O. lia.
    + apply Hx. eapply agrE_sub; [exact Ag|]. intros z [->|[Hz|(k & -> & Hk)]]; (split; [|auto]).
      * destruct Nn as [Q|(k & -> & Hk)]; [right; left; auto|]. right; right. exists k. split; auto. simpl in On. lia.
      * right; left. auto.
      * right; right. exists k. split; auto. lia.
Qed.

Lemma PS_label : forall l x, PS x -> PS (L := L) (SLabel l x).
Proof.
  intros l x Hx brk cnt insw loop sw b s (A & O & I & ND & Lf & D1 & D2) Pl Hb Hc. cbn [labels defaults placed] in *. cbn [statement].
  assert (existsb (Z.eqb l) (defs s) = false) as ->.
  { destruct (existsb (Z.eqb l) (defs s)) eqn:E; auto. apply existsb_exists in E as (z & Hz & Q). apply Z.eqb_eq in Q. subst z. destruct (Lf l) as (Q & _); [now left|tauto]. }
  assert (NL : ~ In l (labels x)) by now inversion ND. assert (NDx : NoDup (labels x)) by now inversion ND.
  set (s1 := setj0 b (Some (Lb l)) (setdefs (l :: defs s) s)).
  destruct (Lf l) as (Ld & Le & Lb_); [now left|].
  assert (C1 : chg s [b] s1) by (apply chg_setj0; [exact (chg_refl L s [b])|intros; now left]).
  assert (E1 : blocks s1 (Lb l) = empty_blk). { rewrite <- Le. apply (proj1 C1); [exact Logic.I|]. intros [Q|[]]. auto. }
  destruct (empty_ok s1 (Lb l) E1) as (A1 & I1 & _).
  destruct (Hx brk cnt insw loop sw (Lb l) s1) as (b' & s' & cs & df & E & G & (S1 & S2 & S3 & S4) & X); auto.
  { split; [auto|]. split; [exact Logic.I|]. split; [auto|]. split; [auto|]. split; [|auto]. intros z Hz. destruct (Lf z) as (Q1 & Q2 & Q3); [now right|].
    assert (z <> l) by (intros ->; auto). split; [|split; [|congruence]].
    - change (defs s1) with (l :: defs s). intros [Q|Q]; auto.
    - rewrite <- Q2. apply (proj1 C1); [exact Logic.I|]. intros [Q|[]]. auto. }
  destruct (labelled (SLabel l x) x s s1 b (Lb l) b' s' brk cnt [] cs df O I) as (H1 & _); auto.
  { split; reflexivity. } { exact Logic.I. } { cbn [labels]. auto using in_cons. } { intros z Hz. now apply Lf. } { left. left. reflexivity. } { intros z Hz Q. inversion Q; subst; auto. }
  exists b', s', cs, df. split; [exact E|]. split; [exact H1|]. split; [|].
  - split; [|auto]. intros z. rewrite S1. cbn [labels]. change (defs s1) with (l :: defs s). cbn [In]. tauto.
  - intros lbls g F Go Ag. destruct (labelled (SLabel l x) x s s1 b (Lb l) b' s' brk cnt lbls cs df O I) as (_ & H2); auto.
    { split; reflexivity. } { exact Logic.I. } { cbn [labels]. auto using in_cons. } { intros z Hz. now apply Lf. } { left. left. reflexivity. } { intros z Hz Q. inversion Q; subst; auto. }
    cbn [tr]. apply H2; auto.
Qed.

Lemma PS_case : forall v x, PS x -> PS (L := L) (SCase v x).
Proof.
  intros v x Hx brk cnt insw loop sw b s (A & O & I & ND & Lf & D1 & D2) (Psw & Pl) Hb Hc. cbn [labels defaults placed] in *. cbn [statement].
  destruct (Hc Psw) as (-> & _). rename Hb into Hb0.
  set (s1 := setj0 b (Some (B (next s))) (setsw (cases (new_ s) ++ [(v, B (next s))]) (dflt (new_ s)) (new_ s))).
  assert (C1 : chg s [b] s1) by (apply chg_setj0; [apply (chg_new1 L s)|intros; now left]).
  assert (NB : b <> B (next s)) by now apply (old_neq L s).
  assert (E1 : blocks s1 (B (next s)) = empty_blk). { unfold s1, setj0. rewrite modb_other by auto. apply new_same. }
  assert (Eb : blocks s1 b = blocks (setj0 b (Some (B (next s))) s) b). { unfold s1, setj0. rewrite !modb_same. cbn [blocks setsw]. now rewrite new_keep. }
  destruct (empty_ok s1 (B (next s)) E1) as (A1 & I1 & _).
  destruct (Hx brk cnt true loop sw (B (next s)) s1) as (b' & s' & cs & df & E & G & (S1 & S2 & S3 & S4) & X); auto.
  { split; [auto|]. split; [simpl; lia|]. split; [auto|]. split; [auto|]. split; [|auto]. intros z Hz. destruct (Lf z) as (Q1 & Q2 & Q3); [auto|].
    split; [auto|split; [|congruence]]. rewrite <- Q2. apply (proj1 C1); [exact Logic.I|]. intros [Q|[]]. auto. }
  assert (Gr : grows s s1) by (split; simpl; lia). assert (On : old s1 (B (next s))) by (simpl; lia).
  destruct (labelled (SCase v x) x s s1 b (B (next s)) b' s' brk cnt [] cs df O I) as (H1 & _); auto.
  { intros z Hz. now apply Lf. } { right. eauto. } { congruence. }
  exists b', s', ((v, B (next s)) :: cs), df. split; [exact E|]. split; [exact H1|]. split; [|].
  - split; [|split; [|auto]]; auto. rewrite S2. change (cases s1) with (cases s ++ [(v, B (next s))]). now rewrite <- app_assoc.
  - intros lbls g (_ & F) Go Ag. destruct (labelled (SCase v x) x s s1 b (B (next s)) b' s' brk cnt lbls cs df O I) as (_ & H2); auto.
    { intros z Hz. now apply Lf. } { right. eauto. } { congruence. }
    cbn [tr]. exists (B (next s)), cs. destruct (H2 g) as (Q1 & Q2); auto.
Qed.
Lemma PS_default : forall x, PS x -> PS (L := L) (SDefault x).
Proof.
  intros x Hx brk cnt insw loop sw b s (A & O & I & ND & Lf & D1 & D2) (Psw & Pl) Hb Hc. cbn [labels defaults placed] in *. cbn [statement].
  destruct (Hc Psw) as (-> & _). rename Hb into Hb0. assert (Dn : dflt s = None) by (destruct (dflt s); [specialize (D1 ltac:(congruence)); lia|auto]). rewrite Dn.
  set (s1 := setsw (cases (new_ s)) (Some (B (next s))) (setj0 b (Some (B (next s))) (new_ s))).
  assert (C1 : chg s [b] s1) by (apply (chg_setj0 L s [b]); [apply (chg_new1 L s)|intros; now left]).
  assert (NB : b <> B (next s)) by now apply (old_neq L s).
  assert (E1 : blocks s1 (B (next s)) = empty_blk). { unfold s1, setj0. cbn [blocks setsw]. rewrite modb_other by auto. apply new_same. }
  assert (Eb : blocks s1 b = blocks (setj0 b (Some (B (next s))) s) b). { unfold s1, setj0. cbn [blocks setsw]. rewrite !modb_same. now rewrite new_keep. }
  destruct (empty_ok s1 (B (next s)) E1) as (A1 & I1 & _).
  destruct (Hx brk cnt true loop sw (B (next s)) s1) as (b' & s' & cs & df & E & G & (S1 & S2 & S3 & S4) & X); auto.
  { split; [auto|]. split; [simpl; lia|]. split; [auto|]. split; [auto|]. split; [|split; lia]. intros z Hz. destruct (Lf z) as (Q1 & Q2 & Q3); [auto|].
    split; [auto|split; [|congruence]]. rewrite <- Q2. apply (proj1 C1); [exact Logic.I|]. intros [Q|[]]. auto. }
  assert (Gr : grows s s1) by (split; simpl; lia). assert (On : old s1 (B (next s))) by (simpl; lia).
  destruct (labelled (SDefault x) x s s1 b (B (next s)) b' s' brk cnt [] cs df O I) as (H1 & _); auto.
  { intros z Hz. now apply Lf. } { right. eauto. } { congruence. }
  exists b', s', cs, (Some (B (next s))). split; [exact E|]. split; [exact H1|]. split; [|].
  - split; [|split; [|split]]; auto. { rewrite S3, Dn. reflexivity. } { cbn [defaults]. lia. }
  - intros lbls g F Go Ag. destruct (labelled (SDefault x) x s s1 b (B (next s)) b' s' brk cnt lbls cs df O I) as (_ & H2); auto.
    { intros z Hz. now apply Lf. } { right. eauto. } { congruence. }
    cbn [tr]. exists (B (next s)), df. destruct (H2 g) as (Q1 & Q2); auto.
Qed.
End Jump.
