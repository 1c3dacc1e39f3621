(* Lemmas for C35. *)
From Coq Require Import List ZArith Bool Lia.
From Verif Require Import InitModel InitSpec.
Import ListNotations.
Open Scope Z_scope.

Lemma obnd_some {A B} (x : option A) (f : A -> option B) b : obnd x f = Some b -> exists a, x = Some a /\ f a = Some b.
Proof. destruct x as [a|]; cbn; [intro H; exists a; auto|discriminate]. Qed.
Lemma guard_some b u : guard b = Some u -> b = true.
Proof. destruct b; [reflexivity|discriminate]. Qed.

Lemma contig_app a : forall p b e, Contiguous p (a ++ b) e <-> exists m, Contiguous p a m /\ Contiguous m b e.
Proof.
  induction a as [|x a IH]; intros p b e; cbn.
  - split; [intro H; exists p; auto|intros (m & -> & H); exact H].
  - rewrite IH. split.
    + intros (A & B & m & C & D). exists m. auto.
    + intros (m & (A & B & C) & D). split; [exact A|]. split; [exact B|]. exists m. auto.
Qed.
Lemma contig_le l : forall p e, Contiguous p l e -> p <= e /\ forall x, In x l -> p <= first x /\ last x <= e /\ first x < last x.
Proof.
  induction l as [|x l IH]; intros p e; cbn.
  - intros ->. split; [lia|intros y []].
  - intros (A & B & C). destruct (IH _ _ C) as [D F]. split; [lia|]. intros y [<-|I]; [lia|]. specialize (F y I). lia.
Qed.
Lemma contig_unique l : forall p e x y q, Contiguous p l e -> In x l -> In y l -> covers x q -> covers y q -> x = y.
Proof.
  unfold covers. induction l as [|z l IH]; intros p e x y q C X Y QX QY; [destruct X|]. cbn in C. destruct C as (A & B & C). destruct (contig_le _ _ _ C) as [_ F].
  destruct X as [<-|X], Y as [<-|Y]; try reflexivity.
  - specialize (F _ Y). lia.
  - specialize (F _ X). lia.
  - eapply IH; eauto.
Qed.

(* the offset of the last assignment, and whether it is to a field *)
Definition after (st : Z * bool) (l : list asg) : Z * bool := fold_left (fun _ y => (a_off y, is_field y)) l st.
Fixpoint Chain (st : Z * bool) (l : list asg) : Prop :=
  match l with
  | [] => True
  | y :: r => (a_off y = fst st /\ snd st = true /\ a_fw y <> 0 \/ a_foff y = 0) /\ Chain (a_off y, is_field y) r
  end.
Lemma chain_app a : forall st b, Chain st (a ++ b) <-> Chain st a /\ Chain (after st a) b.
Proof. induction a as [|x a IH]; intros st b; cbn; [tauto|]. rewrite IH. unfold after. cbn. tauto. Qed.
Lemma after_app a b st : after st (a ++ b) = after (after st a) b.
Proof. apply fold_left_app. Qed.
Definition Pad (x : asg) : Prop := a_val x = Const 0 /\ (a_fw x <> 0 -> 0 <= a_foff x /\ 0 < a_fw x /\ a_foff x + a_fw x <= 64).

Lemma zeros_ok fuel : forall off bytes st, 0 <= bytes -> (Z.to_nat bytes <= fuel)%nat -> let l := zero_initialize_bytes fuel off bytes in
  Contiguous (8 * off) l (8 * (off + bytes)) /\ Forall (fun x => Pad x /\ a_foff x = 0 /\ a_fw x = 0) l /\ Chain st l.
Proof.
  induction fuel as [|fuel IH]; intros off bytes st B F; cbn [zero_initialize_bytes].
  - cbn [Contiguous Chain]. split; [lia|]. split; [constructor|exact I].
  - destruct (Z.eqb_spec bytes 0) as [->|N]; [cbn [Contiguous Chain]; split; [lia|split; [constructor|exact I]]|].
    set (s := if bytes mod 8 =? 0 then 8 else bytes mod 8).
    set (s' := if (s =? 1) || (s =? 2) || (s =? 4) || (s =? 8) then s else 1).
    pose proof (Z.mod_pos_bound bytes 8 ltac:(lia)) as MB. pose proof (Z.div_mod bytes 8 ltac:(lia)) as DM.
    assert (0 < s <= bytes) as SB.
    { pose proof (Z.div_pos bytes 8 B ltac:(lia)). unfold s. destruct (Z.eqb_spec (bytes mod 8) 0); lia. }
    assert (0 < s' <= bytes) as SB'.
    { unfold s'. destruct ((s =? 1) || (s =? 2) || (s =? 4) || (s =? 8)); lia. }
    destruct (IH (off + s') (bytes - s') (off, false)) as (A & C & D); [lia|lia|].
    fold s. fold s'. cbn [Contiguous Chain]. split; [|split].
    + assert (first (zero off s' 0 0) = 8 * off + 0 /\ last (zero off s' 0 0) = 8 * off + 0 + 8 * s') as [-> ->] by (split; reflexivity).
      split; [lia|]. split; [lia|]. replace (8 * off + 0 + 8 * s') with (8 * (off + s')) by lia. replace (off + bytes) with (off + s' + (bytes - s')) by lia. exact A.
    + constructor; [|exact C]. split; [split; [reflexivity|cbn; lia]|auto].
    + split; [right; reflexivity|exact D].
Qed.

Lemma complete_ok off foff nfoff l po pf : complete_field off foff nfoff = Some l -> 0 <= foff -> (foff = 0 \/ po = off /\ pf = true) ->
  Contiguous (8 * off + foff) l (8 * off + nfoff) /\ Forall Pad l /\ Chain (po, pf) l /\
  (nfoff = 0 \/ fst (after (po, pf) l) = off /\ snd (after (po, pf) l) = true).
Proof.
  intros E F G. unfold complete_field in E. apply obnd_some in E. destruct E as (u & H & E). apply guard_some in H. apply Z.leb_le in H.
  destruct (Z.eqb_spec (nfoff - foff) 0) as [Q|Q].
  - injection E as <-. cbn. split; [lia|]. split; [constructor|]. split; [exact I|]. destruct G as [->|G]; [left; lia|right; exact G].
  - assert (exists size, l = [zero off size foff (nfoff - foff)] /\ nfoff <= 64) as (size & -> & N64).
    { destruct (Z.ltb_spec 32 nfoff).
      - apply obnd_some in E. destruct E as (v & H' & E). apply guard_some in H'. apply Z.ltb_lt in H'. injection E as <-. exists 8. split; [reflexivity|lia].
      - destruct (16 <? nfoff); [|destruct (8 <? nfoff)]; injection E as <-; eexists; (split; [reflexivity|lia]). }
    unfold first, last, first, width, zero. cbn. unfold is_field. cbn. destruct (Z.eqb_spec (nfoff - foff) 0) as [|_]; [contradiction|].
    unfold last, first, width. cbn. destruct (Z.eqb_spec (nfoff - foff) 0) as [|_]; [contradiction|].
    split; [lia|]. split; [constructor; [|constructor]; split; [reflexivity|cbn; lia]|]. split; [|right; auto]. split; [|exact I].
    destruct G as [G|[G1 G2]]; [right; exact G|left]. auto.
Qed.

Lemma pad_ok off foff noff nfoff l po pf : initialize_padding off foff noff nfoff = Some l ->
  0 <= foff <= 64 -> (off < noff -> 8 * off + foff <= 8 * noff) -> (off < noff -> 8 * off + foff = 8 * noff -> In foff [0; 8; 16; 32; 64]) ->
  (foff = 0 \/ po = off /\ pf = true) ->
  Contiguous (8 * off + foff) l (8 * noff + nfoff) /\ Forall Pad l /\ Chain (po, pf) l /\
  (nfoff = 0 \/ fst (after (po, pf) l) = noff /\ snd (after (po, pf) l) = true).
Proof.
  intros E F U GP G. unfold initialize_padding in E. apply obnd_some in E. destruct E as (u & H & E). apply guard_some in H.
  apply andb_true_iff in H. destruct H as [H1 H2]. apply Z.leb_le in H1, H2. destruct (Z.eqb_spec off noff) as [->|N].
  - apply complete_ok; [exact E|lia|exact G].
  - specialize (U ltac:(lia)). specialize (GP ltac:(lia)). apply obnd_some in E. destruct E as ([l1 off1] & E1 & E). apply obnd_some in E. destruct E as (v & H3 & E). apply guard_some in H3. apply Z.leb_le in H3.
    apply obnd_some in E. destruct E as (r & E2 & E). injection E as <-.
    assert (Contiguous (8 * off + foff) l1 (8 * off1) /\ Forall Pad l1 /\ Chain (po, pf) l1) as (A1 & A2 & A3).
    { unfold finish_field in E1. destruct ((foff =? 8) || (foff =? 16) || (foff =? 32) || (foff =? 64)) eqn:Q.
      - assert (l1 = [] /\ off1 = off + foff / 8) as [-> ->] by (split; congruence). cbn [Contiguous Chain]. rewrite !orb_true_iff, !Z.eqb_eq in Q. split; [|split; [constructor|exact I]].
        destruct Q as [[[-> | ->]| ->]| ->]; [change (8 / 8) with 1|change (16 / 8) with 2|change (32 / 8) with 4|change (64 / 8) with 8]; lia.
      - rewrite !orb_false_iff, !Z.eqb_neq in Q. destruct (Z.eqb_spec foff 0) as [->|F0].
        + assert (l1 = [] /\ off1 = off) as [-> ->] by (split; congruence). cbn [Contiguous Chain]. split; [lia|]. split; [constructor|exact I].
        + apply obnd_some in E1. destruct E1 as (size & ES & E1). apply obnd_some in E1. destruct E1 as (w & EW & E1). apply obnd_some in E1. destruct E1 as (v' & H4 & E1). assert (l1 = [zero off size foff w] /\ off1 = off + (foff + w) / 8) as [-> ->] by (split; congruence).
          apply guard_some in H4. apply Z.eqb_eq in H4.
          assert (size = 4 /\ foff < 32 \/ size = 8 /\ foff < 64) as SZ.
          { destruct (Z.ltb_spec foff 32); [injection ES as <-; lia|]. apply obnd_some in ES. destruct ES as (v2 & H5 & ES). apply guard_some in H5. apply Z.ltb_lt in H5. injection ES as <-. lia. }
          assert (8 * off + foff <> 8 * noff) as NE. { intro Z0. specialize (GP Z0). cbn in GP. lia. }
          assert (0 < w /\ foff + w <= 64) as [WP W64].
          { destruct (Z.ltb_spec noff (off + size)).
            - apply obnd_some in EW. destruct EW as (v2 & _ & EW). injection EW as <-. lia.
            - injection EW as <-. lia. }
          assert (foff + w = 8 * ((foff + w) / 8)) as DV by (apply Z.div_exact; [lia|exact H4]).
          cbn [Contiguous Chain]. assert (first (zero off size foff w) = 8 * off + foff) as -> by reflexivity.
          assert (last (zero off size foff w) = 8 * off + foff + w) as ->. { unfold last, width. cbn [zero a_fw]. unfold zero. cbn [a_fw]. destruct (Z.eqb_spec w 0) as [|_]; [lia|reflexivity]. }
          split; [lia|]. split; [constructor; [|constructor]; split; [reflexivity|cbn; lia]|]. split; [|exact I].
          destruct G as [G|[G1 G2]]; [lia|left]. split; [symmetry; exact G1|]. split; [exact G2|]. change (w <> 0). lia. }
    destruct (zeros_ok (Z.to_nat (noff - off1)) off1 (noff - off1) (after (po, pf) l1)) as (B1 & B2 & B3); [lia|lia|]. set (zs := zero_initialize_bytes _ _ _) in *.
    destruct (after (after (po, pf) l1) zs) as [po' pf'] eqn:EA.
    destruct (complete_ok _ _ _ _ po' pf' E2) as (C1 & C2 & C3 & C4); [lia|left; reflexivity|].
    split; [|split; [|split]].
    + rewrite contig_app. exists (8 * off1). split; [exact A1|]. rewrite contig_app. exists (8 * noff). replace (off1 + (noff - off1)) with noff in B1 by lia. split; [exact B1|].
      rewrite Z.add_0_r in C1. exact C1.
    + apply Forall_app. split; [exact A2|]. apply Forall_app. split; [|exact C2]. revert B2. apply Forall_impl. tauto.
    + rewrite chain_app. split; [exact A3|]. rewrite chain_app. split; [exact B3|]. rewrite EA. exact C3.
    + rewrite !after_app, EA. exact C4.
Qed.

Lemma complete_const off foff nfoff l : complete_field off foff nfoff = Some l -> Forall (fun x => a_val x = Const 0) l.
Proof.
  unfold complete_field. intro E. apply obnd_some in E. destruct E as (u & _ & E). destruct (nfoff - foff =? 0); [injection E as <-; constructor|].
  destruct (32 <? nfoff); [apply obnd_some in E; destruct E as (v & _ & E)|destruct (16 <? nfoff); [|destruct (8 <? nfoff)]]; injection E as <-; repeat constructor.
Qed.
Lemma pad_const off foff noff nfoff l : initialize_padding off foff noff nfoff = Some l -> Forall (fun x => a_val x = Const 0) l.
Proof.
  unfold initialize_padding. intro E. apply obnd_some in E. destruct E as (u & _ & E). destruct (off =? noff); [apply complete_const in E; exact E|].
  apply obnd_some in E. destruct E as ([l1 off1] & E1 & E). apply obnd_some in E. destruct E as (v & H & E). apply guard_some in H. apply Z.leb_le in H. apply obnd_some in E. destruct E as (r & E2 & E). injection E as <-.
  apply Forall_app. split; [|apply Forall_app; split; [|apply complete_const in E2; exact E2]].
  - unfold finish_field in E1. destruct ((foff =? 8) || (foff =? 16) || (foff =? 32) || (foff =? 64)); [injection E1 as <- <-; constructor|]. destruct (foff =? 0); [injection E1 as <- <-; constructor|].
    apply obnd_some in E1. destruct E1 as (size & _ & E1). apply obnd_some in E1. destruct E1 as (w & _ & E1). apply obnd_some in E1. destruct E1 as (v' & _ & E1). injection E1 as <- <-. repeat constructor.
  - destruct (zeros_ok (Z.to_nat (noff - off1)) off1 (noff - off1) (0, false)) as (_ & B & _); [lia|lia|]. revert B. apply Forall_impl. intros x ([V _] & _). exact V.
Qed.

(* a constant field is followed by a constant at the same offset that is not one *)
Fixpoint Bad (st : Z * bool) (l : list asg) : Prop :=
  match l with
  | [] => False
  | y :: r => snd st = true /\ a_off y = fst st /\ a_fw y = 0 /\ (exists z, a_val y = Const z) \/ Bad (a_off y, is_field y) r
  end.
Lemma bad_app a : forall st b, Bad (after st a) b -> Bad st (a ++ b).
Proof. induction a as [|x a IH]; intros st b H; [exact H|]. right. apply IH. exact H. Qed.
Lemma bad_left a : forall st b, Bad st a -> Bad st (a ++ b).
Proof. induction a as [|x a IH]; intros st b H; [destruct H|]. destruct H as [H|H]; [left; exact H|right; apply IH, H]. Qed.
Lemma pad_bad off foff noff nfoff l : initialize_padding off foff noff nfoff = Some l -> 0 <= foff -> off < noff -> 8 * off + foff = 8 * noff -> ~ In foff [0; 8; 16; 32; 64] ->
  Bad (off, true) l.
Proof.
  intros E F LT Q N. unfold initialize_padding in E. apply obnd_some in E. destruct E as (u & _ & E). destruct (Z.eqb_spec off noff) as [|_]; [lia|].
  apply obnd_some in E. destruct E as ([l1 off1] & E1 & E). apply obnd_some in E. destruct E as (v & _ & E). apply obnd_some in E. destruct E as (r & _ & E). injection E as <-.
  apply bad_left. cbn [In] in N. unfold finish_field in E1. destruct (Z.eqb_spec foff 8); [lia|]. destruct (Z.eqb_spec foff 16); [lia|]. destruct (Z.eqb_spec foff 32); [lia|]. destruct (Z.eqb_spec foff 64); [lia|].
  destruct (Z.eqb_spec foff 0); [lia|]. cbn [orb] in E1. apply obnd_some in E1. destruct E1 as (size & ES & E1). apply obnd_some in E1. destruct E1 as (w & EW & E1). apply obnd_some in E1. destruct E1 as (v' & _ & E1).
  assert (l1 = [zero off size foff w]) as -> by congruence.
  assert (foff < 8 * size) as SZ.
  { destruct (Z.ltb_spec foff 32); [injection ES as <-; lia|]. apply obnd_some in ES. destruct ES as (v2 & H5 & ES). apply guard_some in H5. apply Z.ltb_lt in H5. injection ES as <-. lia. }
  assert (w = 0) as ->. { destruct (Z.ltb_spec noff (off + size)); [|lia]. apply obnd_some in EW. destruct EW as (v2 & _ & EW). injection EW as <-. lia. }
  left. cbn. eauto 10.
Qed.

(* the assignments of src in the order they are written, with padding *)
Lemma fill_ok size : forall l off foff out po pf, fill off foff size l = Some out -> Forall (Item size) l -> 0 <= foff <= 64 ->
  (foff = 0 \/ po = off /\ pf = true) ->
  (forall e, (exists y, In y l /\ a_off y = e) \/ e = size -> off < e -> 8 * off + foff <= 8 * e) ->
  (forall x y, In x l -> In y l -> a_off x < a_off y -> last x <= 8 * a_off y) ->
  (Contiguous (8 * off + foff) out (8 * size) /\ (forall x, In x out -> In x l \/ Pad x) /\ (forall x, In x l -> In x out) /\ Chain (po, pf) out) \/
  (Bad (po, pf) out /\ Forall (fun x => In x l \/ a_val x = Const 0) out /\
   ((exists e, (e = size \/ exists y, In y l /\ a_off y = e) /\ 8 * off + foff = 8 * e /\ ~ In foff [0; 8; 16; 32; 64]) \/
    (exists x e, In x l /\ a_fw x <> 0 /\ (e = size \/ exists y, In y l /\ a_off y = e) /\ last x = 8 * e /\ ~ In (a_foff x + a_fw x) [0; 8; 16; 32; 64]))).
Proof.
  assert (forall foff, {In foff [0; 8; 16; 32; 64]} + {~ In foff [0; 8; 16; 32; 64]}) as DEC by (intro; apply in_dec, Z.eq_dec).
  assert (forall off foff noff, {off < noff /\ 8 * off + foff = 8 * noff /\ ~ In foff [0; 8; 16; 32; 64]} + {off < noff -> 8 * off + foff = 8 * noff -> In foff [0; 8; 16; 32; 64]}) as GAP.
  { intros off foff noff. destruct (DEC foff) as [I|I]; [right; auto|]. destruct (Z_lt_dec off noff) as [L|L]; [|right; lia]. destruct (Z.eq_dec (8 * off + foff) (8 * noff)) as [Q|Q]; [left; auto|right; lia]. }
  induction l as [|x l IH]; intros off foff out po pf E IT FB G U SE; cbn [fill] in E.
  - destruct (GAP off foff size) as [(LT & Q & N)|GP].
    + right. destruct G as [->|[-> ->]]; [exfalso; apply N; left; reflexivity|]. split; [eapply pad_bad; eauto; lia|]. split; [|left; exists size; auto].
      apply pad_const in E. revert E. apply Forall_impl. auto.
    + left. destruct (pad_ok _ _ _ _ _ po pf E FB) as (A & B & C & _); [intro H; apply (U size); auto|exact GP|exact G|].
      rewrite Z.add_0_r in A. split; [exact A|]. split; [intros x X; right; rewrite Forall_forall in B; auto|]. split; [intros x []|exact C].
  - apply obnd_some in E. destruct E as (pad & EP & E). apply obnd_some in E. destruct E as (rest & ER & E). injection E as <-.
    inversion IT as [|? ? IX IL]; subst.
    assert (forall e, (exists y, In y (x :: l) /\ a_off y = e) -> off < e -> 8 * off + foff <= 8 * e) as U' by auto.
    pose proof IX as (I0 & I1 & I2).
    assert (0 <= a_foff x + a_fw x <= 64 /\ first x < last x) as [FB' WP].
    { unfold last, width. destruct I2 as [((P1 & P2) & P3)|(P1 & P2 & P3 & _)]; [rewrite P1, P2; change (0 =? 0) with true; cbv iota; lia|]. destruct (Z.eqb_spec (a_fw x) 0); lia. }
    assert ((if a_fw x =? 0 then a_off x + a_size x else a_off x) * 8 + (a_foff x + a_fw x) = last x) as LX.
    { unfold last, first, width. destruct I2 as [((P1 & P2) & P3)|(P1 & P2 & P3 & _)]; [rewrite P1, P2; change (0 =? 0) with true; cbv iota; lia|]. destruct (Z.eqb_spec (a_fw x) 0); lia. }
    assert (a_fw x = 0 -> a_foff x + a_fw x = 0) as F0 by (intro Z0; destruct I2 as [((P1 & P2) & P3)|(P1 & P2 & P3 & _)]; lia).
    pose proof (IH _ _ _ (a_off x) (is_field x) ER IL FB') as IHx.
    assert (a_foff x + a_fw x = 0 \/ a_off x = (if a_fw x =? 0 then a_off x + a_size x else a_off x) /\ is_field x = true) as G'.
    { unfold is_field. destruct (Z.eqb_spec (a_fw x) 0) as [Z0|Z0]; [left; auto|right; auto]. }
    specialize (IHx G').
    assert (forall e, (exists y, In y l /\ a_off y = e) \/ e = size -> (if a_fw x =? 0 then a_off x + a_size x else a_off x) < e ->
      8 * (if a_fw x =? 0 then a_off x + a_size x else a_off x) + (a_foff x + a_fw x) <= 8 * e) as UX.
    { intros e HE HO. destruct (Z.eqb_spec (a_fw x) 0) as [Z0|Z0]; [rewrite (F0 Z0); lia|].
      assert (last x <= 8 * e) as LE. { destruct HE as [(y & Y & <-)|HE]; [apply SE; [left; reflexivity|right; exact Y|exact HO]|lia]. } lia. }
    specialize (IHx UX).
    assert (forall a b, In a l -> In b l -> a_off a < a_off b -> last a <= 8 * a_off b) as SE' by (intros a b X Y; apply SE; right; assumption).
    specialize (IHx SE').
    assert (Forall (fun y => In y (x :: l) \/ a_val y = Const 0) rest -> Forall (fun y => In y (x :: l) \/ a_val y = Const 0) (pad ++ x :: rest)) as CONSTS.
    { intro H. apply Forall_app. split; [apply pad_const in EP; revert EP; apply Forall_impl; auto|]. constructor; [left; left; reflexivity|exact H]. }
    destruct (GAP off foff (a_off x)) as [(LT & Q & N)|GP].
    { right. destruct G as [->|[-> ->]]; [exfalso; apply N; left; reflexivity|]. split; [apply bad_left; eapply pad_bad; eauto; lia|]. split.
      - apply CONSTS. destruct IHx as [(_ & A2 & _)|(_ & A2 & _)].
        + apply Forall_forall. intros y Y. destruct (A2 _ Y) as [?|[? _]]; [left; right; assumption|right; assumption].
        + revert A2. apply Forall_impl. intros y [?|?]; [left; right; assumption|right; assumption].
      - left. exists (a_off x). split; [|auto]. right. exists x. split; [left; reflexivity|reflexivity]. }
    destruct (pad_ok _ _ _ _ _ po pf EP FB) as (A & B & C & D).
    { intro H. apply (U' (a_off x)); [exists x; split; [left; reflexivity|reflexivity]|exact H]. }
    { exact GP. }
    { exact G. }
    destruct (after (po, pf) pad) as [po' pf'] eqn:EA. cbn [fst snd] in D.
    destruct IHx as [(A1 & A2 & A3 & A4)|(A1 & A2 & A3)]; [left|right].
    + split; [|split; [|split]].
      * rewrite contig_app. exists (8 * a_off x + a_foff x). split; [exact A|]. cbn [Contiguous]. split; [reflexivity|]. split; [exact WP|]. replace (last x) with (8 * (if a_fw x =? 0 then a_off x + a_size x else a_off x) + (a_foff x + a_fw x)) by lia. exact A1.
      * intros y Y. apply in_app_or in Y. destruct Y as [Y|[<-|Y]].
        -- right. rewrite Forall_forall in B. auto.
        -- left. left. reflexivity.
        -- destruct (A2 _ Y); [left; right; assumption|right; assumption].
      * intros y [<-|Y]; apply in_or_app; right; [left; reflexivity|right; apply A3, Y].
      * rewrite chain_app. split; [exact C|]. rewrite EA. cbn [Chain fst snd]. split; [|exact A4].
        destruct I2 as [((P1 & P2) & P3)|(P1 & P2 & P3 & _)]; [right; exact P1|]. destruct D as [D|[D1 D2]]; [right; exact D|]. left. split; [symmetry; exact D1|]. split; [exact D2|lia].
    + split; [apply bad_app; right; exact A1|]. split.
      * apply CONSTS. revert A2. apply Forall_impl. intros y [?|?]; [left; right; assumption|right; assumption].
      * right. destruct A3 as [(e & HE & Q & N)|(y & e & Y & YW & HE & Q & N)].
        -- exists x, e. split; [left; reflexivity|]. split; [intro Z0; apply N; rewrite (F0 Z0); left; reflexivity|]. split; [destruct HE as [HE|(z & Z0 & HE)]; [left; exact HE|right; exists z; split; [right; exact Z0|exact HE]]|]. split; [lia|exact N].
        -- exists y, e. split; [right; exact Y|]. split; [exact YW|]. split; [destruct HE as [HE|(z & Z0 & HE)]; [left; exact HE|right; exists z; split; [right; exact Z0|exact HE]]|auto].
Qed.

(* --- merging --- *)
Lemma wrap64_bits z k : 0 <= k < 64 -> Z.testbit (wrap64 z) k = Z.testbit z k.
Proof.
  intro K. unfold wrap64. assert (exists m, (z + 2 ^ 63) mod 2 ^ 64 - 2 ^ 63 = z + m * 2 ^ 64) as [m ->].
  { exists (- ((z + 2 ^ 63) / 2 ^ 64)). pose proof (Z.div_mod (z + 2 ^ 63) (2 ^ 64) ltac:(lia)). lia. }
  rewrite <- (Z.mod_pow2_bits_low (z + m * 2 ^ 64) 64 k) by lia. rewrite Z.mod_add by lia. apply Z.mod_pow2_bits_low. lia.
Qed.
Lemma mask w : 0 <= w <= 63 -> wrap64 (wrap64 (Z.shiftl 1 w) - 1) = Z.ones w.
Proof.
  intro W. rewrite Z.shiftl_1_l, Z.ones_equiv. unfold wrap64. destruct (Z.eq_dec w 63) as [->|N]; [reflexivity|].
  assert (0 < 2 ^ w <= 2 ^ 62) as P by (split; [apply Z.pow_pos_nonneg; lia|apply Z.pow_le_mono_r; lia]).
  assert (2 ^ 62 * 2 = 2 ^ 63) as P2 by reflexivity. assert (2 ^ 63 * 2 = 2 ^ 64) as P3 by reflexivity.
  rewrite (Z.mod_small (2 ^ w + 2 ^ 63)) by lia. rewrite Z.mod_small by lia. lia.
Qed.
Lemma merge_bits x y wa wb k : 0 < wa -> 0 < wb -> wa + wb <= 64 -> 0 <= k < wa + wb ->
  Z.testbit (Z.lor (wrap64 (Z.shiftl (Z.land x (wrap64 (wrap64 (Z.shiftl 1 wa) - 1))) 0)) (wrap64 (Z.shiftl (Z.land y (wrap64 (wrap64 (Z.shiftl 1 wb) - 1))) wa))) k =
  if k <? wa then Z.testbit x k else Z.testbit y (k - wa).
Proof.
  intros A B C K. rewrite !mask by lia. rewrite Z.lor_spec, !wrap64_bits by lia. rewrite Z.shiftl_0_r, Z.shiftl_spec by lia. rewrite Z.land_spec.
  destruct (Z.ltb_spec k wa).
  - rewrite Z.ones_spec_low, andb_true_r by lia. rewrite (Z.testbit_neg_r (Z.land y (Z.ones wb))) by lia. apply orb_false_r.
  - rewrite Z.ones_spec_high, andb_false_r by lia. cbn. rewrite Z.land_spec, Z.ones_spec_low by lia. apply andb_true_r.
Qed.
Definition Fld (x : asg) : Prop := a_fw x <> 0 -> 0 <= a_foff x /\ 0 < a_fw x /\ a_foff x + a_fw x <= 64 /\ exists z, a_val x = Const z.

Lemma normalize_ok l : forall a po out p e, normalize a l = Some out -> Contiguous p (a :: l) e -> a_foff a = 0 -> Fld a -> Forall Fld l ->
  Chain (a_off a, po) l -> (po = true -> exists z, a_val a = Const z) ->
  Contiguous p out e /\ forall x q, In x out -> covers x q -> exists y, In y (a :: l) /\ covers y q /\ bit_at x q = bit_at y q.
Proof.
  induction l as [|b l IH]; intros a po out p e E C F0 FA FL CH PO; cbn [normalize] in E.
  - injection E as <-. split; [exact C|]. intros x q X Q. exists x. auto.
  - apply obnd_some in E. destruct E as (m & EM & E). inversion FL as [|? ? FB FL']; subst. cbn [Chain fst snd] in CH. destruct CH as [C1 C2].
    destruct C as (A1 & A2 & A3 & A4 & A5). unfold merge_assignments in EM.
    assert (a_off b <> a_off a -> a_foff b = 0) as FB0 by (intro N; destruct C1 as [(X & _)|X]; [contradiction|exact X]).
    assert ((exists x y, a_val a = Const x /\ a_val b = Const y /\ a_off a = a_off b) \/ m = None /\ (a_off a <> a_off b \/ (exists id, a_val a = Other id) \/ exists id, a_val b = Other id)) as [(x & y & VA & VB & OE)|(-> & NM)].
    { destruct (a_val a) as [x|id]; [|injection EM as <-; right; split; [reflexivity|right; left; exists id; reflexivity]].
      destruct (a_val b) as [y|id]; [|injection EM as <-; right; split; [reflexivity|right; right; exists id; reflexivity]].
      destruct (Z.eqb_spec (a_off a) (a_off b)) as [OE|OE]; cbn in EM; [left; exists x, y; auto|right; injection EM as <-; auto]. }
    + (* merged *)
      rewrite VA, VB, OE, Z.eqb_refl in EM. cbn [negb] in EM. apply obnd_some in EM. destruct EM as (u & H & EM). apply guard_some in H. apply andb_true_iff in H. destruct H as [H1 H2].
      unfold is_field in H1, H2. apply negb_true_iff, Z.eqb_neq in H1, H2. destruct (FA H1) as (_ & A6 & A7 & _). destruct (FB H2) as (B5 & B6 & B7 & _).
      assert (width a = a_fw a /\ width b = a_fw b) as [WA WB] by (unfold width; destruct (Z.eqb_spec (a_fw a) 0), (Z.eqb_spec (a_fw b) 0); try contradiction; auto).
      assert (a_foff b = a_fw a) as FE by (unfold last, first in *; lia).
      rewrite F0, FE in EM. cbn [Z.eqb andb] in EM.
      set (size := Z.max 4 (Z.max (a_size a) (a_size b))) in *.
      set (w := if a_fw a + a_fw b =? size * 8 then 0 else a_fw a + a_fw b) in *.
      set (v := Z.lor _ _) in EM. injection EM as <-. set (a' := mkAsg (a_off b) size 0 w (Const v)) in *.
      assert (width a' = a_fw a + a_fw b) as WA'. { unfold width, a', w. cbn [a_fw a_size]. destruct (Z.eqb_spec (a_fw a + a_fw b) (size * 8)); [change (0 =? 0) with true; cbv iota; lia|]. destruct (Z.eqb_spec (a_fw a + a_fw b) 0); lia. }
      assert (first a' = first a) as FE' by (unfold first, a'; cbn [a_off a_foff]; rewrite OE, F0; reflexivity).
      assert (last a' = last b) as LE' by (unfold last; rewrite WA', FE'; unfold last in *; lia).
      destruct (IH a' (is_field b) out p e E) as [D1 D2].
      { cbn [Contiguous]. rewrite LE'. split; [lia|]. split; [lia|exact A5]. }
      { reflexivity. }
      { intro N. unfold a' in *. cbn in *. unfold w in *. destruct (Z.eqb_spec (a_fw a + a_fw b) (size * 8)); [contradiction|]. split; [lia|]. split; [lia|]. split; [lia|eauto]. }
      { exact FL'. }
      { exact C2. }
      { intros _. exists v. reflexivity. }
      split; [exact D1|]. intros z q Z1 Z2. destruct (D2 z q Z1 Z2) as (y' & [<-|Y] & Q1 & Q2); [|exists y'; split; [right; right; exact Y|auto]].
      rewrite Q2. unfold covers in Q1. rewrite FE', LE' in Q1. assert (bit_at a' q = InitSpec.B (Z.testbit v (q - first a'))) as -> by reflexivity. rewrite FE'.
      assert (last a = first a + a_fw a) as LA by (unfold last; lia).
      assert (last b = first a + a_fw a + a_fw b) as LB by (unfold last at 1; lia).
      unfold v. rewrite merge_bits by lia. destruct (Z.ltb_spec (q - first a) (a_fw a)).
      * exists a. split; [left; reflexivity|]. split; [unfold covers; lia|]. unfold bit_at. rewrite VA. reflexivity.
      * exists b. split; [right; left; reflexivity|]. split; [unfold covers; lia|]. unfold bit_at. rewrite VB. do 2 f_equal. lia.
    + (* not merged: the next one is in another unit *)
      apply obnd_some in E. destruct E as (l' & EN & E). injection E as <-.
      assert (a_foff b = 0) as FB1.
      { destruct C1 as [(X & Y & Z0)|X]; [|exact X]. exfalso. cbn in X. destruct NM as [N|[(id & N)|(id & N)]]; [congruence| |].
        - destruct (PO Y) as (z & V). congruence.
        - destruct (FB Z0) as (_ & _ & _ & z & V). congruence. }
      destruct (IH b (is_field b) l' (last a) e EN) as [D1 D2]; auto.
      { cbn. auto. }
      { intro T. unfold is_field in T. apply negb_true_iff, Z.eqb_neq in T. destruct (FB T) as (_ & _ & _ & z & V). exists z. exact V. }
      split; [cbn; auto|]. intros x q [<-|X] Q; [exists a; split; [left; reflexivity|auto]|]. destruct (D2 x q X Q) as (y & Y & Y2). exists y. split; [right; exact Y|exact Y2].
Qed.

Lemma normalize_bad l : forall a po, Bad (a_off a, po) l -> (po = true -> exists z, a_val a = Const z) -> Forall (fun x => a_fw x <> 0 -> exists z, a_val x = Const z) l -> normalize a l = None.
Proof.
  induction l as [|b l IH]; intros a po B PO F; [destruct B|]. cbn [normalize]. inversion F as [|? ? FB F']; subst. cbn [Bad fst snd] in B. unfold merge_assignments.
  destruct B as [(P & OE & W & y & VB)|B].
  - destruct (PO P) as (x & VA). rewrite VA, VB, OE, Z.eqb_refl. cbn [negb]. assert (is_field b = false) as -> by (unfold is_field; rewrite W; reflexivity). rewrite andb_false_r. reflexivity.
  - assert (is_field b = true -> exists z, a_val b = Const z) as FB' by (intro T; apply FB; unfold is_field in T; apply negb_true_iff, Z.eqb_neq in T; exact T).
    pose proof (IH b (is_field b) B FB' F') as NB.
    destruct (a_val a) as [x|id]; [|cbn [obnd]; rewrite NB; reflexivity]. destruct (a_val b) as [y|id]; [|cbn [obnd]; rewrite NB; reflexivity].
    destruct (Z.eqb_spec (a_off a) (a_off b)) as [OE|OE]; cbn [negb]; [|cbn [obnd]; rewrite NB; reflexivity].
    destruct (is_field a && is_field b); [|reflexivity]. cbn [guard obnd]. apply (IH _ (is_field b)); [cbn [a_off]; rewrite OE; exact B|intros _; eexists; reflexivity|exact F'].
Qed.

(* --- sorting --- *)
Definition key (x : asg) : Z * Z := (a_off x, a_foff x).
Lemma insert_in x : forall r r', insert r x = Some r' -> In x r' /\ (forall y, In y r' -> y = x \/ In y r) /\ (forall y, In y r -> key y <> key x -> In y r').
Proof.
  induction r as [|h t IH]; intros r' E; cbn in E.
  - injection E as <-. split; [left; reflexivity|]. split; [intros y [<-|[]]; auto|intros y []].
  - destruct (a_off x <? a_off h).
    + destruct (insert t x) as [t'|]; [|discriminate]. cbn in E. injection E as <-. destruct (IH _ eq_refl) as (A & B & C). split; [right; exact A|]. split.
      * intros y [<-|Y]; [right; left; reflexivity|]. destruct (B _ Y); [left; assumption|right; right; assumption].
      * intros y [<-|Y] N; [left; reflexivity|right; apply C; assumption].
    + destruct ((a_off h =? a_off x) && (a_foff h =? a_foff x)) eqn:Q.
      * apply obnd_some in E. destruct E as (u & _ & E). injection E as <-. apply andb_true_iff in Q. rewrite !Z.eqb_eq in Q. split; [left; reflexivity|]. split.
        -- intros y [<-|Y]; [left; reflexivity|right; right; exact Y].
        -- intros y [<-|Y] N; [exfalso; apply N; unfold key; f_equal; tauto|right; exact Y].
      * injection E as <-. split; [left; reflexivity|]. split; [intros y [<-|Y]; auto|intros y Y _; right; exact Y].
Qed.
Lemma fold_none {A B} (f : A -> B -> option A) l : fold_left (fun acc x => obnd acc (fun r => f r x)) l None = None.
Proof. induction l; [reflexivity|exact IHl]. Qed.
Lemma sort_snoc l x : fold_left (fun acc x => obnd acc (fun r => insert r x)) (l ++ [x]) (Some []) = obnd (fold_left (fun acc x => obnd acc (fun r => insert r x)) l (Some [])) (fun r => insert r x).
Proof. rewrite fold_left_app. reflexivity. Qed.
(* what is sorted is part of the source, and of those that start at the same bit it has the last one *)
Definition Latest (src : list asg) (x : asg) : Prop := exists l r, src = l ++ x :: r /\ Forall (fun y => key y <> key x) r.
Lemma sort_in src : forall r, fold_left (fun acc x => obnd acc (fun r => insert r x)) src (Some []) = Some r ->
  (forall x, In x r -> In x src) /\ (forall x, Latest src x -> In x r).
Proof.
  induction src as [|x src IH] using rev_ind; intros r E.
  - injection E as <-. split; [intros x []|]. intros x (l & r & H & _). destruct l; discriminate H.
  - rewrite sort_snoc in E. apply obnd_some in E. destruct E as (r0 & E0 & E). destruct (IH _ E0) as [A B]. destruct (insert_in _ _ _ E) as (C & D & F). split.
    + intros y Y. apply in_or_app. destruct (D _ Y) as [->|Y']; [right; left; reflexivity|left; auto].
    + intros y (l & t & H & G). destruct t as [|t0 t] using rev_ind.
      * apply app_inj_tail in H. destruct H as [_ <-]. exact C.
      * clear IHt. rewrite app_comm_cons, app_assoc in H. apply app_inj_tail in H. destruct H as [H <-]. apply Forall_app in G. destruct G as [G1 G2]. inversion G2; subst.
        apply F; [apply B; exists l, t; auto|]. auto.
Qed.
Lemma latest_ex src : forall x, In x src -> exists y, Latest src y /\ key y = key x.
Proof.
  assert (forall a b : Z * Z, {a = b} + {a <> b}) as DEC by (decide equality; apply Z.eq_dec).
  induction src as [|z src IH]; intros x X; [destruct X|].
  assert ((exists y, In y src /\ key y = key x) \/ Forall (fun y => key y <> key x) src) as [(y & Y & K)|N].
  { clear - DEC. induction src as [|z src IH]; [right; constructor|]. destruct (DEC (key z) (key x)) as [K|K]; [left; exists z; split; [left; reflexivity|exact K]|].
    destruct IH as [(y & Y & K')|IH]; [left; exists y; split; [right; exact Y|exact K']|right; constructor; assumption]. }
  - destruct (IH _ Y) as (y' & (l & r & -> & F) & K'). exists y'. split; [|congruence]. exists (z :: l), r. auto.
  - destruct X as [<-|X]; [|rewrite Forall_forall in N; exfalso; exact (N _ X eq_refl)]. exists z. split; [|reflexivity]. exists [], src. auto.
Qed.

Lemma asg_dec (x y : asg) : {x = y} + {x <> y}.
Proof. decide equality; try apply Z.eq_dec. decide equality; [apply Z.eq_dec|apply Nat.eq_dec]. Qed.

Lemma item_width size x : Item size x -> first x < last x /\ 8 * a_off x <= first x.
Proof.
  intros (A & B & C). unfold last, first, width in *. destruct C as [((P1 & P2) & P3)|(P1 & P2 & P3 & _)]; [rewrite P1, P2; change (0 =? 0) with true; cbv iota; lia|]. destruct (Z.eqb_spec (a_fw x) 0); lia.
Qed.

(* the block before merging *)
Lemma block_ok size src l block : Forall (Item size) src -> (forall x y, In x src -> In y src -> Apart x y) ->
  sort_and_trim src = Some l -> fill 0 0 size l = Some block ->
  (Correct src size block /\ Chain (0, false) block /\ Forall Fld block /\ (forall x, In x l -> In x block)) \/
  (existsb is_field l = true /\ normalize_field_assignment block = None /\ ~ Ends_well size src).
Proof.
  intros IT AP ES EF. unfold sort_and_trim in ES. destruct (fold_left _ src _) as [r|] eqn:EL; [|discriminate]. cbn in ES. injection ES as <-.
  destruct (sort_in _ _ EL) as [S1 S2]. rewrite Forall_forall in IT.
  assert (forall x, In x (rev r) -> In x src) as S1' by (intros x X; apply S1, in_rev, X).
  destruct (fill_ok size (rev r) 0 0 block 0 false EF) as [(A & B & C & D)|(A & B & C)].
  { apply Forall_forall. intros x X. apply IT. auto. }
  { lia. }
  { left. reflexivity. }
  { intros e _ H. lia. }
  { intros x y X Y LT. pose proof (AP x y (S1' _ X) (S1' _ Y)) as H. destruct (item_width _ _ (IT _ (S1' _ X))), (item_width _ _ (IT _ (S1' _ Y))). unfold Apart in H. lia. }
  2:{ right. destruct C as [(e & _ & _ & N)|(x & e & X & W & HE & Q & N)]; [exfalso; apply N; left; reflexivity|]. split; [|split].
      - apply existsb_exists. exists x. split; [exact X|]. unfold is_field. apply negb_true_iff, Z.eqb_neq. exact W.
      - unfold normalize_field_assignment. destruct block as [|a [|b t]]; try reflexivity. inversion B as [|? ? B1 B2]; subst.
        assert (forall y, In y (rev r) \/ a_val y = Const 0 -> a_fw y <> 0 -> exists z, a_val y = Const z) as CV.
        { intros y [Y|Y] YW; [|eauto]. destruct (IT _ (S1' _ Y)) as (_ & _ & [((_ & P2) & _)|(_ & _ & _ & V)]); [contradiction|exact V]. }
        destruct A as [(T & _)|A]; [discriminate T|]. apply (normalize_bad _ a (is_field a) A).
        + intro T. apply (CV a B1). unfold is_field in T. apply negb_true_iff, Z.eqb_neq in T. exact T.
        + revert B2. apply Forall_impl. exact CV.
      - intro EW. apply N. right. apply (EW x e); auto. destruct HE as [HE|(y & Y & HE)]; [left; exact HE|right; exists y; auto]. }
  left. split; [|split; [exact D|split; [|exact C]]].
  - split; [replace 0 with (8 * 0 + 0) by lia; exact A|]. intros x q X Q.
    assert (forall z, In z src -> covers z q -> exists z', Latest src z' /\ key z' = key z /\ In z' block /\ covers z' q) as REP.
    { intros z Z0 CZ. destruct (latest_ex _ _ Z0) as (z' & L & K). exists z'. split; [exact L|]. split; [exact K|]. split; [apply C; rewrite <- in_rev; apply S2, L|].
      assert (In z' src) as Z1 by (destruct L as (a & b & -> & _); apply in_elt).
      assert (first z' = first z) as FE by (unfold first, key in *; congruence).
      pose proof (AP z z' Z0 Z1) as H. destruct (item_width _ _ (IT _ Z0)), (item_width _ _ (IT _ Z1)). unfold key in K.
      assert (a_off z' = a_off z /\ a_foff z' = a_foff z) as [K1 K2] by (split; congruence). unfold covers, last in *. unfold Apart, last in H. lia. }
    destruct (in_dec asg_dec x (rev r)) as [I|I].
    + left. destruct (REP x (S1' _ I) Q) as (x' & (a & b & E & F) & _ & XB & Q'). pose proof (contig_unique _ _ _ _ _ _ A XB X Q' Q) as ->.
      exists a, x, b. split; [exact E|]. split; [exact Q|]. split; [reflexivity|]. apply Forall_forall. intros y Y QY. rewrite Forall_forall in F. apply (F _ Y).
      destruct (REP y) as (y' & _ & K & YB & QY'); [rewrite E; apply in_or_app; right; right; exact Y|exact QY|].
      pose proof (contig_unique _ _ _ _ _ _ A YB X QY' Q) as ->. symmetry. exact K.
    + right. destruct (B _ X) as [?|[V _]]; [contradiction|]. split; [|unfold bit_at; rewrite V; rewrite Z.testbit_0_l; reflexivity].
      apply Forall_forall. intros y Y QY. destruct (REP y Y QY) as (y' & L & _ & YB & QY'). pose proof (contig_unique _ _ _ _ _ _ A YB X QY' Q) as ->.
      apply I. rewrite <- in_rev. apply S2, L.
  - apply Forall_forall. intros x X. destruct (B _ X) as [Y|[V P]].
    + intro N. destruct (IT _ (S1' _ Y)) as (_ & _ & [((P1 & P2) & P3)|(P1 & P2 & P3 & P4)]); [contradiction|auto].
    + intro N. destruct (P N) as (P1 & P2 & P3). split; [exact P1|]. split; [exact P2|]. split; [exact P3|]. exists 0. exact V.
Qed.

Theorem fields_correct size src out : Forall (Item size) src -> (forall x y, In x src -> In y src -> Apart x y) ->
  postprocess src size = Some out -> Correct src size out.
Proof.
  intros IT AP E. unfold postprocess in E. apply obnd_some in E. destruct E as (l & ES & E). apply obnd_some in E. destruct E as (block & EF & E).
  destruct (block_ok _ _ _ _ IT AP ES EF) as [((A1 & A2) & B & C & _)|(X & N & _)]; [|rewrite X, N in E; discriminate E]. destruct (existsb is_field l); [|injection E as <-; split; assumption].
  unfold normalize_field_assignment in E. destruct block as [|a [|b r]]; try discriminate E. inversion C as [|? ? C1 C2]; subst.
  cbn [Chain] in B. destruct B as [B1 B2]. destruct (normalize_ok _ _ (is_field a) _ _ _ E A1) as [D1 D2]; auto.
  - destruct B1 as [(_ & T & _)|B1]; [discriminate T|exact B1].
  - intro T. unfold is_field in T. apply negb_true_iff, Z.eqb_neq in T. destruct (C1 T) as (_ & _ & _ & V). exact V.
  - split; [exact D1|]. intros x q X Q. destruct (D2 x q X Q) as (y & Y & QY & ->). apply A2; assumption.
Qed.

(* --- without fields, always --- *)
Fixpoint Desc (r : list asg) : Prop := match r with [] => True | h :: t => Forall (fun y => a_off y < a_off h) t /\ Desc t end.
Lemma insert_plain x : forall r, Plain x -> Forall Plain r -> Desc r -> exists r', insert r x = Some r' /\ Desc r'.
Proof.
  induction r as [|h t IH]; intros PX PR D; cbn.
  - exists [x]. split; [reflexivity|]. cbn. auto.
  - inversion PR as [|? ? PH PT]; subst. destruct D as [D1 D2]. destruct PX as [X1 X2], PH as [H1 H2].
    destruct (Z.ltb_spec (a_off x) (a_off h)).
    + destruct (IH (conj X1 X2) PT D2) as (t' & E & D'). rewrite E. exists (h :: t'). split; [reflexivity|]. split; [|exact D'].
      apply Forall_forall. intros y Y. destruct (insert_in _ _ _ E) as (_ & B & _). rewrite Forall_forall in D1. destruct (B _ Y) as [->|Y']; auto.
    + rewrite H1, H2, X1, X2, !Z.eqb_refl, andb_true_r. destruct (Z.eqb_spec (a_off h) (a_off x)) as [Q|Q]; cbn.
      * exists (x :: t). split; [reflexivity|]. cbn [Desc]. rewrite <- Q. split; assumption.
      * exists (x :: h :: t). split; [reflexivity|]. split; [|split; assumption]. constructor; [lia|]. revert D1. apply Forall_impl. intros; lia.
Qed.
Lemma sort_plain src : Forall Plain src -> exists r, fold_left (fun acc x => obnd acc (fun r => insert r x)) src (Some []) = Some r /\ Desc r.
Proof.
  induction src as [|x src IH] using rev_ind; intro P.
  - exists []. split; [reflexivity|exact I].
  - apply Forall_app in P. destruct P as [P1 P2]. inversion P2; subst. destruct (IH P1) as (r & E & D). rewrite sort_snoc, E. cbn [obnd].
    apply insert_plain; auto. destruct (sort_in _ _ E) as [S _]. apply Forall_forall. rewrite Forall_forall in P1. auto.
Qed.
Lemma desc_rev a : forall b, Desc (a ++ b) -> Desc b /\ forall x y, In x a -> In y b -> a_off y < a_off x.
Proof.
  induction a as [|h a IH]; intros b D; cbn in D.
  - split; [exact D|intros x y []].
  - destruct D as [D1 D2]. destruct (IH _ D2) as [A B]. split; [exact A|]. intros x y [<-|X] Y; [|auto]. rewrite Forall_forall in D1. apply D1, in_or_app. right. exact Y.
Qed.
Lemma pad_plain off noff : off <= noff -> exists l, initialize_padding off 0 noff 0 = Some l.
Proof.
  intro L. unfold initialize_padding. destruct (Z.leb_spec off noff); [|lia]. destruct (Z.leb_spec (off * 8 + 0) (noff * 8 + 0)); [|lia]. cbn [andb guard obnd].
  destruct (Z.eqb_spec off noff); [eexists; reflexivity|]. cbn [finish_field Z.eqb orb obnd]. change (finish_field off 0 noff) with (Some (@nil asg, off)). cbn [obnd].
  destruct (Z.leb_spec off noff); [|lia]. cbn. eexists. reflexivity.
Qed.
Lemma fill_plain size : forall r off, Forall Plain r -> Forall (Inside size) r -> (forall x, In x r -> off <= a_off x) ->
  (forall x y, In x r -> In y r -> Separate x y) -> Desc (rev r) -> off <= size -> exists out, fill off 0 size r = Some out.
Proof.
  induction r as [|x r IH]; intros off P I L S D O; cbn [fill].
  - apply pad_plain. exact O.
  - inversion P as [|? ? [P1 P2] P3]; subst. inversion I as [|? ? (I1 & I2 & I3) I4]; subst. rewrite P1, P2. cbn [Z.eqb Z.add].
    destruct (pad_plain off (a_off x)) as [l ->]; [apply L; left; reflexivity|]. cbn [obnd]. cbn [rev] in D. destruct (desc_rev _ _ D) as [_ D2].
    assert (Desc (rev r)) as D3. { clear - D. induction (rev r) as [|h t IH]; [exact I|]. cbn in D. destruct D as [A B]. apply Forall_app in A. split; [tauto|auto]. }
    destruct (IH (a_off x + a_size x)) as [out ->]; auto.
    + intros y Y. pose proof (S x y (or_introl eq_refl) (or_intror Y)) as H. rewrite in_rev in Y. specialize (D2 y x Y (or_introl eq_refl)).
      rewrite <- in_rev in Y. rewrite Forall_forall in I4. destruct (I4 _ Y) as (J1 & J2 & J3). unfold Separate in H. lia.
    + intros a b A B. apply S; right; assumption.
    + eexists. reflexivity.
Qed.
Lemma plain_item size x : Plain x -> Inside size x -> Item size x.
Proof. intros [P1 P2] (A & B & C). split; [exact A|]. split; [|left; split; [split; assumption|exact B]]. unfold last, first, width. rewrite P1, P2. change (0 =? 0) with true. cbv iota. lia. Qed.

Theorem plain_correct size src : 0 <= size -> Forall Plain src -> Forall (Inside size) src -> (forall x y, In x src -> In y src -> Separate x y) ->
  exists out, postprocess src size = Some out /\ Correct src size out.
Proof.
  intros SZ P I S. pose proof P as P'. pose proof I as I'. rewrite Forall_forall in P', I'.
  assert (exists out, postprocess src size = Some out) as [out E].
  { destruct (sort_plain src P) as (r & ER & D). destruct (sort_in _ _ ER) as [S1 _]. unfold postprocess, sort_and_trim. rewrite ER. cbn [option_map obnd].
    assert (forall x, In x (rev r) -> In x src) as S2 by (intros x X; apply S1, in_rev, X).
    destruct (fill_plain size (rev r) 0) as [out EF].
    - apply Forall_forall. auto.
    - apply Forall_forall. auto.
    - intros x X. apply I'. auto.
    - intros x y X Y. apply S; auto.
    - rewrite rev_involutive. exact D.
    - exact SZ.
    - exists out. rewrite EF. cbn [obnd]. assert (existsb is_field (rev r) = false) as ->; [|reflexivity].
      apply not_true_is_false. intro T. apply existsb_exists in T. destruct T as (x & X & T). destruct (P' _ (S2 _ X)) as [_ W]. unfold is_field in T. rewrite W in T. discriminate T. }
  exists out. split; [exact E|]. apply fields_correct; auto.
  - apply Forall_forall. intros x X. apply plain_item; auto.
  - intros x y X Y. destruct (P' _ X) as [X1 X2], (P' _ Y) as [Y1 Y2]. unfold Apart, last, first, width. rewrite X1, X2, Y1, Y2. change (0 =? 0) with true. cbv iota.
    destruct (S x y X Y) as [[A B]|[A|A]]; [left; rewrite B; auto|right; right; left; lia|right; right; right; lia].
Qed.

(* --- fields within 32 bits, initialized in order: never a failed assertion --- *)
Definition before (y h : asg) : Prop := a_off y < a_off h \/ a_off y = a_off h /\ last y <= first h.
Definition ok_pair (x y : asg) : Prop := a_off x = a_off y -> Plain x /\ Plain y \/ a_fw x <> 0 /\ a_fw y <> 0 /\ last x <= first y.
Fixpoint Sorted (r : list asg) : Prop := match r with [] => True | h :: t => Forall (fun y => before y h) t /\ Sorted t end.
Lemma insert_sorted size x : forall r, Item size x -> Forall (Item size) r -> (forall h, In h r -> ok_pair h x) -> Sorted r -> exists r', insert r x = Some r' /\ Sorted r'.
Proof.
  induction r as [|h t IH]; intros PX PR OP D; cbn [insert].
  - exists [x]. split; [reflexivity|]. cbn. auto.
  - inversion PR as [|? ? PH PT]; subst. destruct D as [D1 D2]. rewrite Forall_forall in D1.
    destruct (Z.ltb_spec (a_off x) (a_off h)) as [L|L].
    + destruct (IH PX PT) as (t' & E & D'); [intros y Y; apply OP; right; exact Y|exact D2|]. rewrite E. exists (h :: t'). split; [reflexivity|]. split; [|exact D'].
      apply Forall_forall. intros y Y. destruct (insert_in _ _ _ E) as (_ & B & _). destruct (B _ Y) as [->|Y']; [left; exact L|auto].
    + pose proof (OP h (or_introl eq_refl)) as OH. unfold ok_pair in OH. destruct (item_width _ _ PX) as [WX _]. destruct (item_width _ _ PH) as [WH _].
      destruct (Z.eqb_spec (a_off h) (a_off x)) as [Q|Q]; [destruct (Z.eqb_spec (a_foff h) (a_foff x)) as [R|R]|]; cbn [andb].
      * destruct (OH Q) as [[[H1 H2] [X1 X2]]|(_ & _ & H)]; [|exfalso; unfold first in H at 1; unfold last, first in *; lia].
        rewrite H2, X2. cbn. exists (x :: t). split; [reflexivity|]. split; [|exact D2]. apply Forall_forall. intros y Y. specialize (D1 _ Y). unfold before, first in *. lia.
      * exists (x :: h :: t). split; [reflexivity|]. split; [|split; [apply Forall_forall; exact D1|exact D2]].
        destruct (OH Q) as [[[H1 H2] [X1 X2]]|(_ & X2 & H)]; [lia|]. constructor; [right; auto|]. apply Forall_forall. intros y Y. specialize (D1 _ Y). unfold before in *. lia.
      * exists (x :: h :: t). split; [reflexivity|]. split; [|split; [apply Forall_forall; exact D1|exact D2]].
        constructor; [left; lia|]. apply Forall_forall. intros y Y. specialize (D1 _ Y). unfold before in *. lia.
Qed.
Lemma ford_snoc {A} (R : A -> A -> Prop) l x : ForallOrdPairs R (l ++ [x]) -> ForallOrdPairs R l /\ Forall (fun h => R h x) l.
Proof.
  induction l as [|a l IH]; cbn; intro H; [split; constructor|]. inversion H as [|? ? H1 H2]; subst. destruct (IH H2) as [A1 A2]. apply Forall_app in H1. destruct H1 as [H1 H3].
  inversion H3; subst. split; constructor; auto.
Qed.
Lemma sort_sorted size src : Forall (Item size) src -> In_order src -> exists r, fold_left (fun acc x => obnd acc (fun r => insert r x)) src (Some []) = Some r /\ Sorted r.
Proof.
  induction src as [|x src IH] using rev_ind; intros P O.
  - exists []. split; [reflexivity|exact I].
  - apply Forall_app in P. destruct P as [P1 P2]. inversion P2; subst. destruct (ford_snoc _ _ _ O) as [O1 O2]. destruct (IH P1 O1) as (r & E & D). rewrite sort_snoc, E. cbn [obnd].
    destruct (sort_in _ _ E) as [S _]. rewrite Forall_forall in O2, P1. apply (insert_sorted size); [assumption|apply Forall_forall; auto|intros h Hh; exact (O2 h (S h Hh))|exact D].
Qed.

Lemma complete_total off foff nfoff : foff <= nfoff -> nfoff < 64 -> exists l, complete_field off foff nfoff = Some l /\ (nfoff <= 32 -> Forall Within_int l).
Proof.
  intros A B. unfold complete_field. destruct (Z.leb_spec foff nfoff); [|lia]. cbn [guard obnd].
  destruct (nfoff - foff =? 0); [exists []; split; [reflexivity|constructor]|].
  destruct (32 <? nfoff); [destruct (Z.ltb_spec nfoff 64); [|lia]; cbn [guard obnd]|destruct (16 <? nfoff); [|destruct (8 <? nfoff)]];
    (eexists; split; [reflexivity|intro L; constructor; [unfold Within_int, zero; cbn; lia|constructor]]).
Qed.
Lemma pad_total off foff noff nfoff : 0 <= foff <= 32 -> 0 <= nfoff <= 32 ->
  off = noff /\ foff <= nfoff \/ off < noff /\ 8 * off + foff <= 8 * noff /\ (8 * off + foff = 8 * noff -> In foff [0; 8; 16; 32; 64]) ->
  exists l, initialize_padding off foff noff nfoff = Some l /\ Forall Within_int l.
Proof.
  intros F NF H. unfold initialize_padding. destruct (Z.leb_spec off noff) as [LA|]; [|lia]. destruct (Z.leb_spec (off * 8 + foff) (noff * 8 + nfoff)) as [LB|]; [|lia]. cbn [andb guard obnd].
  destruct (Z.eqb_spec off noff) as [Q|Q].
  - destruct (complete_total off foff nfoff) as (l & E & W); [lia|lia|]. exists l. split; [exact E|apply W; lia].
  - destruct H as [H|(H1 & H2 & H3)]; [lia|].
    assert (exists l off1, finish_field off foff noff = Some (l, off1) /\ off1 <= noff /\ Forall Within_int l) as (l & off1 & E & LE & W).
    { unfold finish_field. destruct ((foff =? 8) || (foff =? 16) || (foff =? 32) || (foff =? 64)) eqn:R.
      - exists [], (off + foff / 8). split; [reflexivity|]. split; [|constructor]. rewrite !orb_true_iff, !Z.eqb_eq in R.
        destruct R as [[[-> | ->]| ->]| ->]; [change (8 / 8) with 1|change (16 / 8) with 2|change (32 / 8) with 4|change (64 / 8) with 8]; lia.
      - rewrite !orb_false_iff, !Z.eqb_neq in R. destruct (Z.eqb_spec foff 0) as [->|F0]; [exists [], off; split; [reflexivity|split; [lia|constructor]]|].
        assert (8 * off + foff <> 8 * noff) as NE. { intro X. apply H3 in X. cbn in X. lia. }
        destruct (Z.ltb_spec foff 32); [|lia]. cbn [obnd]. destruct (Z.ltb_spec noff (off + 4)) as [L|L].
        + destruct (Z.ltb_spec (off + 4 - noff) ((4 * 8 - foff) * 8)) as [L2|L2]; [|lia]. cbn [guard obnd].
          replace (foff + (4 * 8 - foff - (off + 4 - noff) * 8)) with ((noff - off) * 8) by lia. rewrite Z.mod_mul, Z.div_mul by lia. cbn [Z.eqb guard obnd].
          eexists _, _. split; [reflexivity|]. split; [lia|]. constructor; [|constructor]. unfold Within_int, zero. cbn [a_fw a_foff]. lia.
        + cbn [obnd]. replace (foff + (4 * 8 - foff)) with (4 * 8) by lia. rewrite Z.mod_mul, Z.div_mul by lia. cbn [Z.eqb guard obnd].
          eexists _, _. split; [reflexivity|]. split; [lia|]. constructor; [|constructor]. unfold Within_int, zero. cbn [a_fw a_foff]. lia. }
    rewrite E. cbn [obnd]. destruct (Z.leb_spec off1 noff); [|lia]. cbn [guard obnd]. destruct (complete_total noff 0 nfoff) as (r & ER & WR); [lia|lia|]. rewrite ER. cbn [obnd].
    eexists. split; [reflexivity|]. apply Forall_app. split; [exact W|]. apply Forall_app. split; [|apply WR; lia].
    destruct (zeros_ok (Z.to_nat (noff - off1)) off1 (noff - off1) (0, false)) as (_ & B & _); [lia|lia|]. revert B. apply Forall_impl. intros a (_ & _ & Z0) N. contradiction.
Qed.

Lemma fill_total size : forall l off foff, Forall (Item size) l -> Forall Within_int l -> 0 <= foff <= 32 ->
  (forall x, In x l -> off = a_off x /\ foff <= a_foff x \/ off < a_off x /\ 8 * off + foff <= 8 * a_off x) -> 8 * off + foff <= 8 * size ->
  (forall e, (exists y, In y l /\ a_off y = e) \/ e = size -> 8 * off + foff = 8 * e -> In foff [0; 8; 16; 32; 64]) ->
  (forall x y, In x l -> In y l -> Apart x y) -> (forall x y, In x l -> In y l -> a_off x = a_off y -> a_fw x = 0 -> a_fw y = 0) -> Sorted (rev l) ->
  (forall x e, In x l -> a_fw x <> 0 -> e = size \/ (exists y, In y l /\ a_off y = e) -> last x = 8 * e -> In (a_foff x + a_fw x) [8; 16; 32; 64]) ->
  exists out, fill off foff size l = Some out /\ Forall Within_int out.
Proof.
  induction l as [|x l IH]; intros off foff IT WI FB NX SZ GP AP MX SO EW; cbn [fill].
  - destruct (Z.eq_dec off size) as [->|N].
    + apply pad_total; [exact FB|lia|]. left. lia.
    + apply pad_total; [exact FB|lia|]. right. split; [lia|]. split; [exact SZ|]. intro X. apply (GP size); auto.
  - inversion IT as [|? ? IX IL]; subst. inversion WI as [|? ? WX WL]; subst.
    destruct (item_width _ _ IX) as [WP FO]. pose proof IX as (I0 & I1 & I2).
    assert (0 <= a_foff x <= 32 /\ 0 <= a_foff x + a_fw x <= 32) as [FX FX'].
    { unfold Within_int in WX. destruct I2 as [((P1 & P2) & P3)|(P1 & P2 & P3 & _)]; lia. }
    destruct (pad_total off foff (a_off x) (a_foff x) FB FX) as (pad & EP & WPD).
    { destruct (NX x (or_introl eq_refl)) as [?|[A B]]; [left; assumption|right]. split; [exact A|]. split; [exact B|]. intro X. apply (GP (a_off x)); [|exact X]. left. exists x. split; [left; reflexivity|reflexivity]. }
    rewrite EP. cbn [obnd].
    assert ((if a_fw x =? 0 then a_off x + a_size x else a_off x) * 8 + (a_foff x + a_fw x) = last x) as LX.
    { unfold last, first, width. destruct I2 as [((P1 & P2) & P3)|(P1 & P2 & P3 & _)]; [rewrite P1, P2; change (0 =? 0) with true; cbv iota; lia|]. destruct (Z.eqb_spec (a_fw x) 0); lia. }
    cbn [rev] in SO.
    assert (Sorted (rev l) /\ forall y, In y l -> before x y) as [SO' BX].
    { assert (forall a, Sorted (a ++ [x]) -> Sorted a /\ forall y, In y a -> before x y) as G.
      { induction a as [|h a IHa]; [intros _; split; [exact I|intros y []]|]. intros [A B]. apply Forall_app in A. destruct A as [A1 A2]. inversion A2; subst. destruct (IHa B) as [C D]. split; [split; assumption|]. intros y [<-|Y]; auto. }
      destruct (G _ SO) as [A B]. split; [exact A|]. intros y Y. apply B. rewrite <- in_rev. exact Y. }
    destruct (IH (if a_fw x =? 0 then a_off x + a_size x else a_off x) (a_foff x + a_fw x) IL WL FX') as (out & EO & WO).
    { intros y Y. specialize (BX y Y). pose proof (AP x y (or_introl eq_refl) (or_intror Y)) as APX.
      rewrite Forall_forall in IL. destruct (item_width _ _ (IL _ Y)) as [WY FY]. pose proof (IL _ Y) as (J0 & _ & _).
      assert (last x <= 8 * a_off y \/ a_off x = a_off y /\ last x <= first y) as LY. { unfold before in BX. unfold Apart in APX. lia. }
      destruct (Z.eqb_spec (a_fw x) 0) as [Z0|Z0].
      - assert (a_foff x = 0) as P0 by (destruct I2 as [((P1 & P2) & P3)|(P1 & P2 & P3 & _)]; lia). rewrite P0, Z0 in *.
        assert (0 <= a_foff y) as YF by (unfold first in FY; lia). unfold first in LY. destruct LY as [LY|[OE LY]]; [destruct (Z.eq_dec (a_off x + a_size x) (a_off y)); [left; lia|right; lia]|].
        pose proof (MX x y (or_introl eq_refl) (or_intror Y) OE Z0) as Y0.
        destruct (IL _ Y) as (_ & _ & [((Q1 & _) & _)|(_ & Q2 & _)]); [|lia]. exfalso. unfold first in WP. lia.
      - destruct LY as [LY|[LY1 LY2]]; [right; lia|left]. unfold first in LY2. lia. }
    { lia. }
    { intros e HE X. destruct (Z.eq_dec (a_fw x) 0) as [Z0|Z0].
      - destruct I2 as [((P1 & P2) & P3)|(P1 & P2 & P3 & _)]; [|lia]. rewrite P1, P2. left. reflexivity.
      - right. apply (EW x e); [left; reflexivity|exact Z0| |lia]. destruct HE as [(y & Y & <-)|HE]; [right; exists y; split; [right; exact Y|reflexivity]|left; exact HE]. }
    { intros a b A B. apply AP; right; assumption. }
    { intros a b A B. apply MX; right; assumption. }
    { exact SO'. }
    { intros a e X Y [Z0|(y & Y1 & Y2)]; apply EW; auto; [right; exact X|right; exact X|]. right. exists y. split; [right; exact Y1|exact Y2]. }
    rewrite EO. cbn [obnd]. eexists. split; [reflexivity|]. apply Forall_app. split; [exact WPD|]. constructor; assumption.
Qed.

Lemma normalize_total l : forall a po p e, Contiguous p (a :: l) e -> a_foff a = 0 -> Fld a -> Forall Fld l -> Forall Within_int l ->
  Chain (a_off a, po) l -> (po = true -> (exists z, a_val a = Const z) /\ (a_fw a <> 0 \/ 32 <= width a)) -> exists out, normalize a l = Some out.
Proof.
  induction l as [|b l IH]; intros a po p e C F0 FA FL WL CH PO; cbn [normalize]; [eexists; reflexivity|].
  inversion FL as [|? ? FB FL']; subst. inversion WL as [|? ? WB WL']; subst. cbn [Chain fst snd] in CH. destruct CH as [C1 C2]. destruct C as (A1 & A2 & A3 & A4 & A5).
  assert (a_foff b = 0 -> a_off a <> a_off b) as ND. { intros B0 OE. unfold last, first in *. lia. }
  assert (a_foff b = 0 -> exists out, obnd (normalize b l) (fun l' => Some (a :: l')) = Some out) as NEXT.
  { intro B0. destruct (IH b (is_field b) (last a) e) as [out ->]; auto.
    - cbn. auto.
    - intro T. unfold is_field in T. apply negb_true_iff, Z.eqb_neq in T. destruct (FB T) as (_ & _ & _ & V). auto.
    - eexists. reflexivity. }
  unfold merge_assignments. destruct C1 as [(OE & P1 & B0)|B0].
  - destruct (PO P1) as [(x & VA) W]. destruct (FB B0) as (B1 & B2 & B3 & y & VB). rewrite VA, VB, OE, Z.eqb_refl. cbn [negb].
    assert (width b = a_fw b) as WBE by (unfold width; destruct (Z.eqb_spec (a_fw b) 0); [contradiction|reflexivity]).
    assert (a_foff b = width a) as FE by (unfold last, first in *; lia). specialize (WB B0).
    assert (a_fw a <> 0) as A0 by (destruct W as [W|W]; [exact W|lia]).
    assert (width a = a_fw a) as WA by (unfold width; destruct (Z.eqb_spec (a_fw a) 0); [contradiction|reflexivity]).
    destruct (FA A0) as (_ & A6 & _ & _).
    assert (is_field a && is_field b = true) as -> by (unfold is_field; destruct (Z.eqb_spec (a_fw a) 0), (Z.eqb_spec (a_fw b) 0); try contradiction; reflexivity).
    cbn [guard obnd]. rewrite F0. change (0 =? 0) with true. cbn [andb].
    set (size := Z.max 4 (Z.max (a_size a) (a_size b))). set (w := if a_fw a + a_fw b =? size * 8 then 0 else a_fw a + a_fw b). set (v := Z.lor _ _). set (a' := mkAsg (a_off a) size 0 w (Const v)).
    assert (width a' = a_fw a + a_fw b /\ (a_fw a' <> 0 \/ 32 <= width a')) as [WA' AW].
    { unfold width, a', w. cbn [a_fw a_size]. destruct (Z.eqb_spec (a_fw a + a_fw b) (size * 8)); [change (0 =? 0) with true; cbv iota; split; [lia|right; lia]|].
      destruct (Z.eqb_spec (a_fw a + a_fw b) 0); lia. }
    assert (last a' = last b /\ first a' = first a) as [LE' FE']. { unfold last. rewrite WA'. unfold first, a'. cbn [a_off a_foff]. lia. }
    apply (IH a' (is_field b) p e); auto.
    + cbn [Contiguous]. rewrite LE', FE'. split; [lia|]. split; [lia|exact A5].
    + intro N. unfold a' in *. cbn [a_fw a_foff a_val] in *. unfold w in *. destruct (Z.eqb_spec (a_fw a + a_fw b) (size * 8)); [contradiction|]. split; [lia|]. split; [lia|]. split; [lia|eauto].
    + unfold a'. cbn [a_off]. rewrite <- OE. exact C2.
    + intros _. split; [exists v; reflexivity|exact AW].
  - destruct (NEXT B0) as [out E]. specialize (ND B0). destruct (a_val a), (a_val b); cbn [obnd]; eauto.
    destruct (Z.eqb_spec (a_off a) (a_off b)); [contradiction|]. cbn [negb obnd]. eauto.
Qed.

Theorem int_fields_correct size src : 0 <= size -> Forall (Item size) src -> Forall Within_int src -> (forall x y, In x src -> In y src -> Apart x y) -> In_order src -> Ends_well size src ->
  (forall x, In x src -> a_fw x <> 0 -> width x < 8 * size) ->
  exists out, postprocess src size = Some out /\ Correct src size out.
Proof.
  intros SZ IT WI AP IO EW ONE. assert (exists out, postprocess src size = Some out) as [out E]; [|exists out; split; [exact E|apply fields_correct; assumption]].
  destruct (sort_sorted size src IT IO) as (r & ER & SO). destruct (sort_in _ _ ER) as [S1 _]. rewrite Forall_forall in WI.
  assert (sort_and_trim src = Some (rev r)) as ES by (unfold sort_and_trim; rewrite ER; reflexivity).
  pose proof IT as IT'. rewrite Forall_forall in IT'.
  assert (forall x, In x (rev r) -> In x src) as S2 by (intros x X; apply S1, in_rev, X).
  destruct (fill_total size (rev r) 0 0) as (block & EF & WB).
  - apply Forall_forall. auto.
  - apply Forall_forall. auto.
  - lia.
  - intros x X. destruct (IT' _ (S2 _ X)) as (A & _ & B). assert (0 <= a_foff x) by (destruct B as [((P1 & P2) & P3)|(P1 & P2 & P3 & _)]; lia). lia.
  - lia.
  - intros e _ _. left. reflexivity.
  - intros x y X Y. apply AP; auto.
  - intros x y X Y OE Z0. destruct (ForallOrdPairs_In IO x y (S2 _ X) (S2 _ Y)) as [->|[H|H]]; [exact Z0| |].
    + destruct (H OE) as [[_ [_ ?]]|(N & _)]; [assumption|contradiction].
    + destruct (H (eq_sym OE)) as [[[_ ?] _]|(_ & N & _)]; [assumption|contradiction].
  - rewrite rev_involutive. exact SO.
  - intros x e X N H. apply (EW x e); auto. destruct H as [H|(y & Y & H)]; [left; exact H|right; exists y; auto].
  - destruct (block_ok _ _ _ _ IT AP ES EF) as [((A1 & A2) & B & C & D)|(_ & _ & N)]; [|contradiction]. unfold postprocess. rewrite ES. cbn [obnd]. rewrite EF. cbn [obnd].
    destruct (existsb is_field (rev r)) eqn:EX; [|eexists; reflexivity]. apply existsb_exists in EX. destruct EX as (x & X & FX).
    assert (a_fw x <> 0) as X0 by (unfold is_field in FX; apply negb_true_iff, Z.eqb_neq in FX; exact FX).
    destruct block as [|a [|b l]].
    + exfalso. cbn [Contiguous] in A1. assert (size = 0) as -> by lia. specialize (ONE x (S2 _ X) X0). destruct (item_width _ _ (IT' _ (S2 _ X))) as [W1 _]. unfold last in W1. lia.
    + exfalso. specialize (ONE x (S2 _ X) X0). destruct (IT' _ (S2 _ X)) as (I0 & I1 & _). destruct (item_width _ _ (IT' _ (S2 _ X))) as [W1 W2].
      pose proof (D _ X) as XA.
      destruct XA as [->|[]]. cbn [Contiguous] in A1. unfold last in A1. lia.
    + unfold normalize_field_assignment. inversion C as [|? ? C1 C2]; subst. inversion WB as [|? ? WB1 WB2]; subst. cbn [Chain] in B. destruct B as [B1 B2].
      apply (normalize_total _ a (is_field a) _ _ A1); auto.
      * destruct B1 as [(_ & T & _)|B1]; [discriminate T|exact B1].
      * intro T. unfold is_field in T. apply negb_true_iff, Z.eqb_neq in T. destruct (C1 T) as (_ & _ & _ & V). auto.
Qed.

(* ---- Fields fit the types they are written with ---- *)
Lemma zeros_fit fuel : forall off bytes, Forall Fits (zero_initialize_bytes fuel off bytes).
Proof.
  induction fuel as [|fuel IH]; intros off bytes; cbn [zero_initialize_bytes]; [constructor|].
  destruct (bytes =? 0); [constructor|]. constructor; [|apply IH]. intros H. cbn in H. congruence.
Qed.
Lemma complete_fit off foff nfoff l : complete_field off foff nfoff = Some l -> Forall Fits l.
Proof.
  unfold complete_field. intro E. apply obnd_some in E. destruct E as (u & H & E). apply guard_some in H. apply Z.leb_le in H.
  destruct (nfoff - foff =? 0); [injection E as <-; constructor|].
  destruct (Z.ltb_spec 32 nfoff); [apply obnd_some in E; destruct E as (v & G & E); apply guard_some in G; apply Z.ltb_lt in G|
    destruct (Z.ltb_spec 16 nfoff); [|destruct (Z.ltb_spec 8 nfoff)]]; injection E as <-; (constructor; [|constructor]); unfold Fits; cbn; lia.
Qed.
Lemma pad_fit off foff noff nfoff l : initialize_padding off foff noff nfoff = Some l -> Forall Fits l.
Proof.
  unfold initialize_padding. intro E. apply obnd_some in E. destruct E as (u & _ & E). destruct (off =? noff); [apply complete_fit in E; exact E|].
  apply obnd_some in E. destruct E as ([l1 off1] & E1 & E). apply obnd_some in E. destruct E as (v & _ & E). apply obnd_some in E. destruct E as (r & E2 & E). injection E as <-.
  apply Forall_app. split; [|apply Forall_app; split; [apply zeros_fit|apply complete_fit in E2; exact E2]].
  unfold finish_field in E1. destruct ((foff =? 8) || (foff =? 16) || (foff =? 32) || (foff =? 64)); [injection E1 as <- _; constructor|].
  destruct (foff =? 0); [injection E1 as <- _; constructor|].
  apply obnd_some in E1. destruct E1 as (size & _ & E1). apply obnd_some in E1. destruct E1 as (w & EW & E1). apply obnd_some in E1. destruct E1 as (v2 & _ & E1).
  injection E1 as <- _. constructor; [|constructor]. intros _. cbn [zero a_foff a_fw a_size]. destruct (Z.ltb_spec noff (off + size)).
  - apply obnd_some in EW. destruct EW as (v3 & _ & EW). injection EW as <-. lia.
  - injection EW as <-. lia.
Qed.
Lemma fill_fit size : forall l off foff out, fill off foff size l = Some out -> Forall Fits l -> Forall Fits out.
Proof.
  induction l as [|x l IH]; intros off foff out E F; cbn [fill] in E; [eapply pad_fit; eauto|].
  apply obnd_some in E. destruct E as (pad & E1 & E). apply obnd_some in E. destruct E as (rest & E2 & E). injection E as <-.
  inversion F; subst. apply Forall_app. split; [eapply pad_fit; eauto|]. constructor; [assumption|]. eapply IH; eauto.
Qed.
Lemma normalize_fit l : forall a out p e, normalize a l = Some out -> Contiguous p (a :: l) e -> Forall Fits (a :: l) -> Forall Fits out.
Proof.
  induction l as [|b l IH]; intros a out p e E C F; cbn [normalize] in E; [injection E as <-; exact F|].
  apply obnd_some in E. destruct E as (m & E1 & E). inversion F as [|? ? FA F']; subst. inversion F' as [|? ? FB FL]; subst.
  cbn [Contiguous] in C. destruct C as (C1 & C2 & C3 & C4 & C5).
  destruct m as [a'|].
  - unfold merge_assignments in E1. destruct (a_val a) as [x|] eqn:VA; [|discriminate]. destruct (a_val b) as [y|] eqn:VB; [|discriminate].
    destruct (Z.eqb_spec (a_off a) (a_off b)) as [O|]; [|discriminate]. cbn [negb] in E1. apply obnd_some in E1. destruct E1 as (u & G & E1). apply guard_some in G.
    apply andb_prop in G. destruct G as [GA GB]. unfold is_field in GA, GB.
    destruct (Z.eqb_spec (a_fw a) 0) as [|NA]; [discriminate|]. destruct (Z.eqb_spec (a_fw b) 0) as [|NB]; [discriminate|].
    set (size := Z.max 4 (Z.max (a_size a) (a_size b))) in *. injection E1 as <-.
    apply Z.eqb_neq in NA as QA. apply Z.eqb_neq in NB as QB. unfold last, first, width in C2, C3, C4. rewrite QA in C2, C3, C4. rewrite QB in C4. unfold first in C1.
    specialize (FB NB). assert (a_size b <= size) by (unfold size; lia).
    assert (L : forall w, w = (if (a_foff a =? 0) && (a_fw a + a_fw b =? size * 8) then 0 else a_fw a + a_fw b) ->
      forall v, last (mkAsg (a_off a) size (a_foff a) w v) = last b /\ Fits (mkAsg (a_off a) size (a_foff a) w v)).
    { intros w W v. unfold last, first, width, Fits. rewrite QB. cbn [a_off a_size a_foff a_fw].
      destruct (Z.eqb_spec (a_foff a) 0); cbn in W; [destruct (Z.eqb_spec (a_fw a + a_fw b) (size * 8))|]; subst w.
      - change (0 =? 0) with true. cbv iota. split; [lia|congruence].
      - destruct (Z.eqb_spec (a_fw a + a_fw b) 0); split; lia.
      - destruct (Z.eqb_spec (a_fw a + a_fw b) 0); split; lia. }
    destruct (L _ eq_refl (Const (Z.lor (wrap64 (Z.shiftl (Z.land x (wrap64 (wrap64 (Z.shiftl 1 (a_fw a)) - 1))) (a_foff a))) (wrap64 (Z.shiftl (Z.land y (wrap64 (wrap64 (Z.shiftl 1 (a_fw b)) - 1))) (a_foff b)))))) as [L1 L2].
    eapply IH; [exact E| |constructor; [exact L2|exact FL]].
    cbn [Contiguous]. rewrite L1. split; [exact C1|]. split; [|exact C5].
    unfold last, first, width. rewrite QB. lia.
  - apply obnd_some in E. destruct E as (l' & E2 & E). injection E as <-. constructor; [assumption|]. eapply IH; [exact E2| |exact F'].
    cbn [Contiguous]. split; [exact C3|]. split; [|exact C5]. lia.
Qed.
Theorem fields_fit size src out : Forall (Item size) src -> (forall x y, In x src -> In y src -> Apart x y) -> Forall Fits src ->
  postprocess src size = Some out -> Forall Fits out.
Proof.
  intros IT AP FI E. unfold postprocess in E. apply obnd_some in E. destruct E as (l & ES & E). apply obnd_some in E. destruct E as (block & EF & E).
  assert (FB : Forall Fits block).
  { eapply fill_fit; [exact EF|]. unfold sort_and_trim in ES. destruct (fold_left _ src (Some [])) as [r|] eqn:ER; [|discriminate]. injection ES as <-.
    destruct (sort_in _ _ ER) as [A _]. rewrite Forall_forall in *. intros x X. apply FI, A. now apply in_rev. }
  destruct (block_ok _ _ _ _ IT AP ES EF) as [((A1 & A2) & _)|(X & N & _)]; [|rewrite X, N in E; discriminate E].
  destruct (existsb is_field l); [|injection E as <-; exact FB].
  destruct block as [|a [|b r]]; try discriminate E. eapply normalize_fit; [exact E|exact A1|exact FB].
Qed.
