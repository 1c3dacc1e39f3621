From Coq Require Import List Arith ZArith Lia Bool.
From Verif Require Import Util DequeModel DequeSpec.
Import ListNotations.

Section Proofs.
Context {A : Type}.
Notation deque := (@deque A).

Definition R (n : nat) (d : deque) (q : list A) : Prop :=
  length (data d) = capacity d /\ len d <= capacity d /\ cursor d + length q = len d /\
  (capacity d <= 16 \/ capacity d <= 2 * n) /\ length q <= n /\
  (forall i x, nth_error q i = Some x -> nth_error (data d) (cursor d + i) = Some (Some x)).

Lemma memmove0_spec : forall n (src l : list (option A)) i,
  i + n <= length l -> n <= length src ->
  length (memmove0 l src n i) = length l /\
  (forall j, j < i -> nth_error (memmove0 l src n i) j = nth_error l j) /\
  (forall j, j < n -> nth_error (memmove0 l src n i) (i + j) = nth_error src j).
Proof.
  induction n as [|n IH]; intros src l i Hl Hs.
  - cbn [memmove0]. split; [easy|]. split; [easy|]. intros j Hj; lia.
  - destruct src as [|c src]; [simpl in Hs; lia|]. cbn [memmove0 length] in *.
    destruct (IH src (upd l i c) (S i)) as (H1 & H2 & H3).
    { rewrite upd_length; lia. } { lia. }
    rewrite upd_length in H1. split; [exact H1|]. split.
    + intros j Hj. rewrite H2 by lia. apply nth_error_upd_other; lia.
    + intros j Hj. destruct j as [|j].
      * rewrite Nat.add_0_r, H2 by lia. simpl. apply nth_error_upd_same; lia.
      * replace (i + S j) with (S i + j) by lia. rewrite H3 by lia. reflexivity.
Qed.

Lemma nth_error_skipn {B} (l : list B) n i : nth_error (skipn n l) i = nth_error l (n + i).
Proof. revert l; induction n as [|n IH]; intros [|a l]; simpl; auto. now destruct i. Qed.

Lemma nth_app_inv (q : list A) x i y : nth_error (q ++ [x]) i = Some y ->
  (i < length q /\ nth_error q i = Some y) \/ (i = length q /\ y = x).
Proof.
  intro H. destruct (le_lt_dec (length q) i) as [Hi|Hi].
  - rewrite nth_error_app2 in H by exact Hi. right.
    destruct (i - length q) as [|m] eqn:E; simpl in H.
    + injection H as ->. split; [lia|easy].
    + destruct m; discriminate.
  - rewrite nth_error_app1 in H by exact Hi. auto.
Qed.

Lemma array_push_ok n d q x : R n d q -> (Z.of_nat n < 2 ^ 30)%Z ->
  (len d = capacity d -> cursor d = 0) ->
  exists d', array_push_back d x = Ok d' /\ R (S n) d' (q ++ [x]).
Proof.
  intros (Hdl & Hlc & Hq & Hcap & Hqn & Hel) Hn Hc0. unfold array_push_back.
  assert (G : exists d1, array_grow d = Ok d1 /\ length (data d1) = capacity d1 /\ len d1 < capacity d1 /\ len d1 = len d /\
        cursor d1 = cursor d /\ (capacity d1 <= 16 \/ capacity d1 <= 2 * S n) /\
        (forall i, i < capacity d -> nth_error (data d1) i = nth_error (data d) i)).
  { unfold array_grow. destruct (Nat.eqb_spec (len d) (capacity d)) as [E|E].
    - cbn zeta. set (cap := if Nat.eqb (capacity d) 0 then 16 else capacity d * 2).
      assert (Hcap' : capacity d < cap /\ (cap <= 16 \/ cap <= 2 * n)).
      { unfold cap. destruct (Nat.eqb_spec (capacity d) 0); lia. }
      destruct (Z.ltb_spec 2147483647 (Z.of_nat cap)) as [X|X]; [lia|].
      eexists; split; [reflexivity|]. cbn [data capacity len cursor].
      rewrite app_length, repeat_length. repeat split; try lia.
      intros i Hi. apply nth_error_app1. lia.
    - exists d. repeat split; auto; lia. }
  destruct G as (d1 & -> & Hd1 & Hl1 & Hl & Hc & Hcap1 & Hsame). cbn [bind].
  destruct (Nat.ltb_spec (len d1) (capacity d1)) as [_|X]; [|lia].
  eexists; split; [reflexivity|]. unfold R; cbn [data capacity len cursor].
  rewrite upd_length, app_length. cbn [length]. repeat split; try lia.
  intros i y Hi. apply nth_app_inv in Hi as [[Hi Hy]|[-> ->]].
  - rewrite nth_error_upd_other by lia. rewrite Hsame by lia. rewrite Hc. auto.
  - replace (cursor d1 + length q) with (len d1) by lia. apply nth_error_upd_same; lia.
Qed.

Lemma push_ok n d q x : R n d q -> (Z.of_nat n < 2 ^ 30)%Z ->
  exists d', deque_push_back d x = Ok d' /\ R (S n) d' (q ++ [x]).
Proof.
  intros HR Hn. unfold deque_push_back.
  destruct (Nat.eqb_spec (cursor d) 0) as [E|E]; cbn [negb andb].
  - apply array_push_ok; auto.
  - destruct (Nat.eqb_spec (len d) (capacity d)) as [F|F].
    + pose proof HR as (Hdl & Hlc & Hq & Hcap & Hqn & Hel). unfold deque_len.
      replace (len d - cursor d) with (length q) by lia.
      apply array_push_ok; auto.
      destruct (memmove0_spec (length q) (skipn (cursor d) (data d)) (data d) 0) as (H1 & _ & H3).
      { lia. } { rewrite skipn_length. lia. }
      unfold R; cbn [data capacity len cursor]. repeat split; try lia.
      intros i y Hi. assert (i < length q) by (apply nth_error_Some; congruence).
      rewrite (H3 i) by lia. rewrite nth_error_skipn. auto.
    + apply array_push_ok; auto. intro; contradiction.
Qed.

Lemma step_ok n d q o q' b : R n d q -> (Z.of_nat (n + pushes [o]) <= 2 ^ 30)%Z ->
  spec_step q o = Some (q', b) ->
  exists d', step d o = Ok (d', b) /\ R (pushes [o] + n) d' q'.
Proof.
  intros HR Hn Hs. pose proof HR as (Hdl & Hlc & Hq & Hcap & Hqn & Hel).
  destruct o as [x| | |i| | |]; cbn [spec_step] in Hs.
  - injection Hs as <- <-. cbn [pushes] in Hn.
    destruct (push_ok n d q x HR) as (d' & H1 & H2); [lia|].
    exists d'. cbn [step]. rewrite H1. auto.
  - destruct (rev q) as [|x r] eqn:E; [discriminate|]. injection Hs as <- <-.
    assert (Hqe : q = rev r ++ [x]) by (rewrite <- (rev_involutive q), E; reflexivity).
    subst q. rewrite app_length in *. cbn [length] in *.
    cbn [step]. unfold deque_pop_back. destruct (Nat.leb_spec (len d) (cursor d)) as [X|X]; [lia|].
    unfold array_get. cbn [len data].
    assert (Hx : nth_error (data d) (len d - 1) = Some (Some x)).
    { replace (len d - 1) with (cursor d + length (rev r)) by lia. apply Hel.
      rewrite nth_error_app2, Nat.sub_diag by lia. reflexivity. }
    rewrite Hx. cbn [bind]. eexists; split; [reflexivity|].
    unfold R; cbn [data capacity len cursor pushes Nat.add]. repeat split; try lia.
    intros i y Hi. apply Hel. rewrite nth_error_app1; [exact Hi|]. apply nth_error_Some; congruence.
  - destruct q as [|x q0]; [discriminate|]. injection Hs as <- <-. cbn [length] in *.
    cbn [step]. unfold deque_pop_front. destruct (Nat.leb_spec (len d) (cursor d)) as [X|X]; [lia|].
    unfold array_get. pose proof (Hel 0 x eq_refl) as Hx. rewrite Nat.add_0_r in Hx. rewrite Hx.
    cbn [bind]. eexists; split; [reflexivity|].
    unfold R; cbn [data capacity len cursor pushes Nat.add]. repeat split; try lia.
    intros i y Hi. replace (S (cursor d + i)) with (cursor d + S i) by lia. apply Hel. exact Hi.
  - destruct (nth_error q i) as [x|] eqn:E; [|discriminate]. injection Hs as <- <-.
    cbn [step]. unfold deque_get, array_get.
    assert (i < length q) by (apply nth_error_Some; congruence).
    destruct (Nat.leb_spec (len d) (cursor d + i)) as [X|X]; [lia|].
    rewrite (Hel i x E). cbn [bind]. eauto.
  - injection Hs as <- <-. cbn [step]. unfold deque_len.
    replace (len d - cursor d) with (length q) by lia. eauto.
  - injection Hs as <- <-. cbn [step]. eexists; split; [reflexivity|].
    unfold R, deque_empty; cbn [data capacity len cursor pushes Nat.add length]. repeat split; try lia.
    intros [|i] y Hi; discriminate.
  - injection Hs as <- <-. cbn [step]. eexists; split; [reflexivity|].
    unfold R, deque_destroy; cbn [data capacity len cursor pushes Nat.add length]. repeat split; try lia.
    intros [|i] y Hi; discriminate.
Qed.

Lemma pushes_cons (o : @op A) ops : pushes (o :: ops) = pushes [o] + pushes ops.
Proof. destruct o; reflexivity. Qed.

Lemma run_ok ops : forall n d q q' bs, R n d q -> (Z.of_nat (n + pushes ops) <= 2 ^ 30)%Z ->
  spec_run q ops = Some (q', bs) ->
  exists d', run d ops = Ok (d', bs).
Proof.
  induction ops as [|o ops IH]; intros n d q q' bs HR Hn Hs.
  - cbn in Hs. injection Hs as <- <-. cbn. eauto.
  - cbn [spec_run] in Hs. rewrite pushes_cons in Hn.
    destruct (spec_step q o) as [[q1 b]|] eqn:E; [|discriminate].
    destruct (spec_run q1 ops) as [[q2 bs']|] eqn:E2; [|discriminate]. injection Hs as <- <-.
    destruct (step_ok n d q o q1 b HR) as (d' & Hst & HR'); [lia|exact E|].
    destruct (IH _ _ _ q2 bs' HR') as (d'' & Hr); [lia|exact E2|].
    cbn [run]. rewrite Hst. cbn [bind]. rewrite Hr. cbn [bind]. eauto.
Qed.

Lemma deque_refines_list (ops : list (@op A)) q bs : (Z.of_nat (pushes ops) <= 2 ^ 30)%Z ->
  spec_run [] ops = Some (q, bs) -> exists d, run deque_zero ops = Ok (d, bs).
Proof.
  intros Hn Hs. eapply (run_ok ops 0); eauto.
  unfold R; cbn. repeat split; try lia. intros [|i] x H; discriminate.
Qed.
End Proofs.
