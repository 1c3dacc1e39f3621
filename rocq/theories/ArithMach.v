(* The machine of ArithModel.v: reading and writing registers and memory, loads and stores of operands. *)
From Coq Require Import List ZArith Lia Bool.
From Verif Require Import TypeModel TypeSpec EvalModel EvalSpec EvalProofs LayoutModel FieldModel FieldSpec FieldProofs ArithModel ArithSpec.
Import ListNotations.
Open Scope Z_scope.

Lemma pow2_pos n : 0 <= n -> 0 < 2 ^ n. Proof. intro. apply Z.pow_pos_nonneg; lia. Qed.
Lemma mod_low x a b : 0 <= a <= b -> (x mod 2 ^ b) mod 2 ^ a = x mod 2 ^ a. Proof. apply mod_mod_le. Qed.
Lemma mod_same_low x y a b : 0 <= a <= b -> x mod 2 ^ b = y mod 2 ^ b -> x mod 2 ^ a = y mod 2 ^ a.
Proof. intros H E. rewrite <- (mod_low x a b), <- (mod_low y a b), E by lia. reflexivity. Qed.

(* --- memory --- *)
Lemma pow_8S n : 2 ^ (8 * Z.of_nat (S n)) = 256 * 2 ^ (8 * Z.of_nat n).
Proof. replace (8 * Z.of_nat (S n)) with (8 + 8 * Z.of_nat n) by lia. rewrite Z.pow_add_r by lia. reflexivity. Qed.
Lemma rdn_bound m n : forall a, 0 <= rdn m a n < 2 ^ (8 * Z.of_nat n).
Proof.
  induction n as [|n IH]; intro a; [cbn; lia|]. rewrite pow_8S. cbn [rdn].
  pose proof (Z.mod_pos_bound (m a) 256 ltac:(lia)). specialize (IH (a + 1)). lia.
Qed.
Lemma rdn_prefix m k : forall n a, (k <= n)%nat -> rdn m a k = rdn m a n mod 2 ^ (8 * Z.of_nat k).
Proof.
  induction k as [|k IH]; intros n a H; [cbn; symmetry; apply Z.mod_1_r|].
  destruct n as [|n]; [lia|]. rewrite pow_8S. cbn [rdn]. rewrite (IH n (a + 1)) by lia.
  pose proof (Z.mod_pos_bound (m a) 256 ltac:(lia)) as B. pose proof (pow2_pos (8 * Z.of_nat k) ltac:(lia)) as P.
  set (q := rdn m (a + 1) n) in *. set (K := 2 ^ (8 * Z.of_nat k)) in *.
  pose proof (Z.mod_pos_bound q K P) as B2. pose proof (Z.div_mod q K ltac:(lia)) as D.
  assert (E : m a mod 256 + 256 * q = (m a mod 256 + 256 * (q mod K)) + (q / K) * (256 * K)) by (rewrite D at 1; ring).
  rewrite E, Z.mod_add by lia. symmetry. apply Z.mod_small. nia.
Qed.
Lemma rd_bound m a w : 0 <= w -> 0 <= rd m a w < 2 ^ (8 * w).
Proof. intro H. unfold rd. pose proof (rdn_bound m (Z.to_nat w) a) as B. rewrite Z2Nat.id in B by lia. exact B. Qed.
Lemma rd_prefix m a k n : 0 <= k <= n -> rd m a k = rd m a n mod 2 ^ (8 * k).
Proof. intro H. unfold rd. rewrite (rdn_prefix m (Z.to_nat k) (Z.to_nat n) a) by lia. rewrite Z2Nat.id by lia. reflexivity. Qed.
Lemma rdn_ext m m' n : forall a, (forall x, a <= x < a + Z.of_nat n -> m x mod 256 = m' x mod 256) -> rdn m a n = rdn m' a n.
Proof.
  induction n as [|n IH]; intros a H; [reflexivity|]. cbn [rdn]. rewrite (H a) by lia. rewrite (IH (a + 1)); [reflexivity|].
  intros x Hx. apply H. lia.
Qed.
Lemma rdn_wr m v n : forall a w d, 0 <= d -> a + d + Z.of_nat n <= a + w -> rdn (wr m a w v) (a + d) n = (v / 256 ^ d) mod 2 ^ (8 * Z.of_nat n).
Proof.
  induction n as [|n IH]; intros a w d Hd H; [cbn; symmetry; apply Z.mod_1_r|].
  cbn [rdn]. unfold wr at 1. rewrite (proj2 (Z.leb_le a (a + d))), (proj2 (Z.ltb_lt (a + d) (a + w))) by lia. cbn [andb].
  replace (a + d - a) with d by lia. replace (a + d + 1) with (a + (d + 1)) by lia. rewrite IH by lia.
  rewrite Z.mod_mod by lia. rewrite pow_8S. rewrite Z.pow_add_r by lia. rewrite <- Z.div_div by (try lia; apply Z.pow_pos_nonneg; lia).
  change (256 ^ 1) with 256. set (u := v / 256 ^ d). symmetry.
  rewrite Z.rem_mul_r by (try lia; apply pow2_pos; lia). reflexivity.
Qed.
Lemma rd_wr m a w v : 0 <= w -> rd (wr m a w v) a w = v mod 2 ^ (8 * w).
Proof.
  intro H. unfold rd. replace a with (a + 0) at 2 by lia. rewrite rdn_wr by lia. rewrite Z2Nat.id by lia.
  change (256 ^ 0) with 1. rewrite Z.div_1_r. reflexivity.
Qed.
Lemma wr_out m a w v x : x < a \/ a + w <= x -> wr m a w v x = m x.
Proof. intro H. unfold wr. destruct (Z.leb_spec a x), (Z.ltb_spec x (a + w)); cbn [andb]; try reflexivity; lia. Qed.
(* what 8 bytes are after the first w of them were written *)
Lemma rdn_split m a k : forall n, rdn m a (k + n) = rdn m a k + 2 ^ (8 * Z.of_nat k) * rdn m (a + Z.of_nat k) n.
Proof.
  revert a. induction k as [|k IH]; intros a n; [cbn [Nat.add rdn]; rewrite Z.add_0_r; change (2 ^ (8 * Z.of_nat 0)) with 1; lia|].
  cbn [Nat.add rdn]. rewrite IH, pow_8S. replace (a + 1 + Z.of_nat k) with (a + Z.of_nat (S k)) by lia. ring.
Qed.
Lemma rd_split m a k n : 0 <= k <= n -> rd m a n = rd m a k + 2 ^ (8 * k) * rd m (a + k) (n - k).
Proof.
  intro H. unfold rd. replace (Z.to_nat n) with (Z.to_nat k + Z.to_nat (n - k))%nat by lia. rewrite rdn_split, Z2Nat.id by lia. reflexivity.
Qed.
Lemma rd_wr8 m a w v : 0 <= w <= 8 -> rd (wr m a w v) a 8 = store_bits (8 * w) v (rd m a 8).
Proof.
  intro H. rewrite (rd_split _ a w 8), rd_wr by lia.
  replace (rd (wr m a w v) (a + w) (8 - w)) with (rd m (a + w) (8 - w)).
  2: { unfold rd. apply rdn_ext. intros x Hx. rewrite wr_out by lia. reflexivity. }
  unfold store_bits. rewrite <- (rd_prefix m a w 8) by lia. rewrite (rd_split m a w 8) by lia. ring.
Qed.

(* --- registers --- *)
Lemma reg_eqb_spec a b : reg_eqb a b = true <-> a = b.
Proof.
  destruct a, b; cbn; split; intro H; try reflexivity; try discriminate; try congruence.
  - apply Nat.eqb_eq in H. congruence.
  - injection H as ->. apply Nat.eqb_refl.
Qed.
Lemma setr_same st r v : regs (setr st r v) r = v.
Proof. cbn. rewrite (proj2 (reg_eqb_spec r r) eq_refl). reflexivity. Qed.
Lemma setr_other st r v x : x <> r -> regs (setr st r v) x = regs st x.
Proof. intro H. cbn. destruct (reg_eqb r x) eqn:E; [apply reg_eqb_spec in E; congruence|reflexivity]. Qed.
Lemma setw_same st w r v : regs (setw st w r v) r = merge w (regs st r) v. Proof. apply setr_same. Qed.
Lemma setw_other st w r v x : x <> r -> regs (setw st w r v) x = regs st x. Proof. apply setr_other. Qed.
Definition big (w : Z) : Prop := w = 4 \/ w = 8.
Lemma merge_big w old v : big w -> merge w old v = v mod 2 ^ (8 * w).
Proof. intros [-> | ->]; reflexivity. Qed.
Lemma merge_low w old v : std_size w -> merge w old v mod 2 ^ (8 * w) = v mod 2 ^ (8 * w).
Proof.
  intros [-> | [-> | [-> | ->]]]; unfold merge; cbn [Z.eqb Pos.eqb]; try (apply Z.mod_mod; lia); unfold store_bits, bits; cbn [Z.mul Pos.mul].
  - rewrite Zplus_mod, Zminus_mod, Z.mod_mod, Z.sub_diag, Z.mod_0_l, Z.add_0_l, !Z.mod_mod by lia. reflexivity.
  - rewrite Zplus_mod, Zminus_mod, Z.mod_mod, Z.sub_diag, Z.mod_0_l, Z.add_0_l, !Z.mod_mod by lia. reflexivity.
Qed.
Lemma std_size_std w : std_size w <-> std w = true.
Proof. unfold std_size, std. rewrite !orb_true_iff, !Z.eqb_eq. tauto. Qed.
Lemma big_std w : big w -> std_size w. Proof. unfold big, std_size. tauto. Qed.

(* --- frames --- *)
Definition Frame (rs : list reg) (st st' : mach) : Prop := mem st' = mem st /\ forall r, ~ In r rs -> regs st' r = regs st r.
Lemma frame_refl rs st : Frame rs st st. Proof. split; auto. Qed.
Lemma frame_trans rs1 rs2 rs a b c : Frame rs1 a b -> Frame rs2 b c -> incl rs1 rs -> incl rs2 rs -> Frame rs a c.
Proof.
  intros [M1 R1] [M2 R2] I1 I2. split; [congruence|]. intros r H. rewrite R2, R1; [reflexivity| |]; intro X; apply H; auto.
Qed.
Lemma frame_incl rs rs' a b : Frame rs a b -> incl rs rs' -> Frame rs' a b.
Proof. intros [M R] I. split; [exact M|]. intros r H. apply R. intro X. apply H, I, X. Qed.
Lemma frame_setw st w r v : Frame [r] st (setw st w r v).
Proof. split; [reflexivity|]. intros x H. apply setw_other. intro E. apply H. left. congruence. Qed.
Lemma frame_setr st r v : Frame [r] st (setr st r v).
Proof. split; [reflexivity|]. intros x H. apply setr_other. intro E. apply H. left. congruence. Qed.

Lemma exec_app rbp glob l1 l2 : forall st, exec rbp glob (l1 ++ l2) st = match exec rbp glob l1 st with Some s => exec rbp glob l2 s | None => None end.
Proof. induction l1 as [|i l1 IH]; intro st; [reflexivity|]. cbn [app exec]. destruct (step rbp glob st i); [apply IH|reflexivity]. Qed.
