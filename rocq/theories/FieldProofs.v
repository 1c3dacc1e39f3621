From Coq Require Import List ZArith Lia Bool.
From Verif Require Import TypeModel LayoutModel FieldModel FieldSpec.
Open Scope Z_scope.

Lemma tb_mod x n i : 0 <= n -> 0 <= i -> Z.testbit (x mod 2 ^ n) i = Z.testbit x i && (i <? n).
Proof.
  intros Hn Hi. destruct (Z.ltb_spec i n); [rewrite andb_true_r; apply Z.mod_pow2_bits_low; lia|rewrite andb_false_r; apply Z.mod_pow2_bits_high; lia].
Qed.
Lemma tb_ones w i : 0 <= w -> 0 <= i -> Z.testbit (Z.ones w) i = (i <? w).
Proof. intros Hw Hi. destruct (Z.ltb_spec i w); [apply Z.ones_spec_low; lia|apply Z.ones_spec_high; lia]. Qed.
Lemma tb_mask w f i : 0 <= w -> 0 <= f -> 0 <= i -> Z.testbit (field_mask w f) i = (f <=? i) && (i <? f + w).
Proof.
  intros Hw Hf Hi. unfold field_mask. rewrite Z.shiftl_spec by lia.
  destruct (Z.leb_spec f i); cbn [andb].
  - rewrite tb_ones by lia. destruct (Z.ltb_spec (i - f) w), (Z.ltb_spec i (f + w)); try reflexivity; lia.
  - apply Z.testbit_neg_r. lia.
Qed.

Lemma tb_store n r mem i : 0 <= n -> 0 <= i -> Z.testbit (store_bits n r mem) i = if i <? n then Z.testbit r i else Z.testbit mem i.
Proof.
  intros Hn Hi. unfold store_bits.
  assert (P : 0 < 2 ^ n) by (apply Z.pow_pos_nonneg; lia).
  assert (E : mem - mem mod 2 ^ n + r mod 2 ^ n = (mem / 2 ^ n) * 2 ^ n + r mod 2 ^ n) by (rewrite (Z.mod_eq mem (2 ^ n)) by lia; ring).
  rewrite E. pose proof (Z.mod_pos_bound r (2 ^ n) P) as B. destruct (Z.ltb_spec i n) as [L|L].
  - rewrite <- (Z.mod_pow2_bits_low _ n i) by lia. rewrite Z.add_comm, Z.mod_add by lia. rewrite Z.mod_mod by lia. apply Z.mod_pow2_bits_low. lia.
  - replace i with ((i - n) + n) at 1 by lia. rewrite <- Z.div_pow2_bits by lia. rewrite Z.div_add_l by lia. rewrite (Z.div_small (r mod 2 ^ n)) by lia.
    rewrite Z.add_0_r. rewrite Z.div_pow2_bits by lia. f_equal. lia.
Qed.

Lemma count_id n c : (n = 8 \/ n = 16 \/ n = 32 \/ n = 64) -> 0 <= c < n -> count n c = c.
Proof. intros Hn Hc. unfold count. apply Z.mod_small. destruct (Z.eqb_spec n 64); lia. Qed.

Definition std_size (s : Z) : Prop := s = 1 \/ s = 2 \/ s = 4 \/ s = 8.

(* after a store, bit by bit *)
Definition updated (width foff v mem mem' : Z) : Prop :=
  forall i, 0 <= i -> Z.testbit mem' i = if (foff <=? i) && (i <? foff + width) then Z.testbit v (i - foff) else Z.testbit mem i.

Lemma store_reg_ok size width foff mem v : std_size size -> 0 < width < 64 -> 0 <= foff -> foff + width <= 8 * size ->
  exists m, store_reg size width foff mem v = Mem m /\ updated width foff v mem m.
Proof.
  intros Hs Hw Hf Hb. unfold store_reg. rewrite (proj2 (Z.ltb_lt 0 width)), (proj2 (Z.ltb_lt width 64)) by lia. cbn [andb negb].
  eexists. split; [reflexivity|]. intros i Hi. assert (N : 0 <= 8 * size) by lia.
  assert (Hn : 8 * size = 8 \/ 8 * size = 16 \/ 8 * size = 32 \/ 8 * size = 64) by (unfold std_size in Hs; lia).
  rewrite tb_store by lia. unfold cleared. rewrite Z.lor_spec, !Z.land_spec, !tb_mod, Z.lnot_spec, !tb_mask by lia.
  destruct (Z.ltb_spec i (8 * size)) as [L|L].
  2: { destruct (Z.leb_spec foff i), (Z.ltb_spec i (foff + width)); cbn [andb]; try reflexivity; lia. }
  rewrite !andb_true_r.
  assert (R : (foff <=? i) && (i <? foff + width) = true ->
    Z.testbit (if negb (foff =? 0) then shl (8 * size) (v mod 2 ^ (8 * size)) foff else v mod 2 ^ (8 * size)) i = Z.testbit v (i - foff)).
  { intro C. apply andb_true_iff in C. rewrite Z.leb_le, Z.ltb_lt in C. destruct (Z.eqb_spec foff 0) as [->|F]; cbn [negb].
    - rewrite tb_mod by lia. rewrite (proj2 (Z.ltb_lt _ _)) by lia. rewrite andb_true_r. f_equal. lia.
    - unfold shl. rewrite count_id by (auto; lia). rewrite tb_mod by lia. rewrite (proj2 (Z.ltb_lt i _)) by lia. rewrite andb_true_r, Z.shiftl_spec by lia.
      rewrite tb_mod by lia. rewrite (proj2 (Z.ltb_lt _ _)) by lia. apply andb_true_r. }
  destruct ((foff <=? i) && (i <? foff + width)) eqn:C; cbn [negb].
  - rewrite R by reflexivity. rewrite andb_false_r, andb_true_r. reflexivity.
  - rewrite andb_true_r, andb_false_r, orb_false_r. reflexivity.
Qed.

Lemma store_imm_ok size width foff mem v : std_size size -> 0 < width < 64 -> 0 <= foff -> foff + width <= 8 * size ->
  exists m, store_imm size width foff mem v = Mem m /\ updated width foff v mem m.
Proof.
  intros Hs Hw Hf Hb. unfold store_imm. rewrite (proj2 (Z.ltb_lt 0 width)), (proj2 (Z.ltb_lt width 64)) by lia. cbn [andb negb].
  eexists. split; [reflexivity|]. intros i Hi. unfold std_size in Hs. rewrite tb_store by lia.
  set (m := Z.land (Z.shiftl v foff) (field_mask width foff)).
  assert (TM : forall j, 0 <= j -> Z.testbit m j = Z.testbit v (j - foff) && ((foff <=? j) && (j <? foff + width))).
  { intros j Hj. unfold m. rewrite Z.land_spec, Z.shiftl_spec, tb_mask by lia. reflexivity. }
  assert (TC : Z.testbit (cleared (8 * size) width foff mem) i = Z.testbit mem i && (i <? 8 * size) && negb ((foff <=? i) && (i <? foff + width)) ).
  { unfold cleared. rewrite Z.land_spec, !tb_mod, Z.lnot_spec, tb_mask by lia. destruct (i <? 8 * size), (Z.testbit mem i), ((foff <=? i) && (i <? foff + width)); reflexivity. }
  destruct (Z.ltb_spec i (8 * size)) as [L|L].
  2: { destruct (Z.leb_spec foff i), (Z.ltb_spec i (foff + width)); cbn [andb]; try reflexivity; lia. }
  assert (E : Z.testbit (if negb (m =? 0) then Z.lor (cleared (8 * size) width foff mem) (m mod 2 ^ (8 * size)) else cleared (8 * size) width foff mem) i
    = Z.testbit (cleared (8 * size) width foff mem) i || Z.testbit m i).
  { destruct (Z.eqb_spec m 0) as [->|N]; cbn [negb]; [rewrite Z.testbit_0_l, orb_false_r; reflexivity|].
    rewrite Z.lor_spec, tb_mod by lia. rewrite (proj2 (Z.ltb_lt _ _) L), andb_true_r. reflexivity. }
  rewrite E, TC, TM by lia. rewrite andb_true_r.
  destruct ((foff <=? i) && (i <? foff + width)); cbn [negb]; rewrite ?andb_true_r, ?andb_false_r, ?orb_false_r; reflexivity.
Qed.

Lemma updated_held sign width foff v mem mem' : 0 < width -> 0 <= foff -> updated width foff v mem mem' -> held sign width foff mem' = reduce sign width v.
Proof.
  intros Hw Hf HU. unfold held, reduce. assert (E : (mem' / 2 ^ foff) mod 2 ^ width = v mod 2 ^ width); [|rewrite E; reflexivity].
  apply Z.bits_inj'. intros i Hi. rewrite !tb_mod by lia. destruct (Z.ltb_spec i width); [|rewrite !andb_false_r; reflexivity]. rewrite !andb_true_r.
  rewrite Z.div_pow2_bits by lia. rewrite HU by lia. rewrite (proj2 (Z.leb_le _ _)), (proj2 (Z.ltb_lt _ _)) by lia. cbn [andb]. f_equal. lia.
Qed.

(* loading *)
Lemma pow_split a b : 0 <= a -> 0 <= b -> 2 ^ (a + b) = 2 ^ a * 2 ^ b.
Proof. intros. apply Z.pow_add_r; assumption. Qed.

Lemma mod_mul_pow r m b : 0 <= m -> 0 <= b -> (r * 2 ^ b) mod 2 ^ (m + b) = (r mod 2 ^ m) * 2 ^ b.
Proof. intros Hm Hb. rewrite pow_split by lia. apply Z.mul_mod_distr_r; apply Z.pow_nonzero; lia. Qed.

Lemma bits_of r f w : 0 <= f -> 0 <= w -> (r mod 2 ^ (f + w)) / 2 ^ f = (r / 2 ^ f) mod 2 ^ w.
Proof.
  intros Hf Hw. apply Z.bits_inj'. intros i Hi. rewrite Z.div_pow2_bits, !tb_mod, Z.div_pow2_bits by lia.
  destruct (Z.ltb_spec (i + f) (f + w)), (Z.ltb_spec i w); try reflexivity; lia.
Qed.

Lemma mod_mod_le x a b : 0 <= a <= b -> (x mod 2 ^ b) mod 2 ^ a = x mod 2 ^ a.
Proof.
  intros H. apply Z.bits_inj'. intros i Hi. rewrite !tb_mod by lia. destruct (Z.ltb_spec i a), (Z.ltb_spec i b); rewrite ?andb_true_r, ?andb_false_r; try reflexivity; lia.
Qed.

Lemma to_signed_reduce n x : to_signed n x = reduce true n x.
Proof. reflexivity. Qed.

Lemma reduce_shift m b r : 0 < m -> 0 <= b -> reduce true (m + b) (r * 2 ^ b) = reduce true m r * 2 ^ b.
Proof.
  intros Hm Hb. unfold reduce. rewrite mod_mul_pow by lia. cbn [andb].
  assert (P : 0 < 2 ^ b) by (apply Z.pow_pos_nonneg; lia).
  replace (m + b - 1) with ((m - 1) + b) by lia. rewrite !pow_split by lia.
  destruct (Z.leb_spec (2 ^ (m - 1) * 2 ^ b) (r mod 2 ^ m * 2 ^ b)), (Z.leb_spec (2 ^ (m - 1)) (r mod 2 ^ m)); nia.
Qed.

Lemma reduce_div f w r : 0 <= f -> 0 < w -> reduce true (f + w) r / 2 ^ f = reduce true w (r / 2 ^ f).
Proof.
  intros Hf Hw. unfold reduce. cbn [andb]. rewrite <- bits_of by lia.
  assert (P : 0 < 2 ^ f) by (apply Z.pow_pos_nonneg; lia).
  replace (f + w - 1) with (f + (w - 1)) by lia. rewrite (pow_split f (w - 1)) by lia.
  set (x := r mod 2 ^ (f + w)).
  assert (C : (2 ^ f * 2 ^ (w - 1) <=? x) = (2 ^ (w - 1) <=? x / 2 ^ f)).
  { destruct (Z.leb_spec (2 ^ f * 2 ^ (w - 1)) x) as [L|L]; symmetry.
    - apply Z.leb_le. apply Z.div_le_lower_bound; lia.
    - apply Z.leb_gt. apply Z.div_lt_upper_bound; lia. }
  rewrite C. destruct (2 ^ (w - 1) <=? x / 2 ^ f); [|reflexivity]. rewrite (pow_split f w) by lia.
  replace (x - 2 ^ f * 2 ^ w) with (x + (- 2 ^ w) * 2 ^ f) by ring. rewrite Z.div_add by lia. ring.
Qed.

Lemma reduce_bounds w v : 0 < w -> - 2 ^ (w - 1) <= reduce true w v < 2 ^ (w - 1).
Proof.
  intro Hw. unfold reduce. cbn [andb]. pose proof (Z.mod_pos_bound v (2 ^ w) ltac:(apply Z.pow_pos_nonneg; lia)).
  assert (E : 2 ^ w = 2 * 2 ^ (w - 1)) by (rewrite <- Z.pow_succ_r by lia; f_equal; lia).
  destruct (Z.leb_spec (2 ^ (w - 1)) (v mod 2 ^ w)); lia.
Qed.

Lemma reduce_id w v : 0 < w -> - 2 ^ (w - 1) <= v < 2 ^ (w - 1) -> reduce true w v = v.
Proof.
  intros Hw Hv. unfold reduce. cbn [andb]. assert (E : 2 ^ w = 2 * 2 ^ (w - 1)) by (rewrite <- Z.pow_succ_r by lia; f_equal; lia).
  assert (0 < 2 ^ (w - 1)) by (apply Z.pow_pos_nonneg; lia).
  destruct (Z_lt_le_dec v 0).
  - replace (v mod 2 ^ w) with (v + 2 ^ w); [rewrite (proj2 (Z.leb_le _ _)) by lia; lia|].
    apply Z.mod_unique_pos with (-1); lia.
  - rewrite Z.mod_small by lia. rewrite (proj2 (Z.leb_gt _ _)) by lia. reflexivity.
Qed.

Lemma reduce_mod s w v n : 0 < w <= n -> reduce s w (v mod 2 ^ n) = reduce s w v.
Proof. intros H. unfold reduce. rewrite mod_mod_le by lia. reflexivity. Qed.

(* the bits of a signed number kept in a wider register *)
Lemma reduce_wide w n v : 0 < w <= n -> reduce true n (reduce true w v) = reduce true w v.
Proof.
  intro H. apply reduce_id; [lia|]. pose proof (reduce_bounds w v ltac:(lia)).
  assert (2 ^ (w - 1) <= 2 ^ (n - 1)) by (apply Z.pow_le_mono_r; lia). lia.
Qed.

Lemma load_ok sign size width foff w mem : std_size size -> 0 < width < 64 -> 0 <= foff -> foff + width <= 8 * Z.max 4 size ->
  (w = 8 \/ (w = 4 /\ width <= 32)) ->
  reg_value sign w (load_field sign size width foff w mem) = held sign width foff mem.
Proof.
  intros Hs Hw Hf Hb Hww. unfold load_field, reg_value, held.
  set (n := if size <=? 4 then 32 else 64).
  assert (Hn : n = 8 * Z.max 4 size /\ (n = 32 \/ n = 64)) by (unfold n; destruct (Z.leb_spec size 4); unfold std_size in Hs; lia).
  destruct Hn as [En Hn]. set (b := n - (foff + width)). assert (Hb0 : 0 <= b) by lia.
  assert (NN : n = 8 \/ n = 16 \/ n = 32 \/ n = 64) by lia.
  assert (R1 : (if 0 <? b then shl n (mem mod 2 ^ n) b else mem mod 2 ^ n) = (mem * 2 ^ b) mod 2 ^ n).
  { destruct (Z.ltb_spec 0 b) as [L|L].
    - unfold shl. rewrite count_id by (auto; lia). rewrite Z.shiftl_mul_pow2 by lia. rewrite Z.mul_mod_idemp_l; [reflexivity|apply Z.pow_nonzero; lia].
    - replace b with 0 by lia. rewrite Z.mul_1_r. reflexivity. }
  rewrite R1. set (r := (mem * 2 ^ b) mod 2 ^ n). set (c := foff + b). assert (EC : 0 <= c < n) by lia.
  assert (EN : n = (foff + width) + b) by lia.
  assert (P : 0 < 2 ^ n) by (apply Z.pow_pos_nonneg; lia).
  destruct sign; cbn [andb].
  - assert (R2 : (if 0 <? c then sar n r c else r) = reduce true width (mem / 2 ^ foff) mod 2 ^ n).
    { assert (S : to_signed n r / 2 ^ c = reduce true width (mem / 2 ^ foff)).
      { rewrite to_signed_reduce. unfold r. rewrite (reduce_mod true n _ n) by lia. rewrite EN at 1. rewrite reduce_shift by lia.
        unfold c. rewrite pow_split by lia. rewrite (Z.mul_comm (2 ^ foff)). rewrite <- Z.div_div by (try apply Z.pow_nonzero; try apply Z.pow_pos_nonneg; lia).
        rewrite Z.div_mul by (apply Z.pow_nonzero; lia). apply reduce_div; lia. }
      destruct (Z.ltb_spec 0 c) as [L|L].
      - unfold sar. rewrite count_id by (auto; lia). rewrite Z.shiftr_div_pow2 by lia. rewrite S. reflexivity.
      - rewrite <- S. replace c with 0 by lia. rewrite Z.div_1_r, to_signed_reduce. unfold r at 1. unfold reduce. cbn [andb].
        fold r. assert (RB : 0 <= r < 2 ^ n) by (apply Z.mod_pos_bound, P). rewrite (Z.mod_small r) by lia.
        destruct (_ <=? r); [|rewrite Z.mod_small by lia; reflexivity]. replace (r - 2 ^ n) with (r + (-1) * 2 ^ n) by ring.
        rewrite Z.mod_add by lia. rewrite Z.mod_small by lia. reflexivity. }
    rewrite R2. set (h := reduce true width (mem / 2 ^ foff)).
    assert (HW : reduce true n h = h) by (apply reduce_wide; lia).
    destruct (Z.ltb_spec n (8 * w)) as [L|L].
    + assert (W8 : w = 8) by lia. subst w. change (8 * 8) with 64. rewrite (reduce_mod true 64 _ 64) by lia. assert (TS : to_signed n (h mod 2 ^ n) = h) by (rewrite to_signed_reduce, (reduce_mod true n h n) by lia; exact HW).
      rewrite TS. apply reduce_wide. lia.
    + rewrite reduce_mod by lia. apply reduce_wide. lia.
  - assert (R2 : (if 0 <? c then shr n r c else r) = (mem / 2 ^ foff) mod 2 ^ width).
    { assert (S : r / 2 ^ c = (mem / 2 ^ foff) mod 2 ^ width).
      { unfold r. rewrite EN at 1. rewrite mod_mul_pow by lia. unfold c. rewrite (pow_split foff b) by lia. rewrite (Z.mul_comm (2 ^ foff)).
        rewrite <- Z.div_div by (try apply Z.pow_nonzero; try apply Z.pow_pos_nonneg; lia).
        rewrite Z.div_mul by (apply Z.pow_nonzero; lia). apply bits_of; lia. }
      assert (RB : 0 <= r < 2 ^ n) by (apply Z.mod_pos_bound, P).
      destruct (Z.ltb_spec 0 c) as [L|L].
      - unfold shr. rewrite count_id by (auto; lia). rewrite Z.shiftr_div_pow2 by lia. rewrite (Z.mod_small r) by lia. exact S.
      - rewrite <- S. replace c with 0 by lia. rewrite Z.div_1_r. reflexivity. }
    rewrite R2. unfold reduce. cbn [andb]. rewrite Z.mod_small; [reflexivity|].
    pose proof (Z.mod_pos_bound (mem / 2 ^ foff) (2 ^ width) ltac:(apply Z.pow_pos_nonneg; lia)).
    assert (2 ^ width <= 2 ^ (8 * w)) by (apply Z.pow_le_mono_r; lia). lia.
Qed.

Lemma assign_imm_ok sign width v : 0 < width < 64 -> assign_imm sign width v = Some (reduce sign width v).
Proof.
  intro Hw. unfold assign_imm. rewrite (proj2 (Z.leb_gt _ _)) by lia. f_equal.
  assert (EM : Z.shiftl 1 width - 1 = Z.ones width) by (unfold Z.ones; lia). rewrite EM. rewrite Z.land_ones by lia.
  rewrite Z.shiftl_1_l. unfold reduce. set (u := v mod 2 ^ width).
  assert (UB : 0 <= u < 2 ^ width) by (apply Z.mod_pos_bound, Z.pow_pos_nonneg; lia).
  assert (E : 2 ^ width = 2 * 2 ^ (width - 1)) by (rewrite <- Z.pow_succ_r by lia; f_equal; lia).
  assert (P : 0 < 2 ^ (width - 1)) by (apply Z.pow_pos_nonneg; lia).
  destruct sign; cbn [andb]; [|reflexivity].
  assert (C : negb (Z.land u (2 ^ (width - 1)) =? 0) = (2 ^ (width - 1) <=? u)).
  { assert (TB : Z.testbit u (width - 1) = (2 ^ (width - 1) <=? u)).
    { destruct (Z.leb_spec (2 ^ (width - 1)) u) as [L|L].
      - apply Z.testbit_true; [lia|]. assert (Q : u / 2 ^ (width - 1) = 1); [|rewrite Q; reflexivity].
        symmetry. apply Z.div_unique with (u - 2 ^ (width - 1)); lia.
      - apply Z.testbit_false; [lia|]. rewrite Z.div_small by lia. reflexivity. }
    rewrite <- TB. assert (LD : Z.land u (2 ^ (width - 1)) = if Z.testbit u (width - 1) then 2 ^ (width - 1) else 0).
    { apply Z.bits_inj'. intros i Hi. rewrite Z.land_spec, Z.pow2_bits_eqb by lia. destruct (Z.eqb_spec (width - 1) i) as [<-|N].
      - rewrite andb_true_r. destruct (Z.testbit u (width - 1)); [rewrite Z.pow2_bits_true by lia; reflexivity|rewrite Z.testbit_0_l; reflexivity].
      - rewrite andb_false_r. destruct (Z.testbit u (width - 1)); [rewrite Z.pow2_bits_false by lia; reflexivity|rewrite Z.testbit_0_l; reflexivity]. }
    rewrite LD. destruct (Z.testbit u (width - 1)); [|reflexivity]. rewrite (proj2 (Z.eqb_neq _ _)) by lia. reflexivity. }
  rewrite C. destruct (Z.leb_spec (2 ^ (width - 1)) u) as [L|L]; [|reflexivity].
  apply Z.bits_inj'. intros i Hi. rewrite Z.lor_spec, Z.lnot_spec, tb_ones by lia.
  replace (u - 2 ^ width) with (u + (-1) * 2 ^ width) by ring.
  destruct (Z.ltb_spec i width) as [I|I]; cbn [negb].
  - rewrite orb_false_r. rewrite <- (Z.mod_pow2_bits_low (u + -1 * 2 ^ width) width i) by lia. rewrite Z.mod_add by lia. rewrite Z.mod_small by lia. reflexivity.
  - rewrite orb_true_r. symmetry. replace i with ((i - width) + width) by lia. rewrite <- Z.div_pow2_bits by lia. rewrite Z.div_add by lia. rewrite Z.div_small by lia.
    apply Z.bits_m1. lia.
Qed.
