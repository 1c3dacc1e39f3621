From Coq Require Import ZArith Lia Bool.
From Verif Require Import TypeModel TypeSpec TypeProofs EvalModel EvalSpec.
Open Scope Z_scope.

Ltac pw := change (2 ^ 64) with 18446744073709551616 in *; change (2 ^ 63) with 9223372036854775808 in *;
           change (2 ^ 32) with 4294967296 in *; change (2 ^ 31) with 2147483648 in *;
           change (2 ^ 16) with 65536 in *; change (2 ^ 15) with 32768 in *;
           change (2 ^ 8) with 256 in *; change (2 ^ 7) with 128 in *; change (2 ^ 1) with 2 in *.
Ltac ranges := unfold in_range, lo, hi in *; cbn [signed width] in *;
  change (64 - 1) with 63 in *; change (32 - 1) with 31 in *; change (16 - 1) with 15 in *; change (8 - 1) with 7 in *; pw.

Lemma sext_range w v : 0 < w -> - 2 ^ (w - 1) <= sext w v <= 2 ^ (w - 1) - 1.
Proof.
  intro Hw. unfold sext. pose proof (Z.mod_pos_bound v (2 ^ w) ltac:(apply Z.pow_pos_nonneg; lia)) as Hm.
  assert (E : 2 ^ w = 2 * 2 ^ (w - 1)) by (rewrite <- Z.pow_succ_r by lia; f_equal; lia).
  destruct (Z.ltb_spec (v mod 2 ^ w) (2 ^ (w - 1))); lia.
Qed.
Lemma sext_cong w v : 0 < w -> exists q, sext w v = v + q * 2 ^ w.
Proof.
  intro Hw. unfold sext. pose proof (Z.div_mod v (2 ^ w) ltac:(apply Z.pow_nonzero; lia)) as E.
  destruct (_ <? _); [exists (- (v / 2 ^ w))|exists (- (v / 2 ^ w) - 1)]; lia.
Qed.
Lemma cong_unique m a b q : 0 < m -> a = b + q * m -> - m < a - b < m -> a = b.
Proof. intros. assert (q = 0) by nia. subst q. lia. Qed.
Lemma sext_id w v : 0 < w -> - 2 ^ (w - 1) <= v <= 2 ^ (w - 1) - 1 -> sext w v = v.
Proof.
  intros Hw Hv. destruct (sext_cong w v Hw) as (q & Hq). pose proof (sext_range w v Hw).
  assert (E : 2 ^ w = 2 * 2 ^ (w - 1)) by (rewrite <- Z.pow_succ_r by lia; f_equal; lia).
  apply (cong_unique (2 ^ w) _ _ q); [apply Z.pow_pos_nonneg; lia|exact Hq|lia].
Qed.
Lemma sext_mod w v : 0 < w <= 64 -> sext w (v mod 2 ^ 64) = sext w v.
Proof.
  intro Hw. unfold sext. assert (E : (v mod 2 ^ 64) mod 2 ^ w = v mod 2 ^ w).
  { replace (2 ^ 64) with (2 ^ w * 2 ^ (64 - w)) by (rewrite <- Z.pow_add_r by lia; f_equal; lia).
    rewrite Z.rem_mul_r by (apply Z.pow_nonzero || apply Z.pow_pos_nonneg; lia).
    rewrite Z.mul_comm, Z.mod_add by (apply Z.pow_nonzero; lia). apply Z.mod_mod, Z.pow_nonzero; lia. }
  rewrite E. reflexivity.
Qed.

Lemma repr_signed k v bits : signed k = true -> Repr k v bits -> as_i bits = v.
Proof.
  intros Hs [Hr ->]. unfold as_i. rewrite sext_mod by lia. apply sext_id; [lia|].
  destruct k; try discriminate; ranges; lia.
Qed.
Lemma repr_unsigned k v bits : signed k = false -> Repr k v bits -> as_u bits = v.
Proof. intros Hs [Hr ->]. unfold as_u. apply Z.mod_small. destruct k; try discriminate; ranges; lia. Qed.

Lemma denotes_signed t k : denotes t (I k) -> is_signed t = signed k /\ is_unsigned t = negb (signed k) /\ is_integer t = true.
Proof.
  intros [Hp H]. unfold is_signed, is_unsigned, is_bool, is_integer, between, type_of. rewrite Hp.
  destruct k; [rewrite H; cbn; rewrite orb_true_r; auto|..]; destruct H as [H Hu]; rewrite H, Hu; auto.
Qed.
Lemma denotes_kind t k : denotes t (I k) -> type_of t = kind_of k.
Proof. intros [Hp H]. unfold type_of. rewrite Hp. destruct k; [exact H|..]; exact (proj1 H). Qed.
Lemma denotes_unique t k1 k2 : denotes t (I k1) -> denotes t (I k2) -> k1 = k2.
Proof.
  intros H1 H2. pose proof (denotes_kind _ _ H1) as K1. pose proof (denotes_kind _ _ H2) as K2. rewrite K1 in K2.
  destruct H1 as [_ H1], H2 as [_ H2].
  destruct k1, k2; try discriminate K2; try reflexivity; destruct H1 as [_ H1], H2 as [_ H2]; rewrite H1 in H2; discriminate.
Qed.

Lemma convert_ok t to k k' v bits : denotes t (I k) -> denotes to (I k') -> Repr k v bits ->
  exists v' b', convert bits t to = Some b' /\ Converted k' v v' /\ Repr k' v' b'.
Proof.
  intros HT HTo HR. unfold convert. rewrite (denotes_kind _ _ HTo).
  destruct (denotes_signed _ _ HT) as (S1 & _ & _). destruct (denotes_signed _ _ HTo) as (S2 & _ & _).
  rewrite S1, S2.
  assert (E : (if signed k then as_i bits else as_u bits) = v).
  { destruct (signed k) eqn:ES; [eapply repr_signed|eapply repr_unsigned]; eauto. }
  rewrite E.
  assert (SG : forall w, 0 < w <= 64 -> - 2 ^ (w - 1) <= sext w v <= 2 ^ (w - 1) - 1 /\ exists q, sext w v = v + q * 2 ^ w).
  { intros w Hw. split; [apply sext_range; lia|apply sext_cong; lia]. }
  assert (UG : forall w, 0 < w <= 64 -> 0 <= wrap w v <= 2 ^ w - 1 /\ exists q, wrap w v = v + q * 2 ^ w).
  { intros w Hw. unfold wrap. pose proof (Z.mod_pos_bound v (2 ^ w) ltac:(apply Z.pow_pos_nonneg; lia)). split; [lia|].
    exists (- (v / 2 ^ w)). pose proof (Z.div_mod v (2 ^ w) ltac:(apply Z.pow_nonzero; lia)). lia. }
  destruct k'; cbn [kind_of signed].
  - unfold immediate_bool_value.
    assert (EZ : (as_u bits =? 0) = (v =? 0)).
    { destruct HR as [Hr ->]. unfold as_u. destruct (Z.eqb_spec v 0) as [->|Hn]; [reflexivity|].
      apply Z.eqb_neq. intro X. apply Z.mod_divide in X; [|lia]. destruct X as (q & X).
      destruct k; ranges; nia. }
    rewrite EZ. destruct (Z.eqb_spec v 0); [exists 0|exists 1]; (eexists; split; [reflexivity|]); (split; [cbn; auto|split; [ranges; lia|reflexivity]]).
  - exists (sext 8 v), (put (sext 8 v)). destruct (SG 8 ltac:(lia)) as (A & B). repeat split; auto; ranges; lia.
  - exists (wrap 8 v), (put (wrap 8 v)). destruct (UG 8 ltac:(lia)) as (A & B). repeat split; auto; ranges; lia.
  - exists (sext 16 v), (put (sext 16 v)). destruct (SG 16 ltac:(lia)) as (A & B). repeat split; auto; ranges; lia.
  - exists (wrap 16 v), (put (wrap 16 v)). destruct (UG 16 ltac:(lia)) as (A & B). repeat split; auto; ranges; lia.
  - exists (sext 32 v), (put (sext 32 v)). destruct (SG 32 ltac:(lia)) as (A & B). repeat split; auto; ranges; lia.
  - exists (wrap 32 v), (put (wrap 32 v)). destruct (UG 32 ltac:(lia)) as (A & B). repeat split; auto; ranges; lia.
  - exists (sext 64 v), (put (sext 64 v)). destruct (SG 64 ltac:(lia)) as (A & B). repeat split; auto; ranges; lia.
  - exists (wrap 64 v), (put (wrap 64 v)). destruct (UG 64 ltac:(lia)) as (A & B). repeat split; auto; ranges; lia.
Qed.

Lemma converted_id k v : in_range k v -> Converted k v v.
Proof.
  intro H. destruct k; cbn [Converted]; try (split; [exact H|exists 0; lia]). ranges.
  assert (v = 0 \/ v = 1) by lia. lia.
Qed.

Lemma type_equal_eq a b : type_equal a b = true -> a = b.
Proof.
  unfold type_equal, beqb, tkind_eqb. rewrite !andb_true_iff, !Z.eqb_eq, !Bool.eqb_true_iff.
  destruct a, b; cbn. intros (((((((((H & ->) & ->) & ->) & ->) & ->) & ->) & ->) & ->) & ->). f_equal.
  destruct ty, ty0; try discriminate; reflexivity.
Qed.

Lemma cast_ok t to k k' v bits : denotes t (I k) -> denotes to (I k') -> Repr k v bits ->
  exists v' b', cast_operand bits t to = Some b' /\ Converted k' v v' /\ Repr k' v' b'.
Proof.
  intros HT HTo HR. unfold cast_operand. destruct (type_equal t to) eqn:E; [|eapply convert_ok; eauto].
  apply type_equal_eq in E. subst to. rewrite (denotes_unique _ _ _ HTo HT).
  exists v, bits. split; [reflexivity|]. split; [apply converted_id, HR|exact HR].
Qed.

Lemma converted_unique k v a b : Converted k v a -> Converted k v b -> a = b.
Proof.
  destruct k; cbn [Converted]; try lia;
  intros (H1 & q1 & ->) (H2 & q2 & ->); ranges; nia.
Qed.

(* results *)
Definition big (k : ikind) : Prop := k = Int \/ k = UInt \/ k = Long \/ k = ULong.

Lemma sext_exact k n : signed k = true -> in_range k n -> forall w, width k = w -> sext w n = n.
Proof. intros Hs Hr w <-. apply sext_id; [destruct k; cbn; lia|]. unfold in_range, lo, hi in Hr. rewrite Hs in Hr. lia. Qed.

Lemma imm_signed_ok t k n : denotes t (I k) -> signed k = true -> in_range Long n ->
  exists b, imm_signed t n = Const t b /\ Repr k (sext (width k) n) b.
Proof.
  intros HT Hs Hn. destruct (denotes_signed _ _ HT) as (S1 & _ & _). unfold imm_signed. rewrite S1, Hs. cbn [negb].
  rewrite (denotes_kind _ _ HT).
  assert (R : in_range k (sext (width k) n)).
  { pose proof (sext_range (width k) n ltac:(destruct k; cbn; lia)). unfold in_range, lo, hi. rewrite Hs. lia. }
  destruct k; try discriminate; cbn [kind_of width] in *; eexists; (split; [reflexivity|]); split; auto.
  rewrite sext_id; [reflexivity|lia|]. ranges; lia.
Qed.

Lemma land_ones n w : 0 <= w -> Z.land n (2 ^ w - 1) = n mod 2 ^ w.
Proof. intro. rewrite <- Z.land_ones by lia. rewrite Z.ones_equiv. reflexivity. Qed.

Lemma imm_unsigned_ok t k n : denotes t (I k) -> signed k = false -> k <> Bool_ -> 0 <= n < 2 ^ 64 ->
  exists b, imm_unsigned t n = Const t b /\ Repr k (n mod 2 ^ width k) b.
Proof.
  intros HT Hs Hb Hn. destruct (denotes_signed _ _ HT) as (_ & U & _). unfold imm_unsigned. rewrite U, Hs. cbn [negb].
  assert (SZ : size_of t = width k / 8).
  { unfold size_of. rewrite (denotes_kind _ _ HT). destruct k; try discriminate; try congruence; reflexivity. }
  rewrite SZ.
  assert (R : forall w, width k = w -> in_range k (n mod 2 ^ w)).
  { intros w <-. pose proof (Z.mod_pos_bound n (2 ^ width k) ltac:(apply Z.pow_pos_nonneg; destruct k; cbn; lia)).
    unfold in_range, lo, hi. rewrite Hs. lia. }
  destruct k; try discriminate; try congruence; cbn [width] in *.
  - change (8 / 8 <? 8) with true. change (Z.shiftr 4294967295 ((4 - 8 / 8) * 8)) with (2 ^ 8 - 1). rewrite land_ones by lia.
    cbv iota. eexists; split; [reflexivity|]. split; [exact (R 8 eq_refl)|]. symmetry. apply Z.mod_small. pose proof (Z.mod_pos_bound n (2^8) ltac:(lia)). pw; lia.
  - change (16 / 8 <? 8) with true. change (Z.shiftr 4294967295 ((4 - 16 / 8) * 8)) with (2 ^ 16 - 1). rewrite land_ones by lia.
    cbv iota. eexists; split; [reflexivity|]. split; [exact (R 16 eq_refl)|]. symmetry. apply Z.mod_small. pose proof (Z.mod_pos_bound n (2^16) ltac:(lia)). pw; lia.
  - change (32 / 8 <? 8) with true. change (Z.shiftr 4294967295 ((4 - 32 / 8) * 8)) with (2 ^ 32 - 1). rewrite land_ones by lia.
    cbv iota. eexists; split; [reflexivity|]. split; [exact (R 32 eq_refl)|]. symmetry. apply Z.mod_small. pose proof (Z.mod_pos_bound n (2^32) ltac:(lia)). pw; lia.
  - change (64 / 8 <? 8) with false. cbv iota. eexists; split; [reflexivity|]. split; [exact (R 64 eq_refl)|]. rewrite !Z.mod_small; auto. rewrite Z.mod_small; auto.
Qed.

Lemma wrap_wrap n w : 0 <= w <= 64 -> (wrap 64 n) mod 2 ^ w = n mod 2 ^ w.
Proof.
  intro Hw. unfold wrap. replace (2 ^ 64) with (2 ^ w * 2 ^ (64 - w)) by (rewrite <- Z.pow_add_r by lia; f_equal; lia).
  rewrite Z.rem_mul_r by (apply Z.pow_nonzero || apply Z.pow_pos_nonneg; lia).
  rewrite Z.mul_comm, Z.mod_add by (apply Z.pow_nonzero; lia). apply Z.mod_mod, Z.pow_nonzero; lia.
Qed.

Lemma host_ulong_ok t k n : denotes t (I k) -> signed k = false -> k <> Bool_ ->
  exists b, host_ulong t n = Const t b /\ Repr k (n mod 2 ^ width k) b.
Proof.
  intros HT Hs Hb. unfold host_ulong.
  destruct (imm_unsigned_ok t k (wrap 64 n) HT Hs Hb) as (b & E & R).
  { unfold wrap. apply Z.mod_pos_bound. lia. }
  rewrite wrap_wrap in R by (destruct k; cbn; lia). eauto.
Qed.

Lemma in_long_iff n : in_long n = true <-> in_range Long n.
Proof. unfold in_long. rewrite andb_true_iff, !Z.leb_le. ranges. lia. Qed.

Lemma host_long_ok t k n : denotes t (I k) -> signed k = true -> in_range k n ->
  exists b, host_long t n = Const t b /\ Repr k n b.
Proof.
  intros HT Hs Hn. assert (HL : in_range Long n) by (destruct k; try discriminate; ranges; lia).
  unfold host_long. rewrite (proj2 (in_long_iff n) HL).
  destruct (imm_signed_ok t k n HT Hs HL) as (b & E & R). rewrite (sext_exact k n Hs Hn _ eq_refl) in R. eauto.
Qed.

Lemma representable_iff k v : representable k v = true <-> in_range k v.
Proof. unfold representable, in_range. rewrite andb_true_iff, !Z.leb_le. tauto. Qed.

Lemma exact_ok t k n v : denotes t (I k) -> k <> Bool_ -> exact k n = Some v ->
  exists b, (if signed k then host_long t n else host_ulong t n) = Const t b /\ Repr k v b.
Proof.
  intros HT Hb H. unfold exact in H. destruct (signed k) eqn:Hs.
  - destruct (representable k n) eqn:ER; [|discriminate]. injection H as <-. apply representable_iff in ER.
    apply host_long_ok; assumption.
  - injection H as <-. apply host_ulong_ok; assumption.
Qed.

(* bit operations stay in range *)
Lemma quot_range k a b : signed k = false -> in_range k a -> in_range k b -> b <> 0 -> 0 <= Z.quot a b <= a /\ 0 <= Z.rem a b < b.
Proof.
  intros Hs Ha Hb Hn. unfold in_range, lo in *. rewrite Hs in *.
  rewrite Z.quot_div_nonneg, Z.rem_mod_nonneg by lia.
  pose proof (Z.div_pos a b ltac:(lia) ltac:(lia)). pose proof (Z.div_le_upper_bound a b a ltac:(lia) ltac:(nia)).
  pose proof (Z.mod_pos_bound a b ltac:(lia)). lia.
Qed.

Lemma bits_in_range_u w n : 0 <= w -> (forall i, w <= i -> Z.testbit n i = false) -> 0 <= n -> n < 2 ^ w.
Proof.
  intros Hw H Hn. destruct (Z.eq_dec n 0) as [->|N0]; [apply Z.pow_pos_nonneg; lia|].
  apply Z.log2_lt_pow2; [lia|]. destruct (Z.lt_ge_cases (Z.log2 n) w) as [|G]; [assumption|].
  specialize (H _ G). rewrite Z.bit_log2 in H by lia. discriminate.
Qed.
Lemma range_bits_u w n i : 0 <= n < 2 ^ w -> w <= i -> 0 <= w -> Z.testbit n i = false.
Proof.
  intros Hn Hi Hw. destruct (Z.eq_dec n 0) as [->|N0]; [apply Z.bits_0|].
  apply Z.bits_above_log2; [lia|]. assert (Z.log2 n < w) by (apply Z.log2_lt_pow2; lia). lia.
Qed.

Lemma bitop_range (f : Z -> Z -> Z) (g : bool -> bool -> bool) :
  (forall a b i, 0 <= i -> Z.testbit (f a b) i = g (Z.testbit a i) (Z.testbit b i)) ->
  (forall a b, 0 <= a -> 0 <= b -> g false false = false -> 0 <= f a b) ->
  g false false = false ->
  (forall a b, f a b < 0 -> g (a <? 0) (b <? 0) = true) -> (forall a b, 0 <= f a b -> g (a <? 0) (b <? 0) = false) ->
  forall k a b, in_range k a -> in_range k b -> in_range k (f a b).
Proof.
  intros HF HN HG HS1 HS2 k a b Ha Hb.
  assert (U : forall w, 0 <= w -> 0 <= a < 2 ^ w -> 0 <= b < 2 ^ w -> 0 <= f a b < 2 ^ w).
  { intros w Hw A B. assert (0 <= f a b) by (apply HN; lia || assumption). split; [assumption|].
    apply bits_in_range_u; auto. intros i Hi. rewrite HF by lia.
    rewrite (range_bits_u w a), (range_bits_u w b) by lia. exact HG. }
  assert (SGN : forall w, 0 <= w -> - 2 ^ w <= a < 2 ^ w -> - 2 ^ w <= b < 2 ^ w -> - 2 ^ w <= f a b < 2 ^ w).
  { intros w Hw A B.
    assert (TB : forall x i, - 2 ^ w <= x < 2 ^ w -> w <= i -> Z.testbit x i = (x <? 0)).
    { intros x i Hx Hi. destruct (Z.ltb_spec x 0) as [X|X].
      - replace x with (Z.lnot (- x - 1)) by (unfold Z.lnot; lia). rewrite Z.lnot_spec by lia.
        rewrite (range_bits_u w (- x - 1) i) by lia. reflexivity.
      - apply (range_bits_u w); lia. }
    destruct (Z.lt_ge_cases (f a b) 0) as [X|X].
    - split; [|pose proof (Z.pow_pos_nonneg 2 w ltac:(lia) ltac:(lia)); lia].
      assert (- f a b - 1 < 2 ^ w); [|lia]. apply bits_in_range_u; [lia| |lia].
      intros i Hi. replace (- f a b - 1) with (Z.lnot (f a b)) by (unfold Z.lnot; lia). rewrite Z.lnot_spec by lia.
      rewrite HF by lia. rewrite (TB a), (TB b) by lia. rewrite (HS1 _ _ X). reflexivity.
    - split; [pose proof (Z.pow_pos_nonneg 2 w ltac:(lia) ltac:(lia)); lia|].
      apply bits_in_range_u; [lia| |lia]. intros i Hi. rewrite HF by lia. rewrite (TB a), (TB b) by lia. apply HS2, X. }
  unfold in_range, lo, hi in *. destruct (signed k) eqn:Hs.
  - specialize (SGN (width k - 1) ltac:(destruct k; cbn; lia) ltac:(lia) ltac:(lia)). lia.
  - specialize (U (width k) ltac:(destruct k; cbn; lia) ltac:(lia) ltac:(lia)). lia.
Qed.

Lemma land_range k a b : in_range k a -> in_range k b -> in_range k (Z.land a b).
Proof.
  apply (bitop_range Z.land andb); auto.
  - intros; apply Z.land_spec.
  - intros; apply Z.land_nonneg; auto.
  - intros x y H. apply Z.land_neg in H. rewrite !(proj2 (Z.ltb_lt _ _)) by lia. reflexivity.
  - intros x y H. apply Z.land_nonneg in H. apply andb_false_iff. rewrite !Z.ltb_ge. lia.
Qed.
Lemma lor_range k a b : in_range k a -> in_range k b -> in_range k (Z.lor a b).
Proof.
  apply (bitop_range Z.lor orb); auto.
  - intros; apply Z.lor_spec.
  - intros; apply Z.lor_nonneg; auto.
  - intros x y H. apply Z.lor_neg in H. apply orb_true_iff. rewrite !Z.ltb_lt. lia.
  - intros x y H. apply Z.lor_nonneg in H. apply orb_false_iff. rewrite !Z.ltb_ge. lia.
Qed.
Lemma lxor_range k a b : in_range k a -> in_range k b -> in_range k (Z.lxor a b).
Proof.
  apply (bitop_range Z.lxor xorb); auto.
  - intros; apply Z.lxor_spec.
  - intros; apply Z.lxor_nonneg; lia.
  - intros x y H. pose proof (Z.lxor_nonneg x y) as X. destruct (Z.ltb_spec x 0), (Z.ltb_spec y 0); try reflexivity; exfalso; lia.
  - intros x y H. apply Z.lxor_nonneg in H. destruct (Z.ltb_spec x 0), (Z.ltb_spec y 0); try reflexivity; exfalso; lia.
Qed.

Lemma mod_id k v : signed k = false -> in_range k v -> v mod 2 ^ width k = v.
Proof. intros Hs H. unfold in_range, lo, hi in H. rewrite Hs in H. apply Z.mod_small. lia. Qed.

Lemma in_range_value t k n : denotes t (I k) -> k <> Bool_ -> in_range k n ->
  exists b, (if signed k then host_long t n else host_ulong t n) = Const t b /\ Repr k n b.
Proof.
  intros HT Hb Hn. destruct (signed k) eqn:Hs; [apply host_long_ok; assumption|].
  destruct (host_ulong_ok t k n HT Hs Hb) as (b & E & R). rewrite (mod_id k n Hs Hn) in R. eauto.
Qed.

Lemma var_int_ok n : n = 0 \/ n = 1 -> exists t b, var_int n = Const t b /\ denotes t (I Int) /\ Repr Int n b.
Proof.
  intro H. unfold var_int. do 2 eexists. split; [reflexivity|]. split; [repeat split|]. split; [ranges; lia|reflexivity].
Qed.

Lemma apply_ok op t k a b l r v : denotes t (I k) -> k <> Bool_ -> Repr k a l -> Repr k b r ->
  c_binary op k a b = Some v ->
  exists t' bits, apply_op op t l r = Const t' bits /\ denotes t' (I (result_kind op k)) /\ Repr (result_kind op k) v bits.
Proof.
  intros HT Hb HL HR H. destruct (denotes_signed _ _ HT) as (S1 & U1 & _).
  assert (VL : if signed k then as_i l = a else as_u l = a).
  { destruct (signed k) eqn:Hs; [eapply repr_signed|eapply repr_unsigned]; eauto. }
  assert (VR : if signed k then as_i r = b else as_u r = b).
  { destruct (signed k) eqn:Hs; [eapply repr_signed|eapply repr_unsigned]; eauto. }
  assert (EX : forall n, exact k n = Some v -> exists t' bits, (if signed k then host_long t n else host_ulong t n) = Const t' bits /\ denotes t' (I k) /\ Repr k v bits).
  { intros n Hn. destruct (exact_ok t k n v HT Hb Hn) as (x & E & R). exists t, x. auto. }
  assert (IN : forall n, in_range k n -> exists t' bits, (if signed k then host_long t n else host_ulong t n) = Const t' bits /\ denotes t' (I k) /\ Repr k n bits).
  { intros n Hn. destruct (in_range_value t k n HT Hb Hn) as (x & E & R). exists t, x. auto. }
  destruct HL as [RA _], HR as [RB _].
  unfold apply_op. rewrite S1, U1. destruct op; cbn [c_binary result_kind] in *; try discriminate H.
  - apply EX in H. destruct (signed k); rewrite VL, VR; exact H.
  - destruct (Z.eqb_spec b 0) as [->|Nb]; [discriminate|].
    replace ((signed k && (as_i r =? 0)) || (negb (signed k) && (as_u r =? 0))) with false.
    + apply EX in H. destruct (signed k); rewrite VL, VR; exact H.
    + symmetry. destruct (signed k); cbn; rewrite VR; rewrite (proj2 (Z.eqb_neq _ _) Nb); reflexivity.
  - destruct (Z.eqb_spec b 0) as [->|Nb]; [discriminate|].
    replace ((signed k && (as_i r =? 0)) || (negb (signed k) && (as_u r =? 0))) with false.
    + destruct (representable k (Z.quot a b)) eqn:RQ; [|discriminate]. injection H as <-.
      apply representable_iff in RQ.
      assert (RR : in_range k (Z.rem a b)).
      { pose proof (Z.rem_bound_abs a b Nb). pose proof (Z.quot_rem' a b). destruct (signed k) eqn:Hs.
        - assert (Z.abs (Z.rem a b) <= hi k).
          { unfold in_range, lo, hi in *. rewrite Hs in *.
            destruct (Z.le_gt_cases (Z.abs b) (2 ^ (width k - 1) - 1)); [lia|]. assert (b = - 2 ^ (width k - 1)) by lia. lia. }
          unfold in_range, lo, hi in *. rewrite Hs in *. lia.
        - pose proof (quot_range k a b Hs RA RB Nb). unfold in_range, lo, hi in *. rewrite Hs in *. lia. }
      destruct (IN _ RR) as (t' & x & E & D). exists t', x. split; [|exact D]. rewrite <- E.
      destruct (signed k) eqn:Hs; rewrite VL, VR; [|reflexivity].
      rewrite (proj2 (in_long_iff _)); [reflexivity|]. destruct k; try discriminate; ranges; lia.
    + symmetry. destruct (signed k); cbn; rewrite VR; rewrite (proj2 (Z.eqb_neq _ _) Nb); reflexivity.
  - apply EX in H. destruct (signed k); rewrite VL, VR; exact H.
  - apply EX in H. destruct (signed k); rewrite VL, VR; exact H.
  - injection H as <-. destruct (IN _ (lor_range k a b RA RB)) as (t' & x & E & D). exists t', x. split; [|exact D].
    rewrite <- E. destruct (signed k); rewrite VL, VR; reflexivity.
  - injection H as <-. destruct (IN _ (lxor_range k a b RA RB)) as (t' & x & E & D). exists t', x. split; [|exact D].
    rewrite <- E. destruct (signed k); rewrite VL, VR; reflexivity.
  - injection H as <-. destruct (IN _ (land_range k a b RA RB)) as (t' & x & E & D). exists t', x. split; [|exact D].
    rewrite <- E. destruct (signed k); rewrite VL, VR; reflexivity.
  - injection H as <-. replace (if signed k then as_i l =? as_i r else as_u l =? as_u r) with (a =? b) by (destruct (signed k); rewrite VL, VR; reflexivity).
    destruct (a =? b); apply var_int_ok; auto.
  - injection H as <-. replace (if signed k then as_i l =? as_i r else as_u l =? as_u r) with (a =? b) by (destruct (signed k); rewrite VL, VR; reflexivity).
    destruct (a =? b); apply var_int_ok; auto.
  - injection H as <-. replace (if signed k then as_i r <=? as_i l else as_u r <=? as_u l) with (b <=? a) by (destruct (signed k); rewrite VL, VR; reflexivity).
    replace (b <=? a) with (negb (a <? b)) by (destruct (Z.ltb_spec a b), (Z.leb_spec b a); lia || reflexivity).
    destruct (a <? b); apply var_int_ok; auto.
  - injection H as <-. replace (if signed k then as_i r <? as_i l else as_u r <? as_u l) with (b <? a) by (destruct (signed k); rewrite VL, VR; reflexivity).
    destruct (b <? a); apply var_int_ok; auto.
Qed.

Lemma common_big k1 k2 c : Common (I k1) (I k2) c -> exists k, c = I k /\ k <> Bool_.
Proof.
  intros [([H|H] & _)|[(_ & _ & [H|H] & _)|[(_ & _ & _ & _ & [H|H] & _)|(i & j & p & q & k & _ & _ & P1 & P2 & C & ->)]]]; try discriminate.
  exists k. split; [reflexivity|].
  assert (PB : forall i p, Promoted i p -> p <> Bool_).
  { intros x y [(_ & _ & ->)|[(_ & _ & ->)|(X & ->)]]; try discriminate. intros ->. cbn in X. lia. }
  pose proof (PB _ _ P1). pose proof (PB _ _ P2).
  destruct C as [(_ & ->)|[(_ & _ & _ & ->)|[(_ & _ & _ & ->)|(s & u & A1 & A2 & A3 & A4)]]]; auto.
  destruct A4 as [(_ & ->)|[(_ & _ & ->)|(_ & _ & ->)]].
  - destruct A1 as [[_ ->]|[_ ->]]; auto.
  - destruct A1 as [[-> _]|[-> _]]; auto.
  - destruct s; discriminate.
Qed.

Lemma binary_ok op t1 t2 k1 k2 a b l r : is_shift op = false ->
  denotes t1 (I k1) -> denotes t2 (I k2) -> Repr k1 a l -> Repr k2 b r ->
  exists k a' b', Common (I k1) (I k2) (I k) /\ Converted k a a' /\ Converted k b b' /\
  forall v, c_binary op k a' b' = Some v ->
  exists t bits, eval_binary op t1 l t2 r = Const t bits /\ denotes t (I (result_kind op k)) /\ Repr (result_kind op k) v bits.
Proof.
  intros HS H1 H2 R1 R2. destruct (common_ok _ _ _ _ H1 H2) as (c & HD & HC).
  destruct (common_big _ _ _ HC) as (k & -> & Hb).
  destruct (cast_ok _ _ _ _ _ _ H1 HD R1) as (a' & l' & EL & CA & RA).
  destruct (cast_ok _ _ _ _ _ _ H2 HD R2) as (b' & r' & ER & CB & RB).
  exists k, a', b'. split; [exact HC|]. split; [exact CA|]. split; [exact CB|]. intros v Hv.
  destruct (denotes_signed _ _ H1) as (_ & _ & I1). destruct (denotes_signed _ _ H2) as (_ & _ & I2).
  unfold eval_binary. rewrite I1, I2. cbn [andb negb].
  destruct (apply_ok op _ k a' b' l' r' v HD Hb RA RB Hv) as (t & bits & E & D).
  exists t, bits. split; [|exact D]. rewrite EL, ER. destruct op; try discriminate HS; exact E.
Qed.

(* division by zero is left for run time *)
Lemma div_zero op t1 t2 k1 k2 a b l r : op = Div \/ op = Mod ->
  denotes t1 (I k1) -> denotes t2 (I k2) -> Repr k1 a l -> Repr k2 b r -> b = 0 ->
  eval_binary op t1 l t2 r = Runtime.
Proof.
  intros HO H1 H2 R1 R2 ->. destruct (common_ok _ _ _ _ H1 H2) as (c & HD & HC).
  destruct (common_big _ _ _ HC) as (k & -> & Hb).
  destruct (cast_ok _ _ _ _ _ _ H1 HD R1) as (a' & l' & EL & CA & RA).
  destruct (cast_ok _ _ _ _ _ _ H2 HD R2) as (b' & r' & ER & CB & RB).
  assert (b' = 0). { apply (converted_unique k 0); [exact CB|]. apply converted_id. destruct k; ranges; lia. }
  subst b'. destruct (denotes_signed _ _ H1) as (_ & _ & I1). destruct (denotes_signed _ _ H2) as (_ & _ & I2).
  unfold eval_binary. rewrite I1, I2. cbn [andb negb]. rewrite EL, ER.
  destruct (denotes_signed _ _ HD) as (S1 & U1 & _).
  assert ((is_signed (usual_arithmetic_conversion t1 t2) && (as_i r' =? 0)) || (is_unsigned (usual_arithmetic_conversion t1 t2) && (as_u r' =? 0)) = true).
  { rewrite S1, U1. destruct (signed k) eqn:Hs; cbn.
    - rewrite (repr_signed k 0 r' Hs RB). reflexivity.
    - rewrite (repr_unsigned k 0 r' Hs RB). reflexivity. }
  destruct HO as [-> | ->]; unfold apply_op; rewrite H; reflexivity.
Qed.

Lemma shift_ok left t1 t2 k1 k2 a b l r : denotes t1 (I k1) -> denotes t2 (I k2) -> Repr k1 a l -> Repr k2 b r ->
  exists k a', Promoted k1 k /\ Converted k a a' /\
  forall v, c_shift left k a' b = Some v ->
  exists t bits, eval_binary (if left then Shl else Shr) t1 l t2 r = Const t bits /\ denotes t (I k) /\ Repr k v bits.
Proof.
  intros H1 H2 R1 R2. pose proof (promote_denotes _ _ H1) as HD. pose proof (prom_ok k1) as HP.
  destruct (cast_ok _ _ _ _ _ _ H1 HD R1) as (a' & l' & EL & CA & RA).
  exists (prom k1), a'. split; [exact HP|]. split; [exact CA|]. intros v Hv.
  assert (Hb : prom k1 <> Bool_) by (destruct k1; discriminate).
  destruct (denotes_signed _ _ H1) as (_ & _ & I1). destruct (denotes_signed _ _ H2) as (_ & _ & I2).
  destruct (denotes_signed _ _ HD) as (S1 & U1 & _).
  assert (EE : eval_binary (if left then Shl else Shr) t1 l t2 r = shift left t1 l r).
  { unfold eval_binary. rewrite I1, I2. destruct left; reflexivity. }
  rewrite EE. unfold shift. cbv zeta. rewrite EL, S1. clear EE.
  set (k := prom k1) in *. clearbody k. set (t := promote_integer t1) in *. clearbody t.
  unfold c_shift in Hv. destruct (Z.ltb_spec b 0) as [|Hb0]; [discriminate|].
  destruct (Z.leb_spec (width k) b) as [|Hbw]; [discriminate|]. cbn [orb] in Hv.
  assert (W : width k <= 64) by (destruct k; cbn; lia).
  assert (VR : as_i r = b /\ as_u r = b).
  { destruct R2 as [X ->]. unfold as_i, as_u. rewrite sext_mod by lia. split; [apply sext_id; pw; lia|]. apply Z.mod_small. pw; lia. }
  destruct VR as [-> ->]. destruct (signed k) eqn:Hs.
  - rewrite (repr_signed k a' l' Hs RA).
    replace ((b <? 0) || (64 <=? b)) with false by (symmetry; apply orb_false_iff; rewrite Z.ltb_ge, Z.leb_gt; lia).
    destruct left.
    + cbn [andb] in Hv. destruct (Z.ltb_spec a' 0); [discriminate|]. unfold exact in Hv. rewrite Hs in Hv.
      destruct (representable k (a' * 2 ^ b)) eqn:ER; [|discriminate]. injection Hv as <-. apply representable_iff in ER.
      rewrite Z.shiftl_mul_pow2 by lia. destruct (host_long_ok t k _ HD Hs ER) as (x & E & R). exists t, x. auto.
    + injection Hv as <-. rewrite Z.shiftr_div_pow2 by lia.
      assert (ER : in_range k (a' / 2 ^ b)).
      { destruct RA as [RA _]. pose proof (Z.pow_pos_nonneg 2 b ltac:(lia) ltac:(lia)) as P.
        unfold in_range, lo, hi in *. rewrite Hs in *. split.
        - apply Z.div_le_lower_bound; [lia|]. pose proof (Z.pow_pos_nonneg 2 (width k - 1) ltac:(lia) ltac:(destruct k; cbn; lia)). nia.
        - destruct (Z.lt_ge_cases a' 0).
          + pose proof (Z.div_lt_upper_bound a' (2 ^ b) 0 ltac:(lia) ltac:(lia)). pose proof (Z.pow_pos_nonneg 2 (width k - 1) ltac:(lia) ltac:(destruct k; cbn; lia)). lia.
          + pose proof (Z.div_le_upper_bound a' (2 ^ b) a' ltac:(lia) ltac:(nia)). lia. }
      destruct (host_long_ok t k _ HD Hs ER) as (x & E & R). exists t, x. auto.
  - rewrite (repr_unsigned k a' l' Hs RA).
    replace (64 <=? b) with false by (symmetry; apply Z.leb_gt; lia). destruct left.
    + cbn [andb] in Hv. unfold exact in Hv. rewrite Hs in Hv. injection Hv as <-. rewrite Z.shiftl_mul_pow2 by lia.
      destruct (host_ulong_ok t k (a' * 2 ^ b) HD Hs Hb) as (x & E & R). exists t, x. auto.
    + injection Hv as <-. rewrite Z.shiftr_div_pow2 by lia.
      destruct (host_ulong_ok t k (a' / 2 ^ b) HD Hs Hb) as (x & E & R).
      assert (ER : in_range k (a' / 2 ^ b)).
      { destruct RA as [RA _]. pose proof (Z.pow_pos_nonneg 2 b ltac:(lia) ltac:(lia)) as P.
        unfold in_range, lo, hi in *. rewrite Hs in *. split; [apply Z.div_pos; lia|].
        pose proof (Z.div_le_upper_bound a' (2 ^ b) a' ltac:(lia) ltac:(nia)). lia. }
      rewrite (mod_id k _ Hs ER) in R. exists t, x. auto.
Qed.

Lemma not_ok t1 k1 a l : denotes t1 (I k1) -> Repr k1 a l ->
  exists k a', Promoted k1 k /\ Converted k a a' /\
  exists t bits, eval_not t1 l = Const t bits /\ denotes t (I k) /\ Repr k (c_not k a') bits.
Proof.
  intros H1 R1. pose proof (promote_denotes _ _ H1) as HD. pose proof (prom_ok k1) as HP.
  destruct (cast_ok _ _ _ _ _ _ H1 HD R1) as (a' & l' & EL & CA & RA).
  exists (prom k1), a'. split; [exact HP|]. split; [exact CA|].
  assert (Hb : prom k1 <> Bool_) by (destruct k1; discriminate).
  destruct (denotes_signed _ _ H1) as (_ & _ & I1). destruct (denotes_signed _ _ HD) as (S1 & U1 & _).
  unfold eval_not. rewrite I1. cbn [negb]. cbv zeta. rewrite EL, S1.
  set (k := prom k1) in *. clearbody k. set (t := promote_integer t1) in *. clearbody t.
  unfold c_not. destruct (signed k) eqn:Hs.
  - rewrite (repr_signed k a' l' Hs RA). destruct RA as [RA _].
    assert (IR : in_range k (- a' - 1)) by (unfold in_range, lo, hi in *; rewrite Hs in *; lia).
    assert (IL : in_range Long (- a' - 1)) by (destruct k; try discriminate; ranges; lia).
    replace (Z.lnot a') with (- a' - 1) by (unfold Z.lnot; lia).
    destruct (imm_signed_ok t k _ HD Hs IL) as (x & E & R). rewrite (sext_exact k _ Hs IR _ eq_refl) in R. exists t, x. auto.
  - rewrite (repr_unsigned k a' l' Hs RA). destruct RA as [RA _].
    destruct (imm_unsigned_ok t k (wrap 64 (Z.lnot a')) HD Hs Hb) as (x & E & R); [unfold wrap; apply Z.mod_pos_bound; lia|].
    rewrite wrap_wrap in R by (destruct k; cbn; lia).
    replace (Z.lnot a' mod 2 ^ width k) with (2 ^ width k - 1 - a') in R; [exists t, x; auto|].
    unfold in_range, lo, hi in RA. rewrite Hs in RA. unfold Z.lnot.
    apply (Z.mod_unique_pos _ _ (-1)); lia.
Qed.

Lemma neg_ok t1 k1 a l : denotes t1 (I k1) -> Repr k1 a l ->
  exists k a', Promoted k1 k /\ Converted k a a' /\
  forall v, c_neg k a' = Some v ->
  exists t bits, eval_neg t1 l = Const t bits /\ denotes t (I k) /\ Repr k v bits.
Proof.
  intros H1 R1. unfold eval_neg. destruct (denotes_signed _ _ H1) as (_ & _ & I1). rewrite I1. cbn [negb].
  assert (HI : denotes basic_type__int (I Int)) by (repeat split).
  assert (R0 : Repr Int 0 (put 0)) by (split; [ranges; lia|reflexivity]).
  destruct (binary_ok Sub _ _ _ _ 0 a (put 0) l eq_refl HI H1 R0 R1) as (k & z & a' & HC & CZ & CA & HV).
  exists k, a'.
  assert (PK : Promoted k1 k).
  { destruct (common_int_ok _ _ _ _ HI H1) as (k' & _ & HC').
    assert (C2 : Common (I Int) (I k1) (I k')).
    { right; right; right. exists Int, k1, (prom Int), (prom k1), k'. repeat split; auto using prom_ok. }
    pose proof (common_unique _ _ _ _ HC C2) as EK. injection EK as ->.
    assert (k' = prom k1); [|subst k'; apply prom_ok].
    eapply common_int_unique; [exact HC'|]. unfold Common_int. destruct k1; cbn [prom].
    1-6: left; auto.
    - right; right; right. exists Int, UInt. split; [auto|]. split; [reflexivity|]. split; [reflexivity|]. left. split; [vm_compute; discriminate|reflexivity].
    - right; left. split; [discriminate|]. split; [reflexivity|]. split; [vm_compute; reflexivity|reflexivity].
    - right; right; right. exists Int, ULong. split; [auto|]. split; [reflexivity|]. split; [reflexivity|]. left. split; [vm_compute; discriminate|reflexivity]. }
  split; [exact PK|]. split; [exact CA|]. intros v Hv. apply HV.
  assert (z = 0). { apply (converted_unique k 0); [exact CZ|]. apply converted_id. destruct k; ranges; lia. }
  subst z. cbn [c_binary]. exact Hv.
Qed.

(* types narrower than long cannot make the host arithmetic overflow *)
Lemma small_no_ub op t1 t2 k1 k2 a b l r : is_shift op = false ->
  denotes t1 (I k1) -> denotes t2 (I k2) -> Repr k1 a l -> Repr k2 b r ->
  k1 <> Long -> k2 <> Long ->
  eval_binary op t1 l t2 r <> HostUB.
Proof.
  intros HO H1 H2 R1 R2 N1 N2. destruct (common_int_ok _ _ _ _ H1 H2) as (k & HD & HC).
  assert (NL : k <> Long).
  { intros ->. assert (C2 : Common_int (prom k1) (prom k2) (if (signed (prom k1) && signed (prom k2))%bool then Int else if (rank (prom k1) <? 4) && (rank (prom k2) <? 4) then UInt else ULong)).
    { unfold Common_int. destruct k1, k2; try congruence; cbn -[Z.lt Z.le Z.gt];
      first
       [ left; split; reflexivity
       | right; left; split; [discriminate|split; [reflexivity|split; [vm_compute; reflexivity|reflexivity]]]
       | right; right; left; split; [discriminate|split; [reflexivity|split; [vm_compute; reflexivity|reflexivity]]]
       | right; right; right;
         first [ exists Int, UInt; split; [solve [auto]|split; [reflexivity|split; [reflexivity|left; split; [vm_compute; discriminate|reflexivity]]]]
               | exists Int, ULong; split; [solve [auto]|split; [reflexivity|split; [reflexivity|left; split; [vm_compute; discriminate|reflexivity]]]] ] ]. }
    pose proof (common_int_unique _ _ _ _ HC C2) as E. destruct (signed (prom k1) && signed (prom k2)); [discriminate|].
    destruct (_ && _); discriminate. }
  assert (HCC : Common (I k1) (I k2) (I k)).
  { right; right; right. exists k1, k2, (prom k1), (prom k2), k. repeat split; auto using prom_ok. }
  destruct (common_big _ _ _ HCC) as (k0 & E0 & Hb). injection E0 as <-.
  destruct (cast_ok _ _ _ _ _ _ H1 HD R1) as (a' & l' & EL & CA & RA).
  destruct (cast_ok _ _ _ _ _ _ H2 HD R2) as (b' & r' & ER & CB & RB).
  destruct (denotes_signed _ _ H1) as (_ & _ & I1). destruct (denotes_signed _ _ H2) as (_ & _ & I2).
  destruct (denotes_signed _ _ HD) as (S1 & U1 & _).
  assert (AP : apply_op op (usual_arithmetic_conversion t1 t2) l' r' <> HostUB).
  { set (t := usual_arithmetic_conversion t1 t2) in *. clearbody t.
    assert (HU : forall n, host_ulong t n <> HostUB).
    { intro n. unfold host_ulong, imm_unsigned. repeat match goal with |- context [if ?x then _ else _] => destruct x end; intro X; discriminate X. }
    assert (IS : forall n, imm_signed t n <> HostUB).
    { intro n. unfold imm_signed. destruct (is_signed t); cbn [negb]; [|intro X; discriminate X]. destruct (type_of t); intro X; discriminate X. }
    unfold apply_op. rewrite S1. destruct (signed k) eqn:Hs.
    - rewrite (repr_signed k a' l' Hs RA), (repr_signed k b' r' Hs RB). destruct RA as [RA _], RB as [RB _].
      assert (HL : forall n, in_range Long n -> host_long t n <> HostUB).
      { intros n Hn. unfold host_long. rewrite (proj2 (in_long_iff n) Hn). apply IS. }
      assert (RI : in_range Int a' /\ in_range Int b') by (destruct k; try discriminate; try congruence; split; ranges; lia).
      destruct RI as [RA' RB'].
      assert (QQ : b' <> 0 -> in_range Long (Z.quot a' b') /\ in_range Long (Z.rem a' b')).
      { intro Nb. assert (Z.abs (Z.quot a' b') <= Z.abs a').
        { rewrite <- Z.quot_abs by exact Nb. rewrite Z.quot_div_nonneg by lia.
          apply Z.div_le_upper_bound; [lia|]. nia. }
        pose proof (Z.rem_bound_abs a' b' Nb). ranges. lia. }
      destruct op; try discriminate HO; try discriminate; try apply HL; try (ranges; nia).
      + destruct (Z.eqb_spec b' 0) as [E|Nb]; cbn [andb orb]; [discriminate|].
        destruct (is_unsigned t && (as_u r' =? 0)); [discriminate|]. apply HL, QQ, Nb.
      + destruct (Z.eqb_spec b' 0) as [E|Nb]; cbn [andb orb]; [discriminate|].
        destruct (is_unsigned t && (as_u r' =? 0)); [discriminate|].
        rewrite (proj2 (in_long_iff _)) by (apply QQ, Nb). apply HL, QQ, Nb.
      + apply lor_range; ranges; lia.
      + apply lxor_range; ranges; lia.
      + apply land_range; ranges; lia.
    - destruct op; try discriminate HO; try discriminate; try apply HU; destruct (_ || _); try discriminate; apply HU. }
  unfold eval_binary. rewrite I1, I2. cbn [andb negb]. rewrite EL, ER. destruct op; try discriminate HO; exact AP.
Qed.
