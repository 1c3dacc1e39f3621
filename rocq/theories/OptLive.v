(* Two runs whose memories differ only in local objects that are not live do the same. *)
From Coq Require Import List ZArith Bool Lia Arith.
From Verif Require Import Util Bytes OptModel OptSpec.
Import ListNotations.
Open Scope Z_scope.

Lemma type_equal_eq : forall a b, type_equal a b = true -> a = b.
Proof.
  fix IH 1. intros a b. destruct a as [| i n | t | n t | i n ms |]; destruct b as [| i' n' | t' | n' t' | i' n' ms' |]; cbn [type_equal]; try discriminate; intros H; try reflexivity.
  - apply andb_true_iff in H as [H1 H2]. apply Z.eqb_eq in H1, H2. congruence.
  - f_equal. apply IH. exact H.
  - apply andb_true_iff in H as [H1 H2]. apply Z.eqb_eq in H1. f_equal; [exact H1|apply IH; exact H2].
  - apply andb_true_iff in H as [H1 H2]. apply andb_true_iff in H1 as [H0 H1]. apply Z.eqb_eq in H0, H1. f_equal; [exact H0|exact H1|].
    clear H0 H1. revert ms' H2. induction ms as [|x ms IHm]; intros [|y ms'] H2; try discriminate; [reflexivity|].
    apply andb_true_iff in H2 as [H2 H3]. f_equal; [apply IH; exact H2|apply IHm; exact H3].
Qed.

Lemma plain_pointer : forall t, plain t = true -> holds_pointer t = true -> is_or_has_pointer t = true.
Proof.
  fix IH 1. intros [| i n | t | n t | i n ms |] HP HH; cbn [plain holds_pointer is_or_has_pointer] in *; try discriminate; try reflexivity.
  - rewrite HH in HP. discriminate.
  - induction ms as [|x ms IHm]; [discriminate|]. cbn [forallb existsb] in *. apply andb_true_iff in HP as [HP1 HP2].
    apply orb_true_iff in HH as [HH|HH]; [rewrite (IH x HP1 HH); reflexivity|]. rewrite (IHm HP2 HH). apply orb_true_r.
Qed.

Definition sub (L L' : Z) : Prop := forall i, (i < 64)%nat -> Z.testbit L (Z.of_nat i) = true -> Z.testbit L' (Z.of_nat i) = true.
Lemma sub_refl L : sub L L. Proof. intros i _ H. exact H. Qed.
Lemma sub_trans A B C : sub A B -> sub B C -> sub A C. Proof. intros H H' i Hi Ht. apply H', H; assumption. Qed.
Lemma sub_lor A B C : sub (Z.lor A B) C <-> sub A C /\ sub B C.
Proof.
  split.
  - intros H. split; intros i Hi Ht; apply H; [exact Hi|rewrite Z.lor_spec, Ht; reflexivity|exact Hi|rewrite Z.lor_spec, Ht; apply orb_true_r].
  - intros [H H'] i Hi Ht. rewrite Z.lor_spec in Ht. apply orb_true_iff in Ht as [Ht|Ht]; [apply H|apply H']; assumption.
Qed.
Lemma sub_0 A : sub 0 A. Proof. intros i _ H. rewrite Z.bits_0 in H. discriminate. Qed.
Lemma sub_lor_l A B : sub A (Z.lor A B). Proof. intros i _ H. rewrite Z.lor_spec, H. reflexivity. Qed.
Lemma sub_lor_r A B : sub B (Z.lor A B). Proof. intros i _ H. rewrite Z.lor_spec, H. apply orb_true_r. Qed.
Lemma all_bits i : (i < 64)%nat -> Z.testbit ALL (Z.of_nat i) = true.
Proof. intros H. unfold ALL. apply Z.ones_spec_low. lia. Qed.
Lemma sub_all L L' : sub ALL L' -> sub L L'. Proof. intros H i Hi _. apply H; [exact Hi|apply all_bits; exact Hi]. Qed.

Lemma index_from_lt l : forall k s i, index_from k l s = Some i -> (k <= i < k + length l)%nat.
Proof.
  induction l as [|x r IH]; intros k s i H; cbn [index_from] in H; [discriminate|]. destruct (Nat.eqb x s).
  - injection H as <-. cbn [length]. lia.
  - apply IH in H. cbn [length]. lia.
Qed.
Lemma index_from_inj l : forall k s s' i, index_from k l s = Some i -> index_from k l s' = Some i -> s = s'.
Proof.
  induction l as [|x r IH]; intros k s s' i H H'; cbn [index_from] in *; [discriminate|].
  destruct (Nat.eqb x s) eqn:E, (Nat.eqb x s') eqn:E'.
  - apply Nat.eqb_eq in E, E'. congruence.
  - injection H as <-. apply index_from_lt in H'. lia.
  - injection H' as <-. apply index_from_lt in H. lia.
  - eapply IH; eassumption.
Qed.

Section Live.
Context {W : Type}.
Variable tab : sym -> symbol.
Variable M : machine W.
Variable symbols : list sym.
Hypothesis Hlaw : lawful tab M.
Hypothesis Hlen : (length symbols < 64)%nat.
Notation bit := (bit symbols). Notation index := (index symbols).

Lemma index_64 s i : index s = Some i -> (i < 64)%nat. Proof. intros H. apply index_from_lt in H. lia. Qed.
Lemma bit_spec s i : index s = Some i -> Z.testbit (bit s) (Z.of_nat i) = true.
Proof. intros H. unfold OptModel.bit. rewrite H. rewrite Z.shiftl_1_l. apply Z.pow2_bits_true. lia. Qed.
Lemma bit_only s j : Z.testbit (bit s) (Z.of_nat j) = true -> index s = Some j.
Proof.
  unfold OptModel.bit. destruct (index s) as [i|]; [|rewrite Z.bits_0; discriminate]. rewrite Z.shiftl_1_l. intros H.
  destruct (Nat.eq_dec i j) as [->|N]; [reflexivity|]. rewrite Z.pow2_bits_false in H by lia. discriminate.
Qed.

Definition alive (L a : Z) : bool :=
  match owner M a with Some s => match index s with Some i => Z.testbit L (Z.of_nat i) | None => true end | None => true end.
Definition agree (L : Z) (m m' : mem) : Prop := forall a, alive L a = true -> m a = m' a.
Lemma alive_sub L L' a : sub L L' -> alive L a = true -> alive L' a = true.
Proof. intros H. unfold alive. destruct (owner M a) as [s|]; [|auto]. destruct (index s) as [i|] eqn:E; [|auto]. apply H. eapply index_64, E. Qed.
Lemma agree_sub L L' m m' : sub L L' -> agree L' m m' -> agree L m m'.
Proof. intros H HA a Ha. apply HA. eapply alive_sub; eassumption. Qed.
Lemma agree_outside L m m' : agree L m m' -> same_outside M m m'.
Proof. intros H a Ha. apply H. unfold alive. rewrite Ha. reflexivity. Qed.
Lemma agree_all L m m' : sub ALL L -> agree L m m' -> forall a, m a = m' a.
Proof.
  intros HS HA a. apply HA. unfold alive. destruct (owner M a) as [s|]; [|reflexivity]. destruct (index s) as [i|] eqn:E; [|reflexivity].
  pose proof (index_64 s i E). apply HS; [assumption|apply all_bits; assumption].
Qed.
Lemma agree_refl L m : agree L m m. Proof. intros a _. reflexivity. Qed.

Lemma bytes_ext m m' a n : (forall i, (i < n)%nat -> m (a + Z.of_nat i) = m' (a + Z.of_nat i)) -> bytes_at m a n = bytes_at m' a n.
Proof. intros H. unfold bytes_at. apply map_ext_in. intros i Hi. apply in_seq in Hi. apply H. lia. Qed.
Lemma belongs_owner s a n i : belongs tab M s a n = true -> (i < n)%nat ->
  owner M (a + Z.of_nat i) = if s_none (tab s) then Some s else None.
Proof.
  unfold belongs. intros H Hi. apply andb_true_iff in H as [_ H]. rewrite forallb_forall in H. specialize (H i ltac:(apply in_seq; lia)).
  destruct (owner M (a + Z.of_nat i)) as [s'|].
  - apply andb_true_iff in H as [-> H]. apply Nat.eqb_eq in H. congruence.
  - destruct (s_none (tab s)); [discriminate|reflexivity].
Qed.
Lemma bytes_belongs s a n L m m' : belongs tab M s a n = true -> sub (bit s) L -> agree L m m' -> bytes_at m a n = bytes_at m' a n.
Proof.
  intros HB HS HA. apply bytes_ext. intros i Hi. apply HA. unfold alive. rewrite (belongs_owner s a n i HB Hi).
  destruct (s_none (tab s)); [|reflexivity]. destruct (index s) as [j|] eqn:E; [|reflexivity]. apply HS; [eapply index_64, E|apply bit_spec, E].
Qed.
Lemma belongs_object s a n : belongs tab M s a n = true -> is_object (s_type (tab s)) = true.
Proof. unfold belongs. intros H. apply andb_true_iff in H as [H _]. exact H. Qed.

Notation use_bit := (set_use_bit tab symbols).
(* the place of a target *)
Definition target_bit (v : var) : Z := match v_kind v, v_sym v with DEREF, Some _ => use_bit (with_kind v DIRECT) | _, _ => 0 end.
Lemma pointer_agree v L m m' : sub (match v_sym v with Some _ => use_bit (with_kind v DIRECT) | None => 0 end) L -> agree L m m' ->
  pointer tab M m v = pointer tab M m' v.
Proof.
  intros HS HA. unfold pointer. destruct (v_sym v) as [s|] eqn:E; [|reflexivity].
  destruct (belongs tab M s (loc M s) 8) eqn:EB; [|reflexivity]. do 2 f_equal. eapply bytes_belongs; [exact EB| |exact HA].
  unfold set_use_bit, with_kind in HS. cbn [v_kind v_sym] in HS. rewrite E in HS. rewrite (belongs_object _ _ _ EB) in HS. exact HS.
Qed.
Lemma place_agree v L m m' : sub (target_bit v) L -> agree L m m' -> place tab M m v = place tab M m' v.
Proof.
  intros HS HA. unfold place. destruct (v_kind v) eqn:EK; try reflexivity. f_equal. apply pointer_agree with L; [|exact HA].
  unfold target_bit in HS. rewrite EK in HS. exact HS.
Qed.
Lemma place_same v m m' : (forall a, m a = m' a) -> place tab M m v = place tab M m' v.
Proof. intros H. apply place_agree with ALL; [apply sub_all, sub_refl|intros a _; apply H]. Qed.
Lemma value_agree v L m m' : sub (use_bit v) L -> agree L m m' -> value tab M m v = value tab M m' v.
Proof.
  intros HS HA. unfold value. destruct (v_kind v) eqn:EK; try reflexivity.
  - unfold place. rewrite EK.
    assert (H : option_map (fun a => let b := bytes_at m a (size (v_type v)) in if v_width v =? 0 then b else getfield M (v_width v) (v_foff v) (v_type v) b)
        (match v_sym v with Some s => let a := loc M s + v_offset v in if belongs tab M s a (size (v_type v)) then Some a else None | None => None end)
      = option_map (fun a => let b := bytes_at m' a (size (v_type v)) in if v_width v =? 0 then b else getfield M (v_width v) (v_foff v) (v_type v) b)
        (match v_sym v with Some s => let a := loc M s + v_offset v in if belongs tab M s a (size (v_type v)) then Some a else None | None => None end)).
    { destruct (v_sym v) as [s|] eqn:ES; [|reflexivity]. cbn zeta. destruct (belongs tab M s (loc M s + v_offset v) (size (v_type v))) eqn:EB; [|reflexivity].
      cbn [option_map]. rewrite (bytes_belongs s _ _ L m m' EB); [reflexivity| |exact HA].
      unfold set_use_bit in HS. rewrite EK, ES, (belongs_object _ _ _ EB) in HS. exact HS. }
    destruct (v_type v); try exact H. destruct (v_sym v); [reflexivity|exact H].
  - assert (HE : forall a, m a = m' a). { apply (agree_all L); [|exact HA]. unfold set_use_bit in HS. rewrite EK in HS. exact HS. }
    rewrite (place_same v m m' HE).
    assert (H : option_map (fun a => let b := bytes_at m a (size (v_type v)) in if v_width v =? 0 then b else getfield M (v_width v) (v_foff v) (v_type v) b) (place tab M m' v)
      = option_map (fun a => let b := bytes_at m' a (size (v_type v)) in if v_width v =? 0 then b else getfield M (v_width v) (v_foff v) (v_type v) b) (place tab M m' v)).
    { destruct (place tab M m' v) as [a|]; [|reflexivity]. cbn [option_map]. rewrite (bytes_ext m m' a (size (v_type v))) by (intros; apply HE). reflexivity. }
    destruct (v_type v); exact H.
Qed.
Notation use := (use tab symbols).
Lemma pure_agree e L m m' : sub (use e) L -> agree L m m' -> pure tab M e m = pure tab M e m'.
Proof.
  intros HS HA. unfold OptModel.use in HS. apply sub_lor in HS as [HR HL]. unfold pure. rewrite (value_agree (e_l e) L m m' HL HA).
  destruct (e_op e) eqn:EO; try reflexivity. unfold binary in HR. rewrite EO in HR. rewrite (value_agree (e_r e) L m m' HR HA). reflexivity.
Qed.

Notation conf := (@conf W). Notation result := (@result W).
Definition like (L : Z) (c c' : conf) : Prop :=
  c_w c = c_w c' /\ c_ps c = c_ps c' /\ same_trace M (c_tr c) (c_tr c') /\ agree L (c_m c) (c_m c') /\
  (gives_pointer (c_ps c) -> forall a, c_m c a = c_m c' a).
Definition alike {A} (L : Z) (r r' : result A) : Prop :=
  match r, r' with
  | Goes v c, Goes v' c' => v = v' /\ like L c c'
  | Stops t, Stops t' => same_trace M t t'
  | Fails, _ => True
  | _, _ => False
  end.
Lemma like_sub L L' c c' : sub L L' -> like L' c c' -> like L c c'.
Proof. intros H (H1 & H2 & H3 & H4 & H5). repeat split; auto. eapply agree_sub; eassumption. Qed.
Lemma alike_sub {A} L L' (r r' : result A) : sub L L' -> alike L' r r' -> alike L r r'.
Proof. intros H. destruct r, r'; cbn [alike]; auto. intros [? ?]. split; [assumption|eapply like_sub; eassumption]. Qed.
Lemma no_pointer : gives_pointer [] -> False. Proof. intros (p & [] & _). Qed.
Lemma write_in m a l x : a <= x < a + Z.of_nat (length l) -> write m a l x = nth (Z.to_nat (x - a)) l 0.
Proof. intros H. unfold write. destruct (Z.leb_spec a x); [|lia]. destruct (Z.ltb_spec x (a + Z.of_nat (length l))); [reflexivity|lia]. Qed.
Lemma write_out m a l x : ~ (a <= x < a + Z.of_nat (length l)) -> write m a l x = m x.
Proof. intros H. unfold write. destruct (Z.leb_spec a x); [|reflexivity]. destruct (Z.ltb_spec x (a + Z.of_nat (length l))); [lia|reflexivity]. Qed.
Lemma write_same m m' a l x : m x = m' x -> write m a l x = write m' a l x.
Proof. intros H. unfold write. destruct (_ && _); [reflexivity|exact H]. Qed.
Lemma event_like f ps m m' L : (gives_pointer ps -> forall a, m a = m' a) -> agree L m m' -> same_event M (mkEvent f ps m) (mkEvent f ps m').
Proof. intros HP HA. repeat split; cbn [ev_mem ev_args]; [apply (agree_outside L), HA|exact HP]. Qed.

Lemma list_place_agree e L m m' : sub (use_bit e) L -> agree L m m' -> list_place tab M m e = list_place tab M m' e /\
  (forall a, list_place tab M m' e = Some a -> bytes_at m a va_list_size = bytes_at m' a va_list_size).
Proof.
  intros HS HA. unfold list_place. pose proof (value_agree e L m m' HS HA) as HV.
  assert (HN : (match value tab M m e with Some b => let a := unptr M b in if forallb (fun i => match owner M (a + Z.of_nat i) with Some _ => false | None => true end) (seq 0 va_list_size) then Some a else None | None => None end)
    = (match value tab M m' e with Some b => let a := unptr M b in if forallb (fun i => match owner M (a + Z.of_nat i) with Some _ => false | None => true end) (seq 0 va_list_size) then Some a else None | None => None end)) by (rewrite HV; reflexivity).
  assert (HO : forall a, (match value tab M m' e with Some b => let a := unptr M b in if forallb (fun i => match owner M (a + Z.of_nat i) with Some _ => false | None => true end) (seq 0 va_list_size) then Some a else None | None => None end) = Some a ->
    bytes_at m a va_list_size = bytes_at m' a va_list_size).
  { intros a H. destruct (value tab M m' e) as [b|]; [|discriminate]. cbn zeta in H. destruct (forallb _ _) eqn:EF in H; [|discriminate].
    injection H as <-. apply bytes_ext. intros i Hi. rewrite forallb_forall in EF. specialize (EF i ltac:(apply in_seq; lia)). apply HA. unfold alive.
    destruct (owner M (unptr M b + Z.of_nat i)); [discriminate|reflexivity]. }
  destruct (v_kind e) eqn:EK; try (split; [exact HN|exact HO]). destruct (v_sym e) as [s|] eqn:ES; [|split; [exact HN|exact HO]].
  split; [reflexivity|]. intros a H. cbn zeta in H. destruct (belongs tab M s (loc M s + v_offset e) va_list_size) eqn:EB; [|discriminate]. injection H as <-.
  eapply bytes_belongs; [exact EB| |exact HA]. unfold set_use_bit in HS. rewrite EK, ES, (belongs_object _ _ _ EB) in HS. exact HS.
Qed.

Lemma eval_agree e L c c' : sub (use e) L -> like L c c' -> alike L (eval tab M e c) (eval tab M e c').
Proof.
  intros HS (H1 & H2 & H3 & H4 & H5). pose proof (pure_agree e L _ _ HS H4) as HP.
  assert (HL : sub (use_bit (e_l e)) L) by (unfold OptModel.use in HS; apply sub_lor in HS as [_ HL]; exact HL).
  assert (HD : alike L (match c_ps c, pure tab M e (c_m c) with [], Some v => Goes v c | _, _ => Fails end) (match c_ps c', pure tab M e (c_m c') with [], Some v => Goes v c' | _, _ => Fails end)).
  { rewrite <- HP, <- H2. destruct (c_ps c) as [|? ?] eqn:EPS; [|exact Logic.I]. destruct (pure tab M e (c_m c)); [|exact Logic.I]. cbn [alike].
    split; [reflexivity|]. repeat split; auto; [congruence|]. intros Hg. exfalso. rewrite EPS in Hg. exact (no_pointer Hg). }
  unfold eval. destruct (e_op e); try exact HD.
  - rewrite (value_agree _ _ _ _ HL H4). destruct (value tab M (c_m c') (e_l e)) as [f|]; [|exact Logic.I]. cbn zeta. rewrite <- H1, <- H2.
    pose proof (law_call tab M Hlaw (c_w c) (e_type e) f (c_ps c) (c_m c) (c_m c') H5 (agree_outside _ _ _ H4)) as HC.
    assert (HT : same_trace M (mkEvent f (c_ps c) (c_m c) :: c_tr c) (mkEvent f (c_ps c) (c_m c') :: c_tr c')).
    { constructor; [|exact H3]. eapply event_like; eassumption. }
    destruct (call M (c_w c) (e_type e) f (c_ps c) (c_m c)) as [w m v| |], (call M (c_w c) (e_type e) f (c_ps c) (c_m c')) as [w' m' v'| |]; cbn [same_outcome alike] in *; try contradiction; auto.
    destruct HC as (-> & -> & HC). split; [reflexivity|]. unfold like. cbn [c_w c_ps c_tr c_m]. repeat split; auto.
    + intros a Ha. apply HC, H4, Ha.
    + intros Hg. exfalso. exact (no_pointer Hg).
  - rewrite <- H2. destruct (c_ps c) as [|? ?] eqn:EPS; [|exact Logic.I]. destruct (list_place_agree _ _ _ _ HL H4) as [HE HB]. rewrite HE.
    destruct (list_place tab M (c_m c') (e_l e)) as [a|]; [|exact Logic.I]. rewrite (HB a eq_refl).
    rewrite (law_va tab M Hlaw _ _ (c_m c) (c_m c') (agree_outside _ _ _ H4)). destruct (va_next M _ _ _) as [[v l]|]; [|exact Logic.I].
    destruct (_ =? _)%nat; [|exact Logic.I]. cbn [alike]. split; [reflexivity|]. unfold like, with_mem. cbn [c_w c_ps c_tr c_m]. repeat split; auto; [congruence| |].
    + intros x Hx. apply write_same, H4, Hx.
    + rewrite EPS. intros Hg. exfalso. exact (no_pointer Hg).
Qed.

(* what an assignment of the same value at the same place does *)
Lemma nth_bytes m a n i : (i < n)%nat -> nth i (bytes_at m a n) 0 = m (a + Z.of_nat i).
Proof.
  intros H. unfold bytes_at. rewrite (nth_indep _ 0 (m (a + Z.of_nat 0))) by (rewrite map_length, seq_length; exact H).
  rewrite (map_nth (fun i => m (a + Z.of_nat i)) (seq 0 n) O i). rewrite seq_nth by exact H. reflexivity.
Qed.
Lemma length_bytes m a n : length (bytes_at m a n) = n. Proof. unfold bytes_at. rewrite map_length, seq_length. reflexivity. Qed.
Lemma length_set_field w o v l : length (set_field w o v l) = length l. Proof. unfold set_field. rewrite map_length, seq_length. reflexivity. Qed.
Lemma store_pointwise m m' v b m1 m1' : place tab M m v = place tab M m' v -> store tab M m v b = Some m1 -> store tab M m' v b = Some m1' ->
  forall x, m x = m' x -> m1 x = m1' x.
Proof.
  intros HP. unfold store. rewrite <- HP. destruct (place tab M m v) as [a|]; [|discriminate]. destruct (is_object (v_type v) && (length b =? size (v_type v))%nat) eqn:EL; [|discriminate].
  apply andb_true_iff in EL as [_ EL]. apply Nat.eqb_eq in EL. intros H H' x Hx. injection H as <-. injection H' as <-. destruct (v_width v =? 0); [apply write_same, Hx|].
  unfold write. rewrite !length_set_field, !length_bytes. destruct ((a <=? x) && (x <? a + Z.of_nat (size (v_type v)))) eqn:EX; [|exact Hx].
  apply andb_true_iff in EX as [E1 E2]. apply Z.leb_le in E1. apply Z.ltb_lt in E2.
  unfold set_field. rewrite !length_bytes.
  set (i := Z.to_nat (x - a)). assert (Hi : (i < size (v_type v))%nat) by (unfold i; lia).
  rewrite !(nth_indep _ 0 (field_byte (v_width v) (v_foff v) b 0 0)) by (rewrite map_length, seq_length; exact Hi).
  assert (HN : forall mm : mem, nth i (map (fun i0 => field_byte (v_width v) (v_foff v) b i0 (nth i0 (bytes_at mm a (size (v_type v))) 0)) (seq 0 (size (v_type v)))) (field_byte (v_width v) (v_foff v) b 0 0)
     = field_byte (v_width v) (v_foff v) b i (mm x)).
  { intros mm. set (f := fun i0 => field_byte (v_width v) (v_foff v) b i0 (nth i0 (bytes_at mm a (size (v_type v))) 0)).
    rewrite (nth_indep _ _ (f O)) by (rewrite map_length, seq_length; exact Hi). rewrite (map_nth f). rewrite seq_nth by exact Hi. unfold f. cbn [Nat.add].
    rewrite nth_bytes by exact Hi. do 2 f_equal. unfold i. lia. }
  rewrite !HN, Hx. reflexivity.
Qed.
Lemma store_some m m' v b : place tab M m v = place tab M m' v -> store tab M m v b = None <-> store tab M m' v b = None.
Proof. intros HP. unfold store. rewrite <- HP. destruct (place tab M m v); [|tauto]. destruct (_ && _); split; congruence. Qed.

Notation defs := (defs tab symbols). Notation uses := (uses tab symbols).
Definition before_of (o : Z) (s : stmt) : Z := Z.lor (Z.ldiff o (defs s)) (uses s).
Lemma before_out s : before tab symbols s = before_of (st_out s) s. Proof. reflexivity. Qed.

(* all of a scalar is written *)
Lemma store_whole s m b m1 x a : whole tab s -> st_st s = IR_ASSIGN -> v_kind (st_t s) = DIRECT -> v_sym (st_t s) = Some x -> is_scalar (s_type (tab x)) = true ->
  store tab M m (st_t s) b = Some m1 -> owner M a = Some x -> m1 a = nth (Z.to_nat (a - loc M x)) b 0.
Proof.
  intros HW HA HK HX HSc HS HO. destruct (HW HA HK x HX HSc) as (H1 & H2 & H3). destruct (law_owner tab M Hlaw a x HO) as [_ HR].
  unfold store, place in HS. rewrite HK, HX in HS. cbn zeta in HS. rewrite H1, Z.add_0_r in HS. destruct (belongs tab M x (loc M x) (size (v_type (st_t s)))); [|discriminate].
  destruct (is_object (v_type (st_t s)) && (length b =? size (v_type (st_t s)))%nat) eqn:EL; [|discriminate]. apply andb_true_iff in EL as [_ EL]. apply Nat.eqb_eq in EL. rewrite H2 in HS. cbn [Z.eqb] in HS. injection HS as <-.
  rewrite write_in; [reflexivity|]. rewrite EL. unfold size. rewrite H3. lia.
Qed.
Lemma store_agree s o L m m' b m1 m1' : whole tab s -> st_st s = IR_ASSIGN -> sub (Z.ldiff o (defs s)) L -> agree L m m' ->
  place tab M m (st_t s) = place tab M m' (st_t s) ->
  store tab M m (st_t s) b = Some m1 -> store tab M m' (st_t s) b = Some m1' -> agree o m1 m1'.
Proof.
  intros HW HA HS HG HP H H' a Ha. destruct (alive (Z.ldiff o (defs s)) a) eqn:EA.
  - apply (store_pointwise m m' _ b m1 m1' HP H H'). apply HG. eapply alive_sub; eassumption.
  - unfold alive in *. destruct (owner M a) as [x|] eqn:EO; [|discriminate]. destruct (index x) as [i|] eqn:EI; [|discriminate].
    rewrite Z.ldiff_spec, Ha in EA. apply negb_false_iff in EA. unfold OptModel.defs in EA. rewrite HA in EA. unfold set_def_bit in EA.
    destruct (v_kind (st_t s)) eqn:EK; try (rewrite Z.bits_0 in EA; discriminate). destruct (v_sym (st_t s)) as [y|] eqn:EY; [|rewrite Z.bits_0 in EA; discriminate].
    destruct (is_scalar (s_type (tab y))) eqn:ES; [|rewrite Z.bits_0 in EA; discriminate]. apply bit_only in EA. pose proof (index_from_inj _ _ _ _ _ EI EA) as ->.
    rewrite (store_whole s m b m1 y a HW HA EK EY ES H EO), (store_whole s m' b m1' y a HW HA EK EY ES H' EO). reflexivity.
Qed.

Lemma eval_ps e c v c1 : eval tab M e c = Goes v c1 -> c_ps c1 = [].
Proof.
  unfold eval. destruct (e_op e); try (destruct (c_ps c) eqn:E; [|discriminate]; destruct (pure tab M e (c_m c)); [|discriminate]; intros H; injection H as _ <-; exact E).
  - destruct (value tab M (c_m c) (e_l e)); [|discriminate]. destruct (call M _ _ _ _ _); try discriminate. intros H. injection H as _ <-. reflexivity.
  - destruct (c_ps c) eqn:E; [|discriminate]. destruct (list_place tab M (c_m c) (e_l e)); [|discriminate]. destruct (va_next M _ _ _) as [[? ?]|]; [|discriminate].
    destruct (_ =? _)%nat; [|discriminate]. intros H. injection H as _ <-. exact E.
Qed.
Lemma uses_split s : exists r, uses s = Z.lor (use (st_expr s)) r \/ (uses s = use (st_expr s) /\ r = 0).
Proof.
  unfold OptModel.uses. destruct (st_st s).
  all: try (exists 0; right; split; reflexivity).
  - destruct (is_or_has_pointer _); [exists ALL; left; reflexivity|exists 0; right; split; reflexivity].
  - destruct (v_kind (st_t s)), (v_sym (st_t s)); try (exists 0; right; split; reflexivity). eexists. left. reflexivity.
Qed.
Lemma uses_expr_sub s L : sub (uses s) L -> sub (use (st_expr s)) L.
Proof. intros H. destruct (uses_split s) as [r [E|[E _]]]; rewrite E in H; [apply sub_lor in H as [H _]|]; exact H. Qed.
Lemma uses_target s L : st_st s = IR_ASSIGN -> sub (uses s) L -> sub (target_bit (st_t s)) L.
Proof.
  intros HA H. unfold OptModel.uses in H. rewrite HA in H. unfold target_bit. destruct (v_kind (st_t s)); try apply sub_0.
  destruct (v_sym (st_t s)); [|apply sub_0]. apply sub_lor in H as [_ H]. exact H.
Qed.
Lemma ldiff_0 o : Z.ldiff o 0 = o. Proof. apply Z.bits_inj'. intros i Hi. rewrite Z.ldiff_spec, Z.bits_0. apply andb_true_r. Qed.

Lemma step_agree s o L c c' : whole tab s -> plain_param s -> sub (before_of o s) L -> like L c c' -> alike o (step tab M s c) (step tab M s c').
Proof.
  intros HW HPl HS HL. unfold before_of in HS. apply sub_lor in HS as [HD HU]. pose proof (uses_expr_sub s L HU) as HUE.
  assert (HO : st_st s <> IR_ASSIGN -> sub o L).
  { intros N. unfold OptModel.defs in HD. destruct (st_st s); try (rewrite ldiff_0 in HD; exact HD). contradiction. }
  unfold step. destruct (st_st s) eqn:EST.
  - pose proof (eval_agree _ _ _ _ HUE HL) as HE. specialize (HO ltac:(discriminate)).
    destruct (eval tab M (st_expr s) c), (eval tab M (st_expr s) c'); cbn [alike bind] in *; try contradiction; auto. destruct HE as [_ HE]. split; [reflexivity|].
    eapply like_sub; eassumption.
  - specialize (HO ltac:(discriminate)). destruct HL as (H1 & H2 & H3 & H4 & H5). rewrite <- (pure_agree _ _ _ _ HUE H4).
    destruct (pure tab M (st_expr s) (c_m c)) as [v|]; [|exact Logic.I]. cbn [alike]. split; [reflexivity|]. unfold like. cbn [c_w c_ps c_tr c_m].
    repeat split; auto; [congruence|eapply agree_sub; eassumption|].
    intros (p & Hin & Hp). apply in_app_or in Hin as [Hin|[<-|[]]]; [apply H5; exists p; split; assumption|]. cbn [fst] in Hp.
    unfold OptModel.uses in HU. rewrite EST in HU. rewrite (plain_pointer _ (HPl EST) Hp) in HU. apply sub_lor in HU as [_ HU]. apply (agree_all L); assumption.
  - specialize (HO ltac:(discriminate)). destruct HL as (H1 & H2 & H3 & H4 & H5). rewrite <- H2. destruct (c_ps c) as [|? ?] eqn:EPS; [|exact Logic.I].
    assert (HPL : place tab M (c_m c) (e_l (st_expr s)) = place tab M (c_m c') (e_l (st_expr s))).
    { apply place_agree with L; [|exact H4]. assert (HX : sub (use_bit (e_l (st_expr s))) L) by (unfold OptModel.use in HUE; apply sub_lor in HUE as [_ HX]; exact HX).
      unfold target_bit. destruct (v_kind (e_l (st_expr s))) eqn:EK; try apply sub_0. destruct (v_sym (e_l (st_expr s))); [|apply sub_0]. apply sub_all. unfold set_use_bit in HX.
      rewrite EK in HX. exact HX. }
    rewrite <- HPL. destruct (place tab M (c_m c) _) as [a|]; [|exact Logic.I]. destruct (_ =? _)%nat; [|exact Logic.I]. cbn [alike]. split; [reflexivity|].
    unfold like, with_mem. cbn [c_w c_ps c_tr c_m]. repeat split; auto; [congruence| |rewrite EPS; intros Hg; exfalso; exact (no_pointer Hg)].
    intros x Hx. apply write_same, H4. eapply alive_sub; eassumption.
  - pose proof (eval_agree _ _ _ _ HUE HL) as HE.
    destruct (eval tab M (st_expr s) c) as [v c1|t|] eqn:E1, (eval tab M (st_expr s) c') as [v' c1'|t'|] eqn:E2; cbn [alike bind] in *; try contradiction; auto.
    destruct HE as [<- (H1 & H2 & H3 & H4 & H5)].
    pose proof (place_agree (st_t s) L _ _ (uses_target s L EST HU) H4) as HPL.
    set (b := conv M (v_type (st_t s)) (e_type (st_expr s)) v).
    destruct (store tab M (c_m c1) (st_t s) b) as [m1|] eqn:S1; [|exact Logic.I].
    destruct (store tab M (c_m c1') (st_t s) b) as [m1'|] eqn:S2; [|apply (store_some _ _ _ _ HPL) in S2; congruence].
    cbn [alike]. split; [reflexivity|]. unfold like, with_mem. cbn [c_w c_ps c_tr c_m]. repeat split; auto.
    + eapply store_agree; eassumption.
    + rewrite (eval_ps _ _ _ _ E1). intros Hg. exfalso. exact (no_pointer Hg).
  - exact Logic.I.
Qed.

(* --- lists of statements --- *)
Fixpoint sound (Lin : Z) (l : list stmt) (outs : list Z) (Lend : Z) : Prop :=
  match l, outs with
  | [], [] => sub Lend Lin
  | s :: l, o :: outs => sub (before_of o s) Lin /\ sound o l outs Lend
  | _, _ => False
  end.
Lemma sound_sub Lin Lin' l outs Lend : sub Lin Lin' -> sound Lin l outs Lend -> sound Lin' l outs Lend.
Proof. intros H. destruct l, outs; cbn [sound]; auto; [intros H'; eapply sub_trans; eassumption|]. intros [H1 H2]. split; [eapply sub_trans; eassumption|exact H2]. Qed.
Lemma sound_app l1 : forall Lin l2 outs Lend, sound Lin (l1 ++ l2) outs Lend ->
  exists o1 o2 L, outs = o1 ++ o2 /\ length o1 = length l1 /\ sound Lin l1 o1 L /\ sound L l2 o2 Lend.
Proof.
  induction l1 as [|s l1 IH]; intros Lin l2 outs Lend H; cbn [app] in H.
  - exists [], outs, Lin. repeat split; [apply sub_refl|exact H].
  - destruct outs as [|o outs]; [contradiction|]. cbn [sound] in H. destruct H as [H1 H2]. destruct (IH _ _ _ _ H2) as (o1 & o2 & L & -> & EL & H3 & H4).
    exists (o :: o1), o2, L. cbn [sound length app]. repeat split; auto.
Qed.
Lemma sound_join l1 : forall Lin l2 o1 o2 L Lend, sound Lin l1 o1 L -> sound L l2 o2 Lend -> sound Lin (l1 ++ l2) (o1 ++ o2) Lend.
Proof.
  induction l1 as [|s l1 IH]; intros Lin l2 o1 o2 L Lend H H'; destruct o1 as [|o o1]; cbn [sound app] in *; try contradiction.
  - eapply sound_sub; eassumption.
  - destruct H as [H1 H2]. split; [exact H1|eapply IH; eassumption].
Qed.
Lemma alike_bind {A B} L L' (r r' : result A) (f f' : A -> conf -> result B) : alike L r r' ->
  (forall v c c', like L c c' -> alike L' (f v c) (f' v c')) -> alike L' (bind r f) (bind r' f').
Proof. intros H HF. destruct r, r'; cbn [alike bind] in *; try contradiction; auto. destruct H as [<- H]. apply HF, H. Qed.
Lemma steps_agree l : forall Lin outs Lend c c', Forall (whole tab) l -> Forall plain_param l -> sound Lin l outs Lend -> like Lin c c' ->
  alike Lend (steps tab M l c) (steps tab M l c').
Proof.
  induction l as [|s l IH]; intros Lin outs Lend c c' HW HP HS HL; destruct outs as [|o outs]; cbn [sound] in HS; try contradiction; cbn [steps].
  - cbn [alike]. split; [reflexivity|eapply like_sub; eassumption].
  - destruct HS as [H1 H2]. inversion HW; subst. inversion HP; subst. eapply alike_bind; [eapply step_agree; eassumption|]. intros _ c1 c1' H. eapply IH; eassumption.
Qed.
Lemma steps_app l1 l2 c : steps tab M (l1 ++ l2) c = bind (steps tab M l1 c) (fun _ c => steps tab M l2 c).
Proof.
  revert c. induction l1 as [|s l1 IH]; intros c; cbn [app steps bind]; [reflexivity|]. destruct (step tab M s c); cbn [bind]; [apply IH|reflexivity|reflexivity].
Qed.
Lemma trace_refl (t : list event) : same_trace M t t.
Proof. induction t; constructor; [|assumption]. repeat split. Qed.
Lemma like_refl L c : like L c c. Proof. repeat split; auto. apply trace_refl. Qed.
Lemma alike_refl {A} L (r : result A) : alike L r r. Proof. destruct r; cbn [alike]; auto; [split; [reflexivity|apply like_refl]|apply trace_refl]. Qed.

(* --- the two transformations of statements --- *)
(* a store to an object that is not live after *)
Definition dead (s : stmt) (o : Z) : Prop :=
  st_st s = IR_ASSIGN /\ v_kind (st_t s) = DIRECT /\ exists x i, v_sym (st_t s) = Some x /\ s_none (tab x) = true /\ index x = Some i /\ Z.testbit o (Z.of_nat i) = false.
Lemma store_dead s o m b m1 : dead s o -> store tab M m (st_t s) b = Some m1 -> agree o m1 m.
Proof.
  intros (HA & HK & x & i & HX & HN & HI & HT) H a Ha. unfold store, place in H. rewrite HK, HX in H. cbn zeta in H.
  destruct (belongs tab M x (loc M x + v_offset (st_t s)) (size (v_type (st_t s)))) eqn:EB; [|discriminate].
  destruct (is_object (v_type (st_t s)) && (length b =? size (v_type (st_t s)))%nat) eqn:EL; [|discriminate]. apply andb_true_iff in EL as [_ EL]. apply Nat.eqb_eq in EL. injection H as <-.
  destruct (Z_le_dec (loc M x + v_offset (st_t s)) a) as [H1|H1]; [|apply write_out; lia].
  destruct (Z_lt_dec a (loc M x + v_offset (st_t s) + Z.of_nat (size (v_type (st_t s))))) as [H2|H2].
  - exfalso. pose proof (belongs_owner x _ _ (Z.to_nat (a - (loc M x + v_offset (st_t s)))) EB ltac:(lia)) as HO. rewrite HN in HO.
    replace (loc M x + v_offset (st_t s) + Z.of_nat (Z.to_nat (a - (loc M x + v_offset (st_t s))))) with a in HO by lia.
    unfold alive in Ha. rewrite HO, HI, HT in Ha. discriminate.
  - apply write_out. destruct (v_width (st_t s) =? 0); [lia|]. rewrite length_set_field, length_bytes. lia.
Qed.
Lemma dead_defs s o : dead s o -> sub o (Z.ldiff o (defs s)).
Proof.
  intros (HA & HK & x & i & HX & HN & HI & HT) j Hj Hb. rewrite Z.ldiff_spec, Hb. apply negb_true_iff. unfold OptModel.defs. rewrite HA. unfold set_def_bit. rewrite HK, HX.
  destruct (is_scalar (s_type (tab x))); [|apply Z.bits_0]. destruct (Z.testbit (bit x) (Z.of_nat j)) eqn:E; [|reflexivity]. apply bit_only in E. congruence.
Qed.
Lemma like_store L o c c' m : like L c c' -> sub o L -> c_ps c = [] -> agree o m (c_m c) -> like o (with_mem c m) c'.
Proof.
  intros (H1 & H2 & H3 & H4 & H5) HS HPS HA. unfold like, with_mem. cbn [c_w c_ps c_tr c_m]. repeat split; auto.
  - intros a Ha. rewrite (HA a Ha). apply H4. eapply alive_sub; eassumption.
  - rewrite HPS. intros Hg. exfalso. exact (no_pointer Hg).
Qed.
Lemma dead_to_expr s o L c c' : dead s o -> sub (before_of o s) L -> like L c c' -> alike o (step tab M s c) (step tab M (to_expr s) c').
Proof.
  intros HD HS HL. pose proof (dead_defs s o HD) as HDS. assert (EST : st_st s = IR_ASSIGN) by apply HD. apply sub_lor in HS as [HS HU].
  unfold step, to_expr. rewrite EST. cbn [st_st st_expr]. pose proof (eval_agree _ _ _ _ (uses_expr_sub s L HU) HL) as HE.
  destruct (eval tab M (st_expr s) c) as [v c1|t|] eqn:E1, (eval tab M (st_expr s) c') as [v' c1'|t'|] eqn:E2; cbn [alike bind] in *; try contradiction; auto.
  - destruct HE as [<- HE]. destruct (store tab M (c_m c1) (st_t s) _) as [m1|] eqn:S1; [|exact Logic.I]. cbn [alike]. split; [reflexivity|].
    apply like_store with L; [exact HE|eapply sub_trans; eassumption|eapply eval_ps, E1|eapply store_dead; eassumption].
Qed.
Lemma dead_erase s o L c c' : dead s o -> has_side_effects (st_expr s) = false -> sub (before_of o s) L -> like L c c' ->
  alike o (step tab M s c) (Goes tt c').
Proof.
  intros HD HE HS HL. pose proof (dead_defs s o HD) as HDS. assert (EST : st_st s = IR_ASSIGN) by apply HD. apply sub_lor in HS as [HS HU].
  unfold step. rewrite EST. assert (HV : eval tab M (st_expr s) c = match c_ps c, pure tab M (st_expr s) (c_m c) with [], Some v => Goes v c | _, _ => Fails end).
  { unfold eval. unfold has_side_effects in HE. destruct (e_op (st_expr s)); try discriminate; reflexivity. }
  rewrite HV. destruct (c_ps c) eqn:EPS; [|exact Logic.I]. destruct (pure tab M (st_expr s) (c_m c)) as [v|]; [|exact Logic.I]. cbn [bind].
  destruct (store tab M (c_m c) (st_t s) _) as [m1|] eqn:S1; [|exact Logic.I]. cbn [alike]. split; [reflexivity|].
  apply like_store with L; [exact HL|eapply sub_trans; eassumption|exact EPS|eapply store_dead; eassumption].
Qed.

(* t1 = e; t2 = t1, where t1 is not live after *)
Definition merged (s1 s2 : stmt) : stmt := mkStmt (st_st s1) (st_out s1) (st_t s2) (st_expr s1).
Definition merges (s1 s2 : stmt) (o : Z) : Prop :=
  st_st s1 = IR_ASSIGN /\ st_st s2 = IR_ASSIGN /\ e_op (st_expr s2) = CAST /\ e_type (st_expr s2) = v_type (e_l (st_expr s2)) /\
  v_type (st_t s1) = v_type (e_l (st_expr s2)) /\ v_sym (st_t s1) = v_sym (e_l (st_expr s2)) /\ v_kind (e_l (st_expr s2)) = DIRECT /\
  v_width (e_l (st_expr s2)) = 0 /\ v_offset (st_t s1) = v_offset (e_l (st_expr s2)) /\ v_type (st_t s1) = v_type (st_t s2) /\ v_kind (st_t s1) = DIRECT /\ v_width (st_t s1) = 0 /\
  exists x i, v_sym (st_t s1) = Some x /\ s_none (tab x) = true /\ index x = Some i /\ Z.testbit o (Z.of_nat i) = false.
Definition other (s1 s2 : stmt) : Prop := ~ (v_kind (st_t s2) = DEREF /\ exists x, v_sym (st_t s1) = Some x /\ v_sym (st_t s2) = Some x).

(* memory that differs only in x *)
Lemma agree_store_place s1 s2 o m b m1 : merges s1 s2 o -> other s1 s2 -> store tab M m (st_t s1) b = Some m1 -> place tab M m1 (st_t s2) = place tab M m (st_t s2).
Proof.
  intros (HA1 & _ & _ & _ & _ & _ & _ & _ & _ & _ & HK & _ & x & i & HX & HN & HI & _) HO HS.
  assert (HD : dead s1 (Z.ldiff ALL (bit x))).
  { split; [exact HA1|]. split; [exact HK|]. exists x, i. repeat split; auto. rewrite Z.ldiff_spec, (bit_spec x i HI). apply andb_false_r. }
  pose proof (store_dead s1 _ m b m1 HD HS) as HG. unfold place. destruct (v_kind (st_t s2)) eqn:EK; try reflexivity. f_equal. unfold pointer.
  destruct (v_sym (st_t s2)) as [p|] eqn:EP; [|reflexivity]. destruct (belongs tab M p (loc M p) 8) eqn:EB; [|reflexivity]. do 2 f_equal.
  apply bytes_belongs with p (Z.ldiff ALL (bit x)); [exact EB| |exact HG]. intros j Hj Hb. rewrite Z.ldiff_spec, (all_bits j Hj). cbn [andb]. apply negb_true_iff.
  destruct (Z.testbit (bit x) (Z.of_nat j)) eqn:E; [|reflexivity]. exfalso. apply bit_only in E, Hb. pose proof (index_from_inj _ _ _ _ _ E Hb) as ->.
  apply HO. split; [exact EK|]. exists p. split; [exact HX|exact EP].
Qed.
Lemma write_read m a b : bytes_at (write m a b) a (length b) = b.
Proof.
  apply nth_ext with 0 0; [apply length_bytes|]. intros i Hi. rewrite length_bytes in Hi. rewrite nth_bytes by exact Hi.
  rewrite write_in by lia. f_equal. lia.
Qed.

Lemma merge_step s1 s2 o1 o L c c' : whole tab s1 -> whole tab s2 -> merges s1 s2 o -> other s1 s2 ->
  sub (before_of o1 s1) L -> sub (before_of o s2) o1 -> like L c c' ->
  alike o (steps tab M [s1; s2] c) (step tab M (merged s1 s2) c').
Proof.
  intros HW1 HW2 HM HOth HS1 HS2 HL. pose proof HM as HM0.
  destruct HM as (HA1 & HA2 & HC & HT2 & HT & HSY & HK2 & HWd2 & HOf & HTT & HK1 & HWd & x & i & HX & HN & HI & HTB).
  apply sub_lor in HS1 as [HD1 HU1]. apply sub_lor in HS2 as [HD2 HU2].
  cbn [steps]. unfold step at 1. rewrite HA1. unfold step at 2, merged. cbn [st_st st_expr st_t]. rewrite HA1.
  pose proof (eval_agree _ _ _ _ (uses_expr_sub s1 L HU1) HL) as HE.
  destruct (eval tab M (st_expr s1) c) as [v c1|t|] eqn:E1, (eval tab M (st_expr s1) c') as [v' c1'|t'|] eqn:E2; cbn [alike bind] in *; try contradiction; auto.
  destruct HE as [<- HE]. rewrite <- HTT. set (b := conv M (v_type (st_t s1)) (e_type (st_expr s1)) v).
  destruct (store tab M (c_m c1) (st_t s1) b) as [m1|] eqn:S1; [|exact Logic.I]. cbn [bind].
  pose proof (eval_ps _ _ _ _ E1) as HPS.
  (* the second statement reads b *)
  assert (HR : value tab M m1 (e_l (st_expr s2)) = Some b).
  { unfold store, place in S1. rewrite HK1, HX in S1. cbn zeta in S1. destruct (belongs tab M x (loc M x + v_offset (st_t s1)) (size (v_type (st_t s1)))) eqn:EB; [|discriminate].
    destruct (is_object (v_type (st_t s1)) && (length b =? size (v_type (st_t s1)))%nat) eqn:EL; [|discriminate]. apply andb_true_iff in EL as [EO EL]. apply Nat.eqb_eq in EL.
    rewrite HWd in S1. cbn [Z.eqb] in S1. injection S1 as <-.
    unfold value, place. rewrite HK2, <- HSY, HX, <- HT, <- HOf, EB, HWd2, <- EL. cbn [Z.eqb option_map]. cbn zeta. rewrite write_read.
    destruct (v_type (st_t s1)); [reflexivity..|discriminate]. }
  unfold step. rewrite HA2. unfold eval. rewrite HC. unfold with_mem at 1 2. cbn [c_ps c_m]. rewrite HPS. unfold pure. rewrite HC, HR. cbn [option_map bind].
  rewrite HT2, <- HTT, HT, !(law_conv tab M Hlaw). unfold with_mem at 1. cbn [c_m].
  pose proof (agree_store_place s1 s2 o _ b m1 HM0 HOth S1) as HP1.
  assert (HU : sub (target_bit (st_t s2)) L).
  { assert (HX1 : sub (target_bit (st_t s2)) o1) by (apply uses_target; assumption). intros j Hj Hb. apply HD1; [exact Hj|]. rewrite Z.ldiff_spec, (HX1 j Hj Hb). cbn [andb]. apply negb_true_iff.
    unfold OptModel.defs. rewrite HA1. unfold set_def_bit. rewrite HK1, HX. destruct (is_scalar (s_type (tab x))); [|apply Z.bits_0].
    destruct (Z.testbit (bit x) (Z.of_nat j)) eqn:E; [|reflexivity]. exfalso. unfold target_bit in Hb. destruct (v_kind (st_t s2)) eqn:EK; try (rewrite Z.bits_0 in Hb; discriminate).
    destruct (v_sym (st_t s2)) as [p|] eqn:EP; [|rewrite Z.bits_0 in Hb; discriminate]. unfold set_use_bit, with_kind in Hb. cbn [v_kind v_sym] in Hb. rewrite EP in Hb.
    destruct (is_object (s_type (tab p))); [|rewrite Z.bits_0 in Hb; discriminate]. apply bit_only in E, Hb. pose proof (index_from_inj _ _ _ _ _ E Hb) as ->.
    apply HOth. split; [exact EK|]. exists p. split; [exact HX|exact EP]. }
  destruct HE as (G1 & G2 & G3 & G4 & G5). pose proof (place_agree (st_t s2) L _ _ HU G4) as HP2.
  assert (HP : place tab M m1 (st_t s2) = place tab M (c_m c1') (st_t s2)) by congruence.
  destruct (store tab M m1 (st_t s2) b) as [m2|] eqn:S2; [|exact Logic.I].
  destruct (store tab M (c_m c1') (st_t s2) b) as [m2'|] eqn:S2'; [|apply (store_some _ _ _ _ HP) in S2'; congruence].
  cbn [alike bind]. split; [reflexivity|]. unfold like, with_mem. cbn [c_w c_ps c_tr c_m]. repeat split; auto.
  - (* memory: m1 agrees with c1' where L without x does *)
    assert (HD : dead s1 o) by (split; [exact HA1|]; split; [exact HK1|]; exists x, i; repeat split; assumption).
    assert (HA : agree (Z.ldiff o (defs s2)) m1 (c_m c1')).
    { intros a Ha. rewrite (store_dead s1 o _ _ _ HD S1 a); [apply G4|]; revert Ha; apply alive_sub.
      - intros j Hj Hb. apply HD1; [exact Hj|]. rewrite Z.ldiff_spec, (HD2 j Hj Hb). cbn [andb]. rewrite Z.ldiff_spec in Hb. apply andb_true_iff in Hb as [Hb _].
        pose proof (dead_defs s1 o HD j Hj Hb) as Hc. rewrite Z.ldiff_spec, Hb in Hc. exact Hc.
      - intros j Hj Hb. rewrite Z.ldiff_spec in Hb. apply andb_true_iff in Hb as [Hb _]. exact Hb. }
    eapply (store_agree s2 o _ m1 (c_m c1') b m2 m2' HW2 HA2); [apply sub_refl|exact HA|exact HP|exact S2|exact S2'].
  - rewrite HPS. intros Hg. exfalso. exact (no_pointer Hg).
Qed.
End Live.
