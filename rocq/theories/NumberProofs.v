From Coq Require Import List ZArith Lia Bool.
From Verif Require Import EscModel EscProofs TokenizeModel TokenizeSpec TokenizeProofs NumberModel NumberSpec.
Import ListNotations.
Open Scope Z_scope.

Lemma isoctal_iff c : isoctal c = true <-> oct c.
Proof. unfold isoctal, oct. rewrite andb_true_iff, Z.leb_le, Z.ltb_lt. lia. Qed.
Lemma isxdigit_hex c : isxdigit c = true <-> hex c.
Proof. unfold isxdigit, isdigit, hex, digit. rewrite !orb_true_iff, !andb_true_iff, !Z.leb_le. lia. Qed.
Lemma bfalse (p : Z -> bool) (P : Z -> Prop) : (forall c, p c = true <-> P c) -> forall c, ~ P c -> p c = false.
Proof. intros H c Hc. destruct (p c) eqn:E; [apply H in E; contradiction|reflexivity]. Qed.
Lemma Forall_b (p : Z -> bool) (P : Z -> Prop) l : (forall c, p c = true <-> P c) -> Forall P l -> Forall (fun c => p c = true) l.
Proof. intros H HF. eapply Forall_impl; [|exact HF]. intros c Hc. apply H, Hc. Qed.
Lemma Forall_unb (p : Z -> bool) (P : Z -> Prop) l : (forall c, p c = true <-> P c) -> Forall (fun c => p c = true) l -> Forall P l.
Proof. intros H HF. eapply Forall_impl; [|exact HF]. intros c Hc. apply H, Hc. Qed.

Lemma numeral_digit_val c : hex c -> digit_val c = numeral c.
Proof.
  unfold hex, digit, digit_val, numeral, isdigit. intro H.
  destruct (Z.leb_spec 48 c), (Z.leb_spec c 57), (Z.leb_spec c 70); cbn [andb]; lia.
Qed.
Lemma numeral_pos c : hex c -> 0 <= numeral c < 16.
Proof. unfold hex, digit, numeral. intro H. destruct (Z.leb_spec c 57), (Z.leb_spec c 70); lia. Qed.

Lemma digits_val_spec b ds : 0 < b -> Forall hex ds -> forall acc,
  digits_val b acc ds = acc * b ^ Z.of_nat (length ds) + value b ds.
Proof.
  intros Hb H. induction H as [|d ds Hd Hs IH]; intro acc.
  - cbn [digits_val value length]. change (Z.of_nat 0) with 0. rewrite Z.pow_0_r. lia.
  - cbn [digits_val value length]. rewrite IH, numeral_digit_val by exact Hd.
    rewrite Nat2Z.inj_succ, Z.pow_succ_r by lia. ring.
Qed.

Lemma value_nonneg b ds : 0 < b -> Forall hex ds -> 0 <= value b ds.
Proof.
  intros Hb H. induction H as [|d ds Hd Hs IH]; cbn [value]; [lia|].
  pose proof (numeral_pos d Hd). pose proof (Z.pow_nonneg b (Z.of_nat (length ds)) ltac:(lia)). nia.
Qed.

Lemma digit_hex c : digit c -> hex c. Proof. unfold hex; tauto. Qed.
Lemma oct_hex c : oct c -> hex c. Proof. unfold hex, oct, digit; lia. Qed.

Lemma Digits_hex b ds w : Digits b ds w -> Forall hex ds.
Proof.
  destruct 1 as [d ds Hd H|ds H|x ds Hx H Hne].
  - constructor; [left; unfold digit; lia|]. eapply Forall_impl; [apply digit_hex|exact H].
  - constructor; [left; unfold digit; lia|]. eapply Forall_impl; [apply oct_hex|exact H].
  - exact H.
Qed.

(* what may follow the digits: nothing that the digit scanner would take *)
Definition stops (rest : list Z) : Prop := match rest with c :: _ => ~ hex c /\ c <> 120 /\ c <> 88 | [] => True end.

Lemma strtoul0_digits b ds w rest : Digits b ds w -> stops rest ->
  strtoul0 (w ++ rest) =
  if ULONG_MAX <? value (radix b) ds then (ULONG_MAX, true, rest) else (value (radix b) ds, false, rest).
Proof.
  intros H Hr. pose proof (Digits_hex _ _ _ H) as Hx.
  assert (N : forall p P, (forall c, p c = true <-> P c) -> (forall c, P c -> hex c) ->
    match rest with c :: _ => p c = false | [] => True end).
  { intros p P Hp HP. destruct rest as [|c r]; [exact I|]. apply (bfalse p P Hp). intro X. apply HP in X.
    cbn in Hr. tauto. }
  destruct H as [d ds Hd H|ds H|x ds Hx' H Hne].
  - unfold strtoul0.
    assert (E : match (d :: ds) ++ rest with
      | 48 :: x :: d0 :: r => if ((x =? 120) || (x =? 88)) && isxdigit d0 then (16, d0 :: r) else (8, (d :: ds) ++ rest)
      | 48 :: _ => (8, (d :: ds) ++ rest)
      | _ => (10, (d :: ds) ++ rest) end = (10, (d :: ds) ++ rest)).
    { cbn [app]. destruct d as [|p|p]; try reflexivity.
      do 6 (destruct p; try reflexivity). lia. }
    rewrite E. cbn [Z.eqb Pos.eqb]. rewrite (span_app isdigit (d :: ds) rest).
    + rewrite digits_val_spec by (lia || exact Hx). cbn [radix]. rewrite Z.mul_0_l, Z.add_0_l. reflexivity.
    + apply (Forall_b isdigit digit); [apply isdigit_iff|]. constructor; [unfold digit; lia|exact H].
    + exact (N isdigit digit isdigit_iff digit_hex).
  - unfold strtoul0.
    assert (E : match (48 :: ds) ++ rest with
      | 48 :: x :: d0 :: r => if ((x =? 120) || (x =? 88)) && isxdigit d0 then (16, d0 :: r) else (8, (48 :: ds) ++ rest)
      | 48 :: _ => (8, (48 :: ds) ++ rest)
      | _ => (10, (48 :: ds) ++ rest) end = (8, (48 :: ds) ++ rest)).
    { cbn [app]. destruct (ds ++ rest) as [|x [|y r]] eqn:EE; try reflexivity.
      assert (x <> 120 /\ x <> 88).
      { destruct ds as [|o ds]; cbn [app] in EE.
        - subst rest. cbn in Hr. tauto.
        - inversion H as [|? ? Ho]; subst. injection EE as -> _. unfold oct in Ho. lia. }
      replace ((x =? 120) || (x =? 88)) with false; [reflexivity|]. symmetry. apply orb_false_iff. rewrite !Z.eqb_neq. lia. }
    rewrite E. cbn [Z.eqb Pos.eqb]. rewrite (span_app isoctal (48 :: ds) rest).
    + rewrite digits_val_spec by (lia || exact Hx). cbn [radix]. rewrite Z.mul_0_l, Z.add_0_l. reflexivity.
    + apply (Forall_b isoctal oct); [apply isoctal_iff|]. constructor; [unfold oct; lia|exact H].
    + exact (N isoctal oct isoctal_iff oct_hex).
  - unfold strtoul0. destruct ds as [|d ds]; [congruence|]. cbn [app].
    replace ((x =? 120) || (x =? 88)) with true by (symmetry; apply orb_true_iff; rewrite !Z.eqb_eq; lia).
    inversion H as [|? ? Hd Hs]; subst.
    replace (isxdigit d) with true by (symmetry; apply isxdigit_hex, Hd). cbn [andb Z.eqb Pos.eqb].
    change (d :: ds ++ rest) with ((d :: ds) ++ rest). rewrite (span_app isxdigit (d :: ds) rest).
    + rewrite digits_val_spec by (lia || exact Hx). cbn [radix]. rewrite Z.mul_0_l, Z.add_0_l. reflexivity.
    + apply (Forall_b isxdigit hex); [apply isxdigit_hex|exact H].
    + exact (N isxdigit hex isxdigit_hex (fun c h => h)).
Qed.

Definition flag (u : bool) (l : nat) : Z :=
  match u, l with
  | false, O => 0 | true, O => 1 | false, S O => 2 | true, S O => 3 | false, _ => 6 | true, _ => 7
  end.

Lemma suffix_read u l w : Suffix u l w -> read_integer_suffix w = (flag u l, []).
Proof.
  assert (HU : forall c, is_u c -> tolower c = 117) by (intros c [-> | ->]; reflexivity).
  destruct 1 as [|c Hc|n w Hl|c n w Hc Hl|c n w Hc Hl].
  - reflexivity.
  - unfold read_integer_suffix. rewrite (HU c Hc). reflexivity.
  - destruct Hl as [c [-> | ->]|c [-> | ->]]; reflexivity.
  - unfold read_integer_suffix. rewrite (HU c Hc). destruct Hl as [d [-> | ->]|d [-> | ->]]; reflexivity.
  - destruct Hl as [d [-> | ->]|d [-> | ->]]; destruct Hc as [-> | ->]; reflexivity.
Qed.

Lemma suffix_stops u l w : Suffix u l w -> stops w.
Proof.
  assert (X : forall c, is_u c \/ c = 108 \/ c = 76 -> ~ hex c /\ c <> 120 /\ c <> 88).
  { intros c Hc. unfold is_u, hex, digit in *. lia. }
  destruct 1 as [|c Hc|n w Hl|c n w Hc Hl|c n w Hc Hl]; cbn [stops]; auto.
  - destruct Hl; cbn [stops]; auto.
  - destruct Hl; cbn [app stops]; auto.
Qed.

Lemma type_ok b u l v : 0 <= v < 2^64 -> (l <= 2)%nat ->
  constant_integer_type v (flag u l) (match b with Dec => true | _ => false end) =
  match first_fit v (candidates b u l) with
  | Some t => (t, false)
  | None => (NULong, true)
  end.
Proof.
  intros Hv Hl. unfold constant_integer_type, INT_MAX, UINT_MAX, LONG_MAX, SUFFIX_U, SUFFIX_L, SUFFIX_LL.
  change (2^64) with 18446744073709551616 in Hv.
  destruct l as [|[|[|l]]]; [| | |lia]; destruct u, b;
  cbn [flag candidates first_fit limit Z.eqb Pos.eqb orb negb andb];
  change (2^31) with 2147483648; change (2^32) with 4294967296; change (2^63) with 9223372036854775808;
  change (2^64) with 18446744073709551616;
  repeat match goal with
  | |- context [?a <=? ?b] => destruct (Z.leb_spec a b)
  | |- context [?a <? ?b] => destruct (Z.ltb_spec a b)
  end; cbn [andb negb]; reflexivity || lia.
Qed.

Lemma suffix_l u l w : Suffix u l w -> (l <= 2)%nat.
Proof. destruct 1 as [|c Hc|n w Hl|c n w Hc Hl|c n w Hc Hl]; try lia; destruct Hl; lia. Qed.

Lemma integer_ok er b ds w u l sfx : Digits b ds w -> Suffix u l sfx ->
  convert_preprocessing_number er (w ++ sfx) =
  let v := value (radix b) ds in
  if v <? 2^64 then
    match first_fit v (candidates b u l) with
    | Some t => Integer v t false
    | None => Integer v NULong true
    end
  else OutOfRange.
Proof.
  intros HD HS. unfold convert_preprocessing_number.
  rewrite (strtoul0_digits _ _ _ _ HD (suffix_stops _ _ _ HS)).
  assert (HV : 0 <= value (radix b) ds) by (apply value_nonneg; [destruct b; cbn; lia|eapply Digits_hex; eauto]).
  assert (H0 : isdigit (at_ (w ++ sfx) 0) = true /\ negb (at_ (w ++ sfx) 0 =? 48) = match b with Dec => true | _ => false end).
  { destruct HD as [d ds Hd H|ds H|x ds Hx H Hne]; cbn [app at_ nth]; unfold at_; cbn [nth].
    - split; [apply isdigit_iff; unfold digit; lia|]. apply negb_true_iff, Z.eqb_neq. lia.
    - split; reflexivity.
    - split; reflexivity. }
  destruct H0 as [H1 H2]. cbv zeta.
  unfold ULONG_MAX. change (2^64) with 18446744073709551616.
  destruct (Z.ltb_spec 18446744073709551615 (value (radix b) ds)) as [G|G];
    destruct (Z.ltb_spec (value (radix b) ds) 18446744073709551616) as [G'|G']; try lia;
    rewrite (suffix_read _ _ _ HS), H1, H2.
  - destruct (constant_integer_type _ _ _); reflexivity.
  - rewrite type_ok; [|change (2^64) with 18446744073709551616; lia|eapply suffix_l; eauto].
    destruct (first_fit _ _); reflexivity.
Qed.

(* ---- soundness of the integer path ---- *)
Lemma strtoul0_sound s v r rest : isdigit (at_ s 0) = true -> strtoul0 s = (v, r, rest) ->
  exists b ds w, Digits b ds w /\ s = w ++ rest.
Proof.
  unfold strtoul0. intros H0 H. destruct s as [|c s]; [discriminate|]. change (at_ (c :: s) 0) with c in H0.
  apply isdigit_iff in H0. unfold digit in H0. destruct (Z.eq_dec c 48) as [->|Hc].
  - assert (OCT : (let '(ds, rest0) := span isoctal (48 :: s) in
       let v0 := digits_val 8 0 ds in if ULONG_MAX <? v0 then (ULONG_MAX, true, rest0) else (v0, false, rest0)) = (v, r, rest) ->
       exists b ds w, Digits b ds w /\ 48 :: s = w ++ rest).
    { cbn [span]. replace (isoctal 48) with true by reflexivity. pose proof (span_spec isoctal s) as HS.
      destruct (span isoctal s) as [ds q]. destruct HS as (-> & HF & _). cbv zeta. intro E.
      assert (q = rest) by (destruct (_ <? _) in E; congruence). subst q.
      exists Oct, (48 :: ds), (48 :: ds). split; [|reflexivity]. constructor. eapply Forall_unb; [apply isoctal_iff|exact HF]. }
    destruct s as [|x [|d s]].
    + exact (OCT H).
    + exact (OCT H).
    + destruct (((x =? 120) || (x =? 88)) && isxdigit d) eqn:E; [|exact (OCT H)]. clear OCT.
      apply andb_true_iff in E as [E1 E2]. cbn [Z.eqb Pos.eqb] in H.
      pose proof (span_spec isxdigit (d :: s)) as HS. destruct (span isxdigit (d :: s)) as [ds q].
      destruct HS as (E & HF & HN). cbv zeta in H.
      assert (q = rest) by (destruct (_ <? _) in H; congruence). subst q.
      exists Hex, ds, (48 :: x :: ds). split; [|cbn [app]; rewrite E; reflexivity]. constructor.
      * apply orb_true_iff in E1. rewrite !Z.eqb_eq in E1. tauto.
      * eapply Forall_unb; [apply isxdigit_hex|exact HF].
      * intros ->. cbn [app] in E. subst rest. congruence.
  - assert (E : match c :: s with
      | 48 :: x :: d0 :: r => if ((x =? 120) || (x =? 88)) && isxdigit d0 then (16, d0 :: r) else (8, c :: s)
      | 48 :: _ => (8, c :: s)
      | _ => (10, c :: s) end = (10, c :: s)).
    { destruct c as [|p|p]; try reflexivity. do 6 (destruct p; try reflexivity). lia. }
    rewrite E in H. cbn [Z.eqb Pos.eqb] in H. cbn [span] in H.
    replace (isdigit c) with true in H by (symmetry; apply isdigit_iff; unfold digit; lia).
    pose proof (span_spec isdigit s) as HS. destruct (span isdigit s) as [ds q]. destruct HS as (-> & HF & _). cbv zeta in H.
    assert (q = rest) by (destruct (_ <? _) in H; congruence). subst q.
    exists Dec, (c :: ds), (c :: ds). split; [|reflexivity]. constructor; [lia|]. eapply Forall_unb; [apply isdigit_iff|exact HF].
Qed.

Lemma tolower_u c : tolower c = 117 -> is_u c.
Proof. unfold tolower, is_u. destruct (Z.leb_spec 65 c), (Z.leb_spec c 90); cbn [andb]; lia. Qed.
Lemma tolower_l c : tolower c = 108 -> c = 108 \/ c = 76.
Proof. unfold tolower. destruct (Z.leb_spec 65 c), (Z.leb_spec c 90); cbn [andb]; lia. Qed.

Lemma suffix_sound s f : read_integer_suffix s = (f, []) -> exists u l, Suffix u l s.
Proof.
  unfold read_integer_suffix. intro H. destruct s as [|c s]; [exists false, 0%nat; constructor|].
  assert (TAIL : forall f0 t, (f0 = 0 \/ f0 = 1) ->
    match t with
    | c0 :: r => if tolower c0 =? 108 then
        let f1 := Z.lor f0 SUFFIX_L in
        let '(f2, r0) := match r with
          | d :: r' => if d =? c0 then (Z.lor f1 SUFFIX_LL, r') else (f1, r)
          | [] => (f1, r) end in
        match r0 with
        | d :: r' => if (Z.land f2 SUFFIX_U =? 0) && (tolower d =? 117) then (Z.lor f2 SUFFIX_U, r') else (f2, r0)
        | [] => (f2, r0)
        end
      else (f0, t)
    | [] => (f0, t) end = (f, []) ->
    t = [] \/ (exists n, Ell n t) \/ (f0 = 0 /\ exists n l d, Ell n l /\ is_u d /\ t = l ++ [d])).
  { intros f0 t Hf0 E. destruct t as [|a t]; [auto|]. destruct (Z.eqb_spec (tolower a) 108) as [Ha|Ha]; [|congruence].
    apply tolower_l in Ha. cbv zeta in E. right. destruct t as [|b t]; [left; exists 1%nat; constructor; exact Ha|].
    destruct (Z.eqb_spec b a) as [->|Hb].
    - destruct t as [|d t]; [left; exists 2%nat; constructor; exact Ha|].
      destruct (Z.eqb_spec (tolower d) 117) as [Hd|Hd]; [|rewrite andb_false_r in E; congruence].
      destruct Hf0 as [-> | ->]; cbn in E; [|congruence]. injection E as _ ->. right. split; [reflexivity|].
      exists 2%nat, [a; a], d. split; [constructor; exact Ha|]. split; [apply tolower_u, Hd|reflexivity].
    - destruct (Z.eqb_spec (tolower b) 117) as [Hd|Hd]; [|rewrite andb_false_r in E; congruence].
      destruct Hf0 as [-> | ->]; cbn in E; [|congruence]. injection E as _ ->. right. split; [reflexivity|].
      exists 1%nat, [a], b. split; [constructor; exact Ha|]. split; [apply tolower_u, Hd|reflexivity]. }
  destruct (Z.eqb_spec (tolower c) 117) as [Hc|Hc].
  - apply tolower_u in Hc. apply (TAIL SUFFIX_U s (or_intror eq_refl)) in H.
    destruct H as [->|[(n & H)|(X & _)]]; [| |discriminate X].
    + exists true, 0%nat. constructor; exact Hc.
    + exists true, n. apply S_ul; assumption.
  - apply (TAIL 0 (c :: s) (or_introl eq_refl)) in H. destruct H as [X|[(n & H)|(_ & n & l & d & H & Hd & ->)]]; [discriminate| |].
    + exists false, n. constructor; exact H.
    + exists true, n. apply S_lu; assumption.
Qed.

Lemma integer_sound er s v t wn : convert_preprocessing_number er s = Integer v t wn ->
  exists b ds w u l sfx, s = w ++ sfx /\ Digits b ds w /\ Suffix u l sfx.
Proof.
  unfold convert_preprocessing_number. intro H.
  destruct (strtoul0 s) as [[x r] e] eqn:E1. destruct (read_integer_suffix e) as [f e'] eqn:E2.
  destruct e' as [|y e'].
  - destruct (isdigit (at_ s 0)) eqn:E0; [|discriminate].
    destruct (strtoul0_sound s x r e E0 E1) as (b & ds & w & HD & ->).
    destruct (suffix_sound e f E2) as (u & l & HS). exists b, ds, w, u, l, e. auto.
  - cbv zeta in H. repeat match type of H with context [match ?x with _ => _ end] => destruct x end; discriminate.
Qed.

(* ---- floating constants ---- *)
Lemma span_head_none p c r : p c = false -> span p (c :: r) = ([], c :: r).
Proof. intro H. cbn [span]. rewrite H. reflexivity. Qed.

Definition nostart (p : Z -> bool) (r : list Z) : Prop := match r with c :: _ => p c = false | [] => True end.

Lemma mantissa_frac p a b r : Forall (fun c => p c = true) a -> Forall (fun c => p c = true) b -> p 46 = false ->
  nostart p r -> a ++ b <> [] -> mantissa p (a ++ 46 :: b ++ r) = ((length a + length b)%nat, r).
Proof.
  intros Ha Hb H46 Hr Hne. unfold mantissa. rewrite (span_app p a (46 :: b ++ r) Ha H46).
  rewrite (span_app p b r Hb Hr). destruct a, b; try reflexivity. cbn in Hne. congruence.
Qed.

Lemma mantissa_int p a r : Forall (fun c => p c = true) a -> nostart p r -> match r with c :: _ => c <> 46 | [] => True end ->
  mantissa p (a ++ r) = (length a, r).
Proof.
  intros Ha Hr H46. unfold mantissa. rewrite (span_app p a r Ha Hr). destruct r as [|c r]; [reflexivity|].
  destruct c as [|q|q]; try reflexivity. do 6 (destruct q; try reflexivity). congruence.
Qed.

Lemma exponent_none e r : match r with c :: _ => tolower c <> e | [] => True end -> exponent e r = r.
Proof. destruct r as [|c r]; [reflexivity|]. intro H. unfold exponent. destruct (Z.eqb_spec (tolower c) e); [contradiction|reflexivity]. Qed.

Lemma exponent_some e1 e2 x r : (forall c, c = e1 \/ c = e2 -> tolower c = e1) -> Expo e1 e2 x -> nostart isdigit r ->
  exponent e1 (x ++ r) = r.
Proof.
  intros HE H Hr. destruct H as [e ds He Hd Hne|e s ds He Hs Hd Hne]; cbn [app]; unfold exponent; rewrite (HE e He), Z.eqb_refl.
  - destruct ds as [|d ds]; [congruence|]. cbn [app].
    inversion Hd as [|? ? Hd1 Hd2]; subst. unfold digit in Hd1.
    replace ((d =? 43) || (d =? 45)) with false by (symmetry; apply orb_false_iff; rewrite !Z.eqb_neq; lia).
    change (d :: ds ++ r) with ((d :: ds) ++ r). rewrite (span_app isdigit (d :: ds) r); [reflexivity| |exact Hr].
    apply (Forall_b isdigit digit); [apply isdigit_iff|exact Hd].
  - replace ((s =? 43) || (s =? 45)) with true by (symmetry; apply orb_true_iff; rewrite !Z.eqb_eq; lia).
    rewrite (span_app isdigit ds r); [|apply (Forall_b isdigit digit); [apply isdigit_iff|exact Hd]|exact Hr].
    destruct ds; [congruence|reflexivity].
Qed.

Definition notx (c : Z) : Prop := c <> 120 /\ c <> 88.

Lemma strtod_dec s : Forall notx s ->
  strtod_end s = let '(n, r) := mantissa isdigit s in match n with O => s | _ => exponent 101 r end.
Proof.
  intro H. unfold strtod_end. destruct s as [|c [|x s]]; try reflexivity.
  - destruct c as [|p|p]; try reflexivity. do 6 (destruct p; try reflexivity).
  - inversion H as [|? ? _ H1]; subst. inversion H1 as [|? ? [Hx1 Hx2] _]; subst.
    replace ((x =? 120) || (x =? 88)) with false by (symmetry; apply orb_false_iff; rewrite !Z.eqb_neq; auto).
    destruct c as [|p|p]; try reflexivity. do 6 (destruct p; try reflexivity).
Qed.

Lemma suffix_nostart t sfx : FloatSuffix t sfx ->
  nostart isdigit sfx /\ match sfx with c :: _ => tolower c <> 101 /\ tolower c <> 112 | [] => True end.
Proof. destruct 1 as [|c [-> | ->]|c [-> | ->]]; cbn; split; auto; split; discriminate. Qed.

Lemma float_notx : forall t sfx, FloatSuffix t sfx -> Forall notx sfx.
Proof. destruct 1 as [|c [-> | ->]|c [-> | ->]]; [apply Forall_nil|..]; (apply Forall_cons; [split; discriminate|apply Forall_nil]). Qed.
Lemma digit_notx : forall ds, Forall digit ds -> Forall notx ds.
Proof. intros ds H. eapply Forall_impl; [|exact H]. unfold digit, notx. intros; lia. Qed.
Lemma expo_notx x : Expo 101 69 x -> Forall notx x.
Proof.
  destruct 1 as [e ds He Hd Hne|e s ds He Hs Hd Hne].
  - constructor; [unfold notx; lia|apply digit_notx, Hd].
  - constructor; [unfold notx; lia|]. constructor; [unfold notx; lia|apply digit_notx, Hd].
Qed.
Lemma frac_notx m : Frac digit m -> Forall notx m.
Proof. destruct 1. apply Forall_app. split; [apply digit_notx; assumption|]. constructor; [unfold notx; lia|apply digit_notx; assumption]. Qed.

Lemma isx46 : isxdigit 46 = false. Proof. reflexivity. Qed.

Lemma expo_nostart p e1 e2 x r : Expo e1 e2 x -> p e1 = false -> p e2 = false -> nostart p (x ++ r).
Proof. destruct 1 as [e ds [-> | ->]|e s ds [-> | ->]]; cbn; auto. Qed.
Lemma expo_not46 e1 e2 x r : Expo e1 e2 x -> e1 <> 46 -> e2 <> 46 -> match x ++ r with c :: _ => c <> 46 | [] => True end.
Proof. destruct 1 as [e ds [-> | ->]|e s ds [-> | ->]]; cbn; auto. Qed.

Lemma low_e c : c = 101 \/ c = 69 -> tolower c = 101. Proof. intros [-> | ->]; reflexivity. Qed.
Lemma low_p c : c = 112 \/ c = 80 -> tolower c = 112. Proof. intros [-> | ->]; reflexivity. Qed.

Lemma strtod_float m t sfx : FloatBody m -> FloatSuffix t sfx -> strtod_end (m ++ sfx) = sfx.
Proof.
  intros HB HS. destruct (suffix_nostart t sfx HS) as [N1 N2]. pose proof (float_notx t sfx HS) as NX.
  assert (DD : forall l, Forall digit l -> Forall (fun c => isdigit c = true) l) by (intros l; apply Forall_b; apply isdigit_iff).
  assert (HH : forall l, Forall hex l -> Forall (fun c => isxdigit c = true) l) by (intros l; apply Forall_b; apply isxdigit_hex).
  destruct HB as [m Hm|m e Hm He|ds e Hd Hne He|x m e Hx Hm He|x ds e Hx Hd Hne He].
  - rewrite strtod_dec by (apply Forall_app; split; [apply frac_notx, Hm|exact NX]).
    destruct Hm as [a b Ha Hb Hab]. rewrite <- app_assoc. cbn [app].
    rewrite mantissa_frac; auto. destruct (length a + length b)%nat eqn:EL.
    + exfalso. apply Hab. apply length_zero_iff_nil. rewrite app_length. exact EL.
    + apply exponent_none. destruct sfx; tauto.
  - rewrite <- app_assoc.
    rewrite strtod_dec by (apply Forall_app; split; [apply frac_notx, Hm|apply Forall_app; split; [apply expo_notx, He|exact NX]]).
    destruct Hm as [a b Ha Hb Hab]. rewrite <- app_assoc. cbn [app].
    rewrite mantissa_frac; auto; [|eapply expo_nostart; [exact He|reflexivity|reflexivity]].
    destruct (length a + length b)%nat eqn:EL.
    + exfalso. apply Hab. apply length_zero_iff_nil. rewrite app_length. exact EL.
    + apply (exponent_some 101 69); [exact low_e|exact He|exact N1].
  - rewrite <- app_assoc.
    rewrite strtod_dec by (apply Forall_app; split; [apply digit_notx, Hd|apply Forall_app; split; [apply expo_notx, He|exact NX]]).
    rewrite mantissa_int; auto; [|eapply expo_nostart; [exact He|reflexivity|reflexivity]|eapply expo_not46; [exact He|discriminate|discriminate]].
    destruct ds as [|d ds]; [congruence|]. cbn [length].
    apply (exponent_some 101 69); [exact low_e|exact He|exact N1].
  - cbn [app]. unfold strtod_end.
    replace ((x =? 120) || (x =? 88)) with true by (symmetry; apply orb_true_iff; rewrite !Z.eqb_eq; lia).
    rewrite <- app_assoc. destruct Hm as [a b Ha Hb Hab]. rewrite <- app_assoc. cbn [app].
    rewrite (mantissa_frac isxdigit); auto; [|eapply expo_nostart; [exact He|reflexivity|reflexivity]].
    destruct (length a + length b)%nat eqn:EL.
    + exfalso. apply Hab. apply length_zero_iff_nil. rewrite app_length. exact EL.
    + apply (exponent_some 112 80); [exact low_p|exact He|exact N1].
  - cbn [app]. unfold strtod_end.
    replace ((x =? 120) || (x =? 88)) with true by (symmetry; apply orb_true_iff; rewrite !Z.eqb_eq; lia).
    rewrite <- app_assoc.
    rewrite (mantissa_int isxdigit); auto; [|eapply expo_nostart; [exact He|reflexivity|reflexivity]|eapply expo_not46; [exact He|discriminate|discriminate]].
    destruct ds as [|d ds]; [congruence|]. cbn [length].
    apply (exponent_some 112 80); [exact low_p|exact He|exact N1].
Qed.

(* The integer path does not take a floating constant. *)
Definition dec_mark (c : Z) : Prop := c = 46 \/ c = 101 \/ c = 69.
Definition hex_mark (c : Z) : Prop := c = 112 \/ c = 80.
Lemma expo_in e1 e2 x : Expo e1 e2 x -> exists c, In c x /\ (c = e1 \/ c = e2).
Proof. destruct 1 as [e|e]; exists e; split; auto; left; reflexivity. Qed.

Lemma float_not_integer m t sfx b ds w u l isfx : FloatBody m -> FloatSuffix t sfx ->
  Digits b ds w -> Suffix u l isfx -> m ++ sfx = w ++ isfx -> False.
Proof.
  intros HB HF HD HS E.
  assert (SX : forall c, In c isfx -> is_u c \/ c = 108 \/ c = 76).
  { assert (EX : forall n q, Ell n q -> forall c, In c q -> c = 108 \/ c = 76).
    { intros n q Hq c Hc. destruct Hq; cbn in Hc; intuition congruence. }
    intros c Hc. destruct HS as [|a Ha|n q Hq|a n q Ha Hq|a n q Ha Hq].
    - destruct Hc. - destruct Hc as [<-|[]]; auto. - right; eauto.
    - destruct Hc as [<-|Hc]; eauto. - apply in_app_or in Hc as [Hc|[<-|[]]]; eauto. }
  assert (WX : forall c, In c w -> hex c \/ c = 120 \/ c = 88).
  { intros c Hc. pose proof (Digits_hex _ _ _ HD) as HX. rewrite Forall_forall in HX.
    destruct HD as [d ds' Hd H|ds' H|x ds' Hx H Hne]; auto.
    destruct Hc as [<-|[<-|Hc]]; auto. left. left. unfold digit. lia. }
  assert (NP : forall c, In c (w ++ isfx) -> ~ hex_mark c).
  { intros c Hc. unfold hex_mark. apply in_app_or in Hc as [Hc|Hc]; [apply WX in Hc|apply SX in Hc]; unfold hex, digit, is_u in *; lia. }
  assert (DEC : Forall notx m -> (exists c, In c m /\ dec_mark c) -> False).
  { intros Hn (c & Hc & Hm).
    assert (Forall notx (w ++ isfx)).
    { rewrite <- E. apply Forall_app. split; [exact Hn|eapply float_notx; eauto]. }
    assert (Hin : In c (w ++ isfx)) by (rewrite <- E; apply in_or_app; auto).
    rewrite Forall_forall in H. destruct HD as [d ds' Hd H'|ds' H'|x ds' Hx H' Hne].
    - apply in_app_or in Hin as [Hin|Hin].
      + assert (digit c) by (destruct Hin as [<-|Hin]; [unfold digit; lia|rewrite Forall_forall in H'; auto]).
        unfold digit, dec_mark in *; lia.
      + apply SX in Hin. unfold is_u, dec_mark in *; lia.
    - apply in_app_or in Hin as [Hin|Hin].
      + assert (oct c) by (destruct Hin as [<-|Hin]; [unfold oct; lia|rewrite Forall_forall in H'; auto]).
        unfold oct, dec_mark in *; lia.
      + apply SX in Hin. unfold is_u, dec_mark in *; lia.
    - specialize (H x ltac:(cbn; auto)). unfold notx in H. lia. }
  assert (HEX : (exists c, In c m /\ hex_mark c) -> False).
  { intros (c & Hc & Hm). apply (NP c); [|exact Hm]. rewrite <- E. apply in_or_app; auto. }
  destruct HB as [m Hm|m e Hm He|fs e Hd Hne He|x m e Hx Hm He|x fs e Hx Hd Hne He].
  - apply DEC; [apply frac_notx, Hm|]. destruct Hm. exists 46. split; [apply in_or_app; right; left; reflexivity|left; reflexivity].
  - apply DEC; [apply Forall_app; split; [apply frac_notx, Hm|apply expo_notx, He]|].
    destruct (expo_in _ _ _ He) as (c & Hc & Hc'). exists c. split; [apply in_or_app; auto|unfold dec_mark; tauto].
  - apply DEC; [apply Forall_app; split; [apply digit_notx, Hd|apply expo_notx, He]|].
    destruct (expo_in _ _ _ He) as (c & Hc & Hc'). exists c. split; [apply in_or_app; auto|unfold dec_mark; tauto].
  - apply HEX. destruct (expo_in _ _ _ He) as (c & Hc & Hc'). exists c. split; [right; right; apply in_or_app; auto|exact Hc'].
  - apply HEX. destruct (expo_in _ _ _ He) as (c & Hc & Hc'). exists c. split; [right; right; apply in_or_app; auto|exact Hc'].
Qed.

Lemma strtoul0_nodigit s v r rest : isdigit (at_ s 0) = false -> strtoul0 s = (v, r, rest) -> rest = s.
Proof.
  intros H0 H. destruct s as [|c s]; [cbn in H; congruence|]. change (at_ (c :: s) 0) with c in H0.
  unfold strtoul0 in H.
  assert (E : match c :: s with
      | 48 :: x :: d0 :: r => if ((x =? 120) || (x =? 88)) && isxdigit d0 then (16, d0 :: r) else (8, c :: s)
      | 48 :: _ => (8, c :: s)
      | _ => (10, c :: s) end = (10, c :: s)).
  { destruct c as [|p|p]; try reflexivity. do 6 (destruct p; try reflexivity). discriminate. }
  rewrite E in H. cbn [Z.eqb Pos.eqb] in H. rewrite span_head_none in H by exact H0. cbn in H. congruence.
Qed.

Lemma float_first m : FloatBody m -> match m with c :: _ => digit c \/ c = 46 | [] => False end.
Proof.
  assert (A : forall a b, Forall digit a -> match a ++ 46 :: b with c :: _ => digit c \/ c = 46 | [] => False end).
  { intros [|c a] b H; cbn; [auto|]. inversion H; auto. }
  destruct 1 as [m Hm|m e Hm He|ds e Hd Hne He|x m e Hx Hm He|x ds e Hx Hd Hne He].
  - destruct Hm as [a b Ha Hb _]. exact (A a b Ha).
  - destruct Hm as [a b Ha Hb _]. rewrite <- app_assoc. exact (A a (b ++ e) Ha).
  - destruct ds; [congruence|]. cbn. inversion Hd; auto.
  - left; unfold digit; lia.
  - left; unfold digit; lia.
Qed.

Lemma float_ok er m t sfx : FloatBody m -> FloatSuffix t sfx ->
  convert_preprocessing_number er (m ++ sfx) = if er (m ++ sfx) then OutOfRange else Floating t.
Proof.
  intros HB HF. unfold convert_preprocessing_number.
  destruct (strtoul0 (m ++ sfx)) as [[v r] e] eqn:E1. destruct (read_integer_suffix e) as [f e'] eqn:E2.
  destruct e' as [|y e'].
  - exfalso. destruct (isdigit (at_ (m ++ sfx) 0)) eqn:E0.
    + destruct (strtoul0_sound _ _ _ _ E0 E1) as (b & ds & w & HD & E).
      destruct (suffix_sound e f E2) as (u & l & HS).
      exact (float_not_integer _ _ _ _ _ _ _ _ _ HB HF HD HS E).
    + apply (strtoul0_nodigit _ _ _ _ E0) in E1. subst e.
      destruct (suffix_sound _ f E2) as (u & l & HS). pose proof (float_first m HB) as H1.
      destruct m as [|c m]; [exact H1|]. cbn [app at_] in *. unfold at_ in E0; cbn [nth] in E0. apply isdigit_false in E0.
      destruct H1 as [H1| ->]; [contradiction|].
      inversion HS as [|c Hc|n w Hl|c n w Hc Hl|c n w Hc Hl]; subst.
      * unfold is_u in Hc; lia.
      * inversion Hl; lia.
      * unfold is_u in Hc; lia.
      * match goal with H : _ ++ [_] = 46 :: _ |- _ => rename H into EE end. destruct Hl; cbn in EE; injection EE; intros; lia.
  - cbv zeta. rewrite (strtod_float m t sfx HB HF).
    destruct HF as [|c [-> | ->]|c [-> | ->]]; cbn [Z.eqb Pos.eqb orb]; destruct (er _); reflexivity.
Qed.

Lemma no_assert er s : (isdigit (at_ s 0) = true \/ (at_ s 0 = 46)) -> convert_preprocessing_number er s <> AssertFailed.
Proof.
  intro H. unfold convert_preprocessing_number.
  destruct (strtoul0 s) as [[v r] e] eqn:E1. destruct (read_integer_suffix e) as [f e'] eqn:E2.
  destruct e' as [|y e'].
  - destruct (isdigit (at_ s 0)) eqn:E0.
    + destruct (constant_integer_type _ _ _). destruct r; discriminate.
    + destruct H as [H|H]; [discriminate|]. apply (strtoul0_nodigit _ _ _ _ E0) in E1. subst e.
      destruct s as [|c s]; [discriminate|]. unfold at_ in H; cbn [nth] in H. subst c. cbn in E2. discriminate.
  - cbv zeta. repeat match goal with |- context [match ?x with _ => _ end] => destruct x end; discriminate.
Qed.
