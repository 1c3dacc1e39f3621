(* C09 integer constants, C42 floating constants. *)
From Coq Require Import ZArith Lia Bool String List.
From Verif Require Import EscModel TokenizeModel TokenizeSpec TokenizeProofs NumberModel NumberSpec NumberProofs.
Import ListNotations.
Open Scope Z_scope.

(* Every C99 integer constant gets its mathematical value and the first type of the table in
   6.4.4.1 that can represent it.  A decimal constant without u that fits no type of the table but
   fits 64 bits becomes unsigned long with a warning; anything that does not fit 64 bits is an error.
   `er` is whatever the C library says about the range of floating constants. *)
Theorem C09_integer_constants : forall er b ds w u l sfx, Digits b ds w -> Suffix u l sfx ->
  convert_preprocessing_number er (w ++ sfx) =
  let v := value (radix b) ds in
  if v <? 2^64 then
    match first_fit v (candidates b u l) with
    | Some t => Integer v t false
    | None => Integer v NULong true
    end
  else OutOfRange.
Proof. exact integer_ok. Qed.
Print Assumptions C09_integer_constants.

(* Nothing else becomes an integer constant. *)
Theorem C09_only_integer_constants : forall er s v t wn,
  convert_preprocessing_number er s = Integer v t wn ->
  exists b ds w u l sfx, s = w ++ sfx /\ Digits b ds w /\ Suffix u l sfx.
Proof. exact integer_sound. Qed.
Print Assumptions C09_only_integer_constants.

(* The assertion in the conversion holds for every preprocessing number. *)
Theorem C09_no_assertion : forall er c99 s, PPNum c99 s -> convert_preprocessing_number er s <> AssertFailed.
Proof.
  intros er c99 s H. apply no_assert.
  assert (X : isdigit (at_ s 0) = true \/ at_ s 0 = 46).
  { induction H as [d Hd|d Hd|w c Hw IH _|w e t Hw IH _ _].
    - left. apply isdigit_iff, Hd.
    - right. reflexivity.
    - destruct w as [|a w]; [inversion Hw; destruct w; discriminate|exact IH].
    - destruct w as [|a w]; [inversion Hw; destruct w; discriminate|exact IH]. }
  exact X.
Qed.
Print Assumptions C09_no_assertion.

Example C09_instance : (* 0x80000000uL and 4294967296 and 18446744073709551616 *)
  (Digits Hex (chars "80000000") (chars "0x80000000") /\ Suffix true 1 (chars "uL")) /\
  convert_preprocessing_number (fun _ => false) (chars "0x80000000uL") = Integer 2147483648 NULong false /\
  convert_preprocessing_number (fun _ => false) (chars "0x80000000") = Integer 2147483648 NUInt false /\
  convert_preprocessing_number (fun _ => false) (chars "2147483648") = Integer 2147483648 NLong false /\
  convert_preprocessing_number (fun _ => false) (chars "18446744073709551615") = Integer 18446744073709551615 NULong true /\
  convert_preprocessing_number (fun _ => false) (chars "18446744073709551616") = OutOfRange.
Proof.
  split; [|vm_compute; auto]. split.
  - apply (D_hex 120 (chars "80000000")); [auto| |discriminate]. cbn. 
    repeat (apply Forall_cons; [unfold hex, digit; lia|]). apply Forall_nil.
  - apply (S_ul 117 1 [76]); [left; reflexivity|constructor; auto].
Qed.

(* C42: every floating constant of C99 6.4.4.2 is accepted with the type its suffix says (unless the C
   library reports that its value is out of range). *)
Theorem C42_floating_constants_partial : forall er m t sfx, FloatBody m -> FloatSuffix t sfx ->
  convert_preprocessing_number er (m ++ sfx) = if er (m ++ sfx) then OutOfRange else Floating t.
Proof. exact float_ok. Qed.
Print Assumptions C42_floating_constants_partial.

Example C42_instance : FloatBody (chars "0xA.8p-3") /\ FloatSuffix NFloat (chars "f") /\
  convert_preprocessing_number (fun _ => false) (chars "0xA.8p-3f") = Floating NFloat.
Proof.
  split; [|split; [constructor; auto|vm_compute; reflexivity]].
  apply (FB_hfrac 120 (chars "A.8") (chars "p-3")); [auto| |].
  - apply (F_frac hex (chars "A") (chars "8")); cbn; try discriminate;
    apply Forall_cons; try apply Forall_nil; unfold hex, digit; lia.
  - apply (E_sign 112 80 112 45 [51]); auto; [|discriminate]. apply Forall_cons; [unfold digit; lia|apply Forall_nil].
Qed.

(* The converse is false: 08, 1f and 0x1.8 are not constants of C but are accepted as floating. *)
Theorem C42_accepts_invalid_refuted : exists s1 s2 s3,
  (forall m t sfx, FloatBody m -> FloatSuffix t sfx -> m ++ sfx <> s1 /\ m ++ sfx <> s2 /\ m ++ sfx <> s3) /\
  convert_preprocessing_number (fun _ => false) s1 = Floating NDouble /\
  convert_preprocessing_number (fun _ => false) s2 = Floating NFloat /\
  convert_preprocessing_number (fun _ => false) s3 = Floating NDouble.
Proof.
  exists (chars "08"), (chars "1f"), (chars "0x1.8"). split; [|vm_compute; auto].
  intros m t sfx HB HF.
  assert (HM : exists c, In c (m ++ sfx) /\ (dec_mark c \/ hex_mark c)).
  { assert (X : exists c, In c m /\ (dec_mark c \/ hex_mark c)).
    { destruct HB as [m Hm|m e Hm He|fs e Hd Hne He|x m e Hx Hm He|x fs e Hx Hd Hne He].
      - destruct Hm. exists 46. split; [apply in_or_app; right; left; reflexivity|unfold dec_mark; auto].
      - destruct (expo_in _ _ _ He) as (c & Hc & Hc'). exists c. split; [apply in_or_app; auto|unfold dec_mark; tauto].
      - destruct (expo_in _ _ _ He) as (c & Hc & Hc'). exists c. split; [apply in_or_app; auto|unfold dec_mark; tauto].
      - destruct (expo_in _ _ _ He) as (c & Hc & Hc'). exists c. split; [right; right; apply in_or_app; auto|unfold hex_mark; tauto].
      - destruct (expo_in _ _ _ He) as (c & Hc & Hc'). exists c. split; [right; right; apply in_or_app; auto|unfold hex_mark; tauto]. }
    destruct X as (c & Hc & Hc'). exists c. split; [apply in_or_app; auto|exact Hc']. }
  destruct HM as (c & Hin & Hc). unfold dec_mark, hex_mark in Hc.
  split; [|split]; intro E.
  - rewrite E in Hin. cbn in Hin. lia.
  - rewrite E in Hin. cbn in Hin. lia.
  - assert (NP : ~ In 112 (m ++ sfx) /\ ~ In 80 (m ++ sfx)) by (rewrite E; cbn; lia).
    assert (YX : In 120 (m ++ sfx)) by (rewrite E; cbn; lia).
    destruct HB as [m Hm|m e Hm He|fs e Hd Hne He|x m e Hx Hm He|x fs e Hx Hd Hne He].
    + apply in_app_or in YX as [YX|YX].
      * pose proof (frac_notx _ Hm) as H. rewrite Forall_forall in H. destruct (H _ YX). lia.
      * pose proof (float_notx _ _ HF) as H. rewrite Forall_forall in H. destruct (H _ YX). lia.
    + apply in_app_or in YX as [YX|YX]; [apply in_app_or in YX as [YX|YX]|].
      * pose proof (frac_notx _ Hm) as H. rewrite Forall_forall in H. destruct (H _ YX). lia.
      * pose proof (expo_notx _ He) as H. rewrite Forall_forall in H. destruct (H _ YX). lia.
      * pose proof (float_notx _ _ HF) as H. rewrite Forall_forall in H. destruct (H _ YX). lia.
    + apply in_app_or in YX as [YX|YX]; [apply in_app_or in YX as [YX|YX]|].
      * pose proof (digit_notx _ Hd) as H. rewrite Forall_forall in H. destruct (H _ YX). lia.
      * pose proof (expo_notx _ He) as H. rewrite Forall_forall in H. destruct (H _ YX). lia.
      * pose proof (float_notx _ _ HF) as H. rewrite Forall_forall in H. destruct (H _ YX). lia.
    + destruct (expo_in _ _ _ He) as (k & Hk & Hk'). destruct NP as [N1 N2].
      assert (In k ((48 :: x :: m ++ e) ++ sfx)) by (apply in_or_app; left; right; right; apply in_or_app; auto).
      destruct Hk' as [-> | ->]; contradiction.
    + destruct (expo_in _ _ _ He) as (k & Hk & Hk'). destruct NP as [N1 N2].
      assert (In k ((48 :: x :: fs ++ e) ++ sfx)) by (apply in_or_app; left; right; right; apply in_or_app; auto).
      destruct Hk' as [-> | ->]; contradiction.
Qed.
Print Assumptions C42_accepts_invalid_refuted.
