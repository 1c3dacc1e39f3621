From Coq Require Import List ZArith Lia Bool.
From Verif Require Import EscModel EscSpec.
Import ListNotations.
Open Scope Z_scope.
Ltac Zify.zify_post_hook ::= Z.div_mod_to_equations.

Lemma isoctal_iff c : isoctal c = true <-> oct_digit c.
Proof. unfold isoctal, oct_digit. rewrite andb_true_iff, Z.leb_le, Z.ltb_lt. lia. Qed.
Lemma isxdigit_iff c : isxdigit c = true <-> hex_digit c.
Proof.
  unfold isxdigit, isdigit, hex_digit.
  rewrite !orb_true_iff, !andb_true_iff, !Z.leb_le. lia.
Qed.
Lemma digit_val_hexv c : hex_digit c -> digit_val c = hexv c.
Proof.
  unfold hex_digit, digit_val, hexv, isdigit. intro H.
  destruct (Z.leb_spec 48 c), (Z.leb_spec c 57), (Z.leb_spec c 70); cbn [andb]; lia.
Qed.
Lemma oct_hex c : oct_digit c -> hex_digit c.
Proof. unfold oct_digit, hex_digit; lia. Qed.

Lemma digits_value_acc base ds : Forall hex_digit ds -> forall v,
  fold_left (fun v c => v * base + digit_val c) ds v = v * base ^ Z.of_nat (length ds) + value base ds.
Proof.
  induction 1 as [|d ds Hd Hds IH]; intro v; cbn [fold_left value length].
  - change (base ^ Z.of_nat 0) with 1. lia.
  - rewrite IH, digit_val_hexv by exact Hd. rewrite Nat2Z.inj_succ, Z.pow_succ_r by lia. ring.
Qed.
Lemma digits_value_ok base ds : Forall hex_digit ds -> digits_value base ds = value base ds.
Proof. intro H. unfold digits_value. rewrite digits_value_acc by exact H. lia. Qed.

Lemma value_nonneg base ds : 0 <= base -> Forall hex_digit ds -> 0 <= value base ds.
Proof.
  intros Hb. induction 1 as [|d ds Hd Hds IH]; cbn [value]; [lia|].
  assert (0 <= base ^ Z.of_nat (length ds)) by (apply Z.pow_nonneg; lia).
  assert (0 <= hexv d).
  { unfold hexv; unfold hex_digit in Hd. destruct (Z.leb_spec d 57), (Z.leb_spec d 70); lia. }
  nia.
Qed.

Lemma span_app p ds t : Forall (fun c => p c = true) ds -> match t with c :: _ => p c = false | [] => True end ->
  span p (ds ++ t) = (ds, t).
Proof.
  intros H Ht. induction H as [|d ds Hd Hds IH]; cbn [app].
  - destruct t as [|c t]; cbn [span]; [easy|]. rewrite Ht. reflexivity.
  - cbn [span]. rewrite Hd, IH. reflexivity.
Qed.

Lemma not_starts (p : Z -> bool) (P : Z -> Prop) t : (forall c, p c = true <-> P c) ->
  ~ starts_with P t -> match t with c :: _ => p c = false | [] => True end.
Proof.
  intros Hp H. destruct t as [|c t]; [easy|]. cbn in H. destruct (p c) eqn:E; [|easy].
  exfalso; apply H, Hp, E.
Qed.

Lemma Forall_imp_bool (p : Z -> bool) (P : Z -> Prop) ds : (forall c, p c = true <-> P c) ->
  Forall P ds -> Forall (fun c => p c = true) ds.
Proof. intros Hp. apply Forall_impl. intros c Hc; apply Hp, Hc. Qed.

Lemma octal_span ds t : Forall oct_digit ds -> (1 <= length ds <= 3)%nat ->
  (length ds = 3%nat \/ ~ starts_with oct_digit t) ->
  fst (span isoctal (firstn 3 (ds ++ t))) = ds.
Proof.
  intros H Hl Hm. pose proof (Forall_imp_bool _ _ _ isoctal_iff H) as Hb.
  rewrite firstn_app. replace (firstn 3 ds) with ds by (symmetry; apply firstn_all2; lia).
  rewrite span_app; [reflexivity|exact Hb|].
  destruct Hm as [E|Hm].
  - rewrite E. cbn. exact I.
  - pose proof (not_starts _ _ _ isoctal_iff Hm) as N.
    destruct t as [|c t]; [now destruct (3 - length ds)%nat|].
    destruct (3 - length ds)%nat; cbn [firstn]; auto.
Qed.

Lemma convert_octal ds t : Forall oct_digit ds -> (1 <= length ds <= 3)%nat ->
  (length ds = 3%nat \/ ~ starts_with oct_digit t) -> value 8 ds < 256 ->
  convert_escape_sequence (ds ++ t) = Ok (value 8 ds, t).
Proof.
  intros H Hl Hm Hv. pose proof (octal_span ds t H Hl Hm) as Hsp.
  assert (Hh : Forall hex_digit ds) by (eapply Forall_impl; [|exact H]; intros; now apply oct_hex).
  destruct ds as [|c ds]; [cbn in Hl; lia|].
  assert (Hc : oct_digit c) by (inversion H; assumption).
  unfold convert_escape_sequence. cbn [app]. rewrite app_comm_cons.
  unfold oct_digit in Hc.
  repeat match goal with |- context [?x =? ?y] => destruct (Z.eqb_spec x y); [lia|] end.
  cbn [orb]. replace (isoctal c) with true by (symmetry; apply isoctal_iff; exact Hc).
  rewrite Hsp, digits_value_ok by exact Hh.
  rewrite skipn_app, skipn_all, Nat.sub_diag. cbn [skipn app].
  pose proof (value_nonneg 8 _ ltac:(lia) Hh). rewrite Z.mod_small by lia. reflexivity.
Qed.

Lemma convert_hex ds t : Forall hex_digit ds -> ds <> [] -> ~ starts_with hex_digit t ->
  value 16 ds < 256 -> not_0x ds t ->
  convert_escape_sequence (120 :: ds ++ t) = Ok (value 16 ds, t).
Proof.
  intros H Hne Hm Hv Hsafe. unfold convert_escape_sequence.
  cbn [Z.eqb Pos.eqb orb]. destruct ds as [|c ds]; [congruence|].
  assert (Hc : hex_digit c) by (inversion H; assumption).
  cbn [app hd]. replace (isxdigit c) with true by (symmetry; apply isxdigit_iff; exact Hc).
  unfold strtol16.
  match goal with |- context [span isxdigit ?b] => assert (Hb : b = c :: ds ++ t) end.
  { destruct (Z.eq_dec c 48) as [->|N].
    - destruct ds as [|x ds]; cbn [app].
      + destruct t as [|x t]; [reflexivity|]. destruct t as [|d t]; [reflexivity|].
        destruct ((x =? 120) || (x =? 88)) eqn:E; cbn [andb]; [|reflexivity].
        destruct (isxdigit d) eqn:F; [|reflexivity]. exfalso.
        apply isxdigit_iff in F. apply Hsafe. split; [reflexivity|]. exists x, d, t.
        split; [reflexivity|]. split; [|exact F].
        apply orb_true_iff in E as [E|E]; apply Z.eqb_eq in E; auto.
      + assert (Hx : hex_digit x) by (inversion H as [|? ? ? H']; inversion H'; assumption).
        destruct (ds ++ t) as [|d r]; [reflexivity|].
        destruct (Z.eqb_spec x 120); [unfold hex_digit in Hx; lia|].
        destruct (Z.eqb_spec x 88); [unfold hex_digit in Hx; lia|]. reflexivity.
    - destruct c as [|c|c]; try reflexivity.
      destruct (ds ++ t) as [|x [|d r]];
        repeat (destruct c as [c|c|]; try reflexivity); congruence. }
  rewrite Hb. rewrite app_comm_cons.
  rewrite span_app; [| now apply (Forall_imp_bool _ _ _ isxdigit_iff) | now apply (not_starts _ _ _ isxdigit_iff)].
  rewrite digits_value_ok by exact H.
  pose proof (value_nonneg 16 _ ltac:(lia) H). unfold LONG_MAX.
  rewrite Z.min_l by lia. rewrite Z.mod_small by lia. reflexivity.
Qed.

Lemma convert_simple e v t : In (e, v) simple_escapes -> convert_escape_sequence (e :: t) = Ok (v, t).
Proof. cbn [simple_escapes In]. intuition; match goal with H : (_, _) = _ |- _ => injection H as <- <- end; reflexivity. Qed.

Lemma convert_loop_ok q text bytes : Literal not_0x q text bytes ->
  forall n, (length text <= n)%nat -> convert_loop n text = Ok bytes.
Proof.
  induction 1 as [|c t b N1 N2 N3 Hr HL IH|e v t b Hin HL IH|ds t b H1 H2 H3 H4 HL IH|ds t b H1 H2 H3 H4 H5 HL IH];
    intros n Hn.
  - destruct n; reflexivity.
  - destruct n as [|n]; cbn [length] in Hn; [lia|]. cbn [convert_loop convert_char].
    destruct (Z.eqb_spec c 92); [congruence|]. rewrite IH; [reflexivity|lia].
  - destruct n as [|n]; cbn [length] in Hn; [lia|]. cbn [convert_loop convert_char Z.eqb Pos.eqb].
    rewrite (convert_simple e v t Hin), IH; [reflexivity|lia].
  - destruct n as [|n]; cbn [length] in Hn; [lia|]. rewrite app_length in Hn.
    cbn [convert_loop convert_char Z.eqb Pos.eqb].
    rewrite convert_octal by assumption. rewrite IH; [reflexivity|lia].
  - destruct n as [|n]; cbn [length] in Hn; [lia|]. rewrite app_length in Hn.
    cbn [convert_loop convert_char Z.eqb Pos.eqb].
    rewrite convert_hex by assumption. rewrite IH; [reflexivity|lia].
Qed.

Lemma Literal_weaken (ok ok' : list Z -> list Z -> Prop) q text bytes :
  (forall ds t, ok ds t -> ok' ds t) -> Literal ok q text bytes -> Literal ok' q text bytes.
Proof.
  intro Hw. induction 1; [apply L_end|apply L_plain|apply L_simple|apply L_octal|apply L_hex]; auto.
Qed.

Lemma convert_ok text bytes q : Literal not_0x q text bytes ->
  convert_preprocessing_string text = Ok bytes.
Proof. intro H. eapply convert_loop_ok; eauto. Qed.

(* ---- scanning ---- *)

Lemma parse_octal ds t : Forall oct_digit ds -> (1 <= length ds <= 3)%nat ->
  (length ds = 3%nat \/ ~ starts_with oct_digit t) -> parse_escape_sequence (ds ++ t) = Ok t.
Proof.
  intros H Hl Hm. pose proof (Forall_imp_bool _ _ _ isoctal_iff H) as Hb.
  destruct ds as [|c ds]; [cbn in Hl; lia|]. unfold parse_escape_sequence. cbn [app].
  inversion Hb as [|? ? Hc Hb1]; subst. pose proof Hc as Hc'. apply isoctal_iff in Hc'. unfold oct_digit in Hc'.
  destruct (Z.eqb_spec c 120); [lia|]. rewrite Hc.
  destruct ds as [|d ds]; cbn [app].
  - destruct Hm as [E|Hm]; [discriminate|]. pose proof (not_starts _ _ _ isoctal_iff Hm) as N.
    destruct t as [|x t]; [reflexivity|]. rewrite N. reflexivity.
  - inversion Hb1 as [|? ? Hd Hb2]; subst. rewrite Hd. destruct ds as [|e ds]; cbn [app].
    + destruct Hm as [E|Hm]; [discriminate|]. pose proof (not_starts _ _ _ isoctal_iff Hm) as N.
      destruct t as [|x t]; [reflexivity|]. rewrite N. reflexivity.
    + inversion Hb2 as [|? ? He Hb3]; subst. rewrite He. cbn [length] in Hl.
      destruct ds; [reflexivity|cbn [length] in Hl; lia].
Qed.

Lemma parse_hex ds t : Forall hex_digit ds -> ~ starts_with hex_digit t ->
  parse_escape_sequence (120 :: ds ++ t) = Ok t.
Proof.
  intros H Hm. unfold parse_escape_sequence. cbn [Z.eqb Pos.eqb].
  rewrite span_app; [reflexivity | now apply (Forall_imp_bool _ _ _ isxdigit_iff) | now apply (not_starts _ _ _ isxdigit_iff)].
Qed.

Lemma parse_simple e v t : In (e, v) simple_escapes -> parse_escape_sequence (e :: t) = Ok t.
Proof. cbn [simple_escapes In]. intuition; match goal with H : (_, _) = _ |- _ => injection H as <- <- end; reflexivity. Qed.

Lemma starts_app (P : Z -> Prop) t rest : ~ P 34 -> ~ starts_with P t -> ~ starts_with P (t ++ 34 :: rest).
Proof. destruct t; cbn; auto. Qed.

Lemma strtostr_loop_ok ok text bytes : Literal ok 34 text bytes ->
  forall n start pre rest, start = pre ++ text ++ 34 :: rest -> (length text < n)%nat ->
  strtostr_loop n start (text ++ 34 :: rest) = Ok (pre ++ text, rest).
Proof.
  induction 1 as [|c t b N1 N2 N3 Hr HL IH|e v t b Hin HL IH|ds t b H1 H2 H3 H4 HL IH|ds t b H1 H2 H3 H4 H5 HL IH];
    intros n start pre rest Hst Hn; (destruct n as [|n]; [cbn in Hn; lia|]).
  - cbn [app strtostr_loop Z.eqb Pos.eqb]. subst start. rewrite app_nil_r in *.
    rewrite app_length, Nat.add_sub. cbn [app]. rewrite firstn_app, firstn_all, Nat.sub_diag.
    cbn [firstn]. rewrite app_nil_r. reflexivity.
  - cbn [app strtostr_loop]. destruct (Z.eqb_spec c 34); [congruence|].
    destruct (Z.eqb_spec c 92); [congruence|].
    rewrite (IH n start (pre ++ [c]) rest).
    + rewrite <- app_assoc. reflexivity.
    + rewrite <- app_assoc. exact Hst.
    + cbn [length] in Hn; lia.
  - cbn [app strtostr_loop Z.eqb Pos.eqb]. rewrite (parse_simple e v) by exact Hin.
    rewrite (IH n start (pre ++ [92; e]) rest).
    + rewrite <- app_assoc. reflexivity.
    + rewrite <- app_assoc. exact Hst.
    + cbn [length] in Hn; lia.
  - cbn [app strtostr_loop Z.eqb Pos.eqb]. rewrite <- app_assoc.
    rewrite parse_octal; [|assumption|assumption|].
    2:{ destruct H3 as [E|E]; [auto|right; apply starts_app; auto; unfold oct_digit; lia]. }
    rewrite (IH n start (pre ++ 92 :: ds) rest).
    + rewrite <- app_assoc. reflexivity.
    + subst start. cbn [app]. rewrite <- !app_assoc. cbn [app]. reflexivity.
    + cbn [length] in Hn. rewrite app_length in Hn; lia.
  - cbn [app strtostr_loop Z.eqb Pos.eqb]. rewrite <- app_assoc.
    rewrite parse_hex; [|assumption|apply starts_app; auto; unfold hex_digit; lia].
    rewrite (IH n start (pre ++ 92 :: 120 :: ds) rest).
    + rewrite <- app_assoc. reflexivity.
    + subst start. cbn [app]. rewrite <- !app_assoc. cbn [app]. reflexivity.
    + cbn [length] in Hn. rewrite app_length in Hn; lia.
Qed.

Lemma strtostr_ok ok text bytes rest : Literal ok 34 text bytes ->
  strtostr (34 :: text ++ 34 :: rest) = Ok (text, rest).
Proof.
  intro H. unfold strtostr. cbn [Z.eqb Pos.eqb].
  rewrite (strtostr_loop_ok ok text bytes H _ _ [] rest); [reflexivity|reflexivity|].
  rewrite app_length. lia.
Qed.

(* ---- printing ---- *)

Lemma print_octal_digits c : 0 <= c < 256 ->
  Forall oct_digit [48 + c / 64; 48 + (c / 8) mod 8; 48 + c mod 8] /\
  value 8 [48 + c / 64; 48 + (c / 8) mod 8; 48 + c mod 8] = c.
Proof.
  intro Hc. split.
  - repeat constructor; unfold oct_digit; lia.
  - cbn [value length]. unfold hexv.
    destruct (Z.leb_spec (48 + c / 64) 57); [|lia].
    destruct (Z.leb_spec (48 + (c / 8) mod 8) 57); [|lia].
    destruct (Z.leb_spec (48 + c mod 8) 57); [|lia].
    change (8 ^ Z.of_nat 2) with 64. change (8 ^ Z.of_nat 1) with 8. change (8 ^ Z.of_nat 0) with 1. lia.
Qed.

Lemma printchar_literal c t b : 0 <= c < 256 -> Literal no_hex 34 t b -> Literal no_hex 34 (printchar c ++ t) (c :: b).
Proof.
  intros Hc HL. unfold printchar.
  destruct (isprint c && negb (c =? 34) && negb (c =? 92)) eqn:E.
  - apply andb_true_iff in E as [E E3]. apply andb_true_iff in E as [E1 E2].
    unfold isprint in E1. apply andb_true_iff in E1 as [E0 E1].
    apply negb_true_iff, Z.eqb_neq in E2. apply negb_true_iff, Z.eqb_neq in E3.
    apply Z.leb_le in E0. apply Z.leb_le in E1.
    apply L_plain; auto; lia.
  - clear E.
    destruct (Z.eqb_spec c 8) as [->|_]; [apply L_simple; [cbn; tauto|exact HL]|].
    destruct (Z.eqb_spec c 9) as [->|_]; [apply L_simple; [cbn; tauto|exact HL]|].
    destruct (Z.eqb_spec c 10) as [->|_]; [apply L_simple; [cbn; tauto|exact HL]|].
    destruct (Z.eqb_spec c 12) as [->|_]; [apply L_simple; [cbn; tauto|exact HL]|].
    destruct (Z.eqb_spec c 13) as [->|_]; [apply L_simple; [cbn; tauto|exact HL]|].
    destruct (Z.eqb_spec c 92) as [->|_]; [apply L_simple; [cbn; tauto|exact HL]|].
    destruct (Z.eqb_spec c 34) as [->|_]; [apply L_simple; [cbn; tauto|exact HL]|].
    destruct (print_octal_digits c Hc) as [H1 H2].
    pose proof (L_octal no_hex 34 [48 + c / 64; 48 + (c / 8) mod 8; 48 + c mod 8] t b H1) as L.
    rewrite H2 in L. apply L; auto; cbn; lia.
Qed.

Lemma print_literal s : Forall (fun c => 0 <= c < 256) s -> Literal no_hex 34 (flat_map printchar s) s.
Proof.
  induction 1 as [|c s Hc Hs IH]; cbn [flat_map]; [constructor|]. apply printchar_literal; auto.
Qed.

Lemma print_read_back s rest : Forall (fun c => 0 <= c < 256) s ->
  exists text, fprintstr s = 34 :: text ++ [34] /\ Literal any_hex 34 text s /\
    strtostr (fprintstr s ++ rest) = Ok (text, rest) /\
    convert_preprocessing_string text = Ok s.
Proof.
  intro Hs. exists (flat_map printchar s). pose proof (print_literal s Hs) as HL.
  split; [reflexivity|]. split; [eapply Literal_weaken; [|exact HL]; intros ? ? []|].
  split.
  - unfold fprintstr, QUOTE. cbn [app]. rewrite <- app_assoc. cbn [app].
    eapply strtostr_ok; exact HL.
  - eapply convert_ok, Literal_weaken; [|exact HL]; intros ? ? [].
Qed.

Lemma fprintstr_ret_ok s : fprintstr_ret s = Z.of_nat (length (fprintstr s)).
Proof.
  unfold fprintstr_ret, fprintstr. rewrite !app_length. cbn [length].
  assert (G : forall l n, fold_left (fun n c => (n + length (printchar c))%nat) l n = (n + length (flat_map printchar l))%nat).
  { induction l as [|c l IH]; intro n; cbn [fold_left flat_map]; [cbn; lia|]. rewrite IH, app_length. lia. }
  rewrite G. lia.
Qed.

(* The specification relation is deterministic: it does define the bytes of a literal. *)
Lemma octal_split ds1 t1 ds2 t2 : Forall oct_digit ds1 -> Forall oct_digit ds2 ->
  (1 <= length ds1 <= 3)%nat -> (1 <= length ds2 <= 3)%nat ->
  (length ds1 = 3%nat \/ ~ starts_with oct_digit t1) -> (length ds2 = 3%nat \/ ~ starts_with oct_digit t2) ->
  ds1 ++ t1 = ds2 ++ t2 -> ds1 = ds2 /\ t1 = t2.
Proof.
  intros H1 H2 L1 L2 M1 M2 E.
  pose proof (octal_span ds1 t1 H1 L1 M1) as S1. pose proof (octal_span ds2 t2 H2 L2 M2) as S2.
  rewrite E in S1. rewrite S1 in S2. subst ds2. split; [easy|]. exact (app_inv_head _ _ _ E).
Qed.

Lemma hex_split ds1 t1 ds2 t2 : Forall hex_digit ds1 -> Forall hex_digit ds2 ->
  ~ starts_with hex_digit t1 -> ~ starts_with hex_digit t2 ->
  ds1 ++ t1 = ds2 ++ t2 -> ds1 = ds2 /\ t1 = t2.
Proof.
  intros H1 H2 M1 M2 E.
  pose proof (span_app isxdigit ds1 t1 (Forall_imp_bool _ _ _ isxdigit_iff H1) (not_starts _ _ _ isxdigit_iff M1)) as S1.
  pose proof (span_app isxdigit ds2 t2 (Forall_imp_bool _ _ _ isxdigit_iff H2) (not_starts _ _ _ isxdigit_iff M2)) as S2.
  rewrite E, S2 in S1. injection S1 as -> ->. auto.
Qed.

Lemma simple_not_digit e v : In (e, v) simple_escapes -> ~ oct_digit e /\ e <> 120.
Proof.
  cbn [simple_escapes In]. unfold oct_digit.
  intuition; match goal with H : (_, _) = _ |- _ => injection H as <- <- end; lia.
Qed.
Lemma simple_fun e v w : In (e, v) simple_escapes -> In (e, w) simple_escapes -> v = w.
Proof.
  cbn [simple_escapes In].
  intros H1 H2; intuition; repeat match goal with H : (_, _) = _ |- _ => injection H as ? ? end; lia.
Qed.

Lemma Literal_deterministic ok1 ok2 q text b1 : Literal ok1 q text b1 -> forall b2, Literal ok2 q text b2 -> b1 = b2.
Proof.
  induction 1 as [|c t b N1 N2 N3 Hr HL IH|e v t b Hin HL IH|ds t b H1 H2 H3 H4 HL IH|ds t b H1 H2 H3 H4 H5 HL IH];
    intros b2 HB.
  - inversion HB; reflexivity.
  - inversion HB; subst; try congruence. f_equal; auto.
  - inversion HB as [|? ? ? ? ? ? ? ? ET|e' v' t' b' Hin' HL' ET|ds' t' b' F1 F2 F3 F4 HL' ET|ds' t' b' F1 F2 F3 F4 F5 HL' ET]; subst; try congruence.
    + f_equal; [eapply simple_fun; eauto|auto].
    + exfalso. destruct ds' as [|d ds']; [cbn in F2; lia|]. cbn [app] in ET. injection ET as -> ET.
      apply simple_not_digit in Hin as [Hin _]. inversion F1; auto.
    + apply simple_not_digit in Hin as [_ Hin]. congruence.
  - destruct ds as [|d ds]; [cbn in H2; lia|].
    inversion HB as [|? ? ? ? ? ? ? ? ET|e' v' t' b' Hin' HL' ET|ds' t' b' F1 F2 F3 F4 HL' ET|ds' t' b' F1 F2 F3 F4 F5 HL' ET]; subst; try congruence.
    + exfalso. apply simple_not_digit in Hin' as [Hin' _]. inversion H1; auto.
    + destruct (octal_split ds' t' (d :: ds) t F1 H1 F2 H2 F3 H3 ET) as [-> ->]. f_equal; auto.
    + exfalso. inversion H1 as [|? ? Hd _]; subst. unfold oct_digit in Hd; lia.
  - inversion HB as [|? ? ? ? ? ? ? ? ET|e' v' t' b' Hin' HL' ET|ds' t' b' F1 F2 F3 F4 HL' ET|ds' t' b' F1 F2 F3 F4 F5 HL' ET]; subst; try congruence.
    + exfalso. apply simple_not_digit in Hin' as [_ Hin']. congruence.
    + exfalso. destruct ds' as [|d ds']; [cbn in F2; lia|]. injection ET as -> ET.
      inversion F1 as [|? ? Hd _]; subst. unfold oct_digit in Hd; lia.
    + destruct (hex_split ds' t' ds t F1 H1 F3 H3 ET) as [-> ->]. f_equal; auto.
Qed.

(* ---- character constants ---- *)
Lemma starts_app' (P : Z -> Prop) q t rest : ~ P q -> ~ starts_with P t -> ~ starts_with P (t ++ q :: rest).
Proof. destruct t; cbn; auto. Qed.

Lemma firstn_before {A} (a b : list A) : firstn (length (a ++ b) - length b) (a ++ b) = a.
Proof. rewrite app_length, Nat.add_sub, firstn_app, firstn_all, Nat.sub_diag. cbn. apply app_nil_r. Qed.

(* one character of the constant is scanned, up to the text after it *)
Lemma scan_first ok text c b : Literal ok 39 text (c :: b) -> forall rest,
  exists head t, text = head ++ t /\ Literal ok 39 t b /\ 0 <= c < 256 /\
    (match text ++ 39 :: rest with
     | x :: u => if x =? 92 then parse_escape_sequence u else if x =? 39 then Error else Ok u
     | [] => OutOfBounds end) = Ok (t ++ 39 :: rest).
Proof.
  intros H rest. inversion H as [|x t b' N1 N2 N3 Hr HL|e v t b' Hin HL|ds t b' H1 H2 H3 H4 HL|ds t b' H1 H2 H3 H4 H5 HL]; subst.
  - exists [c], t. split; [reflexivity|]. split; [exact HL|]. split; [lia|]. cbn [app]. rewrite (proj2 (Z.eqb_neq c 92) N1), (proj2 (Z.eqb_neq c 39) N2). reflexivity.
  - exists [92; e], t. split; [reflexivity|]. split; [exact HL|]. split.
    { clear - Hin. cbn [simple_escapes In] in Hin. intuition; match goal with H : (_, _) = _ |- _ => injection H as <- <- end; lia. }
    cbn [app Z.eqb Pos.eqb]. apply (parse_simple e c). exact Hin.
  - exists (92 :: ds), t. split; [reflexivity|]. split; [exact HL|].
    assert (Hh : Forall hex_digit ds) by (eapply Forall_impl; [|exact H1]; intros; now apply oct_hex).
    pose proof (value_nonneg 8 ds ltac:(lia) Hh). split; [lia|].
    cbn [app Z.eqb Pos.eqb]. rewrite <- app_assoc. apply parse_octal; auto.
    destruct H3 as [E|E]; [auto|right; apply starts_app'; auto; unfold oct_digit; lia].
  - exists (92 :: 120 :: ds), t. split; [reflexivity|]. split; [exact HL|]. pose proof (value_nonneg 16 ds ltac:(lia) H1). split; [lia|].
    cbn [app Z.eqb Pos.eqb]. rewrite <- app_assoc. apply parse_hex; auto. apply starts_app'; auto; unfold hex_digit; lia.
Qed.

Lemma strtochar_one ok text c rest : Literal ok 39 text [c] -> strtochar (39 :: text ++ 39 :: rest) = Ok (text, rest).
Proof.
  intro H. destruct (scan_first ok text c [] H rest) as (h & t & E & HL & _ & S). inversion HL; subst. rewrite app_nil_r in *. unfold strtochar.
  cbn [Z.eqb Pos.eqb negb]. cbv zeta. rewrite S. cbn [app Z.eqb Pos.eqb]. f_equal. f_equal.
  apply (firstn_before h (39 :: rest)).
Qed.

Lemma Literal_head ok q t b : Literal ok q t b -> b <> [] -> 0 < q -> exists x r, t = x :: r /\ x <> q \/ q = 92.
Proof. intros H N Q. inversion H; subst; try congruence; eexists _, _; (destruct (Z.eq_dec q 92); [right; assumption|left; split; [reflexivity|congruence]]). Qed.

Lemma strtochar_not_one ok text bytes rest : Literal ok 39 text bytes -> length bytes <> 1%nat -> strtochar (39 :: text ++ 39 :: rest) = Error.
Proof.
  intros H N. destruct bytes as [|c [|d b]]; [|cbn in N; lia|].
  - inversion H; subst. reflexivity.
  - destruct (scan_first ok text c (d :: b) H rest) as (h & t & E & HL & _ & S). unfold strtochar.
    cbn [Z.eqb Pos.eqb negb]. cbv zeta. rewrite S. destruct (Literal_head ok 39 t (d :: b) HL ltac:(discriminate) ltac:(lia)) as (x & r & [[-> X]|X]); [|discriminate].
    cbn [app]. rewrite (proj2 (Z.eqb_neq x 39) X). reflexivity.
Qed.

Lemma convert_char_one text c : Literal any_hex 39 text [c] -> exists v, convert_preprocessing_char text = Ok v /\ -128 <= v <= 127 /\ v mod 256 = c.
Proof.
  intro H. assert (E : convert_char text = Ok (c, []) /\ 0 <= c < 256).
  { inversion H as [|x t b' N1 N2 N3 Hr HL|e v t b' Hin HL|ds t b' H1 H2 H3 H4 HL|ds t b' H1 H2 H3 H4 H5 HL]; subst; inversion HL; subst; clear HL.
    - cbn [convert_char]. rewrite (proj2 (Z.eqb_neq c 92) N1). split; [reflexivity|lia].
    - cbn [convert_char Z.eqb Pos.eqb]. rewrite (convert_simple e c [] Hin). split; [reflexivity|].
      clear - Hin. cbn [simple_escapes In] in Hin. intuition; match goal with H : (_, _) = _ |- _ => injection H as <- <- end; lia.
    - cbn [convert_char Z.eqb Pos.eqb]. rewrite convert_octal by assumption.
      assert (Hh : Forall hex_digit ds) by (eapply Forall_impl; [|exact H1]; intros; now apply oct_hex).
      pose proof (value_nonneg 8 ds ltac:(lia) Hh). split; [reflexivity|lia].
    - cbn [convert_char Z.eqb Pos.eqb]. rewrite convert_hex; auto; [|intros (_ & x & d & r & X & _); discriminate X].
      pose proof (value_nonneg 16 ds ltac:(lia) H1). split; [reflexivity|lia]. }
  destruct E as [E R]. unfold convert_preprocessing_char. rewrite E. destruct (Z.ltb_spec c 128); eexists; (split; [reflexivity|]); split; lia.
Qed.
