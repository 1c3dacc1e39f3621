From Coq Require Import List ZArith Lia Bool.
From Verif Require Import TokModel EscModel EscProofs TokenizeModel TokenizeSpec TokenizeProofs TokenizeProofs2 Bytes.
Import ListNotations.
Open Scope Z_scope.

Lemma single_start_cases c : single_start c = true ->
  In c [42;47;37;43;45;60;62;38;94;124;61;33;35;40;41;123;125;91;93;44;59;58;63;126;92;36;64;96;46].
Proof.
  unfold single_start. intro H. apply existsb_exists in H as ([w t] & Hin & E). cbn [fst] in E.
  apply list_eqb_eq in E. subst w.
  assert (X : forallb (fun e => negb (Nat.eqb (length (fst e)) 1) ||
     match fst e with c :: _ => existsb (Z.eqb c) [42;47;37;43;45;60;62;38;94;124;61;33;35;40;41;123;125;91;93;44;59;58;63;126;92;36;64;96;46] | [] => false end)
     punctuators = true) by (vm_compute; reflexivity).
  rewrite forallb_forall in X. specialize (X _ Hin). cbn [fst length Nat.eqb negb orb] in X.
  apply existsb_exists in X as (x & Hx & Ex). apply Z.eqb_eq in Ex. subst x. exact Hx.
Qed.

Lemma single_start_not c : single_start c = true -> ~ nondigit c /\ ~ digit c /\ c <> 39 /\ c <> 34.
Proof.
  intro H. apply single_start_cases in H. unfold nondigit, digit. cbn [In] in H. lia.
Qed.

Lemma PPNum_first c99 w : PPNum c99 w -> exists d r, (w = d :: r \/ w = 46 :: d :: r) /\ digit d.
Proof.
  induction 1 as [d Hd|d Hd|w c Hw IH Hc|w e s Hw IH He Hs].
  - exists d, []. auto.
  - exists d, []. auto.
  - destruct IH as (d & r & [-> | ->] & Hd); exists d, (r ++ [c]); auto.
  - destruct IH as (d & r & [-> | ->] & Hd); exists d, (r ++ [e; s]); auto.
Qed.

(* The first character(s) decide the kind. *)
Lemma token_first c99 k w c s r : Token c99 k w -> c :: s = w ++ r ->
  match k with
  | KIdent => nondigit c
  | KNumber => digit c \/ (c = 46 /\ digit (at_ s 0))
  | KChar => c = 39
  | KString => c = 34
  | KPunct => single_start c = true
  end.
Proof.
  intros H E. destruct H as [x w Hx Hw|w Hw|b Hb Hne|b Hb|w t Hin]; cbn [app] in E.
  - injection E as -> _. exact Hx.
  - destruct (PPNum_first c99 w Hw) as (d & r' & [-> | ->] & Hd); cbn [app] in E; injection E as -> ->; auto.
  - injection E as -> _. reflexivity.
  - injection E as -> _. reflexivity.
  - eapply punct_first; eauto.
Qed.

Lemma punct_none_start c s : punct c s = None -> single_start c = true -> c = 46 /\ digit (at_ s 0).
Proof.
  intros H Hs. destruct (punct_start c s Hs) as [X|[H1 H2]]; [congruence|]. split; [exact H1|]. apply isdigit_iff, H2.
Qed.

Lemma punct_some_start c s k n : punct c s = Some (k, n) -> single_start c = true.
Proof. intro H. apply punct_ok in H as (w & r & E & _ & Hin). eapply punct_first; eauto. Qed.

Lemma punct_46_digit s : digit (at_ s 0) -> punct 46 s = None.
Proof.
  intro H. apply isdigit_iff in H. unfold punct. cbn [Z.eqb Pos.eqb existsb orb andb]. cbv zeta. rewrite H. reflexivity.
Qed.

Lemma ident_longest c99 w' r' c w rest : nondigit c ->
  (match rest with x :: _ => ~ (digit x \/ nondigit x) | [] => True end) ->
  (c :: w) ++ rest = w' ++ r' -> Token c99 KIdent w' -> (length w' <= length (c :: w))%nat.
Proof.
  intros Hc Hr E H. inversion H as [x v Hx Hv| | | |]; subst. cbn [app] in E. injection E as -> E. cbn [length].
  apply le_n_S. clear H Hx Hc. revert w E. induction Hv as [|y v Hy Hv IH]; intros w E; [cbn; lia|].
  cbn [app] in E. destruct w as [|z w]; cbn [app] in E.
  - subst rest. contradiction.
  - injection E as -> E. cbn [length]. apply le_n_S. eauto.
Qed.

Lemma body_longest q b rest b' r' : q <> 92 -> Body q b -> Body q b' ->
  (q :: b ++ [q]) ++ rest = (q :: b' ++ [q]) ++ r' -> b = b'.
Proof.
  intros Hq H1 H2 E. cbn [app] in E. injection E as E. rewrite <- !app_assoc in E. cbn [app] in E.
  eapply body_unique; eauto.
Qed.

Lemma tok_sound c99 s t rest : Forall asciiz s -> s <> [] -> tokenize_internal c99 s = Ok (t, rest) ->
  exists k w, s = w ++ rest /\ Longest c99 k w rest /\ represents c99 k w t.
Proof.
  intros Hs Hne H. destruct s as [|c s]; [congruence|]. clear Hne. cbn [tokenize_internal] in H.
  destruct (punct c s) as [[k n]|] eqn:EP.
  - injection H as <- <-. pose proof (punct_ok c s k n EP) as (w & r & E & Hl & Hin).
    rewrite E. rewrite <- Hl, firstn_app_exact, skipn_app_exact.
    exists KPunct, w. split; [reflexivity|]. split; [|split; [exact Hin|reflexivity]].
    split; [econstructor; exact Hin|]. intros k' w' r' E' HT. rewrite <- E in E'.
    pose proof (token_first c99 k' w' c s r' HT E') as HF.
    pose proof (single_start_not c (punct_some_start c s k n EP)) as (N1 & N2 & N3 & N4).
    destruct k'; try contradiction.
    + destruct HF as [HF|[-> HF]]; [contradiction|]. rewrite punct_46_digit in EP by exact HF. discriminate.
    + inversion HT as [| | | |? t' Hin']; subst w'.
      destruct (punct_max w0 t' c s r' Hin' E') as [(k2 & n2 & EP2 & L)|(_ & _ & L)].
      * rewrite EP in EP2. injection EP2 as <- <-. lia.
      * pose proof (punct_some_pos c s k n EP). lia.
  - assert (HNP : forall w' r', c :: s = w' ++ r' -> Token c99 KPunct w' -> length w' = 1%nat /\ c = 46 /\ digit (at_ s 0)).
    { intros w' r' E HT. inversion HT as [| | | |? t' Hin']; subst w'.
      destruct (punct_max w t' c s r' Hin' E) as [(k2 & n2 & EP2 & L)|(H46 & Hd & L)]; [congruence|].
      split; [exact L|]. split; [exact H46|]. apply isdigit_iff, Hd. }
    assert (HN46 : c = 46 -> digit (at_ s 0)).
    { intros ->. pose proof (punct_none_start 46 s EP eq_refl). tauto. }
    destruct (isdigit c || (c =? 46)) eqn:ED.
    + assert (HD : digit (at_ (c :: s) 0) \/ (at_ (c :: s) 0 = 46 /\ digit (at_ (c :: s) 1))).
      { apply orb_true_iff in ED as [ED|ED]; [left; apply isdigit_iff, ED|]. apply Z.eqb_eq in ED. right.
        split; [exact ED|]. apply HN46, ED. }
      destruct (number_ok c99 (c :: s) Hs HD) as (w & r & HL & E & HP & HM). rewrite HL in H.
      injection H as <- <-. rewrite E, firstn_app_exact, skipn_app_exact.
      exists KNumber, w. split; [reflexivity|]. split; [|split; reflexivity].
      split; [constructor; exact HP|]. rewrite <- E. intros k' w' r' E' HT.
      pose proof (token_first c99 k' w' c s r' HT E') as HF.
      change (at_ (c :: s) 0) with c in HD.
      destruct k'; try (exfalso; unfold nondigit, digit in *; lia).
      * inversion HT; subst. eauto.
      * destruct (HNP w' r' E' HT) as (L & _). pose proof (PPNum_nonempty c99 w HP). destruct w; [congruence|cbn; lia].
    + apply orb_false_iff in ED as [ED E46]. apply isdigit_false in ED. apply Z.eqb_neq in E46.
      destruct (Z.eqb_spec c 39) as [->|N39].
      * destruct (strtochar (39 :: s)) as [[w r]| | |] eqn:EC; try discriminate. injection H as <- <-.
        apply strtochar_sound in EC as (-> & Hb & Hne).
        exists KChar, (39 :: w ++ [39]). split; [cbn [app]; rewrite <- app_assoc; reflexivity|].
        split; [|split; reflexivity]. split; [constructor; assumption|]. intros k' w' r' E' HT.
        pose proof (token_first c99 k' w' 39 ((w ++ [39]) ++ r) r' HT E') as HF.
        destruct k'; try (exfalso; unfold nondigit, digit in *; discriminate || lia).
        inversion HT as [| |b' Hb' _| |]; subst. pose proof (body_longest 39 w r b' r' ltac:(lia) Hb Hb' E') as ->. lia.
      * destruct (Z.eqb_spec c 34) as [->|N34].
        -- destruct (strtostr (34 :: s)) as [[w r]| | |] eqn:EC; try discriminate. injection H as <- <-.
           unfold strtostr in EC. cbn [Z.eqb Pos.eqb] in EC.
           destruct (strtostr_sound _ _ _ _ _ EC [] eq_refl) as (b & -> & Hb & ->). cbn [app].
           exists KString, (34 :: b ++ [34]). split; [cbn [app]; rewrite <- app_assoc; reflexivity|].
           split; [|split; reflexivity]. split; [constructor; assumption|]. intros k' w' r' E' HT.
           pose proof (token_first c99 k' w' 34 ((b ++ [34]) ++ r) r' HT E') as HF.
           destruct k'; try (exfalso; unfold nondigit, digit in *; discriminate || lia).
           inversion HT as [| | |b' Hb'|]; subst. pose proof (body_longest 34 b r b' r' ltac:(lia) Hb Hb' E') as ->. lia.
        -- inversion Hs as [|? ? Hc Hs']; subst. unfold asciiz in Hc. rewrite isident_ascii in H by lia.
           destruct (ident_char c) eqn:EI; [|discriminate]. apply ident_char_iff in EI as [EI|EI]; [contradiction|].
           destruct (ident_token_ok c99 c s Hs EI) as (t' & w & r & HT' & E & Hw & Hr & HR).
           rewrite HT' in H. injection H as <- <-. rewrite E.
           exists KIdent, (c :: w). split; [reflexivity|]. split; [|exact HR]. split; [constructor; assumption|].
           intros k' w' r' E' HT. rewrite <- E in E'.
           pose proof (token_first c99 k' w' c s r' HT E') as HF.
           destruct k'; try (exfalso; unfold nondigit, digit in *; lia).
           ++ rewrite E in E'. eapply ident_longest; eauto.
           ++ destruct (HNP w' r' E' HT) as (_ & X & _). contradiction.
Qed.

Lemma tok_complete c99 k w r : Forall asciiz (w ++ r) -> Token c99 k w ->
  (forall b, k = KChar -> w = 39 :: b ++ [39] -> Single b) ->
  exists t rest, tokenize_internal c99 (w ++ r) = Ok (t, rest).
Proof.
  intros Hs HT HS. destruct (w ++ r) as [|c s] eqn:E.
  { exists (mk_tok T_END false false 0 [36] 0), []. reflexivity. }
  symmetry in E. pose proof (token_first c99 k w c s r HT E) as HF. cbn [tokenize_internal].
  destruct (punct c s) as [[k' n]|] eqn:EP; [eauto|].
  assert (HNS : single_start c = true -> c = 46 /\ digit (at_ s 0)) by (apply punct_none_start; exact EP).
  assert (HD : (digit c \/ (c = 46 /\ digit (at_ s 0))) ->
     exists t rest, (if isdigit c || (c =? 46) then
        match stringtonum c99 (c :: s) with
        | Ok n => Ok (mk_tok T_PREP_NUMBER false false 0 (firstn n (c :: s)) 0, skipn n (c :: s))
        | Error => Error | OutOfBounds => OutOfBounds | NoFuel => NoFuel
        end
      else if c =? 39 then
        match strtochar (c :: s) with
        | Ok (w, r) => Ok (mk_tok T_PREP_CHAR false false 0 w 0, r)
        | Error => Error | OutOfBounds => OutOfBounds | NoFuel => NoFuel
        end
      else if c =? 34 then
        match strtostr (c :: s) with
        | Ok (w, r) => Ok (mk_tok T_PREP_STRING false false 0 w 0, r)
        | Error => Error | OutOfBounds => OutOfBounds | NoFuel => NoFuel
        end
      else
        match isident c with
        | Ok true => ident_token c99 (c :: s)
        | Ok false => Error
        | Error => Error | OutOfBounds => OutOfBounds | NoFuel => NoFuel
        end) = Ok (t, rest)).
  { intro X. replace (isdigit c || (c =? 46)) with true.
    - destruct (number_ok c99 (c :: s) Hs X) as (v & q & -> & _). eauto.
    - symmetry. apply orb_true_iff. destruct X as [X|[X _]]; [left; apply isdigit_iff, X|right; apply Z.eqb_eq, X]. }
  destruct k.
  - assert (isdigit c || (c =? 46) = false).
    { apply orb_false_iff. split; [apply isdigit_false|apply Z.eqb_neq]; unfold nondigit, digit in *; lia. }
    rewrite H. destruct (Z.eqb_spec c 39); [unfold nondigit in HF; lia|]. destruct (Z.eqb_spec c 34); [unfold nondigit in HF; lia|].
    inversion Hs as [|? ? Hc Hs']; subst. unfold asciiz in Hc. rewrite isident_ascii by lia.
    replace (ident_char c) with true by (symmetry; apply ident_char_iff; auto).
    destruct (ident_token_ok c99 c s Hs HF) as (t' & v & q & -> & _). eauto.
  - apply HD, HF.
  - subst c. cbn [isdigit Z.leb Z.compare Pos.compare Pos.compare_cont andb orb Z.eqb Pos.eqb].
    inversion HT as [| |b Hb Hne| |]; subst. specialize (HS b eq_refl eq_refl).
    cbn [app] in E. injection E as E. rewrite <- app_assoc in E. cbn [app] in E. rewrite E.
    rewrite strtochar_complete by exact HS. eauto.
  - subst c. cbn [isdigit Z.leb Z.compare Pos.compare Pos.compare_cont andb orb Z.eqb Pos.eqb].
    inversion HT as [| | |b Hb|]; subst.
    cbn [app] in E. injection E as E. rewrite <- app_assoc in E. cbn [app] in E. rewrite E.
    unfold strtostr. cbn [Z.eqb Pos.eqb].
    rewrite (strtostr_complete _ b _ [] r); [eauto| |exact Hb|reflexivity].
    rewrite app_length. lia.
  - apply HD. right. apply HNS, HF.
Qed.

(* ---- lines ---- *)
Definition item (c99 : bool) (it : nat * kind * list Z) (t : tok) : Prop :=
  let '(n, k, w) := it in represents c99 k w t /\ lws t = Z.of_nat n mod 65536.

Lemma span_space s : let '(ws, r) := span isspace s in
  s = ws ++ r /\ Forall space ws /\ ~ match r with c :: _ => space c | [] => False end.
Proof.
  pose proof (span_spec isspace s) as H. destruct (span isspace s) as [ws r]. destruct H as (E & H1 & H2).
  split; [exact E|]. split; [eapply Forall_impl; [|exact H1]; intros c Hc; apply isspace_iff, Hc|].
  destruct r as [|c r]; [tauto|]. rewrite <- isspace_iff. congruence.
Qed.

Lemma represents_ext c99 k w t e d l p : represents c99 k w t ->
  (e = expandable t) -> represents c99 k w (mk_tok (tt t) e d l (spell t) p).
Proof. intros H ->. destruct k; exact H. Qed.

Lemma represents_not_end c99 k w t : represents c99 k w t -> tt t <> T_END.
Proof.
  destruct k; cbn [represents]; unfold T_END.
  - intros (_ & [Hin|(-> & _)]); [|discriminate].
    assert (X : forallb (fun e => negb (snd e =? 0)) (keyword_table c99) = true) by (destruct c99; vm_compute; reflexivity).
    rewrite forallb_forall in X. specialize (X _ Hin). cbn [snd] in X. apply negb_true_iff, Z.eqb_neq in X. exact X.
  - intros (-> & _). discriminate.
  - intros (-> & _). discriminate.
  - intros (-> & _). discriminate.
  - intros (Hin & _).
    assert (X : forallb (fun e => negb (snd e =? 0)) punctuators = true) by (vm_compute; reflexivity).
    rewrite forallb_forall in X. specialize (X _ Hin). cbn [snd] in X. apply negb_true_iff, Z.eqb_neq in X. exact X.
Qed.

Lemma token_nonempty c99 k w : Token c99 k w -> w <> [].
Proof.
  destruct 1 as [| w H| | |w t Hin]; try discriminate; [eapply PPNum_nonempty; eauto|].
  intros ->. assert (X : forallb (fun e => negb (list_eqb (fst e) [])) punctuators = true) by (vm_compute; reflexivity).
  rewrite forallb_forall in X. specialize (X _ Hin). discriminate.
Qed.

Lemma tokenize_spec c99 s ws r : span isspace s = (ws, r) ->
  tokenize c99 s = match tokenize_internal c99 r with
  | Ok (t, rest) =>
    Ok (mk_tok (tt t) (expandable t) (disabled t) (Z.of_nat (length ws) mod 65536) (spell t) (pval t), rest)
  | Error => Error | OutOfBounds => OutOfBounds | NoFuel => NoFuel end.
Proof. intro H. unfold tokenize. rewrite H. reflexivity. Qed.

Lemma all_sound c99 : forall fuel s ts, Forall asciiz s -> tokenize_all fuel c99 s = Ok ts ->
  exists items, Lexed c99 s items /\ Forall2 (item c99) items ts.
Proof.
  induction fuel as [|n IH]; intros s ts Hs H; [discriminate|]. cbn [tokenize_all] in H.
  pose proof (span_space s) as HS. destruct (span isspace s) as [ws r] eqn:ES. destruct HS as (-> & Hws & Hr).
  rewrite (tokenize_spec c99 _ ws r ES) in H. apply Forall_app in Hs as [_ Hs].
  destruct r as [|c r].
  - cbn in H. injection H as <-. exists []. rewrite app_nil_r. split; constructor; assumption.
  - destruct (tokenize_internal c99 (c :: r)) as [[t rest]| | |] eqn:ET; try discriminate.
    destruct (tok_sound c99 (c :: r) t rest Hs ltac:(discriminate) ET) as (k & w & E & HL & HR).
    cbn [tt] in H. destruct (Z.eqb_spec (tt t) T_END) as [X|_]; [exfalso; exact (represents_not_end _ _ _ _ HR X)|].
    destruct (tokenize_all n c99 rest) as [ts'| | |] eqn:EA; try discriminate. injection H as <-.
    assert (Hrest : Forall asciiz rest) by (rewrite E in Hs; apply Forall_app in Hs; tauto).
    destruct (IH rest ts' Hrest EA) as (items & HX & HF).
    exists ((length ws, k, w) :: items). split.
    + rewrite E. apply X_tok; auto. rewrite <- E. exact Hr.
    + constructor; [|exact HF]. split; [apply represents_ext; auto|reflexivity].
Qed.

Lemma parse_escape_fuel s : parse_escape_sequence s <> NoFuel.
Proof.
  unfold parse_escape_sequence. destruct s as [|c s]; [discriminate|]. destruct (c =? 120); [discriminate|].
  destruct (isoctal c); [|discriminate]. destruct s as [|d s]; [discriminate|].
  destruct (isoctal d); [|discriminate]. destruct s as [|e s]; [discriminate|]. destruct (isoctal e); discriminate.
Qed.

Lemma strtochar_fuel s : strtochar s <> NoFuel.
Proof.
  unfold strtochar. destruct s as [|q t]; [discriminate|]. destruct (negb (q =? 39)); [discriminate|].
  destruct t as [|c u]; [discriminate|]. destruct (c =? 92).
  - pose proof (parse_escape_fuel u). destruct (parse_escape_sequence u) as [[|x y]| | |]; try congruence.
    destruct (x =? 39); discriminate.
  - destruct (c =? 39); [discriminate|]. destruct u as [|x y]; [discriminate|]. destruct (x =? 39); discriminate.
Qed.

Lemma all_fuel c99 : forall fuel s, (length s < fuel)%nat -> Forall asciiz s -> tokenize_all fuel c99 s <> NoFuel.
Proof.
  induction fuel as [|n IH]; intros s Hf Hs; [lia|]. cbn [tokenize_all].
  pose proof (span_space s) as HS. destruct (span isspace s) as [ws r] eqn:ES. destruct HS as (-> & Hws & Hr).
  rewrite (tokenize_spec c99 _ ws r ES). apply Forall_app in Hs as [_ Hs]. rewrite app_length in Hf.
  destruct r as [|c r]; [discriminate|].
  destruct (tokenize_internal c99 (c :: r)) as [[t rest]| | |] eqn:ET; try discriminate.
  - destruct (tok_sound c99 (c :: r) t rest Hs ltac:(discriminate) ET) as (k & w & E & HL & HR).
    cbn [tt]. destruct (Z.eqb_spec (tt t) T_END) as [X|_]; [discriminate|].
    assert (Hrest : Forall asciiz rest) by (rewrite E in Hs; apply Forall_app in Hs; tauto).
    assert (HN : tokenize_all n c99 rest <> NoFuel).
    { apply IH; [|exact Hrest]. rewrite E, app_length in Hf. destruct HL as [HL _]. apply token_nonempty in HL.
      destruct w; [congruence|]. cbn [length] in Hf. lia. }
    destruct (tokenize_all n c99 rest); congruence.
  - (* tokenize_internal itself never runs out of fuel *)
    exfalso. cbn [tokenize_internal] in ET. destruct (punct c r) as [[k m]|] eqn:EP; [discriminate|].
    destruct (isdigit c || (c =? 46)) eqn:ED.
    + assert (HD : digit (at_ (c :: r) 0) \/ (at_ (c :: r) 0 = 46 /\ digit (at_ (c :: r) 1))).
      { apply orb_true_iff in ED as [ED|ED]; [left; apply isdigit_iff, ED|]. apply Z.eqb_eq in ED. right.
        split; [exact ED|]. subst c. pose proof (punct_none_start 46 r EP eq_refl). tauto. }
      destruct (number_ok c99 (c :: r) Hs HD) as (w & q & HL & _). rewrite HL in ET. discriminate.
    + destruct (c =? 39) eqn:E39.
      * pose proof (strtochar_fuel (c :: r)) as X. destruct (strtochar (c :: r)) as [[? ?]| | |]; congruence.
      * destruct (c =? 34) eqn:E34.
        -- unfold strtostr in ET. rewrite E34 in ET.
           assert (G : forall m st x, (length x < m)%nat -> strtostr_loop m st x <> NoFuel).
           { induction m as [|m IHm]; intros st x Hx; [lia|]. cbn [strtostr_loop].
             destruct x as [|y x]; [discriminate|]. cbn [length] in Hx.
             destruct (y =? 34); [discriminate|]. destruct (y =? 92); [|apply IHm; lia].
             destruct (parse_escape_sequence x) as [v| | |] eqn:EE; try discriminate.
             - apply parse_escape_inv in EE as (z & d & -> & _). apply IHm. cbn [length] in Hx. rewrite app_length in Hx. lia.
             - exfalso. exact (parse_escape_fuel _ EE). }
           specialize (G (S (length r)) r r ltac:(lia)). destruct (strtostr_loop (S (length r)) r r) as [[? ?]| | |]; congruence.
        -- inversion Hs as [|? ? Hc Hs']; subst. unfold asciiz in Hc. rewrite isident_ascii in ET by lia.
           destruct (ident_char c) eqn:EI; [|discriminate]. apply ident_char_iff in EI as [EI|EI].
           ++ apply orb_false_iff in ED as [ED _]. apply isdigit_false in ED. contradiction.
           ++ destruct (ident_token_ok c99 c r Hs EI) as (t' & w & q & HT' & _). congruence.
Qed.

Lemma longest_unique c99 k w r k' w' r' : Longest c99 k w r -> Longest c99 k' w' r' -> w ++ r = w' ++ r' -> w = w' /\ r = r'.
Proof.
  intros [H1 H2] [H3 H4] E. specialize (H2 _ _ _ E H3). specialize (H4 _ _ _ (eq_sym E) H1).
  assert (L : length w = length w') by lia. clear -E L. revert w' E L.
  induction w as [|x w IH]; intros [|y w'] E L; try discriminate; [auto|].
  cbn [app] in E. injection E as -> E. injection L as L. destruct (IH w' E L) as [-> ->]. auto.
Qed.

Lemma all_complete c99 : forall s items, Lexed c99 s items -> Forall asciiz s ->
  Forall (fun it : nat * kind * list Z => forall b, snd (fst it) = KChar -> snd it = 39 :: b ++ [39] -> Single b) items ->
  forall fuel, (length s < fuel)%nat -> exists ts, tokenize_all fuel c99 s = Ok ts.
Proof.
  induction 1 as [ws Hws|ws k w rest l Hws HL Hns HX IH]; intros Hs HS fuel Hf.
  - destruct fuel as [|n]; [lia|]. cbn [tokenize_all].
    assert (ES : span isspace ws = (ws, [])).
    { rewrite <- (app_nil_r ws) at 1. apply span_app; [|exact I]. eapply Forall_impl; [|exact Hws]. intros c Hc; apply isspace_iff, Hc. }
    rewrite (tokenize_spec c99 _ _ _ ES). cbn. eauto.
  - destruct fuel as [|n]; [lia|]. cbn [tokenize_all].
    assert (ES : span isspace (ws ++ w ++ rest) = (ws, w ++ rest)).
    { apply span_app; [eapply Forall_impl; [|exact Hws]; intros c Hc; apply isspace_iff, Hc|].
      destruct (w ++ rest) as [|c s]; [easy|]. rewrite <- isspace_iff in Hns. destruct (isspace c); congruence. }
    rewrite (tokenize_spec c99 _ _ _ ES). apply Forall_app in Hs as [_ Hs].
    inversion HS as [|? ? HS1 HS2]; subst. cbn [fst snd] in HS1.
    destruct (tok_complete c99 k w rest Hs (proj1 HL) HS1) as (t & rest' & ET). rewrite ET.
    assert (Hne : w ++ rest <> []).
    { destruct HL as [HT _]. apply token_nonempty in HT. destruct w; [congruence|discriminate]. }
    destruct (tok_sound c99 _ t rest' Hs Hne ET) as (k' & w' & E & HL' & HR).
    destruct (longest_unique _ _ _ _ _ _ _ HL HL' E) as [<- <-].
    cbn [tt]. destruct (Z.eqb_spec (tt t) T_END) as [X|_]; [exfalso; exact (represents_not_end _ _ _ _ HR X)|].
    apply Forall_app in Hs as [_ Hs].
    destruct (IH Hs HS2 n) as (ts & ->).
    { rewrite !app_length in Hf. destruct HL as [HT _]. apply token_nonempty in HT. destruct w; [congruence|cbn [length] in Hf; lia]. }
    eauto.
Qed.
