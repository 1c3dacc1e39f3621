From Coq Require Import List ZArith Lia Bool.
From Verif Require Import TokModel EscModel EscProofs TokenizeModel TokenizeSpec TokenizeProofs Bytes.
Import ListNotations.
Open Scope Z_scope.

(* ---- punctuators ---- *)
Lemma at0_cons s c : at_ s 0 = c -> c <> 0 -> exists s', s = c :: s'.
Proof. destruct s as [|x s]; unfold at_; cbn; [congruence|]. intros -> _. eauto. Qed.
Lemma at1_cons s c : at_ s 1 = c -> c <> 0 -> exists x s', s = x :: c :: s'.
Proof. destruct s as [|x [|y s]]; unfold at_; cbn; try congruence. intros -> _. eauto. Qed.

Definition punct_tableb (w : list Z) (t : Z) : bool :=
  existsb (fun e => list_eqb w (fst e) && (t =? snd e)) punctuators.
Lemma punct_tableb_in w t : punct_tableb w t = true -> In (w, t) punctuators.
Proof.
  unfold punct_tableb. intro H. apply existsb_exists in H as ([w' t'] & Hin & E). cbn [fst snd] in E.
  apply andb_true_iff in E as [E1 E2]. apply list_eqb_eq in E1. apply Z.eqb_eq in E2. subst. exact Hin.
Qed.

Lemma at_cases s : (s = [] /\ at_ s 0 = 0 /\ at_ s 1 = 0) \/
  (exists c, s = [c] /\ at_ s 0 = c /\ at_ s 1 = 0) \/
  (exists c d r, s = c :: d :: r /\ at_ s 0 = c /\ at_ s 1 = d).
Proof. destruct s as [|c [|d r]]; [left|right; left|right; right]; eauto 10. Qed.

Lemma punct_ok c s k n : punct c s = Some (k, n) ->
  exists w r, c :: s = w ++ r /\ length w = n /\ In (w, k) punctuators.
Proof.
  intro H. exists (firstn n (c :: s)), (skipn n (c :: s)).
  rewrite firstn_skipn. split; [reflexivity|].
  unfold punct in H.
  destruct (at_cases s) as [(-> & E0 & E1)|[(c1 & -> & E0 & E1)|(c1 & c2 & r & -> & E0 & E1)]];
    rewrite E0, E1 in H; clear E0 E1; cbv zeta in H;
    repeat match type of H with
    | (if ?b && ?d then _ else _) = _ => destruct (b && d) eqn:?
    | (if ?b then _ else _) = _ => destruct b eqn:?
    | Some (if ?b then _ else _) = _ => destruct b eqn:?
    end; try discriminate H; injection H as <- <-;
    repeat match goal with
    | E : (_ =? _) = true |- _ => apply Z.eqb_eq in E; subst
    | E : (_ && _) = true |- _ => apply andb_true_iff in E as [? ?]
    | E : (_ =? _) = false |- _ => clear E
    end; try discriminate;
    try (split; [reflexivity|apply punct_tableb_in; vm_compute; reflexivity]).
  all: match goal with E : existsb _ _ = true |- _ => apply existsb_exists in E as (x & Hx & Ex); apply Z.eqb_eq in Ex; subst x;
     repeat (destruct Hx as [<-|Hx]; [split; [reflexivity|apply punct_tableb_in; vm_compute; reflexivity]|]); destruct Hx end.
Qed.

Lemma punct_some_pos c s k n : punct c s = Some (k, n) -> (1 <= n)%nat.
Proof.
  intro H. apply punct_ok in H as (w & r & _ & <- & Hin).
  assert (X : forallb (fun e => Nat.leb 1 (length (fst e))) punctuators = true) by (vm_compute; reflexivity).
  rewrite forallb_forall in X. specialize (X _ Hin). apply Nat.leb_le in X. exact X.
Qed.

(* the single character punctuators: c alone in the table *)
Definition single_start (c : Z) : bool := existsb (fun e => list_eqb (fst e) [c]) punctuators.

Lemma punct_start c s : single_start c = true ->
  punct c s <> None \/ (c = 46 /\ isdigit (at_ s 0) = true).
Proof.
  intro H. unfold single_start in H. apply existsb_exists in H as ([w t] & Hin & E). cbn [fst] in E.
  apply list_eqb_eq in E. subst w.
  assert (X : forallb (fun e => negb (Nat.eqb (length (fst e)) 1) ||
     match fst e with c :: _ => existsb (Z.eqb c) [42;47;37;43;45;60;62;38;94;124;61;33;35;40;41;123;125;91;93;44;59;58;63;126;92;36;64;96;46] | [] => false end)
     punctuators = true) by (vm_compute; reflexivity).
  rewrite forallb_forall in X. specialize (X _ Hin). cbn [fst length Nat.eqb negb orb] in X.
  apply existsb_exists in X as (x & Hx & Ex). apply Z.eqb_eq in Ex. subst x. clear Hin.
  destruct (at_ s 0 =? 46) eqn:E0, (isdigit (at_ s 0)) eqn:Ed; unfold punct; cbv zeta;
  repeat (destruct Hx as [<-|Hx];
    [cbn [Z.eqb Pos.eqb existsb orb andb negb]; rewrite ?Ed; cbn [negb andb]; (left; discriminate) || (right; split; reflexivity)|]);
  destruct Hx.
Qed.

Lemma punct_first w t c s r : In (w, t) punctuators -> c :: s = w ++ r -> single_start c = true.
Proof.
  intros Hin E.
  assert (X : forallb (fun e => match fst e with c :: _ => single_start c | [] => false end) punctuators = true)
    by (vm_compute; reflexivity).
  rewrite forallb_forall in X. specialize (X _ Hin). cbn [fst] in X.
  destruct w as [|x w]; [discriminate|]. cbn [app] in E. injection E as -> _. exact X.
Qed.

Lemma punct_max w t c s r : In (w, t) punctuators -> c :: s = w ++ r ->
  (exists k n, punct c s = Some (k, n) /\ (length w <= n)%nat) \/
  (c = 46 /\ isdigit (at_ s 0) = true /\ length w = 1%nat).
Proof.
  intros Hin E. destruct (Nat.eq_dec (length w) 1) as [L1|L1].
  - destruct (punct_start c s (punct_first w t c s r Hin E)) as [H|[H1 H2]].
    + left. destruct (punct c s) as [[k n]|] eqn:H'; [clear H; rename H' into H|congruence]. exists k, n. split; [reflexivity|]. apply punct_some_pos in H. lia.
    + right. auto.
  - left.
    assert (X : forall w t, In (w, t) punctuators -> length w <> 1%nat ->
       In w [[45;62];[43;43];[45;45];[60;60];[62;62];[60;61];[62;61];[61;61];[33;61];[38;38];[124;124];[46;46;46];
             [42;61];[47;61];[37;61];[43;61];[45;61];[60;60;61];[62;62;61];[38;61];[94;61];[124;61];[35;35]]).
    { assert (Y : forallb (fun e => Nat.eqb (length (fst e)) 1 || existsb (list_eqb (fst e))
         [[45;62];[43;43];[45;45];[60;60];[62;62];[60;61];[62;61];[61;61];[33;61];[38;38];[124;124];[46;46;46];
             [42;61];[47;61];[37;61];[43;61];[45;61];[60;60;61];[62;62;61];[38;61];[94;61];[124;61];[35;35]]) punctuators = true)
        by (vm_compute; reflexivity).
      intros w0 t0 Hin0 Hl. rewrite forallb_forall in Y. specialize (Y _ Hin0). cbn [fst] in Y.
      apply orb_true_iff in Y as [Y|Y]; [apply Nat.eqb_eq in Y; contradiction|].
      apply existsb_exists in Y as (x & Hx & Ex). apply list_eqb_eq in Ex. subst. exact Hx. }
    specialize (X w t Hin L1).
    repeat (destruct X as [<-|X];
      [cbn [app] in E; injection E as -> ->; unfold punct, at_; cbn [nth Z.eqb Pos.eqb];
       try (do 2 eexists; split; [reflexivity|cbn; lia])|]); try (destruct X).
    all: destruct (nth 0 r 0 =? 61); do 2 eexists; (split; [reflexivity|cbn; lia]).
Qed.

(* ---- literals ---- *)
Definition hexish (c : Z) : Prop := isxdigit c = true \/ isoctal c = true.
Lemma hexish_plain c : hexish c -> c <> 34 /\ c <> 39 /\ c <> 92.
Proof. intros [H|H]; [apply isxdigit_iff in H; unfold EscSpec.hex_digit in H|apply isoctal_iff in H; unfold EscSpec.oct_digit in H]; lia. Qed.

Lemma span_len p l : l = fst (span p l) ++ snd (span p l).
Proof. pose proof (span_spec p l) as H. destruct (span p l). apply H. Qed.

Lemma span_quote p b q r : p q = false ->
  exists d b'', b = d ++ b'' /\ snd (span p (b ++ q :: r)) = b'' ++ q :: r /\ Forall (fun c => p c = true) d.
Proof.
  intro Hq. induction b as [|x b IH]; cbn [app span].
  - rewrite Hq. exists [], []. auto.
  - destruct (p x) eqn:E.
    + destruct IH as (d & b'' & -> & H & Hd). destruct (span p ((d ++ b'') ++ q :: r)). cbn [snd] in *.
      exists (x :: d), b''. auto.
    + exists [], (x :: b). auto.
Qed.

Lemma parse_escape_inv t rest : parse_escape_sequence t = Ok rest ->
  exists c d, t = c :: d ++ rest /\ Forall hexish d.
Proof.
  unfold parse_escape_sequence. destruct t as [|c t]; [discriminate|].
  destruct (c =? 120).
  - intros [= <-]. exists c, (fst (span isxdigit t)). rewrite <- span_len. split; [reflexivity|].
    pose proof (span_spec isxdigit t) as H. destruct (span isxdigit t) as [a b]. destruct H as (_ & H & _). cbn [fst].
    eapply Forall_impl; [|exact H]. intros x Hx; left; exact Hx.
  - destruct (isoctal c).
    + destruct t as [|d u]; [intros [= <-]; exists c, []; auto|].
      destruct (isoctal d) eqn:Ed; [|intros [= <-]; exists c, []; auto].
      destruct u as [|e w].
      * intros [= <-]. exists c, [d]. split; [reflexivity|]. constructor; [right; exact Ed|constructor].
      * destruct (isoctal e) eqn:Ee; intros [= <-].
        -- exists c, [d; e]. split; [reflexivity|]. (constructor; [right; assumption|constructor; [right; assumption|constructor]]).
        -- exists c, [d]. split; [reflexivity|]. constructor; [right; exact Ed|constructor].
    + intros [= <-]. exists c, []. auto.
Qed.

Lemma parse_escape_quote q c b r : (q = 34 \/ q = 39) ->
  exists d b'', b = d ++ b'' /\ parse_escape_sequence (c :: b ++ q :: r) = Ok (b'' ++ q :: r) /\ Forall hexish d.
Proof.
  intro Hq. unfold parse_escape_sequence. destruct (c =? 120).
  - destruct (span_quote isxdigit b q r) as (d & b'' & -> & H & Hd).
    { destruct Hq as [-> | ->]; reflexivity. }
    exists d, b''. rewrite H. split; [reflexivity|]. split; [reflexivity|].
    eapply Forall_impl; [|exact Hd]. intros x Hx; left; exact Hx.
  - destruct (isoctal c); [|exists [], b; auto].
    assert (Hnq : isoctal q = false) by (destruct Hq as [-> | ->]; reflexivity).
    destruct b as [|d b]; cbn [app]; [rewrite Hnq; exists [], []; auto|].
    destruct (isoctal d) eqn:Ed; [|exists [], (d :: b); auto].
    destruct b as [|e b]; cbn [app]; [rewrite Hnq; exists [d], []; split; [reflexivity|]; split; [reflexivity|]; constructor; [right; exact Ed|constructor]|].
    destruct (isoctal e) eqn:Ee.
    + exists [d; e], b. split; [reflexivity|]. split; [reflexivity|]. (constructor; [right; assumption|constructor; [right; assumption|constructor]]).
    + exists [d], (e :: b). split; [reflexivity|]. split; [reflexivity|]. constructor; [right; exact Ed|constructor].
Qed.

Lemma body_drop q d b : (q = 34 \/ q = 39) -> Forall hexish d -> Body q (d ++ b) -> Body q b.
Proof.
  intros Hq. induction 1 as [|x d Hx Hd IH]; cbn [app]; intro H; [exact H|]. apply IH.
  apply hexish_plain in Hx. inversion H; subst; [assumption|lia].
Qed.
Lemma body_add q d b : (q = 34 \/ q = 39) -> Forall hexish d -> Body q b -> Body q (d ++ b).
Proof.
  intros Hq. induction 1 as [|x d Hx Hd IH]; cbn [app]; intro H; [exact H|].
  apply hexish_plain in Hx. apply B_plain; [lia|lia|auto].
Qed.

Lemma body_unique q b r : q <> 92 -> Body q b -> forall b' r', Body q b' -> b ++ q :: r = b' ++ q :: r' -> b = b'.
Proof.
  intros Hq H. induction H as [|c b Hc1 Hc2 Hb IH|c b Hb IH]; intros b' r' Hb' E.
  - inversion Hb'; subst; cbn [app] in E; [reflexivity| |]; inversion E; congruence.
  - inversion Hb'; subst; cbn [app] in E; inversion E; subst; try congruence. f_equal. eauto.
  - inversion Hb'; subst; cbn [app] in E; inversion E; subst; try congruence. do 2 f_equal. eauto.
Qed.

Lemma strtostr_complete : forall n b start pre r, (length b < n)%nat -> Body 34 b -> start = pre ++ b ++ 34 :: r ->
  strtostr_loop n start (b ++ 34 :: r) = Ok (pre ++ b, r).
Proof.
  induction n as [|n IH]; intros b start pre r Hn Hb Hst; [lia|]. cbn [strtostr_loop].
  inversion Hb as [|c b' H1 H2 Hb'|c b' Hb']; subst; cbn [app length] in *.
  - cbn [Z.eqb Pos.eqb]. rewrite app_nil_r. rewrite app_length, Nat.add_sub, firstn_app_exact. reflexivity.
  - destruct (Z.eqb_spec c 34); [congruence|]. destruct (Z.eqb_spec c 92); [congruence|].
    rewrite (IH b' _ (pre ++ [c]) r); [rewrite <- app_assoc; reflexivity|lia|exact Hb'|rewrite <- app_assoc; reflexivity].
  - cbn [Z.eqb Pos.eqb]. destruct (parse_escape_quote 34 c b' r (or_introl eq_refl)) as (d & b'' & -> & -> & Hd).
    rewrite app_length in Hn.
    rewrite (IH b'' _ (pre ++ 92 :: c :: d) r); [rewrite <- app_assoc; reflexivity|lia|eapply body_drop; eauto|].
    rewrite <- !app_assoc. reflexivity.
Qed.

Lemma strtostr_sound : forall n start s w r, strtostr_loop n start s = Ok (w, r) ->
  forall pre, start = pre ++ s -> exists b, s = b ++ 34 :: r /\ Body 34 b /\ w = pre ++ b.
Proof.
  induction n as [|n IH]; intros start s w r H pre Hst; [discriminate|]. cbn [strtostr_loop] in H.
  destruct s as [|c t]; [discriminate|]. destruct (Z.eqb_spec c 34) as [->|N1].
  - injection H as H <-. exists []. split; [reflexivity|]. split; [constructor|]. rewrite app_nil_r.
    rewrite Hst in H. rewrite app_length, Nat.add_sub, firstn_app_exact in H. auto.
  - destruct (Z.eqb_spec c 92) as [->|N2].
    + destruct (parse_escape_sequence t) as [rest| | |] eqn:E; try discriminate.
      apply parse_escape_inv in E as (x & d & -> & Hd).
      destruct (IH _ _ _ _ H (pre ++ 92 :: x :: d)) as (b & -> & Hb & ->).
      { rewrite Hst, <- app_assoc. reflexivity. }
      exists (92 :: x :: d ++ b). split; [cbn [app]; rewrite <- app_assoc; reflexivity|].
      split; [apply B_esc, body_add; auto|]. rewrite <- app_assoc. reflexivity.
    + destruct (IH _ _ _ _ H (pre ++ [c])) as (b & -> & Hb & ->).
      { rewrite Hst, <- app_assoc. reflexivity. }
      exists (c :: b). split; [reflexivity|]. split; [constructor; auto|]. rewrite <- app_assoc. reflexivity.
Qed.

Lemma strtochar_sound s w r : strtochar (39 :: s) = Ok (w, r) ->
  s = w ++ 39 :: r /\ Body 39 w /\ w <> [].
Proof.
  unfold strtochar. cbn [Z.eqb Pos.eqb negb].
  destruct s as [|c u]; [discriminate|].
  assert (G : forall p v, c :: u = p ++ v -> Body 39 p -> p <> [] ->
     match v with c0 :: u0 => if c0 =? 39 then Ok (firstn (length (c :: u) - length (c0 :: u0)) (c :: u), u0) else Error | [] => Error end = Ok (w, r) ->
     c :: u = w ++ 39 :: r /\ Body 39 w /\ w <> []).
  { intros p v Hpv Hp Hne H. destruct v as [|c0 u0]; [discriminate|].
    destruct (Z.eqb_spec c0 39) as [->|]; [|discriminate]. rewrite Hpv in H.
    rewrite app_length, Nat.add_sub, firstn_app_exact in H. injection H as <- <-. auto. }
  destruct (Z.eqb_spec c 92) as [->|N].
  - destruct (parse_escape_sequence u) as [v| | |] eqn:E; try discriminate.
    apply parse_escape_inv in E as (x & d & -> & Hd).
    intro H. apply (G (92 :: x :: d) v); [reflexivity| |discriminate|exact H].
    apply B_esc. rewrite <- (app_nil_r d). apply body_add; auto; constructor.
  - destruct (Z.eqb_spec c 39) as [->|N2]; [discriminate|].
    intro H. apply (G [c] u); [reflexivity| |discriminate|exact H]. constructor; auto. constructor.
Qed.

Lemma hex_isxdigit c : hex c -> isxdigit c = true.
Proof. intro H. apply isxdigit_iff. unfold hex, digit, EscSpec.hex_digit in *. lia. Qed.
Lemma oct_isoctal c : oct c -> isoctal c = true.
Proof. intro H. apply isoctal_iff. unfold oct, EscSpec.oct_digit in *. lia. Qed.

Lemma strtochar_complete b r : Single b -> strtochar (39 :: b ++ 39 :: r) = Ok (b, r).
Proof.
  intro H. unfold strtochar. cbn [Z.eqb Pos.eqb negb].
  assert (G : forall p, p = b -> (if 39 =? 39 then Ok (firstn (length (p ++ 39 :: r) - length (39 :: r)) (p ++ 39 :: r), r) else Error) = Ok (b, r)).
  { intros p ->. rewrite app_length, Nat.add_sub, firstn_app_exact. reflexivity. }
  destruct H as [c N1 N2|c N1 N2|ds Hd Hl|ds Hd]; cbn [app].
  - destruct (Z.eqb_spec c 92); [congruence|]. destruct (Z.eqb_spec c 39); [congruence|]. exact (G [c] eq_refl).
  - cbn [Z.eqb Pos.eqb parse_escape_sequence]. destruct (Z.eqb_spec c 120); [congruence|].
    destruct (isoctal c) eqn:E; [exfalso; apply N1; apply isoctal_iff in E; exact E|].
    exact (G [92; c] eq_refl).
  - cbn [Z.eqb Pos.eqb].
    rewrite (parse_octal ds (39 :: r)).
    + exact (G (92 :: ds) eq_refl).
    + exact Hd.
    + exact Hl.
    + right. cbn. unfold EscSpec.oct_digit. lia.
  - cbn [Z.eqb Pos.eqb].
    rewrite (parse_hex ds (39 :: r)).
    + exact (G (92 :: 120 :: ds) eq_refl).
    + eapply Forall_impl; [|exact Hd]. intros x Hx. apply isxdigit_iff, hex_isxdigit, Hx.
    + cbn. unfold EscSpec.hex_digit. lia.
Qed.
