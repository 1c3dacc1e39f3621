From Coq Require Import List ZArith Lia Bool.
From Verif Require Import TokModel EscModel EscProofs TokenizeModel TokenizeSpec Bytes.
Import ListNotations.
Open Scope Z_scope.

Definition asciiz (c : Z) : Prop := 0 < c < 128.

(* ---- characters ---- *)
Lemma isdigit_iff c : isdigit c = true <-> digit c.
Proof. unfold isdigit, digit. rewrite andb_true_iff, !Z.leb_le. lia. Qed.
Lemma isdigit_false c : isdigit c = false <-> ~ digit c.
Proof. rewrite <- isdigit_iff. destruct (isdigit c); split; congruence. Qed.
Lemma isspace_iff c : isspace c = true <-> space c.
Proof. unfold isspace, space. rewrite orb_true_iff, andb_true_iff, Z.eqb_eq, !Z.leb_le. lia. Qed.
Lemma isalpha_iff c : isalpha c = true <-> (nondigit c /\ c <> 95).
Proof. unfold isalpha, nondigit. rewrite orb_true_iff, !andb_true_iff, !Z.leb_le. lia. Qed.
Lemma ident_char_iff c : ident_char c = true <-> digit c \/ nondigit c.
Proof.
  unfold ident_char, digit, nondigit. rewrite !orb_true_iff, !andb_true_iff, Z.eqb_eq, !Z.leb_le. lia.
Qed.
Lemma isident_ascii c : c < 128 -> isident c = Ok (ident_char c).
Proof. intro H. unfold isident. destruct (Z.leb_spec 128 c); [lia|easy]. Qed.
Lemma ident_char_0 : ident_char 0 = false. Proof. reflexivity. Qed.

Lemma at_ascii s i : Forall asciiz s -> 0 <= at_ s i < 128.
Proof.
  intro H. unfold at_. destruct (nth_in_or_default i s 0) as [Hin| ->]; [|lia].
  rewrite Forall_forall in H. apply H in Hin. unfold asciiz in Hin; lia.
Qed.

(* ---- identifiers ---- *)
Lemma ident_len_span s : Forall asciiz s -> ident_len s = Ok (length (fst (span ident_char s))).
Proof.
  induction 1 as [|c s Hc Hs IH]; [reflexivity|]. cbn [ident_len span]. unfold asciiz in Hc.
  rewrite isident_ascii by lia. destruct (ident_char c); [|reflexivity].
  rewrite IH. destruct (span ident_char s); reflexivity.
Qed.

Lemma span_spec p s : let '(a, b) := span p s in
  s = a ++ b /\ Forall (fun c => p c = true) a /\ (match b with c :: _ => p c = false | [] => True end).
Proof.
  induction s as [|c s IH]; cbn [span]; [auto|]. destruct (p c) eqn:E.
  - destruct (span p s) as [a b]. destruct IH as (-> & H1 & H2). cbn [app]. auto.
  - auto.
Qed.

Lemma prefixb_iff p s : prefixb p s = true <-> exists r, s = p ++ r.
Proof.
  revert s; induction p as [|a p IH]; intro s; cbn [prefixb app].
  - split; [intros _; exists s; reflexivity|easy].
  - destruct s as [|b s]; [split; [discriminate|intros (r & H); discriminate]|].
    rewrite andb_true_iff, Z.eqb_eq, IH. split.
    + intros (-> & r & ->). exists r; reflexivity.
    + intros (r & H). injection H as -> ->. eauto.
Qed.

Lemma at_app p r i : at_ (p ++ r) (length p + i) = at_ r i.
Proof. unfold at_. rewrite app_nth2 by lia. f_equal; lia. Qed.
Lemma at_app0 p r : at_ (p ++ r) (length p) = at_ r 0.
Proof. rewrite <- (at_app p r 0). f_equal; lia. Qed.

(* A word of identifier characters is accepted iff it is the whole maximal run. *)
Lemma kw_accept w s : Forall (fun c => ident_char c = true) w ->
  (prefixb w s && negb (ident_char (at_ s (length w)))) = list_eqb w (fst (span ident_char s)).
Proof.
  intro Hw. pose proof (span_spec ident_char s) as HS. destruct (span ident_char s) as [a b].
  destruct HS as (-> & Ha & Hb). cbn [fst].
  destruct (list_eqb w a) eqn:E.
  - apply list_eqb_eq in E as ->. replace (prefixb a (a ++ b)) with true by (symmetry; apply prefixb_iff; eauto).
    rewrite at_app0. destruct b as [|c b]; [reflexivity|]. unfold at_; cbn [nth]. rewrite Hb. reflexivity.
  - apply andb_false_iff. destruct (prefixb w (a ++ b)) eqn:P; [right|auto].
    apply prefixb_iff in P as (r & P). apply negb_false_iff. rewrite P, at_app0.
    assert (Hne : w <> a) by (intro X; apply list_eqb_eq in X; congruence). clear E.
    revert a Ha P Hne. induction Hw as [|c w Hc Hw IH]; intros a Ha P Hne; cbn [app] in P.
    + destruct a as [|x a]; [congruence|]. cbn [app] in P. subst r. inversion Ha; assumption.
    + destruct a as [|x a]; cbn [app] in P.
      * destruct b as [|y b]; [discriminate|]. injection P as -> ->. congruence.
      * injection P as -> P. inversion Ha; subst. apply (IH a); auto. congruence.
Qed.

Fixpoint kw_find (c99 : bool) (kws : list (list Z * Z * bool)) (w : list Z) : option Z :=
  match kws with
  | [] => None
  | (v, t, need99) :: r => if (negb need99 || c99) && list_eqb v w then Some t else kw_find c99 r w
  end.

Lemma match_keyword_find c99 s : Forall asciiz s -> forall kws,
  Forall (fun e => Forall (fun c => ident_char c = true) (fst (fst e))) kws ->
  let w := fst (span ident_char s) in
  match_keyword c99 kws s = Ok (match kw_find c99 kws w with Some t => Some (t, length w) | None => None end).
Proof.
  intros Hs kws Hk w. induction Hk as [|[[v t] n] kws Hv Hk IH]; [reflexivity|].
  cbn [match_keyword kw_find fst] in *. pose proof (kw_accept v s Hv) as HA. fold w in HA.
  destruct (negb n || c99); cbn [andb]; [|exact IH].
  destruct (prefixb v s); cbn [andb] in HA.
  - pose proof (at_ascii s (length v) Hs). rewrite isident_ascii by lia.
    destruct (ident_char (at_ s (length v))); cbn [negb] in HA; rewrite <- HA.
    + exact IH.
    + symmetry in HA. apply list_eqb_eq in HA. rewrite HA. reflexivity.
  - rewrite <- HA. exact IH.
Qed.

Lemma keywords_ident : Forall (fun e => Forall (fun c => ident_char c = true) (fst (fst e))) keywords.
Proof.
  apply Forall_forall. intros e He. apply Forall_forall. intros c Hc.
  assert (H : forallb (fun e : list Z * Z * bool => forallb ident_char (fst (fst e))) keywords = true)
    by (vm_compute; reflexivity).
  rewrite forallb_forall in H. specialize (H e He). rewrite forallb_forall in H. auto.
Qed.

(* The recogniser's table against the keyword table of the specification. *)
Definition spec_find (c99 : bool) (w : list Z) : option Z :=
  match find (fun e => list_eqb (fst e) w) (keyword_table c99) with Some e => Some (snd e) | None => None end.

Lemma kw_find_in c99 kws w t : kw_find c99 kws w = Some t -> exists n, In (w, t, n) kws /\ (negb n || c99) = true.
Proof.
  induction kws as [|[[v t'] n] kws IH]; cbn [kw_find]; [discriminate|].
  destruct ((negb n || c99) && list_eqb v w) eqn:E.
  - intros [= <-]. apply andb_true_iff in E as [E1 E2]. apply list_eqb_eq in E2 as ->. exists n. cbn; auto.
  - intro H. destruct (IH H) as (m & H1 & H2). exists m. cbn; auto.
Qed.
Lemma kw_find_none c99 kws w : kw_find c99 kws w = None -> forall t n, In (w, t, n) kws -> (negb n || c99) = false.
Proof.
  induction kws as [|[[v t'] m] kws IH]; cbn [kw_find]; intros H t n Hin; [destruct Hin|].
  destruct ((negb m || c99) && list_eqb v w) eqn:E; [discriminate|].
  destruct Hin as [Hin|Hin]; [|eauto]. injection Hin as -> -> ->.
  apply andb_false_iff in E as [E|E]; [exact E|].
  exfalso. assert (list_eqb w w = true) by (apply list_eqb_eq; reflexivity). congruence.
Qed.

Lemma tables_agree c99 w t : (exists n, In (w, t, n) keywords /\ (negb n || c99) = true) <-> In (w, t) (keyword_table c99).
Proof.
  assert (H1 : forallb (fun e : list Z * Z * bool => let '(w, t, n) := e in
     if negb n || c99 then existsb (fun f => list_eqb w (fst f) && (t =? snd f)) (keyword_table c99) else true) keywords = true)
    by (destruct c99; vm_compute; reflexivity).
  assert (H2 : forallb (fun f => existsb (fun e : list Z * Z * bool => let '(w, t, n) := e in
     (negb n || c99) && (list_eqb w (fst f) && (t =? snd f))) keywords) (keyword_table c99) = true)
    by (destruct c99; vm_compute; reflexivity).
  rewrite forallb_forall in H1, H2. split.
  - intros (n & Hin & Hn). specialize (H1 _ Hin). cbn beta iota in H1. rewrite Hn in H1.
    apply existsb_exists in H1 as ([w' t'] & Hf & E). cbn [fst snd] in E.
    apply andb_true_iff in E as [E1 E2]. apply list_eqb_eq in E1. apply Z.eqb_eq in E2. subst. exact Hf.
  - intro Hin. specialize (H2 _ Hin). cbn [fst snd] in H2.
    apply existsb_exists in H2 as ([[w' t'] n] & He & E).
    apply andb_true_iff in E as [E0 E]. apply andb_true_iff in E as [E1 E2].
    apply list_eqb_eq in E1. apply Z.eqb_eq in E2. subst. eauto.
Qed.

Lemma skipn_app_exact {A} (a b : list A) : skipn (length a) (a ++ b) = b.
Proof. rewrite skipn_app, skipn_all, Nat.sub_diag. reflexivity. Qed.
Lemma firstn_app_exact {A} (a b : list A) : firstn (length a) (a ++ b) = a.
Proof. rewrite firstn_app, firstn_all, Nat.sub_diag. cbn [firstn]. apply app_nil_r. Qed.

(* tokenising text starting with a nondigit *)
Lemma ident_token_ok c99 c s : Forall asciiz (c :: s) -> nondigit c ->
  exists t w rest, ident_token c99 (c :: s) = Ok (t, rest) /\ c :: s = (c :: w) ++ rest /\
    Forall (fun x => digit x \/ nondigit x) w /\
    match rest with x :: _ => ~ (digit x \/ nondigit x) | [] => True end /\
    represents c99 KIdent (c :: w) t.
Proof.
  intros Hs Hc. pose proof (match_keyword_find c99 (c :: s) Hs keywords keywords_ident) as HM. cbv zeta in HM.
  assert (Hi : ident_char c = true) by (apply ident_char_iff; auto).
  inversion Hs as [|? ? Hc0 Hs0]; subst.
  assert (Hspan : fst (span ident_char (c :: s)) = c :: fst (span ident_char s)).
  { cbn [span]. rewrite Hi. destruct (span ident_char s); reflexivity. }
  rewrite Hspan in HM.
  pose proof (span_spec ident_char s) as HS. destruct (span ident_char s) as [w rest] eqn:Esp.
  destruct HS as (-> & Hw & Hr). cbn [fst] in *.
  assert (Hw' : Forall (fun x => digit x \/ nondigit x) w).
  { eapply Forall_impl; [|exact Hw]. intros x Hx. apply ident_char_iff, Hx. }
  assert (Hr' : match rest with x :: _ => ~ (digit x \/ nondigit x) | [] => True end).
  { destruct rest as [|x rest]; [easy|]. intro X. apply ident_char_iff in X. congruence. }
  unfold ident_token. rewrite HM. destruct (kw_find c99 keywords (c :: w)) as [t|] eqn:E.
  - rewrite app_comm_cons, firstn_app_exact, skipn_app_exact.
    eexists _, w, rest. split; [reflexivity|]. split; [reflexivity|]. split; [exact Hw'|]. split; [exact Hr'|].
    split; [reflexivity|]. left. cbn [tt]. apply tables_agree, kw_find_in, E.
  - cbn [tl]. rewrite ident_len_span by exact Hs0. rewrite Esp. cbn [fst].
    change (S (length w)) with (length (c :: w)). rewrite app_comm_cons, firstn_app_exact, skipn_app_exact.
    eexists _, w, rest. split; [reflexivity|]. split; [reflexivity|]. split; [exact Hw'|]. split; [exact Hr'|].
    split; [reflexivity|]. right. split; [reflexivity|]. split; [reflexivity|].
    intros n Hin. apply tables_agree in Hin as (m & Hin & Hm).
    rewrite (kw_find_none c99 keywords (c :: w) E n m Hin) in Hm. discriminate.
Qed.

(* ---- numbers ---- *)
Definition expo (c99 : bool) (e : Z) : Prop := e = 101 \/ e = 69 \/ (c99 = true /\ (e = 112 \/ e = 80)).
Definition ext (c : Z) : Prop := digit c \/ nondigit c \/ c = 46.
Definition sign (c : Z) : Prop := c = 43 \/ c = 45.
Definition ends_expo (c99 : bool) (p : list Z) : Prop := exists q e, p = q ++ [e] /\ expo c99 e.

Lemma expo_nondigit c99 e : expo c99 e -> nondigit e.
Proof. unfold expo, nondigit. lia. Qed.

Lemma expo_test c99 c : isalpha c = true ->
  ((tolower c =? 101) || (c99 && (tolower c =? 112))) = true <-> expo c99 c.
Proof.
  intro Ha. apply isalpha_iff in Ha as [Hn H95]. unfold nondigit in Hn.
  unfold tolower, expo. rewrite orb_true_iff, andb_true_iff, !Z.eqb_eq.
  destruct (Z.leb_spec 65 c), (Z.leb_spec c 90); cbn [andb]; destruct c99; split; intro H'; try lia.
  all: intuition; try lia; try discriminate.
Qed.

Lemma num_loop_ok c99 : forall fuel s p, (length s < fuel)%nat -> Forall asciiz s -> PPNum c99 p ->
  ~ (ends_expo c99 p /\ sign (at_ s 0)) ->
  exists w r, num_loop fuel c99 s = Ok (length w) /\ s = w ++ r /\ PPNum c99 (p ++ w) /\
    ~ ext (at_ r 0) /\ ~ (ends_expo c99 (p ++ w) /\ sign (at_ r 0)).
Proof.
  induction fuel as [|n IH]; intros s p Hf Hs Hp HJ; [lia|]. cbn [num_loop].
  assert (Hstop : isdigit (at_ s 0) || (at_ s 0 =? 46) || (at_ s 0 =? 95) = false -> isalpha (at_ s 0) = false ->
     ~ ext (at_ s 0)).
  { intros H1 H2. apply orb_false_iff in H1 as [H1 H3]. apply orb_false_iff in H1 as [H1 H4].
    apply isdigit_false in H1. apply Z.eqb_neq in H3. apply Z.eqb_neq in H4.
    intros [X|[X|X]]; auto. assert (isalpha (at_ s 0) = true) by (apply isalpha_iff; auto). congruence. }
  destruct (isdigit (at_ s 0) || (at_ s 0 =? 46) || (at_ s 0 =? 95)) eqn:E1.
  - assert (Hx : ext (at_ s 0) /\ ~ expo c99 (at_ s 0)).
    { apply orb_true_iff in E1 as [E1|E1]; [apply orb_true_iff in E1 as [E1|E1]|].
      - apply isdigit_iff in E1. split; [left; exact E1|]. intro X. unfold expo, digit in *. lia.
      - apply Z.eqb_eq in E1. rewrite E1. split; [right; right; easy|]. unfold expo. lia.
      - apply Z.eqb_eq in E1. rewrite E1. split; [right; left; unfold nondigit; lia|]. unfold expo. lia. }
    destruct s as [|c s]; [unfold at_ in E1; cbn in E1; discriminate|].
    change (at_ (c :: s) 0) with c in *. cbn [tl]. inversion Hs; subst. cbn [length] in Hf.
    destruct Hx as [Hx1 Hx2].
    destruct (IH s (p ++ [c])) as (w & r & -> & -> & Hw & Hn & Hj); [lia|assumption|constructor; assumption| |].
    { intros [(q & e & Hq & He) _]. apply app_inj_tail in Hq as [_ ->]. contradiction. }
    exists (c :: w), r. rewrite <- app_assoc in Hw, Hj. split; [reflexivity|]. split; [reflexivity|]. auto.
  - destruct (isalpha (at_ s 0)) eqn:E2.
    + destruct s as [|c s]; [unfold at_ in E2; cbn in E2; discriminate|].
      change (at_ (c :: s) 0) with c in *. change (at_ (c :: s) 1) with (at_ s 0). cbn [tl length] in *.
      inversion Hs as [|? ? Hc Hs']; subst. pose proof (expo_test c99 c E2) as HE.
      apply isalpha_iff in E2 as [E2 _].
      destruct ((tolower c =? 101) || c99 && (tolower c =? 112)) eqn:E3; cbn [andb].
      * destruct ((at_ s 0 =? 43) || (at_ s 0 =? 45)) eqn:E4.
        -- assert (Hsg : sign (at_ s 0)).
           { apply orb_true_iff in E4 as [E4|E4]; apply Z.eqb_eq in E4; unfold sign; auto. }
           destruct s as [|d s]; [unfold sign, at_ in Hsg; cbn in Hsg; lia|].
           change (at_ (d :: s) 0) with d in *. cbn [tl length] in *. inversion Hs'; subst.
           destruct (IH s (p ++ [c; d])) as (w & r & -> & -> & Hw & Hn & Hj); [lia|assumption| | |].
           { apply N_exp; auto. apply HE. reflexivity. }
           { intros [(q & e & Hq & He) _].
             replace (p ++ [c; d]) with ((p ++ [c]) ++ [d]) in Hq by (rewrite <- app_assoc; reflexivity).
             apply app_inj_tail in Hq as [_ ->]. unfold sign in Hsg. unfold expo in He. lia. }
           exists (c :: d :: w), r. rewrite <- app_assoc in Hw, Hj. split; [reflexivity|]. split; [reflexivity|]. auto.
        -- destruct (IH s (p ++ [c])) as (w & r & -> & -> & Hw & Hn & Hj); [lia|assumption|constructor; auto| |].
           { intros [_ Hsg]. apply orb_false_iff in E4 as [E4 E5]. apply Z.eqb_neq in E4; apply Z.eqb_neq in E5.
             unfold sign in Hsg. lia. }
           exists (c :: w), r. rewrite <- app_assoc in Hw, Hj. split; [reflexivity|]. split; [reflexivity|]. auto.
      * destruct (IH s (p ++ [c])) as (w & r & -> & -> & Hw & Hn & Hj); [lia|assumption|constructor; auto| |].
        { intros [(q & e & Hq & He) _]. apply app_inj_tail in Hq as [_ ->]. apply HE in He. discriminate. }
        exists (c :: w), r. rewrite <- app_assoc in Hw, Hj. split; [reflexivity|]. split; [reflexivity|]. auto.
    + exists [], s. rewrite app_nil_r. split; [reflexivity|]. split; [reflexivity|]. auto.
Qed.

Lemma PPNum_nonempty c99 w : PPNum c99 w -> w <> [].
Proof. destruct 1; try discriminate; intro E; apply app_eq_nil in E as [_ E]; discriminate. Qed.
Lemma PPNum_not_dot c99 : ~ PPNum c99 [46].
Proof.
  intro H. inversion H as [d Hd E|d Hd E|w c Hw Hc E|w e s Hw He Hsg E].
  - subst. unfold digit in Hd; lia.
  - destruct w as [|a w]; [apply PPNum_nonempty in Hw; congruence|]. destruct w; discriminate.
  - destruct w as [|a [|b w]]; [apply PPNum_nonempty in Hw; congruence|discriminate|discriminate].
Qed.

(* A strictly longer number starting with a number continues with an extension character or a sign
   after an exponent letter. *)
Lemma PPNum_next c99 v : PPNum c99 v -> forall w c r, v = w ++ c :: r -> PPNum c99 w ->
  ext c \/ (ends_expo c99 w /\ sign c).
Proof.
  induction 1 as [d Hd|d Hd|v x Hv IH Hx|v e s Hv IH He Hsg]; intros w c r E Hw.
  - destruct w as [|a w]; [apply PPNum_nonempty in Hw; congruence|]. destruct w; discriminate.
  - destruct w as [|a [|b w]]; [apply PPNum_nonempty in Hw; congruence| |destruct w; discriminate].
    injection E as <- <- <-. exfalso. exact (PPNum_not_dot c99 Hw).
  - destruct r as [|y r] using rev_ind.
    + apply app_inj_tail in E as [-> ->]. left. exact Hx.
    + clear IHr. rewrite app_comm_cons, app_assoc in E. apply app_inj_tail in E as [E _]. eauto.
  - destruct r as [|y r _] using rev_ind.
    + replace (v ++ [e; s]) with ((v ++ [e]) ++ [s]) in E by (rewrite <- app_assoc; reflexivity).
      apply app_inj_tail in E as [<- <-]. right. split; [exists v, e; auto|exact Hsg].
    + rewrite app_comm_cons, app_assoc in E.
      replace (v ++ [e; s]) with ((v ++ [e]) ++ [s]) in E by (rewrite <- app_assoc; reflexivity).
      apply app_inj_tail in E as [E _].
      destruct r as [|z r _] using rev_ind.
      * apply app_inj_tail in E as [-> ->]. left. right. left. eapply expo_nondigit; exact He.
      * rewrite app_comm_cons, app_assoc in E. apply app_inj_tail in E as [E _]. eauto.
Qed.

Lemma num_loop_digit n c99 d s : digit d ->
  num_loop (S n) c99 (d :: s) = match num_loop n c99 s with Ok k => Ok (S k) | e => e end.
Proof.
  intro H. cbn [num_loop]. change (at_ (d :: s) 0) with d.
  replace (isdigit d) with true by (symmetry; apply isdigit_iff; exact H). reflexivity.
Qed.

Lemma number_ok c99 s : Forall asciiz s ->
  (digit (at_ s 0) \/ (at_ s 0 = 46 /\ digit (at_ s 1))) ->
  exists w r, stringtonum c99 s = Ok (length w) /\ s = w ++ r /\ PPNum c99 w /\
    forall w' r', s = w' ++ r' -> PPNum c99 w' -> (length w' <= length w)%nat.
Proof.
  intros Hs Hd.
  assert (G : forall k d s', Forall asciiz (d :: s') -> digit d -> PPNum c99 (k ++ [d]) ->
     exists w r, num_loop (S (length (d :: s'))) c99 (d :: s') = Ok (length w) /\ d :: s' = w ++ r /\ PPNum c99 (k ++ w) /\
       forall w' r', k ++ d :: s' = w' ++ r' -> PPNum c99 w' -> (length w' <= length (k ++ w))%nat).
  { intros k d s' Ha Hdd Hk. inversion Ha as [|? ? Hd0 Hs0]; subst.
    destruct (num_loop_ok c99 (S (length s')) s' (k ++ [d])) as (w & r & HL & -> & Hw & Hn & Hj); [lia|assumption|assumption| |].
    { intros [(q & e & Hq & He) _]. apply app_inj_tail in Hq as [_ <-]. unfold expo, digit in *; lia. }
    exists (d :: w), r. rewrite <- app_assoc in Hw, Hj.
    assert (Hstep : num_loop (S (length (d :: w ++ r))) c99 (d :: w ++ r) = Ok (length (d :: w))).
    { rewrite num_loop_digit by exact Hdd. cbn [length]. rewrite HL. reflexivity. }
    split; [exact Hstep|]. split; [reflexivity|]. split; [exact Hw|].
    intros w' r' E Hw'. destruct (le_lt_dec (length w') (length (k ++ d :: w))) as [L|L]; [exact L|exfalso].
    replace (k ++ d :: w ++ r) with ((k ++ d :: w) ++ r) in E by (rewrite <- app_assoc; reflexivity).
    cbn [app] in Hw. set (u := k ++ d :: w) in *.
    assert (Hpre : exists c t, w' = u ++ c :: t /\ at_ r 0 = c).
    { assert (X : exists t, w' = u ++ t).
      { exists (skipn (length u) w'). rewrite <- (firstn_skipn (length u) w') at 1. f_equal.
        assert (E2 : firstn (length u) (u ++ r) = firstn (length u) (w' ++ r')) by (rewrite E; reflexivity).
        rewrite firstn_app_exact in E2. rewrite firstn_app in E2.
        replace (length u - length w')%nat with O in E2 by lia. cbn [firstn] in E2. rewrite app_nil_r in E2. auto. }
      destruct X as (t & ->). destruct t as [|c t]; [rewrite app_nil_r in L; lia|].
      exists c, t. split; [reflexivity|]. rewrite <- app_assoc in E. apply app_inv_head in E. rewrite E. reflexivity. }
    destruct Hpre as (c & t & -> & Hc).
    destruct (PPNum_next c99 _ Hw' u c t eq_refl Hw) as [X|X]; rewrite <- Hc in X; [exact (Hn X)|exact (Hj X)]. }
  unfold stringtonum. destruct Hd as [Hd|[H46 Hd]].
  - destruct (Z.eqb_spec (at_ s 0) 46) as [X|_]; [unfold digit in Hd; lia|]. cbv beta iota.
    replace (isdigit (at_ s 0)) with true by (symmetry; apply isdigit_iff; exact Hd).
    destruct s as [|d s]; [unfold at_, digit in Hd; cbn in Hd; lia|]. change (at_ (d :: s) 0) with d in Hd.
    destruct (G [] d s Hs Hd (N_digit c99 d Hd)) as (w & r & -> & E & Hw & Hm).
    exists w, r. cbn [app Nat.add] in *. auto.
  - rewrite H46. cbn [Z.eqb Pos.eqb]. cbv beta iota.
    destruct s as [|x s]; [unfold at_ in H46; cbn in H46; lia|]. change (at_ (x :: s) 0) with x in H46. subst x.
    change (at_ (46 :: s) 1) with (at_ s 0) in Hd. cbn [tl].
    replace (isdigit (at_ s 0)) with true by (symmetry; apply isdigit_iff; exact Hd).
    destruct s as [|d s]; [unfold at_, digit in Hd; cbn in Hd; lia|]. change (at_ (d :: s) 0) with d in Hd.
    inversion Hs as [|? ? _ Hs']; subst.
    destruct (G [46] d s Hs' Hd (N_dot c99 d Hd)) as (w & r & -> & E & Hw & Hm).
    exists (46 :: w), r. cbn [app length Nat.add] in *. rewrite E. split; [reflexivity|]. split; [reflexivity|]. split; [exact Hw|].
    intros w' r' E'. apply (Hm w' r'). rewrite E. exact E'.
Qed.
