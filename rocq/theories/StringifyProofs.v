From Coq Require Import List ZArith Lia Bool.
From Verif Require Import TokModel StringifyModel StringifySpec EscSpec EscModel EscProofs.
Import ListNotations.
Open Scope Z_scope.

Lemma escaped_length s : (length (str_write_escaped s) <= 2 * length s)%nat.
Proof. induction s as [|c s IH]; cbn [str_write_escaped length]; [lia|]. destruct ((c =? 34) || (c =? 92)); cbn [length]; lia. Qed.

Definition tok_text (t : tok) : list Z :=
  if (tt t =? T_PREP_STRING) || (tt t =? T_STRING) then [92; 34] ++ str_write_escaped (spell t) ++ [92; 34]
  else if tt t =? T_PREP_CHAR then [39] ++ str_write_escaped (spell t) ++ [39]
  else spell t.
Definition tok_text_sp (t : tok) : list Z := (if lws t =? 0 then [] else [32]) ++ tok_text t.

Lemma concat_ok cap buf t : tt t <> T_NUMBER -> tt t <> T_PARAM ->
  exists cap', stringify_concat cap buf t = SOk (cap', buf ++ tok_text_sp t).
Proof.
  intros H1 H2. unfold stringify_concat.
  apply Z.eqb_neq in H1; apply Z.eqb_neq in H2. rewrite H1, H2. cbn [orb].
  match goal with |- context [if ?c <? Z.of_nat (length ?b) then _ else _] => set (buf' := b); set (cap' := c) end.
  assert (Hb : buf' = buf ++ tok_text_sp t).
  { unfold buf', tok_text_sp, tok_text. destruct (lws t =? 0), ((tt t =? T_PREP_STRING) || (tt t =? T_STRING)), (tt t =? T_PREP_CHAR);
      rewrite <- ?app_assoc; reflexivity. }
  rewrite Hb. destruct (Z.ltb_spec cap' (Z.of_nat (length (buf ++ tok_text_sp t)))) as [X|X]; [|eauto].
  exfalso. rewrite app_length in X. unfold tok_text_sp in X. rewrite app_length in X.
  pose proof (escaped_length (spell t)) as HE.
  assert (HT : (length (tok_text t) <= 2 * length (spell t) + 4)%nat).
  { unfold tok_text. destruct ((tt t =? T_PREP_STRING) || (tt t =? T_STRING)), (tt t =? T_PREP_CHAR);
      rewrite ?app_length; cbn [length]; lia. }
  subst cap'. destruct (lws t =? 0); cbn [length] in X;
    destruct (Z.ltb_spec cap (Z.of_nat (length buf) + (0 + Z.of_nat (length (spell t)) * 2 + 4)));
    destruct (Z.ltb_spec cap (Z.of_nat (length buf) + (1 + Z.of_nat (length (spell t)) * 2 + 4))); lia.
Qed.

Lemma loop_rest cap buf ts : Forall token_ok ts ->
  stringify_loop false cap buf ts = SOk (buf ++ flat_map tok_text_sp ts).
Proof.
  intro H. revert cap buf. induction H as [|t ts Ht Hts IH]; intros cap buf; cbn [stringify_loop flat_map].
  - rewrite app_nil_r. reflexivity.
  - destruct Ht as (H1 & H2 & H3 & H4 & _). apply Z.eqb_neq in H3; apply Z.eqb_neq in H4. rewrite H3, H4.
    destruct (concat_ok cap buf t H1 H2) as (cap' & ->). rewrite IH, app_assoc. reflexivity.
Qed.

Lemma loop_all cap t ts : Forall token_ok (t :: ts) ->
  stringify_loop true cap [] (t :: ts) = SOk (tok_text t ++ flat_map tok_text_sp ts).
Proof.
  intro H. inversion H as [|? ? Ht Hts]; subst. cbn [stringify_loop].
  pose proof Ht as (H1 & H2 & H3 & H4 & _). apply Z.eqb_neq in H3; apply Z.eqb_neq in H4. rewrite H3, H4.
  destruct (concat_ok cap [] (mk_tok (tt t) (expandable t) (disabled t) 0 (spell t) (pval t)) H1 H2) as (cap' & ->).
  rewrite loop_rest by exact Hts. reflexivity.
Qed.

(* The produced text denotes the spelling. *)
Lemma escaped_literal s t b : Forall char_ok s -> Literal no_hex 34 t b ->
  Literal no_hex 34 (str_write_escaped s ++ t) (s ++ b).
Proof.
  induction 1 as [|c s Hc Hs IH]; intro HL; cbn [str_write_escaped app]; [exact HL|].
  destruct Hc as [Hc Hn]. specialize (IH HL).
  destruct (Z.eqb_spec c 34) as [->|N1]; cbn [orb app]; [apply L_simple; [cbn; tauto|exact IH]|].
  destruct (Z.eqb_spec c 92) as [->|N2]; cbn [orb app]; [apply L_simple; [cbn; tauto|exact IH]|].
  apply L_plain; auto; lia.
Qed.

Lemma plain_literal s t b : Forall char_ok s -> Forall (fun c => c <> 34 /\ c <> 92) s ->
  Literal no_hex 34 t b -> Literal no_hex 34 (s ++ t) (s ++ b).
Proof.
  intros H1 H2 HL. induction s as [|c s IH]; cbn [app]; [exact HL|].
  inversion H1 as [|? ? [Hc Hn] H1']; inversion H2 as [|? ? [N1 N2] H2']; subst.
  apply L_plain; auto; lia.
Qed.

Lemma tok_literal t r b : token_ok t -> Literal no_hex 34 r b ->
  Literal no_hex 34 (tok_text t ++ r) (spelling t ++ b).
Proof.
  intros (_ & _ & _ & _ & _ & Hc & Hl) HL. unfold tok_text, spelling.
  destruct ((tt t =? T_PREP_STRING) || (tt t =? T_STRING)) eqn:E1.
  - cbn [app]. apply L_simple; [cbn; tauto|]. rewrite <- !app_assoc.
    apply escaped_literal; [exact Hc|]. cbn [app]. apply L_simple; [cbn; tauto|exact HL].
  - destruct (tt t =? T_PREP_CHAR) eqn:E2.
    + cbn [app]. apply L_plain; try lia. rewrite <- !app_assoc.
      apply escaped_literal; [exact Hc|]. cbn [app]. apply L_plain; try lia. exact HL.
    + apply plain_literal; auto. destruct Hl as [[H|[H|H]]|H]; auto; exfalso.
      * apply Z.eqb_eq in H. rewrite H in E1. discriminate.
      * apply Z.eqb_eq in H. rewrite H, orb_true_r in E1. discriminate.
      * apply Z.eqb_eq in H. congruence.
Qed.

Lemma toks_literal ts : Forall token_ok ts ->
  Literal no_hex 34 (flat_map tok_text_sp ts) (flat_map spaced ts).
Proof.
  induction 1 as [|t ts Ht Hts IH]; cbn [flat_map]; [apply L_end|].
  unfold tok_text_sp at 1, spaced at 1. rewrite <- !app_assoc.
  destruct (lws t =? 0); cbn [app].
  - apply tok_literal; auto.
  - apply L_plain; try lia. apply tok_literal; auto.
Qed.

Lemma arg_literal t ts : Forall token_ok (t :: ts) ->
  Literal no_hex 34 (tok_text t ++ flat_map tok_text_sp ts) (argument_spelling (t :: ts)).
Proof.
  intro H. inversion H as [|? ? Ht Hts]; subst. cbn [argument_spelling].
  apply tok_literal; auto. apply toks_literal; auto.
Qed.

(* A well formed literal does not end in a lone backslash... here: the text ends in the text of a
   token, which never ends in a backslash. *)
Definition last_not_bs (l : list Z) : Prop := forall p, l <> p ++ [92].
Lemma ends_false l : last_not_bs l -> ends_in_backslash l = false.
Proof.
  intro H. unfold ends_in_backslash. destruct (rev l) as [|c r] eqn:E; [easy|].
  destruct (Z.eqb_spec c 92) as [->|]; [|easy]. exfalso. apply (H (rev r)).
  rewrite <- (rev_involutive l), E. reflexivity.
Qed.

Lemma snoc_not_bs l c : c <> 92 -> last_not_bs (l ++ [c]).
Proof. intros H p E. apply app_inj_tail in E as [_ E]. congruence. Qed.

Lemma app_not_bs l1 l2 : last_not_bs l1 -> last_not_bs l2 -> last_not_bs (l1 ++ l2).
Proof.
  intros H1 H2. destruct l2 as [|x l2] using rev_ind; [rewrite app_nil_r; exact H1|].
  rewrite app_assoc. apply snoc_not_bs. intros ->. apply (H2 l2). reflexivity.
Qed.

Lemma nil_not_bs : last_not_bs []. Proof. intros [|a p]; discriminate. Qed.

Lemma plain_not_bs s : Forall (fun c => c <> 34 /\ c <> 92) s -> last_not_bs s.
Proof. intros H p ->. apply Forall_app in H as [_ H]. inversion H as [|? ? [_ N]]; congruence. Qed.

Lemma tok_not_bs t : token_ok t -> last_not_bs (tok_text t).
Proof.
  intros (_ & _ & _ & _ & _ & Hc & Hl). unfold tok_text.
  destruct ((tt t =? T_PREP_STRING) || (tt t =? T_STRING)) eqn:E1.
  - match goal with |- last_not_bs (?a ++ ?b ++ [92; 34]) => replace (a ++ b ++ [92; 34]) with ((a ++ b ++ [92]) ++ [34]) end.
    + apply snoc_not_bs. lia.
    + rewrite <- !app_assoc. reflexivity.
  - destruct (tt t =? T_PREP_CHAR) eqn:E2.
    + rewrite app_assoc. apply snoc_not_bs. lia.
    + destruct Hl as [[H|[H|H]]|H]; [exfalso|exfalso|exfalso|apply plain_not_bs, H].
      * apply Z.eqb_eq in H. rewrite H in E1. discriminate.
      * apply Z.eqb_eq in H. rewrite H, orb_true_r in E1. discriminate.
      * apply Z.eqb_eq in H. congruence.
Qed.

Lemma toks_not_bs ts : Forall token_ok ts -> last_not_bs (flat_map tok_text_sp ts).
Proof.
  induction 1 as [|t ts Ht Hts IH]; cbn [flat_map]; [apply nil_not_bs|].
  apply app_not_bs; [|exact IH]. unfold tok_text_sp. apply app_not_bs; [|apply tok_not_bs, Ht].
  destruct (lws t =? 0); [apply nil_not_bs|apply (snoc_not_bs [] 32); lia].
Qed.

Lemma stringify_ok ts : Forall token_ok ts ->
  exists k s, stringify ts = SOk (k, s) /\
   ((k = T_STRING /\ s = argument_spelling ts) \/
    (k = T_PREP_STRING /\ Literal any_hex 34 s (argument_spelling ts) /\
     convert_preprocessing_string s = Ok (argument_spelling ts))).
Proof.
  intro H. destruct ts as [|t ts].
  - exists T_STRING, []. auto.
  - assert (HL : exists s, match stringify_loop true (Z.of_nat (length (t :: ts)) * 8) [] (t :: ts) with
      | SOk buf => if ends_in_backslash buf then SError else SOk (T_PREP_STRING, buf)
      | SError => SError | SAssert => SAssert | SOverflow => SOverflow
      end = SOk (T_PREP_STRING, s) /\ Literal any_hex 34 s (argument_spelling (t :: ts)) /\
     convert_preprocessing_string s = Ok (argument_spelling (t :: ts))).
    { rewrite loop_all by exact H. exists (tok_text t ++ flat_map tok_text_sp ts).
      pose proof H as H'. inversion H' as [|? ? Ht Hts]; subst.
      rewrite ends_false by (apply app_not_bs; [apply tok_not_bs, Ht|apply toks_not_bs, Hts]).
      pose proof (arg_literal t ts H) as L. split; [reflexivity|]. split.
      - eapply Literal_weaken; [|exact L]. intros ? ? [].
      - eapply convert_ok, Literal_weaken; [|exact L]. intros ? ? []. }
    unfold stringify.
    set (loop := match stringify_loop true (Z.of_nat (length (t :: ts)) * 8) [] (t :: ts) with
      | SOk buf => if ends_in_backslash buf then SError else SOk (T_PREP_STRING, buf)
      | SError => SError | SAssert => SAssert | SOverflow => SOverflow
      end) in *.
    destruct HL as (s & HL & Hlit & Hconv).
    destruct ((tt t =? T_BACKSLASH) || (tt t =? T_STRING) || (tt t =? T_PREP_STRING) || (tt t =? T_PREP_CHAR)) eqn:E.
    + exists T_PREP_STRING, s. auto.
    + inversion H as [|? ? Ht Hts]; subst. destruct Ht as (H1 & H2 & H3 & _).
      apply Z.eqb_neq in H1. apply Z.eqb_neq in H3. rewrite H1, H3. cbn [orb].
      destruct ts as [|t2 ts].
      * exists T_STRING, (spell t). split; [reflexivity|]. left. split; [reflexivity|].
        cbn [argument_spelling flat_map]. rewrite app_nil_r. unfold spelling.
        apply orb_false_iff in E as [E E4]. apply orb_false_iff in E as [E E3]. apply orb_false_iff in E as [E1 E2].
        rewrite E2, E3, E4. reflexivity.
      * exists T_PREP_STRING, s. auto.
Qed.
