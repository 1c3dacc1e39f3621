(* Proofs about the macro table (C11). *)
From Coq Require Import List ZArith Bool Lia.
From Verif Require Import Bytes TokModel MacroModel MacroSpec.
Import ListNotations.
Open Scope Z_scope.

Lemma list_eqb_refl : forall a, list_eqb a a = true.
Proof. intros. apply list_eqb_eq. reflexivity. Qed.

Lemma tok_same_ok : forall a b, tt a <> T_NUMBER -> (tok_same a b = true <-> same_tok a b).
Proof.
  intros a b NN. unfold tok_same, same_tok. rewrite andb_true_iff, Z.eqb_eq.
  destruct (Z.eqb_spec (tt a) T_PARAM) as [E|E]; simpl.
  - rewrite Z.eqb_eq. intuition congruence.
  - destruct (Z.eqb_spec (tt a) T_NUMBER); [contradiction|]. rewrite list_eqb_eq. intuition congruence.
Qed.

Definition no_numbers (l : list tok) : Prop := Forall (fun t => tt t <> T_NUMBER) l.
Lemma toks_same_ok : forall a b, no_numbers a -> (toks_same a b = true <-> Forall2 same_tok a b).
Proof.
  induction a as [|x a IH]; intros b NN; destruct b as [|y b]; simpl.
  - split; constructor.
  - split; [discriminate|intro H; inversion H].
  - split; [discriminate|intro H; inversion H].
  - inversion NN; subst. rewrite andb_true_iff, tok_same_ok, IH by assumption. split.
    + intros [? ?]. constructor; assumption.
    + intro H. inversion H; subst. split; assumption.
Qed.
Lemma macro_same_ok : forall a b, no_numbers (m_repl a) -> (macro_same a b = true <-> same_macro a b).
Proof.
  intros a b NN. unfold macro_same, same_macro.
  rewrite !andb_true_iff, eqb_true_iff, Z.eqb_eq, list_eqb_eq, toks_same_ok by assumption. tauto.
Qed.

Lemma same_tok_refl : forall a, same_tok a a.
Proof. intros. unfold same_tok. auto. Qed.
Lemma same_tok_sym : forall a b, same_tok a b -> same_tok b a.
Proof. unfold same_tok. intros a b (A & B & C). repeat split; intros; symmetry; auto; [apply B|apply C]; congruence. Qed.
Lemma same_tok_trans : forall a b c, same_tok a b -> same_tok b c -> same_tok a c.
Proof.
  unfold same_tok. intros a b c (A & B & C) (D & E & F). repeat split; [congruence| |].
  - intro H. rewrite B by assumption. apply E. congruence.
  - intro H. rewrite C by assumption. apply F. congruence.
Qed.
Lemma Forall2_refl : forall {A} (R : A -> A -> Prop) l, (forall x, R x x) -> Forall2 R l l.
Proof. induction l; intros; constructor; auto. Qed.
Lemma Forall2_sym : forall {A} (R : A -> A -> Prop), (forall x y, R x y -> R y x) ->
  forall a b, Forall2 R a b -> Forall2 R b a.
Proof. intros A R S a b H. induction H; constructor; auto. Qed.
Lemma Forall2_trans : forall {A} (R : A -> A -> Prop), (forall x y z, R x y -> R y z -> R x z) ->
  forall a b c, Forall2 R a b -> Forall2 R b c -> Forall2 R a c.
Proof.
  intros A R T a b c H. revert c. induction H; intros c H1; inversion H1; subst; constructor; eauto.
Qed.
Lemma same_macro_refl : forall a, same_macro a a.
Proof. intros. repeat split; auto. apply Forall2_refl. apply same_tok_refl. Qed.
Lemma same_macro_sym : forall a b, same_macro a b -> same_macro b a.
Proof. intros a b (A & B & C & D). repeat split; auto. eapply Forall2_sym; [|exact D]. apply same_tok_sym. Qed.
Lemma same_macro_trans : forall a b c, same_macro a b -> same_macro b c -> same_macro a c.
Proof.
  intros a b c (A & B & C & D) (E & F & G & H). repeat split; try congruence.
  eapply Forall2_trans; [|exact D|exact H]. apply same_tok_trans.
Qed.

Lemma find_name : forall tb n m, find tb n = Some m -> m_name m = n.
Proof.
  induction tb; simpl; intros n m H; [discriminate|].
  destruct (list_eqb (m_name a) n) eqn:E; [|auto]. apply list_eqb_eq in E. congruence.
Qed.
Lemma find_undef : forall tb n k, find (undef tb n) k = if list_eqb n k then None else find tb k.
Proof.
  induction tb; simpl; intros n k; [destruct (list_eqb n k); reflexivity|].
  destruct (list_eqb (m_name a) n) eqn:E; simpl; rewrite IHtb.
  - apply list_eqb_eq in E. subst n. destruct (list_eqb (m_name a) k); reflexivity.
  - destruct (list_eqb n k) eqn:F; [|reflexivity].
    apply list_eqb_eq in F. subst k. rewrite E. reflexivity.
Qed.

Definition numberless (tb : table) : Prop := forall n m, find tb n = Some m -> no_numbers (m_repl m).
Definition ops_ok (ops : list op) : Prop :=
  Forall (fun o => match o with Define m => no_numbers (m_repl m) | Undef _ => True end) ops.

Lemma run_app : forall a b tb, run (a ++ b) tb = mbind (run a tb) (run b).
Proof.
  induction a as [|[m|n] a IH]; simpl; intros b tb; [reflexivity| |apply IH].
  destruct (define tb m); simpl; auto.
Qed.

Lemma define_find : forall tb m tb', define tb m = MOk tb' ->
  (exists x, find tb' (m_name m) = Some x /\ macro_same x m = true \/ find tb' (m_name m) = Some m) /\
  forall n, n <> m_name m -> find tb' n = find tb n.
Proof.
  unfold define. intros tb m tb' H. destruct (find tb (m_name m)) eqn:F.
  - destruct (macro_same m0 m) eqn:S; [|discriminate]. inversion H; subst. split; [|auto].
    exists m0. left. auto.
  - inversion H; subst. split.
    + exists m. right. simpl. rewrite list_eqb_refl. reflexivity.
    + intros n NE. simpl. destruct (list_eqb (m_name m) n) eqn:E; [|reflexivity].
      apply list_eqb_eq in E. congruence.
Qed.

(* The history theorem. *)
Definition agrees (x : option macro) (y : option macro) : Prop :=
  match x, y with
  | Some a, Some b => same_macro a b
  | None, None => True
  | _, _ => False
  end.

Lemma run_numberless : forall ops tb tb', ops_ok ops -> numberless tb -> run ops tb = MOk tb' -> numberless tb'.
Proof.
  induction ops as [|[m|n] ops IH]; simpl; intros tb tb' W N H.
  - inversion H; subst; exact N.
  - inversion W; subst. destruct (define tb m) eqn:D; simpl in H; try discriminate.
    apply IH in H; auto. intros k y F. unfold define in D. destruct (find tb (m_name m)) eqn:E.
    + destruct (macro_same m0 m); inversion D; subst. eauto.
    + inversion D; subst. simpl in F. destruct (list_eqb (m_name m) k); [inversion F; subst; auto|eauto].
  - inversion W; subst. apply IH in H; auto. intros k x F. rewrite find_undef in F.
    destruct (list_eqb n k); [discriminate|eauto].
Qed.

Lemma numberless_nil : numberless [].
Proof. intros n m H. discriminate H. Qed.

Lemma ops_ok_app : forall a b, ops_ok (a ++ b) -> ops_ok a /\ ops_ok b.
Proof. intros. apply Forall_app in H. exact H. Qed.

Lemma history : forall ops n r, last_def ops n r -> ops_ok ops -> forall tb, run ops [] = MOk tb -> agrees (find tb n) r.
Proof.
  induction 1 as [n|ops m|ops n|ops o n r NE L IH]; intros W tb H.
  - inversion H. exact I.
  - rewrite run_app in H. destruct (run ops []) as [tb0| | | |] eqn:R; simpl in H; try discriminate.
    destruct (define tb0 m) as [tb1| | | |] eqn:D; simpl in H; try discriminate. inversion H; subst tb1.
    apply ops_ok_app in W as [W1 W2].
    destruct (define_find _ _ _ D) as [[x [[E S]|E]] _]; rewrite E; simpl; [|apply same_macro_refl].
    apply macro_same_ok; [|exact S].
    assert (R2 : run (ops ++ [Define m]) [] = MOk tb) by (rewrite run_app, R; simpl; rewrite D; reflexivity).
    eapply run_numberless in R2; [exact (R2 _ _ E)| |apply numberless_nil].
    apply Forall_app; auto.
  - rewrite run_app in H. destruct (run ops []) as [tb0| | | |] eqn:R; simpl in H; try discriminate.
    inversion H; subst. rewrite find_undef, list_eqb_refl. exact I.
  - rewrite run_app in H. apply ops_ok_app in W as [W1 W2].
    destruct (run ops []) as [tb0| | | |] eqn:R; simpl in H; try discriminate.
    specialize (IH W1 _ eq_refl). destruct o as [m|k]; simpl in H, NE.
    + destruct (define tb0 m) as [tb1| | | |] eqn:D; simpl in H; try discriminate. inversion H; subst tb1.
      rewrite (proj2 (define_find _ _ _ D)) by congruence. exact IH.
    + inversion H; subst. rewrite find_undef. destruct (list_eqb k n) eqn:E; [|exact IH].
      apply list_eqb_eq in E. contradiction.
Qed.

Lemma last_def_total : forall ops n, exists r, last_def ops n r.
Proof.
  induction ops as [|o ops IH] using rev_ind; intro n.
  - exists None. constructor.
  - destruct (list_eqb (op_name o) n) eqn:E.
    + apply list_eqb_eq in E. destruct o as [m|k]; simpl in E; subst.
      * exists (Some m). constructor.
      * exists None. constructor.
    + destruct (IH n) as [r R]. exists r. apply last_other; [|exact R].
      intro C. apply list_eqb_eq in C. congruence.
Qed.

Lemma accepted : forall ops, ops_ok ops ->
  ((exists tb, run ops [] = MOk tb) <->
   forall a m b old, ops = a ++ Define m :: b -> last_def a (m_name m) (Some old) -> same_macro old m).
Proof.
  induction ops as [|o ops IH] using rev_ind; intro W.
  { split; [|intros; exists []; reflexivity]. intros _ a m b old E. destruct a; discriminate E. }
  apply ops_ok_app in W as [W1 W2]. specialize (IH W1). split.
  - intros [tb R] a m b old E L. rewrite run_app in R.
    destruct (run ops []) as [tb0| | | |] eqn:R0; simpl in R; try discriminate.
    destruct b as [|o' b] using rev_ind.
    + apply app_inj_tail in E as [-> ->]. simpl in R.
      destruct (define tb0 m) as [tb1| | | |] eqn:D; simpl in R; try discriminate.
      pose proof (history _ _ _ L W1 _ R0) as A. unfold define in D.
      destruct (find tb0 (m_name m)) as [x|] eqn:F; [|destruct A].
      destruct (macro_same x m) eqn:S; [|discriminate]. apply macro_same_ok in S.
      * eapply same_macro_trans; [apply same_macro_sym; exact A|exact S].
      * eapply run_numberless in R0; [exact (R0 _ _ F)|exact W1|apply numberless_nil].
    + clear IHb. replace (a ++ Define m :: b ++ [o']) with ((a ++ Define m :: b) ++ [o']) in E
        by (rewrite <- app_assoc; reflexivity).
      apply app_inj_tail in E as [-> ->].
      apply (proj1 IH (ex_intro _ tb0 eq_refl) a m b old eq_refl L).
  - intros H. destruct (proj2 IH) as [tb0 R0].
    { intros a m b old E L. apply (H a m (b ++ [o]) old); [|exact L].
      rewrite E, <- app_assoc. reflexivity. }
    rewrite run_app, R0. simpl. destruct o as [m|n]; simpl; [|eauto].
    destruct (last_def_total ops (m_name m)) as [r L].
    pose proof (history _ _ _ L W1 _ R0) as A. unfold define.
    destruct (find tb0 (m_name m)) as [x|] eqn:F; [|simpl; eauto].
    destruct r as [old|]; [|destruct A].
    assert (S : macro_same x m = true).
    { apply macro_same_ok.
      - eapply run_numberless in R0; [exact (R0 _ _ F)|exact W1|apply numberless_nil].
      - eapply same_macro_trans; [exact A|]. apply (H ops m [] old eq_refl L). }
    rewrite S. simpl. eauto.
Qed.

(* ---- #define lines ---- *)

Ltac zneq := repeat match goal with
  | |- context [?a =? ?b] => destruct (Z.eqb_spec a b); [exfalso; congruence|]
  end.

Lemma ident_not : forall t, ident t ->
  (tt t =? T_RPAREN) = false /\ (tt t =? T_DOTS) = false /\ expandable t = true.
Proof. intros t (A & B & C & _). rewrite !(proj2 (Z.eqb_neq _ _)); auto. Qed.

Definition va_list (va : bool) : list tok := if va then [va_args_tok] else [].
Lemma define_params_ok : forall ps va rest fuel acc, Forall ident ps -> (length ps < fuel)%nat ->
  define_params fuel acc
    (commas (map (fun p => [p]) ps ++ (if va : bool then [[dots_tok]] else [])) ++ punct_tok T_RPAREN 0 :: rest)
  = MOk (acc ++ ps ++ va_list va, va, rest).
Proof.
  induction ps as [|p ps IH]; intros va rest fuel acc W F.
  - destruct fuel; [simpl in F; lia|]. destruct va; simpl; rewrite ?app_nil_r; reflexivity.
  - destruct fuel; [simpl in F; lia|]. inversion W as [|? ? Wp Wps]; subst.
    destruct (ident_not _ Wp) as (A & B & C).
    destruct ps as [|q ps].
    + destruct va; simpl; rewrite A, B, C; simpl.
      * destruct fuel; [simpl in F; lia|]. simpl. rewrite <- app_assoc. reflexivity.
      * reflexivity.
    + specialize (IH va rest fuel (acc ++ [p]) Wps). simpl length in *.
      cbn [map app commas] in *. cbn [define_params]. rewrite A, B, C. cbn [negb].
      cbn [app].
      replace (tt (punct_tok T_COMMA 0) =? T_DOTS) with false by reflexivity.
      replace (tt (punct_tok T_COMMA 0) =? T_COMMA) with true by reflexivity.
      cbv iota. rewrite IH by lia. rewrite <- app_assoc. reflexivity.
Qed.

Definition body_tok (func : bool) (ps : list tok) (t : tok) : tok :=
  if expandable t && func then match param_index 0 ps t with Some i => param_tok i | None => t end else t.
Definition body_ok (l : list tok) : Prop :=
  Forall (fun t => tt t <> T_NEWLINE /\ tt t <> T_END /\ tt t <> T_PARAM /\ tt t <> T_NUMBER) l.
Lemma define_body_ok : forall func ps l, body_ok l ->
  define_body func ps (l ++ [punct_tok T_NEWLINE 0]) = MOk (map (body_tok func ps) l).
Proof.
  induction l as [|t l IH]; intro W; [reflexivity|].
  inversion W as [|? ? (A & B & _) W']; subst. cbn [app define_body map].
  rewrite (proj2 (Z.eqb_neq _ _) A), (proj2 (Z.eqb_neq _ _) B), (IH W'). reflexivity.
Qed.

(* The macro a definition makes. *)
Definition macro_of (d : defn) : macro :=
  match d_params d with
  | None => mk_macro (spell (d_name d)) false 0 false (d_body d)
  | Some (ps, va) =>
    let ps' := ps ++ va_list va in
    mk_macro (spell (d_name d)) true (Z.of_nat (length ps')) va (map (body_tok true ps') (d_body d))
  end.

Lemma commas_length : forall ls, (length (map (fun p : tok => [p]) ls) <= length (commas (map (fun p => [p]) ls)))%nat.
Proof.
  induction ls as [|a [|b ls] IH]; simpl in *; lia.
Qed.

Lemma body_tok_obj : forall ps l, map (body_tok false ps) l = l.
Proof.
  induction l; [reflexivity|]. simpl. rewrite IHl. unfold body_tok. rewrite andb_false_r. reflexivity.
Qed.

Lemma commas_app_length : forall ps (x : list (list tok)),
  (length ps <= length (commas (map (fun p : tok => [p]) ps ++ x)))%nat.
Proof.
  induction ps as [|a ps IH]; intro x; simpl; [lia|].
  specialize (IH x). destruct (map (fun p => [p]) ps ++ x) eqn:E; simpl in *.
  - destruct ps; [simpl; lia|discriminate].
  - lia.
Qed.

Lemma preprocess_define_ok : forall d, wf_defn d -> preprocess_define (def_line d) = MOk (macro_of d).
Proof.
  intros d (N & P & O & B). unfold def_line, preprocess_define, macro_of.
  destruct N as (E & N). rewrite E. cbn [negb].
  destruct (d_params d) as [[ps va]|] eqn:D.
  - specialize (P ps va eq_refl). cbn [app].
    replace (tt (punct_tok T_LPAREN 0) =? T_LPAREN) with true by reflexivity.
    replace (lws (punct_tok T_LPAREN 0) =? 0) with true by reflexivity. cbn [andb].
    rewrite <- app_assoc. cbn [app].
    rewrite define_params_ok; [|exact P|].
    + cbn [mbind app]. rewrite define_body_ok by exact B. reflexivity.
    + rewrite app_length. pose proof (commas_app_length ps (if va : bool then [[dots_tok]] else [])). lia.
  - cbn [app]. specialize (O eq_refl).
    assert (X : define_body false [] (d_body d ++ [punct_tok T_NEWLINE 0]) = MOk (d_body d)).
    { rewrite define_body_ok by exact B. rewrite body_tok_obj. reflexivity. }
    rewrite X. cbn [mbind].
    destruct (d_body d) as [|t b] eqn:BB; [reflexivity|]. cbn [app].
    destruct (Z.eqb_spec (tt t) T_LPAREN) as [L|L]; [|reflexivity].
    specialize (O L). destruct (Z.eqb_spec (lws t) 0); [contradiction|]. reflexivity.
Qed.

Lemma tok_same_spelling : forall a b a' b', same_spelling a a' -> same_spelling b b' ->
  tt a <> T_PARAM -> tt a <> T_NUMBER -> tok_same a b = tok_same a' b'.
Proof.
  intros a b a' b' (A & B) (C & D) P N. unfold tok_same.
  rewrite <- A, <- C, <- B, <- D.
  destruct (Z.eqb_spec (tt a) T_PARAM); [contradiction|]. destruct (Z.eqb_spec (tt a) T_NUMBER); [contradiction|].
  reflexivity.
Qed.
Lemma param_index_same : forall ps qs, Forall2 same_spelling ps qs -> forall i a b, same_spelling a b ->
  tt a <> T_PARAM -> tt a <> T_NUMBER -> param_index i ps a = param_index i qs b.
Proof.
  induction 1; intros i a b S P N; simpl; [reflexivity|].
  rewrite (tok_same_spelling a x b y) by assumption. destruct (tok_same b y); auto.
Qed.

Lemma same_accepted : forall a b, wf_defn a -> wf_defn b -> same_in_c a b -> same_macro (macro_of a) (macro_of b).
Proof.
  intros a b (_ & _ & _ & Ba) Wb (N & P & B & _). unfold macro_of, same_macro.
  destruct N as [N1 N2].
  assert (X : forall f ps qs, Forall2 same_spelling ps qs ->
     Forall2 same_tok (map (body_tok f ps) (d_body a)) (map (body_tok f qs) (d_body b))).
  { intros f ps qs F. clear - B Ba F. induction B as [|x y la lb [[S1 S2] S3] B IH]; simpl; constructor.
    - inversion Ba as [|? ? (_ & _ & NP & NN) _]; subst. unfold body_tok. rewrite S3.
      destruct (expandable y && f).
      + rewrite (param_index_same ps qs F 0 x y) by (try split; assumption).
        destruct (param_index 0 qs y); [apply same_tok_refl|]. unfold same_tok. intuition congruence.
      + unfold same_tok. intuition congruence.
    - apply IH. inversion Ba; assumption. }
  destruct (d_params a) as [[ps va]|]; destruct (d_params b) as [[qs vb]|]; try contradiction; simpl.
  - destruct P as [F ->]. repeat split; auto.
    + rewrite !app_length. f_equal. f_equal.
      clear - F. induction F; simpl; auto.
    + apply X. apply Forall2_app; [exact F|]. apply Forall2_refl. split; reflexivity.
  - repeat split; auto. specialize (X false [] [] (Forall2_nil _)). rewrite !body_tok_obj in X. exact X.
Qed.
