(* Proofs about macro replacement (C12). *)
From Coq Require Import List ZArith Bool Lia.
From Verif Require Import Bytes TokModel MacroModel MacroSpec MacroTableProofs.
Import ListNotations.
Open Scope Z_scope.

Section P.
Variable c99 : bool.
Variable lookup : list Z -> option macro.
Notation xl := (expand_line c99 lookup).

Lemma xl_step : forall n scope l, xl (S n) scope l =
    match l with
    | [] => MOk (0%nat, [])
    | t :: r =>
      let keep t := mbind (xl n scope r) (fun '(k, o) => MOk (k, t :: o)) in
      if negb (expandable t) || disabled t then keep t
      else match lookup (spell t) with
      | None => keep t
      | Some def =>
        if is_expanded scope (spell t) then keep (set_disabled t)
        else if m_func def && (match r with u :: _ => negb (tt u =? T_LPAREN) | [] => true end) then keep t
        else
          mbind (read_args scope def r) (fun '(args, r') =>
          mbind (expand_stringify_and_paste c99 def args) (fun list =>
          mbind (if 0 <? m_params def then
                   mbind (mmap (fun a => mbind (xl n [] a) (fun '(_, o) => MOk (fix_first o))) args)
                     (fun args => MOk (substitute args list))
                 else MOk list) (fun list =>
          mbind (xl n (m_name def :: scope) list) (fun '(_, e) =>
          mbind (xl n scope r') (fun '(k, o) =>
          MOk (S k, with_lws (lws t) e ++ o))))))
      end
    end.
Proof. reflexivity. Qed.

Lemma bind_ok : forall {A B} (r : mres A) (f : A -> mres B) y, mbind r f = MOk y -> exists x, r = MOk x /\ f x = MOk y.
Proof. intros A B r f y H. destruct r; simpl in H; try discriminate. eauto. Qed.

Lemma mmap_mono : forall {A B} (f g : A -> mres B), (forall x y, f x = MOk y -> g x = MOk y) ->
  forall l ys, mmap f l = MOk ys -> mmap g l = MOk ys.
Proof.
  intros A B f g M. induction l as [|x l IH]; simpl; intros ys H; [exact H|].
  apply bind_ok in H as (y & E & H). apply bind_ok in H as (zs & E2 & H).
  rewrite (M _ _ E). simpl. rewrite (IH _ E2). exact H.
Qed.

Lemma xl_mono1 : forall n scope l r, xl n scope l = MOk r -> xl (S n) scope l = MOk r.
Proof.
  induction n as [|n IH]; intros scope l r H; [discriminate H|].
  rewrite xl_step in H. rewrite xl_step. destruct l as [|t l]; [exact H|].
  assert (K : forall u, mbind (xl n scope l) (fun '(k, o) => MOk (k, u :: o)) = MOk r ->
                        mbind (xl (S n) scope l) (fun '(k, o) => MOk (k, u :: o)) = MOk r).
  { intros u X. apply bind_ok in X as (x & E & X). rewrite (IH _ _ _ E). exact X. }
  cbv zeta in *. destruct (negb (expandable t) || disabled t); [apply K; exact H|].
  destruct (lookup (spell t)) as [def|]; [|apply K; exact H].
  destruct (is_expanded scope (spell t)); [apply K; exact H|].
  destruct (m_func def && _); [apply K; exact H|].
  apply bind_ok in H as ([args r'] & E & H). rewrite E. cbn [mbind].
  apply bind_ok in H as (li & E2 & H). rewrite E2. cbn [mbind].
  apply bind_ok in H as (li2 & E3 & H).
  replace (if 0 <? m_params def then _ else _) with (MOk li2).
  - cbn [mbind]. apply bind_ok in H as ([k e] & E4 & H). rewrite (IH _ _ _ E4). cbn [mbind].
    apply bind_ok in H as ([k2 o] & E5 & H). rewrite (IH _ _ _ E5). exact H.
  - symmetry. destruct (0 <? m_params def); [|exact E3].
    apply bind_ok in E3 as (as2 & E6 & E3).
    erewrite mmap_mono; [exact E3| |exact E6].
    intros x y X. apply bind_ok in X as ([k o] & E7 & X). rewrite (IH _ _ _ E7). exact X.
Qed.
Lemma xl_mono : forall n m scope l r, xl n scope l = MOk r -> (n <= m)%nat -> xl m scope l = MOk r.
Proof. intros n m scope l r H L. induction L; [exact H|]. apply xl_mono1. exact IHL. Qed.

(* ---- A finished expansion leaves no object-like macro name unless it is marked. ---- *)
Definition settled (t : tok) : Prop :=
  expandable t = true -> disabled t = false ->
  match lookup (spell t) with None => True | Some m => m_func m = true end.

Lemma with_lws_settled : forall w l, Forall settled l -> Forall settled (with_lws w l).
Proof. intros w l H. destruct H; simpl; constructor; auto. Qed.

Lemma xl_settled : forall n scope l k o, xl n scope l = MOk (k, o) -> Forall settled o.
Proof.
  induction n as [|n IH]; intros scope l k o H; [discriminate H|].
  rewrite xl_step in H. destruct l as [|t l]; [inversion H; constructor|]. cbv zeta in H.
  assert (K : forall u, mbind (xl n scope l) (fun '(k, o) => MOk (k, u :: o)) = MOk (k, o) -> settled u -> Forall settled o).
  { intros u X S. apply bind_ok in X as ([k2 o2] & E & X). inversion X; subst. constructor; [exact S|eauto]. }
  destruct (negb (expandable t) || disabled t) eqn:E.
  { apply (K t H). intros A B. apply orb_true_iff in E as [E|E]; [rewrite A in E; discriminate|congruence]. }
  destruct (lookup (spell t)) as [def|] eqn:L.
  2: { apply (K t H). intros A B. rewrite L. exact I. }
  destruct (is_expanded scope (spell t)).
  { apply (K _ H). intros A B. discriminate B. }
  destruct (m_func def && _) eqn:F.
  { apply (K t H). intros A B. rewrite L. apply andb_true_iff in F. tauto. }
  apply bind_ok in H as ([args r'] & E1 & H). apply bind_ok in H as (li & E2 & H).
  apply bind_ok in H as (li2 & E3 & H). apply bind_ok in H as ([k1 e] & E4 & H).
  apply bind_ok in H as ([k2 o2] & E5 & H). inversion H; subst.
  apply Forall_app. split; [apply with_lws_settled|]; eauto.
Qed.

(* ---- Tokens that agree up to spacing ---- *)
Definition like (a b : tok) : Prop := core a = core b /\ disabled a = false.
Lemma like_core : forall a b, Forall2 like a b -> map core a = map core b.
Proof. induction 1 as [|x y a b [C _] _ IH]; simpl; congruence. Qed.
Ltac core_eq H := injection H; intros.

Lemma not_in_expanded : forall scope n, ~ In n scope -> is_expanded scope n = false.
Proof.
  induction scope as [|m scope IH]; intros n N; [reflexivity|]. unfold is_expanded in *. cbn [existsb].
  rewrite IH by (intro; apply N; right; assumption).
  destruct (list_eqb m n) eqn:E; [|reflexivity]. apply list_eqb_eq in E. exfalso. apply N. left. exact E.
Qed.
Lemma in_expanded : forall scope n, In n scope -> is_expanded scope n = true.
Proof. intros scope n H. apply existsb_exists. exists n. split; [exact H|apply list_eqb_refl]. Qed.

(* Macro-free lists expand to themselves. *)
Lemma xl_id : forall l, no_macros lookup l -> forall scope n, (length l < n)%nat -> xl n scope l = MOk (0%nat, l).
Proof.
  induction l as [|t l IH]; intros N scope n L; (destruct n; [simpl in L; lia|]); [reflexivity|].
  inversion N; subst. rewrite xl_step. cbv zeta. rewrite IH by (auto; simpl in L; lia). cbn [mbind].
  destruct (expandable t) eqn:E; [|reflexivity]. rewrite H1 by reflexivity.
  destruct (negb true || disabled t); reflexivity.
Qed.

(* Scopes hold macro names. *)
Definition macro_names (h : list (list Z)) : Prop := forall n, In n h -> lookup n <> None.
Lemma no_macro_unmarked : forall h t, macro_names h -> (expandable t = true -> lookup (spell t) = None) ->
  (if expandable t && is_expanded h (spell t) then set_disabled t else t) = t.
Proof.
  intros h t S N. destruct (expandable t); [|reflexivity]. simpl.
  rewrite not_in_expanded; [reflexivity|]. intro I. apply (S _ I). apply N. reflexivity.
Qed.

(* read_arg over a balanced argument. *)
Definition stops (va : bool) (t : tok) : Prop := tt t = T_RPAREN \/ (tt t = T_COMMA /\ va = false).

Ltac zb := repeat match goal with
  | H : tt ?t = ?k |- context [tt ?t =? _] => rewrite H
  | H : tt ?t <> ?k |- context [tt ?t =? ?k] => rewrite (proj2 (Z.eqb_neq (tt t) k) H)
  end.
Lemma read_arg_bal : forall c a, balanced c a -> forall h va d e, macro_names h -> no_macros lookup a ->
  (c = true -> d = O -> va = true) ->
  read_arg h va d (a ++ e) = mbind (read_arg h va d e) (fun '(x, y) => MOk (a ++ x, y)).
Proof.
  assert (ID : forall d (va : bool) h e,
     read_arg h va d e = mbind (read_arg h va d e) (fun '(x, y) => MOk ([] ++ x, y))).
  { intros. destruct (read_arg h va d e) as [[? ?]| | | |]; reflexivity. }
  induction 1 as [c|c t r A B C D bal IH|c p a q r P Q balA IHA balR IHR]; intros h va d e S N V.
  - apply ID.
  - inversion N as [|? ? N1 N2]; subst. cbn [app read_arg].
    assert (G : match d with O => negb ((negb (tt t =? T_COMMA) || va) && negb (tt t =? T_RPAREN)) | S _ => false end = false).
    { destruct d; [|reflexivity]. zb. destruct c.
      - rewrite V by reflexivity. rewrite orb_true_r. reflexivity.
      - rewrite (proj2 (Z.eqb_neq _ _) (D eq_refl)). reflexivity. }
    rewrite G. rewrite (proj2 (Z.eqb_neq _ _) C), (proj2 (Z.eqb_neq _ _) A), (proj2 (Z.eqb_neq _ _) B).
    cbv zeta. rewrite no_macro_unmarked by assumption. rewrite IH by assumption.
    destruct (read_arg h va d e) as [[x y]| | | |]; reflexivity.
  - inversion N as [|? ? N1 N2]; subst. apply Forall_app in N2 as [NA N3]. inversion N3 as [|? ? N4 N5]; subst.
    change ((p :: a ++ q :: r) ++ e) with (p :: (a ++ q :: r) ++ e). rewrite <- app_assoc.
    cbn [app read_arg]. rewrite P.
    replace (match d with O => negb ((negb (T_LPAREN =? T_COMMA) || va) && negb (T_LPAREN =? T_RPAREN)) | S _ => false end)
      with false by (destruct d; reflexivity).
    replace (T_LPAREN =? T_NEWLINE) with false by reflexivity. replace (T_LPAREN =? T_LPAREN) with true by reflexivity.
    cbv iota zeta. rewrite no_macro_unmarked by assumption.
    rewrite IHA; [|assumption|assumption|discriminate]. cbn [read_arg]. rewrite Q.
    replace (T_RPAREN =? T_NEWLINE) with false by reflexivity. replace (T_RPAREN =? T_LPAREN) with false by reflexivity.
    replace (T_RPAREN =? T_RPAREN) with true by reflexivity. cbn [pred]. cbv iota zeta.
    rewrite no_macro_unmarked by assumption. rewrite IHR by assumption.
    destruct (read_arg h va d e) as [[x y]| | | |]; simpl; try reflexivity.
    rewrite <- app_assoc. reflexivity.
Qed.
Lemma read_arg_ok : forall va a t e h, balanced va a -> no_macros lookup a -> macro_names h -> stops va t ->
  read_arg h va 0 (a ++ t :: e) = MOk (a, t :: e).
Proof.
  intros va a t e h B N S T. rewrite (read_arg_bal _ _ B) by (auto; tauto).
  cbn [read_arg].
  replace (negb ((negb (tt t =? T_COMMA) || va) && negb (tt t =? T_RPAREN))) with true.
  - simpl. rewrite app_nil_r. reflexivity.
  - destruct T as [->|[-> ->]]; [|reflexivity]. rewrite andb_false_r. reflexivity.
Qed.

(* read_fixed over separated arguments. *)
Lemma sep_cons_inv : forall a b r s, sep_args (a :: b :: r) s -> exists c s', tt c = T_COMMA /\ sep_args (b :: r) s' /\ s = a ++ c :: s'.
Proof. intros a b r s H. inversion H; subst. eauto. Qed.

Lemma read_fixed_ok : forall h q e, macro_names h -> tt q = T_RPAREN -> forall args s, sep_args args s -> args <> [] ->
  Forall (balanced false) args -> Forall (no_macros lookup) args ->
  read_fixed h false (length args) (s ++ q :: e) = MOk (args, true, q :: e).
Proof.
  intros h q e S Q. induction args as [|a args IH]; intros s SP NE B N; [contradiction|].
  inversion B as [|? ? B1 B2]; subst. inversion N as [|? ? N1 N2]; subst.
  destruct args as [|b args].
  - inversion SP; subst. cbn [length read_fixed].
    rewrite read_arg_ok by (auto; left; exact Q). cbn [mbind]. rewrite Q. reflexivity.
  - apply sep_cons_inv in SP as (c & s' & C & SP & ->).
    change (length (a :: b :: args)) with (Datatypes.S (length (b :: args))). cbn [read_fixed].
    rewrite <- app_assoc. cbn [app].
    rewrite read_arg_ok by (auto; right; auto). cbn [mbind]. rewrite C.
    replace (T_COMMA =? T_COMMA) with true by reflexivity.
    rewrite IH by (auto; discriminate). reflexivity.
Qed.
(* With the variable argument l still to come. *)
Lemma read_fixed_va_ok : forall h e, macro_names h -> forall i l s, sep_args (i ++ [l]) s ->
  Forall (balanced false) i -> Forall (no_macros lookup) i ->
  read_fixed h true (length i) (s ++ e) = MOk (i, true, l ++ e).
Proof.
  intros h e S. induction i as [|a i IH]; intros l s SP B N.
  - inversion SP; subst. reflexivity.
  - inversion B as [|? ? B1 B2]; subst. inversion N as [|? ? N1 N2]; subst.
    cbn [app] in SP. destruct (i ++ [l]) as [|b r] eqn:E; [destruct i; discriminate|].
    apply sep_cons_inv in SP as (c & s' & C & SP & ->).
    cbn [length read_fixed]. rewrite <- app_assoc. cbn [app].
    rewrite read_arg_ok by (auto; right; auto). cbn [mbind]. rewrite C.
    replace (T_COMMA =? T_COMMA) with true by reflexivity.
    rewrite <- E in SP. rewrite (IH l s' SP) by auto. reflexivity.
Qed.

Lemma read_args_ok : forall h m p s q args e, macro_names h -> m_func m = true -> plain m ->
  tt p = T_LPAREN -> tt q = T_RPAREN -> sep_args args s -> fits m args -> Forall (no_macros lookup) args ->
  read_args h m (p :: s ++ q :: e) = MOk (args, e).
Proof.
  intros h m p s q args e S F PL P Q SP (LEN & FIT) N. destruct PL as (_ & P0 & _ & VA).
  unfold read_args. rewrite F, P. cbn [negb]. replace (negb (T_LPAREN =? T_LPAREN)) with false by reflexivity.
  destruct (Z.eqb_spec (m_params m) 0) as [Z0|Z0].
  - destruct args; [|simpl in LEN; lia]. inversion SP; subst. cbn [app]. rewrite Q. reflexivity.
  - destruct (m_vararg m).
    + destruct FIT as (i & l & -> & B & BL). rewrite app_length in LEN. simpl in LEN.
      replace (Z.to_nat (m_params m - 1)) with (length i) by lia.
      apply Forall_app in N as [N1 N2]. inversion N2; subst.
      rewrite (read_fixed_va_ok h (q :: e) S i l s SP B N1). cbn [mbind].
      rewrite read_arg_ok by (auto; left; exact Q). cbn [mbind]. rewrite Q. reflexivity.
    + replace (Z.to_nat (m_params m - 0)) with (length args) by lia.
      rewrite (read_fixed_ok h q e S Q args s SP); [|intro; subst; simpl in LEN; lia|exact FIT|exact N].
      cbn [mbind]. rewrite Q. reflexivity.
Qed.

(* Without # and ## the first pass does nothing. *)
Lemma sp_plain : forall m args r n acc,
  Forall (fun t => tt t <> T_PASTE /\ tt t <> T_HASH /\ disabled t = false /\ (tt t = T_PARAM -> 0 <= pval t < m_params m)) r ->
  (length r < n)%nat -> stringify_and_paste c99 n m args acc r = MOk (acc ++ r).
Proof.
  intros m args. induction r as [|t r IH]; intros n acc W L; (destruct n; [simpl in L; lia|]); cbn [stringify_and_paste].
  - rewrite app_nil_r. reflexivity.
  - inversion W as [|? ? (A & B & _) W']; subst.
    rewrite (proj2 (Z.eqb_neq _ _) A), (proj2 (Z.eqb_neq _ _) B). rewrite IH by (auto; simpl in L; lia).
    rewrite <- app_assoc. reflexivity.
Qed.
Lemma split_last_in : forall l i x, split_last l = Some (i, x) -> In x l.
Proof.
  induction l as [|t l IH]; intros i x H; [discriminate|]. simpl in H.
  destruct l; [inversion H; left; reflexivity|].
  destruct (split_last (t0 :: l)) as [[a b]|] eqn:E; [|discriminate]. inversion H; subst. right. eauto.
Qed.
Lemma esp_plain : forall m args, plain m -> expand_stringify_and_paste c99 m args = MOk (m_repl m).
Proof.
  intros m args (W & _). unfold expand_stringify_and_paste. destruct (m_repl m) as [|t r] eqn:E; [reflexivity|].
  inversion W as [|? ? (A & B & _) W']; subst. rewrite (proj2 (Z.eqb_neq _ _) A).
  replace ((2 <? Z.of_nat (length (t :: r))) && _) with false.
  - rewrite sp_plain by (auto; lia). reflexivity.
  - destruct (split_last (t :: r)) as [[i x]|] eqn:X; [|symmetry; apply andb_false_r].
    apply split_last_in in X. rewrite Forall_forall in W. destruct (W _ X) as (Y & _).
    rewrite (proj2 (Z.eqb_neq _ _) Y). symmetry. apply andb_false_r.
Qed.

Lemma like_refl : forall l, Forall (fun t => disabled t = false) l -> Forall2 like l l.
Proof. induction 1; constructor; auto. split; auto. Qed.
Lemma fix_first_like : forall a b, Forall2 like a b -> Forall2 like (fix_first a) b.
Proof.
  intros a b H. destruct H as [|x y a b [C D] F]; [constructor|]. simpl. constructor; [|exact F].
  destruct (lws x =? 0); split; auto.
Qed.
Lemma nth_like : forall args' args, Forall2 (Forall2 like) args' args -> forall i, Forall2 like (nth i args' []) (nth i args []).
Proof. induction 1; intros [|i]; simpl; auto; constructor. Qed.
Lemma subst_like : forall args' args body, Forall2 (Forall2 like) args' args ->
  Forall (fun t => disabled t = false) body -> Forall2 like (substitute args' body) (subst args body).
Proof.
  intros args' args body H. induction 1 as [|t r D W IH]; simpl; [constructor|].
  apply Forall2_app; [|exact IH]. destruct (tt t =? T_PARAM).
  - apply nth_like. exact H.
  - constructor; [|constructor]. split; auto.
Qed.

(* Arguments that agree up to spacing are equally well formed. *)
Lemma like_tt : forall a b, like a b -> tt a = tt b.
Proof. intros a b [C _]. injection C. auto. Qed.
Lemma like_fields : forall a b, like a b -> tt a = tt b /\ expandable a = expandable b /\ spell a = spell b /\ disabled a = false.
Proof. intros a b [C D]. injection C. auto. Qed.
Lemma balanced_like : forall c b, balanced c b -> forall a, Forall2 like a b -> balanced c a.
Proof.
  induction 1 as [c|c t r A B C D bal IH|c p x q r P Q bx IHx br IHr]; intros a H.
  - inversion H; constructor.
  - inversion H as [|u ? a' ? L F]; subst. pose proof (like_tt _ _ L) as T.
    apply bal_tok; [rewrite T; assumption..|intro; rewrite T; auto|auto].
  - inversion H as [|p' ? a' ? L F]; subst. apply Forall2_app_inv_r in F as (x' & y' & F1 & F2 & ->).
    inversion F2 as [|q' ? r' ? L2 F3]; subst.
    apply bal_group; auto; [rewrite (like_tt _ _ L)|rewrite (like_tt _ _ L2)]; assumption.
Qed.
Lemma no_macros_like : forall b, no_macros lookup b -> forall a, Forall2 like a b -> no_macros lookup a.
Proof.
  intros b N a H. induction H as [|x y a b L F IH]; [constructor|]. inversion N; subst.
  apply like_fields in L as (_ & E & S & _). constructor; [rewrite E, S; assumption|apply IH; assumption].
Qed.
Lemma sep_like : forall args s, sep_args args s -> forall s', Forall2 like s' s ->
  exists args', Forall2 (Forall2 like) args' args /\ sep_args args' s'.
Proof.
  induction 1 as [|a|a c b r s C SP IH]; intros s' F.
  - inversion F; subst. exists []. split; constructor.
  - exists [s']. split; constructor; auto.
  - apply Forall2_app_inv_r in F as (a' & y & F1 & F2 & ->). inversion F2 as [|c' ? t' ? L F3]; subst.
    destruct (IH _ F3) as (as' & G & SP'). inversion G as [|b' ? r' ? G1 G2]; subst.
    exists (a' :: b' :: r'). split; [constructor; auto|]. apply sep_cons; [rewrite (like_tt _ _ L); exact C|exact SP'].
Qed.
Lemma Forall2_len : forall {A B} (R : A -> B -> Prop) a b, Forall2 R a b -> length a = length b.
Proof. induction 1; simpl; auto. Qed.
Lemma fits_like : forall m args args', Forall2 (Forall2 like) args' args -> fits m args -> fits m args'.
Proof.
  intros m args args' F (L & X). split; [rewrite (Forall2_len _ _ _ F); exact L|].
  assert (K : forall c a' a, Forall2 (Forall2 like) a' a -> Forall (balanced c) a -> Forall (balanced c) a').
  { intros c a' a G B. induction G; constructor; inversion B; subst; auto. eapply balanced_like; eauto. }
  destruct (m_vararg m); [|eapply K; eauto].
  destruct X as (i & l & -> & B & BL). apply Forall2_app_inv_r in F as (i' & y & F1 & F2 & ->).
  inversion F2 as [|l' ? z ? G1 G2]; subst. inversion G2; subst.
  exists i', l'. repeat split; [eapply K; eauto|eapply balanced_like; eauto].
Qed.
Lemma no_macros_args_like : forall args args', Forall2 (Forall2 like) args' args ->
  Forall (no_macros lookup) args -> Forall (no_macros lookup) args'.
Proof. intros args args' F N. induction F; constructor; inversion N; subst; auto. eapply no_macros_like; eauto. Qed.

(* Expanding macro-free arguments. *)
Lemma args_id : forall n args', Forall (no_macros lookup) args' -> (forall a, In a args' -> (length a < n)%nat) ->
  mmap (fun a => mbind (xl n [] a) (fun '(_, o) => MOk (fix_first o))) args' = MOk (map fix_first args').
Proof.
  induction args' as [|a r IH]; intros N L; [reflexivity|]. inversion N; subst. cbn [mmap map].
  rewrite xl_id by (auto; apply L; left; reflexivity). cbn [mbind].
  rewrite IH by (auto; intros; apply L; right; assumption). reflexivity.
Qed.

(* ---- Prosser's algorithm with a step count ---- *)
Inductive pxn : nat -> list (tok * list (list Z)) -> list tok -> Prop :=
| pxn_nil : pxn 0 [] []
| pxn_other : forall n t h ts o, (expandable t = true -> lookup (spell t) = None) ->
    pxn n ts o -> pxn (S n) ((t, h) :: ts) (t :: o)
| pxn_hidden : forall n t h ts o, expandable t = true -> In (spell t) h ->
    pxn n ts o -> pxn (S n) ((t, h) :: ts) (t :: o)
| pxn_no_call : forall n t h ts o m, expandable t = true -> lookup (spell t) = Some m -> m_func m = true ->
    (match ts with (u, _) :: _ => tt u <> T_LPAREN | [] => True end) ->
    pxn n ts o -> pxn (S n) ((t, h) :: ts) (t :: o)
| pxn_object : forall n t h ts o m, expandable t = true -> lookup (spell t) = Some m -> m_func m = false ->
    ~ In (spell t) h -> plain m ->
    pxn n (map (fun u => (u, spell t :: h)) (m_repl m) ++ ts) o -> pxn (S n) ((t, h) :: ts) o
| pxn_call : forall n t h ts o m p q args s, expandable t = true -> lookup (spell t) = Some m -> m_func m = true ->
    ~ In (spell t) h -> plain m ->
    tt p = T_LPAREN -> tt q = T_RPAREN -> sep_args args s -> fits m args -> Forall (no_macros lookup) args ->
    pxn n (map (fun u => (u, spell t :: h)) (subst args (m_repl m)) ++ ts) o ->
    pxn (S n) ((t, h) :: map (fun u => (u, h)) (p :: s ++ [q]) ++ ts) o.
Lemma px_pxn : forall ts o, px lookup ts o -> exists n, pxn n ts o.
Proof.
  induction 1; repeat match goal with H : exists n, pxn n _ _ |- _ => destruct H as [? ?] end; eexists.
  - apply pxn_nil.
  - apply pxn_other; eauto.
  - apply pxn_hidden; eauto.
  - eapply pxn_no_call; eauto.
  - eapply pxn_object; eauto.
  - eapply pxn_call; eauto.
Qed.

Definition below (h : list (list Z)) (ts : list (tok * list (list Z))) : Prop :=
  Forall (fun x => (length (snd x) < length h)%nat) ts.

Lemma same_level : forall h a ts2 l ts', below h ts' ->
  map (fun u : tok => (u, h)) a ++ ts2 = map (fun u => (u, h)) l ++ ts' ->
  exists l3, l = a ++ l3 /\ ts2 = map (fun u => (u, h)) l3 ++ ts'.
Proof.
  induction a as [|x a IH]; intros ts2 l ts' B E; [exists l; auto|].
  destruct l as [|y l].
  - simpl in E. rewrite <- E in B. inversion B; subst. simpl in *. lia.
  - cbn [map app] in E. injection E. intros E2 ->. destruct (IH _ _ _ B E2) as (l3 & -> & ->). exists l3. auto.
Qed.

Lemma core_with_lws : forall w l, map core (with_lws w l) = map core l.
Proof. destruct l; reflexivity. Qed.

Definition wf_lookup : Prop := forall n m, lookup n = Some m -> m_name m = n.

Lemma simulate : wf_lookup -> forall n ts o, pxn n ts o -> forall h l ts', ts = map (fun u => (u, h)) l ++ ts' ->
  below h ts' -> macro_names h -> forall l', Forall2 like l' l ->
  exists o1 o2 f k o1' n2, o = o1 ++ o2 /\ xl f h l' = MOk (k, o1') /\ map core o1' = map core o1 /\
    pxn n2 ts' o2 /\ (n2 <= n)%nat.
Proof.
  intros WL. induction n as [n IHn] using (well_founded_induction lt_wf).
  intros ts o D h l ts' E B S l' F.
  destruct l as [|t l].
  { inversion F; subst. exists [], o, 1%nat, 0%nat, [], n. repeat split; auto. }
  inversion F as [|t' t0 r' l0 L FR E1 E2]; subst l' t0 l0. destruct (like_fields _ _ L) as (Lt & Le & Ls & Ld).
  cbn [map app] in E. subst ts.
  (* a token that is kept *)
  assert (KEEP : forall n0 o0, n = Datatypes.S n0 -> o = t :: o0 -> pxn n0 (map (fun u => (u, h)) l ++ ts') o0 ->
     (forall f k o1', xl f h r' = MOk (k, o1') -> exists f2 u, core u = core t /\ xl f2 h (t' :: r') = MOk (k, u :: o1')) ->
     exists o1 o2 f k o1' n2, o = o1 ++ o2 /\ xl f h (t' :: r') = MOk (k, o1') /\ map core o1' = map core o1 /\
       pxn n2 ts' o2 /\ (n2 <= n)%nat).
  { intros n0 o0 -> -> D0 K.
    destruct (IHn n0 (Nat.lt_succ_diag_r n0) _ _ D0 h l ts' eq_refl B S r' FR) as (o1 & o2 & f & k & o1' & n2 & -> & X & C & P2 & LE).
    destruct (K _ _ _ X) as (f2 & u & CU & X2).
    exists (t :: o1), o2, f2, k, (u :: o1'), n2. split; [reflexivity|]. split; [exact X2|]. split; [simpl; congruence|]. split; [exact P2|lia]. }
  inversion D; subst.
  - eapply KEEP; eauto. intros f k o1' X. exists (Datatypes.S f), t'. split; [exact (proj1 L)|].
    rewrite xl_step. cbv zeta. rewrite X. cbn [mbind].
    match goal with H : expandable t = true -> _ |- _ => rename H into N end.
    destruct (expandable t') eqn:ET; [|reflexivity]. rewrite Ld. cbn [negb orb].
    rewrite Ls, N by congruence. reflexivity.
  - eapply KEEP; eauto. intros f k o1' X.
    match goal with H : In (spell t) h |- _ => rename H into I end.
    exists (Datatypes.S f), (set_disabled t'). split; [exact (proj1 L)|].
    rewrite xl_step. cbv zeta. rewrite X. cbn [mbind]. rewrite Le, Ld, Ls.
    match goal with H : expandable t = true |- _ => rewrite H end. cbn [negb orb].
    destruct (lookup (spell t)) eqn:LK; [|exfalso; exact (S _ I LK)].
    rewrite in_expanded by exact I. reflexivity.
  - (* function-like name without a call *)
    match goal with H : lookup (spell t) = Some m |- _ => rename H into LK end.
    destruct (in_dec (list_eq_dec Z.eq_dec) (spell t) h) as [I|NI].
    + eapply KEEP; eauto. intros f k o1' X. exists (Datatypes.S f), (set_disabled t'). split; [exact (proj1 L)|].
      rewrite xl_step. cbv zeta. rewrite X. cbn [mbind]. rewrite Le, Ld, Ls.
      match goal with H : expandable t = true |- _ => rewrite H end. cbn [negb orb].
      rewrite LK, in_expanded by exact I. reflexivity.
    + eapply KEEP; eauto. intros f k o1' X. exists (Datatypes.S f), t'. split; [exact (proj1 L)|].
      rewrite xl_step. cbv zeta. rewrite X. cbn [mbind]. rewrite Le, Ld, Ls.
      match goal with H : expandable t = true |- _ => rewrite H end. cbn [negb orb].
      rewrite LK, not_in_expanded by exact NI.
      match goal with H : m_func m = true |- _ => rewrite H end. cbn [andb].
      replace (match r' with u :: _ => negb (tt u =? T_LPAREN) | [] => true end) with true; [reflexivity|].
      inversion FR as [|u v a b L2 FR2]; subst; [reflexivity|].
      match goal with H : match map _ _ ++ _ with _ => _ end |- _ => cbn [map app] in H; rename H into NP end.
      rewrite (like_tt _ _ L2), (proj2 (Z.eqb_neq _ _) NP). reflexivity.
  - (* object-like *)
    match goal with H : pxn n0 _ _ |- _ => rename H into D0 end.
    match goal with H : lookup (spell t) = Some m |- _ => rename H into LK end.
    match goal with H : plain m |- _ => rename H into PL end.
    match goal with H : ~ In _ _ |- _ => rename H into NI end.
    destruct (IHn n0 (Nat.lt_succ_diag_r n0) _ _ D0 (spell t :: h) (m_repl m) _ eq_refl) with (l' := m_repl m)
      as (o1 & o2 & f & k & e & n2 & -> & X & C & P2 & LE).
    { apply Forall_app. split.
      - clear. induction l; simpl; constructor; simpl; auto.
      - eapply Forall_impl; [|exact B]. simpl. intros; lia. }
    { intros x [<-|I]; [congruence|auto]. }
    { apply like_refl. eapply Forall_impl; [|exact (proj1 PL)]. simpl. tauto. }
    destruct (IHn n2 (le_n_S _ _ LE) _ _ P2 h l ts' eq_refl B S r' FR) as (o3 & o4 & f2 & k2 & o3' & n3 & -> & X2 & C2 & P3 & LE2).
    exists (o1 ++ o3), o4, (Datatypes.S (Nat.max f f2)), (Datatypes.S k2), (with_lws (lws t') e ++ o3'), n3.
    split; [apply app_assoc|]. split; [|split; [|split; [exact P3|lia]]].
    + rewrite xl_step. cbv zeta. rewrite Le, Ld, Ls. match goal with H : expandable t = true |- _ => rewrite H end.
      cbn [negb orb]. rewrite LK, not_in_expanded by exact NI.
      match goal with H : m_func m = false |- _ => rewrite H; rename H into MF end. cbn [andb].
      unfold read_args. rewrite MF. cbn [negb mbind]. rewrite esp_plain by exact PL. cbn [mbind].
      destruct PL as (_ & _ & P0 & _). rewrite (P0 MF). cbn [mbind]. replace (0 <? 0) with false by reflexivity. cbn [mbind].
      rewrite (WL _ _ LK). rewrite (xl_mono f _ _ _ _ X) by lia. cbn [mbind].
      rewrite (xl_mono f2 _ _ _ _ X2) by lia. reflexivity.
    + rewrite !map_app, core_with_lws. congruence.
  - (* call *)
    match goal with H : pxn n0 _ _ |- _ => rename H into D0 end.
    match goal with H : lookup (spell t) = Some m |- _ => rename H into LK end.
    match goal with H : plain m |- _ => rename H into PL end.
    match goal with H : ~ In _ _ |- _ => rename H into NI end.
    match goal with H : _ = map (fun u => (u, h)) l ++ ts' |- _ => rename H into EQ end.
    apply (same_level h (p :: s ++ [q])) in EQ as (l3 & -> & ->); [|exact B].
    match goal with H : sep_args args s |- _ => rename H into SP end.
    cbn [app] in FR. rewrite <- app_assoc in FR.
    inversion FR as [|p' p0 r2 l0 Lp FR2 E1 E2]; subst r' p0 l0.
    apply Forall2_app_inv_r in FR2 as (s' & y & Fs & FR3 & ->). cbn [app] in FR3.
    inversion FR3 as [|q' ? r3 ? Lq FR4]; subst.
    destruct (sep_like _ _ SP _ Fs) as (args' & FA & SP').
    match goal with H : fits m args |- _ => pose proof (fits_like _ _ _ FA H) as FIT; rename H into FIT0 end.
    match goal with H : Forall (no_macros lookup) args |- _ => pose proof (no_macros_args_like _ _ FA H) as NM end.
    assert (RA : read_args h m (p' :: s' ++ q' :: r3) = MOk (args', r3)).
    { apply read_args_ok; auto; [rewrite (like_tt _ _ Lp)|rewrite (like_tt _ _ Lq)]; assumption. }
    assert (FA2 : Forall2 (Forall2 like) (map fix_first args') args).
    { clear - FA. induction FA; simpl; constructor; auto. apply fix_first_like. assumption. }
    assert (BODY : exists body, Forall2 like body (subst args (m_repl m)) /\
       (if 0 <? m_params m then body = substitute (map fix_first args') (m_repl m) else body = m_repl m)).
    { assert (ND : Forall (fun t => disabled t = false) (m_repl m)).
      { eapply Forall_impl; [|exact (proj1 PL)]. simpl. tauto. }
      destruct (Z.ltb_spec 0 (m_params m)).
      - eexists. split; [|reflexivity]. apply subst_like; assumption.
      - exists (m_repl m). split; [|reflexivity].
        replace (subst args (m_repl m)) with (m_repl m); [apply like_refl; exact ND|].
        destruct PL as (W & _). clear - W H. induction W as [|u r (_ & _ & _ & PP) W IH]; [reflexivity|].
        simpl. destruct (Z.eqb_spec (tt u) T_PARAM) as [E|]; [specialize (PP E); lia|]. simpl. congruence. }
    destruct BODY as (body & FB & EB).
    destruct (IHn n0 (Nat.lt_succ_diag_r n0) _ _ D0 (spell t :: h) (subst args (m_repl m)) _ eq_refl) with (l' := body)
      as (o1 & o2 & f & k & e & n2 & -> & X & C & P2 & LE).
    { apply Forall_app. split.
      - clear. induction l3; simpl; constructor; simpl; auto.
      - eapply Forall_impl; [|exact B]. simpl. intros; lia. }
    { intros x [<-|I]; [congruence|auto]. }
    { exact FB. }
    destruct (IHn n2 (le_n_S _ _ LE) _ _ P2 h l3 ts' eq_refl B S r3 FR4) as (o3 & o4 & f2 & k2 & o3' & n3 & -> & X2 & C2 & P3 & LE2).
    set (big := Datatypes.S (list_max (map (@length tok) args'))).
    exists (o1 ++ o3), o4, (Datatypes.S (Nat.max big (Nat.max f f2))), (Datatypes.S k2), (with_lws (lws t') e ++ o3'), n3.
    split; [apply app_assoc|]. split; [|split; [|split; [exact P3|lia]]].
    + rewrite xl_step. cbv zeta. rewrite Le, Ld, Ls. match goal with H : expandable t = true |- _ => rewrite H end.
      cbn [negb orb]. rewrite LK, not_in_expanded by exact NI.
      match goal with H : tt p = T_LPAREN |- _ => rewrite (like_tt _ _ Lp), H end.
      match goal with H : m_func m = true |- _ => rewrite H end.
      replace (true && negb (T_LPAREN =? T_LPAREN)) with false by reflexivity.
      rewrite RA. cbn [mbind]. rewrite esp_plain by exact PL. cbn [mbind].
      replace (if 0 <? m_params m then _ else _) with (MOk body).
      * cbn [mbind]. rewrite (WL _ _ LK). rewrite (xl_mono f _ _ _ _ X) by lia. cbn [mbind].
        rewrite (xl_mono f2 _ _ _ _ X2) by lia. reflexivity.
      * destruct (0 <? m_params m); [|congruence]. rewrite args_id; [cbn [mbind]; congruence|exact NM|].
        intros a I. apply Nat.lt_le_trans with big; [|lia]. unfold big.
        assert (length a <= list_max (map (@length tok) args'))%nat; [|lia].
        pose proof (proj1 (list_max_le (map (@length tok) args') _) (le_n _)) as FA3.
        rewrite Forall_forall in FA3. apply FA3. apply in_map. exact I.
    + rewrite !map_app, core_with_lws. congruence.
Qed.

Lemma prosser : wf_lookup -> forall l o, Forall (fun t => disabled t = false) l ->
  px lookup (map (fun t => (t, [])) l) o ->
  exists n k o', expand c99 lookup n l = MOk (k, o') /\ map core o' = map core o.
Proof.
  intros WL l o D P. apply px_pxn in P as [n P].
  destruct (simulate WL n _ _ P [] l [] (eq_sym (app_nil_r _))) with (l' := l) as (o1 & o2 & f & k & o1' & n2 & -> & X & C & P2 & _).
  - constructor.
  - intros x [].
  - apply like_refl. exact D.
  - exists f, k, o1'. split; [exact X|]. inversion P2; subst. rewrite app_nil_r. exact C.
Qed.
End P.
