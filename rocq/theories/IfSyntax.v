(* What is accepted in #if begins with an expression of the grammar. *)
From Coq Require Import List ZArith Bool Lia.
From Verif Require Import TokModel EscModel NumberModel IfModel IfSpec IfProofs.
Import ListNotations.
Open Scope Z_scope.

(* The token strings of the grammar (C99 6.5, with commas in parentheses and between ? and :), by the
   level of IfSpec. *)
Inductive Str : nat -> list tok -> Prop :=
| Str_leaf k t : tt t = T_PREP_NUMBER \/ tt t = T_PREP_CHAR \/ tt t = T_IDENTIFIER \/ expandable t = true -> Str k [t]
| Str_paren k l p r : tt l = 40 -> Commas p -> tt r = 41 -> Str k (l :: p ++ [r])
| Str_un k o t p : (1 <= k)%nat -> tt t = un_tok o -> Str 1 p -> Str k (t :: p)
| Str_bin k o a t b : (level o <= k)%nat -> Str (level o) a -> tt t = bin_tok o -> Str (level o) b -> Str k (a ++ t :: b)
| Str_cond k a q b c d : (12 <= k)%nat -> Str 11 a -> tt q = 63 -> Commas b -> tt c = 58 -> Str 12 d ->
    Str k (a ++ q :: b ++ c :: d)
with Commas : list tok -> Prop :=
| Commas_one p : Str 12 p -> Commas p
| Commas_more p c q : Str 12 p -> tt c = 44 -> Commas q -> Commas (p ++ c :: q).

Lemma Str_le k j p : Str k p -> (k <= j)%nat -> Str j p.
Proof.
  intros H L. destruct H.
  - apply Str_leaf; assumption.
  - apply Str_paren; assumption.
  - apply (Str_un _ o); [lia|assumption..].
  - apply (Str_bin _ o); [lia|assumption..].
  - apply Str_cond; [lia|assumption..].
Qed.

Section S.
Variable ismacro : list Z -> bool.
Variable erange : list Z -> bool.
Notation ev := (ev ismacro erange).

Definition fn_level (f : fn) : nat :=
  match f with
  | Primary => 0 | Unary => 1 | Mult | MultLoop _ => 2 | Addi | AddiLoop _ => 3 | Shift | ShiftLoop _ => 4
  | Rela | RelaLoop _ => 5 | Equa => 6 | And_ => 7 | Xor_ => 8 | Ior => 9 | Land => 10 | Lor => 11 | Cond => 12 | Expr => 13
  end%nat.
Definition good (f : fn) (ts rest : list tok) : Prop :=
  match f with
  | MultLoop _ | AddiLoop _ | ShiftLoop _ | RelaLoop _ =>
    exists q, ts = q ++ rest /\ forall a, Str (fn_level f) a -> Str (fn_level f) (a ++ q)
  | Expr => exists p, ts = p ++ rest /\ Commas p
  | _ => exists p, ts = p ++ rest /\ Str (fn_level f) p
  end.

Ltac open_ok H := let x := fresh "x" in let E := fresh "E" in apply ibind_ok in H as (x & E & H).

Lemma bin_good k o p q t r1 r2 ts : ts = p ++ t :: r1 -> r1 = q ++ r2 -> level o = k -> Str k p -> tt t = bin_tok o -> Str k q ->
  exists x, ts = x ++ r2 /\ Str k x.
Proof.
  intros -> -> <- P T Q. exists (p ++ t :: q). split; [rewrite <- app_assoc; reflexivity|].
  apply (Str_bin _ o); auto.
Qed.

Lemma loop_good k o p t r r1 r2 q : tt t = bin_tok o -> level o = k -> r = p ++ r1 -> Str (pred k) p ->
  r1 = q ++ r2 -> (forall a, Str k a -> Str k (a ++ q)) ->
  exists x, t :: r = x ++ r2 /\ forall a, Str k a -> Str k (a ++ x).
Proof.
  intros T L -> P -> Q. exists (t :: p ++ q). split; [cbn [app]; rewrite <- app_assoc; reflexivity|].
  intros a A. replace (a ++ t :: p ++ q) with ((a ++ t :: p) ++ q) by (rewrite <- app_assoc; reflexivity).
  apply Q. apply (Str_bin _ o); subst; auto. eapply Str_le; [exact P|lia].
Qed.
Lemma none_good k ts : exists x, ts = x ++ ts /\ forall a, Str k a -> Str k (a ++ x).
Proof. exists []. split; [reflexivity|]. intros. rewrite app_nil_r. assumption. Qed.

Lemma hd_cons r z : hd_tt r = z -> 0 <= z -> exists t r', r = t :: r' /\ tt t = z.
Proof. destruct r; cbn; intros; [lia|eauto]. Qed.

Lemma ev_good : forall n f ts x, ev n f ts = IOk x -> good f ts (snd x).
Proof.
  induction n as [|n IH]; intros f ts x H; [discriminate H|].
  cbn [IfModel.ev] in H. destruct ts as [|t r]; [discriminate H|].
  assert (I : forall f ts x, ev n f ts = IOk x -> good f ts (snd x)) by exact IH. clear IH.
  (* loops *)
  assert (LP : forall k o (l : num) f1 (f2 : num -> fn) (g : Z -> num -> num -> ires num), fn_level f1 = pred k -> good f1 = (fun ts rest => exists p, ts = p ++ rest /\ Str (pred k) p) ->
     (forall l, good (f2 l) = (fun ts rest => exists q, ts = q ++ rest /\ forall a, Str k a -> Str k (a ++ q))) ->
     level o = k -> tt t = bin_tok o ->
     ibind (ev n f1 r) (fun y => ibind (g (tt t) l (fst y)) (fun l => ev n (f2 l) (snd y))) = IOk x ->
     exists q, t :: r = q ++ snd x /\ forall a, Str k a -> Str k (a ++ q)).
  { intros k o l f1 f2 g _ G1 G2 LO TO X. open_ok X. open_ok X. apply I in X. rewrite G2 in X. destruct X as (q & Q1 & Q2).
    apply I in E. rewrite G1 in E. destruct E as (p & P1 & P2). eapply loop_good; eauto. }
  (* operands of a level, then the loop *)
  assert (EN : forall k f1 f2, good f1 = (fun ts rest => exists p, ts = p ++ rest /\ Str (pred k) p) ->
     (forall l, good (f2 l) = (fun ts rest => exists q, ts = q ++ rest /\ forall a, Str k a -> Str k (a ++ q))) ->
     ibind (ev n f1 (t :: r)) (fun y => ev n (f2 (fst y)) (snd y)) = IOk x -> exists p, t :: r = p ++ snd x /\ Str k p).
  { intros k f1 f2 G1 G2 X. open_ok X. apply I in X. rewrite G2 in X. destruct X as (q & Q1 & Q2).
    apply I in E. rewrite G1 in E. destruct E as (p & P1 & P2). exists (p ++ q). split.
    - rewrite P1, Q1. apply app_assoc.
    - apply Q2. eapply Str_le; [exact P2|lia]. }
  (* right recursion *)
  assert (RR : forall k o f1 f2 (g : num -> num -> ires num), good f1 = (fun ts rest => exists p, ts = p ++ rest /\ Str (pred k) p) ->
     (exists j, (j <= k)%nat /\ good f2 = (fun ts rest => exists p, ts = p ++ rest /\ Str j p)) ->
     level o = k -> forall y, ev n f1 (t :: r) = IOk y -> hd_tt (snd y) = bin_tok o ->
     ibind (ev n f2 (tl (snd y))) (fun z => ibind (g (fst y) (fst z)) (fun l => IOk (l, snd z))) = IOk x ->
     exists p, t :: r = p ++ snd x /\ Str k p).
  { intros k o f1 f2 g G1 (j & J & G2) LO y Y HY X. open_ok X. open_ok X. injection X as <-. cbn [snd].
    apply I in E. rewrite G2 in E. destruct E as (q & Q1 & Q2).
    apply I in Y. rewrite G1 in Y. destruct Y as (p & P1 & P2).
    destruct (hd_cons _ _ HY) as (u & r' & U & UT); [destruct o; cbn; lia|]. rewrite U in *. cbn [tl] in Q1.
    eapply (bin_good k o); [exact P1|exact Q1|exact LO| |exact UT|]; eapply Str_le; eauto; lia. }
  destruct f; cbn [good].
  - (* primary *)
    destruct (Z.eqb_spec (tt t) T_PREP_NUMBER) as [E|_].
    { exists [t]. split; [|apply Str_leaf; auto].
      destruct (convert_preprocessing_number erange (spell t)); try discriminate H.
      open_ok H. injection H as <-. reflexivity. }
    destruct (Z.eqb_spec (tt t) T_PREP_CHAR) as [E|_].
    { exists [t]. split; [|apply Str_leaf; auto].
      destruct (convert_preprocessing_char (spell t)); try discriminate H. injection H as <-. reflexivity. }
    destruct (Z.eqb_spec (tt t) 40) as [E|_].
    { open_ok H. destruct (snd x0) as [|u r'] eqn:S; [discriminate H|].
      destruct (Z.eqb_spec (tt u) 41) as [U|_]; [|discriminate H]. injection H as <-.
      apply I in E0. rewrite S in E0. destruct E0 as (p & -> & P). exists (t :: p ++ [u]). split.
      - cbn [app snd]. rewrite <- app_assoc. reflexivity.
      - apply Str_paren; auto. }
    destruct ((tt t =? T_IDENTIFIER) || expandable t) eqn:E; [|discriminate H].
    destruct (ismacro (spell t)); [discriminate H|]. injection H as <-. exists [t]. split; [reflexivity|].
    apply Str_leaf. apply orb_true_iff in E as [E|E]; [apply Z.eqb_eq in E|]; auto.
  - (* unary *)
    assert (U : forall o y, ev n Unary r = IOk y -> snd y = snd x -> tt t = un_tok o -> exists p, t :: r = p ++ snd x /\ Str 1 p).
    { intros o y Y SE T. apply I in Y. rewrite SE in Y. destruct Y as (p & -> & P). exists (t :: p). split; [reflexivity|].
      apply (Str_un _ o); auto. }
    destruct (Z.eqb_spec (tt t) 43) as [E|_]; [apply (U Plus x H eq_refl E)|].
    destruct (Z.eqb_spec (tt t) 45) as [E|_]; [open_ok H; open_ok H; injection H as <-; apply (U Minus _ E0 eq_refl E)|].
    destruct (Z.eqb_spec (tt t) 126) as [E|_]; [open_ok H; injection H as <-; apply (U Compl _ E0 eq_refl E)|].
    destruct (Z.eqb_spec (tt t) 33) as [E|_]; [open_ok H; injection H as <-; apply (U Not _ E0 eq_refl E)|].
    apply I in H. destruct H as (p & P1 & P2). exists p. split; [exact P1|]. eapply Str_le; [exact P2|cbn; lia].
  - apply (EN 2%nat Unary MultLoop eq_refl (fun _ => eq_refl) H).
  - destruct (Z.eqb_spec (tt t) 42) as [E|_]; [apply (LP 2%nat Times l Unary MultLoop mul_op eq_refl eq_refl (fun _ => eq_refl) eq_refl E H)|].
    destruct (Z.eqb_spec (tt t) 47) as [E|_]; [apply (LP 2%nat Quot l Unary MultLoop mul_op eq_refl eq_refl (fun _ => eq_refl) eq_refl E H)|].
    destruct (Z.eqb_spec (tt t) 37) as [E|_]; [apply (LP 2%nat Rem l Unary MultLoop mul_op eq_refl eq_refl (fun _ => eq_refl) eq_refl E H)|].
    injection H as <-. apply none_good.
  - apply (EN 3%nat Mult AddiLoop eq_refl (fun _ => eq_refl) H).
  - destruct (Z.eqb_spec (tt t) 43) as [E|_]; [apply (LP 3%nat Plus2 l Mult AddiLoop add_op eq_refl eq_refl (fun _ => eq_refl) eq_refl E H)|].
    destruct (Z.eqb_spec (tt t) 45) as [E|_]; [apply (LP 3%nat Minus2 l Mult AddiLoop add_op eq_refl eq_refl (fun _ => eq_refl) eq_refl E H)|].
    injection H as <-. apply none_good.
  - apply (EN 4%nat Addi ShiftLoop eq_refl (fun _ => eq_refl) H).
  - destruct (Z.eqb_spec (tt t) 74) as [E|_]; [apply (LP 4%nat Lsh l Addi ShiftLoop shift_op eq_refl eq_refl (fun _ => eq_refl) eq_refl E H)|].
    destruct (Z.eqb_spec (tt t) 75) as [E|_]; [apply (LP 4%nat Rsh l Addi ShiftLoop shift_op eq_refl eq_refl (fun _ => eq_refl) eq_refl E H)|].
    injection H as <-. apply none_good.
  - apply (EN 5%nat Shift RelaLoop eq_refl (fun _ => eq_refl) H).
  - destruct (Z.eqb_spec (tt t) 60) as [E|_]; [apply (LP 5%nat Lt l Shift RelaLoop rel_op eq_refl eq_refl (fun _ => eq_refl) eq_refl E H)|].
    destruct (Z.eqb_spec (tt t) 62) as [E|_]; [apply (LP 5%nat Gt l Shift RelaLoop rel_op eq_refl eq_refl (fun _ => eq_refl) eq_refl E H)|].
    destruct (Z.eqb_spec (tt t) 67) as [E|_]; [apply (LP 5%nat Le l Shift RelaLoop rel_op eq_refl eq_refl (fun _ => eq_refl) eq_refl E H)|].
    destruct (Z.eqb_spec (tt t) 68) as [E|_]; [apply (LP 5%nat Ge l Shift RelaLoop rel_op eq_refl eq_refl (fun _ => eq_refl) eq_refl E H)|].
    injection H as <-. apply none_good.
  - open_ok H. destruct (Z.eqb_spec (hd_tt (snd x0)) 69) as [E1|_]; [|destruct (Z.eqb_spec (hd_tt (snd x0)) 70) as [E1|_]].
    + eapply (RR 6%nat Equal Rela Equa (fun a b => eq_op (hd_tt (snd x0)) a b)); [reflexivity|exists 6%nat; split; [lia|reflexivity]|reflexivity|exact E|exact E1|exact H].
    + eapply (RR 6%nat NEqual Rela Equa (fun a b => eq_op (hd_tt (snd x0)) a b)); [reflexivity|exists 6%nat; split; [lia|reflexivity]|reflexivity|exact E|exact E1|exact H].
    + injection H as <-. apply I in E. destruct E as (p & P1 & P2). exists p. split; [exact P1|]. eapply Str_le; [exact P2|cbn; lia].
  - open_ok H. destruct (Z.eqb_spec (hd_tt (snd x0)) 38) as [E1|_].
    + eapply (RR 7%nat BAnd Equa And_ (fun a b => IOk (bit_op Z.land a b))); [reflexivity|exists 7%nat; split; [lia|reflexivity]|reflexivity|exact E|exact E1|exact H].
    + injection H as <-. apply I in E. destruct E as (p & P1 & P2). exists p. split; [exact P1|]. eapply Str_le; [exact P2|cbn; lia].
  - open_ok H. destruct (Z.eqb_spec (hd_tt (snd x0)) 94) as [E1|_].
    + eapply (RR 8%nat BXor And_ Xor_ (fun a b => IOk (bit_op Z.lxor a b))); [reflexivity|exists 8%nat; split; [lia|reflexivity]|reflexivity|exact E|exact E1|exact H].
    + injection H as <-. apply I in E. destruct E as (p & P1 & P2). exists p. split; [exact P1|]. eapply Str_le; [exact P2|cbn; lia].
  - open_ok H. destruct (Z.eqb_spec (hd_tt (snd x0)) 124) as [E1|_].
    + eapply (RR 9%nat BOr Xor_ Xor_ (fun a b => IOk (bit_op Z.lor a b))); [reflexivity|exists 8%nat; split; [lia|reflexivity]|reflexivity|exact E|exact E1|exact H].
    + injection H as <-. apply I in E. destruct E as (p & P1 & P2). exists p. split; [exact P1|]. eapply Str_le; [exact P2|cbn; lia].
  - open_ok H. destruct (Z.eqb_spec (hd_tt (snd x0)) 66) as [E1|_].
    + eapply (RR 10%nat LAnd Ior Land (fun a b => IOk (long (negb (bits a =? 0) && negb (bits b =? 0))))); [reflexivity|exists 10%nat; split; [lia|reflexivity]|reflexivity|exact E|exact E1|exact H].
    + injection H as <-. apply I in E. destruct E as (p & P1 & P2). exists p. split; [exact P1|]. eapply Str_le; [exact P2|cbn; lia].
  - open_ok H. destruct (Z.eqb_spec (hd_tt (snd x0)) 65) as [E1|_].
    + eapply (RR 11%nat LOr Land Lor (fun a b => IOk (long (negb (bits a =? 0) || negb (bits b =? 0))))); [reflexivity|exists 11%nat; split; [lia|reflexivity]|reflexivity|exact E|exact E1|exact H].
    + injection H as <-. apply I in E. destruct E as (p & P1 & P2). exists p. split; [exact P1|]. eapply Str_le; [exact P2|cbn; lia].
  - (* ?: *)
    open_ok H. destruct (Z.eqb_spec (hd_tt (snd x0)) 63) as [E1|_].
    + open_ok H. destruct (snd x1) as [|u r'] eqn:S; [discriminate H|].
      destruct (Z.eqb_spec (tt u) 58) as [U|_]; [|discriminate H]. open_ok H. injection H as <-. cbn [snd].
      apply I in E, E0, E2. rewrite S in E0. destruct E as (a & A1 & A2). destruct E0 as (b & B1 & B2). destruct E2 as (d & D1 & D2).
      destruct (hd_cons _ _ E1) as (q & r2 & Q1 & Q2); [lia|]. rewrite Q1 in A1, B1. cbn [tl] in B1.
      exists (a ++ q :: b ++ u :: d). split.
      * rewrite A1, B1, D1, <- app_assoc. cbn [app]. rewrite <- app_assoc. reflexivity.
      * apply Str_cond; auto.
    + injection H as <-. apply I in E. destruct E as (p & P1 & P2). exists p. split; [exact P1|]. eapply Str_le; [exact P2|cbn; lia].
  - open_ok H. destruct (Z.eqb_spec (hd_tt (snd x0)) 44) as [E1|_].
    + apply I in E, H. destruct E as (p & P1 & P2). destruct H as (q & Q1 & Q2).
      destruct (hd_cons _ _ E1) as (c & r2 & C1 & C2); [lia|]. rewrite C1 in P1, Q1. cbn [tl] in Q1.
      exists (p ++ c :: q). split; [rewrite P1, Q1, <- app_assoc; reflexivity|]. apply Commas_more; auto.
    + injection H as <-. apply I in E. destruct E as (p & P1 & P2). exists p. split; [exact P1|]. apply Commas_one. exact P2.
Qed.

Lemma if_syntax ts b : if_value ismacro erange ts = IOk b -> exists p rest, ts = p ++ rest /\ Str 12 p.
Proof.
  intro H. unfold if_value in H. open_ok H. apply ev_good in E. destruct E as (p & P1 & P2). eauto.
Qed.
End S.
