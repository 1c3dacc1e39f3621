(* C39: declaration specifiers in any order. *)
From Coq Require Import List Bool Arith Lia Permutation.
From Verif Require Import DeclspecModel DeclspecSpec DeclspecProofs DeclspecAccept.
Import ListNotations.

(* A permitted multiset of type specifiers, with qualifiers, storage class and function specifiers among them, in any order in
   which no long follows int or double, is consumed completely without an error and denotes the type C99 lists for it.
   What is missing for the full statement is `late_long` and repeated function specifiers; both are refuted. *)
Theorem C39_permitted_partial : forall info l rest t,
  Forall (fun k => is_specifier k = true) l -> denotes l t -> ~ late_long l -> storage_ok info l -> stops rest ->
  exists ty st, declaration_specifiers info (l ++ rest) = (ty, st, rest) /\ errors st = 0 /\ qualified (In CONST l) (In VOLATILE l) t ty /\
    match storage_class st with Some s => [s] | None => [] end = storages l /\
    (is_inline st = true <-> In INLINE l) /\ (is_noreturn st = true <-> In NORETURN l) /\ (is_register st = true <-> In REGISTER l).
Proof. exact permitted_ok. Qed.
Print Assumptions C39_permitted_partial.

(* What is accepted is permitted: specifiers consumed without an error, at least one of them a type specifier, denote a type
   of C99, with the qualifiers given.  Missing for the full statement: signed and unsigned after another type, and the empty
   multiset; both are refuted. *)
Theorem C39_accepted_partial : forall info l rest ty st,
  declaration_specifiers info (l ++ rest) = (ty, st, rest) -> errors st = 0 -> ~ late_sign l -> type_specifiers l <> [] ->
  exists t, denotes l t /\ qualified (In CONST l) (In VOLATILE l) t ty.
Proof. exact accepted_ok. Qed.
Print Assumptions C39_accepted_partial.

(* The type does not depend on the order. *)
Lemma qualified_unique : forall c v t q q', qualified c v t q -> qualified c v t q' -> q = q'.
Proof.
  intros c v t [a b d e f g h] [a' b' d' e' f' g' h'] (A1 & A2 & A3 & A4) (B1 & B2 & B3 & B4). cbn in *.
  assert (EB : forall x y : bool, (x = true <-> y = true) -> x = y) by (intros [] []; intuition congruence).
  destruct (t_pointer t); subst; f_equal; try (apply EB; tauto); intuition congruence.
Qed.
Theorem C39_order : forall info l l' rest rest' ty st ty' st',
  Permutation l l' -> ~ late_sign l -> ~ late_sign l' -> type_specifiers l <> [] ->
  declaration_specifiers info (l ++ rest) = (ty, st, rest) -> errors st = 0 ->
  declaration_specifiers info (l' ++ rest') = (ty', st', rest') -> errors st' = 0 -> ty = ty'.
Proof.
  intros info l l' rest rest' ty st ty' st' P L L' NE H E H' E'.
  assert (PF : Permutation (type_specifiers l) (type_specifiers l')).
  { clear - P. induction P; cbn; try reflexivity.
    - destruct (is_type_specifier x); [apply perm_skip|]; assumption.
    - destruct (is_type_specifier x), (is_type_specifier y); try reflexivity. apply perm_swap.
    - etransitivity; eassumption. }
  assert (NE' : type_specifiers l' <> []) by (intro X; rewrite X in PF; apply Permutation_sym, Permutation_nil in PF; contradiction).
  destruct (accepted_ok _ _ _ _ _ H E L NE) as (t & (m & M & R) & Q). destruct (accepted_ok _ _ _ _ _ H' E' L' NE') as (t' & (m' & M' & R') & Q').
  assert (t = t') by (eapply row_unique; [exact R|exact R'|]; rewrite <- M, <- M'; exact PF). subst t'.
  eapply qualified_unique; [exact Q|]. eapply qualified_iff; [| |exact Q']; split; intro I; eapply Permutation_in; try exact I; try assumption; apply Permutation_sym; assumption.
Qed.
Print Assumptions C39_order.

Fixpoint late_longb (l : list tok) : bool :=
  match l with [] => false | t :: r => (p_int t || p_double t) && existsb p_long r || late_longb r end.
Lemma late_long_dec : forall l, late_long l -> late_longb l = true.
Proof.
  intros l (l1 & t & l2 & l3 & -> & T). induction l1 as [|x l1 IH]; cbn [app late_longb]; apply orb_true_iff; [left|right; exact IH].
  apply andb_true_iff. split; [destruct T as [-> | ->]; reflexivity|]. apply existsb_exists. exists LONG. split; [apply in_or_app; right; left; reflexivity|reflexivity].
Qed.
(* static long const unsigned int long volatile *)
Example C39_instance :
  let l := [Storage STATIC; LONG; CONST; UNSIGNED; LONG; INT; VOLATILE] in
  Forall (fun k => is_specifier k = true) l /\ denotes l (simple T_LONG true) /\ ~ late_long l /\ storage_ok true l /\ stops [Other] /\
  ~ late_sign l /\ type_specifiers l <> [] /\
  fst (fst (declaration_specifiers true (l ++ [Other]))) = mk_type T_LONG true true true false false false /\
  snd (declaration_specifiers true (l ++ [Other])) = [Other].
Proof.
  intro l. split; [repeat constructor|]. split.
  - exists [UNSIGNED; LONG; LONG; INT]. split; [|apply r_ullong; cbn; tauto]. apply perm_swap.
  - split; [|split; [repeat split; cbn; lia|split; [exact I|split; [|split; [discriminate|split; reflexivity]]]]].
    + intro X. apply late_long_dec in X. discriminate X.
    + intros (l1 & t & l2 & s & l3 & X & U & _).
      assert (I : In t l) by (rewrite X; apply in_or_app; right; left; reflexivity).
      unfold l in I. cbn in I. repeat (destruct I as [<-|I]; [exact U|]). exact I.
Qed.

(* int long and double long are not accepted: parsing of specifiers stops before long. *)
Theorem C39_long_refuted :
  (denotes [INT; LONG] (simple T_LONG false) /\ snd (declaration_specifiers true [INT; LONG; Other]) = [LONG; Other]) /\
  (denotes [DOUBLE; LONG] (simple T_LDOUBLE false) /\ snd (declaration_specifiers true [DOUBLE; LONG; Other]) = [LONG; Other]).
Proof.
  split; (split; [|reflexivity]).
  - exists [LONG; INT]. split; [apply perm_swap|apply r_long; cbn; tauto].
  - exists [LONG; DOUBLE]. split; [apply perm_swap|apply r_ldouble].
Qed.
Print Assumptions C39_long_refuted.
(* float signed, long double unsigned, void unsigned are accepted; enum e unsigned is unsigned int; no type specifier at all is int. *)
Theorem C39_sign_refuted : forall l, In l [[FLOAT; SIGNED]; [LONG; DOUBLE; UNSIGNED]; [VOID; UNSIGNED]; [ENUM; UNSIGNED]; [CONST]] ->
  (forall t, ~ denotes l t) /\ exists ty st, declaration_specifiers true (l ++ [Other]) = (ty, st, [Other]) /\ errors st = 0.
Proof.
  intros l I. cbn in I.
  assert (K : forall l m, (forall t, row m t -> False) -> (good l -> False) -> forall t, ~ denotes l t).
  { intros. intros (x & P & R). apply row_good in R.
    assert (OC : forall p, occurs p (type_specifiers l0) = occurs p x) by (intro; apply occurs_perm; exact P).
    apply H0. revert R. unfold good, single, signs. rewrite <- !OC.
    assert (F : forall p, (forall t, p t = true -> is_type_specifier t = true) -> occurs p (type_specifiers l0) = occurs p l0).
    { intros p PT. unfold occurs, type_specifiers. f_equal. clear - PT. induction l0 as [|y r IH]; [reflexivity|]. cbn.
      destruct (is_type_specifier y) eqn:T; cbn; destruct (p y) eqn:Y; try (rewrite IH; reflexivity); try exact IH. specialize (PT y Y). congruence. }
    rewrite !F by (intros []; cbn; congruence). tauto. }
  repeat destruct I as [<-|I]; try contradiction; (split; [|eexists; eexists; split; reflexivity]).
  - apply (K _ []); [intros t R; inversion R; subst; cbn in *; intuition discriminate|]. intros G. unfold good, single, signs in G. cbn in G. lia.
  - apply (K _ []); [intros t R; inversion R; subst; cbn in *; intuition discriminate|]. intros G. unfold good, single, signs in G. cbn in G. lia.
  - apply (K _ []); [intros t R; inversion R; subst; cbn in *; intuition discriminate|]. intros G. unfold good, single, signs in G. cbn in G. lia.
  - apply (K _ []); [intros t R; inversion R; subst; cbn in *; intuition discriminate|]. intros G. unfold good, single, signs in G. cbn in G. lia.
  - intros t (m & P & R). cbn in P. apply Permutation_nil in P. subst m. inversion R; subst; cbn in *; intuition discriminate.
Qed.
Print Assumptions C39_sign_refuted.
(* inline may be repeated in C (6.7.4p5) but is an error here; register static is accepted although there are two storage
   classes. *)
Theorem C39_storage_refuted :
  errors (snd (fst (declaration_specifiers true [INLINE; INLINE; INT; Other]))) = 1 /\
  errors (snd (fst (declaration_specifiers true [REGISTER; Storage STATIC; INT; Other]))) = 0.
Proof. split; reflexivity. Qed.
Print Assumptions C39_storage_refuted.
