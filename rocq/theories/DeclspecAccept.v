(* Accepted specifiers are permitted, permitted ones are accepted. *)
From Coq Require Import List Bool Arith Lia Permutation.
From Verif Require Import DeclspecModel DeclspecSpec DeclspecProofs.
Import ListNotations.

(* ---- What is accepted is permitted ---- *)
Definition unsignable_base (b : base) : bool :=
  match b with B_VOID | B_BOOL | B_FLOAT | B_DOUBLE | B_ENUM | B_AGGREGATE => true | _ => false end.
Lemma late_sign_app : forall l t, late_sign l -> late_sign (l ++ [t]).
Proof.
  intros l t (l1 & x & l2 & s & l3 & -> & U & S). exists l1, x, l2, s, (l3 ++ [t]). split; [|split; assumption].
  repeat (rewrite <- app_assoc; cbn [app]). reflexivity.
Qed.
Lemma base_in : forall info l st named, inv info l st named -> unsignable_base (s_base st) = true -> exists t, In t l /\ unsignable t.
Proof.
  intros info l st named V U.
  assert (X : exists t, In t (canon_base st named) /\ unsignable t).
  { pose proof (i_named _ _ _ _ V) as N. unfold canon_base. unfold is_named in N. destruct (s_base st); try discriminate U; eexists; (split; [left; reflexivity|]); try exact I.
    destruct (N eq_refl) as [-> | ->]; exact I. }
  destruct X as (t & I1 & U1). exists t. split; [|exact U1].
  assert (I2 : In t (type_specifiers l)).
  { eapply Permutation_in; [apply Permutation_sym; apply (i_perm _ _ _ _ V)|]. unfold canon. apply in_or_app. right. apply in_or_app. right. exact I1. }
  apply filter_In in I2 as [I2 _]. exact I2.
Qed.
Lemma sign_run : forall info l st, specifiers info start l = (st, []) -> errors st = 0 -> ~ late_sign l ->
  unsignable_base (s_base st) = true -> s_sign st = S_NONE.
Proof.
  intros info l. induction l as [|t l IH] using rev_ind; intros st H E L U.
  - injection H as <-. reflexivity.
  - apply specifiers_snoc in H as (st1 & H1 & H2). pose proof (step_errors _ _ _ _ H2) as LE.
    assert (L1 : ~ late_sign l) by (intro X; apply L; apply late_sign_app; exact X).
    specialize (IH st1 H1 ltac:(lia) L1).
    destruct (is_type_specifier t) eqn:T.
    + assert (NS : (t = SIGNED \/ t = UNSIGNED) -> unsignable_base (s_base st1) = true -> False).
      { intros S B. destruct (inv_run _ _ _ H1 ltac:(lia)) as (named & V). destruct (base_in _ _ _ _ V B) as (x & I & UX).
        apply in_split in I as (l1 & l2 & ->). apply L. exists l1, x, l2, t, []. split; [rewrite <- app_assoc; reflexivity|]. split; assumption. }
      destruct t; try discriminate T; cbn [step] in H2; unfold no_base, no_mod, no_sign in H2.
      all: try (destruct (s_sign st1) eqn:S; [| |];
        try (rewrite ?andb_false_r in H2; discriminate H2);
        try (match type of H2 with context [if ?x then Some _ else None] => destruct x eqn:X; [|discriminate] end); injection H2 as <-; cbn in *;
        try exact S; try discriminate; try reflexivity; try (apply IH; exact U); try (rewrite IH in S by exact U; discriminate S)).
      all: try (specialize (IH U); discriminate IH).
      all: try (exfalso; apply NS; [auto|exact U]).
    + destruct (step_same _ _ _ _ T H2) as (B & _ & S & _). rewrite S. apply IH. rewrite <- B. exact U.
Qed.

Definition unqualified (st : state) : type :=
  let u := match s_sign st with S_UNSIGNED => true | _ => false end in
  match s_base st with
  | B_AGGREGATE => s_type st
  | B_VOID => simple T_VOID false
  | B_BOOL => simple T_BOOL false
  | B_CHAR => simple T_CHAR u
  | B_ENUM | B_NONE | B_INT =>
      simple (match s_mod st with M_NONE => T_INT | M_SHORT => T_SHORT | M_LONG | M_LONG_LONG => T_LONG end) u
  | B_FLOAT => simple T_FLOAT false
  | B_DOUBLE => simple (match s_mod st with M_LONG => T_LDOUBLE | _ => T_DOUBLE end) false
  end.
Lemma result_qualified : forall st, qualified (s_const st = true) (s_volatile st = true) (unqualified st) (result_type st).
Proof.
  intros st. unfold result_type. change (match s_base st with B_AGGREGATE => _ | _ => _ end) with (unqualified st).
  generalize (unqualified st) as t. intros [ty u c v p pc pv]. unfold qualified, type_set_const, type_set_volatile. cbn.
  destruct (s_const st), (s_volatile st), p; cbn; intuition discriminate.
Qed.
Lemma row_of_state : forall info l st named, inv info l st named -> (unsignable_base (s_base st) = true -> s_sign st = S_NONE) ->
  type_specifiers l <> [] -> row (canon st named) (unqualified st).
Proof.
  intros info l st named V S NE. pose proof (i_mod _ _ _ _ V) as M. pose proof (i_named _ _ _ _ V) as N. unfold is_named in N.
  assert (C : canon st named <> []).
  { intro X. apply NE. pose proof (i_perm _ _ _ _ V) as P. rewrite X in P. apply Permutation_nil. apply Permutation_sym. exact P. }
  unfold canon, canon_base, unqualified in *. destruct (s_base st).
  all: try (specialize (S eq_refl); rewrite S in *).
  all: try (rewrite M in *).
  all: try (destruct M as [M|M]; rewrite M in * ).
  all: cbn in *.
  all: try (destruct (s_sign st), (s_mod st); cbn in *; try congruence).
  all: try (destruct (s_sign st); cbn).
  all: try (destruct (N eq_refl) as [-> | ->]).
  all: try (constructor; fail).
  all: try (first [apply r_short|apply r_ushort|apply r_int|apply r_uint|apply r_long|apply r_ulong]; cbn; tauto).
  all: try (first [apply r_llong|apply r_ullong]; cbn; tauto).
Qed.
Lemma exists_const : forall l, existsb p_const l = true <-> In CONST l.
Proof.
  intro l. rewrite existsb_exists. split; [intros (x & I & P); destruct x; try discriminate P; exact I|]. intro I. exists CONST. split; [exact I|reflexivity].
Qed.
Lemma exists_volatile : forall l, existsb p_volatile l = true <-> In VOLATILE l.
Proof.
  intro l. rewrite existsb_exists. split; [intros (x & I & P); destruct x; try discriminate P; exact I|]. intro I. exists VOLATILE. split; [exact I|reflexivity].
Qed.
Lemma qualified_iff : forall c c' v v' t q, (c <-> c') -> (v <-> v') -> qualified c v t q -> qualified c' v' t q.
Proof. intros c c' v v' t q C V (A & B & D & Q). split; [exact A|]. split; [exact B|]. split; [exact D|]. destruct (t_pointer t); tauto. Qed.
Lemma accepted_ok : forall info l rest ty st, declaration_specifiers info (l ++ rest) = (ty, st, rest) -> errors st = 0 -> ~ late_sign l ->
  type_specifiers l <> [] -> exists t, denotes l t /\ qualified (In CONST l) (In VOLATILE l) t ty.
Proof.
  intros info l rest ty st H E L NE. unfold declaration_specifiers in H. destruct (specifiers info start (l ++ rest)) as [st' r] eqn:R.
  injection H as <- <- ->. destruct (specifiers_split _ _ _ _ _ R) as (c & X & C). apply app_inv_tail in X. subst c.
  destruct (inv_run _ _ _ C E) as (named & V). exists (unqualified st'). split.
  - exists (canon st' named). split; [apply (i_perm _ _ _ _ V)|]. eapply row_of_state; [exact V| |exact NE]. eapply sign_run; eassumption.
  - eapply qualified_iff; [| |apply result_qualified].
    + rewrite (i_const _ _ _ _ V). apply exists_const.
    + rewrite (i_volatile _ _ _ _ V). apply exists_volatile.
Qed.

(* ---- What is permitted is accepted ---- *)
Definition p_named (t : tok) : bool := match t with TypedefName _ | StructUnion _ => true | _ => false end.
Definition p_void (t : tok) : bool := match t with VOID => true | _ => false end.
Definition p_bool (t : tok) : bool := match t with BOOL => true | _ => false end.
Definition p_char (t : tok) : bool := match t with CHAR => true | _ => false end.
Definition p_short (t : tok) : bool := match t with SHORT => true | _ => false end.
Definition p_int (t : tok) : bool := match t with INT => true | _ => false end.
Definition p_long (t : tok) : bool := match t with LONG => true | _ => false end.
Definition p_signed (t : tok) : bool := match t with SIGNED => true | _ => false end.
Definition p_unsigned (t : tok) : bool := match t with UNSIGNED => true | _ => false end.
Definition p_float (t : tok) : bool := match t with FLOAT => true | _ => false end.
Definition p_double (t : tok) : bool := match t with DOUBLE => true | _ => false end.
Definition p_enum (t : tok) : bool := match t with ENUM => true | _ => false end.

Lemma occurs_perm : forall p l m, Permutation l m -> occurs p l = occurs p m.
Proof.
  intros p l m P. unfold occurs. induction P; cbn; try lia.
  - destruct (p x); cbn; lia.
  - destruct (p x), (p y); reflexivity.
Qed.
Definition single (m : list tok) : nat := occurs p_void m + occurs p_bool m + occurs p_float m + occurs p_enum m + occurs p_named m.
Definition signs (m : list tok) : nat := occurs p_signed m + occurs p_unsigned m.
Definition good (m : list tok) : Prop :=
  single m + occurs p_char m + occurs p_int m + occurs p_double m <= 1 /\ occurs p_short m <= 1 /\ occurs p_long m <= 2 /\ signs m <= 1 /\
  (single m >= 1 -> occurs p_short m + occurs p_long m + signs m = 0) /\
  (occurs p_char m >= 1 -> occurs p_short m + occurs p_long m = 0) /\
  (occurs p_double m >= 1 -> occurs p_short m + signs m = 0 /\ occurs p_long m <= 1) /\
  (occurs p_short m >= 1 -> occurs p_long m = 0).
Lemma row_good : forall m t, row m t -> good m.
Proof.
  intros m t R. inversion R; subst;
    try (cbn; unfold single, signs, good; cbn; lia);
    cbn in *; repeat match goal with H : _ \/ _ |- _ => destruct H as [<-|H]; [unfold good, single, signs; cbn; lia|] end; contradiction.
Qed.
Lemma type_in : forall k l, is_type_specifier k = true -> In k l -> In k (type_specifiers l).
Proof. intros k l T I. apply filter_In. auto. Qed.
Lemma late_long_prefix : forall l1 l2 x, ~ late_long (l1 ++ LONG :: l2) -> In x l1 -> x <> INT /\ x <> DOUBLE.
Proof.
  intros l1 l2 x L I. apply in_split in I as (a & b & ->). split; intros ->; apply L; exists a.
  - exists INT, b, l2. rewrite <- app_assoc. split; [reflexivity|left; reflexivity].
  - exists DOUBLE, b, l2. rewrite <- app_assoc. split; [reflexivity|right; reflexivity].
Qed.

Lemma progress : forall info l1 k l2 m st named, Permutation (type_specifiers (l1 ++ k :: l2)) m -> good m -> inv info l1 st named ->
  is_specifier k = true -> ~ late_long (l1 ++ k :: l2) -> storage_ok info (l1 ++ k :: l2) ->
  exists st', step info st k = Some st' /\ errors st' = errors st.
Proof.
  intros info l1 k l2 m st named P G V K L SO.
  destruct (is_type_specifier k) eqn:T.
  - assert (C : forall p, occurs p (canon st named) + b2n (p k) <= occurs p m).
    { intro p. rewrite <- (occurs_perm p _ _ P). rewrite <- (occurs_perm p _ _ (i_perm _ _ _ _ V)). unfold type_specifiers. rewrite filter_app.
      unfold occurs. rewrite filter_app, app_length. cbn [filter]. rewrite T. cbn [filter]. destruct (p k); cbn [length b2n]; lia. }
    assert (LL : k = LONG -> s_base st <> B_INT /\ s_base st <> B_DOUBLE).
    { intros ->. assert (IN : forall x, In x (canon st named) -> In x l1).
      { intros x I. assert (I2 : In x (type_specifiers l1)) by (eapply Permutation_in; [apply Permutation_sym; apply (i_perm _ _ _ _ V)|exact I]). apply filter_In in I2. tauto. }
      split; intro B.
      - apply (proj1 (late_long_prefix _ _ INT L (IN INT ltac:(unfold canon, canon_base; rewrite B; apply in_or_app; right; apply in_or_app; right; left; reflexivity)))). reflexivity.
      - apply (proj2 (late_long_prefix _ _ DOUBLE L (IN DOUBLE ltac:(unfold canon, canon_base; rewrite B; apply in_or_app; right; apply in_or_app; right; left; reflexivity)))). reflexivity. }
    destruct G as (G1 & G2 & G3 & G4 & G5 & G6 & G7 & G8). unfold single, signs in *.
    pose proof (C p_void) as C1. pose proof (C p_bool) as C2. pose proof (C p_char) as C3. pose proof (C p_short) as C4.
    pose proof (C p_int) as C5. pose proof (C p_long) as C6. pose proof (C p_signed) as C7. pose proof (C p_unsigned) as C8.
    pose proof (C p_float) as C9. pose proof (C p_double) as C10. pose proof (C p_enum) as C11. pose proof (C p_named) as C12. clear C.
    pose proof (i_named _ _ _ _ V) as N. unfold is_named in N.
    generalize dependent (occurs p_void m). generalize dependent (occurs p_bool m). generalize dependent (occurs p_char m).
    generalize dependent (occurs p_short m). generalize dependent (occurs p_int m). generalize dependent (occurs p_long m).
    generalize dependent (occurs p_signed m). generalize dependent (occurs p_unsigned m). generalize dependent (occurs p_float m).
    generalize dependent (occurs p_double m). generalize dependent (occurs p_enum m). generalize dependent (occurs p_named m).
    intros. clear V P L SO.
    unfold canon, canon_base in *. unfold step, no_base, no_mod, no_sign.
    destruct (s_base st) eqn:B; destruct (s_mod st) eqn:M; destruct (s_sign st) eqn:S;
      (try (destruct (N eq_refl) as [-> | ->])); destruct k; try discriminate T; cbn in *;
      first [ (eexists; split; [reflexivity|]; rewrite ?B, ?M, ?S; reflexivity) | (exfalso; lia) | (exfalso; destruct (LL eq_refl); congruence) ].
  - destruct SO as (S1 & S2 & S3 & S4).
    assert (OC : forall p, p k = true -> occurs p l1 + 1 <= occurs p (l1 ++ k :: l2)).
    { intros p PK. unfold occurs. rewrite filter_app, app_length. cbn. rewrite PK. cbn. lia. }
    destruct k; try discriminate T; try discriminate K; cbn [step]; try (eexists; split; reflexivity).
    + pose proof (OC p_inline eq_refl) as O. rewrite <- (i_inline _ _ _ _ V) in O. destruct info; [|lia].
      destruct (is_inline st); [cbn in O; lia|]. eexists. split; reflexivity.
    + pose proof (OC p_noreturn eq_refl) as O. rewrite <- (i_noreturn _ _ _ _ V) in O. destruct info; [|lia].
      destruct (is_noreturn st); [cbn in O; lia|]. eexists. split; reflexivity.
    + pose proof (OC p_register eq_refl) as O. rewrite <- (i_register _ _ _ _ V) in O. destruct info; [|lia].
      destruct (is_register st); [cbn in O; lia|]. eexists. split; reflexivity.
    + unfold storages in S1. rewrite flat_map_app, app_length in S1. cbn in S1. fold (storages l1) in S1. rewrite <- (i_storage _ _ _ _ V) in S1.
      destruct info; [|lia]. destruct (storage_class st); [cbn in S1; lia|]. eexists. split; reflexivity.
Qed.
Lemma accept_run : forall info l2 l1 m st named, Permutation (type_specifiers (l1 ++ l2)) m -> good m -> inv info l1 st named ->
  Forall (fun k => is_specifier k = true) l2 -> ~ late_long (l1 ++ l2) -> storage_ok info (l1 ++ l2) ->
  exists st', specifiers info st l2 = (st', []) /\ errors st' = errors st.
Proof.
  intros info l2. induction l2 as [|k l2 IH]; intros l1 m st named P G V F L SO.
  - exists st. split; reflexivity.
  - inversion F; subst. destruct (progress info l1 k l2 m st named P G V) as (st' & S & E); try assumption.
    destruct (inv_step _ _ _ _ _ _ V S E) as (named' & V').
    assert (X : (l1 ++ [k]) ++ l2 = l1 ++ k :: l2) by (rewrite <- app_assoc; reflexivity).
    destruct (IH (l1 ++ [k]) m st' named') as (st'' & R & E'); try rewrite X; try assumption.
    exists st''. cbn. rewrite S. split; [exact R|lia].
Qed.

Lemma existsb_perm : forall (p : tok -> bool) l m, Permutation l m -> existsb p l = existsb p m.
Proof.
  intros p l m P. induction P; cbn; try congruence. rewrite !orb_assoc. f_equal. apply orb_comm.
Qed.
Definition eval (m : list tok) : type :=
  if existsb p_void m then simple T_VOID false else if existsb p_bool m then simple T_BOOL false
  else if existsb p_char m then simple T_CHAR (existsb p_unsigned m)
  else if existsb p_float m then simple T_FLOAT false
  else if existsb p_double m then simple (if existsb p_long m then T_LDOUBLE else T_DOUBLE) false
  else simple (if existsb p_short m then T_SHORT else if existsb p_long m then T_LONG else T_INT) (existsb p_unsigned m).
Lemma row_eval : forall m t, row m t -> (exists x, m = [StructUnion x] /\ t = x \/ m = [TypedefName x] /\ t = x) \/
  (occurs p_named m = 0 /\ t = eval m).
Proof.
  intros m t R. inversion R; subst; try (right; split; reflexivity);
    try (left; eexists; left; split; reflexivity); try (left; eexists; right; split; reflexivity);
    right; cbn in *; repeat match goal with H : _ \/ _ |- _ => destruct H as [<-|H]; [split; reflexivity|] end; contradiction.
Qed.
Lemma row_unique : forall m m' t t', row m t -> row m' t' -> Permutation m m' -> t = t'.
Proof.
  intros m m' t t' R R' P. destruct (row_eval _ _ R) as [(x & [(-> & ->)|(-> & ->)])|(N & ->)].
  - apply Permutation_length_1_inv in P. subst m'. inversion R'; subst; try reflexivity; cbn in *; intuition discriminate.
  - apply Permutation_length_1_inv in P. subst m'. inversion R'; subst; try reflexivity; cbn in *; intuition discriminate.
  - destruct (row_eval _ _ R') as [(x & [(-> & _)|(-> & _)])|(_ & ->)].
    + apply (occurs_perm p_named) in P. cbn in P. lia.
    + apply (occurs_perm p_named) in P. cbn in P. lia.
    + unfold eval. rewrite !(existsb_perm _ _ _ P). reflexivity.
Qed.

(* What follows the specifiers: anything else, or an identifier that happens to name a type. *)
Definition stops (rest : list tok) : Prop := match rest with [] => True | Other :: _ => True | TypedefName _ :: _ => True | _ => False end.
Lemma permitted_ok : forall info l rest t, Forall (fun k => is_specifier k = true) l -> denotes l t -> ~ late_long l -> storage_ok info l -> stops rest ->
  exists ty st, declaration_specifiers info (l ++ rest) = (ty, st, rest) /\ errors st = 0 /\ qualified (In CONST l) (In VOLATILE l) t ty /\
    match storage_class st with Some s => [s] | None => [] end = storages l /\
    (is_inline st = true <-> In INLINE l) /\ (is_noreturn st = true <-> In NORETURN l) /\ (is_register st = true <-> In REGISTER l).
Proof.
  intros info l rest t F (m & P & R) L SO ST. pose proof (row_good _ _ R) as G.
  destruct (accept_run info l [] m start Other P G (inv_start info) F L SO) as (st & RUN & E). cbn in E.
  destruct (inv_run _ _ _ RUN E) as (named & V).
  assert (NE : canon st named <> []).
  { intro X. pose proof (i_perm _ _ _ _ V) as P2. rewrite X in P2. rewrite P in P2.
    apply Permutation_sym, Permutation_nil in P2. subst m. inversion R; subst; cbn in *; intuition discriminate. }
  assert (STOP : specifiers info st rest = (st, rest)).
  { destruct rest as [|k rest]; [reflexivity|]. cbn. destruct k; cbn in ST; try contradiction; cbn; [|reflexivity].
    unfold no_base, no_mod, no_sign. unfold canon, canon_base in NE. destruct (s_base st); try reflexivity. destruct (s_mod st); try reflexivity. destruct (s_sign st); try reflexivity.
    exfalso. apply NE. reflexivity. }
  exists (result_type st), st. split.
  - unfold declaration_specifiers. rewrite (specifiers_app _ _ _ _ _ RUN), STOP. reflexivity.
  - split; [exact E|]. split.
    + assert (SG : unsignable_base (s_base st) = true -> s_sign st = S_NONE).
      { intro U. destruct G as (_ & _ & _ & _ & G5 & _ & G7 & _). unfold single, signs in *.
        assert (OCC : forall p, occurs p m = occurs p (canon st named)) by (intro p; rewrite <- (occurs_perm p _ _ P); apply occurs_perm; apply (i_perm _ _ _ _ V)).
        rewrite !OCC in G5. rewrite !OCC in G7.
        pose proof (i_named _ _ _ _ V) as N. unfold is_named in N. unfold canon, canon_base in *.
        destruct (s_base st); try discriminate U; try (destruct (N eq_refl) as [-> | ->]); destruct (s_mod st), (s_sign st); cbn in *; try reflexivity; exfalso; lia. }
      assert (T : t = unqualified st).
      { eapply (row_unique m (canon st named)); [exact R| |rewrite <- P; apply (i_perm _ _ _ _ V)].
        eapply row_of_state; [exact V|exact SG|]. intro X. rewrite X in P. apply Permutation_nil in P. subst m. inversion R; subst; cbn in *; intuition discriminate. }
      subst t. eapply qualified_iff; [| |apply result_qualified].
      * rewrite (i_const _ _ _ _ V). apply exists_const.
      * rewrite (i_volatile _ _ _ _ V). apply exists_volatile.
    + split; [apply (i_storage _ _ _ _ V)|].
      assert (O : forall p x, p x = true -> (forall y, p y = true -> y = x) -> forall b, b2n b = occurs p l -> (b = true <-> In x l)).
      { intros p x PX PY b B. unfold occurs in B. split; intro H.
        - subst b. destruct (filter p l) as [|y r] eqn:FL; [discriminate|]. assert (I : In y (filter p l)) by (rewrite FL; left; reflexivity).
          apply filter_In in I as [I I2]. rewrite (PY y I2) in I. exact I.
        - destruct b; [reflexivity|]. exfalso. assert (I : In x (filter p l)) by (apply filter_In; auto). destruct (filter p l); [contradiction|discriminate]. }
      split; [|split].
      * apply (O p_inline); [reflexivity|intros []; try discriminate; reflexivity|apply (i_inline _ _ _ _ V)].
      * apply (O p_noreturn); [reflexivity|intros []; try discriminate; reflexivity|apply (i_noreturn _ _ _ _ V)].
      * apply (O p_register); [reflexivity|intros []; try discriminate; reflexivity|apply (i_register _ _ _ _ V)].
Qed.
