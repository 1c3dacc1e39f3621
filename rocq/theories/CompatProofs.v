(* C53: lemmas on equality of types *)
From Coq Require Import List Bool Btauto Arith ZArith Lia.
From Verif Require Import Util DeclModel DeclSpec DeclProofs DeclProps CompatModel CompatSpec.
Import ListNotations.
Open Scope Z_scope.

Lemma tk_eqb_eq a b : tk_eqb a b = true <-> a = b.
Proof. split; [destruct a, b; (reflexivity || discriminate)|intros ->; destruct b; reflexivity]. Qed.
Lemma tk_refl k : tk_eqb k k = true. Proof. now apply tk_eqb_eq. Qed.
Lemma quals_eq a b : quals_eqb a b = true <-> a = b.
Proof.
  unfold quals_eqb. split; [|intros ->; now rewrite !eqb_reflx].
  rewrite !andb_true_iff, !eqb_true_iff. destruct a, b; cbn. intros ((-> & ->) & ->). reflexivity.
Qed.
Lemma length_refl n : length_eqb n n = true. Proof. destruct n; cbn; [apply Z.eqb_refl|reflexivity]. Qed.
Lemma proto_refl k : proto_eqb k k = true. Proof. destruct k; cbn; [reflexivity|apply eqb_reflx]. Qed.
Lemma length_eqb_eq n m : length_eqb n m = true -> n = m.
Proof. destruct n, m; cbn; try discriminate; [|reflexivity]. rewrite Z.eqb_eq. congruence. Qed.
Lemma proto_eqb_eq n m : proto_eqb n m = true -> n = m.
Proof. destruct n, m; cbn; try discriminate; [reflexivity|]. rewrite eqb_true_iff. congruence. Qed.

(* induction on types *)
Section Ind.
  Variable P : ty -> Prop.
  Hypothesis Hb : forall k u c v, P (TBasic k u c v).
  Hypothesis Ht : forall k r c v, P (TTag k r c v).
  Hypothesis Hp : forall q t, P t -> P (TPtr q t).
  Hypothesis Ha : forall q n t, P t -> P (TArr q n t).
  Hypothesis Hf : forall ps k t, Forall (fun p => P (snd p)) ps -> P t -> P (TFun ps k t).
  Hypothesis Hn : P TPending.
  Fixpoint ty_ind2 (t : ty) : P t :=
    match t with
    | TBasic k u c v => Hb k u c v
    | TTag k r c v => Ht k r c v
    | TPtr q t => Hp q t (ty_ind2 t)
    | TArr q n t => Ha q n t (ty_ind2 t)
    | TFun ps k t =>
        Hf ps k t ((fix go (l : list (name * ty)) : Forall (fun p => P (snd p)) l :=
                      match l with
                      | [] => Forall_nil _
                      | p :: l => Forall_cons p (ty_ind2 (snd p)) (go l)
                      end) ps) (ty_ind2 t)
    | TPending => Hn
    end.
End Ind.

Fixpoint each_same (qs : bool) (l l' : list (name * ty)) : bool :=
  match l, l' with
  | [], [] => true
  | (_, p) :: l, (_, p') :: l' => same qs p p' && each_same qs l l'
  | _, _ => false
  end.
Lemma same_fun qs ps k t ps' k' t' : same qs (TFun ps k t) (TFun ps' k' t') = proto_eqb k k' && same qs t t' && each_same qs ps ps'.
Proof. cbn [same]. f_equal. revert ps'. induction ps as [|[x p] ps IH]; intros [|[y p'] ps']; cbn; try reflexivity. now rewrite IH. Qed.

Lemma same_refl qs t : same qs t t = true.
Proof.
  induction t using ty_ind2.
  - cbn. now rewrite tk_refl, !eqb_reflx, orb_true_r.
  - cbn. now rewrite tk_refl, Nat.eqb_refl, !eqb_reflx, orb_true_r.
  - cbn. rewrite IHt, (proj2 (quals_eq q q) eq_refl). now rewrite orb_true_r.
  - cbn. now rewrite IHt, length_refl.
  - rewrite same_fun, IHt, proto_refl. cbn. induction H as [|[x p] ps E H IH]; cbn in *; [reflexivity|]. now rewrite E, IH.
  - reflexivity.
Qed.
Lemma same_weak t : forall t', same true t t' = true -> same false t t' = true.
Proof.
  induction t using ty_ind2; intros t' S; destruct t'; try discriminate S.
  - cbn in *. rewrite !andb_true_iff in *. tauto.
  - cbn in *. rewrite !andb_true_iff in *. tauto.
  - cbn in *. apply andb_true_iff in S as [_ S]. now apply IHt.
  - cbn in *. rewrite !andb_true_iff in *. split; [tauto|]. now apply IHt.
  - rewrite same_fun in *. rewrite !andb_true_iff in *. destruct S as ((A & B) & C). repeat split; [assumption|now apply IHt|].
    revert ps0 C. induction H as [|[x p] ps E H IH]; intros [|[y p'] ps'] C; cbn in *; try discriminate C; [reflexivity|].
    rewrite !andb_true_iff in *. split; [now apply E|now apply IH].
  - reflexivity.
Qed.

(* qualifiers of the type itself taken away *)
Definition unq (t : ty) : ty :=
  match t with
  | TBasic k u _ _ => TBasic k u false false
  | TTag k r _ _ => TTag k r false false
  | TPtr _ t => TPtr unqualified t
  | t => t
  end.
Lemma same_unq t t' : unq t = unq t' -> same false t t' = true.
Proof.
  destruct t, t'; cbn [unq]; intro E; try discriminate E.
  - injection E as <- <-. cbn. now rewrite tk_refl, eqb_reflx.
  - injection E as <- <-. cbn. now rewrite tk_refl, Nat.eqb_refl.
  - injection E as <-. cbn. now rewrite same_refl.
  - rewrite E. apply same_refl.
  - rewrite E. apply same_refl.
  - reflexivity.
Qed.

Section With.
Variable tag : tags.
Variable h : heap.
Hypothesis Hapart : apart tag h.
Hypothesis Htidy : tidy h.

Definition dref (T : typ) : typ := set_tp (type_unqualified T) false.
Lemma den_tptrue T t : denotes tag h T t -> tp T = true ->
  exists t', t = TPtr (mkq (pc T) (pv T) (pr T)) t' /\ denotes tag h (dref T) t'.
Proof.
  intros H E. destruct H; cbn in E; try discriminate E. exists t. unfold type_deref in H1. rewrite H, E in H1. cbn in H1. injection H1 as <-.
  split; [|assumption]. unfold is_const, is_volatile, is_restrict. now rewrite E.
Qed.
Lemma den_unq T t : denotes tag h T t -> denotes tag h (type_unqualified T) (unq t).
Proof.
  intros H. destruct H; cbn.
  - now apply den_basic.
  - eapply den_tag; eauto.
  - assert (D : type_deref h (type_unqualified T) = Ok T').
    { rewrite <- H1. unfold type_deref, type_unqualified, is_pointer, type_of, set_tp. destruct T as [k u c v r p a b d e]; cbn. destruct p; reflexivity. }
    assert (Q : unqualified = mkq (is_const (type_unqualified T)) (is_volatile (type_unqualified T)) (is_restrict (type_unqualified T))).
    { unfold type_unqualified, is_const, is_volatile, is_restrict. destruct T as [k u c v r p a b d e]; cbn. destruct p; reflexivity. }
    rewrite Q. apply den_ptr with (T' := T'); try assumption.
    + unfold is_pointer, type_of, type_unqualified in *. destruct T as [k u c v r p a b d e]; cbn in *. destruct p; assumption.
    + unfold type_unqualified. destruct T as [k u c v r p a b d e]; cbn in *. destruct p; cbn; [discriminate|assumption].
  - eapply den_arr; eauto.
  - eapply den_fun; eauto.
  - apply den_pending.
Qed.

Lemma flags_refl T : flags_eqb T T = true. Proof. unfold flags_eqb. now rewrite tk_refl, !eqb_reflx. Qed.
Lemma flags_eq T T' : flags_eqb T T' = true -> ref T = ref T' -> T = T'.
Proof.
  unfold flags_eqb. rewrite !andb_true_iff, !eqb_true_iff, tk_eqb_eq. destruct T, T'; cbn. intros; repeat match goal with H : _ /\ _ |- _ => destruct H end. now subst.
Qed.
Lemma flags_inv T T' : flags_eqb T T' = true ->
  kind T = kind T' /\ uns T = uns T' /\ tc T = tc T' /\ tv T = tv T' /\ tr T = tr T' /\ tp T = tp T' /\ pc T = pc T' /\ pv T = pv T' /\ pr T = pr T'.
Proof. unfold flags_eqb. rewrite !andb_true_iff, !eqb_true_iff, tk_eqb_eq. tauto. Qed.
Lemma flags_intro T T' :
  kind T = kind T' -> uns T = uns T' -> tc T = tc T' -> tv T = tv T' -> tr T = tr T' -> tp T = tp T' -> pc T = pc T' -> pv T = pv T' -> pr T = pr T' ->
  flags_eqb T T' = true.
Proof. unfold flags_eqb. intros. rewrite !andb_true_iff, !eqb_true_iff, tk_eqb_eq. tauto. Qed.
Lemma flags_unq T T' : flags_eqb T T' = true -> flags_eqb (type_unqualified T) (type_unqualified T') = true.
Proof.
  intro E. apply flags_inv in E. destruct E as (A & B & C & D & E & F & G & H & I). unfold type_unqualified. rewrite <- F.
  destruct (tp T) eqn:P; apply flags_intro; cbn; congruence.
Qed.

(* pointers that are in the table *)
Lemma den_table T t : denotes tag h T t -> tidy_typ h T -> tp T = false -> kind T = POINTER ->
  exists n t', node_at h (ref T) = Some n /\ nkind n = POINTER /\ uns T = false /\ pc T = false /\ pv T = false /\ pr T = false /\
    t = TPtr (mkq (tc T) (tv T) (tr T)) (TPtr (mkq (nconst n) (nvolatile n) (nrestrict n)) t') /\ denotes tag h (nnext n) t' /\ tidy_typ h (nnext n) /\ tp (nnext n) = false.
Proof.
  intros H Ti E K. destruct (Ti K) as (U & n & N & NK). destruct H; cbn in E, K; try discriminate; try (subst; discriminate).
  - match goal with A : _ = STRUCT \/ _ = UNION |- _ => destruct A; congruence end.
  - destruct (H0 E) as (P1 & P2 & P3). unfold type_deref in H1. rewrite H, E in H1. cbn in H1. unfold type_handle, handle in H1. rewrite N in H1. cbn [bind] in H1. rewrite NK in H1.
    pose proof (Htidy _ _ N) as TN. unfold tidy_node in TN. rewrite NK in TN. destruct TN as (_ & _ & _ & _ & A1 & A2 & A3 & A4 & A5).
    rewrite A1 in H1. injection H1 as <-. destruct (den_tptrue _ _ H2 eq_refl) as (t' & -> & D). cbn [pc pv pr] in *.
    exists n, t'. split; [assumption|]. split; [assumption|]. split; [assumption|]. split; [assumption|]. split; [assumption|]. split; [assumption|].
    split; [|split; [|split; assumption]].
    + unfold is_const, is_volatile, is_restrict. now rewrite E.
    + replace (nnext n) with (dref (mkT (kind (nnext n)) (uns (nnext n)) (tc (nnext n)) (tv (nnext n)) (tr (nnext n)) true (nconst n) (nvolatile n) (nrestrict n) (ref (nnext n)))); [assumption|].
      unfold dref, type_unqualified, set_tp. cbn. destruct (nnext n); cbn in *. now subst.
Qed.
Lemma tidy_dref T : tidy_typ h T -> tidy_typ h (dref T).
Proof. unfold tidy_typ, dref, set_tp, type_unqualified. destruct (tp T); cbn; auto. Qed.
Lemma tidy_unq T : tidy_typ h T -> tidy_typ h (type_unqualified T).
Proof. unfold tidy_typ, type_unqualified. destruct (tp T); cbn; auto. Qed.

Fixpoint levels (t : ty) : nat := match t with TPtr _ t => S (levels t) | _ => 0%nat end.
Lemma parity T t : denotes tag h T t -> tidy_typ h T -> Nat.odd (levels t) = tp T.
Proof.
  remember (levels t) as n eqn:E. assert (L : (levels t <= n)%nat) by lia. subst n. revert T t L.
  assert (G : forall n T t, (levels t <= n)%nat -> denotes tag h T t -> tidy_typ h T -> Nat.odd (levels t) = tp T).
  { induction n as [n IH] using lt_wf_ind. intros T t L D Ti. destruct (tp T) eqn:P.
    - destruct (den_tptrue _ _ D P) as (t' & -> & D'). cbn [levels] in *. pose proof (IH (levels t') ltac:(lia) (dref T) t' ltac:(lia) D' (tidy_dref _ Ti)) as R. cbn [dref set_tp tp] in R.
      rewrite Nat.odd_succ. rewrite <- Nat.negb_odd. now rewrite R.
    - destruct (tk_eqb (kind T) POINTER) eqn:K.
      + apply tk_eqb_eq in K. destruct (den_table _ _ D Ti P K) as (m & t' & _ & _ & _ & _ & _ & _ & -> & D' & Ti' & Tp). cbn [levels] in *.
        pose proof (IH (levels t') ltac:(lia) _ t' ltac:(lia) D' Ti') as R. rewrite Nat.odd_succ, Nat.even_succ, R.
        exact Tp.
      + destruct D; cbn in *; try reflexivity. unfold is_pointer, type_of in H. rewrite P in H. congruence. }
  intros T t _. now apply G with (n := levels t).
Qed.

Lemma same_levels t : forall t', same true t t' = true -> levels t = levels t'.
Proof.
  induction t using ty_ind2; intros t' S; destruct t'; try discriminate S; try reflexivity. cbn [same levels] in *. apply andb_true_iff in S as [_ S]. f_equal. now apply IHt.
Qed.
Lemma not_ptr T t : denotes tag h T t -> tp T = false -> kind T <> POINTER -> levels t = 0%nat.
Proof. intros H E K. destruct H; try reflexivity. unfold is_pointer, type_of in H. rewrite E in H. apply tk_eqb_eq in H. congruence. Qed.
Lemma flags_same T t T' t' : denotes tag h T t -> denotes tag h T' t' -> tidy_typ h T -> tidy_typ h T' -> same true t t' = true -> flags_eqb T T' = true.
Proof.
  assert (G : forall T t T' t', tp T = false -> denotes tag h T t -> denotes tag h T' t' -> tidy_typ h T -> tidy_typ h T' -> same true t t' = true -> flags_eqb T T' = true).
  { clear T t T' t'. intros T t T' t' P D D' Ti Ti' S.
    assert (P' : tp T' = false). { rewrite <- (parity _ _ D' Ti'), <- (same_levels _ _ S), (parity _ _ D Ti). exact P. }
    destruct (tk_eqb (kind T) POINTER) eqn:K; [apply tk_eqb_eq in K|].
    - destruct (den_table _ _ D Ti P K) as (n & u & N & NK & A1 & A2 & A3 & A4 & -> & _).
      destruct (tk_eqb (kind T') POINTER) eqn:K'; [apply tk_eqb_eq in K'|].
      + destruct (den_table _ _ D' Ti' P' K') as (n' & u' & N' & NK' & B1 & B2 & B3 & B4 & -> & _). cbn [same negb orb] in S. rewrite !andb_true_iff, !quals_eq in S.
        destruct S as (S & _). injection S as S1 S2 S3. apply flags_intro; congruence.
      + exfalso. assert (L : levels t' = 0%nat). { eapply not_ptr; eauto. intro E. rewrite E in K'. discriminate. } apply same_levels in S. rewrite L in S. discriminate S.
    - assert (L : levels t = 0%nat). { eapply not_ptr; eauto. intro E. rewrite E in K. discriminate. } pose proof (same_levels _ _ S) as L'. rewrite L in L'.
      destruct D; cbn in L; try discriminate L; destruct D'; cbn in L'; try discriminate L'; try discriminate S.
      + cbn in S. rewrite !andb_true_iff, !eqb_true_iff, tk_eqb_eq in S. destruct S as ((-> & ->) & -> & ->). apply flags_refl.
      + cbn in S. rewrite !andb_true_iff, !eqb_true_iff, tk_eqb_eq in S. destruct S as ((-> & _) & -> & ->). apply flags_intro; reflexivity.
      + reflexivity.
      + reflexivity.
      + reflexivity. }
  intros D D' Ti Ti' S. destruct (tp T) eqn:P; [|now apply (G T t T' t')].
  assert (P' : tp T' = true). { rewrite <- (parity _ _ D' Ti'), <- (same_levels _ _ S), (parity _ _ D Ti). exact P. }
  destruct (den_tptrue _ _ D P) as (u & -> & Du). destruct (den_tptrue _ _ D' P') as (u' & -> & Du').
  cbn [same negb orb] in S. apply andb_true_iff in S as [Q S]. apply quals_eq in Q. injection Q as Q1 Q2 Q3.
  assert (F : flags_eqb (dref T) (dref T') = true) by (apply (G _ u _ u'); auto using tidy_dref).
  apply flags_inv in F. unfold dref, type_unqualified in F. rewrite P, P' in F. cbn in F. destruct F as (A1 & A2 & A3 & A4 & A5 & _). apply flags_intro; congruence.
Qed.

(* What a comparison comes to *)
Definition told (q : bool) (r : outcome bool) (t t' : ty) : Prop :=
  exists b, r = Ok b /\ (b = true -> same q t t' = true) /\ (same true t t' = true -> b = true).
Lemma told_false q t t' : same true t t' <> true -> told q (Ok false) t t'.
Proof. intro H. exists false. repeat split; [discriminate|intro E; now elim H]. Qed.
Lemma told_true q t t' : same q t t' = true -> told q (Ok true) t t'.
Proof. intro H. exists true. repeat split; auto. Qed.

Fixpoint compare (q : bool) (f : nat) (fn : bool) (la lb : list member) : outcome bool :=
  match la, lb with
  | ma :: la, mb :: lb =>
      let* e := equal q f h (mtype ma) (mtype mb) in
      if negb e then Ok false
      else if fn then compare q f fn la lb
      else if negb (moffset ma =? moffset mb) then Bad
      else if negb (str_eq (mname ma) (mname mb)) then Ok false
      else compare q f fn la lb
  | _, _ => Ok true
  end.
Lemma equal_S q f a b : equal q (S f) h a b =
      let x := if q then a else type_unqualified a in
      let y := if q then b else type_unqualified b in
      if negb (flags_eqb x y) then Ok false
      else if Nat.eqb (ref x) (ref y) then Ok true
      else if Nat.eqb (ref x) 0 || Nat.eqb (ref y) 0 then Ok false
      else
        let* ta := handle h (ref a) in
        let* tb := handle h (ref b) in
        if negb (tk_eqb (nkind ta) (nkind tb) && (nsize ta =? nsize tb)
                 && (negb q || (eqb (nconst ta) (nconst tb) && eqb (nvolatile ta) (nvolatile tb) && eqb (nrestrict ta) (nrestrict tb)))
                 && eqb (vararg ta) (vararg tb) && eqb (incomplete ta) (incomplete tb))
        then Ok false
        else if negb (Nat.eqb (length (members ta)) (length (members tb))) then Ok false
        else
          let* e := equal q f h (nnext ta) (nnext tb) in
          if negb e then Ok false else compare q f (tk_eqb (nkind ta) FUNCTION) (members ta) (members tb).
Proof.
  cbn [equal]. cbv zeta. destruct (negb _); [reflexivity|]. destruct (Nat.eqb _ _); [reflexivity|]. destruct (_ || _); [reflexivity|].
  destruct (handle h (ref a)) as [ta| | |]; cbn [bind]; try reflexivity. destruct (handle h (ref b)) as [tb| | |]; cbn [bind]; try reflexivity.
  destruct (negb _); [reflexivity|]. destruct (negb _); [reflexivity|]. destruct (equal q f h (nnext ta) (nnext tb)) as [[]| | |]; cbn [bind negb]; try reflexivity.
  generalize (members ta) (members tb). induction l as [|ma la IH]; intros [|mb lb]; cbn; try reflexivity.
  destruct (equal q f h (mtype ma) (mtype mb)) as [[]| | |]; cbn; try reflexivity. destruct (tk_eqb (nkind ta) FUNCTION); [apply IH|]. destruct (moffset ma =? moffset mb); cbn; [|reflexivity].
  destruct (str_eq _ _); cbn; [apply IH|reflexivity].
Qed.
Lemma unq_ref T : ref (type_unqualified T) = ref T. Proof. unfold type_unqualified. now destruct (tp T). Qed.
Lemma unq_tp T : tp (type_unqualified T) = tp T. Proof. unfold type_unqualified. now destruct (tp T) eqn:E. Qed.
Lemma unq_kind T : kind (type_unqualified T) = kind T. Proof. unfold type_unqualified. now destruct (tp T) eqn:E. Qed.

Lemma equal_deref q f T T' : tp T = true -> tp T' = true ->
  equal q (S f) h T T' = if flags_eqb (dref T) (dref T') && (negb q || quals_eqb (mkq (pc T) (pv T) (pr T)) (mkq (pc T') (pv T') (pr T'))) then equal q (S f) h (dref T) (dref T') else Ok false.
Proof.
  intros P P'. rewrite !equal_S. cbv zeta.
  assert (R : ref (dref T) = ref T /\ ref (dref T') = ref T') by (unfold dref, set_tp; cbn; now rewrite !unq_ref). destruct R as [R R'].
  assert (E1 : flags_eqb (if q then T else type_unqualified T) (if q then T' else type_unqualified T') =
    flags_eqb (dref T) (dref T') && (negb q || quals_eqb (mkq (pc T) (pv T) (pr T)) (mkq (pc T') (pv T') (pr T')))).
  { unfold dref, set_tp, type_unqualified, flags_eqb, quals_eqb. rewrite P, P'. destruct q; cbn; rewrite ?P, ?P'; cbn; btauto || idtac. }
  rewrite E1. destruct (flags_eqb (dref T) (dref T')) eqn:F; cbn [andb]; [|reflexivity].
  destruct (negb q || _); cbn [negb]; [|reflexivity].
  assert (F2 : flags_eqb (if q then dref T else type_unqualified (dref T)) (if q then dref T' else type_unqualified (dref T')) = true) by (destruct q; [assumption|now apply flags_unq]).
  rewrite F2. cbn [negb].
  assert (X : forall U, ref (if q then U else type_unqualified U) = ref U) by (intro U; destruct q; [reflexivity|apply unq_ref]).
  rewrite !X, R, R'. reflexivity.
Qed.

Definition right_at (q : bool) (f : nat) : Prop := forall T t T' t', (depth t < f)%nat -> denotes tag h T t -> denotes tag h T' t' -> tidy_typ h T -> tidy_typ h T' -> told q (equal q f h T T') t t'.
Lemma fold_max (ps : list (name * ty)) x p : In (x, p) ps -> (depth p <= fold_right (fun p m => Nat.max (depth (snd p)) m) 0 ps)%nat.
Proof. induction ps as [|y ps IH]; [contradiction|]. intros [->|H]; cbn; [lia|]. specialize (IH H). lia. Qed.
Lemma each_len qs l : forall l', each_same qs l l' = true -> length l = length l'.
Proof. induction l as [|[x p] l IH]; intros [|[y p'] l'] E; cbn in *; try discriminate; [reflexivity|]. apply andb_true_iff in E as [_ E]. f_equal. now apply IH. Qed.
Lemma compare_ok q f : right_at q f -> forall ms ps ms' ps', denote tag h ms ps -> denote tag h ms' ps' -> length ms = length ms' ->
  Forall (fun m => tidy_typ h (mtype m)) ms -> Forall (fun m => tidy_typ h (mtype m)) ms' -> (forall x p, In (x, p) ps -> (depth p < f)%nat) ->
  exists b, compare q f true ms ms' = Ok b /\ (b = true -> each_same q ps ps' = true) /\ (each_same true ps ps' = true -> b = true).
Proof.
  intros R ms. induction ms as [|m ms IH]; intros ps ms' ps' D D' L Ti Ti' Dp; destruct ms' as [|m' ms']; try discriminate L; inversion D; subst; inversion D'; subst.
  - exists true. repeat split; auto.
  - inversion Ti; subst. inversion Ti'; subst. injection L as L.
    match goal with A : denotes tag h (mtype m) ?a, B : denotes tag h (mtype m') ?b |- _ => destruct (R (mtype m) a (mtype m') b) as (b1 & E & B1 & B2); auto end. { apply (Dp (mname m)). now left. }
    cbn [compare]. rewrite E. cbn [bind]. cbn [each_same]. destruct b1; cbn [negb].
    + match goal with A : denote tag h ms ?a, B : denote tag h ms' ?b |- _ => destruct (IH a ms' b A B L) as (b' & -> & C1 & C2); auto end. { intros x p I. apply (Dp x). now right. }
      exists b'. repeat split; intro X.
      * now rewrite (B1 eq_refl), (C1 X).
      * apply andb_true_iff in X as [_ X]. now apply C2.
    + exists false. repeat split; [discriminate|]. intro X. apply andb_true_iff in X as [X _]. now apply B2.
Qed.
Lemma denote_len ms ps : denote tag h ms ps -> length ms = length ps.
Proof. induction 1; cbn; congruence. Qed.

(* the comparison of what is not a pointer represented by a flag *)
Lemma equal_flat q f T t T' t' : right_at q f -> (depth t < S f)%nat -> denotes tag h T t -> denotes tag h T' t' -> tidy_typ h T -> tidy_typ h T' -> tp T = false ->
  told q (equal q (S f) h T T') t t'.
Proof.
  intros R Dp D D' Ti Ti' P. rewrite equal_S. cbv zeta. set (x := if q then T else type_unqualified T). set (y := if q then T' else type_unqualified T').
  assert (Rx : ref x = ref T) by (unfold x; destruct q; [reflexivity|apply unq_ref]). assert (Ry : ref y = ref T') by (unfold y; destruct q; [reflexivity|apply unq_ref]).
  destruct (flags_eqb x y) eqn:F; cbn [negb].
  2:{ apply told_false. intro S. apply (flags_same _ _ _ _ D D' Ti Ti') in S. assert (flags_eqb x y = true) by (unfold x, y; destruct q; [assumption|now apply flags_unq]). congruence. }
  destruct (Nat.eqb_spec (ref x) (ref y)) as [E|E].
  { apply told_true. pose proof (flags_eq _ _ F E) as XY. unfold x, y in XY. destruct q.
    - subst T'. rewrite (denotes_det _ _ _ _ D _ D'). apply same_refl.
    - apply same_unq. apply den_unq in D. apply den_unq in D'. rewrite XY in D. exact (denotes_det _ _ _ _ D _ D'). }
  assert (Kx : kind T = kind T'). { apply flags_inv in F. destruct F as (A & _). unfold x, y in A. destruct q; [assumption|]. now rewrite !unq_kind in A. }
  assert (Px : tp T' = false). { apply flags_inv in F. destruct F as (_ & _ & _ & _ & _ & A & _). unfold x, y in A. destruct q; [congruence|]. rewrite !unq_tp in A. congruence. }
  rewrite Rx, Ry in *.
  destruct (tk_eqb (kind T) POINTER) eqn:K; [apply tk_eqb_eq in K|].
  - destruct (den_table _ _ D Ti P K) as (n & u & N & NK & A1 & A2 & A3 & A4 & -> & Du & Tu & Pu).
    destruct (den_table _ _ D' Ti' Px ltac:(congruence)) as (n' & u' & N' & NK' & B1 & B2 & B3 & B4 & -> & Du' & Tu' & Pu').
    assert (Z1 : ref T <> 0%nat) by (intro Z; rewrite Z in N; discriminate). assert (Z2 : ref T' <> 0%nat) by (intro Z; rewrite Z in N'; discriminate).
    apply Nat.eqb_neq in Z1, Z2. rewrite Z1, Z2. cbn [orb]. unfold handle. rewrite N, N'. cbn [bind]. rewrite NK, NK', tk_refl.
    pose proof (Htidy _ _ N) as TN. pose proof (Htidy _ _ N') as TN'. unfold tidy_node in TN, TN'. rewrite NK in TN. rewrite NK' in TN'.
    destruct TN as (S1 & S2 & S3 & S4 & _). destruct TN' as (S1' & S2' & S3' & S4' & _). rewrite S1, S1', S2, S2', S3, S3', S4, S4'. cbn [length Nat.eqb negb Z.eqb eqb andb]. rewrite !andb_true_r.
    destruct (negb q || _) eqn:Q; cbn [negb].
    + destruct (R (nnext n) u (nnext n') u') as (b & -> & C1 & C2); auto. { cbn [depth] in Dp. lia. } cbn [bind].
      assert (S' : same q (TPtr (mkq (tc T) (tv T) (tr T)) (TPtr (mkq (nconst n) (nvolatile n) (nrestrict n)) u)) (TPtr (mkq (tc T') (tv T') (tr T')) (TPtr (mkq (nconst n') (nvolatile n') (nrestrict n')) u')) = same q u u').
      { cbn [same]. unfold quals_eqb at 2. cbn [q_const q_volatile q_restrict]. rewrite Q. cbn [andb]. destruct q; cbn [negb orb]; [|reflexivity].
        unfold x, y in F. apply flags_inv in F. destruct F as (_ & _ & F1 & F2 & F3 & _). rewrite F1, F2, F3, (proj2 (quals_eq _ _) eq_refl). reflexivity. }
      destruct b; cbn [negb compare].
      * apply told_true. rewrite S'. auto.
      * exists false. split; [reflexivity|]. split; [discriminate|]. intro X. cbn [same] in X. rewrite !andb_true_iff in X. apply C2. tauto.
    + apply told_false. intro X. cbn [same negb orb] in X. rewrite !andb_true_iff in X. destruct X as (_ & X & _). unfold quals_eqb in X. cbn in X. rewrite X, orb_true_r in Q. discriminate.
  - assert (NP : forall U u, denotes tag h U u -> tp U = false -> kind U = kind T -> is_pointer U = true -> False).
    { intros U u _ PU KU. unfold is_pointer, type_of. rewrite PU, KU, K. discriminate. }
    assert (Z : forall k, basic k = true -> kind T = k -> ref T = ref T').
    { intros k Bk Ek. destruct D; cbn in Ek; subst; try discriminate Bk.
      - destruct D'; cbn in Kx; subst; try discriminate; try reflexivity.
        + match goal with A : _ = STRUCT \/ _ = UNION |- _ => destruct A as [A|A]; rewrite A in Bk; discriminate Bk end.
        + exfalso. eapply NP; [eapply den_ptr; eauto| | |]; eauto.
      - match goal with A : _ = STRUCT \/ _ = UNION |- _ => destruct A as [A|A]; rewrite A in Bk; discriminate Bk end.
      - exfalso. eapply NP; [eapply den_ptr; eauto| | |]; eauto. }
    destruct D as [k u c v Bk|k r c v n z G N Nk Nz Kk|U V t Pt Qt Vt Dt|r n l t N Nk Ns Ni Dt|r n ps k t N Nk Ni Nv Dps Dt|].
    + elim E. eapply Z; [exact Bk|reflexivity].
    + destruct D' as [k' u' c' v' Bk'|k' r' c' v' n' z' G' N' Nk' Nz' Kk'|U' V' t' Pt' Qt' Vt' Dt'|r' n' l' t' N' Nk' Ns' Ni' Dt'|r' n' ps' k' t' N' Nk' Ni' Nv' Dps' Dt'|]; cbn [kind plain] in Kx; try (destruct Kk; congruence).
      * subst k'. destruct Kk as [A|A]; rewrite A in Bk'; discriminate Bk'.
      * cbn [ref] in *. assert (Z1 : r <> 0%nat) by (intro Y; rewrite Y in N; discriminate). assert (Z2 : r' <> 0%nat) by (intro Y; rewrite Y in N'; discriminate).
        apply Nat.eqb_neq in Z1, Z2. rewrite Z1, Z2. cbn [orb]. unfold handle. rewrite N, N'. cbn [bind].
        assert (NS : same true (TTag k r c v) (TTag k' r' c' v') <> true). { cbn. rewrite !andb_true_iff, Nat.eqb_eq. tauto. }
        match goal with |- context [negb ?a] => destruct a eqn:C; cbn [negb]; [|now apply told_false] end.
        destruct (Nat.eqb_spec (length (members n)) (length (members n'))) as [LL|LL]; cbn [negb]; [|now apply told_false].
        exfalso. rewrite !andb_true_iff, Z.eqb_eq in C. destruct (Hapart r r' n n') as [X|[X|X]]; try congruence; tauto.
      * exfalso. eapply NP; [eapply den_ptr; eauto| | |]; eauto.
    + exfalso. eapply NP; [eapply den_ptr; eauto| | |]; eauto.
    + destruct D' as [k' u' c' v' Bk'|k' r' c' v' n' z' G' N' Nk' Nz' Kk'|U' V' t' Pt' Qt' Vt' Dt'|r' n' l' t' N' Nk' Ns' Ni' Dt'|r' n' ps' k' t' N' Nk' Ni' Nv' Dps' Dt'|]; cbn [kind plain] in Kx; try (destruct Kk'; congruence); try discriminate Kx.
      * subst k'. discriminate.
      * exfalso. eapply NP; [eapply den_ptr; eauto| | |]; eauto.
      * cbn [ref plain] in *. assert (Z1 : r <> 0%nat) by (intro Y; rewrite Y in N; discriminate). assert (Z2 : r' <> 0%nat) by (intro Y; rewrite Y in N'; discriminate).
        apply Nat.eqb_neq in Z1, Z2. rewrite Z1, Z2. cbn [orb]. unfold handle. rewrite N, N'. cbn [bind].
        pose proof (Htidy _ _ N) as TN. pose proof (Htidy _ _ N') as TN'. unfold tidy_node in TN, TN'. rewrite Nk in TN. rewrite Nk' in TN'.
        destruct TN as (S1 & S2 & S3 & S4 & S5 & S6). destruct TN' as (S1' & S2' & S3' & S4' & S5' & S6'). rewrite Nk, Nk', S1, S1', S2, S2', S3, S3', S4, S4', S5, S5'. cbn [length Nat.eqb negb tk_eqb eqb andb orb].
        rewrite !orb_true_r, !andb_true_r. rewrite Ns, Ns', Ni, Ni'.
        assert (LE : (match l with Some z => z | None => 0 end =? match l' with Some z => z | None => 0 end) && eqb (match l with Some _ => false | None => true end) (match l' with Some _ => false | None => true end) = length_eqb l l').
        { destruct l, l'; cbn; rewrite ?andb_true_r, ?andb_false_r; reflexivity. }
        rewrite LE. destruct (length_eqb l l') eqn:LL; cbn [negb].
        -- destruct (R (nnext n) t (nnext n') t') as (b & -> & C1 & C2); auto. { cbn [depth] in Dp. lia. } cbn [bind]. destruct b; cbn [negb compare].
           ++ apply told_true. cbn [same]. rewrite LL. cbn. auto.
           ++ exists false. split; [reflexivity|]. split; [discriminate|]. cbn [same]. rewrite LL. cbn. auto.
        -- apply told_false. cbn [same]. rewrite LL. discriminate.
    + destruct D' as [k' u' c' v' Bk'|k' r' c' v' n' z' G' N' Nk' Nz' Kk'|U' V' t' Pt' Qt' Vt' Dt'|r' n' l' t' N' Nk' Ns' Ni' Dt'|r' n' ps' k' t' N' Nk' Ni' Nv' Dps' Dt'|]; cbn [kind plain] in Kx; try (destruct Kk'; congruence); try discriminate Kx.
      * subst k'. discriminate.
      * exfalso. eapply NP; [eapply den_ptr; eauto| | |]; eauto.
      * cbn [ref plain] in *. assert (Z1 : r <> 0%nat) by (intro Y; rewrite Y in N; discriminate). assert (Z2 : r' <> 0%nat) by (intro Y; rewrite Y in N'; discriminate).
        apply Nat.eqb_neq in Z1, Z2. rewrite Z1, Z2. cbn [orb]. unfold handle. rewrite N, N'. cbn [bind].
        pose proof (Htidy _ _ N) as TN. pose proof (Htidy _ _ N') as TN'. unfold tidy_node in TN, TN'. rewrite Nk in TN. rewrite Nk' in TN'.
        destruct TN as (S1 & S3 & S4 & S5 & S6 & S7). destruct TN' as (S1' & S3' & S4' & S5' & S6' & S7'). rewrite Nk, Nk', S1, S1', S3, S3', S4, S4', S5, S5'. cbn [Z.eqb negb tk_eqb eqb andb orb].
        rewrite !orb_true_r. cbn [andb]. rewrite Ni, Ni', Nv, Nv'.
        assert (LE : eqb (match k with Proto true => true | _ => false end) (match k' with Proto true => true | _ => false end) && eqb (match k with Unknown => true | Proto _ => false end) (match k' with Unknown => true | Proto _ => false end) = proto_eqb k k').
        { destruct k as [|[]], k' as [|[]]; reflexivity. }
        rewrite LE. destruct (proto_eqb k k') eqn:LL; cbn [negb].
        2:{ apply told_false. rewrite same_fun, LL. discriminate. }
        destruct (Nat.eqb_spec (length (members n)) (length (members n'))) as [LM|LM]; cbn [negb].
        2:{ apply told_false. rewrite same_fun. intro X. rewrite !andb_true_iff in X. destruct X as (_ & X). apply each_len in X. rewrite (denote_len _ _ Dps), (denote_len _ _ Dps') in LM. congruence. }
        cbn [depth] in Dp.
        destruct (R (nnext n) t (nnext n') t') as (b & -> & C1 & C2); auto. { lia. } cbn [bind]. unfold told. rewrite !same_fun, LL. cbn [andb]. destruct b; cbn [negb].
        -- destruct (compare_ok q f R _ _ _ _ Dps Dps' LM S7 S7') as (b & -> & B1 & B2). { intros x0 p I. apply fold_max in I. lia. }
           exists b. split; [reflexivity|]. split; intro X; [rewrite (C1 eq_refl), (B1 X); reflexivity|]. apply andb_true_iff in X as [_ X]. now apply B2.
        -- exists false. split; [reflexivity|]. split; [discriminate|]. intro X. apply andb_true_iff in X as [X _]. now apply C2.
    + elim E. destruct D'; cbn [kind plain] in Kx; subst; try discriminate; try reflexivity.
      * match goal with A : _ = STRUCT \/ _ = UNION |- _ => destruct A; congruence end.
      * exfalso. eapply NP; [eapply den_ptr; eauto| | |]; eauto.
Qed.
Lemma equal_ok q : forall f, right_at q f.
Proof.
  induction f as [|f IH]; intros T t T' t' Dp D D' Ti Ti'; [lia|].
  destruct (tp T) eqn:P; [|now apply equal_flat].
  destruct (tp T') eqn:P'.
  - destruct (den_tptrue _ _ D P) as (u & -> & Du). destruct (den_tptrue _ _ D' P') as (u' & -> & Du'). rewrite equal_deref by assumption.
    destruct (_ && _) eqn:C.
    + destruct (equal_flat q f (dref T) u (dref T') u') as (b & -> & B1 & B2); auto using tidy_dref. { cbn [depth] in Dp. lia. }
      apply andb_true_iff in C as [_ C]. exists b. split; [reflexivity|]. cbn [same]. rewrite C. cbn [negb orb andb]. split; [auto|]. intro X. apply andb_true_iff in X as [_ X]. auto.
    + apply told_false. intro X. pose proof X as Y. cbn [same negb orb] in X. apply andb_true_iff in X as [X1 X2]. rewrite X1, orb_true_r, andb_true_r in C.
      rewrite (flags_same _ _ _ _ Du Du' (tidy_dref _ Ti) (tidy_dref _ Ti') X2) in C. discriminate.
  - rewrite equal_S. cbv zeta.
    assert (F : flags_eqb (if q then T else type_unqualified T) (if q then T' else type_unqualified T') = false).
    { apply not_true_is_false. intro X. apply flags_inv in X. destruct X as (_ & _ & _ & _ & _ & X & _). destruct q; rewrite ?unq_tp in X; congruence. }
    rewrite F. cbn [negb]. apply told_false. intro X. apply (flags_same _ _ _ _ D D' Ti Ti') in X. apply flags_inv in X. destruct X as (_ & _ & _ & _ & _ & X & _). congruence.
Qed.
Lemma type_equal_ok f T t T' t' : (depth t < f)%nat -> denotes tag h T t -> denotes tag h T' t' -> tidy_typ h T -> tidy_typ h T' -> type_equal f h T T' = Ok (same true t t').
Proof.
  intros. destruct (equal_ok true f T t T' t') as (b & E & A & B); auto. unfold type_equal. rewrite E. f_equal. destruct b; [symmetry; auto|]. destruct (same true t t'); [auto|reflexivity].
Qed.


Fixpoint each_compat (m : mode) (l l' : list (name * ty)) : bool :=
  match l, l' with
  | [], [] => true
  | (_, p) :: l, (_, p') :: l' => compat m true p p' && each_compat m l l'
  | _, _ => false
  end.
Lemma compat_fun m top ps k t ps' k' t' : compat m top (TFun ps k t) (TFun ps' k' t') =
  (if tight m then same true t t' else compat m false t t') &&
  match k, k' with
  | Proto v, Proto v' => (lax m || eqb v v') && each_compat m ps ps'
  | Proto v, Unknown => lax m || (negb v && forallb (fun p => promoted (snd p)) ps)
  | Unknown, Proto v => lax m || (negb v && forallb (fun p => promoted (snd p)) ps')
  | Unknown, Unknown => true
  end.
Proof.
  cbn [compat]. f_equal. destruct k, k'; try reflexivity. f_equal. revert ps'. induction ps as [|[x p] ps IH]; intros [|[y p'] ps']; cbn; try reflexivity. now rewrite IH.
Qed.
Lemma compat_unq m t t' : compat m true t t' = compat m false (unq t) (unq t').
Proof. destruct t, t'; try reflexivity; cbn; now rewrite ?andb_true_r. Qed.
Lemma depth_unq t : depth (unq t) = depth t. Proof. destruct t; reflexivity. Qed.

Lemma tidy_next T T' : tidy_typ h T -> is_pointer T = true -> type_deref h T = Ok T' -> tidy_typ h T'.
Proof.
  intros Ti P E. unfold type_deref in E. rewrite P in E. cbn [negb] in E. destruct (tp T) eqn:PT.
  - injection E as <-. exact (tidy_dref _ Ti).
  - unfold is_pointer, type_of in P. rewrite PT in P. apply tk_eqb_eq in P. destruct (Ti P) as (_ & n & N & NK). unfold type_handle, handle in E. rewrite N in E. cbn [bind] in E. rewrite NK in E.
    destruct (tp (nnext n)); [discriminate|]. injection E as <-. pose proof (Htidy _ _ N) as TN. unfold tidy_node in TN. rewrite NK in TN. unfold tidy_typ in *. cbn. tauto.
Qed.
Definition loop (f : nat) := fix loop (la lb : list member) : outcome bool :=
  match la, lb with
  | ma :: la, mb :: lb =>
      let* e := is_compatible f h (type_unqualified (mtype ma)) (type_unqualified (mtype mb)) in
      if negb e then Ok false else loop la lb
  | _, _ => Ok true
  end.
Definition agrees_at (f : nat) : Prop := forall T t T' t', (S (depth t) < f)%nat -> denotes tag h T t -> denotes tag h T' t' -> tidy_typ h T -> tidy_typ h T' ->
  is_compatible f h T T' = Ok (compat Tight false t t').
Lemma loop_ok f : agrees_at f -> forall ms ps ms' ps', denote tag h ms ps -> denote tag h ms' ps' -> length ms = length ms' ->
  Forall (fun m => tidy_typ h (mtype m)) ms -> Forall (fun m => tidy_typ h (mtype m)) ms' -> (forall x p, In (x, p) ps -> (S (depth p) < f)%nat) ->
  loop f ms ms' = Ok (each_compat Tight ps ps').
Proof.
  intros R ms. induction ms as [|m ms IH]; intros ps ms' ps' D D' L Ti Ti' Dp; destruct ms' as [|m' ms']; try discriminate L; inversion D; subst; inversion D'; subst; [reflexivity|].
  inversion Ti; subst. inversion Ti'; subst. injection L as L. cbn [loop]. fold (loop f). cbn [each_compat].
  match goal with A : denotes tag h (mtype m) ?a, B : denotes tag h (mtype m') ?b |- _ => rewrite (R (type_unqualified (mtype m)) (unq a) (type_unqualified (mtype m')) (unq b)), compat_unq; auto using den_unq, tidy_unq end.
  2:{ rewrite depth_unq. apply (Dp (mname m)). now left. }
  cbn [bind]. destruct (compat Tight false _ _); cbn [negb andb]; [|reflexivity].
  apply IH; auto. intros x p I. apply (Dp x). now right.
Qed.
Lemma each_compat_len m l : forall l', each_compat m l l' = true -> length l = length l'.
Proof. induction l as [|[x p] l IH]; intros [|[y p'] l'] E; cbn in *; try discriminate; [reflexivity|]. apply andb_true_iff in E as [_ E]. f_equal. now apply IH. Qed.

(* the head of a type *)
Definition head (t : ty) : tk := match t with TBasic k _ _ _ | TTag k _ _ _ => k | TPtr _ _ => POINTER | TArr _ _ _ => ARRAY | TFun _ _ _ => FUNCTION | TPending => PLACEHOLDER end.
Definition qualities (t : ty) : quals := match t with TBasic _ _ c v | TTag _ _ c v => mkq c v false | TPtr q _ => q | _ => unqualified end.
Lemma den_head T t : denotes tag h T t -> type_of T = head t /\ mkq (is_const T) (is_volatile T) (is_restrict T) = qualities t.
Proof. intro D. destruct D; try (split; reflexivity). split; [now apply tk_eqb_eq|reflexivity]. Qed.
Lemma compat_head m t t' : compat m false t t' = true -> head t = head t' /\ qualities t = qualities t'.
Proof.
  destruct t, t'; try discriminate; try (cbn; rewrite ?andb_true_iff, ?eqb_true_iff, ?tk_eqb_eq, ?quals_eq; intuition congruence). Qed.

Lemma compatible_ok : forall f, agrees_at f.
Proof.
  induction f as [|f IH]; intros T t T' t' Dp D D' Ti Ti'; [lia|]. cbn [is_compatible].
  destruct (den_head _ _ D) as [H1 H2]. destruct (den_head _ _ D') as [H1' H2'].
  destruct (tk_eqb (type_of T) (type_of T') && eqb (is_const T) (is_const T') && eqb (is_volatile T) (is_volatile T') && eqb (is_restrict T) (is_restrict T')) eqn:C; cbn [negb].
  2:{ destruct (compat Tight false t t') eqn:X; [|reflexivity]. apply compat_head in X as [X1 X2]. rewrite H1, H1', X1, tk_refl in C. cbn [andb] in C.
      assert (Q : quals_eqb (qualities t) (qualities t') = true) by (apply quals_eq; assumption). rewrite <- H2, <- H2' in Q. unfold quals_eqb in Q. cbn in Q. congruence. }
  rewrite !andb_true_iff, tk_eqb_eq, !eqb_true_iff in C. destruct C as (((C1 & C2) & C3) & C4).
  assert (HH : head t = head t') by congruence. assert (QQ : qualities t = qualities t') by congruence.
  rewrite H1. pose proof D as D0. pose proof D' as D0'.
  destruct D as [k u c v Bk|k r c v n z G N Nk Nz Kk|U V t Pt Qt Vt Dt|r n l t N Nk Ns Ni Dt|r n ps k t N Nk Ni Nv Dps Dt|]; cbn [head] in *.
  - destruct t' as [k' u' c' v'|k' r' c' v'|q' t'|q' n' t'|ps' k' t'|]; cbn [head] in HH; try (subst k; discriminate Bk).
    + subst k'. cbn [qualities] in QQ. injection QQ as <- <-. cbn [compat]. rewrite tk_refl, !eqb_reflx. cbn [lax andb orb]. rewrite andb_true_r.
      destruct k; try discriminate Bk; cbn [arithmetic orb]; try reflexivity.
      rewrite (fun X => type_equal_ok f _ _ _ _ X D0 D0' Ti Ti') by (cbn in Dp; cbn; lia). cbn. now rewrite !eqb_reflx, !andb_true_r.
    + inversion D'; subst. match goal with A : _ = STRUCT \/ _ = UNION |- _ => destruct A as [A|A]; rewrite A in Bk; discriminate Bk end.
  - assert (X : type_equal f h (mkT k false c v false false false false false r) T' = Ok (compat Tight false (TTag k r c v) t')).
    { rewrite (fun X => type_equal_ok f _ _ _ _ X D0 D0' Ti Ti') by (cbn in Dp; cbn; lia). destruct t'; reflexivity. }
    destruct Kk as [-> | ->]; exact X.
  - destruct t' as [k' u' c' v'|k' r' c' v'|q' t'|q' n' t'|ps' k' t'|]; cbn [head] in HH; try discriminate HH; try (exfalso; inversion D'; subst; try discriminate; match goal with A : _ = STRUCT \/ _ = UNION |- _ => destruct A; congruence end).
    inversion D'; subst. unfold type_next. rewrite Pt. match goal with A : is_pointer T' = true |- _ => rewrite A end. rewrite Vt. match goal with A : type_deref h T' = Ok _ |- _ => rewrite A end. cbn [bind].
    cbn [depth] in Dp. cbn [compat]. cbn [qualities] in QQ. rewrite QQ, (proj2 (quals_eq _ _) eq_refl). cbn [orb andb].
    apply IH; [lia|assumption|assumption|exact (tidy_next _ _ Ti Pt Vt)|]. match goal with A : type_deref h T' = Ok _, B : is_pointer T' = true |- _ => exact (tidy_next _ _ Ti' B A) end.
  - destruct t' as [k' u' c' v'|k' r' c' v'|q' t'|q' n' t'|ps' k' t'|]; cbn [head] in HH; try discriminate HH; try (exfalso; inversion D'; subst; try discriminate; match goal with A : _ = STRUCT \/ _ = UNION |- _ => destruct A; congruence end).
    inversion D' as [| | |r' n0 l' t0 N' Nk' Ns' Ni' Dt' E1 E2| |]; subst. cbn [ref plain]. unfold handle. rewrite N, N'. cbn [bind].
    pose proof (Htidy _ _ N) as TN. pose proof (Htidy _ _ N') as TN'. unfold tidy_node in TN, TN'. rewrite Nk in TN. rewrite Nk' in TN'. cbn [depth] in Dp. cbn [compat lax andb].
    rewrite (IH (nnext n) t (nnext n0) t'); [|lia|assumption|assumption|tauto|tauto].
    assert (LE : lengths_agree l n' || (zero_or_unknown l || zero_or_unknown n') = (nsize n =? 0) || (nsize n0 =? 0) || (nsize n =? nsize n0)).
    { rewrite Ns, Ns'. destruct l, n'; cbn; rewrite ?orb_true_r; try reflexivity. btauto. }
    rewrite LE. destruct (_ || (nsize n =? nsize n0)); reflexivity.
  - destruct t' as [k' u' c' v'|k' r' c' v'|q' t'|q' n' t'|ps' k' t'|]; cbn [head] in HH; try discriminate HH; try (exfalso; inversion D'; subst; try discriminate; match goal with A : _ = STRUCT \/ _ = UNION |- _ => destruct A; congruence end).
    inversion D' as [| | | |r' n0 ps0 k0 t0 N' Nk' Ni' Nv' Dps' Dt' E1 E2|]; subst. cbn [ref plain]. unfold handle. rewrite N, N'. cbn [bind].
    pose proof (Htidy _ _ N) as TN. pose proof (Htidy _ _ N') as TN'. unfold tidy_node in TN, TN'. rewrite Nk in TN. rewrite Nk' in TN'. cbn [depth] in Dp.
    rewrite (type_equal_ok f (nnext n) t (nnext n0) t'); [|lia|assumption|assumption|tauto|tauto]. cbn [bind]. rewrite compat_fun. cbn [tight lax orb].
    destruct (same true t t'); cbn [negb andb]; [|reflexivity]. rewrite Ni, Ni'. destruct k as [|va], k' as [|va']; cbn [orb]; try reflexivity.
    destruct (Nat.eqb_spec (length (members n)) (length (members n0))) as [LM|LM]; cbn [negb].
    + rewrite <- (loop_ok f IH _ _ _ _ Dps Dps' LM); [reflexivity|tauto|tauto|]. intros x p I. apply fold_max in I. lia.
    + destruct (each_compat Tight ps ps') eqn:X; [|reflexivity]. apply each_compat_len in X. rewrite (denote_len _ _ Dps), (denote_len _ _ Dps') in LM. congruence.
  - rewrite (fun X => type_equal_ok f _ _ _ _ X D0 D0' Ti Ti') by (cbn in Dp; cbn; lia). destruct t'; reflexivity.
Qed.
End With.
