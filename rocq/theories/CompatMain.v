(* C53: compatible types, and declarations of one name *)
From Coq Require Import List Bool Btauto Arith ZArith Lia.
From Verif Require Import Util DeclModel DeclSpec DeclProofs DeclProps CompatModel CompatSpec CompatProofs.
Import ListNotations.
Open Scope Z_scope.

Lemma same_compat m t : forall top t', same true t t' = true -> compat m top t t' = true.
Proof.
  induction t using ty_ind2; intros top t' S; destruct t'; try discriminate S.
  - cbn in *. rewrite !andb_true_iff, !orb_true_iff, !andb_true_iff in *. tauto.
  - cbn in *. rewrite !andb_true_iff, !orb_true_iff, !andb_true_iff in *. tauto.
  - cbn in *. rewrite !andb_true_iff in *. destruct S as [A B]. rewrite A, orb_true_r. split; [reflexivity|]. now apply IHt.
  - cbn in *. rewrite !andb_true_iff in *. destruct S as [A B]. apply length_eqb_eq in A. subst. split; [|now apply IHt]. destruct n0; cbn; [now rewrite Z.eqb_refl|reflexivity].
  - rewrite same_fun in S. rewrite compat_fun. rewrite !andb_true_iff in *. destruct S as ((A & B) & C). apply proto_eqb_eq in A. subst k0. split; [destruct (tight m); [assumption|now apply IHt]|].
    destruct k as [|v]; [reflexivity|]. rewrite eqb_reflx, orb_true_r. cbn [andb]. revert ps0 C. induction H as [|[x p] ps E H IH]; intros [|[y p'] ps'] C; cbn in *; try discriminate C; [reflexivity|].
    rewrite !andb_true_iff in *. split; [now apply E|now apply IH].
  - reflexivity.
Qed.
Lemma compat_refl m top t : compat m top t t = true. Proof. apply same_compat, same_refl. Qed.

Lemma quiet_eq q q' : quiet q = true -> quiet q' = true -> quals_eqb q q' = true.
Proof. destruct q as [[] [] []], q' as [[] [] []]; cbn; congruence. Qed.
Lemma plain_eq top c v c' v' : top || (eqb c c' && eqb v v') = true -> (top = true -> negb c && negb v = true /\ negb c' && negb v' = true) -> eqb c c' && eqb v v' = true.
Proof. destruct top; cbn; [|trivial]. intros _ H. destruct (H eq_refl). destruct c, v, c', v'; try discriminate; reflexivity. Qed.
Lemma rigid_same t : forall top t', compat Strict top t t' = true -> rigid t = true -> rigid t' = true -> (top = true -> bare_ t = true /\ bare_ t' = true) -> same true t t' = true.
Proof.
  induction t using ty_ind2; intros top t' S R R' Tb; destruct t'; try discriminate S.
  - cbn in *. apply andb_true_iff in S as [A C]. rewrite A. exact (plain_eq _ _ _ _ _ C Tb).
  - cbn in *. apply andb_true_iff in S as [A C]. rewrite A. exact (plain_eq _ _ _ _ _ C Tb).
  - cbn in *. rewrite !andb_true_iff in *. destruct S as (A & B). split; [|apply (IHt false); auto; discriminate]. apply orb_true_iff in A as [A|A]; [|assumption]. destruct (Tb A) as (D & E). now apply quiet_eq.
  - cbn in *. rewrite !andb_true_iff in *. destruct S as (A & B). destruct R as (R1 & R2), R' as (R1' & R2'). destruct n, n0; try discriminate. cbn in A. rewrite orb_false_r in A. cbn [length_eqb]. split; [assumption|]. apply (IHt false); auto; discriminate.
  - rewrite compat_fun in S. rewrite same_fun. cbn [rigid] in R, R'. rewrite !andb_true_iff in *. destruct S as (A & B), R as ((R1 & R2) & R3), R' as ((R1' & R2') & R3'). destruct k as [|v], k0 as [|v']; try discriminate. cbn [lax orb tight] in *.
    apply andb_true_iff in B as [B C]. repeat split; [exact B|apply (IHt false); auto; discriminate|].
    clear Tb. revert ps0 C R3'. induction H as [|[x p] ps E H IH]; intros [|[y p'] ps'] C R3'; cbn in *; try discriminate C; [reflexivity|].
    rewrite !andb_true_iff in *. destruct R3 as ((X1 & X2) & X3), R3' as ((Y1 & Y2) & Y3), C as [C1 C2]. split; [now apply (E true)|now apply IH].
  - reflexivity.
Qed.
Lemma firm_tight t : forall top t', compat Strict top t t' = true -> firm t = true -> firm t' = true -> compat Tight top t t' = true.
Proof.
  induction t using ty_ind2; intros top t' S F F'; destruct t'; try discriminate S.
  - cbn in *. rewrite !andb_true_iff in *. destruct S as ((A & B) & C). repeat split; auto. now rewrite B, orb_true_r.
  - exact S.
  - cbn in *. rewrite !andb_true_iff in *. destruct S as (A & B). auto.
  - cbn in *. rewrite !andb_true_iff in *. destruct S as (A & B). rewrite orb_false_r in A. rewrite A. auto.
  - rewrite compat_fun in *. cbn [firm] in F, F'. rewrite !andb_true_iff in *. destruct S as (A & B), F as (F1 & F2), F' as (F1' & F2'). cbn [tight lax orb] in *. split; [apply (rigid_same _ false); auto; discriminate|].
    destruct k as [|v], k0 as [|v']; try reflexivity. cbn [andb]. apply andb_true_iff in B as [_ B].
    revert ps0 B F2'. induction H as [|[x p] ps E H IH]; intros [|[y p'] ps'] C R3'; cbn in *; try discriminate C; [reflexivity|].
    rewrite !andb_true_iff in *. destruct C as [C1 C2], R3', F2. split; [now apply E|now apply IH].
  - reflexivity.
Qed.
Lemma tight_loose t : forall top t', compat Tight top t t' = true -> compat Loose top t t' = true.
Proof.
  induction t using ty_ind2; intros top t' S; destruct t'; try discriminate S.
  - exact S.
  - exact S.
  - cbn in *. rewrite !andb_true_iff in *. destruct S. auto.
  - cbn in *. rewrite !andb_true_iff in *. destruct S. auto.
  - rewrite compat_fun in *. cbn [tight lax orb] in *. rewrite !andb_true_iff in *. destruct S as (A & B). split; [now apply same_compat|]. destruct k as [|v], k0 as [|v']; try reflexivity. cbn [andb] in *.
    revert ps0 B. induction H as [|[x p] ps E H IH]; intros [|[y p'] ps'] C; cbn in *; try discriminate C; [reflexivity|]. rewrite !andb_true_iff in *. destruct C as [C1 C2]. split; [now apply E|now apply IH].
  - reflexivity.
Qed.
Lemma eqb_comm a b : eqb a b = eqb b a. Proof. destruct a, b; reflexivity. Qed.
Lemma tk_comm a b : tk_eqb a b = tk_eqb b a. Proof. destruct a, b; reflexivity. Qed.
Lemma quals_comm a b : quals_eqb a b = quals_eqb b a. Proof. unfold quals_eqb. now rewrite (eqb_comm (q_const a)), (eqb_comm (q_volatile a)), (eqb_comm (q_restrict a)). Qed.
Lemma compat_sym t : forall top t', compat Strict top t t' = compat Strict top t' t.
Proof.
  induction t using ty_ind2; intros top t'; destruct t'; try reflexivity.
  - cbn. now rewrite tk_comm, (eqb_comm u), (eqb_comm c), (eqb_comm v).
  - cbn. now rewrite tk_comm, (Nat.eqb_sym r), (eqb_comm c), (eqb_comm v).
  - cbn. now rewrite quals_comm, IHt.
  - cbn. rewrite !orb_false_r, IHt. f_equal. destruct n, n0; cbn; try reflexivity. apply Z.eqb_sym.
  - rewrite !compat_fun. cbn [tight lax orb]. rewrite IHt. f_equal. destruct k as [|v], k0 as [|v']; try reflexivity. rewrite eqb_comm. f_equal.
    revert ps0. induction H as [|[x p] ps E H IH]; intros [|[y p'] ps']; cbn in *; try reflexivity. now rewrite E, IH.
Qed.

(* The length of an array that gets one *)
Definition completed (n : node) (z : Z) : node := mkN (nkind n) (nconst n) (nvolatile n) (nrestrict n) z false (vararg n) (members n) (nnext n).
Fixpoint weight (t : ty) : nat :=
  match t with
  | TPtr _ t | TArr _ _ t => S (weight t)
  | TFun ps _ t => S (weight t + fold_right (fun p m => weight (snd p) + m) 0 ps)
  | _ => 1
  end%nat.
Lemma type_handle_other h r n T k : node_at h r = Some n -> k <> r -> forall x, type_handle h k = Ok T -> type_handle (put h r x) k = Ok T.
Proof. intros N K x. unfold type_handle, handle. now rewrite put_other by assumption. Qed.
Lemma weight_pos t : (0 < weight t)%nat. Proof. destruct t; cbn; lia. Qed.

Section With.
Variable tag : tags.
Variable h : heap.
Hypothesis Hapart : apart tag h.
Hypothesis Htidy : tidy h.

(* the table with the length of one array set denotes what it did, for what is not made with that array *)
Lemma den_completed r n z e : node_at h r = Some n -> nkind n = ARRAY -> nsize n = 0 -> incomplete n = true -> denotes tag h (nnext n) e ->
  forall T t, denotes tag h T t -> tidy_typ h T -> (weight t <= weight e)%nat -> denotes tag (put h r (completed n z)) T t.
Proof.
  intros N K Z I De.
  assert (DR : denotes tag h (plain ARRAY false r) (TArr unqualified None e)) by (eapply den_arr; eauto).
  assert (G : forall k T t, (weight t <= k)%nat -> denotes tag h T t -> tidy_typ h T -> (weight t <= weight e)%nat -> denotes tag (put h r (completed n z)) T t).
  2:{ intros T t. now apply (G (weight t)). }
  induction k as [k IH] using lt_wf_ind. intros T t Wk D Ti W. pose proof D as D0.
  destruct D as [k' u c v Bk|k' r' c v n' z' Gt N' Nk' Nz' Kk|U V t Pt Qt Vt Dt|r' n' l t N' Nk' Ns' Ni' Dt|r' n' ps k' t N' Nk' Ni' Nv' Dps Dt|].
  - now apply den_basic.
  - assert (r' <> r) by (intros ->; rewrite N in N'; injection N' as <-; destruct Kk; congruence).
    eapply den_tag; eauto. now rewrite put_other.
  - cbn [weight] in *. assert (V' : type_deref (put h r (completed n z)) U = Ok V).
    { unfold type_deref in *. rewrite Pt in *. cbn [negb] in *. destruct (tp U) eqn:PU; [assumption|]. apply type_handle_other with (n := n); auto.
      unfold is_pointer, type_of in Pt. rewrite PU in Pt. apply tk_eqb_eq in Pt. destruct (Ti Pt) as (_ & m & M & Mk). intro X. rewrite X in M. congruence. }
    apply den_ptr with (T' := V); auto. apply (IH (weight t)); auto; try lia. exact (tidy_next _ Htidy _ _ Ti Pt Vt).
  - assert (r' <> r). { intros ->. pose proof (denotes_det _ _ _ _ D0 _ DR) as X. injection X as -> ->. cbn in W. lia. }
    pose proof (Htidy _ _ N') as TN. unfold tidy_node in TN. rewrite Nk' in TN. cbn [weight] in *.
    eapply den_arr; [rewrite put_other by assumption; exact N'|assumption..|]. apply (IH (weight t)); auto; try lia. tauto.
  - assert (r' <> r) by (intros ->; rewrite N in N'; injection N' as <-; congruence).
    pose proof (Htidy _ _ N') as TN. unfold tidy_node in TN. rewrite Nk' in TN. cbn [weight] in *.
    eapply den_fun; [rewrite put_other by assumption; exact N'|assumption..| |].
    + destruct TN as (_ & _ & _ & _ & _ & TN). clear - IH Dps TN Wk W.
      assert (A : forall x p, In (x, p) ps -> (weight p < k)%nat /\ (weight p <= weight e)%nat).
      { clear - Wk W. revert Wk W. generalize (weight t). intro w. induction ps as [|[y q] ps IHp]; [contradiction|]. cbn. intros Wk W x p [X|X].
        - injection X as <- <-. lia.
        - apply (IHp ltac:(lia) ltac:(lia) _ _ X). }
      clear Wk W. revert A TN. induction Dps as [|m ms x p ps Ex Dp Dps IHd]; intros A TN; [constructor|]. inversion TN; subst. constructor; [reflexivity| |].
      * destruct (A (mname m) p) as [A1 A2]; [now left|]. apply (IH (weight p)); auto.
      * apply IHd; [|assumption]. intros x q I. apply (A x). now right.
    + apply (IH (weight t)); auto; try lia. tauto.
  - apply den_pending.
Qed.

Lemma tidy_completed r n z : node_at h r = Some n -> nkind n = ARRAY -> tidy (put h r (completed n z)).
Proof.
  intros N K. assert (TT : forall T, tidy_typ h T -> tidy_typ (put h r (completed n z)) T).
  { intros T Ti P. destruct (Ti P) as (A & m & M & Mk). split; [assumption|]. exists m. rewrite put_other; [now split|]. intro X. rewrite X in M. congruence. }
  assert (TN : forall m, tidy_node h m -> tidy_node (put h r (completed n z)) m).
  { intros m. unfold tidy_node. destruct (nkind m); try exact (fun X => X).
    - intros (A & B & C & D & E & F & G & H & I). exact (conj A (conj B (conj C (conj D (conj E (conj F (conj G (conj H (TT _ I))))))))).
    - intros (A & B & C & D & E & F). refine (conj A (conj B (conj C (conj D (conj (TT _ E) _))))). apply Forall_impl with (2 := F). auto.
    - intros (A & B & C & D & E & F). exact (conj A (conj B (conj C (conj D (conj E (TT _ F)))))). }
  intros r' n' N'. destruct (Nat.eq_dec r' r) as [->|Ne].
  - rewrite (put_same _ _ _ _ N) in N'. injection N' as <-. pose proof (Htidy _ _ N) as X. apply TN in X. unfold tidy_node in *. cbn [nkind completed]. rewrite K in *. exact X.
  - rewrite put_other in N' by assumption. apply TN. now apply (Htidy r').
Qed.

Lemma regular_formed t : regular t = true -> formed t = true.
Proof. destruct t; try reflexivity. destruct ps; [reflexivity|]. destruct k; cbn; [|reflexivity]. now rewrite andb_false_r. Qed.


(* what the compiler sees of the kinds of types that are treated apart *)
Lemma den_kind T t : denotes tag h T t ->
  (is_function T = match t with TFun _ _ _ => true | _ => false end) /\ (is_array T = match t with TArr _ _ _ => true | _ => false end).
Proof.
  intro D. destruct D as [k u c v B|k r c v n z G N K Z [->| ->]|U V t P Q V' D|r n l t|r n ps k t|]; try (split; reflexivity).
  - unfold is_function, is_array, type_of. cbn. destruct k; try discriminate B; split; reflexivity.
  - unfold is_pointer in P. apply tk_eqb_eq in P. unfold is_function, is_array. rewrite P. split; reflexivity.
Qed.

(* Two declarations of one name: what they come to *)
Definition settled (T1 : typ) (t1 t2 : ty) (h' : heap) (T : typ) (r : ty) : Prop :=
  denotes tag h' T r /\ tidy h' /\ tidy_typ h' T /\ (forall k, k <> ref T1 -> node_at h' k = node_at h k) /\ (knows t1 || knows t2 = true -> knows r = true).

Lemma apply_fun f T1 ps k t T2 ps' k' t' : (S (S (depth (TFun ps k t))) < f)%nat ->
  denotes tag h T1 (TFun ps k t) -> denotes tag h T2 (TFun ps' k' t') -> tidy_typ h T1 -> tidy_typ h T2 -> formed (TFun ps k t) = true ->
  sym_apply_type f h T1 T2 =
    if compat Tight false t t' then
      match k, k' with
      | Unknown, Unknown => Ok (h, T1)
      | Unknown, Proto _ => Ok (h, T2)
      | Proto _, Unknown => Ok (h, T1)
      | Proto _, Proto _ => if compat Tight false (TFun ps k t) (TFun ps' k' t') then Ok (h, T2) else Stop
      end
    else Stop.
Proof.
  intros Df D1 D2 Ti1 Ti2 Fo. destruct (den_kind _ _ D1) as [F1 _], (den_kind _ _ D2) as [F2 _]. unfold sym_apply_type. rewrite F1, F2. cbn [negb].
  inversion D1 as [| | | |r n ps0 k0 t0 N Nk Ni Nv Dps Dt E1 E2|]; subst. inversion D2 as [| | | |r' n' ps0 k0 t0 N' Nk' Ni' Nv' Dps' Dt' E1 E2|]; subst.
  pose proof (Htidy _ _ N) as TN. unfold tidy_node in TN. rewrite Nk in TN. pose proof (Htidy _ _ N') as TN'. unfold tidy_node in TN'. rewrite Nk' in TN'.
  unfold type_next, is_complete, is_pointer, is_function, is_array, type_of. cbn [kind plain tp tk_eqb orb ref]. unfold handle. rewrite N, N'. cbn [bind].
  rewrite (fun X => compatible_ok tag h Hapart Htidy f _ _ _ _ X Dt Dt') by (cbn in Df; try tauto; lia). cbn [bind]. destruct (compat Tight false t t') eqn:C; [|reflexivity]. cbn [negb].
  rewrite Ni, Ni'. destruct k as [|v], k' as [|v']; cbn [negb bind].
  - destruct ps; [|discriminate Fo]. inversion Dps. reflexivity.
  - destruct ps; [|discriminate Fo]. inversion Dps. reflexivity.
  - reflexivity.
  - rewrite (fun X => compatible_ok tag h Hapart Htidy f _ _ _ _ X D1 D2 Ti1 Ti2) by lia. reflexivity.
Qed.

Lemma apply_arr f T1 n1 e1 T2 n2 e2 : (S (S (depth (TArr unqualified n1 e1))) < f)%nat ->
  denotes tag h T1 (TArr unqualified n1 e1) -> denotes tag h T2 (TArr unqualified n2 e2) -> tidy_typ h T1 -> tidy_typ h T2 ->
  exists b, (b = true -> same false e1 e2 = true) /\ (same true e1 e2 = true -> b = true) /\
  sym_apply_type f h T1 T2 =
    if b then
      match n1, n2 with
      | None, None | Some _, None => Ok (h, T1)
      | None, Some z => match node_at h (ref T1) with Some n => Ok (put h (ref T1) (completed n z), T1) | None => Bad end
      | Some _, Some _ => if compat Tight false (TArr unqualified n1 e1) (TArr unqualified n2 e2) then Ok (h, T1) else Stop
      end
    else Stop.
Proof.
  intros Df D1 D2 Ti1 Ti2. destruct (den_kind _ _ D1) as [F1 A1], (den_kind _ _ D2) as [_ A2].
  inversion D1 as [| | |r n l0 t0 N Nk Ns Ni Dt E1 E2| |]; subst. inversion D2 as [| | |r' n' l0 t0 N' Nk' Ns' Ni' Dt' E1 E2| |]; subst.
  pose proof (Htidy _ _ N) as TN. unfold tidy_node in TN. rewrite Nk in TN. pose proof (Htidy _ _ N') as TN'. unfold tidy_node in TN'. rewrite Nk' in TN'.
  destruct (equal_ok tag h Hapart Htidy false f (nnext n) e1 (nnext n') e2) as (b & E & B1 & B2); try tauto; [cbn in Df; lia|]. exists b. split; [exact B1|]. split; [exact B2|].
  unfold sym_apply_type. rewrite F1, A1, A2. cbn [negb].
  unfold type_next, is_complete, is_pointer, is_function, is_array, type_of, type_equal_unqualified. cbn [kind plain tp tk_eqb orb ref]. unfold handle. rewrite N, N'. cbn [bind]. rewrite E. cbn [bind].
  destruct b; [|reflexivity]. cbn [negb]. rewrite Ni, Ni'. destruct n1, n2; cbn [negb bind]; try reflexivity.
  - rewrite (fun X => compatible_ok tag h Hapart Htidy f _ _ _ _ X D1 D2 Ti1 Ti2) by lia. reflexivity.
  - unfold set_array_length, handle, is_array, type_of. cbn [kind plain tp tk_eqb ref]. rewrite N. cbn [bind]. rewrite Ns, Ni, Ns'. reflexivity.
Qed.

(* declarations that C says are compatible are taken, and come to a type that is compatible with both *)
Theorem apply_accepts f T1 t1 T2 t2 : (S (S (depth t1)) < f)%nat -> denotes tag h T1 t1 -> denotes tag h T2 t2 -> tidy_typ h T1 -> tidy_typ h T2 ->
  compatible t1 t2 = true -> regular t1 = true -> regular t2 = true ->
  exists h' T r, sym_apply_type f h T1 T2 = Ok (h', T) /\ settled T1 t1 t2 h' T r /\ compatible r t1 = true /\ compatible r t2 = true.
Proof.
  intros Df D1 D2 Ti1 Ti2 C R1 R2. unfold settled.
  assert (Rf : compatible t1 t1 = true) by apply compat_refl. assert (Rf2 : compatible t2 t2 = true) by apply compat_refl.
  assert (Cs : compatible t2 t1 = true) by (unfold compatible in *; now rewrite compat_sym).
  assert (Other : match t1 with TFun _ _ _ | TArr _ _ _ => False | _ => True end -> exists h' T r, sym_apply_type f h T1 T2 = Ok (h', T) /\ (denotes tag h' T r /\ tidy h' /\ tidy_typ h' T /\ (forall k, k <> ref T1 -> node_at h' k = node_at h k) /\ (knows t1 || knows t2 = true -> knows r = true)) /\ compatible r t1 = true /\ compatible r t2 = true).
  { intros O. destruct (den_kind _ _ D1) as [F1 A1]. exists h, T1, t1. split; [|repeat split; auto; try (now apply Ti1); destruct t1; try contradiction; reflexivity].
    unfold sym_apply_type. replace (is_function T1) with false by (rewrite F1; destruct t1; try contradiction; reflexivity). replace (is_array T1) with false by (rewrite A1; destruct t1; try contradiction; reflexivity).
    rewrite (fun X => compatible_ok tag h Hapart Htidy f _ _ _ _ X D1 D2 Ti1 Ti2) by lia. cbn [bind]. rewrite firm_tight; auto; [destruct t1; try contradiction; assumption|destruct t1, t2; try contradiction; try discriminate C; assumption]. }
  destruct t1 as [| | |q1 n1 e1|ps1 k1 r1|]; try (now apply Other); clear Other; destruct t2 as [| | |q2 n2 e2|ps2 k2 r2|]; try discriminate C.
  - assert (q1 = unqualified) by (inversion D1; reflexivity). assert (q2 = unqualified) by (inversion D2; reflexivity). subst.
    destruct (apply_arr _ _ _ _ _ _ _ Df D1 D2 Ti1 Ti2) as (b & _ & B & ->).
    pose proof C as C'. unfold compatible in C'. cbn in C'. apply andb_true_iff in C' as [C1 C2]. rewrite orb_false_r in C1. cbn [regular] in R1, R2. assert (S : same true e1 e2 = true) by (apply (rigid_same e1 false); auto; discriminate). rewrite (B S).
    destruct n1 as [z1|], n2 as [z2|].
    + cbn [compat lax tight]. rewrite C1. cbn [orb andb]. rewrite same_compat by assumption. exists h, T1, (TArr unqualified (Some z1) e1). repeat split; auto; now apply Ti1.
    + exists h, T1, (TArr unqualified (Some z1) e1). repeat split; auto; now apply Ti1.
    + inversion D1 as [| | |r n l0 t0 N Nk Ns Ni Dt E1 E2| |]; subst. cbn [ref plain]. rewrite N. exists (put h r (completed n z2)), (plain ARRAY false r), (TArr unqualified (Some z2) e1).
      pose proof (Htidy _ _ N) as TN. unfold tidy_node in TN. rewrite Nk in TN.
      split; [reflexivity|]. split; [|split; [|]].
      * split; [|split; [now apply tidy_completed|split; [discriminate|split; [intros k K; now apply put_other|reflexivity]]]].
        apply den_arr with (n := completed n z2); auto; [now apply put_same with (n0 := n)|]. cbn [nnext completed]. eapply den_completed; eauto. tauto.
      * unfold compatible. cbn. apply compat_refl.
      * unfold compatible. cbn. rewrite Z.eqb_refl. exact C2.
    + exists h, T1, (TArr unqualified None e1). repeat split; auto; now apply Ti1.
  - rewrite (apply_fun _ _ _ _ _ _ _ _ _ Df D1 D2 Ti1 Ti2 (regular_formed _ R1)).
    assert (X : compat Tight false r1 r2 = true).
    { unfold compatible in C. rewrite compat_fun in C. cbn [tight] in C. apply andb_true_iff in C as [C1 _]. apply same_compat. apply (rigid_same r1 false); auto; try discriminate.
      - cbn in R1. destruct k1; now apply andb_true_iff in R1.
      - cbn in R2. destruct k2; now apply andb_true_iff in R2. }
    rewrite X. destruct k1 as [|v1], k2 as [|v2].
    + exists h, T1, (TFun ps1 Unknown r1). repeat split; auto; now apply Ti1.
    + exists h, T2, (TFun ps2 (Proto v2) r2). repeat split; auto; now apply Ti2.
    + exists h, T1, (TFun ps1 (Proto v1) r1). repeat split; auto; now apply Ti1.
    + rewrite firm_tight by assumption. exists h, T2, (TFun ps2 (Proto v2) r2). repeat split; auto; now apply Ti2.
Qed.

Theorem apply_settles f T1 t1 T2 t2 : (S (S (depth t1)) < f)%nat -> denotes tag h T1 t1 -> denotes tag h T2 t2 -> tidy_typ h T1 -> tidy_typ h T2 ->
  formed t1 = true -> 
  sym_apply_type f h T1 T2 = Stop \/
  (taken t1 t2 /\ exists h' T r, sym_apply_type f h T1 T2 = Ok (h', T) /\ settled T1 t1 t2 h' T r).
Proof.
  intros Df D1 D2 Ti1 Ti2 Fo. unfold settled, taken.
  destruct t1 as [| | |q1 n1 e1|ps1 k1 r1|] eqn:Et.
  4:{ destruct (den_kind _ _ D1) as [F1 A1], (den_kind _ _ D2) as [F2 A2]. destruct t2 as [| | |q2 n2 e2|ps2 k2 r2|]; try (left; unfold sym_apply_type; now rewrite F1, A1, A2).
    assert (q1 = unqualified) by (inversion D1; reflexivity). assert (q2 = unqualified) by (inversion D2; reflexivity). subst.
    destruct (apply_arr _ _ _ _ _ _ _ Df D1 D2 Ti1 Ti2) as (b & B & _ & ->). destruct b; [|now left]. specialize (B eq_refl).
    destruct n1 as [z1|], n2 as [z2|].
    + destruct (compat Tight false _ _) eqn:C; [|now left]. right. split; [left; now apply tight_loose|]. exists h, T1, (TArr unqualified (Some z1) e1). repeat split; auto; now apply Ti1.
    + right. split; [right; repeat eexists; auto|]. exists h, T1, (TArr unqualified (Some z1) e1). repeat split; auto; now apply Ti1.
    + right. split; [right; repeat eexists; auto|]. inversion D1 as [| | |r n l0 t0 N Nk Ns Ni Dt E1 E2| |]; subst. cbn [ref plain]. rewrite N. exists (put h r (completed n z2)), (plain ARRAY false r), (TArr unqualified (Some z2) e1).
      pose proof (Htidy _ _ N) as TN. unfold tidy_node in TN. rewrite Nk in TN.
      split; [reflexivity|]. split; [|split; [now apply tidy_completed|split; [discriminate|split; [intros k K; now apply put_other|reflexivity]]]].
      apply den_arr with (n := completed n z2); auto; [now apply put_same with (n0 := n)|]. cbn [nnext completed]. eapply den_completed; eauto. tauto.
    + right. split; [right; repeat eexists; auto|]. exists h, T1, (TArr unqualified None e1). repeat split; auto; now apply Ti1. }
  4:{ destruct (den_kind _ _ D1) as [F1 A1], (den_kind _ _ D2) as [F2 A2]. destruct t2 as [| | |q2 n2 e2|ps2 k2 r2|]; try (left; unfold sym_apply_type; now rewrite F1, F2).
    rewrite (apply_fun _ _ _ _ _ _ _ _ _ Df D1 D2 Ti1 Ti2 Fo). destruct (compat Tight false r1 r2) eqn:X; [|now left]. apply tight_loose in X.
    destruct k1 as [|v1], k2 as [|v2].
    + right. split; [left; rewrite compat_fun; cbn [tight lax orb]; now rewrite X|]. exists h, T1, (TFun ps1 Unknown r1). repeat split; auto; now apply Ti1.
    + right. split; [left; rewrite compat_fun; cbn [tight lax orb]; now rewrite X|]. exists h, T2, (TFun ps2 (Proto v2) r2). repeat split; auto; now apply Ti2.
    + right. split; [left; rewrite compat_fun; cbn [tight lax orb]; now rewrite X|]. exists h, T1, (TFun ps1 (Proto v1) r1). repeat split; auto; now apply Ti1.
    + destruct (compat Tight false (TFun _ _ _) _) eqn:C; [|now left]. right. split; [left; now apply tight_loose|]. exists h, T2, (TFun ps2 (Proto v2) r2). repeat split; auto; now apply Ti2. }
  all: destruct (den_kind _ _ D1) as [F1 A1]; unfold sym_apply_type; rewrite F1, A1; rewrite (fun X => compatible_ok tag h Hapart Htidy f _ _ _ _ X D1 D2 Ti1 Ti2) by lia; cbn [bind];
    destruct (compat Tight false _ _) eqn:C; [right|now left]; (split; [left; now apply tight_loose|]); exists h, T1; eexists; split; [reflexivity|]; repeat split; eauto; now apply Ti1.
Qed.
End With.
