(* Lemmas for C27. *)
From Coq Require Import List ZArith Lia Bool.
From Verif Require Import Util TypeModel LayoutModel LayoutSpec LayoutProofs AbiModel AbiSpec.
Import ListNotations.
Open Scope Z_scope.

Definition one (off : Z) (acc : option param_class) (x : tkind * Z) : option param_class :=
  obnd acc (fun pc => flatten pc (LScalar (fst x)) (snd x + off)).
Definition run (off : Z) (L : list (tkind * Z)) (acc : option param_class) : option param_class := fold_left (one off) L acc.
Definition shift (d : Z) (x : tkind * Z) : tkind * Z := (fst x, snd x + d).
Lemma run_none off L : run off L None = None.
Proof. unfold run. induction L as [|x L IH]; [reflexivity|exact IH]. Qed.
Lemma run_shift off d L acc : run off (map (shift d) L) acc = run (d + off) L acc.
Proof.
  unfold run. revert acc. induction L as [|x L IH]; intro acc; [reflexivity|]. cbn [map fold_left]. rewrite IH. f_equal.
  unfold one, shift. cbn [fst snd]. f_equal. rewrite Z.add_assoc. reflexivity.
Qed.
Lemma run_app off a b acc : run off (a ++ b) acc = run off b (run off a acc).
Proof. apply fold_left_app. Qed.

Lemma array_run (pc0 : option param_class) off next sz L (H : forall pc off, flatten pc next off = run off L (Some pc)) is :
  fold_left (fun acc i => obnd acc (fun pc => flatten pc next (Z.of_nat i * sz + off))) is pc0 =
  run off (flat_map (fun i => map (shift (Z.of_nat i * sz)) L) is) pc0.
Proof.
  revert pc0. induction is as [|i is IH]; intro pc0; [reflexivity|]. cbn [fold_left flat_map]. rewrite IH, run_app. f_equal.
  rewrite run_shift. destruct pc0 as [pc|]; cbn [obnd]; [apply H|symmetry; apply run_none].
Qed.

(* the leaves of a type, in order, with their offsets *)
Definition leaves_of (c : ctype) (t : ltype) (L : list (tkind * Z)) : Prop :=
  (forall pc off, flatten pc t off = run off L (Some pc)) /\
  (forall b k o, Leaf c b k o <-> In (k, o - b) L) /\
  (forall k o, In (k, o) L -> 0 < scalar_size k /\ 0 <= o /\ o + scalar_size k <= csize c /\ (scalar_size k | o) /\ (scalar_size k | calign c)).

Lemma in_shift d k o L : In (k, o) (map (shift d) L) <-> In (k, o - d) L.
Proof.
  rewrite in_map_iff. split.
  - intros ((k', o') & E & I). unfold shift in E. cbn in E. injection E as <- <-. replace (o' + d - d) with o' by lia. exact I.
  - intro I. exists (k, o - d). split; [|exact I]. unfold shift. cbn. f_equal. lia.
Qed.
Lemma max_in (f : Z * ctype -> Z) ms x : In x ms -> pow2 (f x) -> Forall (fun m => pow2 (f m)) ms -> (f x | fold_right Z.max 1 (map f ms)).
Proof.
  intros I P F. apply pow2_divide; [exact P| |].
  - clear I P x. induction F as [|m ms H F IH]; cbn; [left; reflexivity|apply pow2_max; assumption].
  - clear P F. induction ms as [|m ms IH]; [destruct I|]. cbn. destruct I as [->|I]; [lia|specialize (IH I); lia].
Qed.

Lemma members_run (ls : list lmember) : forall (xs : list (Z * ctype)) (os : list Z),
  map m_offset ls = os ->
  Forall2 (fun m x => exists L, leaves_of (snd x) (m_type m) L) ls xs ->
  exists L, (forall acc off, fold_left (fun acc m => obnd acc (fun pc => flatten pc (m_type m) (m_offset m + off))) ls acc = run off L acc) /\
    (forall k o, In (k, o) L <-> exists j x p L', nth_error xs j = Some x /\ nth_error os j = Some p /\
        (exists m, nth_error ls j = Some m /\ leaves_of (snd x) (m_type m) L') /\ In (k, o - p) L').
Proof.
  induction ls as [|m ls IH]; intros xs os <- F.
  - inversion F; subst. exists []. split; [reflexivity|]. intros k o. split; [intros []|]. intros (j & x & p & L' & H & _). destruct j; discriminate.
  - inversion F as [|? x ? xs' (L1 & HL1) F']; subst. destruct (IH xs' _ eq_refl F') as (L2 & R2 & I2). clear IH.
    exists (map (shift (m_offset m)) L1 ++ L2). split.
    + intros acc off. cbn [fold_left]. rewrite R2, run_app. f_equal. rewrite run_shift. destruct acc as [pc|]; cbn [obnd]; [apply HL1|symmetry; apply run_none].
    + intros k o. rewrite in_app_iff, in_shift, I2. split.
      * intros [H|(j & y & p & L' & A & B & (m' & C & D) & E)].
        -- exists O, x, (m_offset m), L1. cbn. eauto 10.
        -- exists (S j), y, p, L'. cbn. eauto 10.
      * intros (j & y & p & L' & A & B & (m' & C & D) & E). destruct j as [|j]; cbn in A, B, C.
        -- injection A as <-. injection B as <-. injection C as <-. left.
           destruct D as (_ & D & _). destruct HL1 as (_ & D1 & _). replace (o - m_offset m) with (o - m_offset m - 0) in * by lia. apply D1, D, E.
        -- right. exists j, y, p, L'. eauto 10.
Qed.

Lemma Forall2_right_nth {A B} (R : A -> B -> Prop) l l' : Forall2 R l l' -> forall j y, nth_error l' j = Some y -> exists x, nth_error l j = Some x /\ R x y.
Proof. induction 1 as [|x y l l' H F IH]; intros j z E; destruct j as [|j]; try discriminate; cbn in E; [injection E as <-; exists x; auto|apply IH, E]. Qed.
Lemma placed_unique ms : Forall (fun m => 0 < calign (snd m)) ms -> forall e os e', Placed e ms os e' -> os = offs e ms /\ e' = end_of e ms.
Proof.
  intros F. induction F as [|[n c] ms H F IH]; intros e os e' P; inversion P; subst; [split; reflexivity|].
  cbn [offs snd]. match goal with A : LeastMultiple _ _ _ |- _ => rewrite (least_unique _ _ _ _ A (roundup_least e (calign c) H)) in * end.
  destruct (IH _ _ _ ltac:(eassumption)) as [-> ->]. split; reflexivity.
Qed.
(* where member j is *)
Lemma offs_at ms : Forall (fun m : Z * ctype => pow2 (calign (snd m)) /\ 0 < csize (snd m)) ms -> forall e j x p, 0 <= e ->
  nth_error ms j = Some x -> nth_error (offs e ms) j = Some p -> (calign (snd x) | p) /\ e <= p /\ p + csize (snd x) <= end_of e ms.
Proof.
  induction 1 as [|m ms [P S] F IH]; intros e j x p He A B; [destruct j; discriminate|].
  assert (0 < calign (snd m)) as PA by (unfold pow2 in P; lia).
  destruct (roundup_least e (calign (snd m)) PA) as (D & G & _).
  unfold end_of. cbn [fold_left]. fold (end_of (roundup e (calign (snd m)) + csize (snd m)) ms).
  destruct j as [|j]; cbn in A, B.
  - injection A as <-. injection B as <-. destruct (end_of_bounds ms F (roundup e (calign (snd m)) + csize (snd m)) ltac:(lia)) as [E _]. auto with zarith.
  - destruct (IH (roundup e (calign (snd m)) + csize (snd m)) j x p ltac:(lia) A B) as (X & Y & Z0). repeat split; auto; lia.
Qed.
Lemma offs_length ms : forall e, length (offs e ms) = length ms.
Proof. induction ms as [|m ms IH]; intro e; [reflexivity|]. cbn. rewrite IH. reflexivity. Qed.

Lemma aligns ms : Forall (fun m : Z * ctype => pow2 (calign (snd m)) /\ 0 < csize (snd m)) ms -> Forall (fun m : Z * ctype => 0 < calign (snd m)) ms.
Proof. apply Forall_impl. unfold pow2. intros m [H _]. lia. Qed.
Lemma goods ms (l : list lmember) : Forall2 (fun m x => elab (snd x) = Done (m_type m) /\ good_type (m_type m) (snd x) /\ m_width m = 0 /\ m_foff m = 0 /\ m_back m = 0) l ms ->
  Forall (fun m : Z * ctype => pow2 (calign (snd m)) /\ 0 < csize (snd m)) ms.
Proof. induction 1 as [|m x l ms (_ & (_ & _ & P & _ & S & _) & _) F IH]; constructor; auto. split; [exact P|lia]. Qed.

Lemma leaves_ok c : complete c -> forall t, elab c = Done t -> exists L, leaves_of c t L.
Proof.
  revert c. apply (ctype_ind' (fun c => complete c -> forall t, elab c = Done t -> exists L, leaves_of c t L)).
  - intros k H t E. cbn in E. injection E as <-. exists [(k, 0)]. split; [|split].
    + intros pc off. cbn [run fold_left one obnd fst snd]. unfold run. cbn [fold_left]. unfold one. cbn [obnd fst snd]. rewrite Z.add_0_l. reflexivity.
    + intros b k' o. split.
      * intro X. inversion X; subst. left. f_equal. lia.
      * intros [X|[]]. injection X as <- X. replace o with b by lia. constructor.
    + intros k' o [X|[]]. injection X as <- <-. cbn [complete] in H. cbn [csize calign].
      repeat split; try lia; [apply Z.divide_0_r|apply Z.divide_refl].
  - intros n c IH H t E. destruct (elab_ok _ H) as (t' & E' & (G1 & G2 & _) & _). rewrite E' in E. injection E as <-.
    pose proof H as (Hn & Hc & Hb). destruct (elab_ok _ Hc) as (t1 & E1 & (K1 & K2 & K3 & K4 & K5 & _) & _).
    cbn [elab] in E'. rewrite E1 in E'. cbn [obind] in E'. unfold type_create_array in E'. destruct (LONG_MAX <? _); [discriminate|]. injection E' as <-.
    destruct (IH Hc t1 E1) as (L & A & B & C).
    exists (flat_map (fun i => map (shift (Z.of_nat i * lsize t1)) L) (seq 0 (Z.to_nat n))). split; [|split].
    + intros pc off. cbn [flatten]. rewrite G1. cbn [csize]. rewrite K1, Z.div_mul by lia. rewrite <- K1. apply array_run, A.
    + intros b k o. rewrite in_flat_map. split.
      * intro X. inversion X as [|? ? ? i ? ? R X'| |]; subst. apply B in X'. exists (Z.to_nat i). split; [apply in_seq; lia|].
        apply in_shift. rewrite K1, Z2Nat.id by lia. replace (o - b - i * csize c) with (o - (b + i * csize c)) by lia. exact X'.
      * intros (i & I & X). apply in_seq in I. rewrite in_shift in X. rewrite K1 in X. apply (Leaf_array n c b (Z.of_nat i)); [lia|].
        apply B. replace (o - (b + Z.of_nat i * csize c)) with (o - b - Z.of_nat i * csize c) by lia. exact X.
    + intros k o X. apply in_flat_map in X. destruct X as (i & I & X). apply in_seq in I. rewrite in_shift in X. rewrite K1 in X.
      destruct (C _ _ X) as (C1 & C2 & C3 & C4 & C5). cbn [csize calign].
      split; [exact C1|]. split; [nia|]. split; [nia|]. split; [|exact C5].
      replace o with (o - Z.of_nat i * csize c + Z.of_nat i * csize c) by lia. apply Z.divide_add_r; [exact C4|].
      apply Z.divide_mul_r. eapply Z.divide_trans; eassumption.
  - intros ms IH H t E. destruct (elab_ok _ H) as (t' & E' & (G1 & G2 & G3 & G4 & G5 & G6) & SL & _). rewrite E' in E. injection E as <-.
    destruct (SL ms eq_refl) as (l & EL & LN & LO & LF). pose proof H as (HN & _ & _ & HC & HB). apply fold_and_Forall in HC.
    pose proof (goods _ _ LF) as GD. pose proof (aligns _ GD) as AL.
    destruct (members_run l ms (offs 0 ms) LO) as (L & R & I).
    { clear - IH HC LF. induction LF as [|m x l ms (E & _) F IHF]; constructor.
      - inversion IH; subst. inversion HC; subst. eauto.
      - inversion IH; subst. inversion HC; subst. auto. }
    assert (exists u f s, t' = LAgg u f s l) as (u & f & s & ET).
    { destruct t' as [k| |u f s l']; cbn in EL; try (subst l; inversion LF; subst; contradiction). exists u, f, s. subst l'. reflexivity. }
    exists L. split; [|split].
    + intros pc off. rewrite ET. cbn [flatten]. apply R.
    + intros b k o. rewrite I. split.
      * intro X. inversion X as [| |? os e j n c p ? ? ? P A B X'|]; subst.
        destruct (placed_unique _ AL _ _ _ P) as [-> _].
        destruct (Forall2_right_nth _ _ _ LF _ _ A) as (m & NM & EM & _).
        rewrite Forall_forall in IH, HC. pose proof (nth_error_In _ _ A) as IN. destruct (IH _ IN (HC _ IN) _ EM) as (L' & HL').
        exists j, (n, c), p, L'. split; [exact A|]. split; [exact B|]. split; [eauto|]. destruct HL' as (_ & D & _).
        replace (o - b - p) with (o - (b + p)) by lia. apply D, X'.
      * intros (j & [n c] & p & L' & A & B & (m & C & D) & X). apply (Leaf_struct ms (offs 0 ms) (end_of 0 ms) j n c p); auto; [apply placed_offs, AL|].
        destruct D as (_ & D & _). apply D. replace (o - (b + p)) with (o - b - p) by lia. exact X.
    + intros k o X. apply I in X. destruct X as (j & x & p & L' & A & B & (m & C & D) & X). destruct D as (_ & _ & D).
      destruct (D _ _ X) as (D1 & D2 & D3 & D4 & D5). destruct (offs_at ms GD 0 j x p ltac:(lia) A B) as (O1 & O2 & O3).
      assert (end_of 0 ms <= csize (CStruct ms)) as OE.
      { cbn [csize]. apply (roundup_least (end_of 0 ms)). unfold pow2 in G3. lia. }
      split; [exact D1|]. split; [lia|]. split; [lia|]. split.
      * replace o with (o - p + p) by lia. apply Z.divide_add_r; [exact D4|]. eapply Z.divide_trans; eassumption.
      * eapply Z.divide_trans; [exact D5|]. cbn [calign]. apply (max_in (fun m => calign (snd m))); [eapply nth_error_In; eauto| |].
        -- rewrite Forall_forall in GD. apply GD. eapply nth_error_In; eauto.
        -- eapply Forall_impl; [|exact GD]. intros ? [? _]; assumption.
  - intros ms IH H t E. destruct (elab_ok _ H) as (t' & E' & (G1 & G2 & G3 & G4 & G5 & G6) & _ & SL). rewrite E' in E. injection E as <-.
    destruct (SL ms eq_refl) as (l & EL & LN & LO & LF). pose proof H as (HN & _ & _ & HC & HB). apply fold_and_Forall in HC.
    pose proof (goods _ _ LF) as GD. pose proof (aligns _ GD) as AL.
    destruct (members_run l ms (map m_offset l) eq_refl) as (L & R & I).
    { clear - IH HC LF. induction LF as [|m x l ms (E & _) F IHF]; constructor.
      - inversion IH; subst. inversion HC; subst. eauto.
      - inversion IH; subst. inversion HC; subst. auto. }
    assert (exists u f s, t' = LAgg u f s l) as (u & f & s & ET).
    { destruct t' as [k| |u f s l']; cbn in EL; try (subst l; inversion LF; subst; contradiction). exists u, f, s. subst l'. reflexivity. }
    assert (forall j m p, nth_error l j = Some m -> nth_error (map m_offset l) j = Some p -> p = 0) as Z0.
    { intros j m p A B. rewrite (map_nth_error m_offset _ _ A) in B. injection B as <-. rewrite Forall_forall in LO. apply LO. eapply nth_error_In; eauto. }
    exists L. split; [|split].
    + intros pc off. rewrite ET. cbn [flatten]. apply R.
    + intros b k o. rewrite I. split.
      * intro X. inversion X as [| | |? n c ? ? ? A X']; subst. apply In_nth_error in A. destruct A as [j A].
        destruct (Forall2_right_nth _ _ _ LF _ _ A) as (m & NM & EM & _).
        rewrite Forall_forall in IH, HC. pose proof (nth_error_In _ _ A) as IN. destruct (IH _ IN (HC _ IN) _ EM) as (L' & HL').
        exists j, (n, c), (m_offset m), L'. split; [exact A|]. split; [apply map_nth_error, NM|]. split; [eauto|]. destruct HL' as (_ & D & _).
        rewrite (Z0 _ _ _ NM (map_nth_error m_offset _ _ NM)), Z.sub_0_r. apply D, X'.
      * intros (j & [n c] & p & L' & A & B & (m & C & D) & X). apply (Leaf_union ms n c); [eapply nth_error_In; eauto|].
        destruct D as (_ & D & _). apply D. rewrite (Z0 _ _ _ C B), Z.sub_0_r in X. exact X.
    + intros k o X. apply I in X. destruct X as (j & x & p & L' & A & B & (m & C & D) & X). destruct D as (_ & _ & D).
      rewrite (Z0 _ _ _ C B), Z.sub_0_r in X.
      destruct (D _ _ X) as (D1 & D2 & D3 & D4 & D5).
      assert (csize (snd x) <= csize (CUnion ms)) as OE.
      { cbn [csize]. apply Z.le_trans with (fold_right Z.max 0 (map (fun m => csize (snd m)) ms));
          [|apply (roundup_least (fold_right Z.max 0 (map (fun m => csize (snd m)) ms)) (calign (CUnion ms))); unfold pow2 in G3; lia].
        apply nth_error_In in A. clear - A. induction ms as [|y ms IH]; [destruct A|]. cbn. destruct A as [->|A]; [lia|specialize (IH A); lia]. }
      split; [exact D1|]. split; [lia|]. split; [lia|]. split; [exact D4|].
      eapply Z.divide_trans; [exact D5|]. cbn [calign]. apply (max_in (fun m => calign (snd m))); [eapply nth_error_In; eauto| |].
      * rewrite Forall_forall in GD. apply GD. eapply nth_error_In; eauto.
      * eapply Forall_impl; [|exact GD]. intros ? [? _]; assumption.
Qed.

(* --- folding the classes --- *)
Definition contrib (j : Z) (x : tkind * Z) : list cls :=
  let i := snd x / 8 in
  match fst x with
  | T_FLOAT | T_DOUBLE => if i =? j then [SSE] else []
  | T_LDOUBLE => if i =? j then [X87] else if i + 1 =? j then [X87UP] else []
  | _ => if i =? j then [INTEGER] else []
  end.
Definition contribs (j : Z) (L : list (tkind * Z)) : list cls := flat_map (contrib j) L.
Definition leaf_ok (x : tkind * Z) : Prop := fst x <> T_BOOL /\ 0 < scalar_size (fst x) /\ 0 <= snd x /\ snd x + scalar_size (fst x) <= 32.
Lemma nth_upd (l : list cls) i j x : (i < length l)%nat -> nth j (upd l i x) NO_CLASS = if (i =? j)%nat then x else nth j l NO_CLASS.
Proof.
  intro H. destruct (Nat.eqb_spec i j) as [->|N].
  - apply nth_error_nth, nth_error_upd_same, H.
  - destruct (nth_error l j) as [y|] eqn:E.
    + rewrite (nth_error_nth _ _ _ E). apply nth_error_nth. rewrite nth_error_upd_other; auto.
    + rewrite !nth_overflow; auto; [|rewrite upd_length]; apply nth_error_None; exact E.
Qed.
Lemma mix_ok pc i c : length pc = 4%nat -> 0 <= i < 4 -> exists pc', mix pc i c = Some pc' /\ length pc' = 4%nat /\
  forall j, 0 <= j < 4 -> nth (Z.to_nat j) pc' NO_CLASS = if i =? j then combine (nth (Z.to_nat j) pc NO_CLASS) c else nth (Z.to_nat j) pc NO_CLASS.
Proof.
  intros E B. unfold mix. rewrite (proj2 (Z.leb_le 0 i)), (proj2 (Z.ltb_lt i 4)) by lia. cbn [andb]. eexists. split; [reflexivity|].
  split; [rewrite upd_length; exact E|]. intros j J. rewrite nth_upd by (rewrite E; lia).
  destruct (Z.eqb_spec i j) as [->|N]; [rewrite Nat.eqb_refl; reflexivity|]. rewrite (proj2 (Nat.eqb_neq _ _)) by lia. reflexivity.
Qed.
Lemma run_classes L : Forall leaf_ok L -> forall pc, length pc = 4%nat -> exists pc', run 0 L (Some pc) = Some pc' /\ length pc' = 4%nat /\
  forall j, 0 <= j < 4 -> nth (Z.to_nat j) pc' NO_CLASS = fold_left combine (contribs j L) (nth (Z.to_nat j) pc NO_CLASS).
Proof.
  induction 1 as [|[k o] L (H1 & H2 & H3 & H4) F IH]; intros pc E.
  - exists pc. unfold run. cbn. auto.
  - cbn [fst snd] in *. unfold run. cbn [fold_left]. unfold one at 2. cbn [obnd fst snd]. rewrite Z.add_0_r.
    assert (0 <= o / 8) as B0 by (apply Z.div_pos; lia).
    assert (o / 8 < 4) as B1 by (apply Z.div_lt_upper_bound; lia).
    assert (k = T_LDOUBLE -> o / 8 < 3) as B2. { intros ->. cbn in H4. apply Z.div_lt_upper_bound; lia. }
    assert (exists pc1, flatten pc (LScalar k) o = Some pc1 /\ length pc1 = 4%nat /\
      forall j, 0 <= j < 4 -> nth (Z.to_nat j) pc1 NO_CLASS = fold_left combine (contrib j (k, o)) (nth (Z.to_nat j) pc NO_CLASS)) as (pc1 & E1 & N1 & C1).
    { cbn [flatten]. unfold contrib. cbn [fst snd].
      destruct k; cbn in H2; try lia; try congruence;
        try (destruct (mix_ok pc (o / 8) INTEGER E ltac:(lia)) as (q & -> & N & C); exists q; split; [reflexivity|]; split; [exact N|]; intros j J; rewrite (C j J); destruct (o / 8 =? j); reflexivity);
        try (destruct (mix_ok pc (o / 8) SSE E ltac:(lia)) as (q & -> & N & C); exists q; split; [reflexivity|]; split; [exact N|]; intros j J; rewrite (C j J); destruct (o / 8 =? j); reflexivity).
      specialize (B2 eq_refl). destruct (mix_ok pc (o / 8) X87 E ltac:(lia)) as (q & -> & N & C). cbn [obnd].
      rewrite (proj2 (Z.ltb_lt _ _)) by lia. destruct (mix_ok q (o / 8 + 1) X87UP N ltac:(lia)) as (r & -> & N' & C'). exists r.
      split; [reflexivity|]. split; [exact N'|]. intros j J. rewrite (C' j J), (C j J).
      destruct (Z.eqb_spec (o / 8) j) as [X|X], (Z.eqb_spec (o / 8 + 1) j) as [Y|Y]; try lia; reflexivity. }
    rewrite E1. destruct (IH pc1 N1) as (pc' & E' & N' & C'). exists pc'. split; [exact E'|]. split; [exact N'|].
    intros j J. rewrite (C' j J), (C1 j J). unfold contribs. cbn [flat_map]. rewrite fold_left_app. reflexivity.
Qed.

Lemma combine_inv a b x : (x = X87 \/ x = X87UP \/ x = SSEUP) -> combine a b = x -> (a = x \/ a = NO_CLASS) /\ (b = x \/ b = NO_CLASS).
Proof. intros [->|[->| ->]]; destruct a, b; cbn; intro E; try discriminate; auto. Qed.
Lemma fold_inv x cs : (x = X87 \/ x = X87UP \/ x = SSEUP) -> forall a, fold_left combine cs a = x -> (a = x \/ a = NO_CLASS) /\ Forall (fun c => c = x \/ c = NO_CLASS) cs.
Proof.
  intro HX. induction cs as [|c cs IH]; intros a E; [auto|]. cbn in E. destruct (IH _ E) as [A B].
  assert (combine a c = x \/ (a = NO_CLASS /\ c = NO_CLASS)) as [C|[-> ->]].
  - destruct A as [A|A]; [auto|]. right. destruct a, c; cbn in A; try discriminate; auto.
  - destruct (combine_inv _ _ _ HX C). auto.
  - auto.
Qed.
Lemma fold_memory cs : fold_left combine cs MEMORY = MEMORY.
Proof. induction cs as [|c cs IH]; [reflexivity|]. cbn [fold_left]. replace (combine MEMORY c) with MEMORY by (destruct c; reflexivity). exact IH. Qed.
Lemma fold_plain cs : Forall (fun c => c = INTEGER \/ c = SSE) cs -> forall a, (a = NO_CLASS \/ a = INTEGER \/ a = SSE) ->
  ((In INTEGER cs \/ a = INTEGER) -> fold_left combine cs a = INTEGER) /\
  (~ In INTEGER cs -> a <> INTEGER -> (cs <> [] \/ a = SSE) -> fold_left combine cs a = SSE) /\
  (cs = [] -> fold_left combine cs a = a).
Proof.
  induction 1 as [|c cs H F IH]; intros a A.
  - cbn. repeat split; auto; intros; intuition congruence.
  - cbn [fold_left]. assert (combine a c = NO_CLASS \/ combine a c = INTEGER \/ combine a c = SSE) as A' by (destruct H as [-> | ->], A as [->|[->| ->]]; cbn; auto).
    destruct (IH _ A') as (I1 & I2 & I3). split; [|split].
    + intro X. apply I1. destruct X as [[X|X]|X]; [subst c; right; destruct A as [->|[->| ->]]; reflexivity|auto|subst a; right; destruct H as [->| ->]; reflexivity].
    + intros X Y _. assert (c = SSE) as -> by (destruct H as [->| ->]; [exfalso; apply X; left; reflexivity|reflexivity]).
      apply I2; [intro Q; apply X; right; exact Q| |right]; destruct A as [->|[->| ->]]; cbn; congruence.
    + discriminate.
Qed.
Lemma fold_set (P Q : cls -> Prop) cs : (forall a c, Q a -> P c -> Q (combine a c)) -> Forall P cs -> forall a, Q a -> Q (fold_left combine cs a).
Proof. intros H F. induction F; intros a A; cbn; auto. Qed.
Lemma fold_up cs : Forall (fun c => c = X87UP \/ c = SSE) cs -> In X87UP cs ->
  fold_left combine cs NO_CLASS = X87UP \/ fold_left combine cs NO_CLASS = MEMORY.
Proof.
  intros F I. destruct (in_split _ _ I) as (l1 & l2 & ->). apply Forall_app in F as [F1 F2]. inversion F2 as [|? ? _ F3]; subst.
  rewrite fold_left_app. cbn [fold_left].
  apply (fold_set (fun c => c = X87UP \/ c = SSE) (fun a => a = X87UP \/ a = MEMORY)); [|exact F3|].
  - intros a c [->| ->] [->| ->]; cbn; auto.
  - assert (let a := fold_left combine l1 NO_CLASS in a = NO_CLASS \/ a = SSE \/ a = X87UP \/ a = MEMORY) as G.
    { apply (fold_set (fun c => c = X87UP \/ c = SSE) (fun a => a = NO_CLASS \/ a = SSE \/ a = X87UP \/ a = MEMORY)); [|exact F1|auto].
      intros a c [->|[->|[->| ->]]] [->| ->]; cbn; auto. }
    cbn zeta in G. destruct G as [->|[->|[->| ->]]]; cbn; auto.
Qed.
Lemma fold_all x cs : (x = X87 \/ x = X87UP) -> Forall (eq x) cs -> cs <> [] -> fold_left combine cs NO_CLASS = x.
Proof.
  intros HX F N. destruct cs as [|c cs]; [congruence|]. inversion F; subst. cbn [fold_left].
  replace (combine NO_CLASS c) with c by (destruct HX as [->| ->]; reflexivity).
  apply (fold_set (eq c) (fun a => a = c)); auto. intros a b -> <-. destruct HX as [->| ->]; reflexivity.
Qed.

(* --- contributions --- *)
Lemma in_contribs j L x : In x (contribs j L) <-> exists y, In y L /\ In x (contrib j y).
Proof. unfold contribs. apply in_flat_map. Qed.
Lemma contrib_int k o j : k <> T_BOOL -> 0 < scalar_size k -> (In INTEGER (contrib j (k, o)) <-> integral k /\ o / 8 = j).
Proof.
  intros N H. unfold contrib, integral. cbn [fst snd].
  destruct k; cbn in H; try lia; try congruence; destruct (Z.eqb_spec (o / 8) j); try destruct (o / 8 + 1 =? j); cbn; intuition (try congruence; try discriminate).
Qed.
Lemma contrib_plain k o j c : k <> T_LDOUBLE -> In c (contrib j (k, o)) -> (c = INTEGER \/ c = SSE) /\ o / 8 = j.
Proof.
  intros N I. unfold contrib in I. cbn [fst snd] in I. destruct k; try congruence; destruct (Z.eqb_spec (o / 8) j); cbn in I; intuition (try congruence; try discriminate).
Qed.
Lemma contrib_some k o j : k <> T_LDOUBLE -> o / 8 = j -> contrib j (k, o) <> [].
Proof. intros N E. unfold contrib. cbn [fst snd]. rewrite E, Z.eqb_refl. destruct k; congruence. Qed.
Lemma contrib_sseup k o j : ~ In SSEUP (contrib j (k, o)) /\ ~ In MEMORY (contrib j (k, o)) /\ ~ In NO_CLASS (contrib j (k, o)).
Proof. unfold contrib. cbn [fst snd]. destruct k; destruct (o / 8 =? j); try destruct (o / 8 + 1 =? j); cbn; intuition discriminate. Qed.

(* --- unaligned members --- *)
Lemma unaligned_some ms : (forall m, In m ms -> lsize (m_type m) <> 0) -> exists b, has_unaligned_fields ms = Some b /\
  ((forall m, In m ms -> m_offset m mod lsize (m_type m) = 0) -> b = false).
Proof.
  induction ms as [|m ms IH]; intro H; [exists false; auto|]. cbn [has_unaligned_fields].
  destruct (Z.eqb_spec (lsize (m_type m)) 0) as [E|_]; [exfalso; apply (H m); [left; reflexivity|exact E]|].
  destruct (Z.eqb_spec (m_offset m mod lsize (m_type m)) 0) as [E|E]; cbn [negb].
  - destruct IH as (b & B & C); [intros x X; apply H; right; exact X|]. exists b. split; [exact B|]. intro A. apply C. intros x X. apply A. right. exact X.
  - exists true. split; [reflexivity|]. intro A. exfalso. apply E, A. left. reflexivity.
Qed.

(* --- the scan --- *)
Lemma scan_sseup l : forall prev, snd (scan prev l) = true -> In SSEUP l.
Proof.
  induction l as [|c l IH]; intros prev; cbn [scan]; [discriminate|]. specialize (IH (Some c)). destruct (scan (Some c) l) as [m s]. cbn [snd] in *.
  intro E. destruct c; try destruct prev as [[]|]; cbn in E; try (right; apply IH; exact E); left; reflexivity.
Qed.
Lemma merge_large pc n : 2 < n -> ~ In SSEUP pc -> merge pc n = upd pc 0 MEMORY.
Proof.
  intros N H. unfold merge. pose proof (scan_sseup (firstn (Z.to_nat n) pc) None) as S.
  destruct (scan None (firstn (Z.to_nat n) pc)) as [m s]. cbn [snd] in S.
  replace s with false. 2: { destruct s; [|reflexivity]. exfalso. apply H. specialize (S eq_refl). rewrite <- (firstn_skipn (Z.to_nat n) pc). apply in_or_app. left. exact S. }
  rewrite (proj2 (Z.ltb_lt _ _)) by lia. cbn [negb]. rewrite !orb_true_r. reflexivity.
Qed.

Section Result.
Variables (L : list (tkind * Z)) (s : Z) (pc : param_class).
Hypothesis HL : forall k o, In (k, o) L -> k <> T_BOOL /\ 0 < scalar_size k /\ 0 <= o /\ o + scalar_size k <= s.
Hypothesis Hs : 0 < s <= 32.
Hypothesis Hlen : length pc = 4%nat.
Hypothesis Hpc : forall j, 0 <= j < 4 -> nth (Z.to_nat j) pc NO_CLASS = fold_left combine (contribs j L) NO_CLASS.
Local Notation n := ((s + 7) / 8).
Local Notation l := (classes n (merge pc n)).

Lemma pc_four : exists a b c d, pc = [a; b; c; d].
Proof. destruct pc as [|a [|b [|c [|d [|e r]]]]]; try discriminate Hlen. eauto 6. Qed.
Lemma result_large : 16 < s -> l = [MEMORY].
Proof.
  intro H. rewrite merge_large.
  - destruct pc_four as (a & b & c & d & ->). reflexivity.
  - apply Z.lt_le_trans with 3; [lia|]. apply Z.div_le_lower_bound; lia.
  - intro I. destruct pc_four as (a & b & c & d & E).
    assert (exists j, 0 <= j < 4 /\ fold_left combine (contribs j L) NO_CLASS = SSEUP) as (j & J & F).
    { rewrite E in I. destruct I as [<-|[<-|[<-|[<-|[]]]]];
        [exists 0|exists 1|exists 2|exists 3]; (split; [lia|]; rewrite <- Hpc by lia; rewrite E; reflexivity). }
    destruct (fold_inv SSEUP (contribs j L) ltac:(auto) NO_CLASS F) as [_ G].
    assert (contribs j L = []) as N.
    { destruct (contribs j L) as [|x r] eqn:EC; [reflexivity|]. exfalso. inversion G as [|? ? X _]; subst.
      assert (In x (contribs j L)) as IX by (rewrite EC; left; reflexivity). apply in_contribs in IX. destruct IX as ([k o] & _ & IX).
      destruct (contrib_sseup k o j) as (S1 & _ & S3). destruct X as [-> | ->]; contradiction. }
    rewrite N in F. discriminate F.
Qed.
Lemma eight_small : s <= 16 -> n = 1 /\ s <= 8 \/ n = 2 /\ 8 < s.
Proof.
  intro H. clear - Hs H. destruct (Z_le_gt_dec s 8) as [A|A]; [left|right]; (split; [|lia]).
  - symmetry. apply (Z.div_unique (s + 7) 8 1 (s - 1)); lia.
  - symmetry. apply (Z.div_unique (s + 7) 8 2 (s - 9)); lia.
Qed.
Lemma small_eight k o : s <= 16 -> In (k, o) L -> o / 8 = 0 \/ o / 8 = 1.
Proof.
  intros H I. clear - HL H I. destruct (HL _ _ I) as (_ & A & B & C). destruct (Z_lt_ge_dec o 8).
  - left. apply Z.div_small. lia.
  - right. symmetry. apply (Z.div_unique o 8 1 (o - 8)); lia.
Qed.
Lemma contribs_plain j : (forall o, ~ In (T_LDOUBLE, o) L) -> Forall (fun c => c = INTEGER \/ c = SSE) (contribs j L).
Proof.
  intro N. apply Forall_forall. intros c C. apply in_contribs in C. destruct C as ([k o] & I & C).
  apply (contrib_plain k o j c); [intros ->; apply (N _ I)|exact C].
Qed.
Lemma plain_class j : 0 <= j < 4 -> (forall o, ~ In (T_LDOUBLE, o) L) ->
  let x := nth (Z.to_nat j) pc NO_CLASS in
  (x = NO_CLASS \/ x = INTEGER \/ x = SSE) /\
  ((exists k o, In (k, o) L /\ integral k /\ o / 8 = j) -> x = INTEGER) /\
  (~ (exists k o, In (k, o) L /\ integral k /\ o / 8 = j) -> (exists k o, In (k, o) L /\ o / 8 = j) -> x = SSE) /\
  (~ (exists k o, In (k, o) L /\ o / 8 = j) -> x = NO_CLASS).
Proof.
  intros J N x. unfold x. rewrite (Hpc j J). pose proof (contribs_plain j N) as F. destruct (fold_plain _ F NO_CLASS ltac:(auto)) as (A & B & C).
  assert (In INTEGER (contribs j L) <-> (exists k o, In (k, o) L /\ integral k /\ o / 8 = j)) as EI.
  { rewrite in_contribs. split.
    - intros ([k o] & I & X). destruct (HL _ _ I) as (H1 & H2 & _). apply contrib_int in X; auto. exists k, o. tauto.
    - intros (k & o & I & X). destruct (HL _ _ I) as (H1 & H2 & _). exists (k, o). split; [exact I|]. apply contrib_int; auto. }
  assert (contribs j L <> [] <-> exists k o, In (k, o) L /\ o / 8 = j) as EN.
  { split.
    - intro NE. destruct (contribs j L) as [|c r] eqn:EC; [congruence|]. assert (In c (contribs j L)) as IC by (rewrite EC; left; reflexivity).
      apply in_contribs in IC. destruct IC as ([k o] & I & X). exists k, o. split; [exact I|]. apply (contrib_plain k o j c); [intros ->; apply (N _ I)|exact X].
    - intros (k & o & I & E) NE. assert (forall c, ~ In c (contrib j (k, o))) as NC.
      { intros c IC. assert (In c (contribs j L)) by (apply in_contribs; eauto). rewrite NE in H. exact H. }
      apply (contrib_some k o j); [intros ->; apply (N _ I)|exact E|]. destruct (contrib j (k, o)) as [|c r]; [reflexivity|]. exfalso. apply (NC c). left. reflexivity. }
  split; [|split; [|split]].
  - apply (fold_set (fun c => c = INTEGER \/ c = SSE) (fun a => a = NO_CLASS \/ a = INTEGER \/ a = SSE)); auto.
    intros a c [->|[->| ->]] [->| ->]; cbn; auto.
  - intro X. apply A. left. apply EI, X.
  - intros X Y. apply B; [rewrite EI; exact X|discriminate|left; apply EN, Y].
  - intro X. apply C. destruct (contribs j L) eqn:EC; [reflexivity|]. exfalso. apply X, EN. discriminate.
Qed.
Lemma result_plain : s <= 16 -> (forall o, ~ In (T_LDOUBLE, o) L) ->
  Z.of_nat (length l) = n /\
  forall j x, nth_error l j = Some x ->
    ((exists k o, In (k, o) L /\ integral k /\ o / 8 = Z.of_nat j) -> x = INTEGER) /\
    (~ (exists k o, In (k, o) L /\ integral k /\ o / 8 = Z.of_nat j) -> (exists k o, In (k, o) L /\ o / 8 = Z.of_nat j) -> x = SSE) /\
    (~ (exists k o, In (k, o) L /\ o / 8 = Z.of_nat j) -> x = NO_CLASS).
Proof.
  intros H N. destruct (plain_class 0 ltac:(lia) N) as (A0 & B0). destruct (plain_class 1 ltac:(lia) N) as (A1 & B1).
  destruct pc_four as (a & b & c & d & E). rewrite E in A0, B0, A1, B1. change (Z.to_nat 0) with 0%nat in *. change (Z.to_nat 1) with 1%nat in *. cbn [nth] in A0, B0, A1, B1.
  assert (l = firstn (Z.to_nat n) pc) as EL.
  { rewrite E. destruct (eight_small H) as [[-> _]|[-> _]]; destruct A0 as [->|[->| ->]], A1 as [->|[->| ->]]; reflexivity. }
  rewrite EL, E. split.
  - destruct (eight_small H) as [[-> _]|[-> _]]; reflexivity.
  - intros j x X. destruct (eight_small H) as [[EN _]|[EN _]]; rewrite EN in X; change (Z.to_nat 1) with 1%nat in *; change (Z.to_nat 2) with 2%nat in *.
    + destruct j as [|[|j]]; cbn in X; try discriminate X. injection X as <-. exact B0.
    + destruct j as [|[|[|j]]]; cbn in X; try discriminate X; injection X as <-; assumption.
Qed.
Lemma ld_at o : s <= 16 -> In (T_LDOUBLE, o) L -> o = 0 /\ s = 16.
Proof. intros H I. clear - HL H I. destruct (HL _ _ I) as (_ & _ & A & B). cbn in B. lia. Qed.
Lemma result_ld : s <= 16 -> (exists o, In (T_LDOUBLE, o) L) -> (forall k o, In (k, o) L -> k = T_LDOUBLE) -> l = [X87; X87UP].
Proof.
  intros H (o & I) A. destruct (ld_at _ H I) as [-> E16].
  assert (nth 0 pc NO_CLASS = X87) as P0.
  { change 0%nat with (Z.to_nat 0). rewrite (Hpc 0 ltac:(lia)). apply fold_all; [auto| |].
    - apply Forall_forall. intros c C. apply in_contribs in C. destruct C as ([k o] & I' & C). pose proof (A _ _ I') as EK. subst k. destruct (ld_at _ H I') as [-> _].
      cbn in C. tauto.
    - intro N. assert (In X87 (contribs 0 L)) as X by (apply in_contribs; exists (T_LDOUBLE, 0); cbn; auto). rewrite N in X. destruct X. }
  assert (nth 1 pc NO_CLASS = X87UP) as P1.
  { change 1%nat with (Z.to_nat 1). rewrite (Hpc 1 ltac:(lia)). apply fold_all; [auto| |].
    - apply Forall_forall. intros c C. apply in_contribs in C. destruct C as ([k o] & I' & C). pose proof (A _ _ I') as EK. subst k. destruct (ld_at _ H I') as [-> _].
      cbn in C. tauto.
    - intro N. assert (In X87UP (contribs 1 L)) as X by (apply in_contribs; exists (T_LDOUBLE, 0); cbn; auto). rewrite N in X. destruct X. }
  destruct pc_four as (a & b & c & d & E). rewrite E in P0, P1 |- *. cbn in P0, P1. subst a b. rewrite E16. reflexivity.
Qed.
Lemma result_mixed : s <= 16 -> (exists o, In (T_LDOUBLE, o) L) -> (exists k o, In (k, o) L /\ k <> T_LDOUBLE) ->
  ~ (exists k o, In (k, o) L /\ integral k /\ 8 <= o) -> l = [MEMORY].
Proof.
  intros H (o & I) (k & p & I' & K) NI. destruct (ld_at _ H I) as [-> E16].
  assert (nth 1 pc NO_CLASS = X87UP /\ nth 0 pc NO_CLASS <> X87 \/ nth 1 pc NO_CLASS = MEMORY) as C.
  { change 1%nat with (Z.to_nat 1). change 0%nat with (Z.to_nat 0). rewrite (Hpc 1 ltac:(lia)), (Hpc 0 ltac:(lia)).
    assert (In X87UP (contribs 1 L)) as IX by (apply in_contribs; exists (T_LDOUBLE, 0); cbn; auto).
    destruct (fold_up (contribs 1 L)) as [E|E]; [|exact IX| |auto].
    - apply Forall_forall. intros c C. apply in_contribs in C. destruct C as ([k' o'] & J & C).
      destruct (HL _ _ J) as (J1 & J2 & J3 & J4).
      assert (k' = T_LDOUBLE \/ k' <> T_LDOUBLE) as [->|N] by (destruct k'; auto; right; discriminate).
      + destruct (ld_at _ H J) as [-> _]. cbn in C. intuition.
      + destruct (contrib_plain _ _ _ _ N C) as [[->| ->] E]; [|auto]. exfalso. apply NI. exists k', o'. apply contrib_int in C; auto. split; [exact J|]. split; [tauto|].
        destruct (Z_lt_ge_dec o' 8) as [Q|Q]; [rewrite Z.div_small in E by lia; discriminate E|lia].
    - left. split; [exact E|]. intro E0.
      destruct (fold_inv X87UP _ ltac:(auto) _ E) as [_ F1]. destruct (fold_inv X87 _ ltac:(auto) _ E0) as [_ F0].
      rewrite Forall_forall in F0, F1.
      assert (exists j c, (j = 0 \/ j = 1) /\ In c (contrib j (k, p))) as (j & c & J & C).
      { exists (p / 8). pose proof (contrib_some k p _ K eq_refl) as NE. destruct (contrib (p / 8) (k, p)) as [|c r]; [congruence|]. exists c. split; [apply (small_eight k p H I')|left; reflexivity]. }
      destruct (contrib_plain _ _ _ _ K C) as [X _]. assert (In c (contribs j L)) as IC by (apply in_contribs; eauto).
      destruct J as [->| ->]; [apply F0 in IC|apply F1 in IC]; intuition congruence. }
  destruct pc_four as (a & b & c & d & E). rewrite E in C |- *. cbn in C. rewrite E16.
  change ((16 + 7) / 8) with 2. unfold merge. change (Z.to_nat 2) with 2%nat. cbn [firstn scan].
  destruct C as [[-> N]| ->]; destruct a; cbn; congruence.
Qed.
End Result.

Lemma members_unaligned c t : complete c -> aggregate c -> elab c = Done t -> exists u f s ms b, t = LAgg u f s ms /\ f = false /\
  has_unaligned_fields ms = Some b /\ (size_aligned c -> b = false).
Proof.
  intros H A E. destruct (elab_ok _ H) as (t' & E' & (G1 & G2 & G3 & G4 & G5 & G6) & SS & SU). rewrite E' in E. injection E as <-.
  destruct c as [|? ?|ms|ms]; try destruct A.
  - destruct (SS ms eq_refl) as (l & EL & LN & LO & LF). pose proof (goods _ _ LF) as GD.
    assert (exists u f s, t' = LAgg u f s l) as (u & f & s & ET).
    { destruct t' as [k| |u f s l']; cbn in EL; try (subst l; inversion LF; subst; destruct H as [H _]; congruence). exists u, f, s. subst l'. reflexivity. }
    destruct (unaligned_some l) as (b & B & C).
    { intros m M. clear - LF M. induction LF as [|m' x l ms (_ & (Q & _ & _ & _ & P & _) & _) F IH]; [destruct M|]; destruct M as [->|M]; [lia|apply IH, M]. }
    exists u, f, s, l, b. split; [exact ET|]. split; [rewrite ET in G6; cbn in G6; exact G6|]. split; [exact B|]. intro SA. apply C.
    intros m M. apply In_nth_error in M. destruct M as [j M]. assert (exists x, nth_error ms j = Some x /\ lsize (m_type m) = csize (snd x)) as ([nm c] & X & ES).
    { clear - LF M. revert j M. induction LF as [|m' x l ms (_ & (Q & _) & _) F IH]; intros [|j] M; try discriminate; cbn in *; [injection M as <-; eauto|apply IH, M]. }
    rewrite ES. apply (SA (offs 0 ms) (end_of 0 ms) j nm c (m_offset m)); [apply placed_offs, aligns, GD|exact X|]. rewrite <- LO. apply map_nth_error, M.
  - destruct (SU ms eq_refl) as (l & EL & LN & LO & LF).
    assert (exists u f s, t' = LAgg u f s l) as (u & f & s & ET).
    { destruct t' as [k| |u f s l']; cbn in EL; try (subst l; inversion LF; subst; destruct H as [H _]; congruence). exists u, f, s. subst l'. reflexivity. }
    destruct (unaligned_some l) as (b & B & C).
    { intros m M. clear - LF M. induction LF as [|m' x l ms (_ & (Q & _ & _ & _ & P & _) & _) F IH]; [destruct M|]; destruct M as [->|M]; [lia|apply IH, M]. }
    exists u, f, s, l, b. split; [exact ET|]. split; [rewrite ET in G6; cbn in G6; exact G6|]. split; [exact B|]. intros _. apply C.
    intros m M. rewrite Forall_forall in LO. rewrite (LO _ M). apply Zmod_0_l.
Qed.

Theorem classify_ok c : complete c -> (forall n e, c <> CArray n e) -> (aggregate c -> forall o, ~ Leaf c 0 T_BOOL o) ->
  (csize c <= 16 -> size_aligned c) ->
  exists t pc, elab c = Done t /\ classify t = Some pc /\ Abi c (classes ((csize c + 7) / 8) pc).
Proof.
  intros H NA NB SA. destruct (elab_ok _ H) as (t & E & (G1 & _ & _ & _ & G5 & _) & _). exists t.
  assert (aggregate c \/ exists k, c = CScalar k) as [A|[k ->]] by (destruct c; eauto; [exfalso; eapply NA; reflexivity|left; exact I|left; exact I]).
  2: { cbn in E. injection E as <-. cbn in H. unfold classify, Abi, integral, floating.
    destruct k; cbn in H; try lia; eexists; (split; [reflexivity|]); (split; [reflexivity|]); cbn; intuition (try discriminate; try reflexivity). }
  destruct (members_unaligned c t H A E) as (u & f & s & ms & b & ET & EF & HU & HA).
  assert (0 < csize c) as PS by lia.
  assert (eightbytes t = (csize c + 7) / 8) as EB by (unfold eightbytes; rewrite G1; reflexivity).
  assert (16 < csize c -> exists pc, Some [MEMORY; NO_CLASS; NO_CLASS; NO_CLASS] = Some pc /\ Abi c (classes ((csize c + 7) / 8) pc)) as MEM.
  { intro B. eexists. split; [reflexivity|]. cbn [classes]. destruct c; try destruct A; (split; [reflexivity|lia]). }
  assert (classify t = if (eightbytes t <=? 4) && negb f then
      obnd (has_unaligned_fields ms) (fun u =>
        if u then Some [MEMORY; NO_CLASS; NO_CLASS; NO_CLASS]
        else obnd (flatten [NO_CLASS; NO_CLASS; NO_CLASS; NO_CLASS] t 0) (fun pc => Some (merge pc (eightbytes t))))
      else Some [MEMORY; NO_CLASS; NO_CLASS; NO_CLASS]) as CE by (rewrite ET; reflexivity).
  cut (exists pc, classify t = Some pc /\ Abi c (classes ((csize c + 7) / 8) pc)).
  { intros (pc & X & Y). exists pc. auto. }
  rewrite CE, EF, HU, EB. cbn [negb]. rewrite andb_true_r. destruct (Z.leb_spec ((csize c + 7) / 8) 4) as [LE|GT].
  2: { apply MEM. destruct (Z_lt_ge_dec 16 (csize c)) as [?|Q]; [assumption|]. exfalso. assert ((csize c + 7) / 8 < 4) by (apply Z.div_lt_upper_bound; lia). lia. }
  cbn [obnd]. destruct b.
  { apply MEM. destruct (Z_lt_ge_dec 16 (csize c)) as [?|Q]; [assumption|]. assert (true = false) by (apply HA, SA; lia). discriminate. }
  assert (csize c <= 32) as S32.
  { destruct (Z_le_gt_dec (csize c) 32) as [?|Q]; [assumption|]. assert (5 <= (csize c + 7) / 8) by (apply Z.div_le_lower_bound; lia). lia. }
  destruct (leaves_ok c H t E) as (L & R & I & B).
  assert (forall k o, Leaf c 0 k o <-> In (k, o) L) as I0 by (intros k o; rewrite I, Z.sub_0_r; reflexivity).
  assert (forall k o, In (k, o) L -> k <> T_BOOL /\ 0 < scalar_size k /\ 0 <= o /\ o + scalar_size k <= csize c) as HL.
  { intros k o X. destruct (B _ _ X) as (B1 & B2 & B3 & _). split; [|auto]. intros ->. apply (NB A o), I0, X. }
  destruct (run_classes L) with (pc := [NO_CLASS; NO_CLASS; NO_CLASS; NO_CLASS]) as (pc & RP & LP & CP); [|reflexivity|].
  { apply Forall_forall. intros [k o] X. destruct (HL _ _ X) as (X1 & X2 & X3 & X4). unfold leaf_ok. cbn [fst snd]. repeat split; auto; lia. }
  assert (flatten [NO_CLASS; NO_CLASS; NO_CLASS; NO_CLASS] t 0 = Some pc) as FE by (rewrite R; exact RP).
  rewrite FE. cbn [obnd]. eexists. split; [reflexivity|].
  assert (forall j, 0 <= j < 4 -> nth (Z.to_nat j) pc NO_CLASS = fold_left combine (contribs j L) NO_CLASS) as Hpc.
  { intros j J. rewrite (CP j J). f_equal. assert (j = 0 \/ j = 1 \/ j = 2 \/ j = 3) as [->|[->|[->| ->]]] by lia; reflexivity. }
  pose proof (result_large L (csize c) pc LP Hpc) as R1.
  pose proof (result_plain L (csize c) pc HL (conj PS S32) LP Hpc) as R2.
  pose proof (result_ld L (csize c) pc HL (conj PS S32) LP Hpc) as R3.
  pose proof (result_mixed L (csize c) pc HL (conj PS S32) LP Hpc) as R4.
  assert (forall l,
    (16 < csize c -> l = [MEMORY]) /\
    (csize c <= 16 ->
      ((forall o, ~ Leaf c 0 T_LDOUBLE o) ->
        Z.of_nat (length l) = (csize c + 7) / 8 /\
        forall j x, nth_error l j = Some x ->
          ((exists k o, Leaf c 0 k o /\ integral k /\ o / 8 = Z.of_nat j) -> x = INTEGER) /\
          (~ (exists k o, Leaf c 0 k o /\ integral k /\ o / 8 = Z.of_nat j) ->
             (exists k o, Leaf c 0 k o /\ o / 8 = Z.of_nat j) -> x = SSE) /\
          (~ (exists k o, Leaf c 0 k o /\ o / 8 = Z.of_nat j) -> x = NO_CLASS)) /\
      ((exists o, Leaf c 0 T_LDOUBLE o) -> (forall k o, Leaf c 0 k o -> k = T_LDOUBLE) -> l = [X87; X87UP]) /\
      ((exists o, Leaf c 0 T_LDOUBLE o) -> (exists k o, Leaf c 0 k o /\ k <> T_LDOUBLE) ->
       ~ (exists k o, Leaf c 0 k o /\ integral k /\ 8 <= o) -> l = [MEMORY])) -> Abi c l) as AB.
  { intros l X. destruct c; try destruct A; exact X. }
  apply AB. split; [exact R1|]. intro Small. split; [|split].
  - intro N. destruct R2 as [R2a R2b]; [exact Small|intros o X; apply (N o), I0, X|]. split; [exact R2a|].
    intros j x X. destruct (R2b j x X) as (Q1 & Q2 & Q3). split; [|split].
    + intros (k & o & Y & Z). apply Q1. exists k, o. rewrite <- I0. auto.
    + intros Y (k & o & Z & W). apply Q2; [|exists k, o; rewrite <- I0; auto]. intros (k' & o' & V & U). apply Y. exists k', o'. rewrite I0. auto.
    + intros Y. apply Q3. intros (k' & o' & V & U). apply Y. exists k', o'. rewrite I0. auto.
  - intros (o & X) Y. apply R3; [exact Small|exists o; apply I0, X|]. intros k' o' Z. apply (Y k' o'), I0, Z.
  - intros (o & X) (k' & o' & Y & Z) W. apply R4; [exact Small|exists o; apply I0, X|exists k', o'; split; [apply I0, Y|exact Z]|].
    intros (k2 & o2 & V & U). apply W. exists k2, o2. rewrite I0. auto.
Qed.
