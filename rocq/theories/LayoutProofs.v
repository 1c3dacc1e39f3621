From Coq Require Import List ZArith Lia Bool.
From Verif Require Import TypeModel LayoutModel LayoutSpec.
Import ListNotations.
Open Scope Z_scope.

Lemma roundup_least x a : 0 < a -> LeastMultiple a x (roundup x a).
Proof.
  intro Ha. unfold roundup. pose proof (Z.div_mod (x + a - 1) a ltac:(lia)) as E.
  pose proof (Z.mod_pos_bound (x + a - 1) a Ha) as B. split; [exists ((x + a - 1) / a); reflexivity|]. split; [lia|].
  intros z (q & ->) H. assert ((x + a - 1) / a <= q); [|nia].
  apply Z.lt_succ_r. apply Z.div_lt_upper_bound; lia.
Qed.
Lemma least_unique a x y z : LeastMultiple a x y -> LeastMultiple a x z -> y = z.
Proof. intros (D1 & L1 & M1) (D2 & L2 & M2). specialize (M1 _ D2 L2). specialize (M2 _ D1 L1). lia. Qed.
Lemma roundup_bounds x a : 0 < a -> x <= roundup x a < x + a.
Proof.
  intro Ha. unfold roundup. pose proof (Z.div_mod (x + a - 1) a ltac:(lia)) as E.
  pose proof (Z.mod_pos_bound (x + a - 1) a Ha) as B. lia.
Qed.
Lemma roundup_mod x a : 0 < a -> roundup x a = if x mod a =? 0 then x else x + (a - x mod a).
Proof.
  intro Ha. apply (least_unique a x); [apply roundup_least, Ha|]. pose proof (Z.div_mod x a ltac:(lia)) as E.
  pose proof (Z.mod_pos_bound x a Ha) as B. destruct (Z.eqb_spec (x mod a) 0) as [Z0|N0].
  - split; [exists (x / a); lia|]. split; [lia|]. auto.
  - split; [exists (x / a + 1); lia|]. split; [lia|]. intros z (q & ->) H. assert (x / a < q) by nia. nia.
Qed.
Lemma szt_small x : 0 <= x < M -> szt x = x.
Proof. intro. apply Z.mod_small. assumption. Qed.

(* induction over nested types *)
Lemma ctype_ind' (P : ctype -> Prop) :
  (forall k, P (CScalar k)) -> (forall n c, P c -> P (CArray n c)) ->
  (forall ms, Forall (fun m => P (snd m)) ms -> P (CStruct ms)) ->
  (forall ms, Forall (fun m => P (snd m)) ms -> P (CUnion ms)) -> forall c, P c.
Proof.
  intros HS HA HT HU. fix IH 1. intros [k|n c|ms|ms].
  - apply HS.
  - apply HA, IH.
  - apply HT. induction ms as [|[n c] ms IHm]; constructor; [apply IH|apply IHm].
  - apply HU. induction ms as [|[n c] ms IHm]; constructor; [apply IH|apply IHm].
Qed.

Lemma scalar_size_eq k : size_of (basic k false) = scalar_size k.
Proof. destruct k; reflexivity. Qed.

Definition pow2 (a : Z) : Prop := a = 1 \/ a = 2 \/ a = 4 \/ a = 8 \/ a = 16.
Lemma pow2_max a b : pow2 a -> pow2 b -> pow2 (Z.max a b).
Proof. unfold pow2. intros; lia. Qed.
Lemma pow2_divide a b : pow2 a -> pow2 b -> a <= b -> (a | b).
Proof.
  unfold pow2. intros Ha Hb H.
  destruct Ha as [->|[->|[->|[->| ->]]]], Hb as [->|[->|[->|[->| ->]]]]; try lia;
  match goal with |- (?a | ?b) => exists (b / a); reflexivity end.
Qed.

Definition good_type (t : ltype) (c : ctype) : Prop :=
  lsize t = csize c /\ lalign t = calign c /\ pow2 (calign c) /\ (calign c | csize c) /\
  0 < csize c <= 2 ^ 63 - 1 /\ is_flexible t = false.

Lemma fold_and_Forall {A} (P : A -> Prop) l : fold_right and True (map P l) <-> Forall P l.
Proof.
  induction l as [|x l IH]; cbn; split; intros H; auto.
  - destruct H as [H1 H2]. constructor; [exact H1|apply IH, H2].
  - inversion H; subst. split; [assumption|apply IH; assumption].
Qed.

Definition total (ms : list (Z * ctype)) : Z := fold_right Z.add 0 (map (fun m => csize (snd m) + calign (snd m)) ms).

Definition corr (m : Z * ctype) (d : decl) : Prop := exists t, d = DMember (fst m) t /\ elab (snd m) = Done t /\ good_type t (snd m).

Lemma elab_members ms : Forall (fun m => exists t, elab (snd m) = Done t /\ good_type t (snd m)) ms ->
  exists ds, fold_right (fun m acc => obind (elab (snd m)) (fun t => obind acc (fun l => Done (DMember (fst m) t :: l)))) (Done []) ms = Done ds
   /\ Forall2 corr ms ds.
Proof.
  induction 1 as [|m ms (t & E & G) HF (ds & IH & C)]; [exists []; split; [reflexivity|constructor]|].
  exists (DMember (fst m) t :: ds). cbn. rewrite IH, E. cbn. split; [reflexivity|].
  constructor; [exists t; auto|assumption].
Qed.

(* tree without fields *)
Definition plain (t : tree) : Prop := t_flex t = false /\ Forall (fun m => m_back m = 0 /\ m_width m = 0) (t_members t).

Lemma adjust_plain t ty a : plain t -> lalign ty = a -> 0 < a <= 16 -> 0 <= t_size t -> t_size t + a < M ->
  adjust_member_alignment t ty = (mkTree (roundup (t_size t) a) false (t_members t), roundup (t_size t) a).
Proof.
  intros [HF HM] HA Ha Hs Hb. unfold adjust_member_alignment.
  assert (E : reclaim t = t).
  { unfold reclaim. destruct (t_members t) as [|mb r]; [reflexivity|]. inversion HM as [|x y (B & _) _]; subst. rewrite B. reflexivity. }
  rewrite E. rewrite HA, HF. cbv zeta. rewrite (roundup_mod _ _ (proj1 Ha)).
  destruct (Z.eqb_spec (t_size t mod a) 0); cbn [negb]; [reflexivity|].
  pose proof (Z.mod_pos_bound (t_size t) a ltac:(lia)). rewrite szt_small by lia. reflexivity.
Qed.

Lemma existsb_notin (ms : list lmember) n : ~ In n (map m_name ms) -> existsb (fun x => m_name x =? n) ms = false.
Proof.
  induction ms as [|m ms IH]; cbn; intro H; [reflexivity|]. rewrite (proj2 (Z.eqb_neq _ _)) by tauto. apply IH. tauto.
Qed.

Lemma add_member_ok u t m s : t_flex t = false -> ~ In (m_name m) (map m_name (t_members t)) ->
  lsize (m_type m) = s -> 0 < s -> is_flexible (m_type m) = false -> 0 <= m_offset m -> m_offset m + s <= 2 ^ 63 - 1 ->
  add_member u t m = Done (mkTree (Z.max (t_size t) (m_offset m + s)) false (m :: t_members t)).
Proof.
  intros HF HN HS Hs HX Ho Hb. unfold add_member. rewrite (existsb_notin _ _ HN), andb_false_r, HS.
  rewrite (proj2 (Z.eqb_neq s 0)) by lia. cbn [obind]. rewrite HX, HF. cbn [obind].
  unfold LONG_MAX. change (2 ^ 63) with 9223372036854775808 in Hb. rewrite szt_small by (unfold M; lia). rewrite (proj2 (Z.ltb_ge _ _)) by lia.
  rewrite szt_small by (unfold M; lia). cbv zeta.
  destruct (Z.ltb_spec (t_size t) (m_offset m + s)); [rewrite Z.max_r by lia|rewrite Z.max_l by lia]; reflexivity.
Qed.

Definition end_of (e : Z) (ms : list (Z * ctype)) : Z := fold_left (fun e m => roundup e (calign (snd m)) + csize (snd m)) ms e.
Fixpoint offs (e : Z) (ms : list (Z * ctype)) : list Z :=
  match ms with [] => [] | m :: r => roundup e (calign (snd m)) :: offs (roundup e (calign (snd m)) + csize (snd m)) r end.

Lemma placed_offs ms : Forall (fun m => 0 < calign (snd m)) ms -> forall e, Placed e ms (offs e ms) (end_of e ms).
Proof.
  induction 1 as [|[n c] ms H HF IH]; intro e; [constructor|]. cbn. constructor; [apply roundup_least, H|apply IH].
Qed.

Definition made (m : lmember) (d : decl) (o : Z) : Prop :=
  exists n t, d = DMember n t /\ m = mkMember n t o 0 0 0.

Lemma struct_loop ms ds : Forall2 corr ms ds -> forall t, plain t -> 0 <= t_size t -> t_size t + total ms <= 2 ^ 63 - 1 ->
  NoDup (map fst ms) -> (forall n, In n (map fst ms) -> ~ In n (map m_name (t_members t))) ->
  exists l, add_decls false t ds = Done (mkTree (end_of (t_size t) ms) false (rev l ++ t_members t)) /\
    map m_name l = map fst ms /\ map m_offset l = offs (t_size t) ms /\
    Forall2 (fun m x => elab (snd x) = Done (m_type m) /\ good_type (m_type m) (snd x) /\ m_width m = 0 /\ m_foff m = 0 /\ m_back m = 0) l ms.
Proof.
  induction 1 as [|m d ms ds (ty & -> & EL & G) HF IH]; intros t HP H0 HB HN HD.
  - exists []. cbn. destruct t as [s f mm]. destruct HP as [HP _]. cbn in HP. subst f. repeat split; constructor.
  - destruct G as (G1 & G2 & G3 & G4 & G5 & G6).
    unfold total in HB. cbn [map fold_right] in HB. fold (total ms) in HB.
    assert (A : 0 < calign (snd m) <= 16) by (unfold pow2 in G3; lia).
    assert (TP : 0 <= total ms).
    { clear - HF. unfold total. induction HF as [|x d ms ds (t' & _ & _ & (_ & _ & P & _ & S & _)) HF IH]; cbn; [lia|]. unfold pow2 in P. lia. }
    cbn [add_decls add_decl]. unfold type_add_member.
    change (2 ^ 63 - 1) with 9223372036854775807 in *.
    rewrite (adjust_plain t ty (calign (snd m)) HP G2 A H0) by (unfold M; lia).
    pose proof (roundup_bounds (t_size t) (calign (snd m)) ltac:(lia)) as RB.
    rewrite (add_member_ok false _ _ (csize (snd m))); cbn [t_flex t_members t_size m_name m_type m_offset]; auto; try lia.
    2: { apply HD. left. reflexivity. }
    cbn [obind]. inversion HN; subst.
    destruct (IH (mkTree (roundup (t_size t) (calign (snd m)) + csize (snd m)) false (mkMember (fst m) ty (roundup (t_size t) (calign (snd m))) 0 0 0 :: t_members t))) as (l & EA & LN & LO & LF).
    + split; [reflexivity|]. cbn. constructor; [auto|apply HP].
    + cbn. lia.
    + cbn [t_size]. lia.
    + assumption.
    + cbn. intros n Hn [X|X]; [subst n; contradiction|]. apply (HD n); [right; assumption|assumption].
    + rewrite Z.max_r by lia. exists (mkMember (fst m) ty (roundup (t_size t) (calign (snd m))) 0 0 0 :: l).
      rewrite EA. cbn. rewrite <- app_assoc. cbn. repeat split; auto.
      * rewrite LN. reflexivity.
      * cbn [t_size] in LO. rewrite LO. reflexivity.
      * constructor; [|assumption]. cbn. unfold good_type. auto 12.
Qed.

Lemma end_of_bounds ms : Forall (fun m => pow2 (calign (snd m)) /\ 0 < csize (snd m)) ms -> forall e, 0 <= e ->
  e <= end_of e ms <= e + total ms /\ (ms <> [] -> 0 < end_of e ms).
Proof.
  unfold total. induction 1 as [|m ms [P S] HF IH]; intros e He; cbn; [split; [lia|congruence]|].
  assert (A : 0 < calign (snd m)) by (unfold pow2 in P; lia). pose proof (roundup_bounds e _ A).
  specialize (IH (roundup e (calign (snd m)) + csize (snd m)) ltac:(lia)). destruct IH as [IH _].
  unfold end_of in *. split; [lia|intros _; lia].
Qed.

Lemma filter_named (l : list lmember) : ~ In 0 (map m_name l) -> filter (fun m => negb (m_name m =? 0)) l = l.
Proof.
  induction l as [|m l IH]; cbn; intro H; [reflexivity|]. rewrite (proj2 (Z.eqb_neq _ _)) by tauto. cbn. f_equal. apply IH. tauto.
Qed.

Lemma max_app l1 l2 : fold_right Z.max 0 (l1 ++ l2) = Z.max (fold_right Z.max 0 l1) (fold_right Z.max 0 l2).
Proof. induction l1; cbn; [|rewrite IHl1; lia]. assert (0 <= fold_right Z.max 0 l2) by (clear; induction l2; cbn; lia). lia. Qed.
Lemma max_rev l : fold_right Z.max 0 (rev l) = fold_right Z.max 0 l.
Proof. induction l; cbn; [reflexivity|]. rewrite max_app. cbn. rewrite IHl. assert (0 <= fold_right Z.max 0 l) by (clear; induction l; cbn; lia). lia. Qed.

Lemma max_pow2 ms : ms <> [] -> Forall (fun m : Z * ctype => pow2 (calign (snd m))) ms ->
  pow2 (fold_right Z.max 1 (map (fun m => calign (snd m)) ms)) /\
  fold_right Z.max 0 (map (fun m => calign (snd m)) ms) = fold_right Z.max 1 (map (fun m => calign (snd m)) ms).
Proof.
  intros HN HF. destruct ms as [|m ms]; [congruence|]. clear HN. revert m HF.
  induction ms as [|m' ms IH]; intros m HF; inversion HF; subst.
  - cbn. unfold pow2 in *. lia.
  - destruct (IH m' H2) as [P E]. split; [apply pow2_max; assumption|]. cbn in *. rewrite E. reflexivity.
Qed.

Lemma aligns_eq l (ms : list (Z * ctype)) :
  Forall2 (fun m x => elab (snd x) = Done (m_type m) /\ good_type (m_type m) (snd x) /\ m_width m = 0 /\ m_foff m = 0 /\ m_back m = 0) l ms ->
  map (fun m : lmember => lalign (m_type m)) l = map (fun m => calign (snd m)) ms.
Proof. induction 1 as [|m x l ms (_ & (_ & G & _) & _) HF IH]; cbn; [reflexivity|]. rewrite G, IH. reflexivity. Qed.

Lemma seal_ok u s l (ms : list (Z * ctype)) : ms <> [] ->
  Forall2 (fun m x => elab (snd x) = Done (m_type m) /\ good_type (m_type m) (snd x) /\ m_width m = 0 /\ m_foff m = 0 /\ m_back m = 0) l ms ->
  map m_name l = map fst ms -> ~ In 0 (map fst ms) -> 0 <= s <= 2 ^ 63 - 32 ->
  let a := fold_right Z.max 1 (map (fun m => calign (snd m)) ms) in
  type_seal u (mkTree s false (rev l)) = Done (LAgg u false (roundup s a) l) /\ pow2 a /\ lalign (LAgg u false (roundup s a) l) = a.
Proof.
  intros HN HF HM H0 Hs a.
  assert (P : Forall (fun m : Z * ctype => pow2 (calign (snd m))) ms).
  { clear - HF. induction HF as [|m x l ms (_ & (_ & _ & G & _) & _) HF IH]; constructor; auto. }
  destruct (max_pow2 ms HN P) as [PA EA]. fold a in PA, EA.
  assert (LA : fold_right Z.max 0 (map (fun m : lmember => lalign (m_type m)) l) = a) by (rewrite (aligns_eq _ _ HF); exact EA).
  unfold type_seal. cbn [t_members t_size t_flex]. rewrite filter_named.
  2: { rewrite map_rev, <- in_rev, HM. exact H0. }
  rewrite map_rev, max_rev, LA, rev_involutive. rewrite (proj2 (Z.eqb_neq a 0)) by (unfold pow2 in PA; lia).
  split; [|split; [exact PA|cbn; exact LA]]. rewrite (roundup_mod s a) by (unfold pow2 in PA; lia). cbv zeta.
  destruct (Z.eqb_spec (s mod a) 0); cbn [negb]; [reflexivity|].
  pose proof (Z.mod_pos_bound s a ltac:(unfold pow2 in PA; lia)). change (2 ^ 63 - 32) with 9223372036854775776 in Hs.
  rewrite szt_small; [reflexivity|]. unfold M, pow2 in *. lia.
Qed.

(* unions *)
Lemma union_loop ms ds : Forall2 corr ms ds -> forall t, plain t -> 0 <= t_size t ->
  NoDup (map fst ms) -> (forall n, In n (map fst ms) -> ~ In n (map m_name (t_members t))) ->
  exists l, add_decls true t ds = Done (mkTree (Z.max (t_size t) (fold_right Z.max 0 (map (fun m => csize (snd m)) ms))) false (rev l ++ t_members t)) /\
    map m_name l = map fst ms /\ Forall (fun m => m_offset m = 0) l /\
    Forall2 (fun m x => elab (snd x) = Done (m_type m) /\ good_type (m_type m) (snd x) /\ m_width m = 0 /\ m_foff m = 0 /\ m_back m = 0) l ms.
Proof.
  induction 1 as [|m d ms ds (ty & -> & EL & G) HF IH]; intros t HP H0 HN HD.
  - exists []. cbn. destruct t as [s f mm]. destruct HP as [HP _]. cbn in *. subst f. rewrite Z.max_l by lia. repeat split; constructor.
  - destruct G as (G1 & G2 & G3 & G4 & G5 & G6). cbn [add_decls add_decl]. unfold type_add_member.
    rewrite (add_member_ok true _ _ (csize (snd m))); cbn [t_flex t_members t_size m_name m_type m_offset]; auto; try lia.
    2: { apply HP. } 2: { apply HD. left. reflexivity. }
    cbn [obind]. inversion HN; subst.
    destruct (IH (mkTree (Z.max (t_size t) (0 + csize (snd m))) false (mkMember (fst m) ty 0 0 0 0 :: t_members t))) as (l & EA & LN & LO & LF).
    + split; [reflexivity|]. cbn. constructor; [auto|apply HP].
    + cbn. lia.
    + assumption.
    + cbn. intros n Hn [X|X]; [subst n; contradiction|]. apply (HD n); [right; assumption|assumption].
    + exists (mkMember (fst m) ty 0 0 0 0 :: l). rewrite EA. cbn [t_size t_members map fold_right rev]. rewrite <- app_assoc. cbn [app].
      split; [f_equal; f_equal; lia|]. cbn. rewrite LN. repeat split; auto.
      constructor; [|assumption]. cbn. unfold good_type. auto 12.
Qed.

Lemma max_csize_bounds ms : Forall (fun m : Z * ctype => pow2 (calign (snd m)) /\ 0 < csize (snd m)) ms ->
  0 <= fold_right Z.max 0 (map (fun m => csize (snd m)) ms) <= total ms /\ (ms <> [] -> 0 < fold_right Z.max 0 (map (fun m => csize (snd m)) ms)).
Proof.
  unfold total. induction 1 as [|m ms [P S] HF [IH _]]; cbn; [split; [lia|congruence]|]. unfold pow2 in P. split; [lia|intros _; lia].
Qed.

Lemma roundup_good s a : pow2 a -> 0 < s <= 2 ^ 63 - 32 -> (a | roundup s a) /\ 0 < roundup s a <= 2 ^ 63 - 1.
Proof.
  intros P Hs. assert (0 < a <= 16) by (unfold pow2 in P; lia). pose proof (roundup_bounds s a ltac:(lia)).
  split; [apply (roundup_least s a ltac:(lia))|]. change (2 ^ 63 - 32) with 9223372036854775776 in Hs. change (2 ^ 63 - 1) with 9223372036854775807. lia.
Qed.

Definition struct_layout (u : bool) (ms : list (Z * ctype)) (t : ltype) : Prop :=
  exists l, members_of t = l /\ map m_name l = map fst ms /\
    (if u then Forall (fun m => m_offset m = 0) l else map m_offset l = offs 0 ms) /\
    Forall2 (fun m x => elab (snd x) = Done (m_type m) /\ good_type (m_type m) (snd x) /\ m_width m = 0 /\ m_foff m = 0 /\ m_back m = 0) l ms.

Lemma elab_ok : forall c, complete c -> exists t, elab c = Done t /\ good_type t c /\
  (forall ms, c = CStruct ms -> struct_layout false ms t) /\ (forall ms, c = CUnion ms -> struct_layout true ms t).
Proof.
  apply (ctype_ind' (fun c => complete c -> exists t, elab c = Done t /\ good_type t c /\
    (forall ms, c = CStruct ms -> struct_layout false ms t) /\ (forall ms, c = CUnion ms -> struct_layout true ms t))).
  - intros k H. exists (LScalar k). split; [reflexivity|]. split; [|split; discriminate]. cbn in H.
    unfold good_type. cbn. rewrite scalar_size_eq. split; [reflexivity|]. split; [reflexivity|].
    split; [destruct k; cbn in *; unfold pow2; lia|]. split; [exists 1; lia|]. split; [|reflexivity]. destruct k; cbn in *; lia.
  - intros n c IH (Hn & Hc & Hb). destruct (IH Hc) as (t & E & (G1 & G2 & G3 & G4 & G5 & G6) & _).
    assert (EA : szt (n * lsize t) = n * csize c).
    { rewrite G1. apply szt_small. unfold M. change (2 ^ 63 - 1) with 9223372036854775807 in Hb. nia. }
    exists (LArray n t). cbn. rewrite E. cbn. unfold type_create_array, LONG_MAX. rewrite EA.
    change (2 ^ 63 - 1) with 9223372036854775807 in Hb. rewrite (proj2 (Z.ltb_ge _ _)) by lia.
    split; [reflexivity|]. split; [|split; discriminate]. unfold good_type. cbn. rewrite EA.
    repeat split; auto; try nia. apply Z.divide_mul_r, G4.
  - intros ms IH (HN & HD & H0 & HC & HB). apply fold_and_Forall in HC.
    assert (HE : Forall (fun m => exists t, elab (snd m) = Done t /\ good_type t (snd m)) ms).
    { rewrite Forall_forall in *. intros m Hm. destruct (IH m Hm (HC m Hm)) as (t & E & G & _). eauto. }
    assert (HP : Forall (fun m : Z * ctype => pow2 (calign (snd m)) /\ 0 < csize (snd m)) ms).
    { apply (Forall_impl _) with (2 := HE). intros m (t & _ & (_ & _ & P & _ & S & _)). split; [exact P|lia]. }
    destruct (elab_members ms HE) as (ds & EF & C). fold (total ms) in HB.
    destruct (struct_loop ms ds C empty_tree) as (l & EA & LN & LO & LF); auto.
    { split; [reflexivity|constructor]. } { cbn. lia. } { cbn [t_size empty_tree]. lia. }
    cbn [t_size t_members empty_tree] in *. rewrite app_nil_r in EA.
    destruct (end_of_bounds ms HP 0 ltac:(lia)) as [B1 B2]. specialize (B2 HN).
    destruct (seal_ok false (end_of 0 ms) l ms HN LF LN H0 ltac:(lia)) as (ES & PA & AL).
    set (a := fold_right Z.max 1 (map (fun m => calign (snd m)) ms)) in *.
    exists (LAgg false false (roundup (end_of 0 ms) a) l). cbn [elab]. rewrite EF. cbn [obind]. unfold struct_or_union. rewrite EA. cbn [obind].
    rewrite ES. split; [reflexivity|]. destruct (roundup_good (end_of 0 ms) a PA ltac:(lia)) as [D S]. split; [|split].
    + unfold good_type. cbn [lsize csize calign is_flexible]. fold a. unfold end_of in *. auto 10.
    + intros ms' E'. injection E' as <-. exists l. auto.
    + discriminate.
  - intros ms IH (HN & HD & H0 & HC & HB). apply fold_and_Forall in HC.
    assert (HE : Forall (fun m => exists t, elab (snd m) = Done t /\ good_type t (snd m)) ms).
    { rewrite Forall_forall in *. intros m Hm. destruct (IH m Hm (HC m Hm)) as (t & E & G & _). eauto. }
    assert (HP : Forall (fun m : Z * ctype => pow2 (calign (snd m)) /\ 0 < csize (snd m)) ms).
    { apply (Forall_impl _) with (2 := HE). intros m (t & _ & (_ & _ & P & _ & S & _)). split; [exact P|lia]. }
    destruct (elab_members ms HE) as (ds & EF & C). fold (total ms) in HB.
    destruct (union_loop ms ds C empty_tree) as (l & EA & LN & LO & LF); auto.
    { split; [reflexivity|constructor]. } { cbn. lia. }
    cbn [t_size t_members empty_tree] in *. rewrite app_nil_r in EA.
    destruct (max_csize_bounds ms HP) as [B1 B2]. specialize (B2 HN). rewrite Z.max_r in EA by lia.
    set (e := fold_right Z.max 0 (map (fun m => csize (snd m)) ms)) in *.
    destruct (seal_ok true e l ms HN LF LN H0 ltac:(lia)) as (ES & PA & AL).
    set (a := fold_right Z.max 1 (map (fun m => calign (snd m)) ms)) in *.
    exists (LAgg true false (roundup e a) l). cbn [elab]. rewrite EF. cbn [obind]. unfold struct_or_union. rewrite EA. cbn [obind].
    rewrite ES. split; [reflexivity|]. destruct (roundup_good e a PA ltac:(lia)) as [D S]. split; [|split].
    + unfold good_type. cbn [lsize csize calign is_flexible]. fold a e. auto 10.
    + discriminate.
    + intros ms' E'. injection E' as <-. exists l. auto.
Qed.
