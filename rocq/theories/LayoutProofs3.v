(* Unions with bit-fields. *)
From Coq Require Import List ZArith Lia Bool.
From Verif Require Import TypeModel LayoutModel LayoutSpec LayoutProofs LayoutProofs2.
Import ListNotations.
Open Scope Z_scope.

Definition umember (m : lmember) : Prop := m_offset m = 0 /\ m_foff m = 0 /\ m_name m <> 0 /\
  m_back m = (if m_width m =? 0 then 0 else 8 * lsize (m_type m)).
Definition biggest (ms : list lmember) : Z := fold_right Z.max 0 (map (fun m => lsize (m_type m)) ms).
Definition UInv (t : tree) : Prop := t_flex t = false /\ Forall umember (t_members t) /\ t_size t = biggest (t_members t).

Lemma biggest_nonneg ms : 0 <= biggest ms.
Proof. unfold biggest. induction ms; cbn; lia. Qed.

Lemma decl_size d : decl_ok d -> let s := lsize (snd (fst (declared d))) in 0 < s <= 2 ^ 63 - 1 /\ is_flexible (snd (fst (declared d))) = false /\
  (forall n k w, d = DField n k w -> s = scalar_size k) /\ s <= decl_room d.
Proof.
  destruct d as [n ty|n k w|ty]; cbn [declared fst snd]; intro H; [| |contradiction].
  - destruct H as (_ & c & HC & EC). destruct (elab_ok c HC) as (t & EC' & (G1 & _ & _ & _ & G5 & G6) & _). rewrite EC in EC'. injection EC' as <-.
    cbv zeta. rewrite G1. split; [exact G5|]. split; [exact G6|]. split; [discriminate|]. cbn. rewrite G1. lia.
  - destruct H as [HK _]. destruct (int_kind_size k HK) as (LS & _ & SZ & _). cbv zeta. rewrite LS. change (2 ^ 63 - 1) with 9223372036854775807.
    split; [lia|]. split; [reflexivity|]. split; [intros ? ? ? [= _ <- _]; reflexivity|]. cbn [decl_room]. lia.
Qed.

Lemma uadd t n ty w b : UInv t -> 0 < lsize ty <= 2 ^ 63 - 1 -> is_flexible ty = false -> n <> 0 -> b = (if w =? 0 then 0 else 8 * lsize ty) ->
  let r := add_member true t (mkMember n ty 0 w 0 b) in
  (In n (map m_name (t_members t)) /\ r = Rejected) \/
  (~ In n (map m_name (t_members t)) /\ exists t', r = Done t' /\ UInv t' /\ map sig (t_members t') = (n, ty, w) :: map sig (t_members t)).
Proof.
  intros (U1 & U2 & U3) HS HX HN HB r. destruct (in_dec Z.eq_dec n (map m_name (t_members t))) as [HI|HI].
  - left. split; [exact HI|]. apply add_member_dup; assumption.
  - right. split; [exact HI|]. unfold r. rewrite (add_member_ok2 true t _ (lsize ty)); cbn [m_name m_type m_offset]; try assumption; try reflexivity; try lia; [|right; exact HI].
    eexists. split; [reflexivity|]. split; [|reflexivity]. unfold UInv. cbn [t_flex t_members t_size]. split; [reflexivity|]. split.
    + constructor; [|assumption]. unfold umember. cbn. auto.
    + unfold biggest in *. cbn [map fold_right m_type]. rewrite <- U3. lia.
Qed.

Lemma usigs t : UInv t -> sigs t = map sig (t_members t).
Proof.
  intros (_ & U & _). unfold sigs. induction U as [|m l (_ & _ & N & _) HF IH]; [reflexivity|]. cbn. rewrite (proj2 (Z.eqb_neq _ _) N). cbn. rewrite IH. reflexivity.
Qed.

Lemma unames t : UInv t -> map m_name (t_members t) = snames t.
Proof. intro U. unfold snames. rewrite (usigs t U), map_map. apply map_ext. reflexivity. Qed.

Lemma uadd_decl_ok t d : UInv t -> decl_ok d ->
  (add_decl true t d = Rejected /\ ~ (decl_valid d /\ fresh d t)) \/
  (decl_valid d /\ fresh d t /\ exists t', add_decl true t d = Done t' /\ UInv t' /\
     sigs t' = (if decl_name d =? 0 then [] else [declared d]) ++ sigs t).
Proof.
  intros HI HD. destruct (decl_size d HD) as (DS & DF & DK & _). unfold fresh. fold (snames t). rewrite <- (unames t HI).
  destruct d as [n ty|n k w|ty]; [| |contradiction]; cbn [declared fst snd decl_name decl_valid add_decl] in *.
  - destruct HD as (N0 & _). unfold type_add_member.
    destruct (uadd t n ty 0 0 HI DS DF N0 eq_refl) as [(A & E)|(A & t' & E & I' & S')].
    + left. split; [exact E|]. intros (_ & [X|X]); contradiction.
    + right. split; [exact I|]. split; [right; exact A|]. exists t'. split; [exact E|]. split; [exact I'|].
      rewrite (usigs _ I'), (usigs _ HI), S'. rewrite (proj2 (Z.eqb_neq _ _) N0). reflexivity.
  - destruct HD as (HK & Hw). specialize (DK n k w eq_refl). unfold type_add_field. rewrite DK in *.
    destruct ((scalar_size k * 8 <? w) || (tkind_eqb k T_BOOL && (1 <? w))) eqn:CK.
    { left. split; [reflexivity|]. intros ((V1 & V2 & V3) & _). apply orb_true_iff in CK. rewrite andb_true_iff, !Z.ltb_lt in CK.
      destruct CK as [CK|[CK1 CK2]]; [lia|]. assert (k = T_BOOL) by (destruct k; discriminate || reflexivity). specialize (V2 H). lia. }
    apply orb_false_iff in CK. destruct CK as [CK1 CK2]. apply Z.ltb_ge in CK1.
    assert (VB : k = T_BOOL -> w <= 1). { intros ->. cbn in CK2. apply Z.ltb_ge in CK2. exact CK2. }
    destruct (Z.eqb_spec n 0) as [N0|N0]; cbn [negb andb].
    { right. split; [repeat split; auto; lia|]. split; [left; exact N0|]. exists t. split; [reflexivity|]. split; [exact HI|reflexivity]. }
    destruct (Z.eqb_spec w 0) as [W0|W0]. { left. split; [reflexivity|]. intros ((_ & _ & V3) & _). auto. }
    destruct (uadd t n (LScalar k) w (scalar_size k * 8) HI) as [(A & E)|(A & t' & E & I' & S')].
    { rewrite DK. exact DS. } { exact DF. } { exact N0. } { rewrite (proj2 (Z.eqb_neq w 0) W0), DK. lia. }
    + left. split; [exact E|]. intros (_ & [X|X]); contradiction.
    + right. split; [repeat split; auto; lia|]. split; [right; exact A|]. exists t'. split; [exact E|]. split; [exact I'|].
      rewrite (usigs _ I'), (usigs _ HI), S'. reflexivity.
Qed.

Lemma uadd_decls_ok ds : Forall decl_ok ds -> forall t, UInv t -> NoDup (snames t) ->
  (add_decls true t ds = Rejected /\ ~ (Forall decl_valid ds /\ NoDup (rev (map decl_name (named ds)) ++ snames t))) \/
  (Forall decl_valid ds /\ NoDup (rev (map decl_name (named ds)) ++ snames t) /\
   exists t', add_decls true t ds = Done t' /\ UInv t' /\ sigs t' = rev (map declared (named ds)) ++ sigs t).
Proof.
  induction 1 as [|d ds HD HF IH]; intros t HI HN.
  - right. split; [constructor|]. split; [exact HN|]. exists t. cbn. split; [reflexivity|]. split; [exact HI|reflexivity].
  - cbn [add_decls]. assert (NM : named (d :: ds) = named [d] ++ named ds) by (unfold named; cbn; destruct (decl_name d =? 0); reflexivity).
    assert (SN : forall l, rev (map decl_name (named (d :: ds))) ++ l = rev (map decl_name (named ds)) ++ (map decl_name (named [d])) ++ l).
    { intro l. rewrite NM, map_app, rev_app_distr, <- app_assoc. f_equal. f_equal. unfold named. cbn. destruct (decl_name d =? 0); reflexivity. }
    destruct (uadd_decl_ok t d HI HD) as [[E V]|(V & FR & t1 & E & I1 & G1)].
    + left. rewrite E. split; [reflexivity|]. intros (VA & ND). apply V. inversion VA; subst. split; [assumption|].
      rewrite SN in ND. apply NoDup_tail in ND. unfold fresh. destruct (Z.eq_dec (decl_name d) 0) as [Z0|Z0]; [left; assumption|right].
      unfold named in ND. cbn in ND. rewrite (proj2 (Z.eqb_neq _ _) Z0) in ND. cbn in ND. inversion ND; subst. assumption.
    + rewrite E. cbn [obind]. rewrite sigs_step in G1.
      assert (SN1 : snames t1 = map decl_name (named [d]) ++ snames t).
      { unfold snames. rewrite G1, map_app, map_map. f_equal. apply map_ext. apply declared_name. }
      assert (N1 : NoDup (snames t1)).
      { rewrite SN1. unfold named. cbn. destruct (Z.eqb_spec (decl_name d) 0) as [Z0|Z0]; cbn; [assumption|]. constructor; [|assumption].
        destruct FR; [contradiction|assumption]. }
      destruct (IH t1 I1 N1) as [[E2 V2]|(V2 & ND2 & t' & E2 & I2 & G2)].
      * left. split; [exact E2|]. intros (VA & ND). apply V2. inversion VA; subst. split; [assumption|]. rewrite SN1, <- SN. exact ND.
      * right. split; [constructor; assumption|]. split; [rewrite SN, <- SN1; exact ND2|]. exists t'. split; [exact E2|]. split; [exact I2|].
        rewrite G2, G1, NM, map_app, rev_app_distr, <- app_assoc. f_equal. f_equal.
        unfold named. cbn. destruct (decl_name d =? 0); reflexivity.
Qed.

Lemma max_rev' (l : list Z) : fold_right Z.max 0 (rev l) = fold_right Z.max 0 l.
Proof.
  assert (A : forall l x, fold_right Z.max 0 (l ++ [x]) = Z.max (fold_right Z.max 0 l) (Z.max x 0)).
  { induction l0 as [|y l0 IH]; intro x; cbn; [lia|]. rewrite IH. lia. }
  induction l as [|x l IH]; [reflexivity|]. cbn. rewrite A, IH. assert (0 <= fold_right Z.max 0 l) by (clear; induction l; cbn; lia). lia.
Qed.

Lemma union_decls_ok ds : Forall decl_ok ds -> room ds <= LIM - 64 ->
  (~ ValidDecls ds /\ struct_or_union true ds = Rejected) \/
  (ValidDecls ds /\ exists t, struct_or_union true ds = Done t /\ map sig (members_of t) = map declared (named ds) /\
     Forall (fun m => m_offset m = 0 /\ m_foff m = 0 /\ m_width m <= m_back m /\ m_back m <= 8 * lsize (m_type m)) (members_of t) /\
     exists a, LeastMultiple a (fold_right Z.max 0 (map (fun d => lsize (type_of_decl d)) (named ds))) (lsize t) /\
       a = fold_right Z.max 0 (map (fun d => lalign (type_of_decl d)) (named ds)) /\ lalign t = a).
Proof.
  intros HD HB. assert (I0 : UInv empty_tree) by (repeat split; constructor).
  unfold struct_or_union, ValidDecls. destruct (uadd_decls_ok ds HD empty_tree I0) as [[E V]|(V & ND & t & E & HI & G)]; [constructor| |].
  { left. rewrite E. split; [|reflexivity]. intros (A & B & _). apply V. split; [exact A|]. cbn. rewrite app_nil_r. apply NoDup_rev, B. }
  unfold snames, sigs in ND. cbn in ND. rewrite app_nil_r in ND. apply NoDup_rev in ND. rewrite rev_involutive in ND.
  change (sigs empty_tree) with (@nil (Z * ltype * Z)) in G. rewrite app_nil_r in G. rewrite E. cbn [obind]. unfold type_seal.
  pose proof HI as (U1 & U2 & U3). rewrite (usigs t HI) in G.
  assert (EF : filter (fun m : lmember => negb (m_name m =? 0)) (t_members t) = t_members t).
  { clear - U2. induction U2 as [|m l (_ & _ & N & _) HF IH]; [reflexivity|]. cbn. rewrite (proj2 (Z.eqb_neq _ _) N), IH. reflexivity. }
  rewrite EF.
  assert (ML : forall f : ltype -> Z, fold_right Z.max 0 (map (fun m : lmember => f (m_type m)) (t_members t)) = fold_right Z.max 0 (map (fun d => f (type_of_decl d)) (named ds))).
  { intro f. transitivity (fold_right Z.max 0 (map (fun x : Z * ltype * Z => f (snd (fst x))) (map sig (t_members t)))); [rewrite map_map; reflexivity|].
    rewrite G, map_rev, max_rev', map_map. reflexivity. }
  assert (NP : Forall (fun d => pow2 (lalign (type_of_decl d)) /\ 0 < lsize (type_of_decl d) /\ decl_ok d) (named ds)).
  { rewrite Forall_forall in *. intros d Hd. unfold named in Hd. apply filter_In in Hd. destruct Hd as [Hd _]. specialize (HD d Hd).
    split; [apply decl_align, HD|]. split; [|exact HD]. apply (decl_size d HD). }
  rewrite ML. destruct (named ds) as [|d0 r0] eqn:EN.
  { left. cbn. split; [|reflexivity]. intros (_ & _ & X). congruence. }
  assert (NN : named ds <> []) by (rewrite EN; discriminate). rewrite <- EN in *. clear d0 r0 EN.
  set (a := fold_right Z.max 0 (map (fun d => lalign (type_of_decl d)) (named ds))) in *.
  assert (PA : pow2 a).
  { unfold a. clear - NP NN. induction NP as [|d l (P & _) HF IH]; [congruence|]. cbn. destruct l as [|d' l]; [cbn; unfold pow2 in *; lia|].
    apply pow2_max; [assumption|apply IH; discriminate]. }
  assert (A0 : 0 < a <= 16) by (unfold pow2 in PA; lia). rewrite (proj2 (Z.eqb_neq a 0)) by lia.
  assert (SB : t_size t <= room ds).
  { rewrite U3. unfold biggest. rewrite (ML lsize). clear - HD. unfold room, named. induction HD as [|d ds H HF IH]; cbn; [lia|].
    destruct (decl_size d H) as (_ & _ & _ & B). fold (type_of_decl d) in B. pose proof (room_pos d H).
    pose proof (room_nonneg ds HF) as X. unfold room in X. destruct (decl_name d =? 0); cbn; lia. }
  assert (S0 : 0 <= t_size t) by (rewrite U3; apply biggest_nonneg).
  assert (SZ : (if negb (t_size t mod a =? 0) then szt (t_size t + (a - t_size t mod a)) else t_size t) = roundup (t_size t) a).
  { rewrite (roundup_mod _ a) by lia. destruct (Z.eqb_spec (t_size t mod a) 0); cbn [negb]; [reflexivity|].
    pose proof (Z.mod_pos_bound (t_size t) a ltac:(lia)). apply szt_small. unfold M, LIM in *. lia. }
  rewrite SZ. right. split; [auto|]. eexists. split; [reflexivity|]. cbn [members_of lsize].
  split; [rewrite map_rev, G, rev_involutive; reflexivity|]. split.
  - rewrite Forall_forall in *. intros m Hm. apply in_rev in Hm. destruct (U2 m Hm) as (B1 & B2 & B3 & B4).
    assert (X : In (sig m) (map sig (t_members t))) by (apply in_map, Hm). rewrite G in X. apply in_rev, in_map_iff in X. destruct X as (d & Ed & Hd).
    destruct (NP d Hd) as (_ & NS & HO). unfold type_of_decl in NS. rewrite Ed in NS. cbn [sig fst snd] in NS.
    assert (VD : decl_valid d) by (apply V; unfold named in Hd; apply filter_In in Hd; apply Hd).
    split; [exact B1|]. split; [exact B2|]. rewrite B4. destruct (Z.eqb_spec (m_width m) 0) as [W|W]; [lia|]. split; [|lia].
    destruct d as [n ty|n k w|ty]; unfold sig in Ed; cbn in Ed; injection Ed as E1 E2 E3; [congruence| |contradiction].
    rewrite <- E2, <- E3. cbn [decl_valid] in VD. destruct VD as (VD & _). destruct HO as [HK _]. rewrite (proj1 (int_kind_size k HK)). lia.
  - exists a. split; [|split; [reflexivity|]].
    + rewrite <- (ML lsize). fold (biggest (t_members t)). rewrite <- U3. apply roundup_least. lia.
    + cbn. rewrite map_rev, max_rev'. apply (ML lalign).
Qed.

Lemma Forall2_right {A B} (R : A -> B -> Prop) l l' : Forall2 R l l' -> forall y, In y l' -> exists x, R x y.
Proof. induction 1; intros z Hz; [contradiction|]. destruct Hz as [<-|Hz]; eauto. Qed.

Lemma Placed_ordered e ms os e' : Placed e ms os e' -> Forall (fun x => 0 <= csize (snd x)) ms ->
  e <= e' /\ Forall2 (fun o (x : Z * ctype) => e <= o /\ o + csize (snd x) <= e') os ms /\
  ForallOrdPairs (fun p q : Z * (Z * ctype) => fst p + csize (snd (snd p)) <= fst q) (combine os ms).
Proof.
  induction 1 as [e|e n c o ms os e' (_ & L & _) HP IH]; intro HC; [split; [lia|split; constructor]|].
  inversion HC as [|? ? C0 HC']; subst. cbn in C0. destruct (IH HC') as (I1 & I2 & I3). split; [lia|]. split.
  - constructor; [cbn; lia|]. clear - I2 L C0. induction I2 as [|o' x os ms (A & B) HF IH]; constructor; auto. lia.
  - cbn. constructor; [|exact I3]. clear - I2. induction I2 as [|o' x os ms (A & B) HF IH]; cbn; constructor; auto.
Qed.

Lemma max_least (l : list Z) x : In x l -> x <= fold_right Z.max 0 l.
Proof. induction l as [|y l IH]; [contradiction|]. intros [->|H]; cbn; [lia|]. specialize (IH H). lia. Qed.
