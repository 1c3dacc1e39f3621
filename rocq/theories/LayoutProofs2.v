(* Bit-field layout: an invariant of the tree under construction. *)
From Coq Require Import List ZArith Lia Bool.
From Verif Require Import TypeModel LayoutModel LayoutSpec LayoutProofs.
Import ListNotations.
Open Scope Z_scope.

Definition LIM := 9223372036854775776. (* 2^63 - 32 *)

(* bytes of the storage of a member *)
Definition ub (m : lmember) : Z := if m_width m =? 0 then lsize (m_type m) else m_back m / 8.
Definition good (s : Z) (m : lmember) : Prop :=
  0 <= m_offset m /\ m_offset m + ub m <= s /\ 0 < ub m /\
  ((m_width m = 0 /\ m_back m = 0 /\ m_foff m = 0 /\ m_offset m mod lalign (m_type m) = 0) \/
   (0 < m_width m /\ 0 <= m_foff m /\ m_foff m + m_width m <= m_back m /\ (8 | m_back m))).
Definition after (m m' : lmember) : Prop :=
  m_offset m' + ub m' <= m_offset m \/
  (m_width m <> 0 /\ m_width m' <> 0 /\ m_offset m' = m_offset m /\ m_back m' = m_back m /\ m_foff m' + m_width m' <= m_foff m).
Definition std (b : Z) : Prop := b = 8 \/ b = 16 \/ b = 32 \/ b = 64.
Definition last_ok (ms : list lmember) : Prop := match ms with m :: _ => m_width m <> 0 -> std (m_back m) | [] => True end.
Definition Inv (t : tree) : Prop :=
  t_flex t = false /\ 0 <= t_size t /\ Forall (good (t_size t)) (t_members t) /\ ForallOrdPairs after (t_members t) /\ last_ok (t_members t).

Lemma good_mono s s' m : s <= s' -> good s m -> good s' m.
Proof. unfold good. intuition lia. Qed.

Definition setb (off b : Z) (m : lmember) : lmember :=
  if m_offset m =? off then mkMember (m_name m) (m_type m) (m_offset m) (m_width m) (m_foff m) b else m.

Lemma sig_setb off b m : sig (setb off b m) = sig m.
Proof. unfold setb. destruct (_ =? _); reflexivity. Qed.
Lemma name_setb off b m : m_name (setb off b m) = m_name m.
Proof. unfold setb. destruct (_ =? _); reflexivity. Qed.

(* members of the group of the head *)
Lemma tail_cases s h r m : Forall (good s) (h :: r) -> ForallOrdPairs after (h :: r) -> m_width h <> 0 -> In m (h :: r) ->
  (m_offset m = m_offset h /\ m_width m <> 0 /\ m_back m = m_back h /\ m_foff m + m_width m <= m_foff h + m_width h) \/
  (m_offset m <> m_offset h /\ m_offset m + ub m <= m_offset h).
Proof.
  intros HG HP Hw [<-|Hm]; [left; repeat split; auto; lia|].
  inversion HP as [|x l HA HP']; subst. rewrite Forall_forall in HA. specialize (HA m Hm).
  rewrite Forall_forall in HG. pose proof (HG m (or_intror Hm)) as (_ & _ & P & _). pose proof (HG h (or_introl eq_refl)) as (_ & _ & _ & [(X & _)|(W & _)]); [congruence|].
  destruct HA as [A|(A1 & A2 & A3 & A4 & A5)]; [right; lia|left; repeat split; auto; lia].
Qed.

Lemma shrink_skip off d s ms : Forall (good s) ms -> ForallOrdPairs after ms -> (forall m, In m ms -> m_offset m < off) ->
  shrink off d ms = ms /\ (forall b, map (setb off b) ms = ms) /\ forall b, widen off b ms = ms.
Proof.
  intros HG HP HL. assert (E : forall b l, (forall m, In m l -> m_offset m < off) -> map (setb off b) l = l).
  { intros b l Hl. induction l as [|m l IH]; [reflexivity|]. cbn. rewrite IH by (intros; apply Hl; right; assumption). f_equal. unfold setb.
    rewrite (proj2 (Z.eqb_neq _ _)); [reflexivity|]. specialize (Hl m (or_introl eq_refl)). lia. }
  split; [|split; [intro b; apply E, HL|intro b]]; (destruct ms as [|m ms]; [reflexivity|]; cbn; specialize (HL m (or_introl eq_refl));
  rewrite (proj2 (Z.eqb_neq (m_offset m) off)) by lia); rewrite ?andb_false_r; reflexivity.
Qed.

Lemma group_map off d B s ms : Forall (good s) ms -> ForallOrdPairs after ms ->
  (forall m, In m ms -> (m_offset m = off /\ m_width m <> 0 /\ m_back m = B) \/ m_offset m < off) ->
  shrink off d ms = map (setb off (B - d)) ms /\ forall b, widen off b ms = map (setb off b) ms.
Proof.
  intros HG HP HC. induction ms as [|m ms IH]; [split; reflexivity|].
  destruct (HC m (or_introl eq_refl)) as [(E & W & EB)|L].
  - inversion HG; inversion HP; subst. destruct IH as [I1 I2]; auto. { intros; apply HC; right; assumption. }
    assert (S1 : forall b, setb (m_offset m) b m = mkMember (m_name m) (m_type m) (m_offset m) (m_width m) (m_foff m) b) by (intro b; unfold setb; rewrite Z.eqb_refl; reflexivity).
    cbn [shrink widen map]. rewrite S1, Z.eqb_refl, (proj2 (Z.eqb_neq _ _) W). cbn [negb andb].
    split; [rewrite I1; reflexivity|intro b; rewrite I2, S1; reflexivity].
  - assert (HL : forall x, In x (m :: ms) -> m_offset x < off).
    { intros x [<-|Hx]; [exact L|]. inversion HP as [|a l HA HP']; subst. rewrite Forall_forall in HA. specialize (HA x Hx).
      rewrite Forall_forall in HG. pose proof (HG x (or_intror Hx)) as (_ & _ & P & _).
      destruct HA as [A|(_ & _ & A & _)]; lia. }
    destruct (shrink_skip off d s (m :: ms) HG HP HL) as (A & B' & C). rewrite A. split; [symmetry; apply B'|intro b; rewrite C; symmetry; apply B'].
Qed.

Lemma regroup s s' h r b : Forall (good s) (h :: r) -> ForallOrdPairs after (h :: r) -> m_width h <> 0 ->
  m_foff h + m_width h <= b -> (8 | b) -> m_offset h + b / 8 <= s' ->
  Forall (good s') (map (setb (m_offset h) b) (h :: r)) /\ ForallOrdPairs after (map (setb (m_offset h) b) (h :: r)).
Proof.
  intros HG HP Hw Hb H8 Hs.
  assert (Hp : 0 < b / 8).
  { destruct H8 as (q & ->). rewrite Z.div_mul by lia. inversion HG as [|? ? (_ & _ & _ & [(X & _)|(W & F & _)]) _]; subst; [congruence|]. lia. }
  pose proof (tail_cases s h r) as TC.
  assert (UB : forall m, m_width m <> 0 -> m_offset m = m_offset h -> ub (setb (m_offset h) b m) = b / 8).
  { intros m W E. unfold setb, ub. rewrite E, Z.eqb_refl. cbn. rewrite (proj2 (Z.eqb_neq _ _) W). reflexivity. }
  split.
  - rewrite Forall_forall. intros x Hx. apply in_map_iff in Hx. destruct Hx as (m & <- & Hm).
    rewrite Forall_forall in HG. pose proof (HG m Hm) as (G1 & G2 & G3 & G4). rewrite <- Forall_forall in HG.
    destruct (TC m HG HP Hw Hm) as [(E1 & E2 & E3 & E4)|(E1 & E2)].
    + unfold good. rewrite (UB m E2 E1). unfold setb. rewrite E1, Z.eqb_refl. cbn.
      destruct G4 as [(X & _)|(W & F & _)]; [congruence|]. repeat split; try lia. right. repeat split; auto; lia.
    + unfold setb. rewrite (proj2 (Z.eqb_neq _ _) E1). unfold good. repeat split; auto; lia.
  - assert (GEN : forall l, (forall m, In m l -> In m (h :: r)) -> ForallOrdPairs after l -> ForallOrdPairs after (map (setb (m_offset h) b) l)).
    { induction l as [|m l IH]; intros HI HL; [constructor|]. inversion HL as [|a l' HA HL']; subst. cbn. constructor; [|apply IH; auto; intros; apply HI; right; assumption].
      rewrite Forall_forall. intros x Hx. apply in_map_iff in Hx. destruct Hx as (m' & <- & Hm').
      rewrite Forall_forall in HA. specialize (HA m' Hm').
      pose proof (HI m (or_introl eq_refl)) as I1. pose proof (HI m' (or_intror Hm')) as I2.
      rewrite Forall_forall in HG. pose proof (HG m I1) as (Gm1 & _ & Gm3 & _). pose proof (HG m' I2) as (Gn1 & _ & Gn3 & _). rewrite <- Forall_forall in HG.
      destruct (TC m HG HP Hw I1) as [(E1 & E2 & E3 & E4)|(E1 & E2)], (TC m' HG HP Hw I2) as [(F1 & F2 & F3 & F4)|(F1 & F2)].
      - right. unfold setb. rewrite E1, F1, Z.eqb_refl. cbn. destruct HA as [A|A]; [exfalso; lia|]. intuition lia.
      - left. replace (setb (m_offset h) b m') with m' by (unfold setb; rewrite (proj2 (Z.eqb_neq _ _) F1); reflexivity).
        unfold setb. rewrite E1, Z.eqb_refl. cbn. lia.
      - exfalso. destruct HA as [A|A]; lia.
      - replace (setb (m_offset h) b m') with m' by (unfold setb; rewrite (proj2 (Z.eqb_neq _ _) F1); reflexivity).
        replace (setb (m_offset h) b m) with m by (unfold setb; rewrite (proj2 (Z.eqb_neq _ _) E1); reflexivity). exact HA. }
    apply GEN; auto.
Qed.

Lemma group_of_head s h r : Forall (good s) (h :: r) -> ForallOrdPairs after (h :: r) -> m_width h <> 0 -> forall d,
  shrink (m_offset h) d (h :: r) = map (setb (m_offset h) (m_back h - d)) (h :: r) /\
  forall b, widen (m_offset h) b (h :: r) = map (setb (m_offset h) b) (h :: r).
Proof.
  intros HG HP Hw d. apply (group_map (m_offset h) d (m_back h) s); auto. intros m Hm.
  destruct (tail_cases s h r m HG HP Hw Hm) as [(A & B & C & _)|(A & B)]; [left; auto|right].
  rewrite Forall_forall in HG. pose proof (HG m Hm) as (_ & _ & P & _). lia.
Qed.

(* the tree after reclaim: still fine, except that the last backing need not be standard *)
Definition Inv0 (t : tree) : Prop := t_flex t = false /\ 0 <= t_size t /\ Forall (good (t_size t)) (t_members t) /\ ForallOrdPairs after (t_members t).
Definition same_sigs (t t' : tree) : Prop := map sig (t_members t') = map sig (t_members t).

Lemma reclaim_ok t : Inv t -> t_size t <= LIM + 128 -> Inv0 (reclaim t) /\ t_size (reclaim t) <= t_size t /\ same_sigs t (reclaim t) /\
  (match t_members t with [] => True | m :: _ => m_width m = 0 end -> reclaim t = t).
Proof.
  intros (HF & H0 & HG & HP & HL) HB. unfold reclaim, same_sigs.
  destruct (t_members t) as [|h r] eqn:EM; [rewrite EM; unfold Inv0; rewrite EM; repeat split; auto; lia|].
  assert (SELF : Inv0 t /\ t_size t <= t_size t /\ map sig (t_members t) = map sig (h :: r) /\ (m_width h = 0 -> t = t)).
  { unfold Inv0. rewrite EM. repeat split; auto; lia. }
  inversion HG as [|x l (G1 & G2 & G3 & G4) HG']; subst.
  destruct (Z.eqb_spec (m_back h) 0) as [B0|B0]; cbn [negb]; [exact SELF|].
  destruct G4 as [(_ & X & _)|(W & F & U & D)]; [congruence|].
  set (bytes := (m_back h - (m_foff h + m_width h)) ÷ 8).
  assert (BY : 0 <= bytes /\ 8 * bytes <= m_back h - (m_foff h + m_width h)).
  { unfold bytes. rewrite Z.quot_div_nonneg by lia. split; [apply Z.div_pos; lia|]. apply Z.mul_div_le. lia. }
  destruct (Z.eqb_spec bytes 0) as [E0|N0]; cbn [negb]; [exact SELF|].
  assert (UH : ub h = m_back h / 8) by (unfold ub; rewrite (proj2 (Z.eqb_neq (m_width h) 0)) by lia; reflexivity).
  destruct D as (q & Dq). assert (Q : m_back h / 8 = q) by (rewrite Dq, Z.div_mul by lia; reflexivity).
  destruct (regroup (t_size t) (t_size t - bytes) h r (m_back h - bytes * 8)) as [R1 R2]; auto; try lia.
  { exists (q - bytes). lia. }
  { replace (m_back h - bytes * 8) with ((q - bytes) * 8) by lia. rewrite Z.div_mul by lia. lia. }
  cbn [t_size t_members t_flex].
  destruct (group_of_head (t_size t) h r HG HP ltac:(lia) (bytes * 8)) as [E1 _]. rewrite E1.
  assert (SZ : szt (t_size t - bytes) = t_size t - bytes) by (apply szt_small; unfold M, LIM in *; lia).
  rewrite SZ. split; [|split; [lia|split; [rewrite map_map; apply map_ext; intro; apply sig_setb|lia]]].
  unfold Inv0. cbn [t_size t_members t_flex]. repeat split; auto. lia.
Qed.

Lemma adjust_ok t ty a : Inv t -> lalign ty = a -> 0 < a <= 16 -> t_size t <= LIM + 64 ->
  exists t' o, adjust_member_alignment t ty = (t', o) /\ Inv0 t' /\ t_size t' = o /\ o <= t_size t + 15 /\ (o mod a = 0) /\ same_sigs t t' /\
   (match t_members t with [] => True | m :: _ => m_width m = 0 end -> t_members t' = t_members t /\ t_size t <= o).
Proof.
  intros HI HA Ha HB. unfold adjust_member_alignment. rewrite HA.
  destruct (reclaim_ok t HI ltac:(lia)) as ((R1 & R2 & R3 & R4) & RS & RG & RE).
  set (t1 := reclaim t) in *.
  assert (SZ : (if negb (t_size t1 mod a =? 0) then szt (t_size t1 + (a - t_size t1 mod a)) else t_size t1) = roundup (t_size t1) a).
  { rewrite (roundup_mod _ a) by lia. destruct (Z.eqb_spec (t_size t1 mod a) 0); cbn [negb]; [reflexivity|].
    pose proof (Z.mod_pos_bound (t_size t1) a ltac:(lia)). apply szt_small. unfold M, LIM in *. lia. }
  rewrite SZ. pose proof (roundup_bounds (t_size t1) a ltac:(lia)) as RB.
  eexists _, _. split; [reflexivity|]. cbn [t_size t_members]. split; [|split; [reflexivity|split; [lia|split; [|split]]]].
  - split; [exact R1|]. cbn. split; [lia|]. split; [|exact R4]. eapply Forall_impl; [|exact R3]. intros m. apply good_mono. lia.
  - unfold roundup. apply Z.mod_mul. lia.
  - exact RG.
  - intro X. specialize (RE X). cbn. rewrite RE in *. split; [reflexivity|lia].
Qed.

Lemma add_member_ok2 u t m s : t_flex t = false -> m_name m = 0 \/ ~ In (m_name m) (map m_name (t_members t)) ->
  lsize (m_type m) = s -> 0 < s -> is_flexible (m_type m) = false -> 0 <= m_offset m -> m_offset m + s <= 2 ^ 63 - 1 ->
  add_member u t m = Done (mkTree (Z.max (t_size t) (m_offset m + s)) false (m :: t_members t)).
Proof.
  intros HF HN HS Hs HX Ho Hb. destruct HN as [HN|HN]; [|apply add_member_ok; assumption].
  unfold add_member. rewrite HN. cbn [Z.eqb negb andb]. rewrite HS.
  rewrite (proj2 (Z.eqb_neq s 0)) by lia. cbn [obind]. rewrite HX, HF. cbn [obind].
  unfold LONG_MAX. change (2 ^ 63) with 9223372036854775808 in Hb. rewrite szt_small by (unfold M; lia). rewrite (proj2 (Z.ltb_ge _ _)) by lia.
  rewrite szt_small by (unfold M; lia). cbv zeta.
  destruct (Z.ltb_spec (t_size t) (m_offset m + s)); [rewrite Z.max_r by lia|rewrite Z.max_l by lia]; reflexivity.
Qed.

Lemma add_member_dup u t m : m_name m <> 0 -> In (m_name m) (map m_name (t_members t)) -> add_member u t m = Rejected.
Proof.
  intros HN HI. unfold add_member. rewrite (proj2 (Z.eqb_neq _ _) HN). cbn [negb andb].
  rewrite (proj2 (existsb_exists _ _)); [reflexivity|]. apply in_map_iff in HI. destruct HI as (x & E & Hx). exists x. split; [exact Hx|]. apply Z.eqb_eq, E.
Qed.

Lemma names_sigs t t' : same_sigs t t' -> map m_name (t_members t') = map m_name (t_members t).
Proof.
  intro H. unfold same_sigs in H. assert (E : forall l : list lmember, map m_name l = map (fun x => fst (fst x)) (map sig l)) by (intro l; rewrite map_map; apply map_ext; reflexivity).
  rewrite (E (t_members t')), H. symmetry. apply E.
Qed.

(* one step: either the name is a duplicate, or the member is added *)
Definition step_ok (t : tree) (r : out tree) (room : Z) (x : Z * ltype * Z) : Prop :=
  (fst (fst x) <> 0 /\ In (fst (fst x)) (map m_name (t_members t)) /\ r = Rejected) \/
  ((fst (fst x) = 0 \/ ~ In (fst (fst x)) (map m_name (t_members t))) /\
   exists t', r = Done t' /\ Inv t' /\ t_size t' <= t_size t + room /\ map sig (t_members t') = x :: map sig (t_members t)).

Lemma add_at_end t n ty s o : Inv0 t -> lsize ty = s -> 0 < s <= 2 ^ 63 - 1 -> is_flexible ty = false -> t_size t = o -> o + s <= LIM ->
  forall w b f, (w = 0 /\ b = 0 /\ f = 0 /\ o mod lalign ty = 0) \/ (0 < w /\ w <= b /\ b = 8 * s /\ std b /\ f = 0) ->
  let m := mkMember n ty o w f b in
  (n <> 0 /\ In n (map m_name (t_members t)) /\ add_member false t m = Rejected) \/
  ((n = 0 \/ ~ In n (map m_name (t_members t))) /\
   exists t', add_member false t m = Done t' /\ Inv t' /\ t_size t' = o + s /\ t_members t' = m :: t_members t).
Proof.
  intros (I1 & I2 & I3 & I4) HS Hs HX <- HB w b f HW m.
  assert (UB : ub m = s).
  { unfold ub, m. cbn [m_width m_type m_back]. destruct HW as [(-> & _)|(W & _ & -> & _)]; [exact HS|].
    rewrite (proj2 (Z.eqb_neq w 0)) by lia. rewrite Z.mul_comm, Z.div_mul by lia. reflexivity. }
  assert (OK : n = 0 \/ ~ In n (map m_name (t_members t)) ->
     exists t', add_member false t m = Done t' /\ Inv t' /\ t_size t' = t_size t + s /\ t_members t' = m :: t_members t).
  { intro HN. rewrite (add_member_ok2 false t m s I1 HN HS ltac:(lia) HX I2)
      by (cbn [m m_offset]; unfold LIM in HB; change (2 ^ 63) with 9223372036854775808; lia).
    eexists. split; [reflexivity|]. cbn [m m_offset t_size t_members]. rewrite Z.max_r by lia. split; [|split; reflexivity].
    unfold Inv. cbn [t_size t_members t_flex]. split; [reflexivity|]. split; [lia|]. split; [|split].
    - constructor; [|eapply Forall_impl; [|exact I3]; intro x; apply good_mono; lia].
      unfold good. fold m. rewrite UB. cbn [m m_offset m_width m_back m_foff]. split; [lia|]. split; [lia|]. split; [lia|].
      destruct HW as [(-> & -> & -> & AL)|(W1 & W2 & W3 & W4 & ->)]; [left; auto|right]. split; [lia|]. split; [lia|]. split; [lia|]. exists s. lia.
    - constructor; [|exact I4]. eapply Forall_impl; [|exact I3]. intros x (X1 & X2 & _). left. exact X2.
    - cbn. intro W. destruct HW as [(-> & _)|(_ & _ & _ & S & _)]; [congruence|exact S]. }
  destruct (Z.eq_dec n 0) as [N0|N0]; [right; auto|]. destruct (in_dec Z.eq_dec n (map m_name (t_members t))) as [HI|HI]; [|right; auto].
  left. split; [exact N0|]. split; [exact HI|]. apply add_member_dup; assumption.
Qed.

Lemma int_kind_size k : int_kind k -> lsize (LScalar k) = scalar_size k /\ lalign (LScalar k) = scalar_size k /\
  (scalar_size k = 1 \/ scalar_size k = 2 \/ scalar_size k = 4 \/ scalar_size k = 8) /\ std (8 * scalar_size k).
Proof. unfold std. intros [->|[->|[->|[->| ->]]]]; cbn; repeat split; lia. Qed.

Lemma add_bits_ok t n k w : Inv t -> int_kind k -> 0 < w -> w <= 8 * scalar_size k -> (k = T_BOOL -> w <= 1) -> t_size t + 32 <= LIM ->
  step_ok t (add_field_bits t n k w) 24 (n, LScalar k, w) /\
  forall t', add_field_bits t n k w = Done t' -> t_size t <= t_size t' + 8.
Proof.
  intros HI HK Hw HW HBo HB. destruct (int_kind_size k HK) as (LS & LA & SZ & ST). unfold add_field_bits. rewrite LS.
  assert (CK : (scalar_size k * 8 <? w) || (tkind_eqb k T_BOOL && (1 <? w)) = false).
  { rewrite (proj2 (Z.ltb_ge _ _)) by lia. cbn. destruct (tkind_eqb k T_BOOL) eqn:EB; [|reflexivity]. cbn.
    apply Z.ltb_ge. apply HBo. destruct k; discriminate || reflexivity. }
  rewrite CK. cbv zeta.
  assert (DEF : forall (P : out tree -> Prop),
     (forall t1 o, adjust_member_alignment t (LScalar k) = (t1, o) -> P (add_member false t1 (mkMember n (LScalar k) o w 0 (scalar_size k * 8)))) ->
     P (let '(t0, m) := let '(t0, off) := adjust_member_alignment t (LScalar k) in (t0, mkMember n (LScalar k) off w 0 (scalar_size k * 8)) in add_member false t0 m)).
  { intros P H. destruct (adjust_member_alignment t (LScalar k)) as [t1 o] eqn:E. apply H. reflexivity. }
  assert (NOPACK : forall r, r = (let '(t0, m) := let '(t0, off) := adjust_member_alignment t (LScalar k) in (t0, mkMember n (LScalar k) off w 0 (scalar_size k * 8)) in add_member false t0 m) ->
     step_ok t r 24 (n, LScalar k, w) /\ forall t', r = Done t' -> t_size t <= t_size t' + 8).
  { intros r ->. destruct (adjust_ok t (LScalar k) (scalar_size k) HI LA ltac:(lia) ltac:(lia)) as (t1 & o & EA & I1 & S1 & S2 & _ & SG & _).
    assert (PS : 0 < scalar_size k <= 2 ^ 63 - 1) by (change (2 ^ 63 - 1) with 9223372036854775807; lia).
    assert (PW : (w = 0 /\ scalar_size k * 8 = 0 /\ 0 = 0 /\ o mod lalign (LScalar k) = 0) \/ (0 < w /\ w <= scalar_size k * 8 /\ scalar_size k * 8 = 8 * scalar_size k /\ std (scalar_size k * 8) /\ 0 = 0)).
    { right. split; [lia|]. split; [lia|]. split; [lia|]. split; [rewrite Z.mul_comm; exact ST|reflexivity]. }
    rewrite EA. destruct (add_at_end t1 n (LScalar k) (scalar_size k) o I1 LS PS eq_refl S1 ltac:(lia) w (scalar_size k * 8) 0 PW) as [(N & IN & E)|(N & t' & E & I' & S' & M')].
    - rewrite E. split; [|discriminate]. left. rewrite (names_sigs _ _ SG) in IN. auto.
    - rewrite E. split.
      + right. rewrite (names_sigs _ _ SG) in N. split; [exact N|]. exists t'. split; [reflexivity|]. split; [exact I'|]. split; [lia|].
        rewrite M'. cbn. f_equal. exact SG.
      + intros t'' [= <-]. rewrite S'. assert (t_size t <= o + 8); [|lia].
        unfold adjust_member_alignment in EA. injection EA as _ <-.
        destruct HI as (J1 & J2 & J3 & J4 & J5).
        assert (RC : t_size t - 8 <= t_size (reclaim t) /\ 0 <= t_size (reclaim t)).
        { unfold reclaim. destruct (t_members t) as [|h r]; [lia|]. destruct (Z.eqb_spec (m_back h) 0); cbn [negb]; [lia|].
          inversion J3 as [|? ? (G1 & G2 & G3 & [(_ & X & _)|(G4 & G5 & G6 & q & G7)]) _]; subst; [congruence|]. cbn in J5. specialize (J5 ltac:(lia)).
          set (bytes := (m_back h - (m_foff h + m_width h)) ÷ 8).
          assert (BY : 0 <= bytes /\ 8 * bytes <= m_back h - (m_foff h + m_width h)).
          { unfold bytes. rewrite Z.quot_div_nonneg by lia. split; [apply Z.div_pos; lia|]. apply Z.mul_div_le. lia. }
          destruct (bytes =? 0); cbn [negb]; [lia|]. cbn [t_size].
          unfold ub in G2, G3. rewrite (proj2 (Z.eqb_neq (m_width h) 0)) in G2, G3 by lia. rewrite G7 in G2, G3. rewrite Z.div_mul in G2, G3 by lia.
          rewrite szt_small by (unfold M, LIM in *; unfold std in J5; lia). unfold std in J5. lia. }
        change (size_of (basic k false)) with (lalign (LScalar k)). rewrite LA. destruct (negb _); [|lia]. pose proof (Z.mod_pos_bound (t_size (reclaim t)) (scalar_size k) ltac:(lia)).
        assert (t_size (reclaim t) <= t_size t) by (apply reclaim_ok; [unfold Inv; auto|lia]).
        rewrite szt_small by (unfold M, LIM in *; lia). lia. }
  unfold pack_field_member. destruct HI as (J1 & J2 & J3 & J4 & J5).
  destruct (t_members t) as [|h r] eqn:EM; [apply NOPACK; reflexivity|].
  destruct (Z.eqb_spec (m_width h) 0) as [W0|W0]; [apply NOPACK; reflexivity|].
  inversion J3 as [|? ? (G1 & G2 & G3 & [(X & _)|(G4 & G5 & G6 & q & G7)]) G']; subst; [congruence|]. cbn in J5. specialize (J5 W0).
  assert (UH : ub h = m_back h / 8) by (unfold ub; rewrite (proj2 (Z.eqb_neq (m_width h) 0)) by lia; reflexivity).
  cbn [m_width m_back m_name m_type].
  destruct (Z.leb_spec (m_foff h + m_width h + w) (m_back h)) as [C1|C1].
  - (* next to the last field *)
    clear NOPACK DEF. set (m := mkMember n (LScalar k) (m_offset h) w (m_foff h + m_width h) (m_back h)).
    assert (UM : ub m = ub h) by (rewrite UH; unfold ub, m; cbn; rewrite (proj2 (Z.eqb_neq w 0)) by lia; reflexivity).
    assert (OB : m_offset h <= t_size t) by lia.
    unfold step_ok. rewrite EM. cbn [fst].
    destruct (Z.eq_dec n 0) as [N0|N0]; [|destruct (in_dec Z.eq_dec n (map m_name (h :: r))) as [HI|HI]].
    2: { split; [left; split; [exact N0|]; split; [exact HI|]; apply add_member_dup; [exact N0|rewrite EM; exact HI]|].
         rewrite add_member_dup by (rewrite ?EM; assumption). discriminate. }
    all: rewrite (add_member_ok2 false t m (scalar_size k)); cbn; rewrite ?EM; auto; try lia;
      try (change (2 ^ 63) with 9223372036854775808; unfold LIM in HB; lia).
    all: split; [right; split; [auto|]; eexists; split; [reflexivity|]; cbn; split; [|split; [lia|reflexivity]]|intros t' [= <-]; cbn; lia].
    all: unfold Inv; cbn; split; [reflexivity|]; split; [lia|]; split.
    1,3: constructor; [unfold good; rewrite UM; cbn; repeat split; try lia; right; repeat split; try lia; exists q; exact G7|
         eapply Forall_impl; [|exact J3]; intro x; apply good_mono; lia].
    all: split; [|intros _; exact J5]; constructor; [|exact J4]; constructor;
      [right; cbn; repeat split; auto; lia|inversion J4 as [|? ? A4 A5]; subst; eapply Forall_impl; [|exact A4]; intros x [A|(A1 & A2 & A3 & A6 & A7)];
       [left; cbn; exact A|right; cbn; repeat split; auto; lia]].
  - destruct (Z.leb_spec (m_foff h + m_width h + w) (scalar_size k * 8)) as [C2|C2]; [|apply NOPACK; reflexivity].
    (* widen the unit *)
    clear NOPACK DEF.
    destruct (group_of_head (t_size t) h r J3 J4 W0 0) as [_ E2]. rewrite E2.
    destruct (regroup (t_size t) (Z.max (t_size t) (m_offset h + scalar_size k)) h r (scalar_size k * 8)) as [R1 R2]; auto; try lia.
    { exists (scalar_size k). lia. } { rewrite Z.div_mul by lia. lia. }
    set (ms := map (setb (m_offset h) (scalar_size k * 8)) (h :: r)) in *.
    set (m := mkMember n (LScalar k) (m_offset h) w (m_foff h + m_width h) (scalar_size k * 8)).
    assert (UM : ub m = scalar_size k) by (unfold ub, m; cbn; rewrite (proj2 (Z.eqb_neq w 0)) by lia; rewrite Z.div_mul by lia; reflexivity).
    assert (SG : map sig ms = map sig (h :: r)) by (unfold ms; rewrite map_map; apply map_ext; intro; apply sig_setb).
    assert (NM : map m_name ms = map m_name (h :: r)) by (unfold ms; rewrite map_map; apply map_ext; intro; apply name_setb).
    unfold step_ok. rewrite EM. cbn [fst].
    destruct (Z.eq_dec n 0) as [N0|N0]; [|destruct (in_dec Z.eq_dec n (map m_name (h :: r))) as [HI|HI]].
    2: { split; [left; split; [exact N0|]; split; [exact HI|]; apply add_member_dup; [exact N0|cbn [t_members]; rewrite NM; exact HI]|].
         rewrite add_member_dup by (cbn [t_members]; rewrite ?NM; assumption). discriminate. }
    all: rewrite (add_member_ok2 false _ m (scalar_size k)); cbn [t_flex t_members t_size m_name m_type m_offset m]; rewrite ?NM; auto; try lia;
      try (change (2 ^ 63) with 9223372036854775808; unfold LIM in HB; lia).
    all: split; [right; split; [auto|]; eexists; split; [reflexivity|]; cbn [t_size t_members]; split; [|split; [lia|cbn [map]; rewrite SG; reflexivity]]|intros t' [= <-]; cbn; lia].
    all: unfold Inv; cbn [t_size t_members t_flex]; split; [reflexivity|]; split; [lia|]; split.
    1,3: constructor; [unfold good; rewrite UM; unfold m; cbn; repeat split; try lia; right; repeat split; try lia; exists (scalar_size k); reflexivity|exact R1].
    all: split; [|cbn; intros _; rewrite Z.mul_comm; exact ST]; constructor; [|exact R2].
    all: rewrite Forall_forall; intros x Hx; unfold ms in Hx; apply in_map_iff in Hx; destruct Hx as (y & <- & Hy);
      destruct (tail_cases (t_size t) h r y J3 J4 W0 Hy) as [(E1 & E3 & E4 & E5)|(E1 & E3)]; unfold setb;
      [right; rewrite E1, Z.eqb_refl; cbn; repeat split; auto; lia|left; rewrite (proj2 (Z.eqb_neq _ _) E1); cbn; exact E3].
Qed.

Lemma backing_ok b : std b -> exists k, backing_type_from_bits b = Some k /\ int_kind k /\ k <> T_BOOL /\ scalar_size k * 8 = b.
Proof.
  unfold std, int_kind. intros [->|[->|[->| ->]]].
  - exists T_CHAR. repeat split; auto; discriminate.
  - exists T_SHORT. repeat split; auto; discriminate.
  - exists T_INT. repeat split; auto; discriminate.
  - exists T_LONG. repeat split; auto 6; discriminate.
Qed.

Lemma round_size_ok t c : Inv t -> 0 < c <= 8 -> t_size t + 16 <= LIM ->
  Inv (round_size t c) /\ t_size t <= t_size (round_size t c) <= t_size t + 8 /\ t_members (round_size t c) = t_members t.
Proof.
  intros (J1 & J2 & J3 & J4 & J5) Hc HB. unfold round_size. cbn [t_size t_members].
  set (s := if t_size t <? c then c else if negb (t_size t mod c =? 0) then szt (t_size t + t_size t mod c) else t_size t).
  assert (t_size t <= s <= t_size t + 8).
  { unfold s. destruct (Z.ltb_spec (t_size t) c); [lia|]. pose proof (Z.mod_pos_bound (t_size t) c ltac:(lia)).
    destruct (negb _); [rewrite szt_small by (unfold M, LIM in *; lia)|]; lia. }
  split; [|split; [assumption|reflexivity]]. unfold Inv. cbn. repeat split; auto; try lia.
  eapply Forall_impl; [|exact J3]. intro m. apply good_mono. lia.
Qed.

(* an unnamed padding field is always added *)
Lemma pad_ok t k w : Inv t -> int_kind k -> k <> T_BOOL -> 0 < w <= scalar_size k * 8 -> t_size t + 32 <= LIM ->
  exists t', add_field_bits t 0 k w = Done t' /\ Inv t' /\ t_size t' <= t_size t + 24 /\ map sig (t_members t') = (0, LScalar k, w) :: map sig (t_members t).
Proof.
  intros HI HK HN HW HB. destruct (add_bits_ok t 0 k w HI HK) as [[(X & _)|(_ & t' & E & I' & S' & M')] _]; try lia; try congruence; [cbn in X; congruence|eauto].
Qed.

Definition sigs (t : tree) : list (Z * ltype * Z) := filter (fun x => negb (fst (fst x) =? 0)) (map sig (t_members t)).

Lemma fill_ok t h r b : Inv t -> t_members t = h :: r -> m_width h <> 0 -> backing_type_from_bits (m_back h) = Some b -> t_size t + 32 <= LIM ->
  exists t', fill_unit t h b = Done t' /\ Inv t' /\ t_size t' <= t_size t + 24 /\ sigs t' = sigs t.
Proof.
  intros HI EM HW EB HB. pose proof HI as (J1 & J2 & J3 & J4 & J5). rewrite EM in *. cbn in J5. specialize (J5 HW).
  destruct (backing_ok _ J5) as (k & EK & HK & HKB & HS). rewrite EB in EK. injection EK as ->.
  inversion J3 as [|? ? (G1 & G2 & G3 & [(X & _)|(G4 & G5 & G6 & q & G7)]) G']; subst; [congruence|].
  unfold fill_unit. rewrite (proj2 (Z.ltb_ge _ _)) by lia.
  destruct (Z.eqb_spec (m_foff h + m_width h) (m_back h)) as [E|E]; cbn [negb]; [exists t; split; [reflexivity|]; split; [exact HI|]; split; [lia|reflexivity]|].
  destruct (pad_ok t k (m_back h - (m_foff h + m_width h)) HI HK HKB ltac:(lia) HB) as (t' & E' & I' & S' & M').
  exists t'. split; [exact E'|]. split; [exact I'|]. split; [lia|]. unfold sigs. rewrite M'. reflexivity.
Qed.

Lemma reset_ok t k : Inv t -> int_kind k -> t_size t + 64 <= LIM ->
  exists t', reset_field_alignment t k = Done t' /\ Inv t' /\ t_size t' <= t_size t + 48 /\ sigs t' = sigs t.
Proof.
  intros HI HK HB. destruct (int_kind_size k HK) as (LS & LA & SZ & ST). unfold reset_field_alignment.
  destruct (t_members t) as [|h r] eqn:EM; [exists t; split; [reflexivity|]; split; [exact HI|]; split; [lia|reflexivity]|]. rewrite LS.
  assert (FIN : forall t1, Inv t1 -> t_size t1 <= t_size t + 40 -> sigs t1 = sigs t ->
    exists t', Done (round_size t1 (scalar_size k)) = Done t' /\ Inv t' /\ t_size t' <= t_size t + 48 /\ sigs t' = sigs t).
  { intros t1 I1 S1 G1. destruct (round_size_ok t1 (scalar_size k) I1 ltac:(lia) ltac:(lia)) as (A & B & C).
    eexists. split; [reflexivity|]. split; [exact A|]. split; [lia|]. unfold sigs. rewrite C. exact G1. }
  destruct (Z.eqb_spec (m_width h) 0) as [W0|W0]; cbn [negb]; [apply FIN; auto; lia|].
  pose proof HI as (J1 & J2 & J3 & J4 & J5). rewrite EM in J3, J4, J5. cbn in J5. specialize (J5 W0).
  destruct (backing_ok _ J5) as (kb & EK & HKB & HNB & HS). rewrite EK.
  inversion J3 as [|? ? (G1 & G2 & G3 & [(X & _)|(G4 & G5 & G6 & q & G7)]) G']; subst; [congruence|].
  destruct (fill_ok t h r kb HI EM W0 EK ltac:(lia)) as (t1 & EF & F1 & F2 & F3).
  destruct (Z.leb_spec (m_back h) (scalar_size k * 8)) as [L|L].
  { rewrite EF. cbn [obind]. apply FIN; auto. lia. }
  destruct (Z.ltb_spec (scalar_size k * 8) (m_foff h + m_width h)) as [L2|L2].
  { pose proof (Z.mod_pos_bound (m_foff h + m_width h) (scalar_size k * 8) ltac:(lia)).
    destruct (Z.eqb_spec ((m_foff h + m_width h) mod (scalar_size k * 8)) 0); cbn [negb obind]; [apply FIN; auto; lia|].
    destruct (pad_ok t kb ((m_foff h + m_width h) mod (scalar_size k * 8)) HI HKB HNB ltac:(lia) ltac:(lia)) as (t' & E' & I' & S' & M').
    rewrite E'. cbn [obind]. apply FIN; auto; [lia|]. unfold sigs. rewrite M'. reflexivity. }
  destruct (Z.eqb_spec (scalar_size k * 8) (m_foff h + m_width h)) as [E|E].
  { rewrite EF. cbn [obind]. destruct (int_kind_size kb HKB) as (LSb & _ & SZb & _). rewrite LSb.
    destruct (round_size_ok t1 (scalar_size kb) F1 ltac:(lia) ltac:(lia)) as (A & B & C). apply FIN; [exact A|lia|]. unfold sigs in *. rewrite C. exact F3. }
  destruct (pad_ok t kb (scalar_size k * 8 - (m_foff h + m_width h)) HI HKB HNB ltac:(lia) ltac:(lia)) as (t' & E' & I' & S' & M').
  rewrite E'. cbn [obind]. apply FIN; auto; [lia|]. unfold sigs. rewrite M'. reflexivity.
Qed.

Lemma sigs_names t : forall n, n <> 0 -> In n (map m_name (t_members t)) <-> In n (map (fun x => fst (fst x)) (sigs t)).
Proof.
  intros n Hn. unfold sigs. rewrite !in_map_iff. split.
  - intros (m & <- & Hm). exists (sig m). split; [reflexivity|]. apply filter_In. split; [apply in_map, Hm|]. cbn. rewrite (proj2 (Z.eqb_neq _ _) Hn). reflexivity.
  - intros (x & <- & Hx). apply filter_In in Hx. destruct Hx as [Hx _]. apply in_map_iff in Hx. destruct Hx as (m & <- & Hm). exists m. auto.
Qed.

Definition fresh (d : decl) (t : tree) : Prop := decl_name d = 0 \/ ~ In (decl_name d) (map (fun x => fst (fst x)) (sigs t)).

Lemma add_decl_ok t d : Inv t -> decl_ok d -> t_size t + decl_room d <= LIM - 64 ->
  (add_decl false t d = Rejected /\ ~ (decl_valid d /\ fresh d t)) \/
  (decl_valid d /\ fresh d t /\ exists t', add_decl false t d = Done t' /\ Inv t' /\ t_size t' <= t_size t + decl_room d /\
     sigs t' = (if decl_name d =? 0 then [] else [declared d]) ++ sigs t).
Proof.
  intros HI HD HB. destruct d as [n ty|n k w|ty]; [| |contradiction].
  - destruct HD as (N0 & c & HC & EC). destruct (elab_ok c HC) as (ty' & EC' & (G1 & G2 & G3 & G4 & G5 & G6) & _). rewrite EC in EC'. injection EC' as <-.
    cbn [add_decl type_add_member]. unfold type_add_member. cbn [decl_room] in *.
    destruct (adjust_ok t ty (calign c) HI G2) as (t1 & o & EA & I1 & S1 & S2 & S3 & SG & _). { unfold pow2 in G3. lia. } { lia. }
    rewrite EA. destruct (add_at_end t1 n ty (csize c) o I1 G1 G5 G6 S1 ltac:(lia) 0 0 0) as [(N & IN & E)|(N & t' & E & I' & S' & M')].
    { left. rewrite G2. auto. }
    + left. split; [exact E|]. intros (_ & [X|X]); [cbn in X; congruence|]. apply X. cbn. apply (sigs_names t n N0). rewrite <- (names_sigs _ _ SG). exact IN.
    + right. split; [exact I|]. split.
      { right. cbn. intro X. apply (sigs_names t n N0) in X. rewrite <- (names_sigs _ _ SG) in X. destruct N; [congruence|contradiction]. }
      exists t'. split; [exact E|]. split; [exact I'|]. split; [lia|].
      unfold sigs. rewrite M'. cbn. rewrite (proj2 (Z.eqb_neq _ _) N0). cbn. f_equal. rewrite SG. reflexivity.
  - destruct HD as (HK & Hw). destruct (int_kind_size k HK) as (LS & LA & SZ & ST).
    cbn [add_decl]. unfold type_add_field. rewrite LS. cbn [decl_valid decl_name fresh declared decl_room] in *.
    destruct ((scalar_size k * 8 <? w) || (tkind_eqb k T_BOOL && (1 <? w))) eqn:CK.
    { left. split; [reflexivity|]. intros ((V1 & V2 & V3) & _). apply orb_true_iff in CK. rewrite andb_true_iff, !Z.ltb_lt in CK.
      destruct CK as [CK|[CK1 CK2]]; [lia|]. assert (k = T_BOOL) by (destruct k; discriminate || reflexivity). specialize (V2 H). lia. }
    apply orb_false_iff in CK. destruct CK as [CK1 CK2]. apply Z.ltb_ge in CK1.
    assert (VB : k = T_BOOL -> w <= 1). { intros ->. cbn in CK2. apply Z.ltb_ge in CK2. exact CK2. }
    destruct (Z.eqb_spec w 0) as [W0|W0].
    + rewrite andb_true_r. destruct (Z.eqb_spec n 0) as [N0|N0]; cbn [negb].
      2: { left. split; [reflexivity|]. intros ((_ & _ & V3) & _). specialize (V3 W0). congruence. }
      right. subst w n. split; [repeat split; lia|]. split; [left; reflexivity|].
      assert (TGT : exists t1, match pack_field_member t (mkMember 0 (LScalar k) 0 0 0 (scalar_size k * 8)) with
          | Some (t1, _) => t1 | None => fst (adjust_member_alignment t (LScalar k)) end = t1 /\ Inv t1 /\ t_size t1 <= t_size t + 15 /\ sigs t1 = sigs t).
      { unfold pack_field_member. pose proof HI as (J1 & J2 & J3 & J4 & J5).
        assert (ADJ : match t_members t with [] => True | m :: _ => m_width m = 0 end ->
           exists t1, fst (adjust_member_alignment t (LScalar k)) = t1 /\ Inv t1 /\ t_size t1 <= t_size t + 15 /\ sigs t1 = sigs t).
        { intro X. destruct (adjust_ok t (LScalar k) (scalar_size k) HI LA ltac:(lia) ltac:(lia)) as (t1 & o & EA & (K1 & K2 & K3 & K4) & S1 & S2 & S3 & SG & SX).
          destruct (SX X) as [SM _]. rewrite EA. exists t1. split; [reflexivity|]. split; [|split; [lia|unfold sigs; rewrite SM; reflexivity]].
          unfold Inv. rewrite SM in *. repeat split; auto. }
        destruct (t_members t) as [|h r] eqn:EM; [apply ADJ; exact I|].
        destruct (Z.eqb_spec (m_width h) 0) as [W1|W1]; [apply ADJ; exact W1|].
        inversion J3 as [|? ? (G1 & G2 & G3 & [(X & _)|(G4 & G5 & G6 & q & G7)]) G']; subst; [congruence|].
        cbn [m_width]. rewrite Z.add_0_r. rewrite (proj2 (Z.leb_le _ _) G6). exists t. split; [reflexivity|]. split; [exact HI|]. split; [lia|reflexivity]. }
      destruct TGT as (t1 & -> & I1 & S1 & G1).
      destruct (reset_ok t1 k I1 HK ltac:(lia)) as (t' & E & I' & S' & G'). exists t'. split; [exact E|]. split; [exact I'|]. split; [lia|]. rewrite G'; exact G1.
    + rewrite andb_false_r. destruct (add_bits_ok t n k w HI HK ltac:(lia) ltac:(lia) VB ltac:(lia)) as [[(X1 & X2 & X3)|(N & t' & E & I' & S' & M')] _]; cbn [fst] in *.
      * left. split; [exact X3|]. intros (_ & [Y|Y]); [cbn in Y; congruence|]. apply Y. cbn. apply (sigs_names t n X1). exact X2.
      * right. split; [repeat split; auto; lia|]. split.
        { destruct (Z.eq_dec n 0); [left; assumption|right]. intro X. apply (sigs_names t n) in X; [|assumption]. destruct N; contradiction. }
        exists t'. split; [exact E|]. split; [exact I'|]. split; [lia|].
        unfold sigs. rewrite M'. cbn. destruct (Z.eqb_spec n 0); reflexivity.
Qed.

Lemma room_pos d : decl_ok d -> 0 < decl_room d.
Proof.
  destruct d as [n ty|n k w|ty]; cbn; intro H; try lia; try contradiction. destruct H as (_ & c & HC & EC).
  destruct (elab_ok c HC) as (t & EC' & (G1 & _ & _ & _ & G5 & _) & _). rewrite EC in EC'. injection EC' as <-. lia.
Qed.

Lemma room_nonneg ds : Forall decl_ok ds -> 0 <= room ds.
Proof. unfold room. induction 1 as [|d ds H HF IH]; cbn; [lia|]. pose proof (room_pos d H). lia. Qed.

Lemma declared_name d : fst (fst (declared d)) = decl_name d.
Proof. destruct d; reflexivity. Qed.

Definition snames (t : tree) := map (fun x : Z * ltype * Z => fst (fst x)) (sigs t).

Lemma sigs_step d l : (if decl_name d =? 0 then [] else [declared d]) ++ l = map declared (named [d]) ++ l.
Proof. unfold named. cbn. destruct (decl_name d =? 0); reflexivity. Qed.

Lemma NoDup_tail {A} (l l' : list A) : NoDup (l ++ l') -> NoDup l'.
Proof. induction l; cbn; intro H; [exact H|]. inversion H; auto. Qed.

Lemma add_decls_ok ds : Forall decl_ok ds -> forall t, Inv t -> t_size t + room ds <= LIM - 64 -> NoDup (snames t) ->
  (add_decls false t ds = Rejected /\ ~ (Forall decl_valid ds /\ NoDup (rev (map decl_name (named ds)) ++ snames t))) \/
  (Forall decl_valid ds /\ NoDup (rev (map decl_name (named ds)) ++ snames t) /\
   exists t', add_decls false t ds = Done t' /\ Inv t' /\ t_size t' <= t_size t + room ds /\ sigs t' = rev (map declared (named ds)) ++ sigs t).
Proof.
  induction 1 as [|d ds HD HF IH]; intros t HI HB HN.
  - right. split; [constructor|]. split; [exact HN|]. exists t. cbn. split; [reflexivity|]. split; [exact HI|]. split; [lia|reflexivity].
  - unfold room in HB. cbn [map fold_right] in HB. fold (room ds) in HB. pose proof (room_nonneg ds HF) as R0. pose proof (room_pos d HD) as R1.
    cbn [add_decls]. assert (NM : named (d :: ds) = named [d] ++ named ds) by (unfold named; cbn; destruct (decl_name d =? 0); reflexivity).
    assert (SN : forall l, rev (map decl_name (named (d :: ds))) ++ l = rev (map decl_name (named ds)) ++ (map decl_name (named [d])) ++ l).
    { intro l. rewrite NM, map_app, rev_app_distr, <- app_assoc. f_equal. f_equal. unfold named. cbn. destruct (decl_name d =? 0); reflexivity. }
    destruct (add_decl_ok t d HI HD ltac:(lia)) as [[E V]|(V & FR & t1 & E & I1 & S1 & G1)].
    + left. rewrite E. split; [reflexivity|]. intros (VA & ND). apply V. inversion VA; subst. split; [assumption|].
      rewrite SN in ND. apply NoDup_tail in ND. unfold fresh. destruct (Z.eq_dec (decl_name d) 0) as [Z0|Z0]; [left; assumption|right].
      unfold named in ND. cbn in ND. rewrite (proj2 (Z.eqb_neq _ _) Z0) in ND. cbn in ND. inversion ND; subst. assumption.
    + rewrite E. cbn [obind]. rewrite sigs_step in G1.
      assert (SN1 : snames t1 = map decl_name (named [d]) ++ snames t).
      { unfold snames. rewrite G1, map_app, map_map. f_equal. apply map_ext. apply declared_name. }
      assert (N1 : NoDup (snames t1)).
      { rewrite SN1. unfold named. cbn. destruct (Z.eqb_spec (decl_name d) 0) as [Z0|Z0]; cbn; [assumption|]. constructor; [|assumption].
        destruct FR; [contradiction|assumption]. }
      destruct (IH t1 I1 ltac:(lia) N1) as [[E2 V2]|(V2 & ND2 & t' & E2 & I2 & S2 & G2)].
      * left. split; [exact E2|]. intros (VA & ND). apply V2. inversion VA; subst. split; [assumption|]. rewrite SN1, <- SN. exact ND.
      * right. split; [constructor; assumption|]. split; [rewrite SN, <- SN1; exact ND2|]. exists t'. split; [exact E2|]. split; [exact I2|].
        split; [unfold room; cbn [map fold_right]; fold (room ds); lia|]. rewrite G2, G1, NM, map_app, rev_app_distr, <- app_assoc. f_equal. f_equal.
        unfold named. cbn. destruct (decl_name d =? 0); reflexivity.
Qed.

Lemma FOP_app {A} (R : A -> A -> Prop) l x : ForallOrdPairs R l -> Forall (fun y => R y x) l -> ForallOrdPairs R (l ++ [x]).
Proof.
  induction 1 as [|a l HA HP IH]; intro HF; cbn; [constructor; constructor|]. inversion HF; subst. constructor; [|auto].
  apply Forall_app. split; [assumption|]. constructor; [assumption|constructor].
Qed.
Lemma FOP_rev {A} (R S : A -> A -> Prop) l : (forall x y, In x l -> In y l -> R x y -> S y x) -> ForallOrdPairs R l -> ForallOrdPairs S (rev l).
Proof.
  induction l as [|a l IH]; intros HS HP; cbn; [constructor|]. inversion HP; subst. apply FOP_app.
  - apply IH; [|assumption]. intros x y Hx Hy. apply HS; right; assumption.
  - rewrite Forall_forall in *. intros y Hy. apply in_rev in Hy. apply HS; [left; reflexivity|right; assumption|auto].
Qed.
Lemma FOP_filter {A} (R : A -> A -> Prop) p l : ForallOrdPairs R l -> ForallOrdPairs R (filter p l).
Proof.
  induction 1 as [|a l HA HP IH]; cbn; [constructor|]. destruct (p a); [|assumption]. constructor; [|assumption].
  rewrite Forall_forall in *. intros x Hx. apply filter_In in Hx. apply HA, Hx.
Qed.

Lemma after_bits s x y : good s x -> good s y -> after x y -> first_bit y + bit_count y <= first_bit x.
Proof.
  intros (X1 & X2 & X3 & X4) (Y1 & Y2 & Y3 & Y4) HA. unfold first_bit, bit_count, after, ub in *.
  assert (0 <= m_foff x) by (destruct X4 as [(_ & _ & -> & _)|(_ & F & _)]; lia).
  destruct Y4 as [(W & B & F & _)|(W & F & U & q & D)].
  - rewrite W in *. cbn [Z.eqb] in *. destruct HA as [A|(_ & A & _)]; [lia|congruence].
  - rewrite (proj2 (Z.eqb_neq (m_width y) 0)) in * by lia. rewrite D in *. rewrite Z.div_mul in * by lia.
    destruct HA as [A|(A1 & A2 & A3 & A4 & A5)]; lia.
Qed.

Lemma filter_sig t : map sig (filter (fun m : lmember => negb (m_name m =? 0)) (t_members t)) = sigs t.
Proof.
  unfold sigs. induction (t_members t) as [|m l IH]; [reflexivity|]. cbn. destruct (m_name m =? 0); cbn; rewrite IH; reflexivity.
Qed.

Lemma decl_align d : decl_ok d -> pow2 (lalign (snd (fst (declared d)))).
Proof.
  destruct d as [n ty|n k w|ty]; cbn [declared fst snd]; intro H; [| |contradiction].
  - destruct H as (_ & c & HC & EC). destruct (elab_ok c HC) as (t & EC' & (_ & G2 & G3 & _) & _). rewrite EC in EC'. injection EC' as <-. rewrite G2. exact G3.
  - destruct H as [HK _]. destruct (int_kind_size k HK) as (_ & -> & SZ & _). unfold pow2. lia.
Qed.

Lemma max_lalign (ms : list lmember) : Forall (fun m => pow2 (lalign (m_type m))) ms -> ms <> [] ->
  pow2 (fold_right Z.max 0 (map (fun m => lalign (m_type m)) ms)).
Proof.
  induction 1 as [|m ms H HF IH]; [congruence|]. intros _. cbn. destruct ms as [|m' ms]; [cbn; unfold pow2 in *; lia|].
  specialize (IH ltac:(discriminate)). apply pow2_max; assumption.
Qed.

Lemma struct_decls_ok ds : Forall decl_ok ds -> room ds <= LIM - 64 ->
  (~ ValidDecls ds /\ struct_or_union false ds = Rejected) \/
  (ValidDecls ds /\ exists t, struct_or_union false ds = Done t /\ map sig (members_of t) = map declared (named ds) /\
     Forall (member_fits t) (members_of t) /\
     ForallOrdPairs (fun a b => first_bit a + bit_count a <= first_bit b) (members_of t) /\
     (forall d, In d (named ds) -> (lalign (snd (fst (declared d))) | lsize t)) /\ 0 < lsize t <= room ds + 16).
Proof.
  intros HD HB. assert (I0 : Inv empty_tree) by (repeat split; cbn; try lia; constructor).
  unfold struct_or_union, ValidDecls. destruct (add_decls_ok ds HD empty_tree I0) as [[E V]|(V & ND & t & E & HI & S & G)]; [cbn [t_size empty_tree]; lia|constructor| |].
  { left. rewrite E. split; [|reflexivity]. intros (A & B & _). apply V. split; [exact A|]. cbn. rewrite app_nil_r. apply NoDup_rev, B. }
  cbn [snames sigs empty_tree t_members map filter] in ND. unfold snames, sigs in ND. cbn in ND. rewrite app_nil_r in ND. apply NoDup_rev in ND. rewrite rev_involutive in ND.
  change (sigs empty_tree) with (@nil (Z * ltype * Z)) in G. rewrite app_nil_r in G. rewrite E. cbn [obind]. unfold type_seal.
  set (ms := filter (fun m : lmember => negb (m_name m =? 0)) (t_members t)).
  assert (SG : map sig ms = rev (map declared (named ds))) by (unfold ms; rewrite filter_sig; exact G).
  destruct HI as (J1 & J2 & J3 & J4 & J5).
  assert (HG : Forall (good (t_size t)) ms) by (rewrite Forall_forall in *; intros m Hm; apply filter_In in Hm; apply J3, Hm).
  destruct (named ds) as [|d0 r0] eqn:EN.
  { left. cbn in SG. destruct ms; [|discriminate]. cbn. split; [|reflexivity]. intros (_ & _ & X). congruence. }
  assert (NN : named ds <> []) by (rewrite EN; discriminate). rewrite <- EN in SG, ND, G |- *. clear d0 r0 EN.
  assert (MA : Forall (fun m => pow2 (lalign (m_type m))) ms).
  { rewrite Forall_forall. intros m Hm. assert (X : In (sig m) (map sig ms)) by (apply in_map, Hm). rewrite SG in X. apply in_rev, in_map_iff in X.
    destruct X as (d & Ed & Hd). unfold named in Hd. apply filter_In in Hd. destruct Hd as [Hd _]. rewrite Forall_forall in HD. pose proof (decl_align d (HD d Hd)) as P.
    rewrite Ed in P. exact P. }
  assert (MN : ms <> []).
  { intro X. apply NN. rewrite X in SG. destruct (named ds) as [|d0 r0]; [reflexivity|]. cbn in SG. symmetry in SG. apply app_eq_nil in SG. destruct SG as [_ SG]. discriminate SG. }
  pose proof (max_lalign ms MA MN) as PA. set (a := fold_right Z.max 0 (map (fun m : lmember => lalign (m_type m)) ms)) in *.
  assert (A0 : 0 < a <= 16) by (unfold pow2 in PA; lia). rewrite (proj2 (Z.eqb_neq a 0)) by lia.
  assert (SZ : (if negb (t_size t mod a =? 0) then szt (t_size t + (a - t_size t mod a)) else t_size t) = roundup (t_size t) a).
  { rewrite (roundup_mod _ a) by lia. destruct (Z.eqb_spec (t_size t mod a) 0); cbn [negb]; [reflexivity|].
    pose proof (Z.mod_pos_bound (t_size t) a ltac:(lia)). cbn [t_size empty_tree] in S. apply szt_small. unfold M, LIM in *. lia. }
  rewrite SZ. pose proof (roundup_bounds (t_size t) a ltac:(lia)) as RB. right. split; [auto|]. eexists. split; [reflexivity|]. cbn [members_of lsize].
  split; [rewrite map_rev, SG, rev_involutive; reflexivity|]. split; [|split; [|split]].
  - rewrite Forall_forall in *. intros m Hm. apply in_rev in Hm. destruct (HG m Hm) as (G1 & G2 & G3 & G4). unfold member_fits. cbn [lsize]. unfold ub in *.
    destruct G4 as [(W & B & F & AL)|(W & F & U & q & D)].
    + rewrite W in *. cbn [Z.eqb] in *. split; [intros _; repeat split; auto; lia|congruence].
    + rewrite (proj2 (Z.eqb_neq (m_width m) 0)) in * by lia. rewrite D in *. rewrite Z.div_mul in * by lia. split; [lia|]. intros _. repeat split; lia.
  - apply (FOP_rev after); [|apply FOP_filter, J4]. intros x y Hx Hy. rewrite Forall_forall in HG. apply (after_bits (t_size t)); auto.
  - intros d Hd. assert (X : In (declared d) (map sig ms)) by (rewrite SG; apply -> in_rev; apply in_map, Hd). apply in_map_iff in X. destruct X as (m & Em & Hm).
    rewrite <- Em. cbn [sig fst snd]. apply Z.divide_trans with a; [|exists ((t_size t + a - 1) / a); reflexivity].
    rewrite Forall_forall in MA. pose proof (MA m Hm) as PM.
    assert (LE : lalign (m_type m) <= a).
    { unfold a. clear - Hm. induction ms as [|x ms IH]; [contradiction|]. cbn. destruct Hm as [->|Hm]; [lia|]. specialize (IH Hm). lia. }
    apply pow2_divide; assumption.
  - destruct ms as [|m ms']; [contradiction|]. inversion HG as [|? ? (G1 & G2 & G3 & _) _]; subst. cbn [t_size empty_tree] in S. lia.
Qed.
