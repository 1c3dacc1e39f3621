(* Jumps left open while a function is written, and what they are when it ends. *)
From Coq Require Import List ZArith Lia Bool.
From Verif Require Import Util Bytes ElfModel ElfSpec ElfProofs ElfSteps.
Import ListNotations.
Open Scope Z_scope.

Definition fix1 (K : Z -> Z) (b : list Z) (p : Z * Z) : list Z :=
  patch b (snd p) (le_bytes 4 (le_val (sub b (snd p) 4) + (K (fst p) - snd p))).
Definition fixes (K : Z -> Z) (ps : list (Z * Z)) (b : list Z) : list Z := fold_left (fix1 K) ps b.

Lemma patch_len b o x : 0 <= o -> o + zlen x <= zlen b -> zlen (patch b o x) = zlen b.
Proof.
  intros O B. unfold patch, zlen in *. rewrite !app_length, firstn_length, skipn_length. lia.
Qed.
Lemma fix_all_R ps : forall a s, R a s ->
  Forall (fun p => a_off a (fst p) <> 0 /\ 0 <= snd p /\ snd p + 4 <= zlen (a_txt a)) ps ->
  exists s', fix_all s ps = Ok s' /\ R (w_txt a (fixes (a_off a) ps (a_txt a))) s'.
Proof.
  induction ps as [|[l o] r IH]; intros a s HR F.
  - exists s. split; [reflexivity|]. destruct a. exact HR.
  - inversion F as [|? ? (F1 & F2 & F3) F']; subst. cbn [fst snd] in *. cbn [fix_all fix_displacement].
    destruct (R_sizes _ _ HR) as (_ & _ & _ & _ & SO). rewrite SO.
    destruct (Z.eqb_spec (a_off a l) 0) as [X|_]; [contradiction|]. cbn [negb assert bind].
    assert (get s text = Sec (Shdr 57 1 6 0 (zlen (a_txt a)) 0 0 16 0) (a_txt a)) as G by (destruct HR as (cp & -> & _); reflexivity).
    rewrite G. cbn [s_buf s_hdr].
    destruct (Z.leb_spec 0 o) as [_|X]; [|lia]. destruct (Z.leb_spec (o + 4) (zlen (a_txt a))) as [_|X]; [|lia]. cbn [andb bind].
    set (t' := patch (a_txt a) o (le_bytes 4 (le_val (sub (a_txt a) o 4) + (a_off a l - o)))).
    assert (zlen t' = zlen (a_txt a)) as TL by (apply patch_len; rewrite ?zlen_le; lia).
    assert (R (w_txt a t') (set s text (Sec (Shdr 57 1 6 0 (zlen (a_txt a)) 0 0 16 0) t'))) as R1.
    { destruct HR as (cp & -> & C1 & C2 & C3 & C5 & C6 & C7 & C8 & C9). exists cp. split.
      - unfold set, conc. cbn [secs caps shstrndx off globals prel pend cur text upd w_txt a_str a_ent a_info a_bss a_bal a_rod a_ral a_dat a_dal a_rdb a_txt a_rtb a_off a_glob a_rd a_rt a_pend a_cur].
        rewrite TL. reflexivity.
      - repeat split; auto. cbn [w_txt a_txt]. rewrite TL. exact C8. }
    destruct (IH _ _ R1) as (s' & E & R').
    { cbn [w_txt a_txt a_off]. rewrite TL. exact F'. }
    exists s'. split; [exact E|exact R'].
Qed.

(* the bytes when all labels are known *)
Fixpoint fin_p (K : Z -> Z) (pos : Z) (ps : list piece) : list Z :=
  match ps with
  | [] => []
  | PBytes b :: r => b ++ fin_p K (pos + zlen b) r
  | PJump l d :: r => le_bytes 4 (K l - pos + d - 4) ++ fin_p K (pos + 4) r
  | PRel _ _ _ :: r => zeros 4 ++ fin_p K (pos + 4) r
  end.
Fixpoint fin_b (K : Z -> Z) (pos : Z) (b : list cmd) : list Z :=
  match b with
  | [] => []
  | CLabel _ :: r => fin_b K pos r
  | CInstr ps :: r => if is_nop ps then fin_b K pos r else fin_p K pos ps ++ fin_b K (pos + plens ps) r
  end.
Lemma fin_p_len K pos ps : zlen (fin_p K pos ps) = plens ps.
Proof.
  revert pos. induction ps as [|[b|l d|y t ad] r IH]; intro pos; cbn [fin_p plens fold_right plen]; try fold (plens r).
  - reflexivity.
  - rewrite zlen_app, IH. reflexivity.
  - rewrite zlen_app, zlen_le, IH. reflexivity.
  - rewrite zlen_app, IH. reflexivity.
Qed.
Lemma fin_b_len K pos b : zlen (fin_b K pos b) = code_len b.
Proof.
  revert pos. induction b as [|[y|ps] r IH]; intro pos; cbn [fin_b code_len fold_right clen]; try fold (code_len r).
  - reflexivity.
  - rewrite IH. lia.
  - unfold ilen. destruct (is_nop ps); [rewrite IH; lia|]. rewrite zlen_app, fin_p_len, IH. reflexivity.
Qed.
Lemma fix1_app K pre x post l pos : zlen pre = pos ->
  fix1 K (pre ++ le_bytes 4 x ++ post) (l, pos) = pre ++ le_bytes 4 (x + (K l - pos)) ++ post.
Proof.
  intros <-. unfold fix1. cbn [fst snd].
  assert (sub (pre ++ le_bytes 4 x ++ post) (zlen pre) 4 = le_bytes 4 x) as -> by exact (sub_app pre (le_bytes 4 x) post).
  rewrite le_bytes_add. apply patch_app. rewrite !le_bytes_length. reflexivity.
Qed.
Lemma fixes_p K k ps : forall pos pre post, zlen pre = pos ->
  (forall l, In l (pjumps ps) -> k l <> 0 -> K l = k l) ->
  fixes K (pend_p k pos ps) (pre ++ raw_p k pos ps ++ post) = pre ++ fin_p K pos ps ++ post.
Proof.
  induction ps as [|p r IH]; intros pos pre post EP A; [reflexivity|].
  destruct p as [b|l d|y t ad]; cbn [raw_p pend_p fin_p].
  - rewrite <- !app_assoc. rewrite !(app_assoc pre b).
    apply IH; [rewrite zlen_app; lia|exact A].
  - assert (forall l0, In l0 (pjumps r) -> k l0 <> 0 -> K l0 = k l0) as A' by (intros l0 I; apply A; right; exact I).
    destruct (Z.eqb_spec (k l) 0) as [Z0|NZ].
    + cbn [app]. unfold fixes. cbn [fold_left]. rewrite <- !app_assoc. rewrite (fix1_app _ _ _ _ _ _ EP).
      replace (d - 4 + (K l - pos)) with (K l - pos + d - 4) by lia.
      rewrite !(app_assoc pre (le_bytes 4 _)).
      apply IH; [rewrite zlen_app, zlen_le; lia|exact A'].
    + cbn [app]. rewrite <- (A l (or_introl eq_refl) NZ). rewrite <- !app_assoc. rewrite !(app_assoc pre (le_bytes 4 _)).
      apply IH; [rewrite zlen_app, zlen_le; lia|exact A'].
  - rewrite <- !app_assoc. rewrite !(app_assoc pre (zeros 4)).
    apply IH; [rewrite zlen_app; change (zlen (zeros 4)) with 4; lia|exact A].
Qed.

Lemma off_b_other b : forall k pos l, ~ In l (map y_id (labels_of b)) -> off_b k pos b l = k l.
Proof.
  induction b as [|[y|ps] r IH]; intros k pos l N; cbn [off_b]; auto.
  cbn [labels_of flat_map app map] in N. fold (labels_of r) in N. rewrite IH by (intro X; apply N; right; exact X).
  unfold upd_off. destruct (Z.eqb_spec l (y_id y)); [|reflexivity]. exfalso. apply N. left. auto.
Qed.
Lemma off_b_pos b : forall k pos l, NoDup (map y_id (labels_of b)) -> In l (map y_id (labels_of b)) -> pos <= off_b k pos b l.
Proof.
  induction b as [|[y|ps] r IH]; intros k pos l ND I; cbn [off_b labels_of flat_map app map] in *; try fold (labels_of r) in *.
  - destruct I.
  - inversion ND as [|? ? N ND']; subst. destruct I as [<-|I]; [|apply IH; auto].
    rewrite off_b_other by exact N. unfold upd_off. rewrite Z.eqb_refl. lia.
  - pose proof (IH k (pos + ilen ps) l ND I). pose proof (clen_nonneg (CInstr ps)) as P. cbn [clen] in P. lia.
Qed.
(* the address of a label is where it stands *)
Lemma off_b_at b1 y b2 : forall k pos, NoDup (map y_id (labels_of (b1 ++ CLabel y :: b2))) ->
  off_b k pos (b1 ++ CLabel y :: b2) (y_id y) = pos + code_len b1.
Proof.
  induction b1 as [|[z|ps] r IH]; intros k pos ND; cbn [app off_b labels_of flat_map map] in *.
  - fold (labels_of b2) in ND. inversion ND as [|? ? N _]; subst. rewrite off_b_other by exact N.
    unfold upd_off. rewrite Z.eqb_refl. unfold code_len. cbn [fold_right]. lia.
  - inversion ND; subst. rewrite IH; auto.
  - rewrite IH; auto. cbn [code_len fold_right clen]. fold (code_len r). lia.
Qed.
Lemma fixes_app K p q b : fixes K (p ++ q) b = fixes K q (fixes K p b).
Proof. apply fold_left_app. Qed.
Lemma fixes_b K b : forall k pos pre, zlen pre = pos ->
  (forall l, k l <> 0 -> K l = k l) ->
  (forall y r1 r2, b = r1 ++ CLabel y :: r2 -> K (y_id y) = pos + code_len r1) ->
  fixes K (pend_b k pos b) (pre ++ raw_b k pos b) = pre ++ fin_b K pos b.
Proof.
  induction b as [|[y|ps] r IH]; intros k pos pre EP A L; cbn [raw_b pend_b fin_b]; [reflexivity| |].
  - apply IH; auto.
    + intros l. unfold upd_off. destruct (Z.eqb_spec l (y_id y)) as [->|]; [|apply A].
      intros _. rewrite (L y [] r eq_refl). unfold code_len. cbn [fold_right]. lia.
    + intros z r1 r2 E. rewrite (L z (CLabel y :: r1) r2); [|rewrite E; reflexivity]. cbn [code_len fold_right clen].
      fold (code_len r1). lia.
  - assert (forall y r1 r2, r = r1 ++ CLabel y :: r2 -> K (y_id y) = pos + ilen ps + code_len r1) as L'.
    { intros z r1 r2 E. rewrite (L z (CInstr ps :: r1) r2); [|rewrite E; reflexivity].
      cbn [code_len fold_right clen]. fold (code_len r1). lia. }
    unfold ilen in L'. destruct (is_nop ps).
    + apply IH; auto. intros z r1 r2 E. rewrite (L' z r1 r2 E). lia.
    + rewrite fixes_app. rewrite fixes_p; [|exact EP|intros l _; apply A].
      rewrite !app_assoc. apply IH; [rewrite zlen_app, fin_p_len; lia|exact A|exact L'].
Qed.
Lemma plens_cons p r : plens (p :: r) = plen p + plens r. Proof. reflexivity. Qed.
Lemma code_len_cons x r : code_len (x :: r) = clen x + code_len r. Proof. reflexivity. Qed.
Ltac fin := solve [auto | cbn [In]; auto | apply in_or_app; auto].
Lemma pend_p_in k ps : forall pos l o, In (l, o) (pend_p k pos ps) -> In l (pjumps ps) /\ pos <= o /\ o + 4 <= pos + plens ps.
Proof.
  induction ps as [|[b|l0 d|y t ad] r IH]; intros pos l o I; try rewrite plens_cons;
    cbn [pend_p pjumps flat_map plen app] in *; try fold (pjumps r).
  - destruct I.
  - apply IH in I. destruct I as (I1 & I2 & I3). pose proof (zlen_nonneg b). repeat split; first [lia | fin].
  - pose proof (plens_nonneg r). apply in_app_or in I. destruct I as [I|I].
    + destruct (k l0 =? 0); [|destruct I]. destruct I as [[= <- <-]|[]]. repeat split; first [lia | fin].
    + apply IH in I. destruct I as (I1 & I2 & I3). repeat split; first [lia | fin].
  - apply IH in I. destruct I as (I1 & I2 & I3). repeat split; first [lia | fin].
Qed.
Lemma pend_b_in b : forall k pos l o, In (l, o) (pend_b k pos b) ->
  In l (flat_map cjumps b) /\ pos <= o /\ o + 4 <= pos + code_len b.
Proof.
  induction b as [|[y|ps] r IH]; intros k pos l o I; try rewrite code_len_cons;
    cbn [pend_b flat_map cjumps clen app] in *.
  - destruct I.
  - apply IH in I. destruct I as (I1 & I2 & I3). repeat split; first [lia | fin].
  - pose proof (code_len_nonneg r). pose proof (plens_nonneg ps). unfold ilen. destruct (is_nop ps).
    + apply IH in I. destruct I as (I1 & I2 & I3). rewrite in_app_iff. repeat split; first [lia | fin].
    + apply in_app_or in I. destruct I as [I|I].
      * apply pend_p_in in I. destruct I as (I1 & I2 & I3). rewrite in_app_iff. repeat split; first [lia | fin].
      * apply IH in I. destruct I as (I1 & I2 & I3). rewrite in_app_iff. repeat split; first [lia | fin].
Qed.

(* --- A whole function --- *)
Definition a_fun (c : ctx) (a : abs) (y : symb) (b : list cmd) : abs :=
  let a1 := a_symbol c a y in
  let p := zlen (a_txt a1) in
  let K := off_b (a_off a1) p b in
  incr (w_off (w_rt (w_txt a1 (a_txt a1 ++ fin_b K p b)) (a_rt a1 ++ rel_b p b)) K) (code_len b).

Lemma a_symbol_txt c a y : a_txt (a_symbol c a y) = a_txt a /\ a_pend (a_symbol c a y) = a_pend a /\
  a_rt (a_symbol c a y) = a_rt a /\ a_rd (a_symbol c a y) = a_rd a /\ a_info (a_symbol c a y) = a_info a /\
  (a_rdb (a_symbol c a y) = a_rdb a /\ a_rtb (a_symbol c a y) = a_rtb a).
Proof.
  unfold a_symbol, a_place, a_assoc, a_align.
  destruct (y_fun y), (y_kind y), (is_intern (y_link y)), (in_bss c y); cbn; auto 10.
Qed.
Lemma a_symbol_off c a y l : l <> y_id y -> a_off (a_symbol c a y) l = a_off a l.
Proof.
  intro N. unfold a_symbol, a_place, a_assoc, a_align.
  destruct (y_fun y), (y_kind y), (is_intern (y_link y)), (in_bss c y); cbn; unfold upd_off; auto;
  destruct (Z.eqb_spec l (y_id y)); auto; contradiction.
Qed.
Lemma loc_symbol c a y : loc a -> loc (a_symbol c a y).
Proof.
  intros HL. unfold a_symbol. set (a1 := w_str a _). assert (loc a1) as L1 by exact HL. clearbody a1. clear HL.
  assert (forall nm, exists a2 e, a_place c a1 nm y = (a2, e) /\ loc a2 /\ (is_intern (y_link y) = true -> 0 <= st_info e < 16)) as P.
  { intro nm. unfold a_place, bnd. destruct (y_fun y), (y_kind y), (in_bss c y); eexists; eexists; (split; [reflexivity|]); split;
      try exact L1; try exact (loc_align _ 4 _ L1); try exact (loc_align _ 5 _ L1); try exact (loc_align _ 6 _ L1);
      intros ->; cbn [st_info]; lia. }
  destruct (P (int32 (zlen (str_base (a_str a))))) as (a2 & e & -> & (I & NE & F) & B).
  unfold a_assoc. destruct (is_intern (y_link y)).
  - assert (loc (w_off (w_ent a2 (a_ent a2 ++ [e])) (upd_off (a_off a2) (y_id y) (zlen (a_ent a2))))) as X.
    { split; [exact I|]. split; [cbn; destruct (a_ent a2); discriminate|]. cbn [w_off w_ent a_ent].
      apply Forall_app. split; [exact F|]. constructor; auto. }
    destruct (y_fun y); exact X.
  - destruct (y_fun y); repeat split; auto.
Qed.
Lemma cur_ok_symbol c a y : y_fun y = true -> cur_ok (a_symbol c a y).
Proof.
  intro F. unfold a_symbol, a_assoc, cur_ok. destruct (a_place _ _ _ _) as [a2 e]. rewrite F.
  destruct (is_intern (y_link y)); cbn [w_cur w_off w_ent w_glob a_cur a_ent a_glob].
  - unfold zlen. rewrite app_length. cbn [length]. lia.
  - rewrite app_length. cbn. lia.
Qed.

Lemma R_pend a s x : R a s -> R (w_pend a x) (set_pend s x).
Proof. intros (cp & -> & C). exists cp. split; [reflexivity|exact C]. Qed.
Lemma fun_R c a s y b : R a s -> loc a -> a_pend a = [] -> item_wf (TFun y b) -> NoDup (ids_of (TFun y b)) ->
  (forall l, In l (ids_of (TFun y b)) -> a_off a l = 0) ->
  zlen (a_txt a) + code_len b < 2 ^ 31 ->
  exists s', run c s (ops_of_item (TFun y b)) = Ok s' /\ R (a_fun c a y b) s'.
Proof.
  intros HR HL PE (WS & WF & WK & WC & (ps & r & EB & EN) & WJ) ND O B.
  cbn [ids_of sym_of body_of] in ND, O, WS. assert (~ In (y_id y) (map y_id (labels_of b))) as NI by (inversion ND; assumption).
  assert (NoDup (map y_id (labels_of b))) as ND' by (inversion ND; assumption).
  cbn [ops_of_item]. cbn [run step].
  destruct (symbol_R c a s y HR HL WS (O _ (or_introl eq_refl))) as (s1 & E1 & R1). rewrite E1. cbn [bind].
  destruct (a_symbol_txt c a y) as (TX & TP & TR & _).
  pose proof (a_symbol_off c a y) as OF. pose proof (loc_symbol c a y HL) as L1.
  pose proof (cur_ok_symbol c a y WF) as CK. unfold a_fun. set (a1 := a_symbol c a y) in *. clearbody a1.
  rewrite run_app.
  destruct (body_R c b a1 s1 R1 L1 CK WC) as (s2 & E2 & R2).
  { rewrite TX. exact B. } { exact ND'. }
  { intros l I. rewrite OF; [apply O; right; exact I|]. intros ->. contradiction. }
  rewrite E2. cbn [bind run step].
  set (p := zlen (a_txt a1)) in *. set (K := off_b (a_off a1) p b).
  unfold flush_text_displacements.
  assert (pend s2 = pend_b (a_off a1) p b) as ->.
  { destruct R2 as (cp & -> & _). change (pend (conc (eff a1 b) cp)) with (a_pend (eff a1 b)).
    unfold eff. rewrite incr_eq. cbn [w_glob w_ent w_off w_pend w_rt w_txt a_pend]. rewrite TP, PE. reflexivity. }
  assert (a_off (eff a1 b) = K) as EO by (unfold eff; rewrite incr_eq; reflexivity).
  assert (a_txt (eff a1 b) = a_txt a1 ++ raw_b (a_off a1) p b) as ET by (unfold eff; rewrite incr_eq; reflexivity).
  assert (zlen (a_txt (eff a1 b)) = p + code_len b) as TL.
  { rewrite ET, zlen_app. fold p. f_equal. generalize (a_off a1) p. clear. induction b as [|[y|ps] r IH]; intros k p;
      cbn [raw_b code_len fold_right clen]; try fold (code_len r); auto.
    - unfold ilen. destruct (is_nop ps); [rewrite IH; lia|]. rewrite zlen_app, raw_p_len, IH. reflexivity. }
  assert (0 <= p) as PP by apply zlen_nonneg.
  assert (forall l, In l (map y_id (labels_of b)) -> 0 < K l) as KP.
  { intros l I. unfold K. rewrite EB in *. cbn [off_b]. cbn [labels_of flat_map app] in I, ND'. fold (labels_of r) in *.
    pose proof (off_b_pos r (a_off a1) (p + ilen ps) l ND' I).
    unfold ilen in *. rewrite EN in *. pose proof (Forall_inv WC) as W0. destruct W0 as (_ & (b0 & c0 & r0 & EP) & _).
    rewrite EP, plens_cons in *. cbn [plen] in *. rewrite zlen_cons in *.
    pose proof (zlen_nonneg c0). pose proof (plens_nonneg r0). lia. }
  destruct (fix_all_R (pend_b (a_off a1) p b) _ s2 R2) as (s3 & E3 & R3).
  { apply Forall_forall. intros [l o] I. cbn [fst snd]. rewrite EO, TL. apply pend_b_in in I. destruct I as (I1 & I2 & I3).
    specialize (KP l (WJ l I1)). lia. }
  rewrite E3. cbn [bind]. eexists. split; [reflexivity|].
  assert (R (w_pend (w_txt (eff a1 b) (fixes (a_off (eff a1 b)) (pend_b (a_off a1) p b) (a_txt (eff a1 b)))) []) (set_pend s3 [])) as R4.
  { apply R_pend. exact R3. }
  rewrite EO, ET in R4.
  rewrite (fixes_b K b (a_off a1) p (a_txt a1) eq_refl) in R4.
  - match type of R4 with R ?x _ => match goal with |- R ?y _ => replace y with x; [exact R4|] end end.
    unfold eff. fold p. fold K. rewrite !incr_eq. apply abs_eq; try reflexivity. cbn. symmetry. rewrite TP. exact PE.
  - intros l NZ. unfold K. destruct (in_dec Z.eq_dec l (map y_id (labels_of b))) as [I|N]; [|apply off_b_other; exact N].
    exfalso. apply NZ. rewrite OF; [apply O; right; exact I|]. intros ->. contradiction.
  - intros z r1 r2 E. unfold K. rewrite E. apply off_b_at. rewrite <- E. exact ND'.
Qed.
