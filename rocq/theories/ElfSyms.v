(* C33: the symbol table and the relocations. *)
From Coq Require Import List ZArith Lia Bool.
From Verif Require Import Util Bytes ElfModel ElfSpec ElfProofs ElfSteps ElfJump ElfItems ElfAll ElfFlush ElfRead ElfFinal ElfObject ElfFacts.
Import ListNotations.
Open Scope Z_scope.

Lemma goff_other g : forall k o z, ~ In z (map fst g) -> goff k o g z = o z.
Proof.
  induction g as [|[y e] r IH]; intros k o z N; cbn [goff]; [reflexivity|]. cbn [map fst In] in N.
  rewrite IH by tauto. unfold upd_off. destruct (Z.eqb_spec z y); [subst; tauto|reflexivity].
Qed.
Lemma goff_at g1 y e g2 : forall k o, ~ In y (map fst g2) -> goff k o (g1 ++ (y, e) :: g2) y = k + zlen g1.
Proof.
  induction g1 as [|[z d] r IH]; intros k o N; cbn [app goff].
  - rewrite goff_other by exact N. unfold upd_off. rewrite Z.eqb_refl, zlen_nil. lia.
  - rewrite IH by exact N. rewrite zlen_cons. lia.
Qed.
Definition ext (t : item) : bool := negb (is_intern (y_link (sym_of t))).
Lemma all_glob c file l : pre_wf l -> str_len file l < 2 ^ 31 ->
  map fst (a_glob (a_all c file l)) = map (fun t => y_id (sym_of t)) (filter ext l).
Proof.
  induction l as [|t l IH] using rev_ind; intros W B; [reflexivity|]. pose proof (str_len_app file l [t]).
  rewrite (s_glob _ _ _ _ _ (all_step c file l t W ltac:(lia))). rewrite map_app, IH by (try lia; eapply pre_wf_l; eauto).
  rewrite filter_app, map_app. f_equal. cbn [filter]. unfold ext. destruct (is_intern _); reflexivity.
Qed.
Lemma ids_in l x : In x (map (fun t => y_id (sym_of t)) l) -> In x (flat_map ids_of l).
Proof.
  induction l as [|t l IH]; [intros []|]. cbn [map flat_map ids_of app In]. intros [H|H]; [auto|]. right. apply in_or_app. auto.
Qed.
Lemma ids_filter l x : In x (map (fun t => y_id (sym_of t)) (filter ext l)) -> In x (flat_map ids_of l).
Proof. intro H. apply ids_in. apply in_map_iff in H. destruct H as (t & <- & H). apply filter_In in H. apply in_map_iff. exists t. tauto. Qed.

Lemma fin_ok c file l : fin_fields c (a_all c file l) (a_fin c file l). Proof. apply fin_fields_ok. Qed.
(* position of the symbol of t in the table *)
Definition index (c : ctx) (file : option (list Z)) (l1 : list item) (t : item) (l2 : list item) : nat :=
  if is_intern (y_link (sym_of t)) then length (a_ent (a_all c file l1))
  else (length (a_ent (a_all c file (l1 ++ t :: l2))) + length (a_glob (a_all c file l1)))%nat.

Section Item.
Variables (c : ctx) (file : option (list Z)) (l1 : list item) (t : item) (l2 : list item).
Local Notation l := (l1 ++ t :: l2).
Hypothesis W : wf l.
Hypothesis SM : small c file l.
Local Notation a1 := (a_all c file l1).
Local Notation a2 := (a_all c file (l1 ++ [t])).
Local Notation a := (a_all c file l).
Lemma it_nth : nth_error (a_ent (a_fin c file l)) (index c file l1 t l2) = Some (entry c l1 a1 t).
Proof.
  pose proof (it_step _ _ _ _ _ W SM) as S. pose proof (it_mono _ _ _ _ _ W SM) as M.
  rewrite (f_ent _ _ _ (fin_ok c file l)). unfold index.
  pose proof (s_ent _ _ _ _ _ S) as SE. pose proof (s_glob _ _ _ _ _ S) as SG. destruct (is_intern (y_link (sym_of t))).
  - destruct (m_ent _ _ M) as (z & EZ). rewrite EZ, SE, <- !app_assoc. rewrite nth_error_app2, Nat.sub_diag by lia. reflexivity.
  - destruct (m_glob _ _ M) as (z & EZ). rewrite nth_error_app2 by lia. rewrite Nat.add_comm, Nat.add_sub.
    rewrite EZ, SG, !map_app, <- !app_assoc. rewrite nth_error_app2 by (rewrite map_length; lia). rewrite map_length, Nat.sub_diag. reflexivity.
Qed.
Lemma it_off : goff (zlen (a_ent a)) (a_off a) (a_glob a) (y_id (sym_of t)) = Z.of_nat (index c file l1 t l2).
Proof.
  pose proof (it_len _ _ _ _ _ SM) as [L _]. pose proof (wf_pre _ W) as PW.
  pose proof (all_glob c file l PW ltac:(lia)) as G.
  pose proof (proj2 PW) as ND. rewrite flat_map_app in ND. cbn [flat_map ids_of app] in ND.
  apply NoDup_remove in ND. destruct ND as [_ ND].
  unfold index. destruct (is_intern (y_link (sym_of t))) eqn:LI.
  - rewrite goff_other.
    + apply all_off; [exact PW|lia|exact LI].
    + rewrite G. rewrite filter_app, map_app. cbn [filter]. unfold ext at 2. rewrite LI. cbn [negb].
      intro X. apply in_app_or in X. apply ND. apply in_or_app. destruct X as [X|X]; apply ids_filter in X; [auto|].
      right. apply in_or_app. auto.
  - pose proof (it_step _ _ _ _ _ W SM) as S. pose proof (it_mono _ _ _ _ _ W SM) as M.
    pose proof (s_glob _ _ _ _ _ S) as SG. rewrite LI in SG. destruct (m_glob _ _ M) as (z & EZ). rewrite EZ, SG, <- app_assoc. cbn [app].
    rewrite goff_at.
    + unfold zlen. lia.
    + rewrite EZ, SG, !map_app, filter_app, map_app in G. cbn [filter] in G. unfold ext at 2 in G. rewrite LI in G. cbn [negb map fst] in G.
      rewrite <- app_assoc in G. cbn [app] in G.
      assert (pre_wf l1) as PW1 by (eapply pre_wf_l; exact PW). pose proof (it_len _ _ _ _ _ SM) as [_ L1].
      rewrite (all_glob c file l1 PW1 L1) in G. apply app_inv_head in G. injection G as G. rewrite G.
      intro X. apply ids_filter in X. apply ND. apply in_or_app. right. apply in_or_app. auto.
Qed.
Lemma it_name : exists z, a_str (a_fin c file l) = str_base (a_str a1) ++ y_name (sym_of t) ++ 0 :: z.
Proof.
  pose proof (it_step _ _ _ _ _ W SM) as S. destruct (m_str _ _ (it_mono _ _ _ _ _ W SM)) as (z & EZ).
  rewrite (s_str _ _ _ _ _ S) in EZ. rewrite (str_base_app (str_base (a_str a1))) in EZ by apply str_base_ne.
  rewrite (f_str _ _ _ (fin_ok c file l)).
  assert (a_str a <> []) as NE.
  { intro E. rewrite E in EZ. cbn [str_base] in EZ. apply (f_equal (@length Z)) in EZ. rewrite !app_length in EZ. cbn [length] in EZ.
    destruct (a_str a1); cbn [str_base length] in EZ; lia. }
  assert (str_base (a_str a) = a_str a) as SB by (destruct (a_str a); [contradiction|reflexivity]).
  rewrite SB in *. destruct (pic c).
  - exists (z ++ n_got ++ [0]). rewrite EZ, <- !app_assoc. reflexivity.
  - exists z. rewrite EZ, <- !app_assoc. reflexivity.
Qed.
Lemma it_symbol f : file_reads f (secs_of (a_fin c file l)) -> let k := Z.of_nat (index c file l1 t l2) in
  0 < k < sym_count f 3 /\ sym_name f 3 k = Some (y_name (sym_of t)) /\ sym_bind f 3 k = bind_of (sym_of t) /\
  sym_type f 3 k = type_of c (sym_of t) /\ sym_shndx f 3 k = shndx_of (place_of c (sym_of t)) /\
  sym_value f 3 k = value_of c l1 t /\ sym_size f 3 k = size_of_sym c t.
Proof.
  intros FR k. pose proof (secs_read_ok _ _ FR) as Q. pose proof it_nth as N.
  destruct (entry_small c file l1 l2 t W SM) as (ES & EI & ET).
  pose proof (ent_read f 3 _ _ _ (q_ent _ _ Q) N ES) as [R1 R2 R3 R4 R5 R6]. fold k in R1, R2, R3, R4, R5, R6.
  assert ((0 < index c file l1 t l2)%nat) as POS.
  { pose proof (it_inv _ _ _ _ _ W SM) as I1. destruct (i_loc _ _ _ I1) as (_ & NE & _). destruct (it_len _ _ _ _ _ SM) as [L _].
    destruct (all_inv c file l (wf_pre _ W) ltac:(lia)) as (I & _). destruct (i_loc _ _ _ I) as (_ & NE' & _).
    unfold index. destruct (is_intern _); [destruct (a_ent a1); [contradiction|cbn; lia]|destruct (a_ent a); [contradiction|cbn; lia]]. }
  assert ((index c file l1 t l2 < length (a_ent (a_fin c file l)))%nat) as LT by (apply nth_error_Some; congruence).
  split; [|split; [|split; [|split; [|split; [|split]]]]].
  - unfold sym_count. destruct (q_sizes _ _ Q) as (_ & -> & _). rewrite Z.mul_comm, Z.div_mul by lia. subst k. unfold zlen. lia.
  - unfold sym_name. destruct (q_links _ _ Q) as (-> & _). rewrite (q_str _ _ Q), R1. destruct it_name as (z & ->).
    cbn [entry st_name]. apply string_mid; [reflexivity|]. destruct (it_wf _ _ _ W) as [_ WT]. destruct WT as ((_ & _ & _ & _ & _ & WN) & _). exact WN.
  - rewrite R3, EI. rewrite Z.mul_comm, Z.div_add_l, Z.div_small by lia. lia.
  - rewrite R2, EI. rewrite Z.add_comm, Z.mul_comm, Z.mod_add, Z.mod_small by lia. reflexivity.
  - exact R4.
  - exact R5.
  - exact R6.
Qed.
End Item.

Definition idx (c : ctx) (file : option (list Z)) (l : list item) (n : nat) : Z :=
  match nth_error l n with Some t => Z.of_nat (index c file (firstn n l) t (skipn (S n) l)) | None => 0 end.
Lemma idx_at c file l1 t l2 : idx c file (l1 ++ t :: l2) (length l1) = Z.of_nat (index c file l1 t l2).
Proof.
  unfold idx. rewrite nth_error_app2, Nat.sub_diag by lia. cbn [nth_error]. f_equal. f_equal.
  - rewrite firstn_app, firstn_all, Nat.sub_diag. cbn [firstn]. apply app_nil_r.
  - rewrite skipn_app, skipn_all2 by lia. replace (S (length l1) - length l1)%nat with 1%nat by lia. reflexivity.
Qed.
Lemma grows_len {A} (x y : list A) : grows x y -> (length x <= length y)%nat.
Proof. intros [z ->]. rewrite app_length. lia. Qed.
Lemma index_lt c file l1 t l2 u l3 : wf (l1 ++ t :: l2 ++ u :: l3) -> small c file (l1 ++ t :: l2 ++ u :: l3) ->
  index c file l1 t (l2 ++ u :: l3) <> index c file (l1 ++ t :: l2) u l3.
Proof.
  intros W SM. pose proof (it_step _ _ _ _ _ W SM) as S1.
  assert (wf ((l1 ++ t :: l2) ++ u :: l3)) as W2 by (rewrite <- app_assoc; exact W).
  assert (small c file ((l1 ++ t :: l2) ++ u :: l3)) as SM2 by (rewrite <- app_assoc; exact SM).
  pose proof (it_step _ _ _ _ _ W2 SM2) as S2. pose proof (it_mono _ _ _ _ _ W2 SM2) as M2.
  pose proof (it_mono _ _ _ _ _ W SM) as M1.
  pose proof (it_len _ _ _ _ _ SM2) as [L1 L2].
  assert (mono (a_all c file (l1 ++ [t])) (a_all c file (l1 ++ t :: l2))) as M3.
  { replace (l1 ++ t :: l2) with ((l1 ++ [t]) ++ l2) in * by (rewrite <- app_assoc; reflexivity).
    apply all_mono; [eapply pre_wf_l; apply (it_pre _ _ _ W2)|exact L2]. }
  assert ((l1 ++ t :: l2) ++ u :: l3 = l1 ++ t :: l2 ++ u :: l3) as EL by (rewrite <- app_assoc; reflexivity).
  rewrite EL in *.
  pose proof (grows_len _ _ (m_ent _ _ M1)). pose proof (grows_len _ _ (m_ent _ _ M2)). pose proof (grows_len _ _ (m_ent _ _ M3)).
  pose proof (grows_len _ _ (m_glob _ _ M1)). pose proof (grows_len _ _ (m_glob _ _ M2)). pose proof (grows_len _ _ (m_glob _ _ M3)).
  pose proof (s_ent _ _ _ _ _ S1) as E1. pose proof (s_glob _ _ _ _ _ S1) as G1.
  pose proof (s_ent _ _ _ _ _ S2) as E2. pose proof (s_glob _ _ _ _ _ S2) as G2.
  apply (f_equal (@length _)) in E1, G1, E2, G2. rewrite app_length in E1, G1, E2, G2.
  unfold index. rewrite EL. destruct (is_intern (y_link (sym_of t))), (is_intern (y_link (sym_of u))); cbn [length] in *; lia.
Qed.
Lemma idx_inj c file l i j : wf l -> small c file l -> (i < length l)%nat -> (j < length l)%nat -> idx c file l i = idx c file l j -> i = j.
Proof.
  intros W SM. assert (forall i j, (i < j)%nat -> (j < length l)%nat -> idx c file l i <> idx c file l j) as H.
  { clear i j. intros i j B1 B2.
    destruct (nth_error l j) as [u|] eqn:EU; [|apply nth_error_None in EU; lia].
    apply nth_error_split in EU. destruct EU as (m & l3 & EL & <-).
    destruct (nth_error m i) as [t|] eqn:ET; [|apply nth_error_None in ET; lia].
    apply nth_error_split in ET. destruct ET as (l1 & l2 & -> & <-). rewrite EL in *.
    rewrite (idx_at c file (l1 ++ t :: l2)). rewrite <- app_assoc in *. cbn [app] in *. rewrite (idx_at c file l1).
    intro E. apply (index_lt c file l1 t l2 u l3 W SM). lia. }
  intros B1 B2 E. destruct (Nat.lt_trichotomy i j) as [X|[X|X]]; [|exact X|]; exfalso; eapply H; eauto.
Qed.
Lemma count_ok c file l f : wf l -> small c file l -> file_reads f (secs_of (a_fin c file l)) ->
  sym_count f 3 = (match file with Some _ => 8 | None => 7 end) + zlen l + (if pic c then 1 else 0).
Proof.
  intros W SM FR. pose proof (secs_read_ok _ _ FR) as Q. unfold sym_count. destruct (q_sizes _ _ Q) as (_ & -> & _).
  rewrite Z.mul_comm, Z.div_mul by lia. rewrite (f_ent _ _ _ (fin_ok c file l)). rewrite !zlen_app, zlen_map.
  destruct (small_parts _ _ _ SM) as (_ & _ & _ & _ & S5 & _).
  pose proof (all_counts c file l (wf_pre _ W) ltac:(lia)) as C. rewrite ent0_len in C.
  destruct (pic c); unfold zlen in *; cbn [length]; lia.
Qed.
Lemma boundary c file l f : wf l -> small c file l -> file_reads f (secs_of (a_fin c file l)) ->
  (exists t, In t l /\ bind_of (sym_of t) = 1) \/ pic c = true ->
  forall k, 0 <= k < sym_count f 3 -> (k < sec_info f 3 -> sym_bind f 3 k = 0) /\ (sec_info f 3 <= k -> sym_bind f 3 k = 1).
Proof.
  intros W SM FR EX k B. pose proof (secs_read_ok _ _ FR) as Q. destruct (small_parts _ _ _ SM) as (_ & _ & _ & _ & S5 & _).
  destruct (all_inv c file l (wf_pre _ W) ltac:(lia)) as (I & SL & _). destruct (i_loc _ _ _ I) as (L1 & L2 & L3).
  assert (sec_info f 3 = zlen (a_ent (a_all c file l))) as EI.
  { rewrite (q_info _ _ Q), (f_info _ _ _ (fin_ok c file l) L1 L2). destruct (a_glob (a_all c file l)) as [|p r] eqn:EG; [|reflexivity].
    destruct EX as [(t & IT & BT)|EX]; [|rewrite EX; reflexivity]. exfalso.
    pose proof (all_glob c file l (wf_pre _ W) ltac:(lia)) as G. rewrite EG in G. cbn [map] in G.
    assert (In t (filter ext l)) as X. { apply filter_In. split; [exact IT|]. unfold bind_of in BT. unfold ext, is_intern. destruct (y_link (sym_of t)); auto; discriminate. }
    destruct (filter ext l); [destruct X|discriminate]. }
  rewrite EI. unfold sym_count in B. destruct (q_sizes _ _ Q) as (_ & ES & _). rewrite ES, Z.mul_comm, Z.div_mul in B by lia.
  destruct (nth_error (a_ent (a_fin c file l)) (Z.to_nat k)) as [e|] eqn:NE.
  2: { apply nth_error_None in NE. unfold zlen in B. lia. }
  destruct (entries_small c file l [] ltac:(rewrite app_nil_r; exact W) ltac:(rewrite app_nil_r; exact SM)) as [E1 E2].
  assert (ent_small e /\ (k < zlen (a_ent (a_all c file l)) -> st_info e / 16 = 0) /\ (zlen (a_ent (a_all c file l)) <= k -> st_info e / 16 = 1)) as (E3 & E4 & E5).
  { rewrite (f_ent _ _ _ (fin_ok c file l)) in NE. destruct (Nat.lt_ge_cases (Z.to_nat k) (length (a_ent (a_all c file l)))) as [X|X].
    - rewrite nth_error_app1 in NE by exact X. apply nth_error_In in NE. rewrite Forall_forall in E1, L3. split; [auto|].
      split; [|unfold zlen; lia]. intros _. apply Z.div_small. apply L3. exact NE.
    - rewrite nth_error_app2 in NE by exact X. apply nth_error_In in NE. split.
      + apply in_app_or in NE. destruct NE as [NE|NE].
        * apply in_map_iff in NE. destruct NE as (p & <- & NE). rewrite Forall_forall in E2. apply (E2 p NE).
        * destruct (pic c); [|destruct NE]. destruct NE as [<-|[]]. unfold ent_small. cbn [st_name st_info st_shndx st_value st_size].
          pose proof (zlen_nonneg (str_base (a_str (a_all c file l)))). change (256 ^ 4) with (2 ^ 32). lia.
      + split; [unfold zlen; lia|]. intros _. apply in_app_or in NE. destruct NE as [NE|NE].
        * apply in_map_iff in NE. destruct NE as (p & <- & NE). rewrite Forall_forall in E2. apply (E2 p NE).
        * destruct (pic c); [|destruct NE]. destruct NE as [<-|[]]. reflexivity. }
  pose proof (ent_read f 3 _ _ _ (q_ent _ _ Q) NE E3) as ER. rewrite Z2Nat.id in ER by lia. rewrite (r_bind _ _ _ _ ER). auto.
Qed.

(* relocations *)
Lemma piece_rels_in ps : forall pos y t o a, In (y, t, o, a) (piece_rels pos ps) -> In y (prels ps).
Proof.
  induction ps as [|p r IH]; intros pos y t o a I; [destruct I|]. cbn [piece_rels prels flat_map] in *. apply in_app_or in I. apply in_or_app.
  destruct I as [I|I]; [left|right; eapply IH; eauto]. destruct p; try destruct I. injection H as <- _ _ _. left. reflexivity. destruct H.
Qed.
Lemma code_rels_in b : forall pos y t o a, In (y, t, o, a) (code_rels pos b) -> In y (flat_map crels b).
Proof.
  induction b as [|x r IH]; intros pos y t o a I; [destruct I|]. cbn [code_rels flat_map] in *. apply in_app_or in I. apply in_or_app.
  destruct I as [I|I]; [left|right; eapply IH; eauto]. destruct x as [z|ps]; [destruct I|]. cbn [crels]. eapply piece_rels_in; eauto.
Qed.
Lemma dat_rels_in ds : forall pos y t o a, In (y, t, o, a) (dat_rels pos ds) -> In y (flat_map drels ds).
Proof.
  induction ds as [|x r IH]; intros pos y t o a I; [destruct I|]. cbn [dat_rels flat_map] in *. apply in_app_or in I. apply in_or_app.
  destruct I as [I|I]; [left|right; eapply IH; eauto]. destruct x as [z|z ad]; [destruct I|]. cbn [drels]. destruct I as [I|[]]. injection I as <- _ _ _. left. reflexivity.
Qed.
Lemma relocs_in c l y t o a : forall b, In (y, t, o, a) (text_relocs c b l) \/ In (y, t, o, a) (data_relocs c b l) -> In y (flat_map rels_of l).
Proof.
  induction l as [|x r IH]; intros b [I|I]; try destruct I; cbn [text_relocs data_relocs flat_map] in *; apply in_app_or in I; apply in_or_app.
  - destruct I as [I|I]; [left|right; eapply IH; eauto]. unfold rels_of. apply in_or_app. left. eapply code_rels_in; eauto.
  - destruct I as [I|I]; [left|right; eapply IH; eauto]. unfold rels_of. apply in_or_app. right. eapply dat_rels_in; eauto.
Qed.
Lemma item_of l y : In y (map (fun t => y_id (sym_of t)) l) -> exists l1 x l2, l = l1 ++ x :: l2 /\ y_id (sym_of x) = y.
Proof. intro I. apply in_map_iff in I. destruct I as (x & E & I). apply in_split in I. destruct I as (l1 & l2 & ->). eauto. Qed.
Lemma rel_one c file l f n sec rs j y t o ad : wf l -> small c file l -> file_reads f (secs_of (a_fin c file l)) ->
  content f sec = flat_map (rb (goff (zlen (a_ent (a_all c file l))) (a_off (a_all c file l)) (a_glob (a_all c file l)))) (map mkrel rs) ->
  Forall (rel_ok n) rs -> n < 2 ^ 31 -> Forall addend_ok rs -> (forall y t o a, In (y, t, o, a) rs -> In y (flat_map rels_of l)) ->
  nth_error rs j = Some (y, t, o, ad) ->
  rel_offset f sec (Z.of_nat j) = o /\ rel_type f sec (Z.of_nat j) = t /\ rel_addend f sec (Z.of_nat j) = ad - rel_end t /\
  exists l1 x l2, l = l1 ++ x :: l2 /\ y_id (sym_of x) = y /\ rel_sym f sec (Z.of_nat j) = idx c file l (length l1).
Proof.
  intros W SM FR EC OK BN AD IN N. pose proof (nth_error_In _ _ N) as I.
  rewrite Forall_forall in OK, AD. pose proof (OK _ I) as (K1 & K2). pose proof (AD _ I) as K3. unfold addend_ok in K3. cbn [snd] in K3.
  destruct W as (W1 & W2 & W3). destruct (item_of l y) as (l1 & x & l2 & EL & EY); [apply W3; eapply IN; eauto|].
  subst l. assert (wf (l1 ++ x :: l2)) as W by (split; [exact W1|split; [exact W2|exact W3]]).
  pose proof (it_off c file l1 x l2 W SM) as EO. rewrite EY in EO.
  pose proof (it_symbol c file l1 x l2 W SM f FR) as (SB & _). rewrite (count_ok c file _ f W SM FR) in SB.
  destruct (small_parts _ _ _ SM) as (_ & _ & _ & _ & S5 & _). pose proof (len_str file (l1 ++ x :: l2)) as LS.
  assert (Z.of_nat (index c file l1 x l2) < 256 ^ 4) as BI by (change (256 ^ 4) with (2 ^ 32); destruct file, (pic c); lia).
  cbn [In] in K1.
  pose proof (rel_read f sec _ _ j (Reloc y t o ad) EC ltac:(rewrite nth_error_map, N; reflexivity)) as RR.
  cbn [r_offset r_type r_symbol r_addend] in RR. rewrite EO in RR.
  assert (2 ^ 31 < 256 ^ 8) as X8 by reflexivity.
  specialize (RR ltac:(lia) ltac:(lia) ltac:(lia) K3). destruct RR as [R1 R2 R3 R4]. cbn [r_offset r_type r_symbol r_addend] in *.
  split; [exact R1|]. split; [exact R2|]. split.
  - rewrite R4. unfold rel_end. destruct K1 as [<-|[<-|[<-|[<-|[]]]]]; cbn [Z.eqb Pos.eqb orb]; lia.
  - exists l1, x, l2. split; [reflexivity|]. split; [exact EY|]. rewrite R3, EO, idx_at. reflexivity.
Qed.
Lemma rel_facts c file l f : wf l -> small c file l -> file_reads f (secs_of (a_fin c file l)) ->
  (rel_count f 9 = zlen (text_relocs c [] l) /\ rel_count f 7 = zlen (data_relocs c [] l)) /\
  (forall j y t o ad, nth_error (text_relocs c [] l) j = Some (y, t, o, ad) ->
     rel_offset f 9 (Z.of_nat j) = o /\ rel_type f 9 (Z.of_nat j) = t /\ rel_addend f 9 (Z.of_nat j) = ad - rel_end t /\
     exists l1 x l2, l = l1 ++ x :: l2 /\ y_id (sym_of x) = y /\ rel_sym f 9 (Z.of_nat j) = idx c file l (length l1)) /\
  (forall j y t o ad, nth_error (data_relocs c [] l) j = Some (y, t, o, ad) ->
     rel_offset f 7 (Z.of_nat j) = o /\ rel_type f 7 (Z.of_nat j) = t /\ rel_addend f 7 (Z.of_nat j) = ad - rel_end t /\
     exists l1 x l2, l = l1 ++ x :: l2 /\ y_id (sym_of x) = y /\ rel_sym f 7 (Z.of_nat j) = idx c file l (length l1)).
Proof.
  intros W SM FR. pose proof (secs_read_ok _ _ FR) as Q. pose proof SM as (S1 & S2 & _ & _ & S5 & _ & _ & _ & S9 & S10).
  destruct (all_rels c file l (wf_pre _ W) ltac:(lia)) as [RT RD]. destruct (rels_ok c l (proj1 W)) as [OT OD].
  pose proof (f_rdb _ _ _ (fin_ok c file l)) as ED. pose proof (f_rtb _ _ _ (fin_ok c file l)) as ET.
  rewrite RD in ED. rewrite RT in ET.
  split; [|split].
  - unfold rel_count. destruct (q_sizes _ _ Q) as (_ & _ & _ & _ & _ & -> & _ & ->). rewrite ED, ET, !rbs_len, !zlen_map.
    rewrite !(Z.mul_comm 24), !Z.div_mul by lia. auto.
  - intros j y t o ad N. apply (rel_one c file l f (place_len c PText l) 9 (text_relocs c [] l) j y t o ad W SM FR); auto.
    + rewrite (q_rtb _ _ Q). exact ET.
    + intros y0 t0 o0 a0 I0. apply (relocs_in c l y0 t0 o0 a0 []). auto.
  - intros j y t o ad N. apply (rel_one c file l f (place_len c PData l) 7 (data_relocs c [] l) j y t o ad W SM FR); auto.
    + rewrite (q_rdb _ _ Q). exact ED.
    + intros y0 t0 o0 a0 I0. apply (relocs_in c l y0 t0 o0 a0 []). auto.
Qed.
