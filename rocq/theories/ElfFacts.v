(* C32-C34 from the contents of the file. *)
From Coq Require Import List ZArith Lia Bool.
From Verif Require Import Util Bytes ElfModel ElfSpec ElfProofs ElfSteps ElfJump ElfItems ElfAll ElfFlush ElfRead ElfFinal ElfObject.
Import ListNotations.
Open Scope Z_scope.

(* --- sections --- *)
Lemma idx_in i : 1 <= i < 10 -> In i [1; 2; 3; 4; 5; 6; 7; 8; 9]. Proof. cbn [In]. lia. Qed.
Lemma sec_at f a i : file_reads f (secs_of a) -> 0 <= i < 10 ->
  exists x o, nth_error (secs_of a) (Z.to_nat i) = Some x /\ hdr_reads f i (with_offset (s_hdr x) o).
Proof.
  intros FR B. destruct (nth_error (secs_of a) (Z.to_nat i)) as [x|] eqn:E.
  - destruct (fr_sec _ _ FR _ _ E) as (o & H). rewrite Z2Nat.id in H by lia. eauto.
  - apply nth_error_None in E. change (length (secs_of a)) with 10%nat in E. lia.
Qed.
Lemma bits_at f a i x o : nth_error (secs_of a) (Z.to_nat i) = Some x -> hdr_reads f i (with_offset (s_hdr x) o) ->
  sec_type f i <> 8 -> is_nobits x = false.
Proof. intros E H N. rewrite (h_type _ _ _ H) in N. cbn in N. unfold is_nobits. apply Z.eqb_neq. exact N. Qed.
Lemma layout_facts f a : file_reads f (secs_of a) ->
  (forall i, 1 <= i < 10 -> sec_type f i <> 8 -> 64 + 64 * e_shnum f <= sec_offset f i /\ sec_offset f i + sec_size f i <= zlen f) /\
  (forall i j, 1 <= i -> i < j -> j < 10 -> sec_type f i <> 8 -> sec_type f j <> 8 -> sec_offset f i + sec_size f i <= sec_offset f j).
Proof.
  intro FR. assert (zlen (secs_of a) = 10) as Z10 by reflexivity. destruct (fr_hdr _ _ FR) as (_ & _ & EN & _). split.
  - intros i B T. destruct (sec_at f a i FR ltac:(lia)) as (x & o & E & H). pose proof (bits_at _ _ _ _ _ E H T) as NB.
    pose proof (fr_layout _ _ FR (Z.to_nat i) x ltac:(lia) E NB) as L. rewrite Z2Nat.id in L by lia. rewrite EN. exact L.
  - intros i j B1 B2 B3 T1 T2. destruct (sec_at f a i FR ltac:(lia)) as (x & o & E & H). pose proof (bits_at _ _ _ _ _ E H T1) as NB.
    destruct (sec_at f a j FR ltac:(lia)) as (y & o2 & E2 & H2). pose proof (bits_at _ _ _ _ _ E2 H2 T2) as NB2.
    pose proof (fr_disj _ _ FR (Z.to_nat i) x (Z.to_nat j) y ltac:(lia) ltac:(lia) E E2 NB NB2) as L. rewrite !Z2Nat.id in L by lia. exact L.
Qed.
Ltac sec FR i := let H := fresh in destruct (fr_sec _ _ FR i _ eq_refl) as (? & H); cbn [Z.of_nat Pos.of_succ_nat Pos.succ] in H; destruct H;
  cbn [with_offset s_hdr sh_name sh_type sh_flags sh_size sh_link sh_info sh_align sh_entsize sh_offset] in *.
Record secs_read (f : list Z) (a : abs) : Prop := {
  q_types : map (sec_type f) [0; 1; 2; 3; 4; 5; 6; 7; 8; 9] = [0; 3; 3; 2; 8; 1; 1; 4; 1; 4];
  q_names : map (sec_name f) [1; 2; 3; 4; 5; 6; 7; 8; 9] = [1; 11; 19; 27; 32; 40; 46; 57; 63];
  q_flags : map (sec_flags f) [1; 2; 3; 4; 5; 6; 7; 8; 9] = [0; 0; 0; 3; 2; 3; 0; 6; 0];
  q_links : sec_link f 3 = 2 /\ sec_link f 7 = 3 /\ sec_link f 9 = 3 /\ sec_info f 7 = 6 /\ sec_info f 9 = 8 /\
    sec_entsize f 3 = 24 /\ sec_entsize f 7 = 24 /\ sec_entsize f 9 = 24;
  q_info : sec_info f 3 = a_info a;
  q_sizes : sec_size f 2 = zlen (a_str a) /\ sec_size f 3 = 24 * zlen (a_ent a) /\ sec_size f 4 = a_bss a /\ sec_size f 5 = zlen (a_rod a) /\
    sec_size f 6 = zlen (a_dat a) /\ sec_size f 7 = zlen (a_rdb a) /\ sec_size f 8 = zlen (a_txt a) /\ sec_size f 9 = zlen (a_rtb a);
  q_align : sec_align f 4 = a_bal a /\ sec_align f 5 = a_ral a /\ sec_align f 6 = a_dal a /\ sec_align f 8 = 16;
  q_names_tab : content f 1 = names_tab; q_str : content f 2 = a_str a; q_ent : content f 3 = ents (a_ent a); q_rod : content f 5 = a_rod a;
  q_dat : content f 6 = a_dat a; q_rdb : content f 7 = a_rdb a; q_txt : content f 8 = a_txt a; q_rtb : content f 9 = a_rtb a }.
Lemma secs_read_ok f a : file_reads f (secs_of a) -> secs_read f a.
Proof.
  intro FR.
  pose proof (fr_content _ _ FR 1 _ ltac:(lia) eq_refl eq_refl) as C1. pose proof (fr_content _ _ FR 2 _ ltac:(lia) eq_refl eq_refl) as C2.
  pose proof (fr_content _ _ FR 3 _ ltac:(lia) eq_refl eq_refl) as C3. pose proof (fr_content _ _ FR 5 _ ltac:(lia) eq_refl eq_refl) as C5.
  pose proof (fr_content _ _ FR 6 _ ltac:(lia) eq_refl eq_refl) as C6. pose proof (fr_content _ _ FR 7 _ ltac:(lia) eq_refl eq_refl) as C7.
  pose proof (fr_content _ _ FR 8 _ ltac:(lia) eq_refl eq_refl) as C8. pose proof (fr_content _ _ FR 9 _ ltac:(lia) eq_refl eq_refl) as C9.
  cbn [Z.of_nat Pos.of_succ_nat Pos.succ s_buf] in *.
  sec FR 0%nat. sec FR 1%nat. sec FR 2%nat. sec FR 3%nat. sec FR 4%nat. sec FR 5%nat. sec FR 6%nat. sec FR 7%nat. sec FR 8%nat. sec FR 9%nat.
  change (sh_type (s_hdr null_sec)) with 0 in *. constructor; cbn [map]; try assumption; try congruence; repeat (split; [assumption|]); assumption.
Qed.
Lemma until_nul_app n r : Forall (fun b => 0 < b < 256) n -> until_nul (n ++ 0 :: r) = Some n.
Proof.
  induction n as [|c n IH]; intro F; cbn [app until_nul]; [reflexivity|]. inversion F; subst. destruct (Z.eqb_spec c 0); [lia|]. rewrite IH by assumption. reflexivity.
Qed.
Lemma string_mid u n r o : zlen u = o -> Forall (fun b => 0 < b < 256) n -> string_at (u ++ n ++ 0 :: r) o = Some n.
Proof.
  intros <- F. unfold string_at. rewrite to_nat_zlen. rewrite skipn_app, skipn_all, Nat.sub_diag. cbn [app skipn]. apply until_nul_app. exact F.
Qed.
Definition all_names : list (list Z) :=
  [n_shstrtab; n_strtab; n_symtab; n_bss; n_rodata; n_data; n_rela_data; n_text; n_rela_text].
Lemma names_facts f a : file_reads f (secs_of a) -> map (name_of_section f) [1; 2; 3; 4; 5; 6; 7; 8; 9] = map Some all_names.
Proof.
  intro FR. pose proof (secs_read_ok _ _ FR) as Q. destruct (fr_hdr _ _ FR) as (_ & _ & _ & ES).
  unfold name_of_section. rewrite ES, (q_names_tab _ _ Q). pose proof (q_names _ _ Q) as N. cbn [map] in N. injection N as N1 N2 N3 N4 N5 N6 N7 N8 N9.
  cbn [map]. rewrite N1, N2, N3, N4, N5, N6, N7, N8, N9. vm_compute. reflexivity.
Qed.

(* --- contents --- *)
Section Item.
Variables (c : ctx) (file : option (list Z)) (l1 : list item) (t : item) (l2 : list item).
Local Notation l := (l1 ++ t :: l2).
Hypothesis W : wf l.
Hypothesis SM : small c file l.
Local Notation a1 := (a_all c file l1).
Local Notation a2 := (a_all c file (l1 ++ [t])).
Local Notation a := (a_all c file l).
Lemma it_len : str_len file l + 22 < 2 ^ 31 /\ str_len file l1 < 2 ^ 31.
Proof. destruct (small_parts _ _ _ SM) as (_ & _ & _ & _ & S5 & _). pose proof (str_len_app file l1 (t :: l2)). lia. Qed.
Lemma it_pre : pre_wf (l1 ++ [t]).
Proof. apply pre_wf_l with l2. rewrite <- app_assoc. apply wf_pre. exact W. Qed.
Lemma it_step : stepped c l1 a1 a2 t.
Proof. apply all_step; [apply it_pre|apply it_len]. Qed.
Lemma it_inv : inv c l1 a1. Proof. apply all_inv; [eapply pre_wf_l; apply it_pre|apply it_len]. Qed.
Lemma it_mono : mono a2 a.
Proof.
  replace (l1 ++ t :: l2) with ((l1 ++ [t]) ++ l2) by (rewrite <- app_assoc; reflexivity).
  apply all_mono; rewrite <- app_assoc; [apply wf_pre; exact W|]. pose proof it_len as L. cbv zeta in L. cbn [app] in *. lia.
Qed.
Lemma it_wf : Forall item_wf l1 /\ item_wf t.
Proof. destruct W as (F & _). apply Forall_app in F. destruct F as [F1 F2]. inversion F2; auto. Qed.
Lemma it_data : place_of c (sym_of t) = PData -> bytes_at (a_dat a) (value_of c l1 t) (item_len t) = flat_map dat_bytes (data_of t).
Proof.
  intro P. pose proof (s_adds _ _ _ _ _ it_step) as A. rewrite P in A. destruct A as (_ & _ & _ & A).
  destruct (m_dat _ _ it_mono) as (z & EZ). rewrite EZ, A. rewrite <- !app_assoc. rewrite app_assoc.
  destruct it_wf as [F WT]. pose proof (al_pos t WT).
  apply bytes_mid.
  - rewrite zlen_app, zlen_zeros by (apply padz_nonneg; lia). rewrite align_up_padz by (try apply zlen_nonneg; lia).
    rewrite (i_dat _ _ _ it_inv). unfold value_of. rewrite P. reflexivity.
  - rewrite flat_dat_len. destruct t as [y|y ds|y b]; cbn [sym_of data_of item_len] in *; [|reflexivity|].
    + exfalso. destruct WT as [_ WK]. unfold place_of in P. destruct (y_fun y), (y_kind y), (y_link y), (no_common c); congruence.
    + exfalso. destruct WT as (_ & WF & WK & _). unfold place_of in P. rewrite WF, WK in P. discriminate.
Qed.
Lemma it_rodata : place_of c (sym_of t) = PRodata -> bytes_at (a_rod a) (value_of c l1 t) (y_size (sym_of t)) = y_raw (sym_of t).
Proof.
  intro P. pose proof (s_adds _ _ _ _ _ it_step) as A. rewrite P in A. destruct A as (_ & _ & _ & A).
  destruct (m_rod _ _ it_mono) as (z & EZ). rewrite EZ, A. rewrite <- !app_assoc. rewrite app_assoc.
  destruct it_wf as [F WT]. pose proof (al_pos t WT).
  apply bytes_mid.
  - rewrite zlen_app, zlen_zeros by (apply padz_nonneg; lia). rewrite align_up_padz by (try apply zlen_nonneg; lia).
    rewrite (i_rod _ _ _ it_inv). unfold value_of. rewrite P. reflexivity.
  - destruct WT as ((_ & _ & _ & _ & WR & _) & _). apply WR. unfold place_of in P.
    destruct (y_fun (sym_of t)), (y_kind (sym_of t)), (y_link (sym_of t)), (no_common c); try discriminate; auto.
Qed.
Lemma fin_p_app K p q : forall pos, fin_p K pos (p ++ q) = fin_p K pos p ++ fin_p K (pos + plens p) q.
Proof.
  induction p as [|[b|j d|y k ad] r IH]; intro pos; cbn [app fin_p].
  - change (plens []) with 0. rewrite Z.add_0_r. reflexivity.
  - rewrite plens_cons, IH, <- app_assoc, Z.add_assoc. reflexivity.
  - rewrite plens_cons, IH, <- app_assoc, Z.add_assoc. reflexivity.
  - rewrite plens_cons, IH, <- app_assoc, Z.add_assoc. reflexivity.
Qed.
Lemma fin_b_app K b d : forall pos, fin_b K pos (b ++ d) = fin_b K pos b ++ fin_b K (pos + code_len b) d.
Proof.
  induction b as [|[y|ps] r IH]; intro pos; cbn [app fin_b].
  - change (code_len []) with 0. rewrite Z.add_0_r. reflexivity.
  - rewrite code_len_cons, IH. cbn [clen]. rewrite Z.add_0_l. reflexivity.
  - rewrite code_len_cons. cbn [clen]. unfold ilen. destruct (is_nop ps); [rewrite IH, Z.add_0_l; reflexivity|].
    rewrite IH, <- app_assoc, Z.add_assoc. reflexivity.
Qed.
(* the bytes of a part of an instruction *)
Lemma it_text : place_of c (sym_of t) = PText -> exists K,
  (forall y b1 b2, body_of t = b1 ++ CLabel y :: b2 -> K (y_id y) = value_of c l1 t + code_len b1) /\
  forall b1 ps b2 p1 p p2, body_of t = b1 ++ CInstr ps :: b2 -> is_nop ps = false -> ps = p1 ++ p :: p2 ->
    let P := value_of c l1 t + code_len b1 + plens p1 in
    bytes_at (a_txt a) P (plen p) = fin_p K P [p] /\ 0 <= P /\ P + plen p <= zlen (a_txt a).
Proof.
  intro P. pose proof (s_adds _ _ _ _ _ it_step) as A. rewrite P in A. destruct A as (_ & _ & _ & K & A & AK).
  assert (value_of c l1 t = zlen (a_txt a1)) as EV by (rewrite (i_txt _ _ _ it_inv); unfold value_of; rewrite P; reflexivity).
  exists K. split; [intros y b1 b2 E; rewrite EV; eapply AK; eauto|].
  intros b1 ps b2 p1 p p2 EB EN EP. cbv zeta. destruct (m_txt _ _ it_mono) as (z & EZ).
  assert (a_txt a = ((a_txt a1 ++ fin_b K (zlen (a_txt a1)) b1) ++ fin_p K (zlen (a_txt a1) + code_len b1) p1) ++ fin_p K (zlen (a_txt a1) + code_len b1 + plens p1) [p] ++
     (fin_p K (zlen (a_txt a1) + code_len b1 + plens p1 + plen p) p2 ++ fin_b K (zlen (a_txt a1) + code_len b1 + plens ps) b2) ++ z) as E.
  { rewrite EZ, A, EB, fin_b_app. cbn [fin_b]. rewrite EN. rewrite EP at 1. change (p :: p2) with ([p] ++ p2). rewrite fin_p_app, fin_p_app.
    rewrite plens_cons. change (plens []) with 0. rewrite Z.add_0_r. rewrite <- !app_assoc. reflexivity. }
  assert (zlen ((a_txt a1 ++ fin_b K (zlen (a_txt a1)) b1) ++ fin_p K (zlen (a_txt a1) + code_len b1) p1) = zlen (a_txt a1) + code_len b1 + plens p1) as EL
    by (rewrite !zlen_app, fin_b_len, fin_p_len; reflexivity).
  assert (zlen (fin_p K (zlen (a_txt a1) + code_len b1 + plens p1) [p]) = plen p) as EP1
    by (rewrite fin_p_len, plens_cons; change (plens []) with 0; lia).
  rewrite EV. pose proof (zlen_nonneg (a_txt a1)). pose proof (code_len_nonneg b1). pose proof (plens_nonneg p1).
  split; [|split; [lia|]].
  - rewrite E. apply bytes_mid; assumption.
  - rewrite E, zlen_app, EL, zlen_app, EP1.
    match goal with |- _ <= _ + (_ + ?x) => assert (0 <= x) by apply zlen_nonneg end. lia.
Qed.
Lemma it_align : match place_of c (sym_of t) with PBss => a_bal a mod y_align (sym_of t) = 0 | PData => a_dal a mod y_align (sym_of t) = 0 | PRodata => 16 mod y_align (sym_of t) = 0 | _ => True end.
Proof.
  destruct it_wf as [_ WT]. pose proof (al_pos t WT). destruct WT as ((_ & _ & WA & _) & _).
  assert (inv c l a) as I by (apply all_inv; [apply wf_pre; exact W|pose proof it_len; lia]).
  pose proof (i_cov _ _ _ I) as CV. rewrite Forall_forall in CV. specialize (CV t ltac:(apply in_or_app; right; left; reflexivity)). cbv zeta in CV.
  destruct (i_al _ _ _ I) as (A1 & A2 & A3). cbn [In] in A1, A3, WA.
  destruct (place_of c (sym_of t)); auto;
    repeat match goal with H : _ \/ _ |- _ => destruct H end; try contradiction;
    repeat match goal with H : ?n = y_align _ |- _ => rewrite <- H in *; clear H | H : ?n = a_bal _ |- _ => rewrite <- H in *; clear H | H : ?n = a_dal _ |- _ => rewrite <- H in *; clear H end;
    try reflexivity; lia.
Qed.
End Item.
