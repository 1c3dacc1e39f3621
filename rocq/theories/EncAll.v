(* Proofs about the instruction encoder: all shapes checked, and the theorems put together. *)
From Coq Require Import ZArith Lia Bool List.
From Verif Require Import Bytes EncModel EncSpec EncProofs EncShape EncDummy.
Import ListNotations.
Open Scope Z_scope.

Definition V : list immval := [IInt 0; IInt 1000; IInt 10000000000;
  IAddr (T0 ADDR_NORMAL None); IAddr (T0 ADDR_NORMAL (Some 0)); IAddr (T0 ADDR_GLOBAL_OFFSET None);
  IAddr (T0 ADDR_GLOBAL_OFFSET (Some 0)); IAddr (T0 ADDR_PLT None); IAddr (T0 ADDR_PLT (Some 0))].
Lemma dummy_V m : In (i_val (dummy_imm m)) V.
Proof.
  destruct m as [w [q|[t y d b x s]]]; cbn [dummy_imm i_val a_type a_sym].
  - unfold q0. destruct (in_byte_range q); [left; reflexivity|]. destruct (in_32bit_range q); [right; left|right; right; left]; reflexivity.
  - destruct t, y; cbn; tauto.
Qed.

Lemma good_none : forallb (fun o => forallb (fun w => forallb (fun p => good (Instr o 0 p (NoOp w))) [0; 243]) (0 :: W4)) ops = true.
Proof. vm_compute. reflexivity. Qed.
Lemma good_reg : forallb (fun o => forallb (fun w => forallb (fun r => forallb (fun cc => good (Instr o cc 0 (OpReg (Reg w r)))) (zr 16 0)) (zr 41 1)) W5) ops = true.
Proof. vm_compute. reflexivity. Qed.
Lemma good_mem : forallb (fun o => forallb (fun w => forallb (fun x => forallb (fun b => good (Instr o 0 0 (OpMem (Mem w (A0 x b))))) bools) bools) W5) ops = true.
Proof. vm_compute. reflexivity. Qed.
Lemma good_reg_reg : forallb (fun o => forallb (fun ws => forallb (fun wd => forallb (fun s => forallb (fun d =>
  good (Instr o 0 0 (RegReg (Reg ws s) (Reg wd d)))) (zr 32 1)) (zr 32 1)) W4) W4) ops = true.
Proof. vm_compute. reflexivity. Qed.
Lemma good_reg_mem : forallb (fun o => forallb (fun ws => forallb (fun wd => forallb (fun r => forallb (fun x => forallb (fun b =>
  good (Instr o 0 0 (RegMem (Reg ws r) (Mem wd (A0 x b))))) bools) bools) (zr 32 1)) W4) W4) ops = true.
Proof. vm_compute. reflexivity. Qed.
Lemma good_mem_reg : forallb (fun o => forallb (fun ws => forallb (fun wd => forallb (fun r => forallb (fun x => forallb (fun b =>
  good (Instr o 0 0 (MemReg (Mem wd (A0 x b)) (Reg ws r)))) bools) bools) (zr 32 1)) W4) W4) ops = true.
Proof. vm_compute. reflexivity. Qed.
Lemma good_imm : forallb (fun o => forallb (fun w => forallb (fun q => forallb (fun cc => good (Instr o cc 0 (OpImm (Imm w q)))) (zr 16 0)) V) W4) ops = true.
Proof. vm_compute. reflexivity. Qed.
Lemma good_imm_reg : forallb (fun o => forallb (fun wi => forallb (fun wd => forallb (fun r => forallb (fun q =>
  good (Instr o 0 0 (ImmReg (Imm wi q) (Reg wd r)))) V) (zr 32 1)) W4) W4) ops = true.
Proof. vm_compute. reflexivity. Qed.
Lemma good_imm_mem : forallb (fun o => forallb (fun wi => forallb (fun wd => forallb (fun q => forallb (fun x => forallb (fun b =>
  good (Instr o 0 0 (ImmMem (Imm wi q) (Mem wd (A0 x b))))) bools) bools) V) W4) W4) ops = true.
Proof. vm_compute. reflexivity. Qed.

Lemma good_dummy loc e dp i d : asked loc e dp i = Some d -> good (dummy i) = true.
Proof.
  intro H. apply asked_range in H as (Ho & Hc & Hp & Hr & Hn).
  destruct i as [o cc p ar]. cbn [n_op n_cc n_prefix n_args] in *.
  destruct ar as [w|m|[w r]|[w a]|[ws s] [wd q]|[ws r] [wd a]|[wd a] [ws r]|m [wd r]|m [wd a]];
    unfold dummy; cbn [n_op n_cc n_prefix n_args keeps_cc dummy_args in_range r_width r_reg m_width m_addr dummy_mem] in *; try subst p.
  - exact (forallb_all _ _ (forallb_all _ _ (forallb_all _ _ good_none o Ho) w Hr) p Hp).
  - exact (forallb_all _ _ (forallb_all _ _ (forallb_all _ _ (forallb_all _ _ good_imm o Ho) (i_width m) Hr) _ (dummy_V m)) cc (zr_In 16 0 cc ltac:(lia))).
  - destruct Hr as [Hw Hr].
    exact (forallb_all _ _ (forallb_all _ _ (forallb_all _ _ (forallb_all _ _ good_reg o Ho) w Hw) r (zr_In 41 1 r ltac:(lia))) cc (zr_In 16 0 cc ltac:(lia))).
  - exact (forallb_all _ _ (forallb_all _ _ (forallb_all _ _ (forallb_all _ _ good_mem o Ho) w Hr) _ (bools_In _)) _ (bools_In _)).
  - destruct Hr as (H1 & H2 & H3 & H4).
    exact (forallb_all _ _ (forallb_all _ _ (forallb_all _ _ (forallb_all _ _ (forallb_all _ _ good_reg_reg o Ho) ws H1) wd H2) s (zr_In 32 1 s ltac:(lia))) q (zr_In 32 1 q ltac:(lia))).
  - destruct Hr as (H1 & H2 & H3).
    exact (forallb_all _ _ (forallb_all _ _ (forallb_all _ _ (forallb_all _ _ (forallb_all _ _ (forallb_all _ _ good_reg_mem o Ho) ws H1) wd H2) r (zr_In 32 1 r ltac:(lia))) _ (bools_In _)) _ (bools_In _)).
  - destruct Hr as (H1 & H2 & H3).
    exact (forallb_all _ _ (forallb_all _ _ (forallb_all _ _ (forallb_all _ _ (forallb_all _ _ (forallb_all _ _ good_mem_reg o Ho) ws H1) wd H2) r (zr_In 32 1 r ltac:(lia))) _ (bools_In _)) _ (bools_In _)).
  - destruct Hr as (H1 & H2 & H3).
    exact (forallb_all _ _ (forallb_all _ _ (forallb_all _ _ (forallb_all _ _ (forallb_all _ _ good_imm_reg o Ho) (i_width m) H1) wd H2) r (zr_In 32 1 r ltac:(lia))) _ (dummy_V m)).
  - destruct Hr as (H1 & H2).
    exact (forallb_all _ _ (forallb_all _ _ (forallb_all _ _ (forallb_all _ _ (forallb_all _ _ (forallb_all _ _ good_imm_mem o Ho) (i_width m) H1) wd H2) _ (dummy_V m)) _ (bools_In _)) _ (bools_In _)).
Qed.

(* everything known about an instruction *)
Definition rg_ok (mm : option Z) : Prop := match mm with Some rg => 0 <= rg < 8 | None => True end.
Lemma shape loc e dp i d : asked loc e dp i = Some d -> trouble dp i = false ->
  exists pl, placed loc e i pl /\
  match parts i with
  | Done (h, mm, nb, dw) =>
      lacking i = false /\
      exists md d', mid i mm = Some md /\ tmpl h md (Rip 0) nb = Some d' /\ d = subst pl (value loc e i) d'
      /\ Forall is_byte h /\ (nb_ok i nb = true /\ imm_done i nb dw = true)
      /\ zlen h + Z.of_nat nb + (match mm with Some _ => 6 | None => 0 end) <= 15 /\ rg_ok mm
  | Unsupported => lacking i = true
  | _ => False
  end.
Proof.
  intros Ha Ht. destruct (asked_placed _ _ _ _ _ Ha) as [pl Hp]. exists pl. split; [exact Hp|].
  pose proof (good_dummy _ _ _ _ _ Ha) as Hg.
  rewrite (depth_asked loc e dp i Ht) in Ha. apply depth_trouble in Ht.
  rewrite (asked_dummy loc e (depth0 i) i pl Hp) in Ha.
  destruct ((0 <=? n_cc i) && (n_cc i <? 16)); [|discriminate].
  assert (Hd : depth0 (dummy i) = depth0 i) by (destruct i as [o cc p ar]; destruct ar; reflexivity).
  unfold good in Hg. rewrite Hd in Hg.
  destruct (asked l0 0 (depth0 i) (dummy i)) as [d0|]; [|discriminate]. cbn [option_map] in Ha.
  rewrite (trouble_dummy _ _ Ht) in Hg.
  rewrite (parts_dummy _ _ _ _ Hp), lacking_dummy in Hg.
  destruct (parts i) as [[[[h mm] nb] dw]| | |]; try discriminate Hg; [|exact Hg].
  apply andb_prop in Hg as [Hl Hg]. split; [destruct (lacking i); [discriminate Hl|reflexivity]|].
  assert (Hm : mid (dummy i) mm = mid i mm).
  { unfold placed in Hp. unfold mid. destruct i as [o cc p ar]. destruct ar as [w|m|r|m|s q|s q|s q|m q|m q]; cbn [dummy n_args dummy_args address_of dummy_mem m_addr] in *;
      try reflexivity; rewrite (dummy_x _ _ _ _ Hp), (dummy_b _ _ _ _ Hp); reflexivity. }
  assert (Hn : nb_ok (dummy i) nb = nb_ok i nb).
  { unfold nb_ok. destruct i as [o cc p ar]. destruct ar as [w|m|r|m|s q|s q|s q|m q|m q]; cbn [dummy n_args dummy_args imm_of]; try reflexivity;
      destruct m as [mw [x|y]]; cbn [dummy_imm i_val i_width]; rewrite ?q0_byte, ?q0_32; reflexivity. }
  assert (Hi : imm_done (dummy i) nb dw = imm_done i nb dw).
  { unfold imm_done. destruct i as [o cc p ar]. destruct ar as [w|m|r|m|s q|s q|s q|m q|m q]; cbn [dummy n_args dummy_args imm_of]; try reflexivity;
      destruct m as [mw [x|[t y ds bs ix sc]]]; unfold imm_bytes; cbn [dummy_imm i_val i_width a_sym a_type T0]; try reflexivity;
      destruct y, dw, t; reflexivity. }
  rewrite Hm, Hn, Hi in Hg. destruct (mid i mm) as [md|]; [|discriminate].
  destruct (tmpl h md (Rip 0) nb) as [d'|] eqn:Et; [|discriminate].
  destruct (ins_dec d' (subst (Rip 0) 0 d0)) as [E|]; [|discriminate].
  apply andb_prop in Hg as [Hg G4]. apply andb_prop in Hg as [Hg G3]. apply andb_prop in Hg as [G1 G2].
  exists md, d'. split; [reflexivity|]. split; [exact Et|]. split.
  - assert (Hs : forall x, d = x -> d = x) by auto. assert (E0 : d = subst pl (value loc e i) d0) by congruence.
    rewrite E0, E. unfold subst. cbn [i_mn i_args]. f_equal. rewrite map_map. apply map_ext. intros []; reflexivity.
  - split; [apply bytes_ok_Forall, G1|]. split; [apply andb_prop, G2|]. split; [apply Z.leb_le, G3|].
    destruct mm; [|exact I]. cbn. apply andb_prop in G4. lia.
Qed.

(* the immediate after linking *)
Lemma put_end (h b : list Z) v : length b = 4%nat -> put (h ++ b) (zlen h) v = h ++ le_bytes 4 v.
Proof.
  intro Hb. pose proof (put_at h [] b [] (zlen h) v) as H. cbn [app] in H. rewrite !app_nil_r in H. apply H; [reflexivity|exact Hb].
Qed.

Lemma signed4 v : int32 v = true -> signed 4 v = v.
Proof. intro H. unfold int32 in H. apply signed_small; [lia|]. change (256 ^ Z.of_nat 4) with 4294967296. lia. Qed.

Lemma int_value q w nb : In w W4 ->
  Nat.eqb nb (Z.to_nat w) || (Nat.eqb nb 1 && in_byte_range q) || (Nat.eqb nb 4 && in_32bit_range q && (w =? 8)) = true ->
  signed nb q = signed (Z.to_nat w) q.
Proof.
  intros Hw H. apply orb_prop in H as [H|H]; [apply orb_prop in H as [H|H]|].
  - apply Nat.eqb_eq in H. subst nb. reflexivity.
  - apply andb_prop in H as [H1 H2]. apply Nat.eqb_eq in H1. subst nb. unfold in_byte_range in H2.
    rewrite (signed_small 1); [|lia|change (256 ^ Z.of_nat 1) with 256; lia].
    symmetry. cbn in Hw. destruct Hw as [<-|[<-|[<-|[<-|[]]]]]; apply signed_small; try (cbn; lia).
    + change (256 ^ Z.of_nat (Z.to_nat 1)) with 256; lia.
    + change (256 ^ Z.of_nat (Z.to_nat 2)) with 65536; lia.
    + change (256 ^ Z.of_nat (Z.to_nat 4)) with 4294967296; lia.
    + change (256 ^ Z.of_nat (Z.to_nat 8)) with 18446744073709551616; lia.
  - apply andb_prop in H as [H H3]. apply andb_prop in H as [H1 H2]. apply Nat.eqb_eq in H1. apply Z.eqb_eq in H3. subst nb w.
    unfold in_32bit_range in H2.
    rewrite (signed_small 4); [|lia|change (256 ^ Z.of_nat 4) with 4294967296; lia].
    symmetry. apply signed_small; [cbn; lia|]. change (256 ^ Z.of_nat (Z.to_nat 8)) with 18446744073709551616; lia.
Qed.

(* a branch target is near *)
Lemma near_target loc e dp i d m a : asked loc e dp i = Some d -> near d = true -> n_args i = OpImm m -> i_val m = IAddr a ->
  int32 (imm_val loc e m) = true.
Proof.
  intros Ha Hn Ei Em. unfold asked in Ha. destruct (_ && _); [|discriminate].
  destruct i as [o cc p ar]. cbn [n_args] in Ei. subst ar. unfold asked_body in Ha. cbn [n_args n_op n_cc n_prefix] in Ha.
  cbn [asked_alu asked_one asked_none asked_extend asked_shift asked_sse asked_store asked_packed asked_st] in Ha.
  assert (Hi : forall w, im m w = None) by (intro; unfold im; rewrite Em; reflexivity).
  assert (Ht : forall k b, one k (target loc e m b) = Some d -> int32 (imm_val loc e m) = true).
  { intros k b. unfold target, imm_val. rewrite Em. destruct (i_width m =? 8); [|discriminate].
    destruct (a_sym a) as [y|]; [|discriminate]. destruct (a_type a).
    - cbn [one]. intro H. assert (d = Ins k [Rel (loc PC32 y + a_disp a - e)]) by congruence. subst d. cbn in Hn. rewrite andb_true_r in Hn. exact Hn.
    - discriminate.
    - destruct b; [|discriminate]. cbn [one]. intro H. assert (d = Ins k [Rel (loc PLT32 y + a_disp a - e)]) by congruence. subst d.
      cbn in Hn. rewrite andb_true_r in Hn. exact Hn. }
  rewrite Hi in Ha. revert Ha.
  repeat match goal with |- (if ?b then _ else _) = _ -> _ => destruct b; [first [discriminate|apply Ht]|] end.
  all: first [discriminate | apply Ht | idtac].
Qed.

(* the address is an operand of what is asked for *)
Lemma me_two1 loc e m w n k b d pl : where_ loc e (m_addr m) = Some pl -> two k (me loc e m w n) b = Some d -> place_fits pl = forallb arg_fits (firstn 1 (i_args d)).
Proof.
  intros H. unfold me. rewrite H. destruct (m_width m =? w); [|discriminate]. destruct b as [b|]; [|discriminate]. cbn [two].
  intro E. assert (d = Ins k [M pl n; b]) by congruence. subst d. cbn. rewrite andb_true_r. reflexivity.
Qed.
Lemma two_fits k a b d : two k a b = Some d -> near d = true -> match a with Some x => arg_fits x | None => true end = true /\ match b with Some x => arg_fits x | None => true end = true.
Proof.
  destruct a as [a|], b as [b|]; try discriminate. cbn [two]. intro E. assert (d = Ins k [a; b]) by congruence. subst d.
  unfold near. cbn. rewrite andb_true_r. apply andb_prop.
Qed.
Lemma one_fits k a d : one k a = Some d -> near d = true -> match a with Some x => arg_fits x | None => true end = true.
Proof.
  destruct a as [a|]; try discriminate. cbn [one]. intro E. assert (d = Ins k [a]) by congruence. subst d.
  unfold near. cbn. rewrite andb_true_r. auto.
Qed.
Lemma me_fits loc e m w n pl : where_ loc e (m_addr m) = Some pl -> me loc e m w n <> None ->
  match me loc e m w n with Some x => arg_fits x | None => true end = true -> place_fits pl = true.
Proof. intro H. unfold me. rewrite H. destruct (m_width m =? w); [|congruence]. auto. Qed.
Lemma fmem_fits loc e k pl d : near d = true -> forall l m, where_ loc e (m_addr m) = Some pl -> asked_fmem loc e k l (OpMem m) = Some d ->
  place_fits pl = true.
Proof.
  intro Hn. induction l as [|[w n] l IH]; intros m H Ha; [discriminate|]. cbn [asked_fmem] in Ha.
  destruct (m_width m =? w); [|apply (IH _ H Ha)].
  pose proof (one_inv _ _ _ Ha). pose proof (one_fits _ _ _ Ha Hn). eapply me_fits; eassumption.
Qed.
Ltac fits Hw Hn := let H := fresh in intro H;
  repeat match type of H with same _ _ = Some _ => apply same_inv in H as [_ H] end;
  first
  [ discriminate H
  | eapply fmem_fits; [exact Hn|exact Hw|exact H]
  | pose proof (two_inv _ _ _ _ H) as [? ?]; pose proof (two_fits _ _ _ _ H Hn) as [? ?]; eapply me_fits; eassumption
  | pose proof (one_inv _ _ _ H); pose proof (one_fits _ _ _ H Hn); eapply me_fits; eassumption ].
Lemma near_place loc e dp i d a pl : asked loc e dp i = Some d -> near d = true -> address_of (n_args i) = Some a ->
  where_ loc e a = Some pl -> place_fits pl = true.
Proof.
  intros Ha Hn Ea Hw. unfold asked in Ha. destruct (_ && _); [|discriminate].
  destruct i as [o cc p ar]. destruct ar as [w|m|r|m|s q|s q|s q|m q|m q]; cbn [address_of n_args] in Ea; try discriminate;
    injection Ea as <-; unfold asked_body in Ha; cbn [n_args n_op n_cc n_prefix] in Ha;
    cbn [asked_alu asked_one asked_none asked_extend asked_shift asked_sse asked_store asked_packed asked_st] in Ha; revert Ha.
  all: repeat match goal with |- (if ?b then _ else _) = _ -> _ => destruct b; [fits Hw Hn|] end; try discriminate.
Qed.

Lemma addr_target loc e dp i d m a : asked loc e dp i = Some d -> imm_of (n_args i) = Some m -> i_val m = IAddr a -> n_args i = OpImm m.
Proof.
  intros Ha Ei Em. assert (Hi : forall w, im m w = None) by (intro; unfold im; rewrite Em; reflexivity).
  assert (H2 : forall k x, two k x None = None) by (intros k []; reflexivity).
  assert (Hs : forall b, same b None = None) by (intros []; reflexivity).
  unfold asked in Ha. destruct (_ && _); [|discriminate].
  destruct i as [o cc p ar]. destruct ar as [w|m'|r|m'|s q|s q|s q|m' q|m' q]; cbn [imm_of n_args] in *; try discriminate; injection Ei as ->; [reflexivity|exfalso..].
  all: unfold asked_body in Ha; cbn [n_args n_op n_cc n_prefix] in Ha;
    cbn [asked_alu asked_one asked_none asked_extend asked_shift asked_sse asked_store asked_packed asked_st] in Ha; revert Ha.
  all: rewrite ?Hi, ?H2, ?Hs.
  all: repeat match goal with |- (if ?b then _ else _) = _ -> _ => destruct b; [discriminate|] end; discriminate.
Qed.

Lemma address_len loc e len rg a k ab f pl : 0 <= rg < 8 -> encode_address len rg a k = Done (ab, f) -> where_ loc e a = Some pl -> zlen ab <= 6.
Proof.
  intros Hr He Hw. unfold encode_address in He. destruct (a_sym a) as [y|] eqn:Es.
  - destruct (a_type a); cbn [bind] in He; try discriminate;
      (assert (E : ab = Z.lor (Z.shiftl (Z.land rg 7) 3) 5 :: [0; 0; 0; 0]) by congruence; rewrite E; unfold zlen; cbn [length]; lia).
  - unfold bind in He. destruct (encode_modrm_sib_disp rg a) as [b| | |] eqn:Em; try discriminate.
    assert (ab = b) by congruence. subst ab. clear He.
    apply encode_msd in Em as (Hb & Hb0 & Hsc). cbv zeta in Hb.
    destruct (where_range _ _ _ _ Hw Es) as (R1 & R2 & R3 & R4 & pl0 & Hp & ->).
    destruct (msd rg (a_base a) (a_index a) (a_scale a) (a_disp a =? 0) (in_byte_range (a_disp a))) as [hd n] eqn:Ems.
    cbn [fst snd] in Hb. subst b.
    assert (Z1 : a_base a = 0 -> (a_disp a =? 0) && in_byte_range (a_disp a) = true) by (intro E; rewrite (Hb0 E); reflexivity).
    assert (Z2 : (a_disp a =? 0) = true -> in_byte_range (a_disp a) = true) by (intro E; apply Z.eqb_eq in E; rewrite E; reflexivity).
    destruct (msd_facts _ _ _ _ _ _ _ _ Hr R1 R2 R3 (ex_intro _ _ Hp) Z1 Z2 Ems) as (F1 & F2 & F3 & F4 & F5 & F6).
    unfold zlen. rewrite app_length, le_bytes_length. lia.
Qed.

Lemma encode_ok loc at_ dp i b f d : encode i = Done (b, f) -> asked loc (at_ + zlen b) dp i = Some d ->
  trouble dp i = false -> near d = true ->
  let l := patch loc at_ (b, f) in
  length l = length b /\ zlen b <= 15 /\ Forall is_byte l /\ forall t, decode (l ++ t) = Some (d, t).
Proof.
  intros He Ha Ht Hn. destruct (shape _ _ _ _ _ Ha Ht) as (pl & Hp & Hs).
  rewrite encode_parts in He. destruct (parts i) as [[[[h mm] nb] dw]| | |]; try contradiction; try discriminate He.
  destruct Hs as (_ & md & d' & Hm & Htm & Hd & Hby & [Hnb Hdone] & Hlen & Hrg).
  cbn [bind] in He. unfold assemble in He. unfold placed in Hp. unfold mid in Hm. unfold nb_ok in Hnb.
  assert (Hr := asked_range _ _ _ _ _ Ha). destruct Hr as (_ & _ & _ & Hr & _).
  assert (Hz : zlen b <= 15).
  { repeat match type of He with bind ?x _ = _ => destruct x as [[? ?]| | |]; try discriminate He; cbn [bind] in He end.
    cbv zeta in He. match type of He with (if ?c then _ else _) = _ => destruct c eqn:Ez; [|discriminate He] end.
    apply Z.leb_le in Ez. congruence. }
  destruct (imm_of (n_args i)) as [m|] eqn:Eim.
  - destruct (i_val m) as [q|a] eqn:Ev.
    + (* a number *)
      unfold imm_bytes in He. rewrite Ev in He. cbn [bind] in He.
      assert (Hv : value loc (at_ + zlen b) i = signed nb (le_val (le_bytes nb q))).
      { unfold value. rewrite Eim. unfold imm_val. rewrite Ev, signed_le_val. symmetry. apply int_value; [|exact Hnb].
        destruct (n_args i) as [w|m'|r|m'|s x|s x|s x|m' x|m' x]; cbn [imm_of] in Eim; try discriminate; injection Eim as ->; cbn [in_range] in Hr; tauto. }
      destruct mm as [rg|]; [destruct (address_of (n_args i)) as [a|] eqn:Ea; [|discriminate Hm]|].
      * injection Hm as <-. replace (Z.of_nat nb) with (zlen (le_bytes nb q)) in He by (unfold zlen; rewrite le_bytes_length; reflexivity).
        destruct (encode_address (zlen h) rg a (zlen (le_bytes nb q))) as [[ab fa]| | |] eqn:Eea; try discriminate He. cbn [bind] in He.
        destruct (zlen (h ++ ab ++ le_bytes nb q) <=? 15); [|discriminate He].
        assert (b = h ++ ab ++ le_bytes nb q) by congruence. assert (f = fa) by (rewrite app_nil_r in He; congruence). subst b f. clear He.
        destruct (address_ok loc at_ h rg a (le_bytes nb q) ab fa pl Hrg Eea Hp (near_place _ _ _ _ _ _ _ Ha Hn Ea Hp)) as (ab' & L1 & L2 & F1 & P1 & R1).
        cbv zeta. rewrite P1. split; [rewrite !app_length, L1; reflexivity|]. split; [exact Hz|].
        split; [apply Forall_app; split; [exact Hby|apply Forall_app; split; [exact F1|apply le_bytes_is_byte]]|].
        intro t. rewrite <- !app_assoc. rewrite Hd, Hv.
        refine (tmpl_mem _ _ _ _ _ _ _ _ pl _ _ Htm _ (le_bytes_length _ _)). intros p l X1 X2 _. apply R1; assumption.
      * destruct (address_of (n_args i)) eqn:Ea; [discriminate Hm|]. injection Hm as <-.
        cbn [bind app] in He. destruct (zlen (h ++ le_bytes nb q) <=? 15); [|discriminate He].
        assert (b = h ++ le_bytes nb q) by congruence. assert (f = []) by congruence. subst b f. clear He.
        cbv zeta. unfold patch. cbn [fold_left fst snd]. split; [reflexivity|]. split; [exact Hz|].
        split; [apply Forall_app; split; [exact Hby|apply le_bytes_is_byte]|].
        intro t. rewrite <- app_assoc, Hd, Hv. exact (tmpl_reg h pl nb d' _ t Htm (le_bytes_length _ _)).
    + (* a label or function *)
      pose proof (addr_target _ _ _ _ _ _ _ Ha Eim Ev) as Ei. rewrite Ei in *. cbn [address_of] in *.
      destruct mm; [discriminate Hm|]. injection Hm as <-. apply Nat.eqb_eq in Hnb. subst nb.
      cbn [bind app] in He. rewrite app_nil_r in He.
      pose proof (near_target _ _ _ _ _ _ _ Ha Hn Ei Ev) as Hi.
      set (v := imm_val loc (at_ + zlen b) m) in *.
      assert (Hv : value loc (at_ + zlen b) i = v) by (unfold value; rewrite Ei; reflexivity).
      assert (Hk : exists k y, v = loc k y + a_disp a - (at_ + zlen b)
        /\ ((b, f) = (h ++ le_bytes 4 (a_disp a - 4), [Disp y (zlen h)]) /\ k = PC32 \/ (b, f) = (h ++ [0; 0; 0; 0], [Rela k y (zlen h) (a_disp a)]))).
      { unfold imm_bytes in He. rewrite Ev in He. unfold v, imm_val. rewrite Ev.
        destruct (a_sym a) as [y|]; [|discriminate He]. destruct dw.
        - destruct (a_type a); cbn [bind] in He; try discriminate He.
          exists PC32, y. split; [reflexivity|]. left. split; [|reflexivity].
          match type of He with (if ?c then _ else _) = _ => destruct c; [|discriminate He] end. congruence.
        - destruct (a_type a); cbn [bind] in He; try discriminate He; [exists PC32, y|exists PLT32, y]; (split; [reflexivity|]); right;
          match type of He with (if ?c then _ else _) = _ => destruct c; [|discriminate He] end; congruence. }
      destruct Hk as (k & y & Hve & Hk). clear He.
      assert (Hlb : zlen b = zlen h + 4) by (destruct Hk as [[Hk _]|Hk]; assert (E : b = fst (b, f)) by reflexivity; rewrite E, Hk; cbn [fst]; rewrite zlen_app; reflexivity).
      assert (Hpt : exists u, patch loc at_ (b, f) = h ++ le_bytes 4 u /\ signed 4 u = v).
      { destruct Hk as [[-> ->]| ->]; unfold patch; cbn [fold_left fst snd patch1].
        - exists (get (h ++ le_bytes 4 (a_disp a - 4)) (zlen h) + loc PC32 y - (at_ + zlen h)). split; [apply put_end, le_bytes_length|].
          rewrite <- (app_nil_r (le_bytes 4 _)) at 1. rewrite (get_at h _ []); [|reflexivity|apply le_bytes_length].
          rewrite le_val_bytes. rewrite <- (signed4 v Hi), <- signed_mod. rewrite <- (signed_mod 4 v). f_equal.
          replace ((a_disp a - 4) mod 256 ^ Z.of_nat 4 + loc PC32 y - (at_ + zlen h)) with ((a_disp a - 4) mod 256 ^ Z.of_nat 4 + (loc PC32 y - (at_ + zlen h))) by ring.
          rewrite Z.add_mod_idemp_l by (pose proof (pow256_pos 4); lia). f_equal. lia.
        - exists (loc k y + (a_disp a - 4) - (at_ + zlen h)). split; [apply put_end; reflexivity|].
          rewrite <- (signed4 v Hi). f_equal. lia. }
      destruct Hpt as (u & Hpt & Hu). cbv zeta. rewrite Hpt. unfold zlen in Hlb.
      split; [rewrite app_length, le_bytes_length; lia|]. split; [exact Hz|].
      split; [apply Forall_app; split; [exact Hby|apply le_bytes_is_byte]|].
      intro t. rewrite <- app_assoc, Hd, Hv, <- Hu, <- (signed_le_val 4 u). exact (tmpl_reg h pl 4 d' _ t Htm (le_bytes_length _ _)).
  - (* none *)
    apply Nat.eqb_eq in Hnb. subst nb.
    assert (Hv : value loc (at_ + zlen b) i = signed 0 (le_val [])) by (unfold value; rewrite Eim; reflexivity).
    destruct mm as [rg|]; [destruct (address_of (n_args i)) as [a|] eqn:Ea; [|discriminate Hm]|].
    + injection Hm as <-. change (Z.of_nat 0) with (zlen (@nil Z)) in He.
      destruct (encode_address (zlen h) rg a (zlen (@nil Z))) as [[ab fa]| | |] eqn:Eea; try discriminate He. cbn [bind] in He.
      destruct (zlen (h ++ ab ++ []) <=? 15); [|discriminate He].
      assert (b = h ++ ab ++ []) by congruence. assert (Hf : f = fa ++ []) by congruence. rewrite app_nil_r in Hf. subst b f. clear He.
      destruct (address_ok loc at_ h rg a [] ab fa pl Hrg Eea Hp (near_place _ _ _ _ _ _ _ Ha Hn Ea Hp)) as (ab' & L1 & L2 & F1 & P1 & R1).
      cbv zeta. rewrite P1. split; [rewrite !app_length, L1; reflexivity|]. split; [exact Hz|].
      split; [apply Forall_app; split; [exact Hby|apply Forall_app; split; [exact F1|constructor]]|].
      intro t. rewrite <- !app_assoc. rewrite Hd, Hv.
      refine (tmpl_mem _ _ _ _ _ _ _ _ pl [] _ Htm _ eq_refl). intros p l X1 X2 _. apply R1; assumption.
    + destruct (address_of (n_args i)) eqn:Ea; [discriminate Hm|]. injection Hm as <-.
      cbn [bind app] in He. rewrite app_nil_r in He. destruct (zlen h <=? 15); [|discriminate He].
      assert (b = h) by congruence. assert (f = []) by congruence. subst b f. clear He.
      cbv zeta. unfold patch. cbn [fold_left fst snd]. split; [reflexivity|]. split; [exact Hz|]. split; [exact Hby|].
      intro t. rewrite Hd, Hv. exact (tmpl_reg h pl 0 d' [] t Htm eq_refl).
Qed.

(* what is neither among the defects nor missing is encoded *)
Lemma encode_done loc e dp i d : asked loc e dp i = Some d -> trouble dp i = false ->
  (lacking i = false -> exists c, encode i = Done c) /\ (lacking i = true -> encode i = Unsupported).
Proof.
  intros Ha Ht. destruct (shape _ _ _ _ _ Ha Ht) as (pl & Hp & Hs). rewrite encode_parts.
  destruct (parts i) as [[[[h mm] nb] dw]| | |]; try contradiction.
  2:{ rewrite Hs. split; [discriminate|reflexivity]. }
  destruct Hs as (Hl & md & d' & Hm & Htm & Hd & Hby & [Hnb Hdone] & Hlen & Hrg). rewrite Hl. split; [intros _|discriminate].
  cbn [bind]. unfold assemble, mid, placed in *.
  assert (Hab : exists ab fa, (match mm, address_of (n_args i) with Some rg, Some a => encode_address (zlen h) rg a (Z.of_nat nb) | _, _ => Done ([], []) end) = Done (ab, fa)
    /\ zlen h + Z.of_nat nb + zlen ab <= 15).
  { destruct mm as [rg|]; [|exists [], []; split; [reflexivity|change (zlen (@nil Z)) with 0; lia]].
    destruct (address_of (n_args i)) as [a|] eqn:Ea; [|discriminate].
    assert (Hx : match a_sym a with None => (a_base a =? 0) && negb (a_disp a =? 0) | Some _ => false end = false).
    { unfold trouble in Ht. rewrite Ea in Ht. cbv zeta in Ht. apply orb_false_iff in Ht. apply Ht. }
    destruct (encode_address_done _ _ (zlen h) rg a (Z.of_nat nb) _ Hp Hx) as (ab & fa & Hea). exists ab, fa. split; [exact Hea|].
    pose proof (address_len loc e _ _ _ _ _ _ _ Hrg Hea Hp). lia. }
  destruct Hab as (ab & fa & -> & Hlab). cbn [bind].
  assert (Hib : exists ib fi, match imm_of (n_args i) with Some m => imm_bytes (zlen (h ++ ab)) m nb dw | None => Done ([], []) end = Done (ib, fi)
    /\ zlen ib = Z.of_nat nb).
  { unfold imm_done, nb_ok in *. destruct (imm_of (n_args i)) as [m|].
    - destruct (i_val m) as [q|a] eqn:Ev; unfold imm_bytes in *; rewrite Ev in *.
      + eexists _, _. split; [reflexivity|]. unfold zlen. rewrite le_bytes_length. reflexivity.
      + apply Nat.eqb_eq in Hnb. subst nb. destruct (a_sym a); [|discriminate].
        destruct dw, (a_type a); cbn [bind] in *; try discriminate; eexists _, _; split; reflexivity.
    - apply Nat.eqb_eq in Hnb. subst nb. eexists _, _; split; reflexivity. }
  destruct Hib as (ib & fi & -> & Hlib). cbn [bind]. cbv zeta.
  replace (zlen (h ++ ab ++ ib) <=? 15) with true by (symmetry; apply Z.leb_le; rewrite !zlen_app; lia).
  eexists. reflexivity.
Qed.

Lemma stream_ok loc at_ l cs ds : encoded_as loc at_ l cs ds ->
  decodes (assembled loc at_ cs) ds /\ zlen (assembled loc at_ cs) = fold_right (fun c n => zlen (fst c) + n) 0 cs.
Proof.
  induction 1 as [at_|at_ dp i l c cs d ds He Ha Ht Hn _ [IH1 IH2]]; [split; reflexivity|].
  destruct c as [b f]. cbn [fst] in *.
  destruct (encode_ok _ _ _ _ _ _ _ He Ha Ht Hn) as (H1 & _ & _ & H2).
  cbn [assembled decodes fold_right fst]. split.
  - exists (assembled loc (at_ + zlen b) cs). split; [apply H2|exact IH1].
  - rewrite zlen_app, IH2. unfold zlen at 1. rewrite H1. reflexivity.
Qed.
