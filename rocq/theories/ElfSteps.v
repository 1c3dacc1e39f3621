(* The operations of the object file writer on the lists of ElfProofs. *)
From Coq Require Import List ZArith Lia Bool.
From Verif Require Import Util Bytes ElfModel ElfSpec ElfProofs.
Import ListNotations.
Open Scope Z_scope.

Definition upd_off (f : Z -> Z) (y v : Z) : Z -> Z := fun z => if z =? y then v else f z.
(* before the end only local symbols are in the table *)
Definition loc (a : abs) : Prop :=
  a_info a = 0 /\ a_ent a <> [] /\ Forall (fun e => 0 <= st_info e < 16) (a_ent a).
Definition a_assoc (a : abs) (y : symb) (e : esym) : abs :=
  if is_intern (y_link y) then
    let k := zlen (a_ent a) in
    let a := w_off (w_ent a (a_ent a ++ [e])) (upd_off (a_off a) (y_id y) k) in
    if y_fun y then w_cur a (CStatic k) else a
  else
    let k := length (a_glob a) in
    let a := w_glob a (a_glob a ++ [(y_id y, e)]) in
    if y_fun y then w_cur a (CGlobal k) else a.

Lemma loc_same a e : loc a -> 0 <= st_info e < 16 -> same_bind (a_ent a) e.
Proof.
  intros (_ & NE & F) B. destruct (exists_last NE) as (l' & p & E). exists l', p. split; [exact E|].
  rewrite E in F. apply Forall_app in F. destruct F as [_ F]. inversion F as [|? ? P _]; subst.
  split; [lia|]. rewrite !Z.div_small by lia. reflexivity.
Qed.
Lemma assoc_R a s y e : R a s -> loc a ->
  (if is_intern (y_link y) then 0 <= st_info e < 16 else st_info e / 16 = 1) ->
  exists s', symtab_assoc s y e = Ok s' /\ R (a_assoc a y e) s'.
Proof.
  intros HR HL B. unfold symtab_assoc, a_assoc. destruct (is_intern (y_link y)).
  - destruct (add_sym_R a s e HR) as (s1 & E1 & R1).
    { apply HL. } { intro; apply loc_same; auto. }
    change symtab with 3%nat. rewrite E1. cbn [bind].
    rewrite (Z.div_small (st_info e) 16) in R1 by lia. cbn [Z.eqb andb] in R1.
    destruct R1 as (cp & -> & C). destruct (y_fun y); eexists; (split; [reflexivity|]); exists cp; split; try reflexivity; exact C.
  - rewrite B, Z.eqb_refl. cbn [assert bind]. destruct HR as (cp & -> & C).
    destruct (y_fun y); eexists; (split; [reflexivity|]); exists cp; split; try exact C; try reflexivity.
    unfold conc, set_cur, set_globals. cbn. rewrite app_length. cbn [length]. rewrite Nat.add_sub. reflexivity.
Qed.

Definition bnd (y : symb) : Z := if is_intern (y_link y) then 0 else 16.
Definition in_bss (c : ctx) (y : symb) : bool :=
  is_intern (y_link y) || match y_kind y with STentative => no_common c | _ => false end.
Definition a_place (c : ctx) (a : abs) (nm : Z) (y : symb) : abs * esym :=
  if y_fun y then
    match y_kind y with
    | SDefinition => (a, Esym nm (bnd y + 2) 8 (zlen (a_txt a)) 0)
    | _ => (a, Esym nm (bnd y + 2) 0 0 0)
    end
  else match y_kind y with
  | SDefinition => let a := a_align a 6 (y_align y) in (a, Esym nm (bnd y + 1) 6 (zlen (a_dat a)) (y_size y))
  | SLiteral | SConstant =>
      let a := a_align a 5 (y_align y) in
      (w_rod a (a_rod a ++ firstn (Z.to_nat (y_size y)) (y_raw y)), Esym nm (bnd y + 1) 5 (zlen (a_rod a)) (y_size y))
  | k =>
      if in_bss c y then
        let a := a_align a 4 (y_align y) in
        (w_bss a (a_bss a + y_size y), Esym nm (bnd y + 1) 4 (a_bss a) (y_size y))
      else match k with
      | STentative => (a, Esym nm (bnd y + 1) 65522 (y_align y) (y_size y))
      | _ => (a, Esym nm (bnd y) 0 0 0)
      end
  end.
Definition a_symbol (c : ctx) (a : abs) (y : symb) : abs :=
  let nm := int32 (zlen (str_base (a_str a))) in
  let a1 := w_str a (str_base (a_str a) ++ y_name y ++ [0]) in
  let (a2, e) := a_place c a1 nm y in a_assoc a2 y e.

Lemma R_sizes a s : R a s -> size_of_sec s data = zlen (a_dat a) /\ size_of_sec s rodata = zlen (a_rod a) /\
  size_of_sec s text = zlen (a_txt a) /\ size_of_sec s bss = a_bss a /\ off s = a_off a.
Proof. intros (cp & -> & _). repeat split. Qed.
Lemma loc_align a i al : loc a -> loc (a_align a i al).
Proof. intros H. unfold a_align. destruct i as [|[|[|[|[|[|i]]]]]]; exact H. Qed.
Lemma R_bss a s n : R a s ->
  R (w_bss a (a_bss a + n)) (set s bss (Sec (with_size (s_hdr (get s bss)) (sh_size (s_hdr (get s bss)) + n)) (s_buf (get s bss)))).
Proof. intros (cp & -> & C). exists cp. split; [reflexivity|exact C]. Qed.
Lemma bnd_div y n : 0 <= n < 16 -> if is_intern (y_link y) then 0 <= bnd y + n < 16 else (bnd y + n) / 16 = 1.
Proof.
  intro H. unfold bnd. destruct (is_intern (y_link y)); [lia|].
  replace (16 + n) with (n + 1 * 16) by lia. rewrite Z.div_add, Z.div_small by lia. reflexivity.
Qed.
Lemma bnd_div0 y : if is_intern (y_link y) then 0 <= bnd y < 16 else bnd y / 16 = 1.
Proof. pose proof (bnd_div y 0 ltac:(lia)) as H. rewrite Z.add_0_r in H. exact H. Qed.

Lemma symbol_R c a s y : R a s -> loc a -> sym_wf y -> a_off a (y_id y) = 0 ->
  exists s', elf_symbol c s y = Ok s' /\ R (a_symbol c a y) s'.
Proof.
  intros HR HL (WL & WK & WA' & WS & WR & WN) O. unfold elf_symbol.
  assert (1 <= y_align y <= 16) as WA by (cbn [In] in WA'; lia).
  assert (is_none (y_link y) = false) as -> by (destruct (y_link y); [contradiction|reflexivity|reflexivity]).
  cbn [negb assert bind]. destruct (R_sizes _ _ HR) as (_ & _ & _ & _ & ->). rewrite O, Z.eqb_refl. cbn [assert bind].
  destruct (strtab_add_R a s (y_name y) HR) as (s1 & E1 & R1). change strtab with 2%nat.
  assert (loc (w_str a (str_base (a_str a) ++ y_name y ++ [0]))) as L1 by exact HL.
  unfold a_symbol. rewrite E1.
  assert (forall e s', R (w_str a (str_base (a_str a) ++ y_name y ++ [0])) s' ->
     (if is_intern (y_link y) then 0 <= st_info e < 16 else st_info e / 16 = 1) ->
     exists s'', symtab_assoc s' y e = Ok s'' /\ R (a_assoc (w_str a (str_base (a_str a) ++ y_name y ++ [0])) y e) s'') as AS.
  { intros e s' RR B. apply assoc_R; auto. }
  destruct (R_sizes _ _ R1) as (SD & SR & ST & SB & _).
  set (a1 := w_str a (str_base (a_str a) ++ y_name y ++ [0])) in *.
  set (nm := int32 (zlen (str_base (a_str a)))).
  assert (forall i, In i [4; 5; 6]%nat -> exists s2, section_align s1 i (y_align y) = Ok s2 /\ R (a_align a1 i (y_align y)) s2) as AL.
  { intros i I. apply align_R; auto. }
  unfold a_place. fold (bnd y).
  assert (forall s2, R (a_align a1 6 (y_align y)) s2 -> exists s', symtab_assoc s2 y (Esym nm (bnd y + 1) 6 (zlen (a_dat (a_align a1 6 (y_align y)))) (y_size y)) = Ok s' /\
     R (a_assoc (a_align a1 6 (y_align y)) y (Esym nm (bnd y + 1) 6 (zlen (a_dat (a_align a1 6 (y_align y)))) (y_size y))) s') as A6.
  { intros s2 R2. apply assoc_R; [exact R2|apply loc_align; exact L1|apply bnd_div; lia]. }
  assert (forall s2, R (a_align a1 4 (y_align y)) s2 ->
     exists s', symtab_assoc (set s2 bss (Sec (with_size (s_hdr (get s2 bss)) (sh_size (s_hdr (get s2 bss)) + y_size y)) (s_buf (get s2 bss)))) y
          (Esym nm (bnd y + 1) (Z.of_nat bss) (sh_size (s_hdr (get s2 bss))) (y_size y)) = Ok s' /\
     R (a_assoc (w_bss (a_align a1 4 (y_align y)) (a_bss (a_align a1 4 (y_align y)) + y_size y)) y
        (Esym nm (bnd y + 1) 4 (a_bss (a_align a1 4 (y_align y))) (y_size y))) s') as A4.
  { intros s2 R2. destruct (R_sizes _ _ R2) as (_ & _ & _ & SB2 & _). unfold size_of_sec in SB2.
    pose proof (R_bss _ _ (y_size y) R2) as R3. rewrite SB2 in *.
    apply assoc_R; [exact R3|exact (loc_align _ 4 _ L1)|apply bnd_div; lia]. }
  assert (forall s2, R (a_align a1 5 (y_align y)) s2 -> zlen (y_raw y) = y_size y ->
     exists s', (if y_size y <=? zlen (y_raw y) then
          do (s3, _) <- section_write s2 rodata (firstn (Z.to_nat (y_size y)) (y_raw y));
          symtab_assoc s3 y (Esym nm (bnd y + 1) (Z.of_nat rodata) (size_of_sec s2 rodata) (y_size y)) else Ub) = Ok s' /\
     R (a_assoc (w_rod (a_align a1 5 (y_align y)) (a_rod (a_align a1 5 (y_align y)) ++ firstn (Z.to_nat (y_size y)) (y_raw y))) y
        (Esym nm (bnd y + 1) 5 (zlen (a_rod (a_align a1 5 (y_align y)))) (y_size y))) s') as A5.
  { intros s2 R2 RL. destruct (R_sizes _ _ R2) as (_ & SR2 & _). rewrite SR2.
    destruct (Z.leb_spec (y_size y) (zlen (y_raw y))); [|lia].
    destruct (write_R _ s2 5 (firstn (Z.to_nat (y_size y)) (y_raw y)) R2 ltac:(cbn; auto)) as (s3 & E3 & R3).
    change rodata with 5%nat. rewrite E3. cbn [bind].
    apply assoc_R; [exact R3|exact (loc_align _ 5 _ L1)|apply bnd_div; lia]. }
  destruct (AL 4%nat ltac:(cbn; auto)) as (s4 & E4 & R4). destruct (AL 5%nat ltac:(cbn; auto)) as (s5 & E5 & R5).
  destruct (AL 6%nat ltac:(cbn; auto)) as (s6 & E6 & R6).
  pose proof (fun n N => AS (Esym nm (bnd y + 2) n N 0) s1 R1 (bnd_div y 2 ltac:(lia))) as AF.
  pose proof (AS (Esym nm (bnd y + 1) 65522 (y_align y) (y_size y)) s1 R1 (bnd_div y 1 ltac:(lia))) as AC.
  pose proof (AS (Esym nm (bnd y) 0 0 0) s1 R1 (bnd_div0 y)) as AU.
  change data with 6%nat in *. change rodata with 5%nat in *. change bss with 4%nat in *.
  destruct (y_kind y) eqn:K; cbn [bind]; fold nm; fold (bnd y); try rewrite ST; unfold in_bss; rewrite ?K; rewrite ?orb_false_r;
    try contradiction; destruct (y_fun y); auto; try rewrite E4; try rewrite E5; try rewrite E6; cbn [bind].
  - change (size_of_sec s6 6) with (size_of_sec s6 data). rewrite (proj1 (R_sizes _ _ R6)). apply A6. exact R6.
  - destruct (is_intern (y_link y) || no_common c); first [apply A4; exact R4 | auto].
  - destruct (is_intern (y_link y)); first [apply A4; exact R4 | auto].
  - destruct (is_intern (y_link y)); first [apply A4; exact R4 | auto].
  - apply A5; auto. apply WR. auto.
  - apply A5; auto. apply WR. auto.
  - destruct (is_intern (y_link y)); first [apply A4; exact R4 | auto].
  - destruct (is_intern (y_link y)); first [apply A4; exact R4 | auto].
Qed.

(* --- Instructions --- *)
Definition a_reloc (a : abs) (y t o ad : Z) : abs :=
  w_rt a (a_rt a ++ [Reloc y t (int32 (zlen (a_txt a) + o)) ad]).
Lemma reloc_R a s y t o ad : R a s ->
  exists s', add_relocation s rela_text y t o ad = Ok s' /\ R (a_reloc a y t o ad) s'.
Proof. intros (cp & -> & C). eexists. split; [reflexivity|]. exists cp. split; [reflexivity|exact C]. Qed.

(* the bytes of an instruction as first written, the jumps left open and the relocations, at text position pos with the
   labels known so far *)
Fixpoint raw_p (k : Z -> Z) (pos : Z) (ps : list piece) : list Z :=
  match ps with
  | [] => []
  | PBytes b :: r => b ++ raw_p k (pos + zlen b) r
  | PJump l d :: r => le_bytes 4 (if k l =? 0 then d - 4 else k l - pos + d - 4) ++ raw_p k (pos + 4) r
  | PRel _ _ _ :: r => zeros 4 ++ raw_p k (pos + 4) r
  end.
Fixpoint pend_p (k : Z -> Z) (pos : Z) (ps : list piece) : list (Z * Z) :=
  match ps with
  | [] => []
  | PBytes b :: r => pend_p k (pos + zlen b) r
  | PJump l d :: r => (if k l =? 0 then [(l, pos)] else []) ++ pend_p k (pos + 4) r
  | PRel _ _ _ :: r => pend_p k (pos + 4) r
  end.
Fixpoint rel_p (pos : Z) (ps : list piece) : list reloc :=
  match ps with
  | [] => []
  | PBytes b :: r => rel_p (pos + zlen b) r
  | PJump l d :: r => rel_p (pos + 4) r
  | PRel y t a :: r => Reloc y t pos a :: rel_p (pos + 4) r
  end.
Lemma plens_nonneg ps : 0 <= plens ps.
Proof.
  induction ps as [|p r IH]; cbn [plens fold_right]; [lia|]. fold (plens r).
  assert (0 <= plen p) by (destruct p as [b| |]; cbn [plen]; [apply zlen_nonneg|lia|lia]). lia.
Qed.
Lemma raw_p_len k pos ps : zlen (raw_p k pos ps) = plens ps.
Proof.
  revert pos. induction ps as [|[b|l d|y t ad] r IH]; intro pos; cbn [raw_p plens fold_right plen]; try fold (plens r).
  - reflexivity.
  - rewrite zlen_app, IH. reflexivity.
  - rewrite zlen_app, zlen_le, IH. reflexivity.
  - rewrite zlen_app, IH. reflexivity.
Qed.

Lemma encode_R ps : forall a s code, R a s -> zlen (a_txt a) + zlen code + plens ps < 2 ^ 31 ->
  exists s', encode s code ps = Ok (s', code ++ raw_p (a_off a) (zlen (a_txt a) + zlen code) ps) /\
    R (w_pend (w_rt a (a_rt a ++ rel_p (zlen (a_txt a) + zlen code) ps))
         (a_pend a ++ pend_p (a_off a) (zlen (a_txt a) + zlen code) ps)) s'.
Proof.
  induction ps as [|p r IH]; intros a s code HR B.
  - cbn [encode raw_p rel_p pend_p]. rewrite !app_nil_r. exists s. split; [reflexivity|]. destruct a. exact HR.
  - cbn [plens fold_right] in B. fold (plens r) in B. pose proof (plens_nonneg r) as PN.
    pose proof (zlen_nonneg (a_txt a)) as TN. pose proof (zlen_nonneg code) as CN.
    destruct p as [b|l d|y t ad]; cbn [encode raw_p rel_p pend_p plen] in *.
    + destruct (IH a s (code ++ b) HR) as (s' & E & R'); [rewrite zlen_app; lia|].
      rewrite zlen_app, !Z.add_assoc in *. rewrite <- app_assoc in E. exists s'. split; [exact E|exact R'].
    + destruct (R_sizes _ _ HR) as (_ & _ & ST & _ & SO). unfold text_displacement. rewrite ST, SO.
      destruct (Z.eqb_spec (a_off a l) 0) as [Z0|NZ]; cbn [negb].
      * set (a1 := w_pend a (a_pend a ++ [(l, zlen (a_txt a) + zlen code)])).
        assert (R a1 (set_pend s (pend s ++ [(l, int32 (zlen (a_txt a) + zlen code))]))) as R1.
        { rewrite int32_small by lia. destruct HR as (cp & -> & C). exists cp. split; [reflexivity|exact C]. }
        rewrite Z.add_0_l.
        destruct (IH a1 _ (code ++ le_bytes 4 (d - 4)) R1) as (s' & E & R').
        { cbn [a1 a_txt w_pend]. rewrite zlen_app, zlen_le. lia. }
        cbn [a1 a_txt w_pend a_off] in E, R'. rewrite zlen_app, zlen_le in *. change (Z.of_nat 4) with 4 in *.
        rewrite !Z.add_assoc in *. rewrite <- app_assoc in E. exists s'. split; [exact E|].
        unfold a1 in R'. cbn [a_pend a_rt w_rt w_pend] in R'. rewrite <- app_assoc in R'. exact R'.
      * replace (le_bytes 4 (int32 (a_off a l - zlen (a_txt a) - zlen code) + d - 4))
          with (le_bytes 4 (a_off a l - (zlen (a_txt a) + zlen code) + d - 4)).
        2:{ apply le_bytes_congr. change (256 ^ Z.of_nat 4) with (2 ^ 32).
            rewrite <- !Z.add_sub_assoc. rewrite (Zplus_mod (int32 _)), int32_congr, <- Zplus_mod. f_equal. lia. }
        destruct (IH a s (code ++ le_bytes 4 (a_off a l - (zlen (a_txt a) + zlen code) + d - 4)) HR) as (s' & E & R').
        { rewrite zlen_app, zlen_le. lia. }
        rewrite zlen_app, zlen_le in *. change (Z.of_nat 4) with 4 in *.
        rewrite !Z.add_assoc in *. rewrite <- app_assoc in E. exists s'. split; [exact E|exact R'].
    + destruct (reloc_R a s y t (zlen code) ad HR) as (s1 & E1 & R1). rewrite E1. cbn [bind].
      destruct (IH _ s1 (code ++ zeros 4) R1) as (s' & E & R').
      { cbn [a_reloc w_rt a_txt]. rewrite zlen_app. change (zlen (zeros 4)) with 4. lia. }
      unfold a_reloc in E, R'. cbn [w_rt a_txt a_off a_rt a_pend] in E, R'. rewrite zlen_app in *. change (zlen (zeros 4)) with 4 in *.
      rewrite !Z.add_assoc in *. rewrite <- app_assoc in E. exists s'. split; [exact E|].
      rewrite int32_small in R' by lia. rewrite <- app_assoc in R'. exact R'.
Qed.

(* the size of the function being written *)
Definition inc_ent (l : list esym) (i : nat) (n : Z) : list esym :=
  match nth_error l i with Some e => upd l i (add_size e n) | None => l end.
Definition inc_glob (l : list (Z * esym)) (i : nat) (n : Z) : list (Z * esym) :=
  match nth_error l i with Some (y, e) => upd l i (y, add_size e n) | None => l end.
Definition incr (a : abs) (n : Z) : abs :=
  match a_cur a with
  | CNone => a
  | CStatic i => w_ent a (inc_ent (a_ent a) (Z.to_nat i) n)
  | CGlobal i => w_glob a (inc_glob (a_glob a) i n)
  end.
Definition cur_ok (a : abs) : Prop :=
  match a_cur a with
  | CNone => False
  | CStatic i => 0 <= i < zlen (a_ent a)
  | CGlobal i => (i < length (a_glob a))%nat
  end.
Lemma split_at {A} (l : list A) i : (i < length l)%nat ->
  exists l1 x l2, l = l1 ++ x :: l2 /\ length l1 = i /\ nth_error l i = Some x /\ forall y, upd l i y = l1 ++ y :: l2.
Proof.
  revert i. induction l as [|h l IH]; intros [|i] H; cbn in H; try lia.
  - exists [], h, l. repeat split.
  - destruct (IH i ltac:(lia)) as (l1 & x & l2 & -> & E & N & U). exists (h :: l1), x, l2.
    cbn. rewrite E, N. repeat split. intro y. rewrite U. reflexivity.
Qed.
Lemma incr_R a s n : R a s -> cur_ok a -> exists s', increment_function_size s n = Ok s' /\ R (incr a n) s'.
Proof.
  intros (cp & -> & C) CK. unfold increment_function_size, incr, cur_ok in *.
  change (cur (conc a cp)) with (a_cur a). destruct (a_cur a) as [|i|i] eqn:K; [contradiction| |].
  - change (get (conc a cp) symtab) with (Sec (Shdr 19 2 0 0 (24 * zlen (a_ent a)) 2 (a_info a) 4 24) (ents (a_ent a))).
    cbn [s_buf s_hdr]. rewrite ents_len. destruct (Z.leb_spec (24 * i + 16 + 8) (24 * zlen (a_ent a))) as [_|X]; [|lia].
    destruct (split_at (a_ent a) (Z.to_nat i)) as (l1 & e & l2 & E & EL & EN & EU). { unfold zlen in CK. lia. }
    assert (zlen l1 = i) as ZL by (unfold zlen; lia).
    assert (patch (ents (a_ent a)) (24 * i + 16) (le_bytes 8 (le_val (sub (ents (a_ent a)) (24 * i + 16) 8) + n))
            = ents (inc_ent (a_ent a) (Z.to_nat i) n)) as ->.
    { unfold inc_ent. rewrite EN, EU. rewrite E. change (e :: l2) with ([e] ++ l2).
      change (add_size e n :: l2) with ([add_size e n] ++ l2). rewrite !ents_app, !ents_one.
      unfold enc_sym, add_size. cbn [st_name st_info st_shndx st_value st_size].
      set (h := le_bytes 4 (st_name e) ++ le_bytes 1 (st_info e) ++ [0] ++ le_bytes 2 (st_shndx e) ++ le_bytes 8 (st_value e)).
      assert (zlen (ents l1 ++ h) = 24 * i + 16) as HL.
      { unfold h. rewrite !zlen_app, ents_len, !zlen_le. change (zlen [0]) with 1. lia. }
      assert (forall z, ents l1 ++ (le_bytes 4 (st_name e) ++ le_bytes 1 (st_info e) ++ [0] ++ le_bytes 2 (st_shndx e) ++
                le_bytes 8 (st_value e) ++ le_bytes 8 z) ++ ents l2 = (ents l1 ++ h) ++ le_bytes 8 z ++ ents l2) as EQ.
      { intro z. unfold h. rewrite <- !app_assoc. reflexivity. }
      rewrite !EQ. rewrite <- HL. 
      assert (sub ((ents l1 ++ h) ++ le_bytes 8 (st_size e) ++ ents l2) (zlen (ents l1 ++ h)) 8 = le_bytes 8 (st_size e)) as ->
        by exact (sub_app (ents l1 ++ h) (le_bytes 8 (st_size e)) (ents l2)).
      rewrite le_bytes_add.
      apply patch_app. rewrite !le_bytes_length. reflexivity. }
    eexists. split; [reflexivity|]. exists cp. 
    assert (zlen (inc_ent (a_ent a) (Z.to_nat i) n) = zlen (a_ent a)) as LE.
    { unfold inc_ent. rewrite EN. unfold zlen. rewrite upd_length. reflexivity. }
    split.
    + unfold set, conc. cbn [secs caps shstrndx off globals prel pend cur symtab upd w_ent a_str a_ent a_info a_bss a_bal a_rod a_ral a_dat a_dal a_rdb a_txt a_rtb a_off a_glob a_rd a_rt a_pend a_cur].
      rewrite LE. reflexivity.
    + destruct C as (C1 & C2 & C3 & C4). repeat split; try apply C4; auto.
      cbn [w_ent a_ent]. rewrite LE. exact C3.
  - change (globals (conc a cp)) with (a_glob a).
    destruct (split_at (a_glob a) i CK) as (l1 & [y e] & l2 & E & EL & EN & EU). rewrite EN.
    eexists. split; [reflexivity|]. exists cp. split; [|exact C]. unfold inc_glob. rewrite EN. reflexivity.
Qed.

Lemma upd_same_id {A} (l : list A) i x : nth_error l i = Some x -> upd l i x = l.
Proof. revert i; induction l as [|h l IH]; intros [|i] H; cbn in *; try congruence. f_equal. auto. Qed.
Lemma upd_upd {A} (l : list A) i x y : upd (upd l i x) i y = upd l i y.
Proof. revert i; induction l as [|h l IH]; intros [|i]; cbn; congruence. Qed.
Lemma nth_error_upd_eq {A} (l : list A) i x e : nth_error l i = Some e -> nth_error (upd l i x) i = Some x.
Proof. intro H. apply nth_error_upd_same. apply nth_error_Some. congruence. Qed.
Lemma inc_ent_0 l i : inc_ent l i 0 = l.
Proof. unfold inc_ent. destruct (nth_error l i) as [e|] eqn:E; auto. apply upd_same_id. rewrite E. destruct e.
  unfold add_size. cbn. rewrite Z.add_0_r. reflexivity. Qed.
Lemma inc_glob_0 l i : inc_glob l i 0 = l.
Proof. unfold inc_glob. destruct (nth_error l i) as [[y e]|] eqn:E; auto. apply upd_same_id. rewrite E. destruct e.
  unfold add_size. cbn. rewrite Z.add_0_r. reflexivity. Qed.
Lemma inc_ent_add l i n m : inc_ent (inc_ent l i n) i m = inc_ent l i (n + m).
Proof.
  unfold inc_ent. destruct (nth_error l i) as [e|] eqn:E; [|rewrite E; reflexivity].
  rewrite (nth_error_upd_eq _ _ _ _ E), upd_upd. unfold add_size. cbn. rewrite Z.add_assoc. reflexivity.
Qed.
Lemma inc_glob_add l i n m : inc_glob (inc_glob l i n) i m = inc_glob l i (n + m).
Proof.
  unfold inc_glob. destruct (nth_error l i) as [[y e]|] eqn:E; [|rewrite E; reflexivity].
  rewrite (nth_error_upd_eq _ _ _ _ E), upd_upd. unfold add_size. cbn. rewrite Z.add_assoc. reflexivity.
Qed.
Lemma inc_ent_len l i n : length (inc_ent l i n) = length l.
Proof. unfold inc_ent. destruct (nth_error l i); rewrite ?upd_length; reflexivity. Qed.
Lemma inc_glob_len l i n : length (inc_glob l i n) = length l.
Proof. unfold inc_glob. destruct (nth_error l i) as [[]|]; rewrite ?upd_length; reflexivity. Qed.
Lemma Forall_upd {A} (P : A -> Prop) l i x : Forall P l -> P x -> Forall P (upd l i x).
Proof. intros H X. revert i; induction H; intros [|i]; cbn; auto. Qed.
Lemma loc_incr a n : loc a -> loc (incr a n).
Proof.
  intros (I & NE & F). unfold incr. destruct (a_cur a) as [|i|i]; [repeat split; auto| |repeat split; auto].
  repeat split; cbn [w_ent a_ent a_info]; auto.
  - intro E. apply (f_equal (@length _)) in E. rewrite inc_ent_len in E. destruct (a_ent a); [congruence|discriminate].
  - unfold inc_ent. destruct (nth_error (a_ent a) (Z.to_nat i)) as [e|] eqn:N; auto. apply Forall_upd; auto.
    pose proof (proj1 (Forall_forall _ _) F e (nth_error_In _ _ N)). exact H.
Qed.

(* the same for a function body *)
Fixpoint raw_b (k : Z -> Z) (pos : Z) (b : list cmd) : list Z :=
  match b with
  | [] => []
  | CLabel y :: r => raw_b (upd_off k (y_id y) pos) pos r
  | CInstr ps :: r => if is_nop ps then raw_b k pos r else raw_p k pos ps ++ raw_b k (pos + plens ps) r
  end.
Fixpoint pend_b (k : Z -> Z) (pos : Z) (b : list cmd) : list (Z * Z) :=
  match b with
  | [] => []
  | CLabel y :: r => pend_b (upd_off k (y_id y) pos) pos r
  | CInstr ps :: r => if is_nop ps then pend_b k pos r else pend_p k pos ps ++ pend_b k (pos + plens ps) r
  end.
Fixpoint off_b (k : Z -> Z) (pos : Z) (b : list cmd) : Z -> Z :=
  match b with
  | [] => k
  | CLabel y :: r => off_b (upd_off k (y_id y) pos) pos r
  | CInstr ps :: r => off_b k (pos + ilen ps) r
  end.
Fixpoint rel_b (pos : Z) (b : list cmd) : list reloc :=
  match b with
  | [] => []
  | CLabel y :: r => rel_b pos r
  | CInstr ps :: r => if is_nop ps then rel_b pos r else rel_p pos ps ++ rel_b (pos + plens ps) r
  end.
Definition eff (a : abs) (b : list cmd) : abs :=
  let p := zlen (a_txt a) in
  incr (w_off (w_pend (w_rt (w_txt a (a_txt a ++ raw_b (a_off a) p b)) (a_rt a ++ rel_b p b))
                      (a_pend a ++ pend_b (a_off a) p b)) (off_b (a_off a) p b)) (code_len b).

Lemma clen_nonneg c : 0 <= clen c.
Proof. destruct c; cbn [clen]; [lia|]. unfold ilen. destruct (is_nop ps); [lia|apply plens_nonneg]. Qed.
Lemma code_len_nonneg b : 0 <= code_len b.
Proof. induction b as [|c b IH]; cbn [code_len fold_right]; [lia|]. fold (code_len b). pose proof (clen_nonneg c). lia. Qed.
Lemma label_R c a s y : R a s -> y_kind y = SLabel -> y_link y = LIntern -> a_off a (y_id y) = 0 ->
  zlen (a_txt a) < 2 ^ 31 ->
  exists s', elf_symbol c s y = Ok s' /\ R (w_off a (upd_off (a_off a) (y_id y) (zlen (a_txt a)))) s'.
Proof.
  intros HR K L O B. unfold elf_symbol. rewrite K, L. destruct (R_sizes _ _ HR) as (_ & _ & ST & _ & SO).
  rewrite SO, O, ST. cbn [is_none negb assert bind Z.eqb].
  pose proof (zlen_nonneg (a_txt a)). rewrite int32_small by lia.
  eexists. split; [reflexivity|]. destruct HR as (cp & -> & C). exists cp. split; [reflexivity|exact C].
Qed.
Lemma text_R a s ps : R a s -> cur_ok a -> instr_wf ps -> zlen (a_txt a) + ilen ps < 2 ^ 31 ->
  exists s', elf_text s ps = Ok s' /\
    R (if is_nop ps then a else
         incr (w_pend (w_rt (w_txt a (a_txt a ++ raw_p (a_off a) (zlen (a_txt a)) ps))
                 (a_rt a ++ rel_p (zlen (a_txt a)) ps)) (a_pend a ++ pend_p (a_off a) (zlen (a_txt a)) ps)) (plens ps)) s'.
Proof.
  intros HR CK (F & (b & c & r & EP) & N) B. unfold ilen in B. unfold elf_text. destruct (is_nop ps) eqn:EN.
  - rewrite (N eq_refl). cbn [encode bind app nth]. change (negb (144 =? 144)) with false. exists s. split; [reflexivity|exact HR].
  - destruct (encode_R ps a s [] HR) as (s1 & E1 & R1); [cbn; change (zlen (@nil Z)) with 0; lia|].
    change (zlen (@nil Z)) with 0 in *. rewrite Z.add_0_r in *. cbn [app] in E1. rewrite E1. cbn [bind].
    assert (nth 0 (raw_p (a_off a) (zlen (a_txt a)) ps) 0 =? 144 = false) as ->.
    { rewrite EP in EN |- *. exact EN. }
    cbn [negb]. destruct (write_R _ s1 8 (raw_p (a_off a) (zlen (a_txt a)) ps) R1 ltac:(cbn; auto 10)) as (s2 & E2 & R2).
    change text with 8%nat. rewrite E2. cbn [bind]. rewrite raw_p_len.
    destruct (incr_R _ s2 (plens ps) R2) as (s3 & E3 & R3); [exact CK|]. exists s3. split; [exact E3|exact R3].
Qed.
Lemma run_app c s o1 o2 : run c s (o1 ++ o2) = do s1 <- run c s o1; run c s1 o2.
Proof.
  revert s. induction o1 as [|o r IH]; intro s; [reflexivity|]. cbn [app run].
  destruct (step c s o); cbn [bind]; auto.
Qed.
Lemma labels_app a b : labels_of (a ++ b) = labels_of a ++ labels_of b.
Proof. apply flat_map_app. Qed.
Lemma cur_ok_incr a n : cur_ok a -> cur_ok (incr a n).
Proof.
  unfold cur_ok, incr. destruct (a_cur a) as [|i|i] eqn:K; auto; cbn [w_ent w_glob a_cur a_ent a_glob]; rewrite K; cbv iota beta.
  - auto.
  - unfold zlen. rewrite inc_ent_len. auto.
  - rewrite inc_glob_len. auto.
Qed.

Definition a_text (a : abs) (ps : list piece) : abs :=
  incr (w_pend (w_rt (w_txt a (a_txt a ++ raw_p (a_off a) (zlen (a_txt a)) ps))
         (a_rt a ++ rel_p (zlen (a_txt a)) ps)) (a_pend a ++ pend_p (a_off a) (zlen (a_txt a)) ps)) (plens ps).
Lemma abs_eq a b : a_str a = a_str b -> a_ent a = a_ent b -> a_info a = a_info b -> a_bss a = a_bss b ->
  a_bal a = a_bal b -> a_rod a = a_rod b -> a_ral a = a_ral b -> a_dat a = a_dat b -> a_dal a = a_dal b ->
  a_rdb a = a_rdb b -> a_txt a = a_txt b -> a_rtb a = a_rtb b -> a_off a = a_off b -> a_glob a = a_glob b ->
  a_rd a = a_rd b -> a_rt a = a_rt b -> a_pend a = a_pend b -> a_cur a = a_cur b -> a = b.
Proof. destruct a, b. cbn. intros. subst. reflexivity. Qed.
(* incr changes the entries only *)
Definition incr_ents (a : abs) (n : Z) : list esym :=
  match a_cur a with CStatic i => inc_ent (a_ent a) (Z.to_nat i) n | _ => a_ent a end.
Definition incr_globs (a : abs) (n : Z) : list (Z * esym) :=
  match a_cur a with CGlobal i => inc_glob (a_glob a) i n | _ => a_glob a end.
Lemma incr_eq a n : incr a n = w_glob (w_ent a (incr_ents a n)) (incr_globs a n).
Proof. unfold incr, incr_ents, incr_globs. destruct (a_cur a) eqn:K; destruct a; reflexivity. Qed.
Lemma eff_instr a ps b : is_nop ps = false -> eff a (CInstr ps :: b) = eff (a_text a ps) b.
Proof.
  intro EN. unfold eff, a_text. rewrite !incr_eq.
  cbn [raw_b pend_b off_b rel_b]. unfold ilen. rewrite EN.
  assert (code_len (CInstr ps :: b) = plens ps + code_len b) as ->.
  { cbn [code_len fold_right clen]. unfold ilen. rewrite EN. reflexivity. }
  cbn [w_glob w_ent w_off w_pend w_rt w_txt a_txt a_off a_rt a_pend].
  rewrite zlen_app, raw_p_len, <- !app_assoc.
  apply abs_eq; try reflexivity; unfold incr_ents, incr_globs;
    cbn [w_glob w_ent w_off w_pend w_rt w_txt a_cur a_ent a_glob]; destruct (a_cur a); try reflexivity.
  - rewrite inc_ent_add. reflexivity.
  - rewrite inc_glob_add. reflexivity.
Qed.

Lemma body_R c b : forall a s, R a s -> loc a -> cur_ok a -> Forall cmd_wf b -> zlen (a_txt a) + code_len b < 2 ^ 31 ->
  NoDup (map y_id (labels_of b)) -> (forall l, In l (map y_id (labels_of b)) -> a_off a l = 0) ->
  exists s', run c s (map op_of_cmd b) = Ok s' /\ R (eff a b) s'.
Proof.
  induction b as [|x b IH]; intros a s HR HL CK F B ND O.
  - exists s. split; [reflexivity|]. unfold eff. cbn [raw_b pend_b off_b rel_b code_len fold_right]. rewrite !app_nil_r.
    unfold incr. cbn [w_off w_pend w_rt w_txt a_cur a_ent a_glob]. destruct (a_cur a); rewrite ?inc_ent_0, ?inc_glob_0; destruct a; exact HR.
  - inversion F as [|? ? W F']; subst. pose proof (code_len_nonneg b). cbn [map run op_of_cmd].
    cbn [code_len fold_right] in B. fold (code_len b) in B.
    destruct x as [y|ps]; cbn [op_of_cmd step clen] in *.
    + destruct W as [WK WL]. cbn [labels_of flat_map app map] in ND, O. fold (labels_of b) in *.
      inversion ND as [|? ? NI ND']; subst.
      destruct (label_R c a s y HR WK WL) as (s1 & E1 & R1); [apply O; left; reflexivity|lia|].
      rewrite E1. cbn [bind].
      destruct (IH _ s1 R1) as (s2 & E2 & R2); auto.
      { intros l I. cbn [w_off a_off]. unfold upd_off. destruct (Z.eqb_spec l (y_id y)); [subst; contradiction|]. apply O. right. exact I. }
      exists s2. split; [exact E2|]. unfold eff in *. cbn [w_off a_txt a_off a_rt a_pend] in R2.
      cbn [raw_b pend_b off_b rel_b code_len fold_right clen]. fold (code_len b). rewrite Z.add_0_l. exact R2.
    + destruct (text_R a s ps HR CK W) as (s1 & E1 & R1); [lia|]. rewrite E1. cbn [bind].
      unfold ilen in *. destruct (is_nop ps) eqn:EN.
      * destruct (IH _ s1 R1) as (s2 & E2 & R2); auto. exists s2. split; [exact E2|].
        unfold eff in *. cbn [raw_b pend_b off_b rel_b code_len fold_right clen]. unfold ilen. rewrite EN. fold (code_len b).
        rewrite Z.add_0_l, Z.add_0_r. exact R2.
      * destruct (IH _ s1 R1) as (s2 & E2 & R2); auto.
        { apply loc_incr. exact HL. } { apply cur_ok_incr. exact CK. }
        { unfold incr. cbn [w_pend w_rt w_txt a_cur]. destruct (a_cur a); cbn [w_ent w_glob w_pend w_rt w_txt a_txt];
            rewrite zlen_app, raw_p_len; lia. }
        { intros l I. unfold incr. cbn [w_pend w_rt w_txt a_cur]. destruct (a_cur a); cbn [w_ent w_glob w_pend w_rt w_txt a_off]; apply O; exact I. }
        exists s2. split; [exact E2|]. rewrite (eff_instr a ps b EN). exact R2.
Qed.
