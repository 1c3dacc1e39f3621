(* A printed line is read as the instruction asked for. *)
From Coq Require Import String ZArith Bool Lia List.
From Verif Require Import Bytes Util EncModel EncSpec ArgsModel AttModel AttSpec AttProofs AttMeaning.
Import ListNotations.
Open Scope Z_scope.

Section Line.
Variables (name : Z -> list Z) (find : list Z -> option Z) (loc : kind -> Z -> Z) (e depth : Z).
Hypothesis K : known name find.

Definition reg_fine (r : registr) : Prop := (exists w a, gp r w = Some a) \/ (exists w a, xm r w = Some a) \/ exists a, st depth r = Some a.
Definition reg2_fine (r : registr) : Prop := (exists w a, gp r w = Some a) \/ (exists w a, xm r w = Some a).
Definition mem_fine (m : memory) : Prop := exists p, where_ loc e (m_addr m) = Some p.
Definition int_fine (m : immediate) : Prop := exists q, i_val m = IInt q /\ wide (i_width m) = true.
Definition imm_fine (m : immediate) : Prop := int_fine m \/ exists a y, i_val m = IAddr a /\ a_sym a = Some y.
Definition args_fine (o : operands) : Prop :=
  match o with
  | NoOp _ => True | OpImm m => imm_fine m | OpReg r => reg_fine r | OpMem m => mem_fine m
  | RegReg s d => reg2_fine s /\ reg2_fine d | RegMem s d => reg2_fine s /\ mem_fine d | MemReg s d => mem_fine s /\ reg2_fine d
  | ImmReg s d => int_fine s /\ reg2_fine d | ImmMem s d => int_fine s /\ mem_fine d
  end.

Lemma fine_gp r w a : gp r w = Some a -> reg_fine r. Proof. left. eauto. Qed.
Lemma fine_xm r w a : xm r w = Some a -> reg_fine r. Proof. right. left. eauto. Qed.
Lemma fine2_gp r w a : gp r w = Some a -> reg2_fine r. Proof. left. eauto. Qed.
Lemma fine2_xm r w a : xm r w = Some a -> reg2_fine r. Proof. right. eauto. Qed.
Lemma fine2 r : reg2_fine r -> reg_fine r. Proof. intros [H|H]; [left|right; left]; exact H. Qed.
Lemma fine_st r a : st depth r = Some a -> reg_fine r. Proof. right. right. eauto. Qed.
Lemma fine_me m w n a : me loc e m w n = Some a -> mem_fine m.
Proof. unfold me, mem_fine. destruct (_ =? _); [|discriminate]. destruct (where_ _ _ _); [eauto|discriminate]. Qed.
Lemma fine_im i w a : im i w = Some a -> int_fine i.
Proof. intro H. apply im_inv in H as (A & _ & q & B & _). exists q. auto. Qed.
Lemma fine_target m p a : target loc e m p = Some a -> imm_fine m.
Proof. unfold target. destruct (i_val m) as [|t] eqn:E; [discriminate|]. destruct (_ =? _); [|discriminate]. destruct (a_sym t) eqn:F; [|discriminate]. right. eauto. Qed.
Hint Resolve fine2_gp fine2_xm fine_gp fine_xm fine_st fine_me fine_im fine_target : fine.
Ltac parts A := repeat match type of A with
  | same ?b _ = Some _ => unfold same in A; destruct b; [|discriminate A]
  | two _ ?a ?b = Some _ => destruct a eqn:?; [|discriminate A]; destruct b eqn:?; [|discriminate A]; clear A
  | one _ ?a = Some _ => destruct a eqn:?; [|discriminate A]; clear A
  | (if ?b then _ else _) = Some _ => destruct b; [|try discriminate A]
  end.
Lemma fmem_fine m l o x : asked_fmem loc e m l o = Some x -> args_fine o.
Proof. induction l as [|[w n] l IH]; [discriminate|]. cbn [asked_fmem]. destruct o; try discriminate. destruct (_ =? _); [|exact IH]. intro A. parts A. cbn. eauto with fine. Qed.
Lemma asked_fine i x : asked loc e depth i = Some x -> args_fine (n_args i).
Proof.
  destruct i as [op cc pf o]. unfold asked. cbn [n_op n_cc n_prefix n_args]. destruct (_ && _); [|discriminate].
  unfold asked_body. cbn [n_op n_cc n_prefix n_args]. intro A.
  repeat match type of A with (if ?b then _ else _) = Some _ =>
    destruct b; [solve [unfold asked_alu, asked_one, asked_none, asked_extend, asked_shift, asked_sse, asked_store, asked_sse, asked_packed, asked_st in A;
      first [eapply fmem_fine; exact A
        | destruct o; try discriminate A; try (eapply fmem_fine; exact A); cbn [args_fine]; try exact Logic.I;
          try (match type of A with match ?m with _ => _ end = _ => destruct m end; try discriminate A); parts A;
          try discriminate; try exact Logic.I; repeat split; eauto with fine; left; eauto with fine]]|]
  end.
  discriminate.
Qed.

Lemma fine_shown r s : reg_fine r -> regname depth r = Done s -> exists a, shown depth r a /\ reg_op depth r = OReg a.
Proof.
  intros [(w & a & H)|[(w & a & H)|(a & H)]] E; exists a.
  - split; [|now apply gp_op with (w := w)]. apply gp_inv in H as (-> & W & Wd & Gr). destruct r as [w' n]. cbn [r_reg r_width] in *. subst w'. 
    unfold is_gp in Gr. rewrite andb_true_iff, !Z.leb_le in Gr. now apply shown_gp.
  - split; [|now apply xm_op with (w := w)]. apply xm_inv in H as (-> & W & Gr). destruct r as [w' n]. cbn [r_reg r_width] in *. subst w'. 
    unfold is_xmm in Gr. rewrite andb_true_iff, !Z.leb_le in Gr. now apply shown_xm.
  - split; [|now apply st_inv in H]. apply shown_st; [exact H|]. unfold st in H. destruct (Z.leb_spec 34 (r_reg r)); [|discriminate]. unfold regname, x87_stack_pos in E.
    replace (r_reg r =? IP) with false in E by (symmetry; apply Z.eqb_neq; unfold IP; lia). replace (r_reg r <? XMM0) with false in E by (symmetry; apply Z.ltb_ge; unfold XMM0; lia).
    replace (r_reg r <? ST0) with false in E by (symmetry; apply Z.ltb_ge; unfold ST0; lia). destruct (Z.ltb_spec 1 depth); [assumption|]. rewrite andb_false_r in E. discriminate.
Qed.
Lemma read_reg r s : reg_fine r -> regname depth r = Done s -> forall l, stops l -> operand find loc e (s ++ l) = Some (reg_op depth r, l).
Proof.
  intros F E l L. destruct (fine_shown r s F E) as (a & S0 & ->). destruct (operand_register find loc e depth r a S0) as (t & E1 & H). rewrite E1 in E. apply done_inj in E. subst t. now apply H.
Qed.
Lemma read_star r s : reg_fine r -> regname depth r = Done s -> forall l, stops l -> operand find loc e ((42 :: s) ++ l) = Some (OStar (reg_op depth r), l).
Proof.
  intros F E l L. destruct (fine_shown r s F E) as (a & S0 & ->). destruct (operand_star find loc e depth r a S0) as (t & E1 & H). rewrite E1 in E. apply done_inj in E. subst t. now apply H.
Qed.
Lemma read_mem m s : mem_fine m -> odd_address (m_addr m) = false -> asm_address name depth (m_addr m) = Done s -> forall l, ends l -> operand find loc e (s ++ l) = Some (mem_op loc e m, l).
Proof. intros (p & W) O E l L. unfold mem_op. rewrite W. now apply operand_address with (name := name) (depth := depth) (a := m_addr m). Qed.
Lemma read_int m s : int_fine m -> asm_immediate name depth m = Done s -> forall l, ends l -> operand find loc e (s ++ l) = Some (imm_op m, l).
Proof.
  intros (q & V & W) E l L. destruct m as [w v]. cbn [i_val i_width] in *. subst v. unfold imm_op. cbn [i_val i_width].
  destruct (operand_integer name find loc e depth w q l W (ends_stops _ L)) as (t & E1 & H). rewrite E1 in E. apply done_inj in E. now subst t.
Qed.
Lemma read_imm m s : imm_fine m -> odd_target m = false -> asm_immediate name depth m = Done s -> forall l, ends l -> operand find loc e (s ++ l) = Some (imm_op m, l).
Proof.
  intros [H|(a & y & V & Y)] O E l L; [now apply read_int|]. destruct m as [w v]. cbn [i_val i_width] in *. subst v. unfold imm_op. cbn [i_val i_width]. rewrite Y.
  unfold asm_immediate in E. cbn [i_val] in E. rewrite Y in E. cbn [check bind] in E. eapply operand_target; eassumption.
Qed.

(* an operand begins with a character that is not blank or the end of the line *)
Lemma operand_head t l o : operand find loc e (t ++ l) = Some (o, l) -> ends l -> exists c t', t = c :: t' /\ blank c = false /\ c <> 10.
Proof.
  intros H L. destruct t as [|c t].
  - destruct l as [|c l]; [contradiction|]. destruct L as [->| ->]; discriminate H.
  - exists c, t. split; [reflexivity|]. unfold blank. destruct (Z.eqb_spec c 32) as [->|]; [discriminate H|]. destruct (Z.eqb_spec c 9) as [->|]; [discriminate H|]. split; [reflexivity|intros ->; discriminate H].
Qed.
Lemma skip_head b c l : blank b = true -> blank c = false -> skip (b :: c :: l) = c :: l.
Proof. intros B C. unfold skip. cbn [span]. rewrite B, C. reflexivity. Qed.
Lemma not_end {A} c l (x : A) (f : list Z -> A) : c <> 10 -> match c :: l with [10] => x | l => f l end = f (c :: l).
Proof. intro N. zcases c; try (destruct l; reflexivity). congruence. Qed.
Lemma operands_1 t o : operand find loc e (t ++ [10]) = Some (o, [10]) -> operand_list find loc e (9 :: t ++ [10]) = Some [o].
Proof.
  intro H. destruct (operand_head _ _ _ H ltac:(now right)) as (c & t' & -> & B & N). unfold operand_list. cbn [app] in *. rewrite skip_head by (reflexivity || assumption).
  rewrite (not_end c (t' ++ [10]) _ (some_operands find loc e)) by assumption. unfold some_operands. rewrite H. reflexivity.
Qed.
Lemma operands_2 t o u v : operand find loc e (t ++ 44 :: 32 :: u ++ [10]) = Some (o, 44 :: 32 :: u ++ [10]) -> operand find loc e (u ++ [10]) = Some (v, [10]) ->
  operand_list find loc e (9 :: t ++ 44 :: 32 :: u ++ [10]) = Some [o; v].
Proof.
  intros H G. destruct (operand_head _ _ _ H ltac:(now left)) as (c & t' & -> & B & N). destruct (operand_head _ _ _ G ltac:(now right)) as (c' & u' & -> & B' & N').
  unfold operand_list. cbn [app] in *. rewrite skip_head by (reflexivity || assumption).
  rewrite (not_end c (t' ++ 44 :: 32 :: c' :: u' ++ [10]) _ (some_operands find loc e)) by assumption. unfold some_operands. rewrite H. cbn [obind snd fst]. change (skip (44 :: 32 :: c' :: u' ++ [10])) with (44 :: 32 :: c' :: u' ++ [10]). cbv iota.
  rewrite skip_head by (reflexivity || assumption). rewrite G. reflexivity.
Qed.

Theorem text_ok i l d : asm_text name depth i = Done l -> asked loc e depth i = Some d -> misspelt i = false -> read_line find loc e l = Some d.
Proof.
  intros E A Q. pose proof (asked_fine i d A) as F. unfold asm_text in E. destruct (get_mnemonic i) as [m| | |] eqn:Em; try discriminate. cbn [bind] in E.
  destruct (meanings loc e depth i d m A Q Em) as (f & Lf & Al & Rp & Mn & Pf).
  match type of E with bind ?x _ = _ => destruct x as [s| | |] eqn:Es; try discriminate end. cbn [bind] in E.
  match type of E with bind ?x _ = _ => destruct x as [t| | |] eqn:Et; try discriminate end. cbn [bind] in E.
  assert (O : operand_list find loc e (s ++ t ++ [10]) = Some (ops_of loc e depth i)).
  { clear - K F Es Et Q. unfold ops_of, misspelt in *. destruct i as [op cc pf o]. cbn [n_args n_op] in *.
    assert (EN : ends [10]) by (now right). assert (EC : forall r, ends (44 :: r)) by (now left).
    destruct o as [w|m|r|m|s0 d0|s0 d0|s0 d0|s0 d0|s0 d0]; cbn [args_fine] in F.
    - apply done_inj in Es, Et. subst. reflexivity.
    - destruct (asm_immediate name depth m) as [u| | |] eqn:E1; try discriminate. apply done_inj in Es, Et. subst. apply operands_1. now apply read_imm.
    - destruct (op =? INSTR_CALL).
      + destruct (regname depth r) as [u| | |] eqn:E1; try discriminate. apply done_inj in Es, Et. subst. apply (operands_1 (42 :: u)). apply read_star; [exact F|exact E1|now apply ends_stops].
      + destruct (regname depth r) as [u| | |] eqn:E1; try discriminate. apply done_inj in Es, Et. subst. apply operands_1. apply read_reg; [exact F|exact E1|now apply ends_stops].
    - apply orb_false_iff in Q as [_ Q]. destruct (asm_address name depth (m_addr m)) as [u| | |] eqn:E1; try discriminate. apply done_inj in Es, Et. subst. apply operands_1. now apply read_mem.
    - destruct F as [F1 F2]. destruct (regname depth s0) as [u| | |] eqn:E1; try discriminate. destruct (regname depth d0) as [v| | |] eqn:E2; try discriminate.
      apply done_inj in Es, Et. subst. cbn [app]. rewrite <- ?app_assoc. apply operands_2; [apply read_reg|apply read_reg]; auto using ends_stops, fine2.
    - destruct F as [F1 F2]. destruct (regname depth s0) as [u| | |] eqn:E1; try discriminate. destruct (asm_address name depth (m_addr d0)) as [v| | |] eqn:E2; try discriminate.
      apply done_inj in Es, Et. subst. cbn [app]. rewrite <- ?app_assoc. apply operands_2; [apply read_reg|apply read_mem]; auto using ends_stops, fine2.
    - apply orb_false_iff in Q as [_ Q]. destruct F as [F1 F2]. destruct (asm_address name depth (m_addr s0)) as [u| | |] eqn:E1; try discriminate. destruct (regname depth d0) as [v| | |] eqn:E2; try discriminate.
      apply done_inj in Es, Et. subst. cbn [app]. rewrite <- ?app_assoc. apply operands_2; [apply read_mem|apply read_reg]; auto using ends_stops, fine2.
    - destruct F as [F1 F2]. destruct (asm_immediate name depth s0) as [u| | |] eqn:E1; try discriminate. destruct (regname depth d0) as [v| | |] eqn:E2; try discriminate.
      apply done_inj in Es, Et. subst. cbn [app]. rewrite <- ?app_assoc. apply operands_2; [apply read_int|apply read_reg]; auto using ends_stops, fine2.
    - apply orb_false_iff in Q as [_ Q]. destruct F as [F1 F2]. destruct (asm_immediate name depth s0) as [u| | |] eqn:E1; try discriminate. destruct (asm_address name depth (m_addr d0)) as [v| | |] eqn:E2; try discriminate.
      apply done_inj in Es, Et. subst. cbn [app]. rewrite <- ?app_assoc. apply operands_2; [apply read_int|apply read_mem]; auto using ends_stops, fine2. }
  assert (ST : match s ++ t ++ [10] with c :: _ => alnum c = false | [] => True end).
  { clear - Es Et. destruct (n_args i); 
    repeat match type of Es with (if ?b then _ else _) = _ => destruct b end;
    repeat match type of Es with bind ?x _ = _ => destruct x eqn:?; try discriminate Es; cbn [bind] in Es end; apply done_inj in Es; subst; reflexivity || (apply done_inj in Et; subst; reflexivity). }
  destruct m as [|c m]; [discriminate Lf|]. assert (Bc : blank c = false).
  { cbn [forallb] in Al. apply andb_true_iff in Al as [Al _]. unfold blank. destruct (Z.eqb_spec c 32) as [->|]; [discriminate|]. destruct (Z.eqb_spec c 9) as [->|]; [discriminate|reflexivity]. }
  assert (N : n_prefix i = 0 \/ n_prefix i = 243 /\ exists w, f = Str w).
  { unfold asked in A. destruct ((0 <=? n_cc i) && (n_cc i <? 16)); [|discriminate]. cbn [andb] in A.
    destruct (Z.eqb_spec (n_prefix i) 0); [now left|]. destruct (Z.eqb_spec (n_prefix i) 243); [|discriminate]. right. split; [assumption|]. destruct Pf; [congruence|assumption]. }
  apply done_inj in E. subst l. destruct N as [N|[N (w & ->)]]; rewrite N in *.
  - cbv iota beta zeta delta [Z.eqb Pos.eqb]. cbn [app]. unfold read_line. rewrite skip_head by (reflexivity || assumption).
    rewrite app_comm_cons. rewrite (span_all alnum (c :: m) (s ++ t ++ [10]) Al ST). rewrite Rp. unfold read_body. rewrite Lf, O. exact Mn.
  - replace ([9] ++ (if 243 =? 243 then text "rep " else if 243 =? 242 then text "repne " else []) ++ (c :: m) ++ s ++ t ++ [10]) with (9 :: text "rep" ++ 32 :: c :: m ++ s ++ t ++ [10]) by reflexivity.
    unfold read_line. change (text "rep") with [114; 101; 112]. cbn [app]. rewrite skip_head by reflexivity.
    rewrite (span_all alnum [114; 101; 112] (32 :: c :: m ++ s ++ t ++ [10]) eq_refl eq_refl : span alnum (114 :: 101 :: 112 :: 32 :: c :: m ++ s ++ t ++ [10]) = _). change (repeats [114; 101; 112]) with (Some 243). cbv iota.
    rewrite skip_head by (reflexivity || assumption). rewrite app_comm_cons. rewrite (span_all alnum (c :: m) (s ++ t ++ [10]) Al ST). rewrite Lf, O. exact Mn.
Qed.

(* Printing succeeds. *)
Lemma zlen_app {A} (a b : list A) : zlen (a ++ b) = zlen a + zlen b. Proof. unfold zlen. rewrite app_length. lia. Qed.
Lemma find_both k : forall l : list (encoding * list Z), map fst l = map fst l -> match find_from k (map fst l) with Some x => exists n, find_named k l = Some (x, n) /\ In (x, n) l | None => find_named k l = None end.
Proof.
  induction l as [|[x n] l IH]; [reflexivity|]. intros _. specialize (IH eq_refl). cbn [map fst find_from find_named]. destruct (match_instruction_encoding k x); [exists n; split; [reflexivity|now left]|].
  replace (match l with e' :: _ => opc (fst e') =? k_op k | [] => 0 =? k_op k end) with (match map fst l with e' :: _ => opc e' =? k_op k | [] => 0 =? k_op k end) by (destruct l; reflexivity).
  destruct (match map fst l with e' :: _ => opc e' =? k_op k | [] => 0 =? k_op k end); [|reflexivity].
  destruct (find_from k (map fst l)); [|exact IH]. destruct IH as (m & A & B). exists m. split; [exact A|now right].
Qed.
Lemma named_fst : map fst named = encodings. Proof. vm_compute. reflexivity. Qed.
Lemma entry_done k x : find_encoding k = Done x -> exists n, find_entry k = Done (x, n) /\ In (x, n) named.
Proof.
  intro H. unfold find_entry. rewrite H. cbn [bind]. unfold find_encoding in H. destruct (k_op k <? 0); [discriminate|]. destruct (entry (k_op k)); [|discriminate].
  destruct (check _); try discriminate. cbn [bind] in H. destruct (check _); try discriminate. cbn [bind] in H.
  pose proof (find_both k (skipn (Z.to_nat (k_op k)) named) eq_refl) as F. rewrite <- skipn_map, named_fst in F.
  destruct (find_from k _); [|discriminate]. apply done_inj in H. subst. destruct F as (n & F & I). exists n. rewrite F. split; [reflexivity|]. 
  rewrite <- (firstn_skipn (Z.to_nat (k_op k)) named). apply in_or_app. now right.
Qed.
Definition fits (x : encoding * list Z) : bool :=
  zlen (snd x) + (if opx (fst x) OPX_tttn then 3 else 0) + (if is_single_width (w0 (fst x)) then if is_single_width (w1 (fst x)) then 0 else 1 else if is_single_width (w1 (fst x)) then 1 else 2) <=? 10.
Lemma all_fit : forallb fits named = true. Proof. vm_compute. reflexivity. Qed.
Lemma suffix_len w : 0 <= zlen (suffix w) <= 1.
Proof. unfold suffix. repeat (destruct (_ =? _); [vm_compute; split; discriminate|]). vm_compute. split; discriminate. Qed.
Lemma tttn_len n : 0 <= zlen (nth n tttn_mnemonics []) <= 3.
Proof. do 16 (destruct n as [|n]; [vm_compute; split; discriminate|]). destruct n; vm_compute; split; discriminate. Qed.
Lemma mnemonic_done i x : find_encoding (key_of i) = Done x -> (0 <=? n_cc i) && (n_cc i <? 16) = true -> exists m, get_mnemonic i = Done m.
Proof.
  intros F C. destruct (entry_done _ _ F) as (n & E & I). unfold get_mnemonic. rewrite E. cbn [bind]. rewrite C. cbn [check bind].
  pose proof (proj1 (forallb_forall fits named) all_fit _ I) as B. unfold fits in B. cbn [fst snd] in B. apply Z.leb_le in B.
  assert (T : 0 <= zlen (nth (Z.to_nat (n_cc i)) tttn_mnemonics []) <= 3) by apply tttn_len.
  set (cc := nth (Z.to_nat (n_cc i)) tttn_mnemonics []) in *.
  assert (G : forall u s, 0 <= zlen u <= (if opx x OPX_tttn then 3 else 0) -> 0 <= zlen s <= (if is_single_width (w0 x) then if is_single_width (w1 x) then 0 else 1 else if is_single_width (w1 x) then 1 else 2) ->
     (zlen (n ++ u ++ s) <=? 10) = true). { intros u s U V. apply Z.leb_le. rewrite !zlen_app. lia. }
  assert (Z0 : zlen (@nil Z) = 0) by reflexivity.
  pose proof (suffix_len (src_width (n_args i))) as S1. pose proof (suffix_len (dst_width (n_args i))) as S2. clear F E.
  set (ws := src_width (n_args i)) in *. set (wd := dst_width (n_args i)) in *. clearbody ws wd.
  destruct (opx x OPX_tttn) eqn:Ox; cbn [bind] in *; (rewrite G; [eauto|rewrite ?Z0; lia|]); clear G;
  destruct (is_single_width (w0 x)), (is_single_width (w1 x)), (n_args i); cbn [negb andb]; rewrite ?andb_false_r; cbn [andb]; rewrite ?Z0; try lia;
    repeat match goal with |- context [if ?b then _ else _] => destruct b end; rewrite ?zlen_app, ?Z0; lia.
Qed.
Lemma digits_len : forall f z, zlen (digits f z) <= Z.of_nat f.
Proof.
  induction f as [|f IH]; intro z; cbn [digits]; [vm_compute; discriminate|]. destruct (z <? 10); [change (zlen [48 + z]) with 1; lia|]. rewrite zlen_app. specialize (IH (z / 10)). change (zlen [48 + z mod 10]) with 1. lia.
Qed.
Lemma decimal_len z : zlen (decimal z) <= 20.
Proof. unfold decimal. destruct (z <? 0); [rewrite zlen_app; change (zlen (text "-")) with 1|]; pose proof (digits_len 19 (- z)); pose proof (digits_len 19 z); lia. Qed.
Lemma base_len n s : is_gp n = true -> regname depth (Reg 8 n) = Done s -> zlen s <= 4.
Proof.
  unfold is_gp. rewrite andb_true_iff, !Z.leb_le. intros H E. in_list n; vm_compute in E; apply done_inj in E; subst; vm_compute; discriminate.
Qed.
Definition short_in (a : address) : Prop := forall y, a_sym a = Some y -> zlen (name y) <= 220.
Lemma address_done a p : short_in a -> where_ loc e a = Some p -> odd_address a = false -> settled a = true -> exists s, asm_address name depth a = Done s.
Proof.
  unfold short_in. intros Sh W O T. unfold settled in T. apply andb_true_iff in T as [T1 T2]. unfold odd_address in O. rewrite !orb_false_iff in O. destruct O as ((O1 & O2) & O3).
  unfold asm_address. unfold where_ in W. pose proof (decimal_len (a_disp a)) as D1. pose proof (decimal_len (a_scale a)) as D2. assert (Z0 : zlen (@nil Z) = 0) by reflexivity.
  assert (Zt : zlen (text "+") = 1 /\ zlen (text "@GOTPCREL") = 9 /\ zlen (text "@PLT") = 4 /\ zlen (text "(") = 1 /\ zlen (text ")") = 1 /\ zlen (text ",") = 1 /\ zlen (text "(,") = 2 /\ zlen (text "%rip") = 4) by (repeat split).
  destruct (a_sym a) as [y|].
  - specialize (Sh y eq_refl). apply negb_false_iff in O3. apply Z.eqb_eq in O3. rewrite O3 in *. change (IP =? 0) with false in *. change (IP =? IP) with true in *. cbn [negb orb andb] in *.
    destruct (a_index a =? 0); [|discriminate]. cbn [negb orb] in *. rewrite T2. cbn [check bind].
    unfold regname. cbn [r_reg r_width]. change (IP =? IP) with true. cbn [check bind Z.eqb Pos.eqb].
    assert (L : forall u r, zlen u <= 22 -> r = text "(" ++ text "%rip" ++ [] ++ text ")" -> exists s, (if zlen ((name y ++ u) ++ r) <=? 255 then Done ((name y ++ u) ++ r) else Overflow) = Done s).
    { intros u r U ->. replace (zlen _ <=? 255) with true; [eauto|]. symmetry. apply Z.leb_le. rewrite !zlen_app. rewrite Z0. lia. }
    destruct (a_type a); [|rewrite T1; cbn [check bind]; apply L; [lia|reflexivity]..]. cbn [bind]. apply L; [|reflexivity].
    destruct (a_disp a =? 0); [rewrite Z0; lia|]. destruct (0 <? a_disp a); rewrite zlen_app, ?Z0; lia.
  - destruct ((if a_base a =? 0 then Some None else if is_gp (a_base a) then Some (Some (a_base a - 1)) else None)) as [b|] eqn:Eb; [|discriminate].
    destruct (if a_index a =? 0 then Some None else if is_gp (a_index a) && negb (a_index a =? SP) then Some (Some (a_index a - 1, if a_scale a =? 0 then 1 else a_scale a)) else None) as [x|] eqn:Ex; [|discriminate].
    cbn [bind]. set (q := if a_disp a =? 0 then [] else decimal (a_disp a)). assert (Lq : zlen q <= 20) by (unfold q; destruct (a_disp a =? 0); rewrite ?Z0; lia).
    assert (L : forall r, zlen r <= 40 -> exists s, (if zlen (q ++ r) <=? 255 then Done (q ++ r) else Overflow) = Done s).
    { intros r U. replace (zlen _ <=? 255) with true; [eauto|]. symmetry. apply Z.leb_le. rewrite !zlen_app. lia. }
    assert (X : a_index a <> 0 -> exists s, regname depth (Reg 8 (a_index a)) = Done s /\ zlen s <= 4).
    { intro N. apply Z.eqb_neq in N. rewrite N in Ex. destruct (is_gp (a_index a)) eqn:G; [|discriminate]. destruct (shown_base depth _ G) as (s & E1 & _). exists (37 :: s). split; [exact E1|]. exact (base_len _ _ G E1). }
    assert (Y : a_base a <> 0 -> exists s, regname depth (Reg 8 (a_base a)) = Done s /\ zlen s <= 4).
    { intro N. apply Z.eqb_neq in N. rewrite N in Eb. destruct (is_gp (a_base a)) eqn:G; [|discriminate]. destruct (shown_base depth _ G) as (s & E1 & _). exists (37 :: s). split; [exact E1|]. exact (base_len _ _ G E1). }
    destruct (Z.eqb_spec (a_base a) 0) as [B|B]; cbn [negb]; [|destruct (Y B) as (tb & -> & Lb); cbn [bind]]; (destruct (Z.eqb_spec (a_index a) 0) as [I0|I0]; cbn [negb orb] in *; [rewrite T2; cbn [check bind]|destruct (X I0) as (tx & -> & Lx); cbn [bind]]);
    apply L; rewrite ?zlen_app, ?Z0; lia.
Qed.
Theorem text_total i d c : (forall y, In y (symbols i) -> zlen (name y) <= 220) -> asked loc e depth i = Some d -> misspelt i = false -> printable depth i = true -> encode i = Done c -> exists l, asm_text name depth i = Done l.
Proof.
  intros Sh A Q P En. pose proof (asked_fine i d A) as F. 
  assert (C : (0 <=? n_cc i) && (n_cc i <? 16) = true) by (unfold asked in A; destruct ((0 <=? n_cc i) && (n_cc i <? 16)); [reflexivity|discriminate]).
  unfold encode in En. destruct (find_encoding (key_of i)) as [x| | |] eqn:Fe; try discriminate. clear En. destruct (mnemonic_done i x Fe C) as (m & Em).
  unfold asm_text. rewrite Em. cbn [bind]. unfold misspelt, printable, symbols in *.
  assert (Rg : forall r, reg_fine r -> r_reg r < 34 \/ 1 < depth -> exists s, regname depth r = Done s).
  { intros r H D. destruct r as [w n]. destruct H as [(w' & a & H)|[(w' & a & H)|(a & H)]].
    - apply gp_inv in H as (-> & <- & Wd & G). cbn [r_reg r_width] in *. unfold is_gp in G. rewrite andb_true_iff, !Z.leb_le in G. destruct (shown_gp depth n w G Wd) as (s & E1 & _). eauto.
    - apply xm_inv in H as (-> & <- & G). cbn [r_reg r_width] in *. unfold is_xmm in G. rewrite andb_true_iff, !Z.leb_le in G. destruct (shown_xm depth n w G) as (s & E1 & _). eauto.
    - assert (1 < depth). { cbn [r_reg] in D. destruct D as [D|D]; [|assumption]. unfold st in H. cbn [r_reg] in H. replace (34 <=? n) with false in H by (symmetry; apply Z.leb_gt; lia). discriminate. }
      destruct (shown_st depth _ a H H0) as (s & E1 & _). eauto. }
  assert (Im : forall m, int_fine m -> exists s, asm_immediate name depth m = Done s).
  { intros [w v] (q & V & W). cbn [i_val i_width] in *. subst v. destruct (operand_integer name find loc e depth w q [10] W ltac:(reflexivity)) as (s & E1 & _). eauto. }
  assert (Me : forall m, short_in (m_addr m) -> mem_fine m -> odd_address (m_addr m) = false -> settled (m_addr m) = true -> exists s, asm_address name depth (m_addr m) = Done s).
  { intros m0 H1 (p & W) O T. now apply address_done with (p := p). }
  assert (So : forall a, (forall y, In y (sym_of a) -> zlen (name y) <= 220) -> short_in a).
  { intros a H y Y. apply H. unfold sym_of. rewrite Y. now left. }
  assert (Rg2 : forall r, reg2_fine r -> exists s, regname depth r = Done s).
  { intros r H. apply Rg; [now apply fine2|]. left. destruct H as [(w' & a & H)|(w' & a & H)].
    - apply gp_inv in H as (_ & _ & _ & G). unfold is_gp in G. rewrite andb_true_iff, !Z.leb_le in G. lia.
    - apply xm_inv in H as (_ & _ & G). unfold is_xmm in G. rewrite andb_true_iff, !Z.leb_le in G. lia. }
  destruct (n_args i) as [w|m0|r|m0|s0 d0|s0 d0|s0 d0|s0 d0|s0 d0]; cbn [args_fine] in F.
  - cbn [bind]. eauto.
  - destruct F as [F|(a & y & V & Y)]; [destruct (Im m0 F) as (s & ->); cbn [bind]; eauto|]. unfold asm_immediate. rewrite V, Y. cbn [check bind]. rewrite V in P.
    unfold odd_target in Q. rewrite V, !orb_false_iff, !negb_false_iff in Q. destruct Q as ((Q1 & Q2) & Q3).
    assert (E : exists s, asm_address name depth a = Done s).
    { rewrite V in Sh. unfold sym_of in Sh. rewrite Y in Sh. pose proof (Sh y (or_introl eq_refl)). pose proof (decimal_len (a_disp a)). assert (Z0 : zlen (@nil Z) = 0) by reflexivity. unfold settled in P. rewrite Y, Q3 in P. apply andb_true_iff in P as [P1 P2]. cbn [negb orb] in P2.
      unfold asm_address. rewrite Y, Q2, Q3. cbn [negb]. rewrite P2. cbn [check bind].
      assert (L : forall u, zlen u <= 22 -> exists s, (if zlen ((name y ++ u) ++ []) <=? 255 then Done ((name y ++ u) ++ []) else Overflow) = Done s).
      { intros u U. replace (zlen _ <=? 255) with true; [eauto|]. symmetry. apply Z.leb_le. rewrite !zlen_app, Z0. lia. }
      destruct (a_type a); [|rewrite P1; cbn [check bind]; apply L; vm_compute; discriminate..]. cbn [bind]. apply L.
      destruct (a_disp a =? 0); [rewrite Z0; lia|]. assert (zlen (text "+") = 1) by reflexivity. destruct (0 <? a_disp a); rewrite zlen_app, ?Z0; lia. }
    destruct E as (s & ->). cbn [bind]. eauto.
  - destruct (Rg r F) as (s & ->). { apply orb_true_iff in P. rewrite !Z.ltb_lt in P. exact P. } destruct (n_op i =? INSTR_CALL); cbn [bind]; eauto.
  - apply orb_false_iff in Q as [_ Q]. destruct (Me m0 (So _ Sh) F Q P) as (s & ->). cbn [bind]. eauto.
  - destruct F as [F1 F2]. destruct (Rg2 _ F1) as (s & ->). destruct (Rg2 _ F2) as (t & ->). cbn [bind]. eauto.
  - destruct F as [F1 F2]. destruct (Rg2 _ F1) as (s & ->). destruct (Me _ (So _ Sh) F2 Q P) as (t & ->). cbn [bind]. eauto.
  - apply orb_false_iff in Q as [_ Q]. destruct F as [F1 F2]. destruct (Me _ (So _ Sh) F1 Q P) as (s & ->). destruct (Rg2 _ F2) as (t & ->). cbn [bind]. eauto.
  - destruct F as [F1 F2]. destruct (Im _ F1) as (s & ->). destruct (Rg2 _ F2) as (t & ->). cbn [bind]. eauto.
  - apply orb_false_iff in Q as [_ Q]. destruct F as [F1 F2]. destruct (Im _ F1) as (s & ->). destruct (Me _ (So _ Sh) F2 Q P) as (t & ->). cbn [bind]. eauto.
Qed.
End Line.
