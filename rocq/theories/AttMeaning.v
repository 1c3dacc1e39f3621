(* The mnemonic and the operands that are printed mean what is asked for. *)
From Coq Require Import String ZArith Bool Lia List.
From Verif Require Import Bytes EncModel EncSpec ArgsModel AttModel AttSpec AttProofs.
Import ListNotations.
Open Scope Z_scope.

(* Of the registers it only matters whether they are ax or cx. *)
Definition cr (r : Z) : Z := if r =? AX then AX else if r =? CX then CX else 0.
Definition canon (k : key) : key := Key (k_op k) (k_type k) (k_imm32 k) (cr (k_sreg k)) (cr (k_dreg k)) (k_ws k) (k_wd k).
Lemma cr_cases r : cr r = 0 \/ cr r = 1 \/ cr r = 2.
Proof. unfold cr. destruct (r =? AX); [auto|]. destruct (r =? CX); auto. Qed.
Lemma implicit_cr m r : implicit_ok m r = implicit_ok m (cr r).
Proof. unfold implicit_ok, cr. destruct (Z.eqb_spec r AX); [subst; reflexivity|]. destruct (Z.eqb_spec r CX); [subst; reflexivity|]. reflexivity. Qed.
Lemma match_canon k e : match_instruction_encoding k e = match_instruction_encoding (canon k) e.
Proof. unfold match_instruction_encoding, canon. cbn [k_op k_type k_imm32 k_sreg k_dreg k_ws k_wd]. now rewrite <- !implicit_cr. Qed.
Lemma from_canon k l : find_from k l = find_from (canon k) l.
Proof. induction l as [|e l IH]; [reflexivity|]. cbn [find_from]. rewrite <- match_canon, IH. reflexivity. Qed.
Lemma named_canon k l : find_named k l = find_named (canon k) l.
Proof. induction l as [|e l IH]; [reflexivity|]. cbn [find_named]. rewrite <- match_canon, IH. reflexivity. Qed.
Lemma entry_canon k : find_entry k = find_entry (canon k).
Proof. unfold find_entry, find_encoding. rewrite from_canon, named_canon. reflexivity. Qed.

Section Meaning.
Variables (loc : kind -> Z -> Z) (e depth : Z).
Definition reg_op (r : registr) : opnd :=
  if is_gp (r_reg r) then OReg (R (r_reg r - 1) (r_width r)) else if is_xmm (r_reg r) then OReg (X (r_reg r - 17)) else OReg (St (depth - 1 - (r_reg r - 34))).
Definition mem_op (m : memory) : opnd := match where_ loc e (m_addr m) with Some p => OMem p | None => OImm 0 end.
Definition imm_op (m : immediate) : opnd :=
  match i_val m with
  | IInt q => OImm (imm_value (i_width m) q)
  | IAddr a => match a_sym a with Some y => OSym (kind_of (a_type a)) y (a_disp a) | None => OImm 0 end
  end.
Definition ops_of (i : instruction) : list opnd :=
  match n_args i with
  | NoOp _ => []
  | OpImm m => [imm_op m]
  | OpReg r => [if n_op i =? INSTR_CALL then OStar (reg_op r) else reg_op r]
  | OpMem m => [mem_op m]
  | RegReg s d => [reg_op s; reg_op d]
  | RegMem s d => [reg_op s; mem_op d]
  | MemReg s d => [mem_op s; reg_op d]
  | ImmReg s d => [imm_op s; reg_op d]
  | ImmMem s d => [imm_op s; mem_op d]
  end.
Definition well (i : instruction) (m : list Z) (d : ins) : Prop :=
  exists f, lookup m operations = Some f /\ forallb alnum m = true /\ repeats m = None /\ meaning loc e (n_prefix i) f (ops_of i) = Some d /\ (n_prefix i = 0 \/ exists w, f = Str w).

Lemma gp_inv r w a : gp r w = Some a -> a = R (r_reg r - 1) w /\ r_width r = w /\ wide w = true /\ is_gp (r_reg r) = true.
Proof.
  unfold gp. destruct (is_gp (r_reg r)); [|discriminate]. destruct (Z.eqb_spec (r_width r) w); [|discriminate]. destruct (wide w); [|discriminate]. intros [= <-]. auto.
Qed.
Lemma gp_op r w a : gp r w = Some a -> reg_op r = OReg a.
Proof. intro H. apply gp_inv in H as (-> & <- & _ & G). unfold reg_op. now rewrite G. Qed.
Lemma xm_inv r w a : xm r w = Some a -> a = X (r_reg r - 17) /\ r_width r = w /\ is_xmm (r_reg r) = true.
Proof.
  unfold xm. destruct (is_xmm (r_reg r)); [|discriminate]. destruct (Z.eqb_spec (r_width r) w); [|discriminate]. intros [= <-]. auto.
Qed.
Lemma xm_op r w a : xm r w = Some a -> reg_op r = OReg a.
Proof.
  intro H. apply xm_inv in H as (-> & <- & G). unfold reg_op. rewrite G. unfold is_gp, is_xmm in *. rewrite andb_true_iff, !Z.leb_le in G.
  replace (r_reg r <=? 16) with false by (symmetry; apply Z.leb_gt; lia). now rewrite andb_false_r.
Qed.
Lemma me_inv m w n a : me loc e m w n = Some a -> m_width m = w /\ exists p, a = M p n /\ mem_op m = OMem p.
Proof.
  unfold me, mem_op. destruct (Z.eqb_spec (m_width m) w); [|discriminate]. destruct (where_ loc e (m_addr m)); [|discriminate]. intros [= <-]. eauto.
Qed.
Lemma im_inv i w a : im i w = Some a -> wide (i_width i) = true /\ (i_width i = w \/ (i_width i = 4 /\ w = 8)) /\ exists q, i_val i = IInt q /\ a = Imv (imm_value (i_width i) q) /\ imm_op i = OImm (imm_value (i_width i) q).
Proof.
  unfold im, imm_op. destruct (i_val i) as [q|]; [|discriminate]. destruct (wide (i_width i)); [|discriminate]. cbn [andb].
  destruct (Z.eqb_spec (i_width i) w), (Z.eqb_spec (i_width i) 4), (Z.eqb_spec w 8); try discriminate; intros [= <-]; eauto 8.
Qed.


Ltac widths H := repeat match goal with h : r_width _ = _ |- _ => progress rewrite h in H | h : m_width _ = _ |- _ => progress rewrite h in H | h : i_width _ = _ |- _ => progress rewrite h in H end.
Ltac opened H :=
  unfold get_mnemonic in H; rewrite entry_canon in H; unfold key_of, canon in H;
  cbn [n_op n_args n_cc n_prefix k_op k_type k_imm32 k_sreg k_dreg k_ws k_wd optype src_imm32 src_reg dst_reg src_width dst_width] in H; widths H.
Ltac split_regs H := repeat match type of H with context [cr (r_reg ?r)] => let k := fresh in destruct (cr_cases (r_reg r)) as [k|[k|k]]; rewrite k in H; clear k end.
Ltac found H := vm_compute in H; first [discriminate H | apply done_inj in H; subst; eexists; split; [vm_compute; reflexivity|split; [reflexivity|split; [reflexivity|split]]]].
Ltac conc H := opened H; found H; try (left; reflexivity); cbn; try reflexivity.
(* the operands *)
Ltac opnds :=
  repeat match goal with
  | h : gp ?r ?w = Some ?a |- _ => let o := fresh "Op" in pose proof (gp_op _ _ _ h) as o; let h1 := fresh "Wr" in let h2 := fresh "Wd" in apply gp_inv in h as (-> & h1 & h2 & _)
  | h : xm ?r ?w = Some ?a |- _ => let o := fresh "Op" in pose proof (xm_op _ _ _ h) as o; let h1 := fresh "Wr" in apply xm_inv in h as (-> & h1 & _)
  | h : me _ _ ?m ?w ?n = Some ?a |- _ => let h1 := fresh "Wr" in let o := fresh "Op" in apply me_inv in h as (h1 & ?p & -> & o)
  end;
  unfold well, ops_of; cbn [n_args n_prefix n_op];
  repeat match goal with o : reg_op _ = _ |- _ => rewrite o; clear o | o : mem_op _ = _ |- _ => rewrite o; clear o end.
Ltac somes A :=
  unfold same, two, one in A;
  repeat match type of A with
  | (if ?b then _ else _) = Some _ => let h := fresh "B" in destruct b eqn:h; [|discriminate A]
  | match ?x with Some _ => _ | None => _ end = Some _ => let h := fresh "G" in destruct x eqn:h; [|discriminate A]
  | Some _ = Some _ => injection A as <-
  end.
Ltac each I := cbn [In] in I; repeat (destruct I as [[= <- <-]|I]); try contradiction.
Ltac by_width W := apply wide_cases in W; destruct W as [W|[W|[W|W]]]; rewrite W in *.
Ltac by_fwidth W := let k := fresh in assert (k : forall w, fwidth w = true -> w = 4 \/ w = 8) by (intro; unfold fwidth; rewrite orb_true_iff, !Z.eqb_eq; auto); apply k in W; clear k; destruct W as [W|W]; rewrite W in *.

Definition alu_ops : list (Z * mnem) := [(INSTR_ADD, ADD); (INSTR_AND, AND); (INSTR_CMP, CMP); (INSTR_MOV, MOV); (INSTR_OR, OR); (INSTR_SUB, SUB); (INSTR_TEST, TEST); (INSTR_XOR, XOR)].
Lemma alu_ok op m cc o x l : In (op, m) alu_ops -> misspelt (Instr op cc 0 o) = false ->
  asked_alu loc e m o = Some x -> get_mnemonic (Instr op cc 0 o) = Done l -> well (Instr op cc 0 o) l x.
Proof.
  intros I Q A H. unfold misspelt in Q. cbn [n_op n_args] in Q.
  destruct o as [w|i|r|m'|s d|s d|s d|s d|s d]; cbn [asked_alu] in A; try discriminate.
  - clear Q. somes A. opnds. by_width Wd; each I; conc H.
  - clear Q. somes A. opnds. by_width Wd; each I; conc H.
  - clear Q. each I; cbv iota beta zeta in A; somes A; opnds; by_width Wd; conc H.
  - match type of A with two _ ?a ?b = _ => destruct a eqn:G1; [|discriminate]; destruct b eqn:G2; [|discriminate] end. injection A as <-.
    apply im_inv in G2 as (Wi & Ws & q & V & -> & Oi). opnds. rewrite Oi. unfold long_value in Q. rewrite V in Q.
    assert (H32 : is_32_bit_imm s = true \/ i_width s = 8 /\ is_32_bit_imm s = false /\ int32 q = false).
    { unfold is_32_bit_imm. rewrite V. change (in_32bit_range q) with (int32 q). destruct (int32 q); [rewrite orb_true_r; auto|]. rewrite orb_false_r. apply wide_cases in Wi. destruct Wi as [->|[->|[->| ->]]]; auto. }
    assert (H32' : i_width s = 8 -> is_32_bit_imm s = true -> int32 q = true).
    { unfold is_32_bit_imm. rewrite V. intros ->. intro K; exact K. }
    assert (Q1 : i_width s = r_width d /\ (op = INSTR_CMP \/ op = INSTR_TEST -> int32 q = false -> i_width s = 8 -> False)).
    { clear - Q I. unfold alu_ops in I. each I; cbn [Z.eqb Pos.eqb orb andb negb INSTR_ADD INSTR_AND INSTR_CMP INSTR_MOV INSTR_OR INSTR_SUB INSTR_TEST INSTR_XOR INSTR_SHL INSTR_SHR INSTR_SAR] in Q;
      apply orb_false_iff in Q as [Q1 Q2]; apply negb_false_iff, Z.eqb_eq in Q1; (split; [exact Q1|]); intros [E|E]; try discriminate E; intros N E8; rewrite E8, N in Q2; discriminate Q2. }
    destruct Q1 as [Q1 Q2]. clear Q Ws. rewrite Q1 in *. clear Wi.
    by_width Wd; each I.
    all: opened H; split_regs H.
    all: (destruct H32 as [H32|(X1 & X2 & X3)]; [rewrite H32 in H|try discriminate X1; try (exfalso; now auto); rewrite X2 in H]).
    all: found H; try (left; reflexivity).
    all: cbn -[immediate_of imm_value].
    all: rewrite immediate_read; [reflexivity|reflexivity|]; intro X; try discriminate X; now apply imm_value_int32, H32'.
  - destruct (wide (m_width d)) eqn:Wd; [|discriminate]. cbn [same] in A. match type of A with two _ ?a ?b = _ => destruct a eqn:G1; [|discriminate]; destruct b eqn:G2; [|discriminate] end. injection A as <-.
    apply im_inv in G2 as (Wi & Ws & q & V & -> & Oi). opnds. rewrite Oi. unfold long_value in Q. rewrite V in Q.
    assert (H32 : is_32_bit_imm s = true \/ i_width s = 8 /\ is_32_bit_imm s = false /\ int32 q = false).
    { unfold is_32_bit_imm. rewrite V. change (in_32bit_range q) with (int32 q). destruct (int32 q); [rewrite orb_true_r; auto|]. rewrite orb_false_r. apply wide_cases in Wi. destruct Wi as [->|[->|[->| ->]]]; auto. }
    assert (H32' : i_width s = 8 -> is_32_bit_imm s = true -> int32 q = true).
    { unfold is_32_bit_imm. rewrite V. intros ->. intro K; exact K. }
    assert (Q1 : i_width s = m_width d /\ (op = INSTR_CMP \/ op = INSTR_TEST -> int32 q = false -> i_width s = 8 -> False)).
    { clear - Q I. unfold alu_ops in I. apply orb_false_iff in Q as [Q _]. each I; cbn [Z.eqb Pos.eqb orb andb negb INSTR_ADD INSTR_AND INSTR_CMP INSTR_MOV INSTR_OR INSTR_SUB INSTR_TEST INSTR_XOR INSTR_SHL INSTR_SHR INSTR_SAR] in Q;
      apply orb_false_iff in Q as [Q1 Q2]; apply negb_false_iff, Z.eqb_eq in Q1; (split; [exact Q1|]); intros [E|E]; try discriminate E; intros N E8; rewrite E8, N in Q2; discriminate Q2. }
    destruct Q1 as [Q1 Q2]. clear Q Ws. rewrite Q1 in *. clear Wi.
    by_width Wd; each I.
    all: opened H.
    all: (destruct H32 as [H32|(X1 & X2 & X3)]; [rewrite H32 in H|try discriminate X1; try (exfalso; now auto); rewrite X2 in H]).
    all: found H; try (left; reflexivity).
    all: cbn -[immediate_of imm_value].
    all: rewrite immediate_read; [reflexivity|reflexivity|]; intro X; try discriminate X; now apply imm_value_int32, H32'.
Qed.

Definition one_ops : list (Z * mnem) := [(INSTR_DIV, DIV); (INSTR_IDIV, IDIV); (INSTR_MUL, MUL); (INSTR_NOT, NOT)].
Lemma one_ok op m cc o x l : In (op, m) one_ops -> asked_one loc e m o = Some x -> get_mnemonic (Instr op cc 0 o) = Done l -> well (Instr op cc 0 o) l x.
Proof.
  intros I A H. destruct o as [w|i|r|m'|s d|s d|s d|s d|s d]; cbn [asked_one] in A; try discriminate.
  - somes A. assert (C : op =? INSTR_CALL = false) by (unfold one_ops in I; each I; reflexivity). opnds. rewrite C. by_width Wd; each I; conc H.
  - somes A. opnds. by_width B; each I; conc H.
Qed.
Lemma extend_ok op m cc o x l : In (op, m) [(INSTR_MOVSX, MOVSX); (INSTR_MOVZX, MOVZX)] -> misspelt (Instr op cc 0 o) = false ->
  asked_extend loc e m o = Some x -> get_mnemonic (Instr op cc 0 o) = Done l -> well (Instr op cc 0 o) l x.
Proof.
  intros I Q A H. unfold misspelt in Q. cbn [n_op n_args] in Q. destruct o as [w|i|r|m'|s d|s d|s d|s d|s d]; cbn [asked_extend] in A; try discriminate.
  - somes A. apply Z.ltb_lt in B. opnds. by_width Wd; (match goal with W : wide _ = true |- _ => by_width W end); try lia; each I; try discriminate Q; conc H.
  - somes A. apply andb_true_iff in B as [B1 B2]. apply Z.ltb_lt in B2. opnds. by_width Wd; by_width B1; try lia; each I; try discriminate Q; conc H.
Qed.
Lemma shift_ok op m cc o x l : In (op, m) [(INSTR_SAR, SAR); (INSTR_SHL, SHL); (INSTR_SHR, SHR)] ->
  asked_shift m o = Some x -> get_mnemonic (Instr op cc 0 o) = Done l -> well (Instr op cc 0 o) l x.
Proof.
  intros I A H. destruct o as [w|i|r|m'|s d|s d|s d|s d|s d]; cbn [asked_shift] in A; try discriminate.
  - somes A. apply Z.eqb_eq in B. opnds. rewrite B. by_width Wd0; each I; opened H; rewrite B in H; found H; try (left; reflexivity); reflexivity.
  - match type of A with two _ ?a ?b = _ => destruct a eqn:G1; [|discriminate]; destruct b eqn:G2; [|discriminate] end. injection A as <-.
    apply im_inv in G2 as (Wi & [Ws|[_ Ws]] & q & V & -> & Oi); [|discriminate]. opnds. rewrite Oi.
    assert (H32 : is_32_bit_imm s = true) by (unfold is_32_bit_imm; rewrite Ws; reflexivity).
    by_width Wd; each I; opened H; rewrite H32 in H; rewrite ?Ws; split_regs H; found H; try (left; reflexivity); cbn -[immediate_of imm_value]; rewrite immediate_read; try reflexivity; discriminate.
Qed.
Definition sse_ops : list (Z * (Z -> mnem)) := [(INSTR_ADDS, ADDS); (INSTR_DIVS, DIVS); (INSTR_MULS, MULS); (INSTR_SUBS, SUBS); (INSTR_UCOMIS, UCOMIS); (INSTR_MOVS, MOVSS)].
Lemma sse_ok op m cc o x l : In (op, m) sse_ops -> asked_sse loc e m o = Some x -> get_mnemonic (Instr op cc 0 o) = Done l -> well (Instr op cc 0 o) l x.
Proof.
  intros I A H. destruct o as [w|i|r|m'|s d|s d|s d|s d|s d]; cbn [asked_sse] in A; try discriminate.
  - somes A. opnds. by_fwidth B; each I; conc H.
  - somes A. opnds. by_fwidth B; each I; conc H.
Qed.
Lemma store_ok cc o x l : asked_store loc e MOVSS o = Some x -> get_mnemonic (Instr INSTR_MOVS cc 0 o) = Done l -> well (Instr INSTR_MOVS cc 0 o) l x.
Proof.
  intros A H. destruct o as [w|i|r|m'|s d|s d|s d|s d|s d]; try (eapply sse_ok; [|exact A|exact H]; cbn; tauto).
  cbn [asked_store] in A. somes A. opnds. by_fwidth B; conc H.
Qed.
Lemma packed_ok op m n cc o x l : (op, m, n) = (INSTR_MOVAP, MOVAPS, 4) \/ (op, m, n) = (INSTR_PXOR, PXOR, 8) -> asked_packed loc e m n o = Some x -> get_mnemonic (Instr op cc 0 o) = Done l -> well (Instr op cc 0 o) l x.
Proof.
  intros I A H. destruct I as [[= -> -> ->]|[= -> -> ->]]; destruct o as [w|i|r|m'|s d|s d|s d|s d|s d]; cbn [asked_packed] in A; try discriminate; somes A; opnds; conc H.
Qed.
Lemma st_inv r a : st depth r = Some a -> reg_op r = OReg a /\ r_width r = 16 /\ exists n, a = St n.
Proof.
  unfold st, reg_op. destruct (Z.leb_spec 34 (r_reg r)); [|discriminate]. destruct ((r_reg r <=? 41)); [|discriminate]. destruct (Z.eqb_spec (r_width r) 16); [|discriminate].
  cbn [andb]. destruct (_ && _); [|discriminate]. intros [= <-]. unfold is_gp, is_xmm. replace (r_reg r <=? 16) with false by (symmetry; apply Z.leb_gt; lia).
  replace (r_reg r <=? 32) with false by (symmetry; apply Z.leb_gt; lia). rewrite !andb_false_r. eauto.
Qed.
Definition st_ops : list (Z * mnem) :=
  [(INSTR_FADDP, FADDP); (INSTR_FMULP, FMULP); (INSTR_FSUBRP, FSUBP); (INSTR_FDIVRP, FDIVP); (INSTR_FUCOMIP, FUCOMIP); (INSTR_FXCH, FXCH); (INSTR_FLD, FLD); (INSTR_FSTP, FSTP)].
Lemma st_ok op m cc o x l : In (op, m) st_ops -> asked_st depth m o = Some x -> get_mnemonic (Instr op cc 0 o) = Done l -> well (Instr op cc 0 o) l x.
Proof.
  intros I A H. destruct o as [w|i|r|m'|s d|s d|s d|s d|s d]; cbn [asked_st] in A; try discriminate. somes A.
  match goal with h : st _ _ = Some _ |- _ => apply st_inv in h as (O1 & Wr & n & ->) end.
  assert (C : op =? INSTR_CALL = false) by (unfold st_ops in I; each I; reflexivity). unfold well, ops_of. cbn [n_op n_args n_prefix]. rewrite C, O1. each I; conc H.
Qed.
Lemma fmem_ok op m ws cc o x l : In (op, (m, ws)) [(INSTR_FLD, (FLD, [(4, 4); (8, 8); (16, 10)])); (INSTR_FSTP, (FSTP, [(4, 4); (8, 8); (16, 10)])); (INSTR_FILD, (FILD, [(2, 2); (4, 4); (8, 8)]));
   (INSTR_FISTP, (FISTP, [(2, 2); (4, 4); (8, 8)])); (INSTR_FLDCW, (FLDCW, [(2, 2)])); (INSTR_FNSTCW, (FNSTCW, [(2, 2)]))] ->
  asked_fmem loc e m ws o = Some x -> get_mnemonic (Instr op cc 0 o) = Done l -> well (Instr op cc 0 o) l x.
Proof.
  intros I A H. cbn [In] in I. repeat (destruct I as [[= <- <- <-]|I]); try contradiction.
  all: destruct o as [w|i|r|m'|s d|s d|s d|s d|s d]; cbn [asked_fmem] in A; try discriminate A.
  all: repeat match type of A with (if m_width ?k =? ?w then one _ _ else _) = _ => destruct (Z.eqb_spec (m_width k) w); [somes A; opnds; conc H|] end; discriminate A.
Qed.

Lemma target_inv m plt a : target loc e m plt = Some a -> i_width m = 8 /\ exists k y d, imm_op m = OSym k y d /\ a = Rel (loc k y + d - e) /\ k <> GOTPCREL /\ is_32_bit_imm m = true.
Proof.
  unfold target, imm_op, is_32_bit_imm. destruct (i_val m) as [|t]; [discriminate|]. destruct (Z.eqb_spec (i_width m) 8) as [->|]; [|discriminate]. destruct (a_sym t) as [y|]; [|discriminate].
  intro H. split; [reflexivity|]. destruct (a_type t); [|discriminate|destruct plt; [|discriminate]]; injection H as <-; eexists _, _, _; (split; [reflexivity|split; [reflexivity|split; [discriminate|apply orb_true_r]]]).
Qed.
Ltac targets := match goal with h : target _ _ _ _ = Some _ |- _ => apply target_inv in h as (Wr & k & y & d' & Ot & -> & Kk & H32) end; unfold well, ops_of; cbn [n_args n_prefix n_op]; match goal with o : imm_op _ = OSym _ _ _ |- _ => rewrite o end.
Lemma jump_ok op m cc o x l plt : (op, m, plt) = (INSTR_CALL, CALL, true) \/ (op, m, plt) = (INSTR_JMP, JMP, false) ->
  match o with OpImm i => one m (target loc e i plt) | _ => None end = Some x -> get_mnemonic (Instr op cc 0 o) = Done l -> well (Instr op cc 0 o) l x.
Proof.
  intros I A H. destruct o as [w|i|r|m'|s d|s d|s d|s d|s d]; try discriminate. somes A. targets.
  destruct I as [[= -> -> ->]|[= -> -> ->]]; opened H; rewrite H32 in H; found H; try (left; reflexivity); destruct k; try congruence; reflexivity.
Qed.
Lemma cc_cases cc : (0 <=? cc) && (cc <? 16) = true -> In cc [0;1;2;3;4;5;6;7;8;9;10;11;12;13;14;15].
Proof. rewrite andb_true_iff, Z.leb_le, Z.ltb_lt. cbn [In]. lia. Qed.
Ltac by_cc C := apply cc_cases in C; cbn [In] in C; repeat (destruct C as [<-|C]); try contradiction.
Lemma jcc_ok cc o x l : (0 <=? cc) && (cc <? 16) = true ->
  match o with OpImm i => one (J cc) (target loc e i false) | _ => None end = Some x -> get_mnemonic (Instr INSTR_Jcc cc 0 o) = Done l -> well (Instr INSTR_Jcc cc 0 o) l x.
Proof.
  intros C A H. destruct o as [w|i|r|m'|s d|s d|s d|s d|s d]; try discriminate. somes A. targets.
  by_cc C; opened H; rewrite H32 in H; found H; try (left; reflexivity); destruct k; try congruence; reflexivity.
Qed.
Lemma set_ok cc o x l : (0 <=? cc) && (cc <? 16) = true ->
  match o with OpReg r => one (SET cc) (gp r 1) | _ => None end = Some x -> get_mnemonic (Instr INSTR_SETcc cc 0 o) = Done l -> well (Instr INSTR_SETcc cc 0 o) l x.
Proof.
  intros C A H. destruct o as [w|i|r|m'|s d|s d|s d|s d|s d]; try discriminate. somes A. opnds. by_cc C; conc H.
Qed.
Lemma push_ok cc o x l : misspelt (Instr INSTR_PUSH cc 0 o) = false ->
  match o with OpReg r => one PUSH (gp r 8) | OpMem m => one PUSH (me loc e m 8 8) | OpImm m => one PUSH (im m 8) | _ => None end = Some x ->
  get_mnemonic (Instr INSTR_PUSH cc 0 o) = Done l -> well (Instr INSTR_PUSH cc 0 o) l x.
Proof.
  intros Q A H. destruct o as [w|i|r|m'|s d|s d|s d|s d|s d]; try discriminate.
  - match type of A with one _ ?a = _ => destruct a eqn:G2; [|discriminate] end. injection A as <-.
    apply im_inv in G2 as (Wi & Ws & q & V & -> & Oi). unfold well, ops_of. cbn [n_args n_prefix n_op]. rewrite Oi.
    destruct Ws as [Ws|[Ws _]]; opened H; rewrite ?Ws.
    + destruct (is_32_bit_imm i) eqn:H32; found H; try (left; reflexivity). cbn -[immediate_of imm_value]. rewrite immediate_read; [reflexivity|reflexivity|].
      intros _. apply imm_value_int32. unfold is_32_bit_imm in H32. rewrite Ws, V in H32. exact H32.
    + assert (H32 : is_32_bit_imm i = true) by (unfold is_32_bit_imm; rewrite Ws; reflexivity). rewrite H32 in H. vm_compute in H. discriminate H.
  - somes A. opnds. conc H.
  - somes A. opnds. conc H.
Qed.
Lemma meanings i x l : asked loc e depth i = Some x -> misspelt i = false -> get_mnemonic i = Done l -> well i l x.
Proof.
  destruct i as [op cc pf o]. unfold asked. cbn [n_op n_cc n_prefix n_args]. intros A Q H.
  destruct ((0 <=? cc) && (cc <? 16)) eqn:C; [|discriminate]. cbn [andb] in A.
  destruct (Z.eqb_spec pf 0) as [->|Np]; cbn [orb] in A.
  2:{ destruct (Z.eqb_spec pf 243) as [->|]; [|discriminate]. destruct (Z.eqb_spec op INSTR_MOV_STR) as [->|]; [|discriminate]. cbn in A. destruct o; try discriminate. somes A.
      unfold well, ops_of. cbn [n_args n_prefix n_op]. by_width B; opened H; found H; try (right; eexists; reflexivity); reflexivity. }
  unfold asked_body in A. cbn [n_op n_args n_cc n_prefix] in A.
  Ltac nxt A op k := match type of A with (if op =? ?c then _ else _) = _ => let E := fresh "E" in destruct (Z.eqb_spec op c) as [E|E]; [rewrite E in *; clear E; k|clear E] end.
  do 8 (nxt A op ltac:(eapply alu_ok; [|eassumption|eassumption|eassumption]; cbn; tauto)).
  nxt A op ltac:(idtac).
  { destruct o as [w|i|r|m'|s d|s d|s d|s d|s d]; try discriminate.
    - eapply (jump_ok _ _ _ (OpImm i)); [left; reflexivity|exact A|exact H].
    - somes A. opnds. change (INSTR_CALL =? INSTR_CALL) with true. conc H. }
  nxt A op ltac:(eapply jump_ok; [right; reflexivity|exact A|exact H]).
  nxt A op ltac:(eapply jcc_ok; eassumption).
  nxt A op ltac:(eapply set_ok; eassumption).
  nxt A op ltac:(destruct o as [w| | | | | | | |]; try discriminate; destruct (Z.eqb_spec w 4) as [->|]; [injection A as <-; conc H|destruct (Z.eqb_spec w 8) as [->|]; [injection A as <-; conc H|discriminate]]).
  do 4 (nxt A op ltac:(eapply one_ok; [|eassumption|eassumption]; cbn; tauto)).
  nxt A op ltac:(destruct o; try discriminate; somes A; opnds; by_width Wd; conc H).
  do 2 (nxt A op ltac:(destruct o as [w| | | | | | | |]; try discriminate; cbn [asked_none] in A; unfold misspelt in Q; cbn [n_op n_args] in Q; somes A;
    (destruct (Z.eqb_spec w 0) as [->|]; [conc H|destruct (Z.eqb_spec w 4) as [->|]; [discriminate Q|destruct (Z.eqb_spec w 8) as [->|]; [conc H|discriminate]]]))).
  nxt A op ltac:(destruct o as [w| | | | | | | |]; try discriminate; somes A; unfold well, ops_of; cbn [n_args n_prefix n_op]; by_width B; conc H).
  do 2 (nxt A op ltac:(eapply extend_ok; [|eassumption|eassumption|eassumption]; cbn; tauto)).
  nxt A op ltac:(destruct o; try discriminate; somes A; opnds; conc H).
  nxt A op ltac:(eapply push_ok; eassumption).
  do 3 (nxt A op ltac:(eapply shift_ok; [|eassumption|eassumption]; cbn; tauto)).
  do 5 (nxt A op ltac:(eapply sse_ok; [|eassumption|eassumption]; cbn; tauto)).
  nxt A op ltac:(eapply store_ok; eassumption).
  do 2 (nxt A op ltac:(eapply packed_ok; [|eassumption|eassumption]; tauto)).
  nxt A op ltac:(destruct o; try discriminate; somes A; apply andb_true_iff in B as [B1 B2]; opnds; by_fwidth B1; by_fwidth B2; conc H).
  nxt A op ltac:(destruct o; try discriminate; somes A; apply andb_true_iff in B as [B1 B2]; opnds; by_fwidth B1; by_fwidth B2; conc H).
  nxt A op ltac:(idtac).
  { assert (K12 : forall a b, fwidth a && (a + b =? 12) = true -> a = 4 /\ b = 8 \/ a = 8 /\ b = 4).
    { intros a b K. unfold fwidth in K. rewrite andb_true_iff, orb_true_iff, !Z.eqb_eq in K. lia. }
    destruct o; try discriminate; somes A; apply K12 in B; opnds; destruct B as [[B1 B2]|[B1 B2]]; rewrite B1, B2 in *; conc H. }
  do 6 (nxt A op ltac:(eapply st_ok; [|eassumption|eassumption]; cbn; tauto)).
  do 2 (nxt A op ltac:(destruct o; try discriminate; [eapply st_ok; [|eassumption|eassumption]; cbn; tauto|eapply fmem_ok; [|eassumption|eassumption]; cbn; tauto])).
  do 4 (nxt A op ltac:(eapply fmem_ok; [|eassumption|eassumption]; cbn; tauto)).
  nxt A op ltac:(destruct o as [w| | | | | | | |]; try discriminate; unfold misspelt in Q; cbn [n_op n_args] in Q; somes A;
    (destruct (Z.eqb_spec w 0) as [->|]; [conc H|discriminate Q])).
  discriminate.
Qed.
End Meaning.
