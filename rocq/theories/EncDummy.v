(* Proofs about the instruction encoder: stand-ins for addresses and immediates. *)
From Coq Require Import ZArith Lia Bool List.
From Verif Require Import Bytes EncModel EncSpec EncProofs EncShape.
Import ListNotations.
Open Scope Z_scope.

Definition A0 (x b : bool) : address := Addr ADDR_NORMAL None 7 (if b then 9 else 1) (if x then 9 else 0) 1.
Definition q0 (q : Z) : Z := if in_byte_range q then 0 else if in_32bit_range q then 1000 else 10000000000.
Definition dummy_addr (a : address) : address := A0 (ext (a_index a)) (ext (a_base a)).
Definition T0 (t : addr_type) (y : option Z) : address := Addr t match y with Some _ => Some 0 | None => None end 0 0 0 0.
Definition dummy_imm (m : immediate) : immediate :=
  Imm (i_width m) match i_val m with IInt q => IInt (q0 q) | IAddr a => IAddr (T0 (a_type a) (a_sym a)) end.
Definition dummy_mem (m : memory) : memory := Mem (m_width m) (dummy_addr (m_addr m)).
Definition dummy_args (o : operands) : operands :=
  match o with
  | OpImm m => OpImm (dummy_imm m) | OpMem m => OpMem (dummy_mem m)
  | RegMem s d => RegMem s (dummy_mem d) | MemReg s d => MemReg (dummy_mem s) d
  | ImmReg m d => ImmReg (dummy_imm m) d | ImmMem m d => ImmMem (dummy_imm m) (dummy_mem d)
  | _ => o
  end.
Definition keeps_cc (o : operands) : bool := match o with OpImm _ | OpReg _ => true | _ => false end.
Definition dummy (i : instruction) : instruction :=
  Instr (n_op i) (if keeps_cc (n_args i) then n_cc i else 0) (n_prefix i) (dummy_args (n_args i)).

Lemma q0_byte q : in_byte_range (q0 q) = in_byte_range q.
Proof. unfold q0. destruct (in_byte_range q); [reflexivity|]. destruct (in_32bit_range q); reflexivity. Qed.
Lemma q0_32 q : in_32bit_range (q0 q) = in_32bit_range q.
Proof.
  unfold q0. destruct (in_byte_range q) eqn:E.
  - unfold in_byte_range, in_32bit_range in *. symmetry. apply andb_true_intro. lia.
  - destruct (in_32bit_range q); reflexivity.
Qed.

Lemma short_dummy m s : short (dummy_imm m) s = short m s.
Proof. destruct m as [w [q|a]]; unfold short; cbn [dummy_imm i_val i_width]; [rewrite q0_byte|]; reflexivity. Qed.
Lemma nbytes_dummy m s dw : nbytes (dummy_imm m) s dw = nbytes m s dw.
Proof.
  unfold nbytes. rewrite short_dummy. destruct m as [w [q|a]]; cbn [dummy_imm i_val i_width]; [rewrite q0_32|]; reflexivity.
Qed.
Lemma mark_dummy m n c : mark (dummy_imm m) n c = mark m n c.
Proof. unfold mark. rewrite short_dummy. reflexivity. Qed.
Lemma imm32_dummy m : is_32_bit_imm (dummy_imm m) = is_32_bit_imm m.
Proof. destruct m as [w [q|a]]; unfold is_32_bit_imm; cbn [dummy_imm i_val i_width]; [rewrite q0_32|]; reflexivity. Qed.

Lemma key_dummy i : key_of (dummy i) = key_of i.
Proof.
  destruct i as [o cc p [w|m|r|m|s d|s d|s d|m d|m d]]; unfold key_of; cbn [dummy n_args n_op dummy_args optype src_imm32 src_reg dst_reg src_width dst_width];
    try reflexivity; rewrite imm32_dummy; reflexivity.
Qed.
Lemma size_dummy i : operand_size (dummy i) = operand_size i.
Proof. destruct i as [o cc p [w|m|r|m|s d|s d|s d|m d|m d]]; reflexivity. Qed.
Lemma prefixes_dummy i e : prefixes (dummy i) e = prefixes i e.
Proof. unfold prefixes. rewrite size_dummy. destruct i; reflexivity. Qed.

Lemma A0_x x b : addr_x (A0 x b) = x. Proof. destruct x, b; reflexivity. Qed.
Lemma A0_b x b : addr_b (A0 x b) = b. Proof. destruct x, b; reflexivity. Qed.
Lemma A0_ext x b : ext (a_index (A0 x b)) = x /\ ext (a_base (A0 x b)) = b. Proof. destruct x, b; split; reflexivity. Qed.

Lemma where_regs loc e a pl : where_ loc e a = Some pl ->
  (a_base a = IP \/ 0 <= a_base a < 17) /\ 0 <= a_index a < 17.
Proof.
  intro H. destruct (a_sym a) as [y|] eqn:Es.
  - unfold where_ in H. rewrite Es in H. destruct ((_ || _) && _) eqn:E; [|discriminate].
    apply andb_prop in E as [E1 E2]. apply Z.eqb_eq in E2. apply orb_prop in E1 as [E1|E1]; apply Z.eqb_eq in E1; split; try (left; assumption); try (right; lia); lia.
  - destruct (where_range _ _ _ _ H Es) as (R1 & R2 & _). split; [right; exact R1|exact R2].
Qed.
Lemma ext_is r : r = IP \/ 0 <= r < 17 -> ext r = is_64_bit_reg r.
Proof. intro H. unfold ext, is_64_bit_reg, R8, R15, XMM8, XMM15, IP in *. destruct H; lia. Qed.
Lemma dummy_x loc e a pl : where_ loc e a = Some pl -> addr_x (dummy_addr a) = addr_x a.
Proof. intro H. apply where_regs in H as [_ H]. unfold dummy_addr. rewrite A0_x. unfold addr_x. apply ext_is; right; exact H. Qed.
Lemma dummy_b loc e a pl : where_ loc e a = Some pl -> addr_b (dummy_addr a) = addr_b a.
Proof. intro H. apply where_regs in H as [H _]. unfold dummy_addr. rewrite A0_b. unfold addr_b. apply ext_is, H. Qed.

Definition placed loc e (i : instruction) (pl : place) : Prop :=
  match address_of (n_args i) with Some a => where_ loc e a = Some pl | None => True end.

Lemma parts_dummy loc e i pl : placed loc e i pl -> parts (dummy i) = parts i.
Proof.
  unfold placed, parts. intro H. rewrite key_dummy. destruct (find_encoding (key_of i)) as [en| | |]; try reflexivity. cbn [bind].
  cbv zeta. rewrite prefixes_dummy, size_dummy.
  destruct i as [o cc p [w|m|r|m|s d|s d|s d|m d|m d]]; cbn [dummy n_args dummy_args address_of n_cc keeps_cc] in *; try reflexivity.
  - unfold i_head. cbv zeta. destruct (if opx en OPX_tttn then _ else _) as [c| | |]; try reflexivity. cbn [bind].
    rewrite nbytes_dummy, mark_dummy. reflexivity.
  - cbn [dummy_mem m_addr]. rewrite (dummy_x _ _ _ _ H), (dummy_b _ _ _ _ H). reflexivity.
  - cbn [dummy_mem m_addr m_width]. rewrite (dummy_x _ _ _ _ H), (dummy_b _ _ _ _ H). reflexivity.
  - cbn [dummy_mem m_addr m_width]. rewrite (dummy_x _ _ _ _ H), (dummy_b _ _ _ _ H). reflexivity.
  - unfold ir_head. cbv zeta. destruct (if opx en OPX_REG then _ else _) as [[c dd]| | |]; try reflexivity. cbn [bind].
    rewrite nbytes_dummy, mark_dummy. reflexivity.
  - cbn [dummy_mem m_addr]. rewrite (dummy_x _ _ _ _ H), (dummy_b _ _ _ _ H).
    unfold im_head. rewrite nbytes_dummy, mark_dummy. reflexivity.
Qed.

(* ------------------------------------------------------------------ *)
(* What is asked for: the stand-in differs in the address and the immediate only *)

Definition l0 (k : kind) (y : Z) : Z := 0.
Definition imm_val (loc : kind -> Z -> Z) (e : Z) (m : immediate) : Z :=
  match i_val m with
  | IInt q => signed (Z.to_nat (i_width m)) q
  | IAddr a => match a_sym a with
               | Some y => loc match a_type a with ADDR_PLT => PLT32 | _ => PC32 end y + a_disp a - e
               | None => 0 end
  end.
Definition value loc e (i : instruction) : Z :=
  match imm_of (n_args i) with Some m => imm_val loc e m | None => 0 end.

Section Sub.
Variables (loc : kind -> Z -> Z) (e dp : Z) (pl : place) (v : Z).
Notation sub := (option_map (subst_arg pl v)).
Notation subi := (option_map (subst pl v)).

Lemma gp_sub r w : gp r w = sub (gp r w).
Proof. unfold gp. destruct (_ && _); reflexivity. Qed.
Lemma xm_sub r w : xm r w = sub (xm r w).
Proof. unfold xm. destruct (_ && _); reflexivity. Qed.
Lemma st_sub r : st dp r = sub (st dp r).
Proof. unfold st. destruct (_ && _); reflexivity. Qed.
Lemma me_sub m w n : where_ loc e (m_addr m) = Some pl -> me loc e m w n = sub (me l0 0 (dummy_mem m) w n).
Proof.
  intro H. unfold me. rewrite H. cbn [dummy_mem m_width m_addr]. destruct (m_width m =? w); [|reflexivity].
  unfold dummy_addr. destruct (ext (a_index (m_addr m))), (ext (a_base (m_addr m))); reflexivity.
Qed.
Lemma im_sub m w : v = imm_val loc e m -> im m w = sub (im (dummy_imm m) w).
Proof.
  intro H. unfold im. destruct m as [mw [q|a]]; cbn [dummy_imm i_val i_width]; [|reflexivity].
  destruct (_ && _); [|reflexivity]. cbn [option_map subst_arg]. rewrite H. reflexivity.
Qed.
Lemma target_sub m b : v = imm_val loc e m -> target loc e m b = sub (target l0 0 (dummy_imm m) b).
Proof.
  intro H. unfold target. destruct m as [mw [q|[t y d bs ix sc]]]; cbn [dummy_imm i_val i_width a_sym a_type T0]; [reflexivity|].
  destruct (mw =? 8); [|reflexivity]. destruct y as [y|]; [|reflexivity].
  destruct t; cbn [a_disp]; try reflexivity.
  - cbn [option_map subst_arg]. rewrite H. reflexivity.
  - destruct b; [|reflexivity]. cbn [option_map subst_arg]. rewrite H. reflexivity.
Qed.
Lemma two_sub m a b a' b' : a = sub a' -> b = sub b' -> two m a b = subi (two m a' b').
Proof. intros -> ->. destruct a', b'; reflexivity. Qed.
Lemma one_sub m a a' : a = sub a' -> one m a = subi (one m a').
Proof. intros ->. destruct a'; reflexivity. Qed.
Lemma same_sub b x x' : x = subi x' -> same b x = subi (same b x').
Proof. intros ->. destruct b; reflexivity. Qed.
Lemma none_sub m : Some (Ins m []) = subi (Some (Ins m [])). Proof. reflexivity. Qed.
End Sub.

Ltac subs H Hv := first
  [ reflexivity
  | apply same_sub; subs H Hv
  | apply two_sub; subs H Hv
  | apply one_sub; subs H Hv
  | apply gp_sub | apply xm_sub | apply st_sub
  | apply me_sub; exact H
  | apply (im_sub _ _ _ _ _ _ Hv) | apply (target_sub _ _ _ _ _ _ Hv) ].

Lemma fmem_sub loc e pl v m : forall l d, where_ loc e (m_addr d) = Some pl ->
  asked_fmem loc e m l (OpMem d) = option_map (subst pl v) (asked_fmem l0 0 m l (OpMem (dummy_mem d))).
Proof.
  induction l as [|[w n] l IH]; intros d H; [reflexivity|]. cbn [asked_fmem]. cbn [dummy_mem m_width].
  destruct (m_width d =? w); [|apply IH, H]. apply one_sub. apply me_sub, H.
Qed.

Lemma asked_dummy loc e dp i pl : placed loc e i pl ->
  asked loc e dp i = option_map (subst pl (value loc e i))
    (if (0 <=? n_cc i) && (n_cc i <? 16) then asked l0 0 dp (dummy i) else None).
Proof.
  unfold placed, value, asked. intro H.
  destruct ((0 <=? n_cc i) && (n_cc i <? 16)) eqn:Ec; [|reflexivity]. cbn [andb].
  replace ((0 <=? n_cc (dummy i)) && (n_cc (dummy i) <? 16)) with true.
  2:{ cbn [dummy n_cc]. destruct (keeps_cc (n_args i)); [symmetry; exact Ec|reflexivity]. }
  cbn [andb]. change (n_prefix (dummy i)) with (n_prefix i). change (n_op (dummy i)) with (n_op i).
  destruct ((n_prefix i =? 0) || (n_prefix i =? 243) && (n_op i =? INSTR_MOV_STR)); [|reflexivity].
  destruct i as [o cc p a]. cbn [n_args n_op] in *.
  destruct a as [w|m|r|m|s d|s d|s d|m d|m d]; cbn [address_of imm_of] in *.
  all: unfold asked_body, dummy; cbn [n_args n_op n_cc n_prefix keeps_cc dummy_args].
  all: cbn [asked_alu asked_one asked_none asked_extend asked_shift asked_sse asked_store asked_packed asked_st].
  all: try pose proof (@eq_refl _ (imm_val loc e m)) as Hv.
  all: try change (m_width (dummy_mem d)) with (m_width d).
  all: try change (m_width (dummy_mem m)) with (m_width m).
  all: try change (m_width (dummy_mem s)) with (m_width s).
  all: repeat match goal with |- (if ?b then _ else _) = _ => destruct b; [try (subs H Hv); try (apply fmem_sub; exact H)|] end; try reflexivity.
Qed.

(* an address is there if it is asked for *)
Ltac nones H := first
  [ reflexivity
  | match goal with |- context [me ?l ?e ?m ?w ?n] =>
      replace (me l e m w n) with (@None arg) by (unfold me; rewrite H; destruct (m_width m =? w); reflexivity) end;
    first [reflexivity | match goal with |- context [two _ ?a None] => destruct a; unfold same; try reflexivity; match goal with |- context [if ?b then _ else _] => destruct b; reflexivity end end
          | unfold same, two; match goal with |- context [if ?b then _ else _] => destruct b; reflexivity end
          | unfold same, one; match goal with |- context [if ?b then _ else _] => destruct b; reflexivity end ] ].
Lemma fmem_none loc e m : forall l d, where_ loc e (m_addr d) = None -> asked_fmem loc e m l (OpMem d) = None.
Proof.
  induction l as [|[w n] l IH]; intros d H; [reflexivity|]. cbn [asked_fmem].
  destruct (m_width d =? w); [|apply IH, H]. unfold me. rewrite H. destruct (m_width d =? w); reflexivity.
Qed.
Lemma asked_placed loc e dp i d : asked loc e dp i = Some d -> exists pl, placed loc e i pl.
Proof.
  intro Ha. unfold placed. destruct (address_of (n_args i)) as [a|] eqn:E; [|exists (Rip 0); exact I].
  destruct (where_ loc e a) as [pl|] eqn:H; [exists pl; reflexivity|]. exfalso.
  assert (K : asked loc e dp i = None); [|congruence]. clear Ha.
  unfold asked. destruct (_ && _); [|reflexivity].
  destruct i as [o cc p ar]. destruct ar as [w|m|r|m|s q|s q|s q|m q|m q]; cbn [address_of n_args] in E; try discriminate;
    injection E as <-; unfold asked_body; cbn [n_args n_op n_cc n_prefix].
  all: cbn [asked_alu asked_one asked_none asked_extend asked_shift asked_sse asked_store asked_packed asked_st].
  all: repeat match goal with |- (if ?b then _ else _) = _ => destruct b; [try (apply fmem_none; exact H); try (nones H)|] end; try reflexivity.
Qed.

(* ------------------------------------------------------------------ *)
(* Ranges *)

Definition ops : list Z := [INSTR_ADD; INSTR_AND; INSTR_CALL; INSTR_CMP; INSTR_Cxy; INSTR_DIV; INSTR_IDIV; INSTR_Jcc; INSTR_JMP;
  INSTR_LEA; INSTR_LEAVE; INSTR_MOV; INSTR_MOV_STR; INSTR_MOVSX; INSTR_MOVZX; INSTR_MUL; INSTR_NOT; INSTR_OR; INSTR_POP;
  INSTR_PUSH; INSTR_RET; INSTR_SAR; INSTR_SETcc; INSTR_SHL; INSTR_SHR; INSTR_SUB; INSTR_TEST; INSTR_XOR; INSTR_ADDS;
  INSTR_CVTSI2S; INSTR_CVTS2S; INSTR_CVTTS2SI; INSTR_DIVS; INSTR_MULS; INSTR_SUBS; INSTR_MOVAP; INSTR_MOVS; INSTR_UCOMIS;
  INSTR_PXOR; INSTR_FADDP; INSTR_FDIVRP; INSTR_FILD; INSTR_FISTP; INSTR_FLD; INSTR_FLDZ; INSTR_FLDCW; INSTR_FMULP;
  INSTR_FNSTCW; INSTR_FSTP; INSTR_FSUBRP; INSTR_FUCOMIP; INSTR_FXCH].

Lemma body_op loc e dp i d : asked_body loc e dp i = Some d -> In (n_op i) ops.
Proof.
  unfold asked_body. cbv zeta.
  repeat match goal with |- (if ?c =? ?k then _ else _) = _ -> _ =>
    destruct (Z.eqb_spec c k) as [->|_]; [intros _; cbn; tauto|] end.
  discriminate.
Qed.

Definition W4 : list Z := [1; 2; 4; 8].
Definition W5 : list Z := [1; 2; 4; 8; 16].
Definition in_range (o : operands) : Prop :=
  match o with
  | NoOp w => In w (0 :: W4)
  | OpImm m => In (i_width m) W4
  | OpReg r => In (r_width r) W5 /\ 1 <= r_reg r < 42
  | OpMem m => In (m_width m) W5
  | RegReg s d => In (r_width s) W4 /\ In (r_width d) W4 /\ 1 <= r_reg s < 33 /\ 1 <= r_reg d < 33
  | RegMem r m | MemReg m r => In (r_width r) W4 /\ In (m_width m) W4 /\ 1 <= r_reg r < 33
  | ImmReg m r => In (i_width m) W4 /\ In (r_width r) W4 /\ 1 <= r_reg r < 33
  | ImmMem m d => In (i_width m) W4 /\ In (m_width d) W4
  end.
Lemma two_inv m a b d : two m a b = Some d -> a <> None /\ b <> None.
Proof. destruct a, b; cbn; try discriminate. split; discriminate. Qed.
Lemma one_inv m a d : one m a = Some d -> a <> None.
Proof. destruct a; cbn; discriminate. Qed.
Lemma same_inv b x d : same b x = Some d -> b = true /\ x = Some d.
Proof. destruct b; cbn; [tauto|discriminate]. Qed.
Lemma wide_inv w : wide w = true -> w = 1 \/ w = 2 \/ w = 4 \/ w = 8.
Proof. unfold wide. lia. Qed.
Lemma fwidth_inv w : fwidth w = true -> w = 4 \/ w = 8.
Proof. unfold fwidth. lia. Qed.
Lemma gp_inv r w : gp r w <> None -> r_width r = w /\ 1 <= r_reg r <= 16 /\ (w = 1 \/ w = 2 \/ w = 4 \/ w = 8).
Proof.
  unfold gp, is_gp. intro H. destruct (_ && wide w) eqn:E; [|congruence]. apply andb_prop in E as [E W]. apply wide_inv in W. lia.
Qed.
Lemma xm_inv r w : xm r w <> None -> r_width r = w /\ 17 <= r_reg r <= 32.
Proof. unfold xm, is_xmm. intro H. destruct (_ && _) eqn:E; [|congruence]. lia. Qed.
Lemma st_inv dp r : st dp r <> None -> r_width r = 16 /\ 34 <= r_reg r <= 41.
Proof. unfold st. cbv zeta. intro H. destruct (_ && _) eqn:E; [|congruence]. lia. Qed.
Lemma me_inv loc e m w n : me loc e m w n <> None -> m_width m = w.
Proof. unfold me. destruct (Z.eqb_spec (m_width m) w); [auto|congruence]. Qed.
Lemma im_inv m w : im m w <> None -> i_width m = 1 \/ i_width m = 2 \/ i_width m = 4 \/ i_width m = 8.
Proof. unfold im. destruct (i_val m); [|congruence]. destruct (wide (i_width m)) eqn:E; [|cbn; congruence]. intros _. apply wide_inv, E. Qed.
Lemma target_inv loc e m b : target loc e m b <> None -> i_width m = 8.
Proof. unfold target. destruct (i_val m); [congruence|]. destruct (Z.eqb_spec (i_width m) 8); [auto|congruence]. Qed.
Lemma fmem_inv loc e m : forall l d x, asked_fmem loc e m l (OpMem d) = Some x -> In (m_width d) (map fst l).
Proof.
  induction l as [|[w n] l IH]; intros d x H; [discriminate|]. cbn [asked_fmem] in H. cbn [map fst In].
  destruct (Z.eqb_spec (m_width d) w) as [E|E]; [left; symmetry; exact E|right; apply (IH _ _ H)].
Qed.
Ltac chase := repeat match goal with
  | H : two _ _ _ = Some _ |- _ => apply two_inv in H as [? ?]
  | H : one _ _ = Some _ |- _ => apply one_inv in H
  | H : same _ _ = Some _ |- _ => apply same_inv in H as [? H]
  | H : _ && _ = true |- _ => apply andb_prop in H as [? ?]
  | H : wide _ = true |- _ => apply wide_inv in H
  | H : fwidth _ = true |- _ => apply fwidth_inv in H
  | H : gp _ _ <> None |- _ => apply gp_inv in H as (? & ? & ?)
  | H : xm _ _ <> None |- _ => apply xm_inv in H as (? & ?)
  | H : st _ _ <> None |- _ => apply st_inv in H as (? & ?)
  | H : me _ _ _ _ _ <> None |- _ => apply me_inv in H
  | H : im _ _ <> None |- _ => apply im_inv in H
  | H : target _ _ _ _ <> None |- _ => apply target_inv in H
  | H : asked_fmem _ _ _ _ _ = Some _ |- _ => apply fmem_inv in H; cbn [map fst In] in H
  end.
Lemma body_range loc e dp i d : asked_body loc e dp i = Some d -> in_range (n_args i).
Proof.
  destruct i as [o cc p ar]. unfold asked_body. cbv zeta. cbn [n_args n_op n_cc n_prefix].
  destruct ar as [w|m|r|m|s q|s q|s q|m q|m q];
    cbn [asked_alu asked_one asked_none asked_extend asked_shift asked_sse asked_store asked_packed asked_st in_range In W4 W5].
  all: repeat match goal with
    | |- (if ?x =? ?k then Some _ else _) = _ -> _ => destruct (Z.eqb_spec x k) as [->|_]; [intros _; lia|]
    | |- (if ?b then _ else _) = _ -> _ => destruct b; [try discriminate; try (intro H; chase; lia)|] end; try discriminate.
Qed.
Lemma asked_range loc e dp i d : asked loc e dp i = Some d ->
  In (n_op i) ops /\ 0 <= n_cc i < 16 /\ In (n_prefix i) [0; 243] /\ in_range (n_args i)
  /\ match n_args i with NoOp _ => True | _ => n_prefix i = 0 end.
Proof.
  unfold asked. destruct (_ && _) eqn:E; [|discriminate]. intro H.
  apply andb_prop in E as [E E3]. apply andb_prop in E as [E1 E2].
  split; [apply (body_op _ _ _ _ _ H)|]. split; [lia|]. split; [cbn; lia|]. split; [apply (body_range _ _ _ _ _ H)|].
  destruct (n_args i) eqn:Ea; try exact I.
  all: destruct (Z.eqb_spec (n_prefix i) 0) as [E|E]; [exact E|]; cbn [orb] in E3; apply andb_prop in E3 as [_ E3]; apply Z.eqb_eq in E3.
  all: exfalso; destruct i as [o cc p ar]; cbn [n_args n_op] in *; subst ar o; discriminate H.
Qed.

(* the height of the x87 stack matters for x87 registers only *)
Definition depth0 (i : instruction) : Z := match n_args i with OpReg r => 2 * (r_reg r - 34) + 2 | _ => 0 end.
Lemma depth_trouble dp i : trouble dp i = false -> trouble (depth0 i) i = false.
Proof.
  unfold trouble. cbv zeta. intro H. apply orb_false_iff in H as [H1 H2]. apply orb_false_iff. split; [exact H1|].
  unfold depth0. destruct (n_args i); try exact H2. apply orb_false_iff in H2 as [H2 H3]. rewrite H2. cbn [orb].
  rewrite Z.eqb_refl. cbn. apply andb_false_r.
Qed.
Lemma depth_asked loc e dp i : trouble dp i = false -> asked loc e dp i = asked loc e (depth0 i) i.
Proof.
  intro Ht. unfold asked. destruct (_ && _); [|reflexivity].
  unfold depth0. destruct i as [o cc p ar]. cbn [n_args].
  destruct ar as [w|m|r|m|s q|s q|s q|m q|m q]; unfold asked_body; cbn [n_args n_op n_cc asked_st]; [reflexivity|reflexivity| |reflexivity..].
  assert (Hs : st dp r = st (2 * (r_reg r - 34) + 2) r).
  { unfold trouble in Ht. cbn [n_args address_of orb] in Ht. apply orb_false_iff in Ht as [_ Ht].
    destruct (Z.leb_spec 34 (r_reg r)) as [E|E].
    - cbn [andb] in Ht. apply negb_false_iff, Z.eqb_eq in Ht. rewrite Ht. reflexivity.
    - unfold st. replace (34 <=? r_reg r) with false by lia. reflexivity. }
  rewrite Hs. reflexivity.
Qed.

Lemma ext_dummy a : ext_addr (dummy_addr a) = ext_addr a.
Proof. unfold ext_addr, dummy_addr. destruct (A0_ext (ext (a_index a)) (ext (a_base a))) as [-> ->]. reflexivity. Qed.
Lemma byte_dummy m : byte_value (dummy_imm m) = byte_value m.
Proof. destruct m as [w [q|a]]; unfold byte_value; cbn [dummy_imm i_val]; [|reflexivity]. apply q0_byte. Qed.
Lemma long_dummy m : long_value (dummy_imm m) = long_value m.
Proof.
  destruct m as [w [q|a]]; unfold long_value; cbn [dummy_imm i_val i_width]; [|reflexivity].
  change (int32 (q0 q)) with (in_32bit_range (q0 q)). rewrite q0_32. reflexivity.
Qed.
Lemma trouble_dummy dp i : trouble dp i = false -> trouble dp (dummy i) = false.
Proof.
  unfold trouble. cbv zeta. intro H. apply orb_false_iff in H as [_ H]. apply orb_false_iff. split.
  - destruct i as [o cc p ar]. destruct ar as [w|m|r|m|s q|s q|s q|m q|m q]; try reflexivity;
      cbn [dummy n_args dummy_args address_of dummy_mem m_addr dummy_addr A0 a_sym a_disp a_base];
      match goal with |- context [if ?b then 9 else 1] => destruct b end; reflexivity.
  - destruct i as [o cc p ar]. destruct ar as [w|m|r|m|s q|s q|s q|m q|m q]; cbn [dummy n_args dummy_args n_op dummy_mem m_addr m_width] in *; try exact H.
    + rewrite ext_dummy. exact H.
    + rewrite ext_dummy. exact H.
    + rewrite byte_dummy. exact H.
    + rewrite byte_dummy. exact H.
Qed.
Lemma lacking_dummy i : lacking (dummy i) = lacking i.
Proof.
  destruct i as [o cc p ar]. destruct ar as [w|m|r|m|s q|s q|s q|m q|m q]; unfold lacking; cbn [dummy n_args dummy_args n_op]; try reflexivity;
    rewrite long_dummy; reflexivity.
Qed.

(* ------------------------------------------------------------------ *)
(* All stand-ins *)

Definition ins_dec (a b : ins) : {a = b} + {a <> b}.
Proof. repeat decide equality. Defined.
Definition mid (i : instruction) (mm : option Z) : option (option (Z * bool * bool)) :=
  match mm, address_of (n_args i) with
  | Some rg, Some a => Some (Some (rg, addr_x a, addr_b a))
  | None, None => Some None
  | _, _ => None
  end.
Definition nb_ok (i : instruction) (nb : nat) : bool :=
  match imm_of (n_args i) with
  | None => Nat.eqb nb 0
  | Some m =>
      match i_val m with
      | IInt q => Nat.eqb nb (Z.to_nat (i_width m)) || (Nat.eqb nb 1 && in_byte_range q)
                  || (Nat.eqb nb 4 && in_32bit_range q && (i_width m =? 8))
      | IAddr _ => Nat.eqb nb 4
      end
  end.
Definition imm_done (i : instruction) (nb : nat) (dw : bool) : bool :=
  match imm_of (n_args i) with
  | Some m => match imm_bytes 0 m nb dw with Done _ => true | _ => false end
  | None => true
  end.
Definition good (i : instruction) : bool :=
  match asked l0 0 (depth0 i) i with
  | None => true
  | Some d =>
      if trouble (depth0 i) i then true else
      match parts i with
      | Done (h, mm, nb, dw) =>
          negb (lacking i) &&
          match mid i mm with
          | None => false
          | Some md =>
              match tmpl h md (Rip 0) nb with
              | None => false
              | Some d' => if ins_dec d' (subst (Rip 0) 0 d) then
                  bytes_ok h && (nb_ok i nb && imm_done i nb dw) && (zlen h + Z.of_nat nb + (match mm with Some _ => 6 | None => 0 end) <=? 15)
                  && match mm with Some rg => (0 <=? rg) && (rg <? 8) | None => true end
                  else false
              end
          end
      | Unsupported => lacking i
      | _ => false
      end
  end.

