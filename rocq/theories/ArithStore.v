(* Stores to operands do what they should. *)
From Coq Require Import List ZArith Lia Bool.
From Verif Require Import TypeModel TypeSpec EvalModel EvalSpec EvalProofs LayoutModel FieldModel FieldSpec FieldProofs ArithModel ArithSpec ArithMach ArithLoad.
Import ListNotations.
Open Scope Z_scope.

Lemma tb_sext x i : 0 <= i -> Z.testbit (sext 64 x) i = Z.testbit x (Z.min i 63).
Proof.
  intro Hi. unfold sext. set (m := x mod 2 ^ 64). pose proof (Z.mod_pos_bound x (2 ^ 64) ltac:(lia)) as B. fold m in B.
  assert (L : forall j, 0 <= j < 64 -> Z.testbit m j = Z.testbit x j) by (intros j Hj; apply Z.mod_pow2_bits_low; lia).
  assert (S : Z.testbit m 63 = negb (m <? 2 ^ (64 - 1))).
  { rewrite Z.testbit_eqb by lia. change (64 - 1) with 63.
    destruct (Z.ltb_spec m (2 ^ 63)); cbn [negb].
    - rewrite Z.div_small by lia. reflexivity.
    - replace (m / 2 ^ 63) with 1 by (apply Z.div_unique with (m - 2 ^ 63); lia). reflexivity. }
  destruct (Z.ltb_spec m (2 ^ (64 - 1))) as [G | G]; cbn [negb] in S.
  - destruct (Z.ltb_spec i 64); [rewrite Z.min_l by lia; apply L; lia|]. rewrite Z.min_r by lia. rewrite <- L by lia. rewrite S.
    rewrite <- (Z.mod_small m (2 ^ 64)) by lia. apply Z.mod_pow2_bits_high. lia.
  - replace (m - 2 ^ 64) with (m + (-1) * 2 ^ 64) by lia. destruct (Z.ltb_spec i 64).
    + rewrite Z.min_l by lia. rewrite <- L by lia. rewrite <- (Z.mod_pow2_bits_low _ 64 i) by lia. rewrite Z.mod_add by lia. rewrite Z.mod_small by lia. reflexivity.
    + rewrite Z.min_r by lia. rewrite <- L by lia. rewrite S.
      replace (m + -1 * 2 ^ 64) with (Z.lnot (2 ^ 64 - 1 - m)) by (unfold Z.lnot; lia). rewrite Z.lnot_spec by lia.
      rewrite <- (Z.mod_small (2 ^ 64 - 1 - m) (2 ^ 64)) by lia. rewrite Z.mod_pow2_bits_high by lia. reflexivity.
Qed.
Lemma sext_land a b : Z.land (sext 64 a) (sext 64 b) = sext 64 (Z.land a b).
Proof. apply Z.bits_inj'. intros i Hi. rewrite Z.land_spec, !tb_sext, Z.land_spec by lia. reflexivity. Qed.
Lemma sext_bounds z : - 2 ^ 63 <= sext 64 z < 2 ^ 63.
Proof. pose proof (sext_range 64 z ltac:(lia)). change (64 - 1) with 63 in H. lia. Qed.
Lemma lnot_sext_low m n : 0 < n <= 64 -> Z.lnot (sext 64 m) mod 2 ^ n = Z.lnot m mod 2 ^ n.
Proof.
  intro H. pose proof (sext_low n m H) as E. unfold Z.lnot. pose proof (pow2_pos n ltac:(lia)).
  replace (Z.pred (- sext 64 m)) with (-1 - sext 64 m) by lia. replace (Z.pred (- m)) with (-1 - m) by lia.
  rewrite Zminus_mod, E, <- Zminus_mod. reflexivity.
Qed.

(* code that only uses scratch registers leaves operands alone *)
Definition Quiet (st st' : mach) : Prop := Frame [AX; CX; DX; R11] st st'.
Lemma frame_quiet rs st st' : Frame rs st st' -> Forall scratch rs -> Quiet st st'.
Proof.
  intros F S. apply (frame_incl _ _ _ _ F). intros r H. rewrite Forall_forall in S. specialize (S r H). destruct r; cbn in S; cbn; tauto.
Qed.
Lemma quiet_tmp st st' i : Quiet st st' -> regs st' (Tmp i) = regs st (Tmp i).
Proof. intros [_ R]. apply R. cbn. intros [|[|[|[|[]]]]]; discriminate. Qed.
Lemma quiet_trans a b c : Quiet a b -> Quiet b c -> Quiet a c.
Proof. intros X Y. eapply frame_trans; [exact X|exact Y|apply incl_refl|apply incl_refl]. Qed.
Lemma quiet_contents st st' p n : Quiet st st' -> contents st' p n = contents st p n.
Proof. intro Q. destruct p; cbn [contents]; [rewrite (quiet_tmp _ _ _ Q)|rewrite (proj1 Q)]; reflexivity. Qed.

Lemma land_bound a b n : 0 <= n -> 0 <= a < 2 ^ n -> 0 <= Z.land a b < 2 ^ n.
Proof.
  intros Hn H. split; [apply Z.land_nonneg; lia|]. destruct (Z.eq_dec (Z.land a b) 0) as [->|N]; [lia|].
  assert (E : Z.land a b = Z.land a b mod 2 ^ n); [|rewrite E; apply Z.mod_pos_bound; lia].
  apply Z.bits_inj'. intros i Hi. rewrite tb_mod by lia. destruct (Z.ltb_spec i n); [rewrite andb_true_r; reflexivity|]. rewrite andb_false_r, Z.land_spec.
  rewrite <- (Z.mod_small a (2 ^ n)) by lia. rewrite tb_mod by lia. rewrite (proj2 (Z.ltb_ge i n)) by lia. rewrite andb_false_r. reflexivity.
Qed.
Lemma lor_low a b n : 0 <= n -> Z.lor a b mod 2 ^ n = Z.lor (a mod 2 ^ n) (b mod 2 ^ n).
Proof. intro H. apply Z.bits_inj'. intros i Hi. rewrite Z.lor_spec, !tb_mod, Z.lor_spec by lia. destruct (i <? n); rewrite ?andb_true_r, ?andb_false_r; reflexivity. Qed.
Lemma land_low a b n : 0 <= n -> Z.land a b mod 2 ^ n = Z.land (a mod 2 ^ n) (b mod 2 ^ n).
Proof. intro H. apply Z.bits_inj'. intros i Hi. rewrite Z.land_spec, !tb_mod, Z.land_spec by lia. destruct (i <? n); rewrite ?andb_true_r, ?andb_false_r; reflexivity. Qed.


Section Store.
Variables (rbp : Z) (glob : nat -> Z) (sym : nat -> symbol) (pic : bool).
Notation run := (exec rbp glob).
Notation home := (home rbp glob sym).
Notation symbol_address := (symbol_address rbp glob sym).
Notation place_of := (place_of rbp glob sym).
Notation Valid := (Valid rbp glob sym).
Notation ValidTarget := (ValidTarget rbp glob sym).
Notation HasValue := (HasValue rbp glob sym).
Notation Assigned := (Assigned rbp glob sym).

Lemma quiet_place st st' v : Quiet st st' -> place_of st' v = place_of st v.
Proof. intro Q. unfold ArithSpec.place_of. rewrite (quiet_contents st st') by exact Q. reflexivity. Qed.
Lemma quiet_valid st st' v : Quiet st st' -> Valid st v -> Valid st' v.
Proof. intros Q V. unfold ArithSpec.Valid in *. rewrite (quiet_contents st st') by exact Q. exact V. Qed.
Lemma quiet_target st st' v : Quiet st st' -> ValidTarget st v -> ValidTarget st' v.
Proof. intros Q (A & B & C). split; [exact A|]. split; [exact B|]. destruct C as [C | C]; [left; apply (quiet_valid st); assumption|right; exact C]. Qed.
Lemma quiet_value st st' v k z : Quiet st st' -> HasValue st v k z -> HasValue st' v k z.
Proof.
  intros Q (D & R & H). split; [exact D|]. split; [exact R|]. destruct (v_kind v); try exact H;
  destruct H as (p & P & H); exists p; rewrite (quiet_place st st'), !(quiet_contents st st') by exact Q; auto.
Qed.

(* the end of store_op *)
Definition tail (o : operand) (t : var) : option code :=
  let w := size_of (v_type t) in
  match v_kind t with
  | DIRECT =>
    match allocated_register sym t with
    | Some r => Some ([Op MOV w (as_src o) r])
    | None =>
      if is_global_offset sym pic (v_sym t) then
        do d <- displacement (v_offset t);
        Some ([Op MOV 8 (SMem (AGot (v_sym t))) R11; OpM MOV w (as_src o) (AReg R11 d)])
      else do a <- location_of sym t; Some ([OpM MOV w (as_src o) a])
    end
  | DEREF =>
    do p <-
      (if v_is_symbol t then
         do _ <- assert (is_pointer (s_type (sym (v_sym t)))); load_int sym pic (var_direct sym (v_sym t)) R11 8
       else load_int sym pic (mkVar IMMEDIATE (v_width t) (v_foff t) false (v_type t) (v_offset t) (v_sym t) (v_imm t)) R11 8);
    do d <- displacement (v_offset t);
    Some (p ++ [OpM MOV w (as_src o) (AReg R11 d)])
  | _ => None
  end.
Definition field_part (o : operand) (t : var) : option (operand * code) :=
  let w := size_of (v_type t) in
  if is_field t then
       do _ <- assert ((0 <? v_width t) && (v_width t <? 64));
       do c <- load sym pic (mkVar (v_kind t) 0 0 (v_is_symbol t) (v_type t) (v_offset t) (v_sym t) (v_imm t)) CX;
       let mask := sext 64 (field_mask (v_width t) (v_foff t)) in
       do c1 <- bitwise_imm_reg AND (Z.lnot mask) w CX;
       match o with
       | OImm z =>
         let m := Z.land (sext 64 (Z.shiftl z (v_foff t))) mask in
         do c2 <- (if m =? 0 then Some [] else bitwise_imm_reg OR m w CX);
         Some (OReg CX, c ++ c1 ++ c2)
       | OReg r =>
         do c2 <- bitwise_imm_reg AND mask w r;
         Some (OReg r, c ++ c1 ++ (if v_foff t =? 0 then [] else [Shift SHL w (SImm (v_foff t)) r]) ++ c2 ++ [Op OR w (SReg CX) r])
       end
     else Some (o, []).
Lemma store_op_eq o t : store_op sym pic o t = do (o', c) <- field_part o t; do c' <- tail o' t; Some (c ++ c').
Proof.
  unfold store_op. match goal with |- match ?x with Some _ => _ | None => _ end = _ => change x with (field_part o t) end.
  destruct (field_part o t) as [[o' c]|]; [|reflexivity]. unfold tail.
  destruct (v_kind t); try reflexivity.
  - destruct (allocated_register sym t); [reflexivity|]. destruct (is_global_offset sym pic (v_sym t)).
    + destruct (displacement (v_offset t)); reflexivity.
    + destruct (location_of sym t); reflexivity.
  - match goal with |- match ?x with Some _ => _ | None => _ end = _ => destruct x end; [|reflexivity]. destruct (displacement (v_offset t)); reflexivity.
Qed.

Lemma step_store st w s a x y : sread rbp glob st s w = Some x -> (match s with SMem _ => False | _ => True end) -> imm_ok MOV w s true = true -> eff rbp glob st a = Some y -> 0 <= w ->
  step rbp glob st (OpM MOV w s a) = Some (mkM (regs st) (wr (mem st) y w (x mod 2 ^ (8 * w)))).
Proof. intros E S Im Ef W. cbn [step]. rewrite Im, E, Ef. destruct s; [reflexivity|reflexivity|contradiction]. Qed.

(* what the last store writes *)
Definition src_ok (o : operand) (w : Z) : Prop := match o with OReg R11 => False | OReg _ => True | OImm z => w < 8 \/ is_int32 z = true end.
Definition src_val (st : mach) (o : operand) (w : Z) : Z := match o with OReg r => regs st r mod 2 ^ (8 * w) | OImm z => z mod 2 ^ (8 * w) end.
Lemma tail_ok st o t : ValidTarget st t -> let w := size_of (v_type t) in src_ok o w ->
  exists c st', tail o t = Some c /\ run c st = Some st' /\
    match place_of st t with
    | Some (InReg i) => Frame [Tmp i; R11] st st' /\ regs st' (Tmp i) mod 2 ^ (8 * w) = src_val st o w
    | Some (InMem a) => mem st' = wr (mem st) a w (src_val st o w) /\ forall r, r <> R11 -> regs st' r = regs st r
    | None => False
    end.
Proof.
  intros (K & (k & D) & V) w So. pose proof (denotes_size _ _ D) as Sz. pose proof (bytes_std k) as Sw. rewrite <- Sz in Sw. fold w in Sw.
  assert (W0 : 0 <= w) by (unfold std_size in Sw; lia).
  assert (RD : forall s1, (forall r, r <> R11 -> regs s1 r = regs st r) -> sread rbp glob s1 (as_src o) w = Some (src_val st o w)).
  { intros s1 R. destruct o as [z|r]; cbn [as_src sread src_val]; [reflexivity|]. rewrite R; [reflexivity|]. intros ->. exact So. }
  assert (NM : match as_src o with SMem _ => False | _ => True end) by (destruct o; exact Logic.I).
  assert (IMM : imm_ok MOV w (as_src o) true = true).
  { destruct o as [z|r]; cbn [as_src imm_ok]; [|reflexivity]. cbn in So. destruct So as [So | So]; [rewrite (proj2 (Z.ltb_lt w 8) So); reflexivity|rewrite So; rewrite orb_true_r; reflexivity]. }
  assert (SV : src_val st o w mod 2 ^ (8 * w) = src_val st o w).
  { destruct o; cbn [src_val]; apply Z.mod_mod; pose proof (pow2_pos (8 * w) ltac:(lia)); lia. }
  unfold tail. fold w. unfold ArithSpec.place_of. destruct K as [K | K]; rewrite K.
  - destruct V as [(O & Fv & V) | (X & _)]; [|congruence]. rewrite K in V. destruct V as [Is V].
    pose proof (allocated_home rbp glob sym t K) as A. destruct (home (v_sym t)) as [i|a].
    + destruct A as [A _]. rewrite A. eexists; eexists. split; [reflexivity|]. cbn [exec step].
      assert (IMM' : imm_ok MOV w (as_src o) false = true) by (destruct o; cbn; [apply orb_true_r|reflexivity]).
      rewrite IMM', (RD st) by auto. split; [reflexivity|]. split; [eapply frame_incl; [apply frame_setw|intros x [<-|[]]; left; reflexivity]|].
      rewrite setw_same, merge_low by exact Sw. unfold alu_val, bits. rewrite !SV. reflexivity.
    + destruct A as (A & A' & Ha). rewrite A. destruct (is_global_offset sym pic (v_sym t)) eqn:G.
      * rewrite displacement_ok by lia. rewrite (global_extern rbp glob sym pic _ G) in Ha.
        destruct (step_mov8 rbp glob st (SMem (AGot (v_sym t))) R11 (glob (v_sym t) mod 2 ^ 64) eq_refl) as (st1 & E1 & F1 & R1); [apply Z.mod_pos_bound; lia|exact Logic.I|].
        assert (N1 : forall r, r <> R11 -> regs st1 r = regs st r) by (intros r Hr; apply (proj2 F1); cbn; intros [X|[]]; congruence).
        eexists; eexists. split; [reflexivity|]. cbn [exec]. rewrite E1. rewrite (step_store st1 w _ _ (src_val st o w) (a + v_offset t)); auto.
        { split; [reflexivity|]. cbn [mem regs]. rewrite SV, (proj1 F1). auto. }
        cbn [eff]. rewrite R1, Z.add_mod_idemp_l by lia. rewrite <- Ha, Z.mod_small by lia. reflexivity.
      * destruct (location_ok rbp glob sym st t K A' O) as (l & El & Ef & _). rewrite El. rewrite <- Ha in Ef.
        eexists; eexists. split; [reflexivity|]. cbn [exec]. rewrite (step_store st w _ _ (src_val st o w) (a + v_offset t)); auto.
        split; [reflexivity|]. cbn [mem regs]. rewrite SV. auto.
  - destruct V as [(O & Fv & V) | (_ & Is & O & Fd)].
    + rewrite K in V. destruct V as (Is & Ip & Vh & Vc). rewrite Is, Ip. cbn [assert].
      set (p := var_direct sym (v_sym t)).
      assert (Sp : size_of (v_type p) = 8) by (apply pointer_size; exact Ip).
      pose proof (allocated_home rbp glob sym p eq_refl) as A. change (v_sym p) with (v_sym t) in A.
      assert (Pp : place_of st p = Some (home (v_sym t))).
      { unfold ArithSpec.place_of. change (v_kind p) with DIRECT. change (v_sym p) with (v_sym t). change (v_offset p) with 0. destruct (home (v_sym t)); [reflexivity|]. rewrite Z.add_0_r. reflexivity. }
      assert (Vp : Valid st p).
      { split; [cbn; lia|]. split; [cbn; discriminate|]. change (v_kind p) with DIRECT. cbv iota. split; [reflexivity|]. change (v_sym p) with (v_sym t). change (v_offset p) with 0.
        destruct (home (v_sym t)); [auto|]. rewrite Z.add_0_r. exact Vh. }
      destruct (emit_load_ok rbp glob sym pic st p LMov R11 8 _ (or_introl eq_refl) Vp Pp Logic.I (or_intror eq_refl)) as (c & st1 & Ec & E1 & F1 & R1); [right; right; right; reflexivity|reflexivity|].
      unfold load_int. cbn [Z.eqb Pos.eqb orb assert]. change (is_field p) with false. change (v_kind p) with DIRECT. cbv iota. rewrite Sp. cbn [Z.ltb Z.compare Pos.compare Pos.compare_cont]. rewrite Ec.
      rewrite displacement_ok by lia. cbn [ext] in R1. change (8 * 8) with 64 in R1.
      assert (Cb : 0 <= contents st (home (v_sym t)) 8 < 2 ^ 64).
      { destruct (home (v_sym t)); cbn [contents]; [apply Z.mod_pos_bound; lia|apply (rd_bound _ _ 8); lia]. }
      rewrite Z.mod_small in R1 by exact Cb.
      assert (N1 : forall r, r <> R11 -> regs st1 r = regs st r) by (intros r Hr; apply (proj2 F1); cbn; intros [X|[X|[]]]; congruence).
      eexists; eexists. split; [reflexivity|]. rewrite exec_app, E1. cbn [exec]. rewrite (step_store st1 w _ _ (src_val st o w) (contents st (home (v_sym t)) 8 + v_offset t)); auto.
      { split; [reflexivity|]. cbn [mem regs]. rewrite SV, (proj1 F1). auto. }
      cbn [eff]. rewrite R1, Z.mod_small by lia. reflexivity.
    + rewrite Is, O, Z.add_0_r. set (p := mkVar IMMEDIATE _ _ _ _ _ _ _).
      assert (L : exists c st1, load_int sym pic p R11 8 = Some c /\ run c st = Some st1 /\ Frame [R11] st st1 /\ regs st1 R11 = v_imm t mod 2 ^ 64).
      { unfold load_int. cbn [Z.eqb Pos.eqb orb assert]. change (is_field p) with (is_field t). rewrite Fd. change (v_kind p) with IMMEDIATE. cbv iota. unfold emit_load.
        cbn [std Z.eqb Pos.eqb orb assert]. change (v_kind p) with IMMEDIATE. cbv iota. destruct (is_zero p) eqn:Z0.
        - eexists; eexists. split; [reflexivity|]. cbn [exec step imm_ok sread]. split; [reflexivity|]. split; [apply frame_setw|].
          rewrite setw_same, merge_big by (right; reflexivity). unfold alu_val. rewrite Z.lxor_nilpotent.
          assert (I0 : v_imm t = 0). { unfold is_zero in Z0. change (v_imm p) with (v_imm t) in Z0. destruct (type_of (v_type p)); try discriminate; apply Z.eqb_eq, Z0. }
          rewrite I0. reflexivity.
        - unfold value_of. change (v_kind p) with IMMEDIATE. change (v_offset p) with 0. cbn [vkind_eqb Z.eqb andb assert]. eexists; eexists. split; [reflexivity|]. cbn [exec step].
          change (v_imm p) with (v_imm t).
          assert (Im : imm_ok MOV 8 (SImm (v_imm t)) false = true) by (cbn; apply orb_true_r). rewrite Im. cbn [sread]. split; [reflexivity|]. split; [apply frame_setw|].
          rewrite setw_same, merge_big by (right; reflexivity). unfold alu_val, bits. change (8 * 8) with 64. rewrite !Z.mod_mod by lia. reflexivity. }
      destruct L as (c & st1 & Ec & E1 & F1 & R1). rewrite Ec. rewrite displacement_ok by lia.
      assert (N1 : forall r, r <> R11 -> regs st1 r = regs st r) by (intros r Hr; apply (proj2 F1); cbn; intros [X|[]]; congruence).
      eexists; eexists. split; [reflexivity|]. rewrite exec_app, E1. cbn [exec]. rewrite (step_store st1 w _ _ (src_val st o w) (v_imm t mod 2 ^ 64)); auto.
      { split; [reflexivity|]. cbn [mem regs]. rewrite SV, (proj1 F1). auto. }
      cbn [eff]. rewrite R1, Z.add_0_r, Z.mod_mod by lia. reflexivity.
Qed.

(* a target that is not a bit-field *)
Lemma store_plain st o t z : ValidTarget st t -> is_field t = false -> src_ok o (size_of (v_type t)) -> src_val st o (size_of (v_type t)) = z mod 2 ^ (8 * size_of (v_type t)) ->
  exists c st', store_op sym pic o t = Some c /\ run c st = Some st' /\ Assigned st st' t z.
Proof.
  intros V F So E. destruct (tail_ok st o t V So) as (c & st' & Ec & Er & H). exists c, st'. rewrite store_op_eq. unfold field_part. rewrite F, Ec. split; [reflexivity|]. split; [exact Er|].
  unfold ArithSpec.Assigned. destruct (place_of st t) as [[i|a]|]; [| |contradiction].
  - destruct H as [[M R] H]. split; [congruence|]. split; [intro x; rewrite M; reflexivity|]. intros j Hj. apply R. cbn. intros [X|[X|[]]]; congruence.
  - destruct H as [M R]. rewrite F. destruct V as (_ & (k & D) & _). pose proof (bytes_std k) as Sw. rewrite <- (denotes_size _ _ D) in Sw. split.
    + rewrite M, E, rd_wr by (unfold std_size in Sw; lia). apply Z.mod_mod. pose proof (pow2_pos (8 * size_of (v_type t)) ltac:(unfold std_size in Sw; lia)). lia.
    + split; [intros x Hx; rewrite M; apply wr_out; exact Hx|]. intros j _. apply R. discriminate.
Qed.

(* the low bytes of a unit, whatever they mean *)
Lemma load_low st v k p r : (v_kind v = DIRECT \/ v_kind v = DEREF) -> Valid st v -> Denotes (v_type v) k -> is_field v = false -> place_of st v = Some p -> scratch r ->
  exists c st', load sym pic v r = Some c /\ run c st = Some st' /\ Frame [r; R11] st st' /\
    regs st' r mod 2 ^ (8 * size_of (v_type v)) = contents st p (size_of (v_type v)).
Proof.
  intros K V D Fd P Sr. pose proof (denotes_size _ _ D) as Sz. pose proof (bytes_std k) as Sw. rewrite <- Sz in Sw. set (s := size_of (v_type v)) in *.
  assert (P8 : 0 < 2 ^ (8 * s)) by (apply pow2_pos; unfold std_size in Sw; lia).
  assert (Cb : contents st p s mod 2 ^ (8 * s) = contents st p s).
  { apply Z.mod_small. destruct p; cbn [contents]; [apply Z.mod_pos_bound; exact P8|apply rd_bound; unfold std_size in Sw; lia]. }
  assert (L : forall o wd, big wd -> s <= wd -> std_size (match o with LMov => wd | _ => s end) -> loads o (match o with LMov => wd | _ => s end) wd -> (o = LMov -> wd = s) ->
    exists c st', emit_load sym pic o v r wd = Some c /\ run c st = Some st' /\ Frame [r; R11] st st' /\ regs st' r mod 2 ^ (8 * s) = contents st p s).
  { intros o wd B Le So Lo Mo. destruct (emit_load_ok rbp glob sym pic st v o r wd p K V P Sr B So Lo) as (c & st' & Ec & Er & F & R). exists c, st'. do 3 (split; [assumption|]). rewrite R.
    rewrite mod_low by (unfold std_size in Sw; lia). destruct o; cbn [ext]; fold s.
    - rewrite (Mo eq_refl). exact Cb.
    - exact Cb.
    - unfold to_signed. rewrite Cb. destruct (_ <=? _); [|exact Cb]. replace (contents st p s - 2 ^ (8 * s)) with (contents st p s + (-1) * 2 ^ (8 * s)) by lia.
      rewrite Z.mod_add by lia. exact Cb.
    - exact Cb. }
  unfold load, load_int. fold s.
  assert (Aw : (Z.max 4 s =? 4) || (Z.max 4 s =? 8) = true) by (destruct Sw as [-> | [-> | [-> | ->]]]; reflexivity). rewrite Aw, Fd. cbn [assert].
  assert (G : match v_kind v with DIRECT | DEREF => True | _ => False end) by (destruct K as [-> | ->]; exact Logic.I).
  assert (Sm : s < 4 -> is_unsigned (v_type v) = negb (signed k) /\ is_signed (v_type v) = signed k).
  { intro X. split; [|apply (denotes_is_signed _ _ D)]. apply (denotes_is_unsigned _ _ D). apply (denotes_small _ _ D). rewrite <- Sz. lia. }
  assert (Big : big (Z.max 4 s)) by (unfold big; destruct Sw as [-> | [-> | [-> | ->]]]; cbn; lia).
  enough (E : exists c st', (if s <? Z.max 4 s then if is_unsigned (v_type v) then if s <? 4 then emit_load sym pic LMovzx v r (Z.max 4 s) else if (s =? 4) && (Z.max 4 s =? 8) then emit_load sym pic LMov v r 4 else None
     else if is_signed (v_type v) then emit_load sym pic LMovsx v r (Z.max 4 s) else None
     else if Z.max 4 s <? s then do _ <- assert (s =? 8); emit_load sym pic LMov (with_type v basic_type__int) r (Z.max 4 s) else emit_load sym pic LMov v r (Z.max 4 s)) = Some c /\ run c st = Some st' /\ Frame [r; R11] st st' /\ regs st' r mod 2 ^ (8 * s) = contents st p s).
  { destruct (v_kind v); try contradiction; exact E. }
  destruct (Z.ltb_spec s (Z.max 4 s)) as [Lt | Ge].
  - assert (Lt4 : s < 4) by lia. destruct (Sm Lt4) as [-> ->]. rewrite (proj2 (Z.ltb_lt s 4) Lt4).
    destruct (signed k); cbn [negb]; apply L; cbn; auto; lia || discriminate.
  - rewrite (proj2 (Z.ltb_ge (Z.max 4 s) s)) by lia. apply L; cbn; auto; [lia|apply big_std, Big|intros _; lia].
Qed.

(* alu instructions with a register or a constant *)
Lemma op_reg_ok st o w s r : std_size w -> r <> s ->
  exists st', run [Op o w (SReg s) r] st = Some st' /\ Frame [r] st st' /\ regs st' r mod 2 ^ (8 * w) = alu_val o w (regs st r mod 2 ^ (8 * w)) (regs st s mod 2 ^ (8 * w)).
Proof.
  intros Sw N. cbn [exec step imm_ok sread]. eexists. split; [reflexivity|]. split; [apply frame_setw|]. rewrite setw_same, merge_low by exact Sw.
  unfold alu_val, bits. rewrite Z.mod_mod; [reflexivity|]. pose proof (pow2_pos (8 * w) ltac:(unfold std_size in Sw; lia)). lia.
Qed.
Lemma bitwise_ok st o i w r : (o = AND \/ o = OR) -> std_size w -> r <> R11 ->
  exists c st', bitwise_imm_reg o i w r = Some c /\ run c st = Some st' /\ Frame [r; R11] st st' /\
    regs st' r mod 2 ^ (8 * w) = alu_val o w (regs st r mod 2 ^ (8 * w)) (i mod 2 ^ (8 * w)).
Proof.
  intros Ho Sw Nr. unfold bitwise_imm_reg. assert (E : reg_eqb r R11 = false). { destruct (reg_eqb r R11) eqn:E; [apply reg_eqb_spec in E; congruence|reflexivity]. }
  rewrite E. cbn [negb assert]. pose proof (pow2_pos (8 * w) ltac:(unfold std_size in Sw; lia)) as P.
  destruct ((w =? 8) && negb (is_int32 i)) eqn:C.
  - apply andb_true_iff in C. destruct C as [C _]. apply Z.eqb_eq in C. subst w. set (st1 := setw st 8 R11 (alu_val MOV 8 (regs st R11 mod 2 ^ bits 8) (i mod 2 ^ bits 8))).
    assert (R1 : regs st1 R11 mod 2 ^ (8 * 8) = i mod 2 ^ (8 * 8)).
    { subst st1. rewrite setw_same, merge_low by exact Sw. unfold alu_val, bits. rewrite !Z.mod_mod by lia. reflexivity. }
    destruct (op_reg_ok st1 o 8 R11 r Sw Nr) as (st' & E2 & F2 & R2). exists [Op MOV 8 (SImm i) R11; Op o 8 (SReg R11) r], st'. split; [reflexivity|].
    split. { cbn [exec step]. assert (Im : imm_ok MOV 8 (SImm i) false = true) by (cbn; apply orb_true_r). rewrite Im. cbn [sread]. fold st1. exact E2. }
    split. { eapply frame_trans; [apply frame_setw|exact F2| |]; intros x [<-|[]]; cbn; auto. }
    rewrite R2, R1. subst st1. rewrite setw_other by exact Nr. reflexivity.
  - eexists; eexists. split; [reflexivity|]. cbn [exec step].
    assert (Im : imm_ok o w (SImm i) false = true).
    { unfold imm_ok. destruct (Z.ltb_spec w 8); [reflexivity|]. replace w with 8 in C by (unfold std_size in Sw; lia). cbn in C. destruct (is_int32 i); [reflexivity|discriminate]. }
    rewrite Im. cbn [sread]. split; [reflexivity|]. split; [eapply frame_incl; [apply frame_setw|intros x [<-|[]]; left; reflexivity]|].
    rewrite setw_same, merge_low by exact Sw. unfold alu_val, bits. rewrite Z.mod_mod by lia. reflexivity.
Qed.

Definition dry (t : var) : var := mkVar (v_kind t) 0 0 (v_is_symbol t) (v_type t) (v_offset t) (v_sym t) (v_imm t).
Lemma dry_valid st t : Valid st t -> is_field t = true -> (v_kind t = DIRECT \/ v_kind t = DEREF) -> Valid st (dry t).
Proof.
  intros (O & Fv & V) Fd K. split; [exact O|]. split; [cbn; discriminate|]. cbn [dry v_kind v_is_symbol v_offset v_sym]. destruct K as [K | K]; rewrite K in *; [|exact V].
  destruct V as [A B]. split; [exact A|]. destruct (home (v_sym t)); [destruct B; split; [assumption|reflexivity]|exact B].
Qed.

(* a bit-field; the source register is lost *)
Lemma store_field st o t z : ValidTarget st t -> is_field t = true ->
  match o with OImm i => forall n, 0 < n <= 64 -> i mod 2 ^ n = z mod 2 ^ n | OReg r => (r = AX \/ r = DX) /\ regs st r mod 2 ^ (8 * size_of (v_type t)) = z mod 2 ^ (8 * size_of (v_type t)) end ->
  exists c st', store_op sym pic o t = Some c /\ run c st = Some st' /\ Assigned st st' t z.
Proof.
  intros V0 Fd Ho. pose proof V0 as (K & (k & D) & V). destruct V as [V | (_ & _ & _ & X)]; [|congruence].
  pose proof (denotes_size _ _ D) as Sz. pose proof (bytes_std k) as Sw. rewrite <- Sz in Sw. set (w := size_of (v_type t)) in *.
  pose proof V as (O & Fv & V'). destruct (Fv Fd) as (Wd & Fo & Fe). fold w in Fe.
  assert (W0 : 0 < 8 * w <= 64) by (unfold std_size in Sw; lia). assert (P8 : 0 < 2 ^ (8 * w)) by (apply pow2_pos; lia).
  assert (Pl : exists a, place_of st t = Some (InMem a)).
  { unfold ArithSpec.place_of. destruct K as [K | K]; rewrite K in *; [|eauto]. destruct (home (v_sym t)); [destruct V' as (_ & _ & Y); congruence|eauto]. }
  destruct Pl as (a & Pl).
  destruct (load_low st (dry t) k (InMem a) CX K (dry_valid st t V Fd K) D eq_refl Pl Logic.I) as (c & st1 & Ec & E1 & F1 & R1). cbn [dry v_type contents] in R1. fold w in R1.
  set (mask := sext 64 (field_mask (v_width t) (v_foff t))).
  destruct (bitwise_ok st1 AND (Z.lnot mask) w CX (or_introl eq_refl) Sw ltac:(discriminate)) as (c1 & st2 & Ec1 & E2 & F2 & R2).
  assert (CL : regs st2 CX mod 2 ^ (8 * w) = cleared (8 * w) (v_width t) (v_foff t) (rd (mem st) a 8)).
  { rewrite R2, R1. unfold alu_val, cleared, bits. unfold mask. rewrite lnot_sext_low by exact W0. rewrite (rd_prefix _ a w 8) by lia.
    apply Z.mod_small. apply land_bound; [lia|]. apply Z.mod_pos_bound. exact P8. }
  assert (F12 : Frame [CX; R11] st st2) by (eapply frame_trans; [exact F1|exact F2| |]; apply incl_refl).
  (* the end: the value is in r *)
  assert (FIN : forall cc r st3, r <> R11 -> field_part o t = Some (OReg r, cc) -> run cc st = Some st3 -> Quiet st st3 ->
    (exists m, Mem m = Mem (store_bits (8 * w) (regs st3 r mod 2 ^ (8 * w)) (rd (mem st) a 8)) /\ updated (v_width t) (v_foff t) z (rd (mem st) a 8) m) ->
    exists c st', store_op sym pic o t = Some c /\ run c st = Some st' /\ Assigned st st' t z).
  { intros cc r st3 Nr Ef Er Q (m & Em0 & U). assert (Em : m = store_bits (8 * w) (regs st3 r mod 2 ^ (8 * w)) (rd (mem st) a 8)) by congruence. assert (So : src_ok (OReg r) (size_of (v_type t))) by (cbn; destruct r; auto).
    destruct (tail_ok st3 (OReg r) t (quiet_target _ _ _ Q V0) So) as (c' & st' & Et & Er' & H). rewrite (quiet_place st st3) in H by exact Q. rewrite Pl in H. destruct H as [M R].
    exists (cc ++ c'), st'. rewrite store_op_eq, Ef, Et. split; [reflexivity|]. rewrite exec_app, Er. split; [exact Er'|].
    unfold ArithSpec.Assigned. rewrite Pl, Fd. cbn [src_val] in M. fold w in M. rewrite M, (proj1 Q). split; [|split].
    - rewrite rd_wr8 by lia. rewrite <- Em. split; [intro s0; apply (updated_held s0 _ _ z (rd (mem st) a 8)); auto; lia|].
      intros i Hi Hr. rewrite U by exact Hi. destruct (Z.leb_spec (v_foff t) i), (Z.ltb_spec i (v_foff t + v_width t)); cbn [andb]; try reflexivity; lia.
    - intros x Hx. apply wr_out. exact Hx.
    - intros j _. rewrite R by discriminate. apply quiet_tmp. exact Q. }
  assert (A1 : (0 <? v_width t) && (v_width t <? 64) = true) by (rewrite (proj2 (Z.ltb_lt 0 _)), (proj2 (Z.ltb_lt _ 64)) by lia; reflexivity).
  assert (MM : mask mod 2 ^ (8 * w) = field_mask (v_width t) (v_foff t) mod 2 ^ (8 * w)) by (unfold mask; apply sext_low; exact W0).
  destruct o as [i | r].
  - set (m := Z.land (sext 64 (Z.shiftl i (v_foff t))) mask).
    assert (Em : m = sext 64 (Z.land (Z.shiftl i (v_foff t)) (field_mask (v_width t) (v_foff t)))) by apply sext_land.
    destruct (store_imm_ok w (v_width t) (v_foff t) (rd (mem st) a 8) i Sw Wd Fo Fe) as (m1 & Es & U).
    assert (U' : updated (v_width t) (v_foff t) z (rd (mem st) a 8) m1).
    { intros j Hj. rewrite U by exact Hj. destruct (Z.leb_spec (v_foff t) j), (Z.ltb_spec j (v_foff t + v_width t)); cbn [andb]; try reflexivity.
      rewrite <- (Z.mod_pow2_bits_low i (v_width t)), <- (Z.mod_pow2_bits_low z (v_width t)) by lia. rewrite Ho by lia. reflexivity. }
    unfold store_imm in Es. rewrite A1 in Es. cbn [negb] in Es.
    assert (ST : exists c2 st3, (if m =? 0 then Some [] else bitwise_imm_reg OR m w CX) = Some c2 /\ run c2 st2 = Some st3 /\ Frame [CX; R11] st2 st3 /\
      regs st3 CX mod 2 ^ (8 * w) = if negb (Z.land (Z.shiftl i (v_foff t)) (field_mask (v_width t) (v_foff t)) =? 0) then
         Z.lor (cleared (8 * w) (v_width t) (v_foff t) (rd (mem st) a 8)) (Z.land (Z.shiftl i (v_foff t)) (field_mask (v_width t) (v_foff t)) mod 2 ^ (8 * w)) else cleared (8 * w) (v_width t) (v_foff t) (rd (mem st) a 8)).
    { assert (Z0 : (m =? 0) = (Z.land (Z.shiftl i (v_foff t)) (field_mask (v_width t) (v_foff t)) =? 0)).
      { set (x := Z.land (Z.shiftl i (v_foff t)) (field_mask (v_width t) (v_foff t))) in *. assert (X : 0 <= x < 2 ^ 64).
        { unfold x. rewrite Z.land_comm. apply land_bound; [lia|]. unfold field_mask. rewrite Z.shiftl_mul_pow2, Z.ones_equiv by lia.
          assert (2 ^ (v_width t) * 2 ^ (v_foff t) <= 2 ^ 64) by (rewrite <- Z.pow_add_r by lia; apply Z.pow_le_mono_r; lia).
          pose proof (pow2_pos (v_width t) ltac:(lia)). pose proof (pow2_pos (v_foff t) ltac:(lia)). nia. }
        rewrite Em. destruct (Z.eqb_spec x 0) as [->|N]; [reflexivity|]. apply Z.eqb_neq. intro Y. pose proof (sext_low 64 x ltac:(lia)) as Q. rewrite Y in Q. rewrite Z.mod_small in Q by lia. rewrite Z.mod_small in Q by lia. congruence. }
      rewrite Z0. destruct (_ =? 0); cbn [negb].
      - exists [], st2. split; [reflexivity|]. split; [reflexivity|]. split; [apply frame_refl|exact CL].
      - destruct (bitwise_ok st2 OR m w CX (or_intror eq_refl) Sw ltac:(discriminate)) as (c2 & st3 & Ec2 & E3 & F3 & R3). exists c2, st3. do 3 (split; [assumption|]).
        rewrite R3, CL, Em. rewrite sext_low by exact W0. unfold alu_val, bits. rewrite lor_low by lia. rewrite Z.mod_mod by lia. f_equal.
        apply Z.mod_small. unfold cleared. apply land_bound; [lia|]. apply Z.mod_pos_bound. exact P8. }
    destruct ST as (c2 & st3 & Ec2 & E3 & F3 & R3).
    apply (FIN (c ++ c1 ++ c2) CX st3); [discriminate| | | |].
    + unfold field_part. rewrite Fd, A1. cbn [assert]. fold (dry t) w. rewrite Ec. fold mask. rewrite Ec1. fold m. rewrite Ec2. reflexivity.
    + rewrite exec_app, E1, exec_app, E2. exact E3.
    + apply frame_quiet with (rs := [CX; R11]); [eapply frame_trans; [exact F12|exact F3| |]; apply incl_refl|]. repeat constructor.
    + exists m1. split; [|exact U']. rewrite R3. symmetry. exact Es.
  - destruct Ho as [Hr Ho].
    destruct (store_reg_ok w (v_width t) (v_foff t) (rd (mem st) a 8) z Sw Wd Fo Fe) as (m1 & Es & U). unfold store_reg in Es. rewrite A1 in Es. cbn [negb] in Es.
    assert (R2' : regs st2 r mod 2 ^ (8 * w) = z mod 2 ^ (8 * w)) by (rewrite (proj2 F12); [exact Ho|destruct Hr as [-> | ->]; cbn; intros [X|[X|[]]]; discriminate]).
    set (x := if negb (v_foff t =? 0) then shl (8 * w) (z mod 2 ^ (8 * w)) (v_foff t) else z mod 2 ^ (8 * w)) in Es.
    assert (Xb : 0 <= x < 2 ^ (8 * w)) by (unfold x; destruct (v_foff t =? 0); cbn [negb]; unfold shl; apply Z.mod_pos_bound; exact P8).
    assert (ST : exists st3, run (if v_foff t =? 0 then [] else [Shift SHL w (SImm (v_foff t)) r]) st2 = Some st3 /\ Frame [r] st2 st3 /\ regs st3 r mod 2 ^ (8 * w) = x).
    { unfold x. destruct (v_foff t =? 0); cbn [negb].
      - exists st2. split; [reflexivity|]. split; [apply frame_refl|exact R2'].
      - cbn [exec step]. eexists. split; [reflexivity|]. split; [apply frame_setw|]. rewrite setw_same, merge_low by exact Sw. cbn [shift_val]. unfold bits. rewrite R2'.
        unfold shl. apply Z.mod_mod. lia. }
    destruct ST as (st3 & E3 & F3 & R3).
    assert (Nr : r <> R11) by (destruct Hr as [-> | ->]; discriminate). assert (Ncx : r <> CX) by (destruct Hr as [-> | ->]; discriminate).
    destruct (bitwise_ok st3 AND mask w r (or_introl eq_refl) Sw Nr) as (c3 & st4 & Ec3 & E4 & F4 & R4).
    destruct (op_reg_ok st4 OR w CX r Sw Ncx) as (st5 & E5 & F5 & R5).
    assert (CX4 : regs st4 CX = regs st2 CX).
    { rewrite (proj2 F4), (proj2 F3); [reflexivity| |]; cbn; intros [X|H]; try congruence; try destruct H as [X|[]]; try discriminate X; contradiction. }
    apply (FIN (c ++ c1 ++ (if v_foff t =? 0 then [] else [Shift SHL w (SImm (v_foff t)) r]) ++ c3 ++ [Op OR w (SReg CX) r]) r st5 Nr).
    + unfold field_part. rewrite Fd, A1. cbn [assert]. fold (dry t) w. rewrite Ec. fold mask. rewrite Ec1, Ec3. reflexivity.
    + rewrite exec_app, E1, exec_app, E2, exec_app, E3, exec_app, E4. exact E5.
    + apply frame_quiet with (rs := [CX; R11; r]).
      * eapply frame_trans; [exact F12| |intros y [<-|[<-|[]]]; cbn; auto|apply incl_refl].
        eapply frame_trans; [exact F3| |intros y [<-|[]]; cbn; auto|apply incl_refl]. eapply frame_trans; [exact F4|exact F5| |]; [intros y [<-|[<-|[]]]|intros y [<-|[]]]; cbn; auto.
      * destruct Hr as [-> | ->]; repeat constructor.
    + exists m1. split; [|exact U]. rewrite R5, R4, R3, CX4, CL, MM. symmetry. rewrite <- Es. f_equal. f_equal. unfold alu_val, bits.
      rewrite (Z.mod_small (Z.land x _)) by (apply land_bound; [lia|exact Xb]). rewrite Z.lor_comm. apply Z.mod_small.
      assert (B1 : 0 <= Z.land x (field_mask (v_width t) (v_foff t) mod 2 ^ (8 * w)) < 2 ^ (8 * w)) by (apply land_bound; [lia|exact Xb]).
      assert (B2 : 0 <= cleared (8 * w) (v_width t) (v_foff t) (rd (mem st) a 8) < 2 ^ (8 * w)) by (unfold cleared; apply land_bound; [lia|apply Z.mod_pos_bound; exact P8]).
      rewrite <- (Z.mod_small _ _ B1), <- (Z.mod_small _ _ B2), <- lor_low by lia. apply Z.mod_pos_bound. exact P8.
Qed.

(* from AX or DX *)
Lemma store_ok st r t z : ValidTarget st t -> (r = AX \/ r = DX) -> regs st r mod 2 ^ (8 * size_of (v_type t)) = z mod 2 ^ (8 * size_of (v_type t)) ->
  exists c st', store sym pic r t = Some c /\ run c st = Some st' /\ Assigned st st' t z.
Proof.
  intros V Hr E. unfold store. destruct (is_field t) eqn:Fd; [apply store_field; auto|]. apply store_plain; auto. destruct Hr as [-> | ->]; exact Logic.I.
Qed.
End Store.
