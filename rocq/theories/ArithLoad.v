(* Loads of operands to registers do what they should. *)
From Coq Require Import List ZArith Lia Bool.
From Verif Require Import TypeModel TypeSpec EvalModel EvalSpec EvalProofs LayoutModel FieldModel FieldSpec FieldProofs ArithModel ArithSpec ArithMach.
Import ListNotations.
Open Scope Z_scope.

Definition bytes (k : ikind) : Z := match k with Bool_ | SChar | UChar => 1 | Short | UShort => 2 | Int | UInt => 4 | Long | ULong => 8 end.
Lemma denotes_size t k : Denotes t k -> size_of t = bytes k.
Proof.
  intros [[P D] | [P ->]]; unfold size_of, type_of; rewrite P; [|reflexivity].
  destruct k; [rewrite D|destruct D as [-> _]..]; reflexivity.
Qed.
Lemma bytes_std k : std_size (bytes k). Proof. unfold std_size. destruct k; cbn; tauto. Qed.
Lemma denotes_is_signed t k : Denotes t k -> is_signed t = signed k.
Proof. intros [H | [P ->]]; [apply (denotes_signed _ _ H)|]. unfold is_signed, is_integer, between, type_of. rewrite P. cbn. apply andb_false_r. Qed.
Lemma denotes_is_unsigned t k : Denotes t k -> is_pointer t = false -> is_unsigned t = negb (signed k).
Proof. intros [H | [P ->]] X; [apply (denotes_signed _ _ H)|]. unfold is_pointer, type_of in X. rewrite P in X. discriminate. Qed.
Lemma denotes_int_or_ptr t k : Denotes t k -> is_integer t || is_pointer t = true.
Proof. intros [H | [P ->]]; [rewrite (proj2 (proj2 (denotes_signed _ _ H))); reflexivity|]. unfold is_pointer, type_of. rewrite P. apply orb_true_r. Qed.
Lemma denotes_small t k : Denotes t k -> bytes k < 8 -> is_pointer t = false.
Proof.
  intros [[P D] | [P ->]] B; [|cbn in B; lia]. unfold is_pointer, type_of. rewrite P.
  destruct k; [rewrite D|destruct D as [-> _]..]; reflexivity.
Qed.
Lemma pointer_size t : is_pointer t = true -> size_of t = 8.
Proof. unfold is_pointer, size_of. destruct (type_of t); cbn; intro; try discriminate; reflexivity. Qed.
Lemma pointer_unsigned t : is_pointer t = true -> is_field (mkVar DIRECT 0 0 true t 0 0 0) = false. Proof. reflexivity. Qed.

(* a value of kind k from the bytes of its object *)
Lemma unsigned_value k z : signed k = false -> in_range k z -> z mod 2 ^ (8 * bytes k) = z.
Proof.
  intros S [L H]. apply Z.mod_small. unfold lo in L. unfold hi in H. rewrite S in *.
  assert (2 ^ width k <= 2 ^ (8 * bytes k)) by (apply Z.pow_le_mono_r; [lia|destruct k; cbn; lia]). lia.
Qed.
Lemma signed_width k : signed k = true -> width k = 8 * bytes k. Proof. destruct k; try discriminate; reflexivity. Qed.
Lemma signed_value k z : signed k = true -> in_range k z -> to_signed (8 * bytes k) (z mod 2 ^ (8 * bytes k)) = z.
Proof.
  intros S [L H]. unfold lo in L. unfold hi in H. rewrite S in *. rewrite (signed_width k S) in *.
  rewrite to_signed_reduce, reduce_mod by (destruct k; cbn; lia). apply reduce_id; [destruct k; cbn; lia|lia].
Qed.

Section Load.
Variables (rbp : Z) (glob : nat -> Z) (sym : nat -> symbol) (pic : bool).
Notation run := (exec rbp glob).
Notation home := (home rbp glob sym).
Notation symbol_address := (symbol_address rbp glob sym).
Notation place_of := (place_of rbp glob sym).
Notation Valid := (Valid rbp glob sym).
Notation HasValue := (HasValue rbp glob sym).
Notation emit_load := (emit_load sym pic).

(* scratch registers *)
Definition scratch (r : reg) : Prop := match r with Tmp _ => False | _ => True end.

Lemma allocated_home v : v_kind v = DIRECT ->
  match home (v_sym v) with
  | InReg i => allocated_register sym v = Some (Tmp i) /\ is_register_allocated sym v = true
  | InMem a => allocated_register sym v = None /\ is_register_allocated sym v = false /\ a = symbol_address (v_sym v)
  end.
Proof.
  intro K. unfold ArithSpec.home, allocated_register, is_register_allocated. rewrite K. cbn [vkind_eqb andb].
  destruct (s_temporary (sym (v_sym v)) && negb (Nat.eqb (s_slot (sym (v_sym v))) 0)); auto.
Qed.
Lemma displacement_ok d : d <= 2 ^ 31 - 1 -> displacement d = Some d.
Proof. intro H. unfold displacement. rewrite (proj2 (Z.leb_le _ _)) by lia. reflexivity. Qed.
Lemma address_ok st v : (v_kind v = DIRECT \/ v_kind v = ADDRESS) -> 0 <= v_offset v <= 2 ^ 31 - 1 ->
  exists a, address_of sym v = Some a /\ eff rbp glob st a = Some (symbol_address (v_sym v) + v_offset v) /\
    (forall w, mread rbp glob st a w = Some (rd (mem st) (symbol_address (v_sym v) + v_offset v) w)).
Proof.
  intros K O. unfold address_of. rewrite (displacement_ok _ (proj2 O)).
  replace (vkind_eqb (v_kind v) DIRECT || vkind_eqb (v_kind v) ADDRESS) with true by (destruct K as [-> | ->]; reflexivity).
  cbn [assert]. unfold ArithSpec.symbol_address. destruct (s_linkage (sym (v_sym v))); eexists; (split; [reflexivity|]); cbn [eff mread]; split; intros; auto;
  replace (rbp + (v_offset v + s_stack (sym (v_sym v)))) with (rbp + s_stack (sym (v_sym v)) + v_offset v) by lia; reflexivity.
Qed.
Lemma location_ok st v : v_kind v = DIRECT -> is_register_allocated sym v = false -> 0 <= v_offset v <= 2 ^ 31 - 1 ->
  exists a, location_of sym v = Some a /\ eff rbp glob st a = Some (symbol_address (v_sym v) + v_offset v) /\
    (forall w, mread rbp glob st a w = Some (rd (mem st) (symbol_address (v_sym v) + v_offset v) w)).
Proof. intros K R O. unfold location_of. rewrite R. cbn [negb assert]. apply address_ok; auto. Qed.
Lemma global_extern s : is_global_offset sym pic s = true -> symbol_address s = glob s.
Proof. unfold is_global_offset, ArithSpec.symbol_address. destruct pic, (s_linkage (sym s)); intro; try discriminate; reflexivity. Qed.

(* the effect of a load instruction on what it reads *)
Definition ext (o : lop) (w x : Z) : Z := match o with LMovsx => to_signed (8 * w) x | _ => x end.
Definition loads (o : lop) (w wd : Z) : Prop := match o with LMov => w = wd | LLea => False | _ => True end.
Lemma step_ld st o w wd s d x : loads o w wd -> big wd -> sread rbp glob st s w = Some x -> 0 <= x < 2 ^ (8 * w) -> (match s with SImm _ => False | _ => True end) ->
  exists st', step rbp glob st (ld o w wd s d) = Some st' /\ Frame [d] st st' /\ regs st' d = ext o w x mod 2 ^ (8 * wd).
Proof.
  intros Lo B E X S. destruct o; cbn [loads] in Lo; [| | |contradiction].
  - subst wd. cbn [ld step ext]. unfold imm_ok. destruct s; [|contradiction|]; rewrite E; (eexists; split; [reflexivity|]; split; [apply frame_setw|]);
    rewrite setw_same, merge_big by assumption; unfold alu_val, bits; apply Z.mod_mod; pose proof (pow2_pos (8 * w) ltac:(destruct B; lia)); lia.
  - cbn [ld step ext]. rewrite E. eexists. split; [reflexivity|]. split; [apply frame_setw|]. rewrite setw_same, merge_big by assumption. reflexivity.
  - cbn [ld step ext]. rewrite E. eexists. split; [reflexivity|]. split; [apply frame_setw|]. rewrite setw_same, merge_big by assumption. reflexivity.
Qed.
Lemma reg_read_bound st r w : 0 <= w -> 0 <= regs st r mod 2 ^ bits w < 2 ^ (8 * w).
Proof. intro H. apply Z.mod_pos_bound, pow2_pos. lia. Qed.

(* a load of 8 bytes to a register *)
Lemma step_mov8 st s d x : sread rbp glob st s 8 = Some x -> 0 <= x < 2 ^ 64 -> (match s with SImm _ => False | _ => True end) ->
  exists st', step rbp glob st (Op MOV 8 s d) = Some st' /\ Frame [d] st st' /\ regs st' d = x.
Proof.
  intros E X S. destruct (step_ld st LMov 8 8 s d x eq_refl (or_intror eq_refl) E X S) as (st' & E' & F & R).
  exists st'. split; [exact E'|]. split; [exact F|]. rewrite R. cbn [ext]. apply Z.mod_small. exact X.
Qed.

Lemma emit_load_ok st v o d wd p : (v_kind v = DIRECT \/ v_kind v = DEREF) -> Valid st v -> place_of st v = Some p -> scratch d -> big wd ->
  let w := match o with LMov => wd | _ => size_of (v_type v) end in
  std_size w -> loads o w wd ->
  exists c st', emit_load o v d wd = Some c /\ run c st = Some st' /\ Frame [d; R11] st st' /\
    regs st' d = ext o w (contents st p w) mod 2 ^ (8 * wd).
Proof.
  intros K V P Sd B w Sw Lo. unfold ArithModel.emit_load. fold w. rewrite (proj1 (std_size_std w) Sw). cbn [assert].
  assert (W0 : 0 <= w) by (unfold std_size in Sw; lia).
  destruct V as (O & _ & V). unfold ArithSpec.place_of in P. destruct K as [K | K]; rewrite K in *.
  - destruct V as [Is V]. injection P as <-. pose proof (allocated_home v K) as A. destruct (home (v_sym v)) as [i|a].
    + destruct A as [A _]. rewrite A.
      destruct (step_ld st o w wd (SReg (Tmp i)) d (regs st (Tmp i) mod 2 ^ bits w) Lo B eq_refl (reg_read_bound _ _ _ W0) Logic.I) as (st' & E & F & R).
      eexists; exists st'. split; [reflexivity|]. cbn [exec]. rewrite E. split; [reflexivity|]. split; [eapply frame_incl; [exact F|intros x [<-|[]]; left; reflexivity]|exact R].
    + destruct A as (A & A' & Ha). rewrite A. destruct (is_global_offset sym pic (v_sym v)) eqn:G.
      * rewrite displacement_ok by lia. rewrite (global_extern _ G) in Ha.
        destruct (step_mov8 st (SMem (AGot (v_sym v))) d (glob (v_sym v) mod 2 ^ 64) eq_refl) as (st1 & E1 & F1 & R1); [apply Z.mod_pos_bound; lia|exact Logic.I|].
        assert (EA : (regs st1 d + v_offset v) mod 2 ^ 64 = a + v_offset v).
        { rewrite R1. rewrite Z.add_mod_idemp_l by lia. rewrite <- Ha. apply Z.mod_small. lia. }
        destruct (step_ld st1 o w wd (SMem (AReg d (v_offset v))) d (rd (mem st) (a + v_offset v) w) Lo B) as (st' & E & F & R).
        { cbn [sread mread eff]. rewrite EA, (proj1 F1). reflexivity. } { apply rd_bound; lia. } { exact Logic.I. }
        eexists; exists st'. split; [reflexivity|]. cbn [exec]. rewrite E1, E. split; [reflexivity|].
        split; [|exact R]. eapply frame_trans; [exact F1|exact F| |]; intros x [<-|[]]; left; reflexivity.
      * destruct (location_ok st v K A' O) as (l & El & _ & Rl). rewrite El. rewrite <- Ha in Rl.
        destruct (step_ld st o w wd (SMem l) d (rd (mem st) (a + v_offset v) w) Lo B) as (st' & E & F & R).
        { apply Rl. } { apply rd_bound; lia. } { exact Logic.I. }
        eexists; exists st'. split; [reflexivity|]. cbn [exec]. rewrite E. split; [reflexivity|].
        split; [eapply frame_incl; [exact F|intros x [<-|[]]; left; reflexivity]|exact R].
  - destruct V as (Is & Ip & V & Vc). rewrite Is in *. cbn [assert]. unfold var_direct at 1. cbn [v_type]. rewrite Ip. cbn [assert].
    rewrite displacement_ok by lia. injection P as <-.
    pose proof (allocated_home (var_direct sym (v_sym v)) eq_refl) as A. cbn [v_sym var_direct] in A.
    set (q := contents st (home (v_sym v)) 8) in *. destruct (home (v_sym v)) as [i|a] eqn:Hh.
    + destruct A as [A _]. fold (var_direct sym (v_sym v)) in A. rewrite A.
      assert (EA : (regs st (Tmp i) + v_offset v) mod 2 ^ 64 = q + v_offset v).
      { unfold q, contents. change (8 * 8) with 64. rewrite <- (Z.mod_small (_ mod _ + _) (2 ^ 64)); [rewrite Z.add_mod_idemp_l by lia; reflexivity|].
        unfold q, contents in Vc. change (8 * 8) with 64 in Vc. pose proof (Z.mod_pos_bound (regs st (Tmp i)) (2 ^ 64) ltac:(lia)). lia. }
      destruct (step_ld st o w wd (SMem (AReg (Tmp i) (v_offset v))) d (rd (mem st) (q + v_offset v) w) Lo B) as (st' & E & F & R).
      { cbn [sread mread eff]. rewrite EA. reflexivity. } { apply rd_bound; lia. } { exact Logic.I. }
      eexists; exists st'. split; [reflexivity|]. cbn [exec]. rewrite E. split; [reflexivity|].
      split; [eapply frame_incl; [exact F|intros x [<-|[]]; left; reflexivity]|exact R].
    + destruct A as (A & A' & Ha). fold (var_direct sym (v_sym v)) in A, A'. rewrite A. unfold q, contents in *.
      pose proof (rd_bound (mem st) a 8 ltac:(lia)) as Bq. change (2 ^ (8 * 8)) with (2 ^ 64) in Bq.
      destruct (is_global_offset sym pic (v_sym v)) eqn:G.
      * rewrite (global_extern _ G) in Ha.
        destruct (step_mov8 st (SMem (AGot (v_sym v))) d (glob (v_sym v) mod 2 ^ 64) eq_refl) as (st1 & E1 & F1 & R1); [apply Z.mod_pos_bound; lia|exact Logic.I|].
        destruct (step_mov8 st1 (SMem (AReg d 0)) d (rd (mem st) a 8)) as (st2 & E2 & F2 & R2).
        { cbn [sread mread eff]. rewrite R1, Z.add_0_r, Z.mod_mod by lia. rewrite <- Ha, Z.mod_small by lia. rewrite (proj1 F1). reflexivity. }
        { exact Bq. } { exact Logic.I. }
        destruct (step_ld st2 o w wd (SMem (AReg d (v_offset v))) d (rd (mem st) (rd (mem st) a 8 + v_offset v) w) Lo B) as (st' & E & F & R).
        { cbn [sread mread eff]. rewrite R2, Z.mod_small by lia. rewrite (proj1 F2), (proj1 F1). reflexivity. } { apply rd_bound; lia. } { exact Logic.I. }
        eexists; exists st'. split; [reflexivity|]. cbn [exec]. rewrite E1, E2, E. split; [reflexivity|]. split; [|exact R].
        eapply frame_trans; [eapply frame_trans; [exact F1|exact F2|apply incl_refl|apply incl_refl]|exact F| |]; intros x [<-|[]]; left; reflexivity.
      * destruct (location_ok st (var_direct sym (v_sym v)) eq_refl A') as (l & El & _ & Rl); [cbn; lia|]. rewrite El. cbn [v_sym v_offset var_direct] in Rl. rewrite <- Ha, Z.add_0_r in Rl.
        destruct (step_mov8 st (SMem l) R11 (rd (mem st) a 8) (Rl 8) Bq Logic.I) as (st1 & E1 & F1 & R1).
        destruct (step_ld st1 o w wd (SMem (AReg R11 (v_offset v))) d (rd (mem st) (rd (mem st) a 8 + v_offset v) w) Lo B) as (st' & E & F & R).
        { cbn [sread mread eff]. rewrite R1, Z.mod_small by lia. rewrite (proj1 F1). reflexivity. } { apply rd_bound; lia. } { exact Logic.I. }
        eexists; exists st'. split; [reflexivity|]. cbn [exec]. rewrite E1, E. split; [reflexivity|]. split; [|exact R].
        eapply frame_trans; [exact F1|exact F| |]; intros x [<-|[]]; [right; left|left]; reflexivity.
Qed.

(* --- bit-fields --- *)
Lemma shift_val_bound o n x b : big n -> 0 <= x < 2 ^ (8 * n) -> 0 <= shift_val o n x b < 2 ^ (8 * n).
Proof.
  intros B X. assert (P : 0 < 2 ^ (8 * n)) by (apply pow2_pos; destruct B; lia). unfold shift_val, bits.
  destruct o; [unfold shl; apply Z.mod_pos_bound; exact P| |unfold sar; apply Z.mod_pos_bound; exact P].
  unfold shr. rewrite (Z.mod_small x) by lia. unfold count. set (c := b mod _).
  assert (C : 0 <= c) by (subst c; destruct (8 * n =? 64); apply Z.mod_pos_bound; lia).
  rewrite Z.shiftr_div_pow2 by lia. pose proof (pow2_pos c C). split; [apply Z.div_pos; lia|]. apply Z.div_lt_upper_bound; nia.
Qed.
Lemma step_shift st o n b r : big n -> 0 <= regs st r < 2 ^ (8 * n) ->
  exists st', run (if 0 <? b then [Shift o n (SImm b) r] else []) st = Some st' /\ Frame [r] st st' /\
    regs st' r = (if 0 <? b then shift_val o n (regs st r) b else regs st r) /\ 0 <= regs st' r < 2 ^ (8 * n).
Proof.
  intros B X. destruct (0 <? b).
  - cbn [exec step]. eexists. split; [reflexivity|]. split; [apply frame_setw|]. rewrite setw_same, merge_big by exact B.
    change (2 ^ bits n) with (2 ^ (8 * n)). rewrite (Z.mod_small (regs st r)) by exact X.
    pose proof (shift_val_bound o n (regs st r) b B X) as Y. rewrite (Z.mod_small (shift_val _ _ _ _)) by exact Y. auto.
  - exists st. split; [reflexivity|]. split; [apply frame_refl|]. auto.
Qed.
Lemma load_field_ok st v k z r w : (v_kind v = DIRECT \/ v_kind v = DEREF) -> Valid st v -> HasValue st v k z -> is_field v = true -> scratch r -> big w ->
  exists c st', load_field sym pic v r w = Some c /\ run c st = Some st' /\ Frame [r; R11] st st' /\ regs st' r mod 2 ^ (8 * w) = z mod 2 ^ (8 * w).
Proof.
  intros K V H Fd Sr Bw. destruct H as (D & Rg & H). pose proof V as V0. destruct V as (O & Fv & V). destruct (Fv Fd) as (Wd & Fo & Fe).
  assert (Hp : exists a, place_of st v = Some (InMem a) /\ z = held (signed k) (v_width v) (v_foff v) (rd (mem st) a 8)).
  { destruct K as [K | K]; rewrite K in *; destruct H as (p & P & H); rewrite Fd in H; unfold ArithSpec.place_of in *; rewrite K in *; injection P as <-.
    - destruct V as [_ V]. destruct (home (v_sym v)); [destruct V; congruence|]. eauto.
    - eauto. }
  destruct Hp as (a & P & Hz). pose proof (denotes_size _ _ D) as Sz. pose proof (bytes_std k) as Bk. rewrite <- Sz in Bk. rewrite Sz in Fe.
  unfold load_field. rewrite Fd. rewrite (proj2 (Z.ltb_lt 0 _)), (proj2 (Z.ltb_lt _ 64)), (proj2 (Z.leb_le _ 64)) by (destruct k; cbn in Fe; lia). cbn [andb assert].
  set (n := if size_of (v_type v) <=? 4 then 4 else 8).
  assert (Bn : big n) by (unfold big; subst n; destruct (size_of (v_type v) <=? 4); auto).
  destruct (emit_load_ok st v LMov r n (InMem a) K V0 P Sr Bn (big_std _ Bn) eq_refl) as (c & st1 & Ec & E1 & F1 & R1). cbn [ext contents] in R1.
  rewrite Ec. set (b := bits n - (v_foff v + v_width v)).
  assert (X1 : 0 <= regs st1 r < 2 ^ (8 * n)) by (rewrite R1; apply Z.mod_pos_bound, pow2_pos; destruct Bn; lia).
  destruct (step_shift st1 SHL n b r Bn X1) as (st2 & E2 & F2 & R2 & X2).
  destruct (step_shift st2 (if is_signed (v_type v) then SAR else SHR) n (v_foff v + b) r Bn X2) as (st3 & E3 & F3 & R3 & X3).
  rewrite (denotes_is_signed _ _ D) in *.
  assert (M1 : regs st1 r = rd (mem st) a 8 mod 2 ^ (8 * n)).
  { rewrite R1. rewrite (rd_prefix _ a n 8) by (destruct Bn; lia). apply Z.mod_mod. pose proof (pow2_pos (8 * n) ltac:(destruct Bn; lia)). lia. }
  assert (L : exists st4, run (if signed k && (n <? w) then [Movsx 4 8 (SReg r) r] else []) st3 = Some st4 /\ Frame [r] st3 st4 /\
    regs st4 r = FieldModel.load_field (signed k) (size_of (v_type v)) (v_width v) (v_foff v) w (rd (mem st) a 8)).
  { unfold FieldModel.load_field.
    assert (N : (if size_of (v_type v) <=? 4 then 32 else 64) = 8 * n) by (subst n; destruct (size_of (v_type v) <=? 4); reflexivity).
    rewrite N. rewrite <- M1. fold (bits n). fold b.
    assert (R3' : regs st3 r = (if 0 <? v_foff v + b then (if signed k then sar (8 * n) (if 0 <? b then shl (8 * n) (regs st1 r) b else regs st1 r) (v_foff v + b)
       else shr (8 * n) (if 0 <? b then shl (8 * n) (regs st1 r) b else regs st1 r) (v_foff v + b)) else if 0 <? b then shl (8 * n) (regs st1 r) b else regs st1 r)).
    { rewrite R3, R2. unfold shift_val, bits. destruct (0 <? v_foff v + b), (signed k); reflexivity. }
    unfold bits in *. rewrite <- R3'.
    assert (C : (8 * n <? 8 * w) = (n <? w)) by (destruct (Z.ltb_spec n w), (Z.ltb_spec (8 * n) (8 * w)); try reflexivity; lia). rewrite C.
    destruct (signed k && (n <? w)) eqn:G.
    - apply andb_true_iff in G. destruct G as [_ G]. apply Z.ltb_lt in G. assert (n = 4) as -> by (destruct Bn, Bw; lia).
      cbn [exec step sread]. eexists. split; [reflexivity|]. split; [apply frame_setw|]. rewrite setw_same, merge_big by (right; reflexivity).
      unfold bits. change (8 * 4) with 32 in *. change (8 * 8) with 64. rewrite (Z.mod_small (regs st3 r)) by lia. reflexivity.
    - exists st3. split; [reflexivity|]. split; [apply frame_refl|reflexivity]. }
  destruct L as (st4 & E4 & F4 & R4).
  eexists; exists st4. split; [reflexivity|]. rewrite exec_app, E1, exec_app, E2, exec_app, E3.
  split; [exact E4|]. split.
  - eapply frame_trans; [exact F1|eapply frame_trans; [exact F2|eapply frame_trans; [exact F3|exact F4|apply incl_refl|apply incl_refl]|apply incl_refl|apply incl_refl]|apply incl_refl|].
    intros x [<-|[]]; left; reflexivity.
  - rewrite R4, Hz.
    assert (G : forall w', w' = 8 \/ w' = 4 /\ v_width v <= 32 -> reduce (signed k) (8 * w') (FieldModel.load_field (signed k) (size_of (v_type v)) (v_width v) (v_foff v) w' (rd (mem st) a 8))
      = held (signed k) (v_width v) (v_foff v) (rd (mem st) a 8)).
    { intros w' Hw'. apply load_ok; auto. rewrite Sz. destruct k; cbn in *; lia. }
    assert (T : forall s m x y, 0 < m -> reduce s m x = y -> x mod 2 ^ m = y mod 2 ^ m).
    { intros s m x y Hm <-. pose proof (pow2_pos m ltac:(lia)). unfold reduce. destruct (s && _).
      - replace (x mod 2 ^ m - 2 ^ m) with (x mod 2 ^ m + (-1) * 2 ^ m) by lia. rewrite Z.mod_add, Z.mod_mod by lia. reflexivity.
      - rewrite Z.mod_mod by lia. reflexivity. }
    destruct Bw as [-> | ->].
    + destruct (Z.leb_spec (v_width v) 32) as [S | S].
      * apply (T (signed k)); [lia|]. apply G. auto.
      * assert (n = 8) as N8. { subst n. rewrite Sz. destruct k; cbn in Fe |- *; try reflexivity; lia. }
        assert (E8 : FieldModel.load_field (signed k) (size_of (v_type v)) (v_width v) (v_foff v) 4 (rd (mem st) a 8) =
          FieldModel.load_field (signed k) (size_of (v_type v)) (v_width v) (v_foff v) 8 (rd (mem st) a 8)).
        { unfold FieldModel.load_field. subst n. destruct (size_of (v_type v) <=? 4); [discriminate|]. cbn [Z.ltb Z.compare Z.mul Pos.mul Pos.compare Pos.compare_cont]. reflexivity. }
        rewrite E8. apply (mod_same_low _ _ (8 * 4) (8 * 8)); [lia|]. apply (T (signed k)); [lia|]. apply G. auto.
    + apply (T (signed k)); [lia|]. apply G. auto.
Qed.

(* --- whole operands --- *)
Lemma sext_low n z : 0 < n <= 64 -> sext 64 z mod 2 ^ n = z mod 2 ^ n.
Proof.
  intro H. apply (mod_same_low _ _ n 64); [lia|]. unfold sext. pose proof (pow2_pos 64 ltac:(lia)).
  destruct (_ <? _); [apply Z.mod_mod; lia|]. replace (z mod 2 ^ 64 - 2 ^ 64) with (z mod 2 ^ 64 + (-1) * 2 ^ 64) by lia.
  rewrite Z.mod_add, Z.mod_mod by lia. reflexivity.
Qed.
Lemma with_type_place st v t : place_of st (with_type v t) = place_of st v. Proof. reflexivity. Qed.
Lemma with_type_valid st v t : is_field v = false -> (v_kind v = DIRECT \/ v_kind v = DEREF) -> Valid st v -> Valid st (with_type v t).
Proof.
  intros F K (O & Fv & V). unfold ArithSpec.Valid. cbn [with_type v_offset v_kind v_sym v_is_symbol v_width v_foff v_type is_field].
  change (is_field (with_type v t)) with (is_field v). split; [exact O|]. split; [intro X; congruence|]. destruct K as [K | K]; rewrite K in *; exact V.
Qed.
Lemma load_int_ok st v k z r w : Valid st v -> HasValue st v k z -> scratch r -> big w -> (v_kind v = ADDRESS -> w = 8) ->
  exists c st', load_int sym pic v r w = Some c /\ run c st = Some st' /\ Frame [r; R11] st st' /\ regs st' r mod 2 ^ (8 * w) = z mod 2 ^ (8 * w).
Proof.
  intros V H Sr Bw Ka. unfold load_int. assert (Aw : (w =? 4) || (w =? 8) = true) by (destruct Bw as [-> | ->]; reflexivity). rewrite Aw. cbn [assert].
  assert (P8 : 0 < 2 ^ (8 * w)) by (apply pow2_pos; destruct Bw; lia).
  destruct (is_field v) eqn:Fd.
  { apply (load_field_ok st v k z); auto. destruct V as (_ & _ & V). destruct (v_kind v); auto; destruct V as (? & ? & ?); congruence. }
  pose proof H as H0. pose proof V as V0. destruct H as (D & Rg & H). destruct V as (O & _ & V). pose proof (denotes_size _ _ D) as Sz. pose proof (bytes_std k) as Sk.
  assert (MEM : (v_kind v = DIRECT \/ v_kind v = DEREF) ->
    exists c st', (let s := size_of (v_type v) in
    if s <? w then
      if is_unsigned (v_type v) then
        if s <? 4 then emit_load LMovzx v r w
        else if (s =? 4) && (w =? 8) then emit_load LMov v r 4 else None
      else if is_signed (v_type v) then emit_load LMovsx v r w else None
    else if w <? s then match assert (s =? 8) with Some _ => emit_load LMov (with_type v basic_type__int) r w | None => None end
    else emit_load LMov v r w) = Some c /\ run c st = Some st' /\ Frame [r; R11] st st' /\ regs st' r mod 2 ^ (8 * w) = z mod 2 ^ (8 * w)).
  { intro K. assert (Hp : exists p, place_of st v = Some p /\ contents st p (bytes k) = z mod 2 ^ (8 * bytes k)).
    { destruct K as [K | K]; rewrite K in H; destruct H as (p & P & H); rewrite Fd, Sz in H; eauto. }
    destruct Hp as (p & P & C). cbv zeta. rewrite Sz. destruct (Z.ltb_spec (bytes k) w) as [L | L].
    - rewrite (denotes_is_unsigned _ _ D), (denotes_is_signed _ _ D) by (apply (denotes_small _ _ D); destruct Bw; lia).
      destruct (signed k) eqn:Sg; cbn [negb].
      + destruct (emit_load_ok st v LMovsx r w p K V0 P Sr Bw) as (c & st' & Ec & E & F & R); [rewrite Sz; exact Sk|exact Logic.I|]. rewrite Sz in R. rewrite C in R. cbn [ext] in R.
        rewrite (signed_value k z Sg Rg) in R. exists c, st'. split; [exact Ec|]. split; [exact E|]. split; [exact F|]. rewrite R. apply Z.mod_mod. lia.
      + destruct (Z.ltb_spec (bytes k) 4) as [L4 | L4].
        * destruct (emit_load_ok st v LMovzx r w p K V0 P Sr Bw) as (c & st' & Ec & E & F & R); [rewrite Sz; exact Sk|exact Logic.I|]. rewrite Sz in R. rewrite C in R. cbn [ext] in R.
          rewrite (unsigned_value k z Sg Rg) in R. exists c, st'. split; [exact Ec|]. split; [exact E|]. split; [exact F|]. rewrite R. apply Z.mod_mod. lia.
        * assert (E4 : bytes k = 4) by (destruct k; cbn in *; destruct Bw; lia). assert (w = 8) as -> by (destruct Bw; lia). rewrite E4 in *. cbn [Z.eqb Pos.eqb andb].
          destruct (emit_load_ok st v LMov r 4 p K V0 P Sr (or_introl eq_refl)) as (c & st' & Ec & E & F & R); [right; right; left; reflexivity|reflexivity|]. cbn [ext] in R. rewrite C in R.
          exists c, st'. split; [exact Ec|]. split; [exact E|]. split; [exact F|].
          pose proof (unsigned_value k z Sg Rg) as U. rewrite E4 in U. rewrite U in R. rewrite U in R. rewrite R. reflexivity.
    - destruct (Z.ltb_spec w (bytes k)) as [G | G].
      + assert (E8 : bytes k = 8 /\ w = 4) by (destruct k; cbn in *; destruct Bw; lia). destruct E8 as [E8 ->]. rewrite E8 in *. cbn [Z.eqb Pos.eqb assert].
        destruct (emit_load_ok st (with_type v basic_type__int) LMov r 4 p K (with_type_valid _ _ _ Fd K V0) P Sr (or_introl eq_refl)) as (c & st' & Ec & E & F & R); [right; right; left; reflexivity|reflexivity|].
        exists c, st'. split; [exact Ec|]. split; [exact E|]. split; [exact F|]. rewrite R. cbn [ext]. rewrite Z.mod_mod by lia.
        assert (Q : contents st p 4 = contents st p 8 mod 2 ^ (8 * 4)).
        { destruct p; cbn [contents]; [symmetry; apply mod_low; lia|]. apply rd_prefix. lia. }
        rewrite Q, C. rewrite Z.mod_mod by lia. apply mod_low. lia.
      + assert (bytes k = w) as Ew by lia. rewrite Ew in *.
        destruct (emit_load_ok st v LMov r w p K V0 P Sr Bw) as (c & st' & Ec & E & F & R); [apply big_std; exact Bw|reflexivity|]. cbn [ext] in R. rewrite C in R.
        exists c, st'. split; [exact Ec|]. split; [exact E|]. split; [exact F|]. rewrite R, !Z.mod_mod by lia. reflexivity. }
  destruct (v_kind v) eqn:K; [apply MEM; auto| |apply MEM; auto|].
  - specialize (Ka eq_refl). subst w. destruct V as (Is & _ & S8). rewrite S8. cbn [Z.eqb Pos.eqb andb assert]. unfold ArithModel.emit_load. rewrite S8, K. cbn [std Z.eqb Pos.eqb orb assert].
    destruct (is_global_offset sym pic (v_sym v)) eqn:G.
    + rewrite displacement_ok by lia. rewrite (global_extern _ G) in H.
      destruct (step_mov8 st (SMem (AGot (v_sym v))) r (glob (v_sym v) mod 2 ^ 64) eq_refl) as (st1 & E1 & F1 & R1); [apply Z.mod_pos_bound; lia|exact Logic.I|].
      destruct (Z.eqb_spec (v_offset v) 0) as [Z0 | Z0].
      * eexists; exists st1. split; [reflexivity|]. cbn [exec]. rewrite E1. split; [reflexivity|]. split; [eapply frame_incl; [exact F1|intros x [<-|[]]; left; reflexivity]|].
        change (8 * 8) with 64. rewrite R1, H, Z0, Z.add_0_r. apply Z.mod_mod. lia.
      * eexists; eexists. split; [reflexivity|]. cbn [exec]. rewrite E1. cbn [step eff]. split; [reflexivity|]. split.
        { eapply frame_trans; [exact F1|apply frame_setr| |]; intros x [<-|[]]; left; reflexivity. }
        rewrite setr_same, R1. change (8 * 8) with 64. rewrite H, !Z.mod_mod by lia. apply Z.add_mod_idemp_l. lia.
    + unfold location_of, is_register_allocated. rewrite K. cbn [vkind_eqb andb negb assert].
      destruct (address_ok st v (or_intror K) O) as (a & Ea & Ef & _). rewrite Ea. cbn [ld]. eexists; eexists. split; [reflexivity|]. cbn [exec step]. rewrite Ef. split; [reflexivity|].
      split; [eapply frame_incl; [apply frame_setr|intros x [<-|[]]; left; reflexivity]|]. rewrite setr_same. change (8 * 8) with 64. rewrite H. apply Z.mod_mod. lia.
  - unfold ArithModel.emit_load. rewrite K. rewrite (proj1 (std_size_std w) (big_std _ Bw)). cbn [assert]. destruct (is_zero v) eqn:Z0.
    + eexists; eexists. split; [reflexivity|]. cbn [exec step imm_ok sread]. split; [reflexivity|]. split; [eapply frame_incl; [apply frame_setw|intros x [<-|[]]; left; reflexivity]|].
      rewrite setw_same, merge_big by exact Bw. unfold alu_val, bits. rewrite Z.lxor_nilpotent, !Z.mod_0_l by lia.
      assert (I0 : v_imm v = 0). { unfold is_zero in Z0. destruct (type_of (v_type v)); try discriminate; apply Z.eqb_eq, Z0. }
      rewrite I0 in H. rewrite <- (sext_low (8 * w) z) by (destruct Bw; lia). rewrite <- H. symmetry. apply Z.mod_0_l. lia.
    + destruct V as (_ & O0 & _). unfold value_of. rewrite K, O0. cbn [vkind_eqb Z.eqb andb assert]. eexists; eexists. split; [reflexivity|]. cbn [exec step].
      assert (Im : imm_ok MOV w (SImm (v_imm v)) false = true) by (cbn; apply orb_true_r). rewrite Im. cbn [sread]. split; [reflexivity|].
      split; [eapply frame_incl; [apply frame_setw|intros x [<-|[]]; left; reflexivity]|].
      rewrite setw_same, merge_big by exact Bw. unfold alu_val, bits. rewrite !Z.mod_mod by lia. rewrite H. apply sext_low. destruct Bw; lia.
Qed.
Lemma load_ok' st v k z r : Valid st v -> HasValue st v k z -> scratch r ->
  exists c st', load sym pic v r = Some c /\ run c st = Some st' /\ Frame [r; R11] st st' /\
    regs st' r mod 2 ^ (8 * Z.max 4 (size_of (v_type v))) = z mod 2 ^ (8 * Z.max 4 (size_of (v_type v))).
Proof.
  intros V H Sr. unfold load. apply load_int_ok with (k := k); auto.
  - destruct H as (D & _). rewrite (denotes_size _ _ D). unfold big. destruct k; cbn; lia.
  - intro K. destruct V as (_ & _ & V). rewrite K in V. destruct V as (_ & _ & ->). reflexivity.
Qed.
Definition reg_of (n : nat) : reg := match n with 0%nat => AX | _ => CX end.
Lemma load_cast_ok st v k z n t kt : Valid st v -> HasValue st v k z -> Denotes t kt -> (n <= 1)%nat -> (v_kind v = ADDRESS -> bytes kt = 8) ->
  let w := Z.max 4 (bytes kt) in
  exists c st', load_cast sym pic n v t = Some (reg_of n, c) /\ run c st = Some st' /\ Frame [reg_of n; R11] st st' /\ regs st' (reg_of n) mod 2 ^ (8 * w) = z mod 2 ^ (8 * w).
Proof.
  intros V H D Hn Ka w. unfold load_cast. rewrite (denotes_size _ _ D).
  assert (Bw : big w) by (unfold big; subst w; destruct kt; cbn; lia).
  set (t' := if bytes kt <? 4 then _ else t).
  assert (S' : size_of t' = w).
  { subst t' w. destruct (Z.ltb_spec (bytes kt) 4).
    - destruct (is_integer t); rewrite Z.max_l by lia; reflexivity.
    - rewrite Z.max_r by lia. apply denotes_size. exact D. }
  rewrite S'. assert (Aw : (w =? 4) || (w =? 8) = true) by (destruct Bw as [-> | ->]; reflexivity). rewrite Aw. cbn [assert].
  assert (G : get_int_reg n = Some (reg_of n)) by (destruct n as [|[|?]]; [reflexivity|reflexivity|lia]). rewrite G.
  destruct (load_int_ok st v k z (reg_of n) w V H) as (c & st' & Ec & E & F & R); auto.
  { destruct n; exact Logic.I. } { intro K. subst w. rewrite (Ka K). reflexivity. }
  rewrite Ec. exists c, st'. auto.
Qed.
End Load.
