(* The code of each operation computes its value. *)
From Coq Require Import List ZArith Lia Bool.
From Verif Require Import TypeModel TypeSpec EvalModel EvalSpec EvalProofs LayoutModel FieldModel FieldSpec FieldProofs ArithModel ArithSpec ArithMach ArithLoad ArithStore.
Import ListNotations.
Open Scope Z_scope.

Lemma promoted_big k : promoted k -> big (bytes k). Proof. intros [-> | [-> | [-> | ->]]]; cbn; unfold big; tauto. Qed.
Lemma promoted_width k : promoted k -> width k = 8 * bytes k. Proof. intros [-> | [-> | [-> | ->]]]; reflexivity. Qed.
Lemma add_cong a b x y n : 0 < n -> a mod n = x mod n -> b mod n = y mod n -> (a + b) mod n = (x + y) mod n.
Proof. intros P A B. rewrite Zplus_mod, A, B, <- Zplus_mod. reflexivity. Qed.
Lemma sub_cong a b x y n : 0 < n -> a mod n = x mod n -> b mod n = y mod n -> (a - b) mod n = (x - y) mod n.
Proof. intros P A B. rewrite Zminus_mod, A, B, <- Zminus_mod. reflexivity. Qed.
Lemma mul_cong a b x y n : 0 < n -> a mod n = x mod n -> b mod n = y mod n -> (a * b) mod n = (x * y) mod n.
Proof. intros P A B. rewrite Zmult_mod, A, B, <- Zmult_mod. reflexivity. Qed.
Lemma lxor_low a b n : 0 <= n -> Z.lxor a b mod 2 ^ n = Z.lxor (a mod 2 ^ n) (b mod 2 ^ n).
Proof. intro H. apply Z.bits_inj'. intros i Hi. rewrite Z.lxor_spec, !tb_mod, Z.lxor_spec by lia. destruct (i <? n); rewrite ?andb_true_r, ?andb_false_r; reflexivity. Qed.
Lemma exact_low k x v : promoted k -> exact k x = Some v -> v mod 2 ^ (8 * bytes k) = x mod 2 ^ (8 * bytes k).
Proof.
  intros P. rewrite <- promoted_width by exact P. unfold exact. destruct (signed k); [destruct (representable k x); [intros [= <-]; reflexivity|discriminate]|]. intros [= <-]. apply Z.mod_mod.
  pose proof (pow2_pos (width k) ltac:(rewrite promoted_width by exact P; pose proof (promoted_big k P); unfold big in *; lia)). lia.
Qed.

Section Ops.
Variables (rbp : Z) (glob : nat -> Z) (sym : nat -> symbol) (pic : bool).
Notation run := (exec rbp glob).
Notation home := (home rbp glob sym).
Notation symbol_address := (symbol_address rbp glob sym).
Notation place_of := (place_of rbp glob sym).
Notation Valid := (Valid rbp glob sym).
Notation ValidTarget := (ValidTarget rbp glob sym).
Notation HasValue := (HasValue rbp glob sym).
Notation Assigned := (Assigned rbp glob sym).
Notation Done := (Done rbp glob sym).
Notation load_cast := (load_cast sym pic).

Notation target_ok := (Fits rbp glob sym).

Lemma quiet_assigned st st1 st' t z : Quiet st st1 -> Assigned st1 st' t z -> Assigned st st' t z.
Proof.
  intros Q H. unfold ArithSpec.Assigned in *. rewrite (quiet_place rbp glob sym st st1) in H by exact Q. rewrite (proj1 Q) in H.
  destruct (place_of st t) as [[i|a]|]; [| |exact H].
  - destruct H as (A & B & C). split; [exact A|]. split; [exact B|]. intros j Hj. rewrite (C j Hj). apply quiet_tmp. exact Q.
  - destruct H as (A & B & C). split; [exact A|]. split; [exact B|]. intros j Hj. rewrite (C j Hj). apply quiet_tmp. exact Q.
Qed.
Lemma quiet_computed st st1 r n z : Quiet st st1 -> regs st1 r mod 2 ^ (8 * n) = z mod 2 ^ (8 * n) -> Computed st st1 r n z.
Proof. intros Q E. split; [exact E|]. split; [intro x; rewrite (proj1 Q); reflexivity|]. intros j _. apply quiet_tmp. exact Q. Qed.
Lemma finish st st1 r w t z : Quiet st st1 -> (r = AX \/ r = DX) -> regs st1 r mod 2 ^ (8 * w) = z mod 2 ^ (8 * w) -> target_ok st t w ->
  exists s st', store_opt sym pic r t = Some s /\ run s st1 = Some st' /\ Done st st' t r w z.
Proof.
  intros Q Hr E T. destruct t as [t|]; cbn [ArithSpec.Fits store_opt ArithSpec.Done] in *.
  - destruct T as [T <-]. destruct (store_ok rbp glob sym pic st1 r t z (quiet_target _ _ _ _ _ _ Q T) Hr E) as (c & st' & Ec & Er & A).
    exists c, st'. split; [exact Ec|]. split; [exact Er|]. apply (quiet_assigned st st1); assumption.
  - exists [], st1. split; [reflexivity|]. split; [reflexivity|]. apply quiet_computed; assumption.
Qed.

Lemma address_big st v k z : Valid st v -> HasValue st v k z -> v_kind v = ADDRESS -> bytes k = 8.
Proof. intros (_ & _ & V) (D & _) K. rewrite K in V. rewrite <- (denotes_size _ _ D). apply V. Qed.

(* load_cast, to a type of at least 4 bytes *)
Lemma lc st v k z n t kt : Valid st v -> HasValue st v k z -> Denotes t kt -> big (bytes kt) -> (n <= 1)%nat -> (v_kind v = ADDRESS -> bytes kt = 8) ->
  exists c st', load_cast n v t = Some (reg_of n, c) /\ run c st = Some st' /\ Frame [reg_of n; R11] st st' /\ regs st' (reg_of n) mod 2 ^ (8 * bytes kt) = z mod 2 ^ (8 * bytes kt).
Proof.
  intros V H D B Hn Ka. destruct (load_cast_ok rbp glob sym pic st v k z n t kt V H D Hn Ka) as (c & st' & A). exists c, st'.
  replace (Z.max 4 (bytes kt)) with (bytes kt) in A by (unfold big in B; lia). exact A.
Qed.
Lemma quiet_load st st' n : Frame [reg_of n; R11] st st' -> (n <= 1)%nat -> Quiet st st'.
Proof. intros F H. apply (frame_quiet _ _ _ F). destruct n as [|[|n]]; [| |lia]; repeat constructor. Qed.

(* both operands in registers *)
Lemma two_loads st l kl a r kr b tl kt1 tr kt2 : Valid st l -> HasValue st l kl a -> Valid st r -> HasValue st r kr b ->
  Denotes tl kt1 -> big (bytes kt1) -> (v_kind l = ADDRESS -> bytes kt1 = 8) -> Denotes tr kt2 -> big (bytes kt2) -> (v_kind r = ADDRESS -> bytes kt2 = 8) ->
  exists c c' st1 st2, load_cast 0 l tl = Some (AX, c) /\ load_cast 1 r tr = Some (CX, c') /\ run c st = Some st1 /\ run c' st1 = Some st2 /\ Quiet st st1 /\ Quiet st st2 /\
    Frame [CX; R11] st1 st2 /\ regs st1 AX mod 2 ^ (8 * bytes kt1) = a mod 2 ^ (8 * bytes kt1) /\ regs st2 AX = regs st1 AX /\ regs st2 CX mod 2 ^ (8 * bytes kt2) = b mod 2 ^ (8 * bytes kt2).
Proof.
  intros Vl Hl Vr Hr D1 B1 A1 D2 B2 A2. destruct (lc st l kl a 0 tl kt1 Vl Hl D1 B1 ltac:(lia) A1) as (c & st1 & Ec & E1 & F1 & R1).
  pose proof (quiet_load _ _ _ F1 ltac:(lia)) as Q1.
  destruct (lc st1 r kr b 1 tr kt2 (quiet_valid _ _ _ _ _ _ Q1 Vr) (quiet_value _ _ _ _ _ _ _ _ Q1 Hr) D2 B2 ltac:(lia) A2) as (c' & st2 & Ec' & E2 & F2 & R2).
  pose proof (quiet_load _ _ _ F2 ltac:(lia)) as Q2. exists c, c', st1, st2. repeat (split; [assumption|]). split; [exact (quiet_trans _ _ _ Q1 Q2)|]. split; [exact F2|]. split; [exact R1|].
  split; [|exact R2]. apply (proj2 F2). cbn. intros [X|[X|[]]]; discriminate.
Qed.

(* an operand used where it is *)
Lemma in_place st v k z : v_kind v = DIRECT -> is_global_offset sym pic (v_sym v) = false -> is_field v = false -> Valid st v -> HasValue st v k z ->
  match allocated_register sym v with
  | Some cx => (exists i, cx = Tmp i /\ place_of st v = Some (InReg i)) /\ regs st cx mod 2 ^ (8 * bytes k) = z mod 2 ^ (8 * bytes k)
  | None => exists m a, location_of sym v = Some m /\ place_of st v = Some (InMem a) /\ rd (mem st) a (bytes k) = z mod 2 ^ (8 * bytes k) /\
      forall st1, eff rbp glob st1 m = Some a /\ mread rbp glob st1 m (bytes k) = Some (rd (mem st1) a (bytes k))
  end.
Proof.
  intros K G Fd V (D & _ & H). rewrite K, Fd in H. destruct H as (p & P & H). rewrite (denotes_size _ _ D) in H.
  pose proof V as (O & _ & V'). rewrite K in V'. destruct V' as [_ V'].
  unfold ArithSpec.place_of in *. rewrite K in *. pose proof (allocated_home rbp glob sym v K) as A. injection P as <-. destruct (home (v_sym v)) as [i|a].
  - destruct A as [A _]. rewrite A. split; [exists i; auto|exact H].
  - destruct A as (A & A' & Ha). rewrite A. destruct (location_ok rbp glob sym st v K A' O) as (m & Em & _). exists m, (a + v_offset v). split; [exact Em|]. split; [reflexivity|]. split; [exact H|].
    intro st1. destruct (location_ok rbp glob sym st1 v K A' O) as (m' & Em' & Ef & Mr). rewrite Em in Em'. injection Em' as <-. rewrite Ha. auto.
Qed.
Lemma direct_spec v : direct v = true <-> v_kind v = DIRECT.
Proof. unfold direct. destruct (v_kind v); cbn; split; intro; try reflexivity; discriminate. Qed.

Lemma const_value st v k z n : is_int_constant v = true \/ v_kind v = IMMEDIATE -> Valid st v -> HasValue st v k z -> 0 < n <= 64 ->
  value_of v = Some (v_imm v) /\ v_imm v mod 2 ^ n = z mod 2 ^ n.
Proof.
  intros C V (_ & _ & H) N. assert (K : v_kind v = IMMEDIATE).
  { destruct C as [C | C]; [|exact C]. unfold is_int_constant in C. destruct (v_kind v); cbn in C; try discriminate; reflexivity. }
  rewrite K in H. destruct V as (_ & _ & V). rewrite K in V. destruct V as (_ & O & _). unfold value_of. rewrite K, O. split; [reflexivity|]. rewrite H. apply sext_low. exact N.
Qed.
Lemma const_imm v w o tm : is_int_constant v = true -> size_of (v_type v) = w -> imm_ok o w (SImm (v_imm v)) tm = true.
Proof.
  intros C S. unfold is_int_constant in C. apply andb_true_iff in C. destruct C as (_ & C). apply orb_true_iff in C. cbn [imm_ok]. rewrite S, Z.ltb_lt in C. destruct C as [C | C].
  - rewrite (proj2 (Z.ltb_lt w 8)) by lia. reflexivity.
  - rewrite C, orb_true_r. reflexivity.
Qed.

(* one alu instruction to AX *)
Lemma op_ok st o w s r x : std_size w -> imm_ok o w s false = true -> sread rbp glob st s w = Some x ->
  exists st', run [Op o w s r] st = Some st' /\ Frame [r] st st' /\ regs st' r mod 2 ^ (8 * w) = alu_val o w (regs st r mod 2 ^ (8 * w)) x.
Proof.
  intros Sw Im E. cbn [exec step]. rewrite Im, E. eexists. split; [reflexivity|]. split; [apply frame_setw|]. rewrite setw_same, merge_low by exact Sw. unfold alu_val, bits. apply Z.mod_mod.
  pose proof (pow2_pos (8 * w) ltac:(unfold std_size in Sw; lia)). lia.
Qed.
Lemma quiet_reg r st st' : Frame [r] st st' -> scratch r -> Quiet st st'.
Proof. intros F S. apply (frame_quiet _ _ _ F). repeat constructor. exact S. Qed.

(* --- addition --- *)
Lemma add_general_ok st ty k l kl a r kr b : Denotes ty k -> big (bytes k) -> Valid st l -> HasValue st l kl a -> Valid st r -> HasValue st r kr b -> bytes kl = bytes k -> bytes kr = bytes k ->
  exists c st1, add_general sym pic ty l r = Some (AX, c) /\ run c st = Some st1 /\ Quiet st st1 /\ regs st1 AX mod 2 ^ (8 * bytes k) = (a + b) mod 2 ^ (8 * bytes k).
Proof.
  intros D B Vl Hl Vr Hr Bl Br. pose proof (big_std _ B) as Sw. assert (W : 0 < 8 * bytes k <= 64) by (unfold big in B; lia). pose proof (pow2_pos (8 * bytes k) ltac:(lia)) as P8.
  assert (Al : v_kind l = ADDRESS -> bytes k = 8) by (intro X; rewrite <- Bl; exact (address_big st l kl a Vl Hl X)).
  assert (Ar : v_kind r = ADDRESS -> bytes k = 8) by (intro X; rewrite <- Br; exact (address_big st r kr b Vr Hr X)).
  (* load v, then add s *)
  assert (G : forall v kv z s x, Valid st v -> HasValue st v kv z -> (v_kind v = ADDRESS -> bytes k = 8) -> imm_ok ADD (bytes k) s false = true ->
    (forall st1, Quiet st st1 -> exists u, sread rbp glob st1 s (bytes k) = Some u /\ u mod 2 ^ (8 * bytes k) = x mod 2 ^ (8 * bytes k)) -> (z + x) mod 2 ^ (8 * bytes k) = (a + b) mod 2 ^ (8 * bytes k) ->
    exists c st1, load_cast 0 v ty = Some (AX, c) /\ run (c ++ [Op ADD (bytes k) s AX]) st = Some st1 /\ Quiet st st1 /\ regs st1 AX mod 2 ^ (8 * bytes k) = (a + b) mod 2 ^ (8 * bytes k)).
  { intros v kv z s x Vv Hv Av Im Hs E. destruct (lc st v kv z 0 ty k Vv Hv D B ltac:(lia) Av) as (c & st1 & Ec & E1 & F1 & R1). pose proof (quiet_load _ _ _ F1 ltac:(lia)) as Q1.
    destruct (Hs st1 Q1) as (u & Eu & Hu). destruct (op_ok st1 ADD (bytes k) s AX u Sw Im Eu) as (st2 & E2 & F2 & R2).
    exists c, st2. split; [exact Ec|]. split; [rewrite exec_app, E1; exact E2|]. split; [exact (quiet_trans _ _ _ Q1 (quiet_reg _ _ _ F2 Logic.I))|].
    rewrite R2, <- E. unfold alu_val, bits. apply add_cong; auto. cbn [reg_of] in R1. rewrite R1. apply Z.mod_mod. lia. }
  (* an operand in place *)
  assert (IP : forall v kv z, v_kind v = DIRECT -> is_global_offset sym pic (v_sym v) = false -> is_field v = false -> Valid st v -> HasValue st v kv z -> bytes kv = bytes k ->
    exists s, (match allocated_register sym v with Some cx => Some (SReg cx) | None => do m <- location_of sym v; Some (SMem m) end) = Some s /\ imm_ok ADD (bytes k) s false = true /\
      forall st1, Quiet st st1 -> exists u, sread rbp glob st1 s (bytes k) = Some u /\ u mod 2 ^ (8 * bytes k) = z mod 2 ^ (8 * bytes k)).
  { intros v kv z K Gl Fd Vv Hv Bv. pose proof (in_place st v kv z K Gl Fd Vv Hv) as X. rewrite Bv in X. destruct (allocated_register sym v) as [cx|].
    - destruct X as [(i & -> & _) X]. eexists. split; [reflexivity|]. split; [reflexivity|]. intros st1 Q. eexists. cbn [sread]. split; [reflexivity|]. unfold bits. rewrite (quiet_tmp _ _ _ Q), X. apply Z.mod_mod. lia.
    - destruct X as (m & y & Em & _ & X & Y). rewrite Em. eexists. split; [reflexivity|]. split; [reflexivity|]. intros st1 Q. cbn [sread]. rewrite (proj2 (Y st1)). eexists. split; [reflexivity|]. rewrite (proj1 Q), X. apply Z.mod_mod. lia. }
  unfold add_general. rewrite (denotes_size _ _ D). destruct (is_int_constant l) eqn:Cl; [|destruct (is_int_constant r) eqn:Cr; [|destruct (direct l && negb (is_global_offset sym pic (v_sym l)) && negb (is_field l)) eqn:Dl;
    [|destruct (direct r && negb (is_global_offset sym pic (v_sym r)) && negb (is_field r)) eqn:Dr]]].
  - destruct (const_value st l kl a (8 * bytes k) (or_introl Cl) Vl Hl W) as [Ev Em]. rewrite Ev.
    destruct (G r kr b (SImm (v_imm l)) a) as (c & st1 & Ec & E1 & Q & R); auto.
    { apply const_imm; [exact Cl|]. rewrite <- Bl. apply denotes_size, Hl. }
    { intros st1 _. eexists. split; [reflexivity|]. unfold bits. rewrite Em. apply Z.mod_mod. lia. }
    { f_equal. lia. }
    rewrite Ec. eauto 10.
  - destruct (const_value st r kr b (8 * bytes k) (or_introl Cr) Vr Hr W) as [Ev Em]. rewrite Ev.
    destruct (G l kl a (SImm (v_imm r)) b) as (c & st1 & Ec & E1 & Q & R); auto.
    { apply const_imm; [exact Cr|]. rewrite <- Br. apply denotes_size, Hr. }
    { intros st1 _. eexists. split; [reflexivity|]. unfold bits. rewrite Em. apply Z.mod_mod. lia. }
    rewrite Ec. eauto 10.
  - rewrite !andb_true_iff, !negb_true_iff, direct_spec in Dl. destruct Dl as ((K & Gl) & Fd). destruct (IP l kl a K Gl Fd Vl Hl Bl) as (s & Es & Im & Hs).
    destruct (G r kr b s a) as (c & st1 & Ec & E1 & Q & R); auto. { f_equal. lia. }
    rewrite Ec. destruct (allocated_register sym l); [injection Es as <-; eauto 10|]. destruct (location_of sym l); [|discriminate]. injection Es as <-. eauto 10.
  - rewrite !andb_true_iff, !negb_true_iff, direct_spec in Dr. destruct Dr as ((K & Gl) & Fd). destruct (IP r kr b K Gl Fd Vr Hr Br) as (s & Es & Im & Hs).
    destruct (G l kl a s b) as (c & st1 & Ec & E1 & Q & R); auto.
    rewrite Ec. destruct (allocated_register sym r); [injection Es as <-; eauto 10|]. destruct (location_of sym r); [|discriminate]. injection Es as <-. eauto 10.
  - destruct (two_loads st l kl a r kr b ty k ty k Vl Hl Vr Hr D B Al D B Ar) as (c & c' & st1 & st2 & Ec & Ec' & E1 & E2 & Q1 & Q2 & _ & R1 & Ra & Rc).
    destruct (op_ok st2 ADD (bytes k) (SReg CX) AX _ Sw eq_refl eq_refl) as (st3 & E3 & F3 & R3). rewrite Ec, Ec'. eexists; exists st3. split; [reflexivity|].
    split; [rewrite exec_app, E1, exec_app, E2; exact E3|]. split; [exact (quiet_trans _ _ _ Q2 (quiet_reg _ _ _ F3 Logic.I))|].
    rewrite R3. unfold alu_val, bits. apply add_cong; auto; rewrite Z.mod_mod by lia; [congruence|exact Rc].
Qed.

(* what compile_add gets wrong: a temporary that is its own target, and a constant *)
Definition add_excluded (t : option var) (l r : var) : bool :=
  match t with
  | Some t => is_register_allocated sym t && ((operand_equal t r && is_int_constant l) || (operand_equal t l && is_int_constant r))
  | None => false
  end.
Lemma operand_equal_spec t r : operand_equal t r = true -> v_is_symbol t = true /\ v_sym t = v_sym r /\ v_kind t = v_kind r /\ v_width t = v_width r /\ v_foff t = v_foff r /\ v_offset t = v_offset r.
Proof.
  unfold operand_equal. rewrite !andb_true_iff, Nat.eqb_eq, !Z.eqb_eq. intros ((((((A & B) & C) & D) & E) & F) & G). repeat (split; [assumption|]).
  split; [|auto]. destruct (v_kind t), (v_kind r); try discriminate; reflexivity.
Qed.
Lemma add_to_ok st t ty k l kl a r kr b : Denotes ty k -> big (bytes k) -> Valid st l -> HasValue st l kl a -> Valid st r -> HasValue st r kr b -> bytes kl = bytes k -> bytes kr = bytes k ->
  v_kind t = DIRECT -> is_global_offset sym pic (v_sym t) = false -> is_field t = false -> size_of (v_type t) = bytes k -> operand_equal t r = true -> (is_register_allocated sym t = true -> is_int_constant l = false) ->
  exists x c st', add_to sym pic t ty l r = Some (x, c) /\ run c st = Some st' /\ Assigned st st' t (a + b).
Proof.
  intros D B Vl Hl Vr Hr Bl Br K G Fd St Oe Ex. pose proof (big_std _ B) as Sw. assert (W : 0 < 8 * bytes k <= 64) by (unfold big in B; lia). pose proof (pow2_pos (8 * bytes k) ltac:(lia)) as P8.
  assert (Al : v_kind l = ADDRESS -> bytes k = 8) by (intro X; rewrite <- Bl; exact (address_big st l kl a Vl Hl X)).
  destruct (operand_equal_spec _ _ Oe) as (Is & Es & Ek & Ew & Ef & Eo).
  assert (Fr : is_field r = false) by (unfold is_field in *; rewrite <- Ew; exact Fd).
  assert (Gr : is_global_offset sym pic (v_sym r) = false) by (rewrite <- Es; exact G).
  pose proof (in_place st r kr b ltac:(congruence) Gr Fr Vr Hr) as IP. rewrite Br in IP.
  assert (Pe : place_of st t = place_of st r) by (unfold ArithSpec.place_of; rewrite Ek, Es, Eo; destruct (v_kind r) eqn:Kr; try reflexivity; congruence).
  assert (Le : location_of sym t = location_of sym r) by (unfold location_of, address_of, is_register_allocated; rewrite Ek, Es, Eo; reflexivity).
  assert (Re : is_register_allocated sym t = is_register_allocated sym r) by (unfold is_register_allocated; rewrite Ek, Es; reflexivity).
  unfold add_to. rewrite (denotes_size _ _ D), Le.
  (* memory: s is added at m *)
  assert (MEM : forall m y st1 s u, Quiet st st1 -> place_of st r = Some (InMem y) -> rd (mem st) y (bytes k) = b mod 2 ^ (8 * bytes k) -> (forall st1, eff rbp glob st1 m = Some y /\ mread rbp glob st1 m (bytes k) = Some (rd (mem st1) y (bytes k))) ->
    match s with SMem _ => False | _ => True end -> imm_ok ADD (bytes k) s true = true -> sread rbp glob st1 s (bytes k) = Some u -> u mod 2 ^ (8 * bytes k) = a mod 2 ^ (8 * bytes k) ->
    exists st', run [OpM ADD (bytes k) s m] st1 = Some st' /\ Assigned st st' t (a + b)).
  { intros m y st1 s u Q Py Rb Ym Ns Im Su Hu. cbn [exec step]. rewrite Im, Su, (proj1 (Ym st1)). eexists. split; [destruct s; [reflexivity|reflexivity|contradiction]|].
    unfold ArithSpec.Assigned. rewrite Pe, Py, Fd, St. cbn [mem regs]. split; [|split].
    - rewrite rd_wr by lia. unfold alu_val, bits. rewrite Z.mod_mod by lia. rewrite (proj1 Q), Rb, Z.add_comm. apply add_cong; auto. apply Z.mod_mod. lia.
    - intros x Hx. rewrite wr_out by exact Hx. rewrite (proj1 Q). reflexivity.
    - intros j _. cbn [regs]. apply quiet_tmp. exact Q. }
  destruct (is_int_constant l) eqn:Cl.
  - unfold allocated_register in *. rewrite Re in Ex. destruct (is_register_allocated sym r); [specialize (Ex eq_refl); discriminate|]. destruct IP as (m & y & Em & Py & Rb & Ym).
    destruct (const_value st l kl a (8 * bytes k) (or_introl Cl) Vl Hl W) as [Ev Ei]. rewrite Ev, Em.
    destruct (MEM m y st (SImm (v_imm l)) (v_imm l mod 2 ^ (8 * bytes k))) as (st' & Er & A); auto.
    { apply frame_refl. } { apply const_imm; [exact Cl|]. rewrite <- Bl. apply denotes_size, Hl. } { rewrite Ei. apply Z.mod_mod. lia. }
    eauto 10.
  - destruct (lc st l kl a 0 ty k Vl Hl D B ltac:(lia) Al) as (c & st1 & Ec & E1 & F1 & R1). pose proof (quiet_load _ _ _ F1 ltac:(lia)) as Q1. rewrite Ec. cbn [reg_of] in *.
    destruct (allocated_register sym r) as [cx|].
    + destruct IP as [(i & -> & Py) Rb]. destruct (op_reg_ok rbp glob st1 ADD (bytes k) AX (Tmp i) Sw ltac:(discriminate)) as (st2 & E2 & F2 & R2).
      do 2 eexists. exists st2. split; [reflexivity|]. split; [rewrite exec_app, E1; exact E2|]. unfold ArithSpec.Assigned. rewrite Pe, Py, St. split; [|split].
      * rewrite R2, (quiet_tmp _ _ _ Q1), Rb, R1. unfold alu_val, bits. rewrite Z.add_comm. apply add_cong; auto; apply Z.mod_mod; lia.
      * intro x. rewrite (proj1 F2), (proj1 Q1). reflexivity.
      * intros j Hj. rewrite (proj2 F2) by (cbn; intros [X|[]]; congruence). apply quiet_tmp. exact Q1.
    + destruct IP as (m & y & Em & Py & Rb & Ym). rewrite Em.
      destruct (MEM m y st1 (SReg AX) (regs st1 AX mod 2 ^ (8 * bytes k)) Q1 Py Rb Ym) as (st' & Er & A); auto. { rewrite R1. apply Z.mod_mod. lia. }
      do 2 eexists. exists st'. split; [reflexivity|]. split; [rewrite exec_app, E1; exact Er|exact A].
Qed.
Lemma assigned_cong st st' t z z' n : (size_of (v_type t) = n) -> 0 <= n -> (is_field t = true -> 0 <= v_width t <= 8 * n) -> z mod 2 ^ (8 * n) = z' mod 2 ^ (8 * n) -> Assigned st st' t z -> Assigned st st' t z'.
Proof.
  intros Hn N0 Fw E H. unfold ArithSpec.Assigned in *. rewrite Hn in *. rewrite <- E. destruct (place_of st t) as [[i|a]|]; auto.
  destruct H as (A & B). split; [|exact B]. destruct (is_field t); [|exact A]. destruct A as [A A']. split; [|exact A']. intro s. rewrite A. unfold reduce.
  rewrite (mod_same_low z z' (v_width t) (8 * n)); auto. 
Qed.
Lemma add_ok st t ty k l kl a r kr b v : Denotes ty k -> big (bytes k) -> Valid st l -> HasValue st l kl a -> Valid st r -> HasValue st r kr b -> bytes kl = bytes k -> bytes kr = bytes k ->
  target_ok st t (bytes k) -> add_excluded t l r = false -> v mod 2 ^ (8 * bytes k) = (a + b) mod 2 ^ (8 * bytes k) ->
  exists x c st', compile_add sym pic t ty l r = Some (x, c) /\ run c st = Some st' /\ Done st st' t x (bytes k) v.
Proof.
  intros D B Vl Hl Vr Hr Bl Br T Ex Ev.
  assert (GEN : exists x c st', (do (ax, c) <- add_general sym pic ty l r; do s <- store_opt sym pic ax t; Some (ax, c ++ s)) = Some (x, c) /\ run c st = Some st' /\ Done st st' t x (bytes k) v).
  { destruct (add_general_ok st ty k l kl a r kr b D B Vl Hl Vr Hr Bl Br) as (c & st1 & Ec & E1 & Q & R). rewrite <- Ev in R.
    destruct (finish st st1 AX (bytes k) t v Q (or_introl eq_refl) R T) as (s & st' & Es & Er & Dn). rewrite Ec, Es. do 2 eexists; exists st'. split; [reflexivity|]. split; [rewrite exec_app, E1; exact Er|exact Dn]. }
  unfold compile_add. destruct t as [t|]; [|exact GEN]. destruct (direct t && negb (is_global_offset sym pic (v_sym t)) && negb (is_field t)) eqn:Dt; [|exact GEN].
  rewrite !andb_true_iff, !negb_true_iff, direct_spec in Dt. destruct Dt as ((K & G) & Fd). destruct T as [T Ts]. cbn [add_excluded] in Ex.
  assert (CG : forall st', Assigned st st' t (a + b) -> Assigned st st' t v).
  { intros st' A. apply (assigned_cong st st' t (a + b) v (bytes k)); auto; [unfold big in B; lia|intro; congruence]. }
  destruct (operand_equal t r) eqn:Or.
  - destruct (add_to_ok st t ty k l kl a r kr b) as (x & c & st' & E1 & E2 & A); auto.
    { intro Ra. rewrite Ra in Ex. cbn in Ex. destruct (is_int_constant l); [discriminate|reflexivity]. }
    exists x, c, st'. cbn [ArithSpec.Done]. auto.
  - destruct (operand_equal t l) eqn:Ol; [|exact GEN].
    destruct (add_to_ok st t ty k r kr b l kl a) as (x & c & st' & E1 & E2 & A); auto.
    { intro Ra. rewrite Ra in Ex. cbn in Ex. destruct (is_int_constant r); [discriminate|reflexivity]. }
    exists x, c, st'. cbn [ArithSpec.Done]. rewrite Z.add_comm in A. auto.
Qed.

(* --- subtraction --- *)
Lemma sub_ok st t ty k l kl a r kr b v : Denotes ty k -> big (bytes k) -> Valid st l -> HasValue st l kl a -> Valid st r -> HasValue st r kr b -> bytes kl = bytes k -> bytes kr = bytes k ->
  target_ok st t (bytes k) -> v mod 2 ^ (8 * bytes k) = (a - b) mod 2 ^ (8 * bytes k) ->
  exists x c st', compile_sub sym pic t ty l r = Some (x, c) /\ run c st = Some st' /\ Done st st' t x (bytes k) v.
Proof.
  intros D B Vl Hl Vr Hr Bl Br T Ev. pose proof (big_std _ B) as Sw. pose proof (pow2_pos (8 * bytes k) ltac:(unfold big in B; lia)) as P8.
  assert (Al : v_kind l = ADDRESS -> bytes k = 8) by (intro X; rewrite <- Bl; exact (address_big st l kl a Vl Hl X)).
  assert (Ar : v_kind r = ADDRESS -> bytes k = 8) by (intro X; rewrite <- Br; exact (address_big st r kr b Vr Hr X)).
  destruct (two_loads st l kl a r kr b ty k ty k Vl Hl Vr Hr D B Al D B Ar) as (c & c' & st1 & st2 & Ec & Ec' & E1 & E2 & Q1 & Q2 & _ & R1 & Ra & Rc).
  destruct (op_ok st2 SUB (bytes k) (SReg CX) AX _ Sw eq_refl eq_refl) as (st3 & E3 & F3 & R3).
  assert (R : regs st3 AX mod 2 ^ (8 * bytes k) = v mod 2 ^ (8 * bytes k)).
  { rewrite R3, Ev. unfold alu_val, bits. apply sub_cong; auto; rewrite Z.mod_mod by lia; [congruence|exact Rc]. }
  destruct (finish st st3 AX (bytes k) t v (quiet_trans _ _ _ Q2 (quiet_reg _ _ _ F3 Logic.I)) (or_introl eq_refl) R T) as (s & st' & Es & Er & Dn).
  unfold compile_sub. rewrite Ec, Ec', Es, (denotes_size _ _ D). do 2 eexists; exists st'. split; [reflexivity|]. rewrite exec_app, E1, exec_app, E2, exec_app, E3. auto.
Qed.

(* --- complement --- *)
Lemma not_ok st t k l a : promoted k -> Valid st l -> HasValue st l k a -> target_ok st t (bytes k) ->
  exists x c st', compile_not sym pic t l = Some (x, c) /\ run c st = Some st' /\ Done st st' t x (bytes k) (c_not k a).
Proof.
  intros P V H T. pose proof (promoted_big k P) as B. pose proof (big_std _ B) as Sw. pose proof (pow2_pos (8 * bytes k) ltac:(unfold big in B; lia)) as P8.
  destruct (load_ok' rbp glob sym pic st l k a AX V H Logic.I) as (c & st1 & Ec & E1 & F1 & R1). destruct H as (D & _). rewrite (denotes_size _ _ D) in R1.
  replace (Z.max 4 (bytes k)) with (bytes k) in R1 by (unfold big in B; lia).
  assert (Q1 : Quiet st st1) by (apply (frame_quiet _ _ _ F1); repeat constructor).
  set (st2 := setw st1 (bytes k) AX (Z.lnot (regs st1 AX))).
  assert (R : regs st2 AX mod 2 ^ (8 * bytes k) = c_not k a mod 2 ^ (8 * bytes k)).
  { subst st2. rewrite setw_same, merge_low by exact Sw. unfold Z.lnot. replace (Z.pred (- regs st1 AX)) with (-1 - regs st1 AX) by lia.
    transitivity ((-1 - a) mod 2 ^ (8 * bytes k)); [apply sub_cong; auto|]. unfold c_not. rewrite (promoted_width k P). destruct (signed k); [f_equal; lia|].
    replace (2 ^ (8 * bytes k) - 1 - a) with (-1 - a + 1 * 2 ^ (8 * bytes k)) by lia. rewrite Z.mod_add by lia. reflexivity. }
  destruct (finish st st2 AX (bytes k) t _ (quiet_trans _ _ _ Q1 (quiet_reg AX _ _ (frame_setw _ _ _ _) Logic.I)) (or_introl eq_refl) R T) as (s & st' & Es & Er & Dn).
  unfold compile_not. rewrite Ec, Es, (denotes_size _ _ D). do 2 eexists; exists st'. split; [reflexivity|]. rewrite exec_app, E1. cbn [app exec step]. fold st2. auto.
Qed.

(* --- multiplication --- *)
Lemma mul_ok st t ty k l a r b v : Denotes ty k -> promoted k -> Valid st l -> HasValue st l k a -> Valid st r -> HasValue st r k b -> target_ok st t (bytes k) ->
  (v_kind l = DIRECT -> is_field l = true -> is_global_offset sym pic (v_sym l) = true) -> v mod 2 ^ (8 * bytes k) = (a * b) mod 2 ^ (8 * bytes k) ->
  exists x c st', compile_mul sym pic t ty l r = Some (x, c) /\ run c st = Some st' /\ Done st st' t x (bytes k) v.
Proof.
  intros D P Vl Hl Vr Hr T Fl Ev. pose proof (promoted_big k P) as B. pose proof (big_std _ B) as Sw. pose proof (pow2_pos (8 * bytes k) ltac:(unfold big in B; lia)) as P8.
  pose proof (address_big st l k a Vl Hl) as Al. pose proof (address_big st r k b Vr Hr) as Ar.
  destruct (two_loads st r k b l k a (v_type r) k (v_type l) k Vr Hr Vl Hl (proj1 Hr) B Ar (proj1 Hl) B Al) as (c & c' & st1 & st2 & Ec & Ec' & E1 & E2 & Q1 & Q2 & _ & R1 & Ra & Rc).
  (* the instruction *)
  assert (MUL : forall s s0 u, Quiet st s0 -> regs s0 AX = regs st1 AX -> sread rbp glob s0 s (bytes k) = Some u -> u mod 2 ^ (8 * bytes k) = a mod 2 ^ (8 * bytes k) ->
    exists st3, run [MulI (bytes k) s] s0 = Some st3 /\ Quiet st st3 /\ regs st3 AX mod 2 ^ (8 * bytes k) = v mod 2 ^ (8 * bytes k)).
  { intros s s0 u Q Ra' Su Hu. cbn [exec step]. rewrite Su. eexists. split; [reflexivity|]. split.
    - apply (quiet_trans _ _ _ Q). eapply quiet_trans; [|eapply quiet_reg; [apply frame_setw|exact Logic.I]]; eapply quiet_reg; [apply frame_setw|exact Logic.I].
    - rewrite setw_other by discriminate. rewrite setw_same, merge_low by exact Sw. rewrite Ev, Z.mul_comm. apply mul_cong; auto. unfold bits. rewrite Z.mod_mod by lia. congruence. }
  assert (C : exists c2 st3, (if direct l && negb (is_register_allocated sym l) && negb (is_global_offset sym pic (v_sym l)) then do m <- location_of sym l; Some [MulI (bytes k) (SMem m)]
      else do (cx, c') <- load_cast 1 l (v_type l); Some (c' ++ [MulI (bytes k) (SReg cx)])) = Some c2 /\ run c2 st1 = Some st3 /\ Quiet st st3 /\ regs st3 AX mod 2 ^ (8 * bytes k) = v mod 2 ^ (8 * bytes k)).
  { destruct (direct l && negb (is_register_allocated sym l) && negb (is_global_offset sym pic (v_sym l))) eqn:C.
    - rewrite !andb_true_iff, !negb_true_iff, direct_spec in C. destruct C as ((K & Rl) & Gl).
      assert (Fd : is_field l = false) by (destruct (is_field l) eqn:X; [rewrite (Fl K eq_refl) in Gl; discriminate|reflexivity]).
      pose proof (in_place st l k a K Gl Fd Vl Hl) as X. unfold allocated_register in X. rewrite Rl in X. destruct X as (m & y & Em & _ & X & Y). rewrite Em.
      destruct (MUL (SMem m) st1 (rd (mem st1) y (bytes k)) Q1 eq_refl) as (st3 & E3 & Q3 & R3); [exact (proj2 (Y st1))|rewrite (proj1 Q1), X; apply Z.mod_mod; lia|]. eauto 10.
    - rewrite Ec'. destruct (MUL (SReg CX) st2 (regs st2 CX mod 2 ^ (8 * bytes k)) Q2 Ra eq_refl) as (st3 & E3 & Q3 & R3); [rewrite Z.mod_mod by lia; exact Rc|].
      eexists; exists st3. split; [reflexivity|]. rewrite exec_app, E2. auto. }
  destruct C as (c2 & st3 & Ec2 & E3 & Q3 & R3). destruct (finish st st3 AX (bytes k) t v Q3 (or_introl eq_refl) R3 T) as (s & st' & Es & Er & Dn).
  unfold compile_mul. rewrite (denotes_size _ _ D), Ec, Ec2, Es. do 2 eexists; exists st'. split; [reflexivity|]. rewrite exec_app, E1, exec_app, E3. auto.
Qed.

(* --- division --- *)
Lemma low_value k z : promoted k -> in_range k z -> (if signed k then to_signed (8 * bytes k) (z mod 2 ^ (8 * bytes k)) else z mod 2 ^ (8 * bytes k)) = z.
Proof. intros P R. destruct (signed k) eqn:S; [apply signed_value; assumption|apply unsigned_value; assumption]. Qed.
Lemma to_signed_mod n x : 0 <= n -> to_signed n (x mod 2 ^ n) = to_signed n x.
Proof. intro H. unfold to_signed. rewrite Z.mod_mod; [reflexivity|]. pose proof (pow2_pos n H). lia. Qed.
Lemma to_signed_id n x : 0 < n -> - 2 ^ (n - 1) <= x < 2 ^ (n - 1) -> to_signed n x = x.
Proof. intros H R. rewrite to_signed_reduce. apply reduce_id; assumption. Qed.
Lemma range_signed k z : promoted k -> signed k = true -> in_range k z -> - 2 ^ (8 * bytes k - 1) <= z < 2 ^ (8 * bytes k - 1).
Proof. intros P S [L H]. unfold lo, hi in *. rewrite S, (promoted_width k P) in *. lia. Qed.
Lemma range_unsigned k z : promoted k -> signed k = false -> in_range k z -> 0 <= z < 2 ^ (8 * bytes k).
Proof. intros P S [L H]. unfold lo, hi in *. rewrite S, (promoted_width k P) in *. lia. Qed.

Lemma divide_ok st ty k l a r b : Denotes ty k -> promoted k -> Valid st l -> HasValue st l k a -> Valid st r -> HasValue st r k b -> b <> 0 -> representable k (Z.quot a b) = true ->
  exists c st1, divide sym pic ty l r = Some c /\ run c st = Some st1 /\ Quiet st st1 /\ regs st1 AX mod 2 ^ (8 * bytes k) = Z.quot a b mod 2 ^ (8 * bytes k) /\
    regs st1 DX mod 2 ^ (8 * bytes k) = Z.rem a b mod 2 ^ (8 * bytes k).
Proof.
  intros D P Vl Hl Vr Hr Nz Rq. pose proof (promoted_big k P) as B. pose proof (big_std _ B) as Sw. assert (W : 0 < 8 * bytes k <= 64) by (unfold big in B; lia). pose proof (pow2_pos (8 * bytes k) ltac:(lia)) as P8.
  pose proof (address_big st l k a Vl Hl) as Al. pose proof (address_big st r k b Vr Hr) as Ar.
  destruct (lc st l k a 0 (v_type l) k Vl Hl (proj1 Hl) B ltac:(lia) Al) as (c & st1 & Ec & E1 & F1 & R1). pose proof (quiet_load _ _ _ F1 ltac:(lia)) as Q1. cbn [reg_of] in *.
  set (n := 8 * bytes k) in *.
  (* the upper half *)
  assert (UP : exists x st2, (if is_signed (v_type l) then do _ <- assert ((size_of (v_type l) =? 8) || (size_of (v_type l) =? 4)); Some [Cxy (size_of (v_type l))] else Some [Op XOR 8 (SReg DX) DX]) = Some x /\
     run x st1 = Some st2 /\ Frame [DX] st1 st2 /\ regs st2 DX mod 2 ^ n = (if signed k && (a <? 0) then -1 else 0) mod 2 ^ n).
  { rewrite (denotes_is_signed _ _ (proj1 Hl)), (denotes_size _ _ (proj1 Hl)). destruct (signed k) eqn:S; cbn [andb].
    - assert (X : (bytes k =? 8) || (bytes k =? 4) = true) by (destruct B as [-> | ->]; reflexivity). rewrite X. cbn [assert]. eexists; eexists. split; [reflexivity|]. split; [reflexivity|]. split; [apply frame_setw|].
      rewrite setw_same, merge_low by exact Sw. unfold bits. fold n. rewrite <- to_signed_mod by lia. rewrite R1.
      pose proof (low_value k a P (proj1 (proj2 Hl))) as L. rewrite S in L. fold n in L. rewrite L. reflexivity.
    - eexists; eexists. split; [reflexivity|]. cbn [exec step imm_ok sread]. split; [reflexivity|]. split; [apply frame_setw|]. rewrite setw_same, merge_big by (right; reflexivity).
      unfold alu_val. rewrite Z.lxor_nilpotent. change (8 * 8) with 64. rewrite Z.mod_0_l by (unfold bits; lia). rewrite Z.mod_0_l by lia. reflexivity. }
  destruct UP as (x & st2 & Ex & E2 & F2 & R2). pose proof (quiet_trans _ _ _ Q1 (quiet_reg DX _ _ F2 Logic.I)) as Q2.
  assert (RA2 : regs st2 AX mod 2 ^ n = a mod 2 ^ n) by (rewrite (proj2 F2); [exact R1|cbn; intros [X|[]]; discriminate]).
  (* the instruction *)
  assert (DIV : forall s s0 u, Quiet st s0 -> regs s0 AX = regs st2 AX -> regs s0 DX = regs st2 DX -> sread rbp glob s0 s (bytes k) = Some u -> u = b mod 2 ^ n ->
    exists st3, run [(if signed k then IdivI else DivI) (bytes k) s] s0 = Some st3 /\ Quiet st st3 /\ regs st3 AX mod 2 ^ n = Z.quot a b mod 2 ^ n /\ regs st3 DX mod 2 ^ n = Z.rem a b mod 2 ^ n).
  { intros s s0 u Q Ra Rd Su Hu.
    assert (Sb : forall y z1 z2, y = setw (setw s0 (bytes k) AX z1) (bytes k) DX z2 -> Quiet st y /\ regs y AX mod 2 ^ n = z1 mod 2 ^ n /\ regs y DX mod 2 ^ n = z2 mod 2 ^ n).
    { intros y z1 z2 ->. split; [|split].
      - apply (quiet_trans _ _ _ Q). eapply quiet_trans; [|eapply quiet_reg; [apply frame_setw|exact Logic.I]]; eapply quiet_reg; [apply frame_setw|exact Logic.I].
      - rewrite setw_other by discriminate. rewrite setw_same. unfold n. apply merge_low. exact Sw.
      - rewrite setw_same. unfold n. apply merge_low. exact Sw. }
    pose proof (low_value k a P (proj1 (proj2 Hl))) as La. pose proof (low_value k b P (proj1 (proj2 Hr))) as Lb. fold n in La, Lb.
    destruct (signed k) eqn:S; cbn [exec step]; rewrite Su; unfold bits; fold n; rewrite Ra, Rd, RA2, R2, Hu; cbn [andb].
    - pose proof (range_signed k a P S (proj1 (proj2 Hl))) as Ba. fold n in Ba. rewrite Lb.
      assert (E : to_signed (2 * n) ((if a <? 0 then -1 else 0) mod 2 ^ n * 2 ^ n + a mod 2 ^ n) = a).
      { assert (H2 : 2 ^ (2 * n) = 2 ^ n * 2 ^ n) by (rewrite <- Z.pow_add_r by lia; f_equal; lia).
        assert (H3 : 2 ^ (2 * n - 1) = 2 ^ (n - 1) * 2 ^ n) by (rewrite <- Z.pow_add_r by lia; f_equal; lia).
        pose proof (pow2_pos (n - 1) ltac:(lia)) as Pn1. assert (H4 : 2 ^ n = 2 * 2 ^ (n - 1)) by (rewrite <- Z.pow_succ_r by lia; f_equal; lia).
        rewrite <- to_signed_mod by lia. replace (((if a <? 0 then -1 else 0) mod 2 ^ n * 2 ^ n + a mod 2 ^ n) mod 2 ^ (2 * n)) with (a mod 2 ^ (2 * n)).
        { rewrite to_signed_mod by lia. apply to_signed_id; [lia|]. rewrite H3. nia. }
        destruct (Z.ltb_spec a 0).
        - assert (M1 : -1 mod 2 ^ n = 2 ^ n - 1) by (symmetry; apply (Z.mod_unique _ _ (-1)); lia).
          assert (M2 : a mod 2 ^ n = a + 2 ^ n) by (symmetry; apply (Z.mod_unique _ _ (-1)); lia). rewrite M1, M2.
          replace ((2 ^ n - 1) * 2 ^ n + (a + 2 ^ n)) with (a + 1 * 2 ^ (2 * n)) by (rewrite H2; ring). rewrite Z.mod_add by lia. reflexivity.
        - rewrite Z.mod_0_l by lia. rewrite (Z.mod_small a (2 ^ n)) by lia. f_equal. }
      rewrite E. rewrite (proj2 (Z.eqb_neq b 0) Nz). unfold representable in Rq. rewrite andb_true_iff, !Z.leb_le in Rq. unfold lo, hi in Rq. rewrite S, (promoted_width k P) in Rq. fold n in Rq.
      rewrite (proj2 (Z.leb_le _ _)), (proj2 (Z.ltb_lt _ _)) by lia. cbn [andb]. eexists. split; [reflexivity|]. apply Sb. reflexivity.
    - pose proof (range_unsigned k a P S (proj1 (proj2 Hl))) as Ba. pose proof (range_unsigned k b P S (proj1 (proj2 Hr))) as Bb. fold n in Ba, Bb. rewrite La, Lb, Z.mod_0_l by lia.
      rewrite Z.mul_0_l, Z.add_0_l, (proj2 (Z.eqb_neq b 0) Nz). rewrite (Z.quot_div_nonneg a b), (Z.rem_mod_nonneg a b) by lia.
      rewrite (proj2 (Z.ltb_lt (a / b) _)) by (apply Z.div_lt_upper_bound; nia). eexists. split; [reflexivity|]. apply Sb. reflexivity. }
  assert (C : exists c2 st3, (if direct r && negb (is_global_offset sym pic (v_sym r)) && negb (is_register_allocated sym r) && negb (is_field r) then do m <- location_of sym r; Some [(if signed k then IdivI else DivI) (bytes k) (SMem m)]
      else do (cx, c') <- load_cast 1 r (v_type r); Some (c' ++ [(if signed k then IdivI else DivI) (bytes k) (SReg cx)])) = Some c2 /\ run c2 st2 = Some st3 /\ Quiet st st3 /\ regs st3 AX mod 2 ^ n = Z.quot a b mod 2 ^ n /\ regs st3 DX mod 2 ^ n = Z.rem a b mod 2 ^ n).
  { destruct (direct r && negb (is_global_offset sym pic (v_sym r)) && negb (is_register_allocated sym r) && negb (is_field r)) eqn:C.
    - rewrite !andb_true_iff, !negb_true_iff, direct_spec in C. destruct C as (((K & Gl) & Rl) & Fd).
      pose proof (in_place st r k b K Gl Fd Vr Hr) as X. unfold allocated_register in X. rewrite Rl in X. destruct X as (m & y & Em & _ & X & Y). rewrite Em.
      destruct (DIV (SMem m) st2 (rd (mem st2) y (bytes k)) Q2 eq_refl eq_refl) as (st3 & E3 & Q3 & R3); [exact (proj2 (Y st2))|rewrite (proj1 Q2); exact X|]. eauto 10.
    - destruct (lc st2 r k b 1 (v_type r) k (quiet_valid _ _ _ _ _ _ Q2 Vr) (quiet_value _ _ _ _ _ _ _ _ Q2 Hr) (proj1 Hr) B ltac:(lia) Ar) as (c' & st3 & Ec' & E3 & F3 & R3).
      rewrite Ec'. cbn [reg_of] in *. destruct (DIV (SReg CX) st3 (regs st3 CX mod 2 ^ n)) as (st4 & E4 & Q4 & R4).
      { exact (quiet_trans _ _ _ Q2 (quiet_load st2 st3 1 F3 ltac:(lia))). } { apply (proj2 F3). cbn. intros [X|[X|[]]]; discriminate. } { apply (proj2 F3). cbn. intros [X|[X|[]]]; discriminate. }
      { reflexivity. } { exact R3. }
      eexists; exists st4. split; [reflexivity|]. rewrite exec_app, E3. auto. }
  destruct C as (c2 & st3 & Ec2 & E3 & Q3 & R3). unfold divide. rewrite Ec, Ex, (denotes_is_signed _ _ D), (denotes_size _ _ (proj1 Hr)).
  assert (Eo : forall s, (if signed k then IdivI else DivI) (bytes k) s = (if signed k then IdivI (bytes k) s else DivI (bytes k) s)) by (intro; destruct (signed k); reflexivity).
  rewrite Ec2. eexists; exists st3. split; [reflexivity|]. rewrite exec_app, E1, exec_app, E2. auto.
Qed.
Lemma exact_representable k x v : promoted k -> (signed k = false -> 0 <= x < 2 ^ width k) -> exact k x = Some v -> representable k x = true /\ v mod 2 ^ (8 * bytes k) = x mod 2 ^ (8 * bytes k).
Proof.
  intros P U E. split; [|apply (exact_low k x v P E)]. unfold exact in E. destruct (signed k) eqn:S; [destruct (representable k x); [reflexivity|discriminate]|].
  unfold representable, lo, hi. rewrite S. specialize (U eq_refl). rewrite (proj2 (Z.leb_le _ _)), (proj2 (Z.leb_le _ _)) by lia. reflexivity.
Qed.
Lemma quot_range k a b : signed k = false -> promoted k -> in_range k a -> in_range k b -> b <> 0 -> 0 <= Z.quot a b < 2 ^ width k.
Proof.
  intros S P Ha Hb N. pose proof (range_unsigned k a P S Ha) as Ba. pose proof (range_unsigned k b P S Hb) as Bb. rewrite (promoted_width k P). rewrite Z.quot_div_nonneg by lia. split; [apply Z.div_pos; lia|]. apply Z.div_lt_upper_bound; nia.
Qed.
Lemma div_ok st t ty k l a r b v : Denotes ty k -> promoted k -> Valid st l -> HasValue st l k a -> Valid st r -> HasValue st r k b -> target_ok st t (bytes k) -> c_binary Div k a b = Some v ->
  exists x c st', compile_div sym pic t ty l r = Some (x, c) /\ run c st = Some st' /\ Done st st' t x (bytes k) v.
Proof.
  intros D P Vl Hl Vr Hr T E. cbn [c_binary] in E. destruct (Z.eqb_spec b 0) as [|N]; [discriminate|].
  destruct (exact_representable k (Z.quot a b) v P (fun S => quot_range k a b S P (proj1 (proj2 Hl)) (proj1 (proj2 Hr)) N) E) as [Rq Ev].
  destruct (divide_ok st ty k l a r b D P Vl Hl Vr Hr N Rq) as (c & st1 & Ec & E1 & Q & Ra & _). rewrite <- Ev in Ra.
  destruct (finish st st1 AX (bytes k) t v Q (or_introl eq_refl) Ra T) as (s & st' & Es & Er & Dn). unfold compile_div. rewrite Ec, Es. do 2 eexists; exists st'. split; [reflexivity|]. rewrite exec_app, E1. auto.
Qed.
Lemma mod_ok st t ty k l a r b v : Denotes ty k -> promoted k -> Valid st l -> HasValue st l k a -> Valid st r -> HasValue st r k b -> target_ok st t (bytes k) -> c_binary Mod k a b = Some v ->
  exists x c st', compile_mod sym pic t ty l r = Some (x, c) /\ run c st = Some st' /\ Done st st' t x (bytes k) v.
Proof.
  intros D P Vl Hl Vr Hr T E. cbn [c_binary] in E. destruct (Z.eqb_spec b 0) as [|N]; [discriminate|]. destruct (representable k (Z.quot a b)) eqn:Rq; [|discriminate]. injection E as <-.
  destruct (divide_ok st ty k l a r b D P Vl Hl Vr Hr N Rq) as (c & st1 & Ec & E1 & Q & _ & Rd).
  destruct (finish st st1 DX (bytes k) t _ Q (or_intror eq_refl) Rd T) as (s & st' & Es & Er & Dn). unfold compile_mod. rewrite Ec, Es. do 2 eexists; exists st'. split; [reflexivity|]. rewrite exec_app, E1. auto.
Qed.

(* --- and, or, xor --- *)
Lemma lo_ok st v k z r : Valid st v -> HasValue st v k z -> promoted k -> scratch r ->
  exists c st', load sym pic v r = Some c /\ run c st = Some st' /\ Frame [r; R11] st st' /\ Quiet st st' /\ regs st' r mod 2 ^ (8 * bytes k) = z mod 2 ^ (8 * bytes k).
Proof.
  intros V H P Sr. destruct (load_ok' rbp glob sym pic st v k z r V H Sr) as (c & st' & A & B & C & D). exists c, st'. rewrite (denotes_size _ _ (proj1 H)) in D.
  replace (Z.max 4 (bytes k)) with (bytes k) in D by (pose proof (promoted_big k P); unfold big in *; lia). repeat (split; [assumption|]). split; [|exact D].
  apply (frame_quiet _ _ _ C). repeat constructor. exact Sr.
Qed.
Definition bit_op (o : alu) (a b : Z) : Z := match o with AND => Z.land a b | OR => Z.lor a b | XOR => Z.lxor a b | _ => 0 end.
Lemma bit_low o a b u w n : 0 <= n -> (o = AND \/ o = OR \/ o = XOR) -> u mod 2 ^ n = a mod 2 ^ n -> w mod 2 ^ n = b mod 2 ^ n -> bit_op o u w mod 2 ^ n = bit_op o a b mod 2 ^ n.
Proof. intros N [-> | [-> | ->]] A B; cbn [bit_op]; rewrite ?land_low, ?lor_low, ?lxor_low, A, B by lia; rewrite <- ?land_low, <- ?lor_low, <- ?lxor_low by lia; reflexivity. Qed.
Lemma bitwise_op_ok st t o k l a r b : (o = AND \/ o = OR \/ o = XOR) -> promoted k -> Valid st l -> HasValue st l k a -> Valid st r -> HasValue st r k b -> target_ok st t (bytes k) ->
  exists x c st', compile_bitwise sym pic t o l r = Some (x, c) /\ run c st = Some st' /\ Done st st' t x (bytes k) (bit_op o a b).
Proof.
  intros Ho P Vl Hl Vr Hr T. pose proof (promoted_big k P) as B. pose proof (big_std _ B) as Sw. assert (W : 0 < 8 * bytes k <= 64) by (unfold big in B; lia). pose proof (pow2_pos (8 * bytes k) ltac:(lia)) as P8.
  assert (ALU : forall d s, alu_val o (bytes k) d s = bit_op o d s mod 2 ^ (8 * bytes k)) by (intros; destruct Ho as [-> | [-> | ->]]; reflexivity).
  assert (BC : forall x y, bit_op o x y = bit_op o y x) by (intros; destruct Ho as [-> | [-> | ->]]; cbn [bit_op]; auto using Z.land_comm, Z.lor_comm, Z.lxor_comm).
  assert (IMM : forall v z u y, Valid st v -> HasValue st v k z -> v_kind u = IMMEDIATE -> Valid st u -> HasValue st u k y -> bytes k < 8 -> exists c st1, (do c <- load sym pic v AX; do i <- value_of u; Some (c ++ [Op o (bytes k) (SImm i) AX])) = Some c /\ run c st = Some st1 /\
     Quiet st st1 /\ regs st1 AX mod 2 ^ (8 * bytes k) = bit_op o z y mod 2 ^ (8 * bytes k)).
  { intros v z u y Vv Hv Ku Vu Hu W8. destruct (lo_ok st v k z AX Vv Hv P Logic.I) as (c & st1 & Ec & E1 & F1 & Q1 & R1). destruct (const_value st u k y (8 * bytes k) (or_intror Ku) Vu Hu W) as [Eu Hi]. rewrite Ec, Eu.
    destruct (op_ok st1 o (bytes k) (SImm (v_imm u)) AX (v_imm u mod 2 ^ (8 * bytes k)) Sw) as (st2 & E2 & F2 & R2); [cbn [imm_ok]; rewrite (proj2 (Z.ltb_lt _ _) W8); reflexivity|reflexivity|].
    eexists; exists st2. split; [reflexivity|]. split; [rewrite exec_app, E1; exact E2|]. split; [exact (quiet_trans _ _ _ Q1 (quiet_reg _ _ _ F2 Logic.I))|]. rewrite R2, ALU. apply bit_low; [lia|exact Ho| |]; rewrite Z.mod_mod by lia; assumption. }
  unfold compile_bitwise. rewrite (denotes_size _ _ (proj1 Hl)), (denotes_size _ _ (proj1 Hr)), Z.eqb_refl. cbn [assert].
  match goal with |- context [do c <- ?e; do s <- store_opt sym pic AX t; _] => assert (C : exists c st1, e = Some c /\ run c st = Some st1 /\ Quiet st st1 /\ regs st1 AX mod 2 ^ (8 * bytes k) = bit_op o a b mod 2 ^ (8 * bytes k)) end.
  { destruct (vkind_eqb (v_kind r) IMMEDIATE && (bytes k <? 8)) eqn:C1; [|destruct (vkind_eqb (v_kind l) IMMEDIATE && (bytes k <? 8)) eqn:C2].
    - apply andb_true_iff in C1. rewrite Z.ltb_lt in C1. apply IMM; try assumption; [|tauto]. destruct (v_kind r); try reflexivity; destruct C1; discriminate.
    - apply andb_true_iff in C2. rewrite Z.ltb_lt in C2. rewrite (BC a b). apply IMM; try assumption; [|tauto]. destruct (v_kind l); try reflexivity; destruct C2; discriminate.
    - destruct (lo_ok st l k a AX Vl Hl P Logic.I) as (c & st1 & Ec & E1 & F1 & Q1 & R1).
      destruct (lo_ok st1 r k b CX (quiet_valid _ _ _ _ _ _ Q1 Vr) (quiet_value _ _ _ _ _ _ _ _ Q1 Hr) P Logic.I) as (c' & st2 & Ec' & E2 & F2 & Q2 & R2).
      assert (Ra : regs st2 AX = regs st1 AX) by (apply (proj2 F2); cbn; intros [X|[X|[]]]; discriminate).
      destruct (op_ok st2 o (bytes k) (SReg CX) AX _ Sw eq_refl eq_refl) as (st3 & E3 & F3 & R3). rewrite Ec, Ec'. eexists; exists st3. split; [reflexivity|].
      split; [rewrite exec_app, E1, exec_app, E2; exact E3|]. split; [exact (quiet_trans _ _ _ Q1 (quiet_trans _ _ _ Q2 (quiet_reg _ _ _ F3 Logic.I)))|].
      rewrite R3, ALU. apply bit_low; [lia|exact Ho| |]; unfold bits; rewrite Z.mod_mod by lia; congruence. }
  destruct C as (c & st1 & Ec & E1 & Q & R). rewrite Ec. destruct (finish st st1 AX (bytes k) t _ Q (or_introl eq_refl) R T) as (s & st' & Es & Er & Dn). rewrite Es. do 2 eexists; exists st'. split; [reflexivity|]. rewrite exec_app, E1. auto.
Qed.

(* --- shifts --- *)
Lemma shift_ok st t (left : bool) k l a r kr b v : promoted k -> is_pointer (v_type l) = false -> Valid st l -> HasValue st l k a -> Valid st r -> HasValue st r kr b -> target_ok st t (bytes k) -> c_shift left k a b = Some v ->
  exists x c st', compile_shift sym pic t (if left then SHL else if is_unsigned (v_type l) then SHR else SAR) l r = Some (x, c) /\ run c st = Some st' /\ Done st st' t x (bytes k) v.
Proof.
  intros P Np Vl Hl Vr Hr T E. pose proof (promoted_big k P) as B. pose proof (big_std _ B) as Sw. assert (W : 8 * bytes k = 32 \/ 8 * bytes k = 64) by (unfold big in B; lia). pose proof (pow2_pos (8 * bytes k) ltac:(lia)) as P8.
  set (o := if left then SHL else if is_unsigned (v_type l) then SHR else SAR).
  destruct (lo_ok st l k a AX Vl Hl P Logic.I) as (c & st1 & Ec & E1 & F1 & Q1 & R1).
  destruct (load_ok' rbp glob sym pic st1 r kr b CX (quiet_valid _ _ _ _ _ _ Q1 Vr) (quiet_value _ _ _ _ _ _ _ _ Q1 Hr) Logic.I) as (c' & st2 & Ec' & E2 & F2 & R2).
  assert (Q2 : Quiet st1 st2) by (apply (frame_quiet _ _ _ F2); repeat constructor).
  assert (Ra : regs st2 AX = regs st1 AX) by (apply (proj2 F2); cbn; intros [X|[X|[]]]; discriminate).
  unfold c_shift in E. rewrite (promoted_width k P) in E. destruct (Z.ltb_spec b 0); [discriminate|]. destruct (Z.leb_spec (8 * bytes k) b); [discriminate|]. cbn [orb] in E.
  assert (Cx : regs st2 CX mod 256 = b).
  { change 256 with (2 ^ 8). rewrite (mod_same_low _ b 8 (8 * Z.max 4 (size_of (v_type r)))) by (auto; lia). apply Z.mod_small. lia. }
  set (st3 := setw st2 (bytes k) AX (shift_val o (bytes k) (regs st2 AX mod 2 ^ bits (bytes k)) b)).
  assert (Cn : FieldModel.count (8 * bytes k) b = b) by (apply count_id; lia).
  assert (R : regs st3 AX mod 2 ^ (8 * bytes k) = v mod 2 ^ (8 * bytes k)).
  { subst st3. rewrite setw_same, merge_low by exact Sw. unfold bits. rewrite Ra, R1. subst o. destruct left.
    - destruct (signed k && (a <? 0)); [discriminate|]. rewrite (exact_low k _ v P E). cbn [shift_val]. unfold bits, shl. rewrite Cn, Z.mod_mod by lia. rewrite Z.shiftl_mul_pow2 by lia. apply mul_cong; auto. apply Z.mod_mod. lia.
    - injection E as <-. rewrite (denotes_is_unsigned _ _ (proj1 Hl) Np). pose proof (low_value k a P (proj1 (proj2 Hl))) as L. destruct (signed k) eqn:S; cbn [negb shift_val]; unfold bits.
      + unfold sar. rewrite Cn, L, Z.shiftr_div_pow2 by lia. apply Z.mod_mod. lia.
      + unfold shr. rewrite Cn, Z.mod_mod, L, Z.shiftr_div_pow2 by lia. reflexivity. }
  assert (Q3 : Quiet st st3) by (apply (quiet_trans _ _ _ Q1), (quiet_trans _ _ _ Q2); eapply quiet_reg; [apply frame_setw|exact Logic.I]).
  destruct (finish st st3 AX (bytes k) t v Q3 (or_introl eq_refl) R T) as (s & st' & Es & Er & Dn).
  unfold compile_shift. rewrite Ec, Ec', Es, (denotes_size _ _ (proj1 Hl)). do 2 eexists; exists st'. split; [reflexivity|]. rewrite exec_app, E1, exec_app, E2. cbn [app exec step]. rewrite Cx. fold st3. auto.
Qed.

(* --- casts --- *)
Lemma converted_low k a v : k <> Bool_ -> Converted k a v -> v mod 2 ^ (8 * bytes k) = a mod 2 ^ (8 * bytes k).
Proof.
  intros N H. assert (W : width k = 8 * bytes k) by (destruct k; try reflexivity; congruence). rewrite <- W. unfold Converted in H. destruct k; try congruence; destruct H as (_ & q & ->); apply Z.mod_add; cbn; lia.
Qed.
Lemma cast_ok st t ty k2 l k1 a v : Denotes ty k2 -> Valid st l -> HasValue st l k1 a -> Converted k2 a v -> (k2 = Bool_ -> k1 = Bool_) -> (v_kind l = ADDRESS -> size_of ty = 8) -> target_ok st t (bytes k2) ->
  (match t with Some t => is_field t = true -> is_register_allocated sym l = true -> type_equal (v_type l) ty = false | None => True end) ->
  exists x c st', compile_cast sym pic t ty l = Some (x, c) /\ run c st = Some st' /\ Done st st' t x (bytes k2) v.
Proof.
  intros D V H Cv Bl Ad T Ex. rewrite (denotes_size _ _ D) in Ad. pose proof (bytes_std k2) as Sw. pose proof (pow2_pos (8 * bytes k2) ltac:(unfold std_size in Sw; lia)) as P8.
  assert (W : 0 < 8 * bytes k2 <= 64) by (unfold std_size in Sw; lia).
  assert (Ev : forall n, 0 <= n <= 8 * bytes k2 -> a mod 2 ^ n = v mod 2 ^ n).
  { intros n Hn. destruct k2; try (symmetry; apply (mod_same_low _ _ n _ Hn), converted_low; [discriminate|exact Cv]).
    assert (v = a); [|congruence]. specialize (Bl eq_refl). subst k1. destruct H as (_ & [L Hh] & _). cbn in L, Hh, Cv. lia. }
  destruct (load_cast_ok rbp glob sym pic st l k1 a 0 ty k2 V H D ltac:(lia) Ad) as (c & st1 & Ec & E1 & F1 & R1). pose proof (quiet_load _ _ _ F1 ltac:(lia)) as Q1. cbn [reg_of] in *.
  assert (R : regs st1 AX mod 2 ^ (8 * bytes k2) = v mod 2 ^ (8 * bytes k2)).
  { rewrite <- Ev by lia. apply (mod_same_low _ _ _ (8 * Z.max 4 (bytes k2))); [lia|exact R1]. }
  unfold compile_cast. destruct t as [t|]; [|exists AX, c, st1; split; [exact Ec|]; split; [exact E1|]; apply quiet_computed; assumption].
  destruct T as [T Ts]. set (t' := with_type t ty).
  assert (T' : ValidTarget st t').
  { destruct T as (K & _ & T). split; [exact K|]. split; [exists k2; exact D|]. destruct T as [(O & Fv & T) | T]; [left|right; exact T]. split; [exact O|]. split.
    - intro Fd. specialize (Fv Fd). rewrite Ts in Fv. change (v_type t') with ty. rewrite (denotes_size _ _ D). exact Fv.
    - change (v_kind t') with (v_kind t). destruct K as [K | K]; rewrite K in *; exact T. }
  assert (S' : size_of (v_type t') = bytes k2) by (apply denotes_size, D).
  assert (AS : forall st', Assigned st st' t' v -> Assigned st st' t v).
  { intros st' A. unfold ArithSpec.Assigned in *. rewrite S' in A. rewrite Ts. exact A. }
  assert (GEN : exists x c st', (do (ax, c) <- load_cast 0 l ty; do s <- store sym pic ax t'; Some (ax, c ++ s)) = Some (x, c) /\ run c st = Some st' /\ Assigned st st' t v).
  { rewrite <- S' in R. destruct (store_ok rbp glob sym pic st1 AX t' v (quiet_target _ _ _ _ _ _ Q1 T') (or_introl eq_refl) R) as (s & st' & Es & Er & A).
    rewrite Ec, Es. do 2 eexists; exists st'. split; [reflexivity|]. rewrite exec_app, E1. split; [exact Er|]. apply AS, (quiet_assigned st st1); assumption. }
  destruct (type_equal (v_type l) ty) eqn:Te; [|exact GEN]. apply type_equal_eq in Te.
  assert (B1 : bytes k1 = bytes k2) by (rewrite <- (denotes_size _ _ (proj1 H)), Te; apply denotes_size, D).
  destruct (is_int_constant l) eqn:Ci.
  - destruct (const_value st l k1 a 64 (or_introl Ci) V H ltac:(lia)) as [Eu Hi]. rewrite Eu.
    assert (Src : src_ok (OImm (v_imm l)) (size_of (v_type t'))).
    { rewrite S'. cbn. unfold is_int_constant in Ci. apply andb_true_iff in Ci. destruct Ci as [_ Ci]. apply orb_true_iff in Ci. rewrite (denotes_size _ _ (proj1 H)), B1, Z.ltb_lt in Ci. destruct Ci; [left; lia|right; assumption]. }
    assert (X : exists c st', store_op sym pic (OImm (v_imm l)) t' = Some c /\ run c st = Some st' /\ Assigned st st' t' v).
    { destruct (is_field t') eqn:Fd.
      - destruct T' as (K & Dx & [V' | (_ & _ & _ & X)]); [|congruence]. destruct V' as (O & Fv & V'). destruct (Fv Fd) as (Wd & Fo & Fe).
        destruct (store_field rbp glob sym pic st (OImm (v_imm l)) t' a) as (c1 & st' & E & Er & A); [split; [exact K|]; split; [exact Dx|]; left; split; [exact O|]; split; [exact Fv|exact V']|exact Fd| |].
        { intros n Hn. apply (mod_same_low _ _ n 64); [lia|exact Hi]. }
        exists c1, st'. split; [exact E|]. split; [exact Er|]. apply (assigned_cong st st' t' a v (bytes k2)); auto; [lia|intros; lia|apply Ev; lia].
      - apply store_plain; auto. cbn [src_val]. rewrite S', <- Ev by lia. apply (mod_same_low _ _ _ 64); [lia|exact Hi]. }
    destruct X as (c1 & st' & E & Er & A). rewrite E. exists AX, c1, st'. split; [reflexivity|]. split; [exact Er|]. apply AS, A.
  - destruct (allocated_register sym l) as [q|] eqn:Aq; [|exact GEN].
    assert (Ra : is_register_allocated sym l = true) by (unfold allocated_register in Aq; destruct (is_register_allocated sym l); [reflexivity|discriminate]).
    assert (Fd : is_field t' = false).
    { destruct (is_field t') eqn:Fd; [|reflexivity]. exfalso. specialize (Ex Fd Ra). discriminate Ex. }
    assert (Kl : v_kind l = DIRECT) by (unfold is_register_allocated in Ra; destruct (v_kind l); cbn in Ra; try discriminate; reflexivity).
    destruct H as (Dl & _ & H). rewrite Kl in H. destruct H as (p & Pl & H). destruct V as (_ & _ & V'). rewrite Kl in V'. destruct V' as [_ V'].
    pose proof (allocated_home rbp glob sym l Kl) as A. unfold ArithSpec.place_of in Pl. rewrite Kl in Pl. injection Pl as <-. destruct (home (v_sym l)) as [i|y]; [|destruct A; congruence].
    destruct A as [A _]. rewrite A in Aq. injection Aq as <-. destruct V' as [_ Fl]. rewrite Fl, (denotes_size _ _ Dl), B1 in H. cbn [contents] in H.
    destruct (store_plain rbp glob sym pic st (OReg (Tmp i)) t' v T' Fd Logic.I) as (c1 & st' & E & Er & As). { cbn [src_val]. rewrite S', <- Ev by lia. exact H. }
    rewrite E. exists (Tmp i), c1, st'. split; [reflexivity|]. split; [exact Er|]. apply AS, As.
Qed.

Lemma allocated_place st t : is_register_allocated sym t = true -> exists i, place_of st t = Some (InReg i).
Proof.
  intro Ra. assert (K : v_kind t = DIRECT) by (unfold is_register_allocated in Ra; destruct (v_kind t); cbn in Ra; try discriminate; reflexivity).
  pose proof (allocated_home rbp glob sym t K) as A. unfold ArithSpec.place_of. rewrite K. destruct (home (v_sym t)) as [i|y]; [eauto|]. destruct A as (_ & A & _). congruence.
Qed.
Lemma equal_temporary st t v : is_register_allocated sym t = true -> operand_equal t v = true -> SameTemporary rbp glob sym st (Some t) v.
Proof.
  intros Ra Oe. destruct (allocated_place st t Ra) as (i & Pi). exists i. split; [exact Pi|]. rewrite <- Pi. destruct (operand_equal_spec _ _ Oe) as (_ & Es & Ek & _ & _ & Eo).
  assert (K : v_kind t = DIRECT) by (unfold is_register_allocated in Ra; destruct (v_kind t); cbn in Ra; try discriminate; reflexivity).
  unfold ArithSpec.place_of. rewrite <- Ek, K, Es, Eo. reflexivity.
Qed.
Lemma constant_immediate v : is_int_constant v = true -> v_kind v = IMMEDIATE.
Proof. unfold is_int_constant. destruct (v_kind v); cbn; intro; try discriminate; reflexivity. Qed.
Lemma not_excluded st t l r : ~ (SameTemporary rbp glob sym st t l /\ v_kind r = IMMEDIATE) -> ~ (SameTemporary rbp glob sym st t r /\ v_kind l = IMMEDIATE) -> add_excluded t l r = false.
Proof.
  intros A B. destruct (add_excluded t l r) eqn:E; [|reflexivity]. destruct t as [t|]; [|discriminate]. cbn [add_excluded] in E. apply andb_true_iff in E. destruct E as [Ra E].
  apply orb_true_iff in E. destruct E as [E | E]; apply andb_true_iff in E; destruct E as [E1 E2]; exfalso; [apply B|apply A]; (split; [apply equal_temporary; assumption|apply constant_immediate; assumption]).
Qed.

Theorem binary_all st t op ty k l r a b v : Denotes ty k -> promoted k -> arithmetic op -> Valid st l -> HasValue st l k a -> Valid st r -> HasValue st r k b -> c_binary op k a b = Some v -> target_ok st t (size_of ty) ->
  (op = Add -> ~ (SameTemporary rbp glob sym st t l /\ v_kind r = IMMEDIATE) /\ ~ (SameTemporary rbp glob sym st t r /\ v_kind l = IMMEDIATE)) ->
  (op = Mul -> ~ (v_kind l = DIRECT /\ is_field l = true)) ->
  exists x c st', compile_assign sym pic t (EBin op ty l r) = Some (x, c) /\ run c st = Some st' /\ Done st st' t x (size_of ty) v.
Proof.
  intros D P Ho Vl Hl Vr Hr E T Xa Xm. rewrite (denotes_size _ _ D) in *. pose proof (promoted_big k P) as B.
  destruct op; try contradiction; cbn [compile_assign]; cbn [c_binary] in E.
  all: try (injection E as <-; match goal with |- exists x c st', compile_bitwise _ _ _ ?o _ _ = _ /\ _ => apply (bitwise_op_ok st t o k l a r b); auto end).
  - apply (mul_ok st t ty k l a r b v); auto; [|apply exact_low; assumption]. intros K F. destruct (Xm eq_refl). auto.
  - apply (div_ok st t ty k l a r b v); auto.
  - apply (mod_ok st t ty k l a r b v); auto.
  - apply (add_ok st t ty k l k a r k b v); auto; [|apply exact_low; assumption]. destruct (Xa eq_refl). apply (not_excluded st); assumption.
  - apply (sub_ok st t ty k l k a r k b v); auto. apply exact_low; assumption.
Qed.
Theorem address_all st t (plus : bool) ty l r kl kr k a b : Denotes ty k -> bytes k = 8 -> Valid st l -> HasValue st l kl a -> Valid st r -> HasValue st r kr b -> size_of (v_type l) = 8 -> size_of (v_type r) = 8 -> target_ok st t 8 ->
  (plus = true -> ~ (SameTemporary rbp glob sym st t l /\ v_kind r = IMMEDIATE) /\ ~ (SameTemporary rbp glob sym st t r /\ v_kind l = IMMEDIATE)) ->
  exists x c st', compile_assign sym pic t (EBin (if plus then Add else Sub) ty l r) = Some (x, c) /\ run c st = Some st' /\ Done st st' t x 8 (if plus then a + b else a - b).
Proof.
  intros D B8 Vl Hl Vr Hr Sl Sr T X. rewrite (denotes_size _ _ (proj1 Hl)) in Sl. rewrite (denotes_size _ _ (proj1 Hr)) in Sr. rewrite <- B8 in *. assert (B : big (bytes k)) by (right; exact B8).
  destruct plus; cbn [compile_assign].
  - apply (add_ok st t ty k l kl a r kr b); auto. destruct (X eq_refl). apply (not_excluded st); assumption.
  - apply (sub_ok st t ty k l kl a r kr b); auto.
Qed.
End Ops.
