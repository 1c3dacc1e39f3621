(* Proofs about variable argument lists (C51). *)
From Coq Require Import List ZArith Bool Lia.
From Verif Require Import Util Bytes TypeModel LayoutModel AbiModel AbiSpec CallModel CallProofs SysvSpec SysvProofs VaModel VaSpec.
Import ListNotations.
Open Scope Z_scope.

(* --- where arguments are, and what is left --- *)
Lemma after_app xs : forall ys F V o, after (xs ++ ys) F V o = let '(F', V', o') := after xs F V o in after ys F' V' o'.
Proof.
  induction xs as [|[l n] xs IH]; intros ys F V o; [reflexivity|]. cbn [app after]. destruct (assign l F V) as [[[rs F'] V']|]; apply IH.
Qed.
Lemma skipn_cons_nth {A} n (l : list A) x l' : skipn n l = x :: l' -> nth_error l n = Some x /\ l' = skipn (S n) l /\ (n < length l)%nat.
Proof.
  revert l. induction n as [|n IH]; intros [|y l] E; try discriminate; cbn in E.
  - injection E as <- <-. cbn. repeat split; lia.
  - destruct (IH _ E) as (A1 & A2 & A3). cbn [length nth_error skipn]. repeat split; auto; lia.
Qed.
Lemma assign_skip l : forall a b rs F V, assign l (skipn a integer_registers) (skipn b vector_registers) = Some (rs, F, V) -> (a <= 6)%nat -> (b <= 8)%nat ->
  F = skipn (a + count_cls INTEGER l) integer_registers /\ V = skipn (b + count_cls SSE l) vector_registers /\
  (a + count_cls INTEGER l <= 6)%nat /\ (b + count_cls SSE l <= 8)%nat.
Proof.
  unfold count_cls. induction l as [|c l IH]; intros a b rs F V E A B; cbn [assign] in E.
  - injection E as <- <- <-. cbn. rewrite !Nat.add_0_r. auto.
  - destruct c; try discriminate.
    + destruct (skipn a integer_registers) as [|r I'] eqn:Q; [discriminate|]. apply skipn_cons_nth in Q. destruct Q as (_ & -> & L).
      destruct (assign l (skipn (S a) integer_registers) (skipn b vector_registers)) as [[[rs' F'] V']|] eqn:Q; [|discriminate]. cbn in E. injection E as <- <- <-. cbn [length integer_registers] in L.
      destruct (IH _ _ _ _ _ Q) as (I1 & I2 & I3 & I4); [lia|lia|]. cbn [countb cls_eqb]. rewrite <- !Nat.add_succ_comm. auto.
    + destruct (skipn b vector_registers) as [|r X'] eqn:Q; [discriminate|]. apply skipn_cons_nth in Q. destruct Q as (_ & -> & L).
      destruct (assign l (skipn a integer_registers) (skipn (S b) vector_registers)) as [[[rs' F'] V']|] eqn:Q; [|discriminate]. cbn in E. injection E as <- <- <-. cbn [length vector_registers] in L.
      destruct (IH _ _ _ _ _ Q) as (I1 & I2 & I3 & I4); [lia|lia|]. cbn [countb cls_eqb]. rewrite <- !Nat.add_succ_comm. auto.
Qed.
Lemma after_skip xs : forall a b o, (a <= 6)%nat -> (b <= 8)%nat -> exists a' b' o',
  after xs (skipn a integer_registers) (skipn b vector_registers) o = (skipn a' integer_registers, skipn b' vector_registers, o') /\ (a' <= 6)%nat /\ (b' <= 8)%nat.
Proof.
  induction xs as [|[l n] xs IH]; intros a b o A B; [exists a, b, o; auto|]. cbn [after].
  destruct (assign l (skipn a integer_registers) (skipn b vector_registers)) as [[[rs F] V]|] eqn:E; [|apply IH; assumption].
  destruct (assign_skip _ _ _ _ _ _ E A B) as (-> & -> & A' & B'). apply IH; assumption.
Qed.
Lemma after_mono xs : forall F V o, Forall (fun x => 0 <= snd x) xs -> o <= snd (after xs F V o).
Proof.
  induction xs as [|[l n] xs IH]; intros F V o P; [cbn; lia|]. inversion P as [|? ? P1 P2]; subst. cbn [snd] in P1. cbn [after].
  destruct (assign l F V) as [[[rs F'] V']|]; [apply IH, P2|]. specialize (IH F V (o + 8 * ((n + 7) / 8)) P2).
  pose proof (Z.div_pos (n + 7) 8 ltac:(lia) ltac:(lia)). lia.
Qed.
Lemma locate_nth xs : forall F V o i w l n, nth_error (locate xs F V o) i = Some w -> nth_error xs i = Some (l, n) ->
  let '(F', V', o') := after (firstn i xs) F V o in
  w = match assign l F' V' with Some (rs, _, _) => Registers rs | None => Stack o' end.
Proof.
  induction xs as [|[l0 n0] xs IH]; intros F V o i w l n E N; [destruct i; discriminate|].
  destruct i as [|i]; cbn [firstn after nth_error] in *.
  - injection N as -> ->. cbn [locate] in E. destruct (assign l F V) as [[[rs F'] V']|]; cbn in E; injection E as <-; reflexivity.
  - cbn [locate] in E. destruct (assign l0 F V) as [[[rs F'] V']|]; cbn [nth_error] in E; eapply IH; eauto.
Qed.
Lemma stack_bound xs F V i o l n : Forall (fun x => 0 <= snd x) xs -> nth_error (locate xs F V 0) i = Some (Stack o) -> nth_error xs i = Some (l, n) ->
  0 <= o /\ o + n <= snd (after xs F V 0).
Proof.
  intros P E N. pose proof (locate_nth xs F V 0 i _ _ _ E N) as Q.
  destruct (nth_error_split _ _ N) as (x1 & x2 & EX & EL). 
  assert (firstn i xs = x1) as FI. { rewrite EX, <- EL, firstn_app, firstn_all, Nat.sub_diag. cbn [firstn]. apply app_nil_r. }
  rewrite FI in Q. rewrite EX in P |- *. apply Forall_app in P. destruct P as [P1 P2]. inversion P2 as [|? ? P3 P4]; subst. cbn [snd] in P3.
  rewrite after_app. pose proof (after_mono x1 F V 0 P1) as M1. destruct (after x1 F V 0) as [[F' V'] o'] eqn:EA. cbn [snd] in M1.
  cbn [after]. destruct (assign l F' V') as [[[rs F''] V'']|]; [discriminate|]. injection Q as ->.
  pose proof (after_mono x2 F' V' (o' + 8 * ((n + 7) / 8)) P4). pose proof (Z.div_mod (n + 7) 8 ltac:(lia)). pose proof (Z.mod_pos_bound (n + 7) 8 ltac:(lia)). lia.
Qed.

(* --- the register save area --- *)
Lemma offset_int j r : nth_error integer_registers j = Some r -> save_offset r = Some (8 * Z.of_nat j).
Proof. do 6 (destruct j as [|j]; [intro E; injection E as <-; reflexivity|]). destruct j; discriminate. Qed.
Lemma offset_sse j r : nth_error vector_registers j = Some r -> save_offset r = Some (48 + 16 * Z.of_nat j).
Proof. do 8 (destruct j as [|j]; [intro E; injection E as <-; reflexivity|]). destruct j; discriminate. Qed.
Lemma offset_range r o : save_offset r = Some o -> 0 <= o <= 160.
Proof. destruct r as [| | | | | | | | | | | | | |n]; cbn; intro E; try discriminate; try (injection E as <-; lia). do 8 (destruct n as [|n]; [cbn in E; injection E as <-; lia|]). discriminate. Qed.

(* --- single instructions --- *)
Lemma fill_low r old l : firstn (length l) (fill r old l) = l.
Proof.
  assert (forall x, firstn (length l) (l ++ x) = l) as H by (intro x; rewrite firstn_app, firstn_all, Nat.sub_diag; cbn; apply app_nil_r).
  unfold fill. destruct r; try apply H; destruct (length l =? 4)%nat; try apply H; destruct (length l =? 8)%nat; try apply H; apply firstn_all.
Qed.
Lemma fill_take r old l w : length l = w -> firstn w (fill r old l) = l.
Proof. intros <-. apply fill_low. Qed.
Lemma fillx_low old l : firstn (length l) (fillx old l) = l.
Proof. unfold fillx. rewrite firstn_app, firstn_all, Nat.sub_diag. cbn. apply app_nil_r. Qed.
Lemma le_val_zeros n : le_val (repeat 0 n) = 0.
Proof. induction n as [|n IH]; [reflexivity|]. cbn [repeat le_val]. rewrite IH. reflexivity. Qed.
Definition gpr (r : reg) : bool := match r with XMM _ => false | _ => true end.
Lemma fill_4 r old l : gpr r = true -> length l = 4%nat -> le_val (fill r old l) = le_val l.
Proof.
  intros G L. assert (fill r old l = l ++ repeat 0 4) as -> by (destruct r; try discriminate; unfold fill; rewrite L; reflexivity).
  rewrite le_val_app, le_val_zeros. lia.
Qed.
Lemma fill_8 r old l : gpr r = true -> length l = 8%nat -> fill r old l = l.
Proof. intros G L. destruct r; try discriminate; unfold fill; rewrite L; reflexivity. Qed.

Definition same_but (rs : list reg) (s s' : mach) : Prop :=
  m_rsp s' = m_rsp s /\ m_rbp s' = m_rbp s /\ forall r, ~ In r rs -> m_reg s' r = m_reg s r.
Lemma same_refl rs s : same_but rs s s. Proof. repeat split. Qed.
Lemma same_trans rs s1 s2 s3 : same_but rs s1 s2 -> same_but rs s2 s3 -> same_but rs s1 s3.
Proof. intros (A1 & A2 & A3) (B1 & B2 & B3). repeat split; try congruence. intros r N. rewrite B3, A3 by assumption. reflexivity. Qed.
Lemma same_weak rs rs' s s' : same_but rs s s' -> incl rs rs' -> same_but rs' s s'.
Proof. intros (A1 & A2 & A3) H. repeat split; auto. Qed.
Lemma same_reg rs s r v : In r rs -> same_but rs s (with_reg s r v).
Proof. intro H. repeat split. intros x N. cbn. apply setr_other. intros ->. contradiction. Qed.
Lemma same_mem rs s f : same_but rs s (with_mem s f). Proof. repeat split. Qed.

Section Steps.
Variables (a : Z) (d : dest) (junk : reg -> list Z).
Lemma vexec_app l1 l2 s : vexec a d junk (l1 ++ l2) s = vexec a d junk l2 (vexec a d junk l1 s).
Proof. apply fold_left_app. Qed.

Lemma bump_ok ptr n o w s : (w = 4 \/ w = 8)%nat ->
  let s' := vexec a d junk (bump ptr n o w) s in
  m_mem s' = write (m_mem s) (a + o) (le_bytes w (le_val (read (m_mem s) (a + o) w) + n)) /\ same_but [AX] s s'.
Proof.
  intro W. destruct ptr; cbn [bump]; cbn -[le_bytes le_val firstn fill].
  - split.
    + f_equal.
      assert (forall old l, length l = w -> firstn w (fill AX old l) = l) as FL by (intros old l L; rewrite <- L; apply fill_low).
      rewrite FL by apply le_bytes_length. rewrite FL by apply read_length. reflexivity.
    + split; [reflexivity|]. split; [reflexivity|]. intros r N. cbn. assert (AX <> r) by (intros <-; apply N; left; reflexivity). rewrite !setr_other by assumption. reflexivity.
  - split; [reflexivity|]. apply same_mem.
Qed.

Lemma write_read_split mem mem' q p n m : (forall x, p <= x < p + Z.of_nat (n + m) -> mem' x = mem x) ->
  forall x, write (write mem' q (read mem p n)) (q + Z.of_nat n) (read mem' (p + Z.of_nat n) m) x = write mem' q (read mem p (n + m)) x.
Proof.
  intros H x. unfold write. rewrite !read_length.
  destruct (Z.leb_spec (q + Z.of_nat n) x); destruct (Z.ltb_spec x (q + Z.of_nat n + Z.of_nat m)); cbn [andb];
    destruct (Z.leb_spec q x); destruct (Z.ltb_spec x (q + Z.of_nat n)); destruct (Z.ltb_spec x (q + Z.of_nat (n + m))); cbn [andb]; try lia; try reflexivity.
  - rewrite !nth_read by lia. rewrite H by lia. f_equal. lia.
  - rewrite !nth_read by lia. reflexivity.
Qed.

Lemma chunks_ok fuel : forall i n s p q, (n <= fuel)%nat -> le_val (m_reg s SI) = p -> le_val (m_reg s DI) = q ->
  (p + Z.of_nat i + Z.of_nat n <= q + Z.of_nat i \/ q + Z.of_nat i + Z.of_nat n <= p + Z.of_nat i) ->
  let s' := vexec a d junk (flat_map (fun x => [Fetch (Z.of_nat (fst x)) None AX (snd x); PutDi (Z.of_nat (fst x)) (snd x)]) (chunks fuel i n)) s in
  (forall x, m_mem s' x = write (m_mem s) (q + Z.of_nat i) (read (m_mem s) (p + Z.of_nat i) n) x) /\ same_but [AX] s s'.
Proof.
  induction fuel as [|fuel IH]; intros i n s p q F P Q D.
  - assert (n = 0)%nat as -> by lia. cbn. split; [|apply same_refl]. intro x. symmetry. apply write_other. cbn. lia.
  - destruct n as [|n0].
    { cbn. split; [|apply same_refl]. intro x. symmetry. apply write_other. cbn. lia. }
    cbn [chunks]. set (n := S n0) in *.
    assert (1 <= chunk_width n <= n)%nat as W. { clear - n. subst n. do 8 (destruct n0 as [|n0]; [cbn; lia|]). cbn [chunk_width]. lia. }
    set (w := chunk_width n) in *. clearbody w. cbn [flat_map fst snd app]. unfold vexec. cbn [fold_left]. fold (vexec a d junk).
    set (s1 := vstep a d junk (vstep a d junk s _) _).
    assert (m_mem s1 = write (m_mem s) (q + Z.of_nat i) (read (m_mem s) (p + Z.of_nat i) w) /\ same_but [AX] s s1) as [M1 S1].
    { unfold s1. cbn -[le_val firstn fill read]. rewrite P, Q. split.
      - f_equal. rewrite fill_take by apply read_length. f_equal. lia.
      - split; [reflexivity|]. split; [reflexivity|]. intros r N. cbn. apply setr_other. intros <-. apply N. left. reflexivity. }
    clearbody s1. destruct S1 as (R1 & R2 & R3).
    destruct (IH (i + w)%nat (n - w)%nat s1 p q) as [M2 S2]; [lia|rewrite R3; [exact P|intros [X|[]]; discriminate]|rewrite R3; [exact Q|intros [X|[]]; discriminate]|lia|].
    cbn zeta in M2, S2. split; [|exact (same_trans _ _ _ _ (conj R1 (conj R2 R3)) S2)]. unfold vexec in M2 |- *. intro x. rewrite M2, M1.
    replace (q + Z.of_nat (i + w)) with (q + Z.of_nat i + Z.of_nat w) by lia. replace (p + Z.of_nat (i + w)) with (p + Z.of_nat i + Z.of_nat w) by lia.
    assert (read (write (m_mem s) (q + Z.of_nat i) (read (m_mem s) (p + Z.of_nat i) w)) (p + Z.of_nat i + Z.of_nat w) (n - w) = read (m_mem s) (p + Z.of_nat i + Z.of_nat w) (n - w)) as ->.
    { apply read_ext. intros k K. apply write_other. rewrite read_length. lia. }
    rewrite (write_read_split (m_mem s) (m_mem s)) by reflexivity. f_equal. f_equal. lia.
Qed.

(* the registers that va_arg uses, and those that memcpy may change *)
Definition scratch : list reg := [AX; CX; DX; SI; DI; R8; R9; R10; R11; XMM 0].
Definition volatile : list reg := [AX; CX; DX; SI; DI; R8; R9; R10; R11] ++ map XMM (seq 0 16).
Lemma clobber_ok l s : let s' := fold_left (fun s r => with_reg s r (junk r)) l s in m_mem s' = m_mem s /\ same_but l s s'.
Proof.
  revert s. induction l as [|r l IH]; intro s; [split; [reflexivity|apply same_refl]|]. cbn [fold_left]. destruct (IH (with_reg s r (junk r))) as [A B]. cbn zeta in *.
  split; [exact A|]. eapply same_trans; [apply same_reg; left; reflexivity|]. eapply same_weak; [exact B|]. intros x X. right. exact X.
Qed.
Lemma memcpy_ok mc n s p q : le_val (m_reg s SI) = p -> le_val (m_reg s DI) = q -> (p + Z.of_nat n <= q \/ q + Z.of_nat n <= p) ->
  let s' := vexec a d junk (emit_memcpy mc n) s in
  (forall x, m_mem s' x = write (m_mem s) q (read (m_mem s) p n) x) /\ same_but volatile s s' /\ ((n <= 64)%nat \/ mc = false -> same_but [AX] s s').
Proof.
  intros P Q D. unfold emit_memcpy. destruct ((n <=? 64)%nat || negb mc) eqn:E.
  - destruct (chunks_ok n 0 n s p q) as [A B]; [lia|assumption|assumption|lia|]. cbn zeta in *. rewrite !Z.add_0_r in A. split; [exact A|]. split; [|auto].
    eapply same_weak; [exact B|]. intros x [<-|[]]. left. reflexivity.
  - cbn [vexec fold_left vstep]. destruct (clobber_ok volatile (with_mem s (write (m_mem s) (le_val (m_reg s DI)) (read (m_mem s) (le_val (m_reg s SI)) n)))) as [A B].
    cbn zeta in *. unfold vexec. cbn [fold_left vstep]. unfold clobber. fold volatile. split; [|split].
    + intro x. rewrite A. cbn [with_mem m_mem]. rewrite P, Q. reflexivity.
    + exact B.
    + intro X. apply orb_false_iff in E. destruct E as [E1 E2]. apply Nat.leb_gt in E1. destruct X as [X|X]; [lia|]. rewrite X in E2. discriminate.
Qed.
End Steps.

Lemma vexec_cons a d junk o l s : vexec a d junk (o :: l) s = vexec a d junk l (vstep a d junk s o).
Proof. reflexivity. Qed.
Section Slices.
Variables (a : Z) (junk : reg -> list Z) (t : ltype) (pc : param_class) (save : Z) (ints sses : nat).
Hypotheses (P : 0 < lsize t) (C : classify t = Some pc) (I6 : (ints <= 6)%nat) (S8 : (sses <= 8)%nat).
Definition bases (s : mach) : Prop := le_val (m_reg s SI) = save /\
  (forall j, nth j pc NO_CLASS = INTEGER -> le_val (m_reg s CX) = 8 * Z.of_nat ints) /\ (forall j, nth j pc NO_CLASS = SSE -> le_val (m_reg s DX) = 48 + 16 * Z.of_nat sses).
Lemma bases_same s s' : bases s -> same_but [AX; XMM 0] s s' -> bases s'.
Proof.
  intros (B1 & B2 & B3) (_ & _ & H). unfold bases. rewrite !H; [auto| | |]; intros [X|[X|[]]]; discriminate.
Qed.
Lemma eb_bound : lsize t <= 8 * eightbytes t < lsize t + 8.
Proof using P. clear - P. unfold eightbytes. pose proof (Z.div_mod (lsize t + 7) 8 ltac:(lia)). pose proof (Z.mod_pos_bound (lsize t + 7) 8 ltac:(lia)). lia. Qed.

Lemma slices_mem p : forall n i il sl l rs F V s,
  va_slices t pc i n il sl (8 * Z.of_nat i) = Some l -> Z.of_nat (i + n) = eightbytes t ->
  assign (firstn n (skipn i pc)) (skipn (ints + il) integer_registers) (skipn (sses + sl) vector_registers) = Some (rs, F, V) ->
  bases s -> (p + 8 * eightbytes t <= save \/ save + 176 <= p) ->
  let s' := vexec a (InMem p) junk l s in
  (forall k, 8 * Z.of_nat i <= k < lsize t -> exists r o, nth_error rs (Z.to_nat (k / 8) - i) = Some r /\ save_offset r = Some o /\ m_mem s' (p + k) = m_mem s (save + o + k mod 8)) /\
  (forall x, x < p + 8 * Z.of_nat i \/ p + 8 * eightbytes t <= x -> m_mem s' x = m_mem s x) /\ same_but [AX; XMM 0] s s'.
Proof.
  pose proof eb_bound as EB.
  induction n as [|n IH]; intros i il sl l rs F V s E N A B D.
  { cbn in E. injection E as <-. cbn zeta. unfold vexec. cbn [fold_left]. split; [|split; [reflexivity|apply same_refl]]. intros k K. lia. }
  cbn [va_slices] in E.
  assert (i < length pc)%nat as LT. { destruct (Nat.ltb_spec i (length pc)) as [Q|Q]; [exact Q|]. rewrite nth_overflow in E by exact Q. discriminate. }
  rewrite (skipn_nth pc i LT) in A. cbn [firstn] in A.
  (* one eightbyte: w bytes from the place of register r *)
  assert (exists w l' r o rs' il' sl' x R, 0 < w <= 8 /\ (lsize t - 8 * Z.of_nat i <= w \/ w = 8) /\ l = Fetch x (Some (if gpr R then CX else DX)) R (Z.to_nat w) :: Put R (8 * Z.of_nat i) (Z.to_nat w) :: l' /\
    save + o = le_val (m_reg s SI) + le_val (m_reg s (if gpr R then CX else DX)) + x /\ In R [AX; XMM 0] /\ save_offset r = Some o /\ rs = r :: rs' /\
    va_slices t pc (S i) n il' sl' (8 * Z.of_nat (S i)) = Some l' /\
    assign (firstn n (skipn (S i) pc)) (skipn (ints + il') integer_registers) (skipn (sses + sl') vector_registers) = Some (rs', F, V)) as
    (w & l' & r & o & rs' & il' & sl' & x & R & W1 & W2 & -> & EA & RI & SO & -> & E' & A').
  { destruct B as (B1 & B2 & B3). destruct (nth i pc NO_CLASS) eqn:CI; try discriminate.
    - apply obnd_some in E. destruct E as (w & EW & E). apply obnd_some in E. destruct E as (l' & E & EL). injection EL as <-.
      destruct (width_ok t pc i w P C EW) as [W1 W2]; [lia|].
      cbn [assign] in A. destruct (skipn (ints + il) integer_registers) as [|r FR] eqn:SK; [discriminate|]. apply skipn_cons_nth in SK. destruct SK as (NR & -> & _).
      destruct (assign (firstn n (skipn (S i) pc)) (skipn (S (ints + il)) integer_registers) (skipn (sses + sl) vector_registers)) as [[[rs' F'] V']|] eqn:A'; [|discriminate]. cbn in A. injection A as <- <- <-.
      exists w, l', r, (8 * Z.of_nat (ints + il)), rs', (S il), sl, (Z.of_nat il * 8), AX. split; [exact W1|]. split; [exact W2|]. split; [reflexivity|]. cbn [gpr].
      split; [rewrite B1, (B2 _ CI); lia|]. split; [left; reflexivity|]. split; [apply offset_int, NR|]. split; [reflexivity|]. split; [|rewrite Nat.add_succ_r; exact A'].
      rewrite <- E. destruct n as [|n]; [reflexivity|]. f_equal. lia.
    - apply obnd_some in E. destruct E as (l' & E & EL). injection EL as <-.
      cbn [assign] in A. destruct (skipn (sses + sl) vector_registers) as [|r FR] eqn:SK; [discriminate|]. apply skipn_cons_nth in SK. destruct SK as (NR & -> & _).
      destruct (assign (firstn n (skipn (S i) pc)) (skipn (ints + il) integer_registers) (skipn (S (sses + sl)) vector_registers)) as [[[rs' F'] V']|] eqn:A'; [|discriminate]. cbn in A. injection A as <- <- <-.
      exists 8, l', r, (48 + 16 * Z.of_nat (sses + sl)), rs', il, (S sl), (Z.of_nat sl * 16), (XMM 0). split; [lia|]. split; [right; reflexivity|]. split; [reflexivity|]. cbn [gpr].
      split; [rewrite B1, (B3 _ CI); lia|]. split; [right; left; reflexivity|]. split; [apply offset_sse, NR|]. split; [reflexivity|]. split; [|rewrite Nat.add_succ_r; exact A'].
      rewrite <- E. f_equal. lia. }
  rewrite !vexec_cons. set (s1 := vstep a (InMem p) junk (vstep a (InMem p) junk s _) _).
  assert (m_mem s1 = write (m_mem s) (p + 8 * Z.of_nat i) (read (m_mem s) (save + o) (Z.to_nat w)) /\ same_but [AX; XMM 0] s s1) as [M1 S1].
  { unfold s1. cbn -[le_val firstn fill read]. rewrite EA. split.
    - f_equal. rewrite setr_same. apply fill_take, read_length.
    - split; [reflexivity|]. split; [reflexivity|]. intros r0 N0. cbn. apply setr_other. intros <-. contradiction. }
  clearbody s1. destruct (IH (S i) il' sl' l' rs' F V s1 E') as (H1 & H2 & H3); [lia|exact A'|eapply bases_same; eassumption|exact D|]. cbn zeta in *.
  pose proof (offset_range _ _ SO) as OR. 
  assert (forall y, save <= y < save + 176 -> m_mem s1 y = m_mem s y) as KS. { intros y Y. rewrite M1. apply write_other. rewrite read_length. lia. }
  split; [|split].
  - intros k K. destruct (Z.ltb_spec k (8 * Z.of_nat (S i))) as [L|L].
    + assert (Z.to_nat (k / 8) = i) as -> by (assert (k / 8 = Z.of_nat i) by (symmetry; apply Z.div_unique with (r := k - 8 * Z.of_nat i); lia); lia).
      assert (k mod 8 = k - 8 * Z.of_nat i) as KM by (symmetry; apply Z.mod_unique with (q := Z.of_nat i); lia).
      rewrite Nat.sub_diag. exists r, o. split; [reflexivity|]. split; [exact SO|]. rewrite H2 by lia. rewrite M1.
      replace (p + k) with (p + 8 * Z.of_nat i + Z.of_nat (Z.to_nat (k - 8 * Z.of_nat i))) by lia. rewrite write_at by (rewrite read_length; lia).
      rewrite nth_read by lia. f_equal. lia.
    + assert (Z.of_nat (S i) <= k / 8) as KD by (apply Z.div_le_lower_bound; lia).
      destruct (H1 k) as (r' & o' & G1 & G2 & G3); [lia|]. exists r', o'. split; [|split; [exact G2|]].
      * replace (Z.to_nat (k / 8) - i)%nat with (S (Z.to_nat (k / 8) - S i)) by lia. exact G1.
      * rewrite G3. apply KS. pose proof (offset_range _ _ G2). pose proof (Z.mod_pos_bound k 8 ltac:(lia)). lia.
  - intros y Y. rewrite H2 by lia. rewrite M1. apply write_other. rewrite read_length. lia.
  - eapply same_trans; eassumption.
Qed.
End Slices.

(* --- one va_arg --- *)
Lemma word_write mem p bs n : length bs = n -> word (write mem p bs) p n = le_val bs.
Proof. intros <-. unfold word. rewrite read_write. reflexivity. Qed.
Lemma word_ext mem mem' p n : (forall x, p <= x < p + Z.of_nat n -> mem' x = mem x) -> word mem' p n = word mem p n.
Proof. intro H. unfold word. f_equal. apply read_ext. intros k K. apply H. lia. Qed.
Section Arg.
Variables (a : Z) (d : dest) (junk : reg -> list Z) (t : ltype) (pc : param_class) (l : list cls) (save base size : Z) (ints sses : nat).
Hypotheses (P : 0 < lsize t) (C : classify t = Some pc) (I6 : (ints <= 6)%nat) (S8 : (sses <= 8)%nat).

Lemma tests_ok gp fp s : word (m_mem s) a 4 = 8 * Z.of_nat ints -> word (m_mem s) (a + 4) 4 = 48 + 16 * Z.of_nat sses -> (0 < gp + fp)%nat ->
  let T := (if Z.of_nat gp =? 0 then [] else [(CX, gp_offset, 48 - 8 * Z.of_nat gp)]) ++ (if Z.of_nat fp =? 0 then [] else [(DX, fp_offset, 48 + 128 - 16 * Z.of_nat fp)]) in
  T <> [] /\ let (s1, b) := run_tests a d junk T s in
  b = ((ints + gp <=? 6)%nat && (sses + fp <=? 8)%nat) /\ m_mem s1 = m_mem s /\ same_but [CX; DX] s s1 /\
  (b = true -> (gp <> O -> le_val (m_reg s1 CX) = 8 * Z.of_nat ints) /\ (fp <> O -> le_val (m_reg s1 DX) = 48 + 16 * Z.of_nat sses)).
Proof.
  intros W1 W2 GF. unfold gp_offset, fp_offset.
  assert (forall s, le_val (firstn 4 (m_reg (vstep a d junk s (LoadF CX 0 4)) CX)) = word (m_mem s) a 4 /\ le_val (m_reg (vstep a d junk s (LoadF CX 0 4)) CX) = word (m_mem s) a 4) as LC.
  { intro s0. cbn [vstep with_reg m_reg]. rewrite setr_same, Z.add_0_r. rewrite fill_take by apply read_length. rewrite fill_4 by (auto using read_length). split; reflexivity. }
  assert (forall s, le_val (firstn 4 (m_reg (vstep a d junk s (LoadF DX 4 4)) DX)) = word (m_mem s) (a + 4) 4 /\ le_val (m_reg (vstep a d junk s (LoadF DX 4 4)) DX) = word (m_mem s) (a + 4) 4) as LD.
  { intro s0. cbn [vstep with_reg m_reg]. rewrite setr_same. rewrite fill_take by apply read_length. rewrite fill_4 by (auto using read_length). split; reflexivity. }
  assert (forall s, same_but [CX; DX] s (vstep a d junk s (LoadF CX 0 4))) as SC by (intro; apply same_reg; left; reflexivity).
  assert (forall s, same_but [CX; DX] s (vstep a d junk s (LoadF DX 4 4))) as SD by (intro; apply same_reg; right; left; reflexivity).
  destruct (Z.eqb_spec (Z.of_nat gp) 0) as [G|G]; destruct (Z.eqb_spec (Z.of_nat fp) 0) as [F|F]; cbn [app].
  - lia.
  - split; [discriminate|]. cbn [run_tests]. destruct (LD s) as [L1 L2]. rewrite L1, W2. set (s1 := vstep a d junk s (LoadF DX 4 4)) in *.
    destruct (Z.ltb_spec (48 + 128 - 16 * Z.of_nat fp) (48 + 16 * Z.of_nat sses)); (split; [|split; [reflexivity|]; split; [apply SD|]]).
    + rewrite (proj2 (Nat.leb_gt (sses + fp) 8)) by lia. rewrite andb_false_r. reflexivity.
    + discriminate.
    + rewrite (proj2 (Nat.leb_le (sses + fp) 8)), (proj2 (Nat.leb_le (ints + gp) 6)) by lia. reflexivity.
    + intros _. split; [lia|]. intros _. rewrite L2. exact W2.
  - split; [discriminate|]. cbn [run_tests]. destruct (LC s) as [L1 L2]. rewrite L1, W1. set (s1 := vstep a d junk s (LoadF CX 0 4)) in *.
    destruct (Z.ltb_spec (48 - 8 * Z.of_nat gp) (8 * Z.of_nat ints)); (split; [|split; [reflexivity|]; split; [apply SC|]]).
    + rewrite (proj2 (Nat.leb_gt (ints + gp) 6)) by lia. reflexivity.
    + discriminate.
    + rewrite (proj2 (Nat.leb_le (sses + fp) 8)), (proj2 (Nat.leb_le (ints + gp) 6)) by lia. reflexivity.
    + intros _. split; [|lia]. intros _. rewrite L2. exact W1.
  - split; [discriminate|]. cbn [run_tests]. destruct (LC s) as [L1 L2]. rewrite L1, W1. set (s1 := vstep a d junk s (LoadF CX 0 4)) in *.
    assert (m_mem s1 = m_mem s) as M1 by reflexivity.
    destruct (Z.ltb_spec (48 - 8 * Z.of_nat gp) (8 * Z.of_nat ints)).
    + split; [|split; [reflexivity|]; split; [apply SC|discriminate]]. rewrite (proj2 (Nat.leb_gt (ints + gp) 6)) by lia. reflexivity.
    + destruct (LD s1) as [L3 L4]. rewrite L3, M1, W2. set (s2 := vstep a d junk s1 (LoadF DX 4 4)) in *. assert (m_mem s2 = m_mem s) as M2 by reflexivity.
      assert (same_but [CX; DX] s s2) as SS by (eapply same_trans; [apply SC|apply SD]).
      assert (m_reg s2 CX = m_reg s1 CX) as RC by (apply setr_other; discriminate).
      destruct (Z.ltb_spec (48 + 128 - 16 * Z.of_nat fp) (48 + 16 * Z.of_nat sses)); (split; [|split; [exact M2|]; split; [exact SS|]]).
      * rewrite (proj2 (Nat.leb_gt (sses + fp) 8)) by lia. rewrite andb_false_r. reflexivity.
      * discriminate.
      * rewrite (proj2 (Nat.leb_le (sses + fp) 8)), (proj2 (Nat.leb_le (ints + gp) 6)) by lia. reflexivity.
      * intros _. split; intros _; [rewrite RC, L2; exact W1|rewrite L4, M1; exact W2].
Qed.

Lemma slices_reg q lv rs F V s : ~ In q [AX; CX; DX; SI; DI; XMM 0] -> d = InReg q -> eightbytes t = 1 -> va_slices t pc 0 1 0 0 0 = Some lv ->
  assign (firstn 1 pc) (skipn ints integer_registers) (skipn sses vector_registers) = Some (rs, F, V) -> bases pc save ints sses s ->
  let s' := vexec a d junk lv s in
  (forall k, 0 <= k < lsize t -> exists r o, nth_error rs (Z.to_nat (k / 8)) = Some r /\ save_offset r = Some o /\ nth (Z.to_nat k) (m_reg s' q) 0 = m_mem s (save + o + k mod 8)) /\
  m_mem s' = m_mem s /\ same_but [AX; XMM 0; q] s s'.
Proof.
  intros NQ -> EB E A (B1 & B2 & B3). assert (lsize t <= 8 * eightbytes t < lsize t + 8) as EBB by (unfold eightbytes; pose proof (Z.div_mod (lsize t + 7) 8 ltac:(lia)); pose proof (Z.mod_pos_bound (lsize t + 7) 8 ltac:(lia)); lia). cbn [va_slices] in E.
  assert (exists w r o x R, 0 < w <= 8 /\ lsize t <= w /\ lv = [Fetch x (Some (if gpr R then CX else DX)) R (Z.to_nat w); Put R 0 (Z.to_nat w)] /\
    save + o = le_val (m_reg s SI) + le_val (m_reg s (if gpr R then CX else DX)) + x /\ In R [AX; XMM 0] /\ save_offset r = Some o /\ rs = [r]) as
    (w & r & o & x & R & W1 & W2 & -> & EA & RI & SO & ->).
  { destruct pc as [|c pc']; [discriminate|]. cbn [nth firstn] in E, A. destruct c; try discriminate.
    - apply obnd_some in E. destruct E as (w & EW & E). cbn [obnd] in E. injection E as <-. destruct (width_ok t _ 0 w P C EW) as [W1 W2]; [lia|].
      cbn [assign] in A. destruct (skipn ints integer_registers) as [|r FR] eqn:SK; [discriminate|]. apply skipn_cons_nth in SK. destruct SK as (NR & -> & _). cbn in A. injection A as <- <- <-.
      exists w, r, (8 * Z.of_nat ints), (Z.of_nat 0 * 8), AX. split; [exact W1|]. split; [lia|]. split; [reflexivity|]. cbn [gpr]. split; [rewrite B1, (B2 O eq_refl); lia|].
      split; [left; reflexivity|]. split; [apply offset_int, NR|reflexivity].
    - cbn [obnd] in E. injection E as <-.
      cbn [assign] in A. destruct (skipn sses vector_registers) as [|r FR] eqn:SK; [discriminate|]. apply skipn_cons_nth in SK. destruct SK as (NR & -> & _). cbn in A. injection A as <- <- <-.
      exists 8, r, (48 + 16 * Z.of_nat sses), (Z.of_nat 0 * 16), (XMM 0). split; [lia|]. split; [lia|]. split; [reflexivity|]. cbn [gpr]. split; [rewrite B1, (B3 O eq_refl); lia|].
      split; [right; left; reflexivity|]. split; [apply offset_sse, NR|reflexivity]. }
  rewrite !vexec_cons. unfold vexec. cbn [fold_left]. cbn zeta. set (s1 := vstep a (InReg q) junk s _).
  assert (m_mem s1 = m_mem s /\ firstn (Z.to_nat w) (m_reg s1 R) = read (m_mem s) (save + o) (Z.to_nat w) /\ same_but [AX; XMM 0; q] s s1) as (M1 & R1 & S1).
  { unfold s1. cbn [vstep]. rewrite <- EA. split; [reflexivity|]. split; [cbn [with_reg m_reg]; rewrite setr_same; apply fill_take, read_length|].
    apply same_reg. destruct RI as [<-|[<-|[]]]; [left|right; left]; reflexivity. }
  clearbody s1. cbn [vstep]. rewrite R1. set (v := match q with XMM _ => _ | _ => _ end).
  assert (firstn (Z.to_nat w) v = read (m_mem s) (save + o) (Z.to_nat w)) as VE.
  { unfold v. destruct q; try (apply fill_take, read_length). pose proof (fillx_low (m_reg s1 (XMM n)) (read (m_mem s) (save + o) (Z.to_nat w))) as X. rewrite read_length in X. exact X. }
  clearbody v. split; [|split].
  - intros k K. assert (k / 8 = 0) as KD by (apply Z.div_small; lia). assert (k mod 8 = k) as KM by (apply Z.mod_small; lia). rewrite KD, KM. exists r, o.
    split; [reflexivity|]. split; [exact SO|]. cbn [with_reg m_reg]. rewrite setr_same.
    assert (nth (Z.to_nat k) v 0 = nth (Z.to_nat k) (firstn (Z.to_nat w) v) 0) as ->.
    { symmetry. rewrite <- (firstn_skipn (Z.to_nat w) v) at 2. assert (length (firstn (Z.to_nat w) v) = Z.to_nat w) by (rewrite VE; apply read_length). rewrite app_nth1 by lia. reflexivity. }
    rewrite VE, nth_read by lia. f_equal. lia.
  - exact M1.
  - eapply same_trans; [exact S1|]. apply same_reg. right. right. left. reflexivity.
Qed.

Lemma bump_word ptr n o w s v : (w = 4 \/ w = 8)%nat -> word (m_mem s) (a + o) w = v -> 0 <= v + n < 256 ^ Z.of_nat w ->
  let s' := vexec a d junk (bump ptr n o w) s in
  word (m_mem s') (a + o) w = v + n /\ (forall x, x < a + o \/ a + o + Z.of_nat w <= x -> m_mem s' x = m_mem s x) /\ same_but [AX] s s'.
Proof.
  intros W V R. destruct (bump_ok a d junk ptr n o w s W) as [M S]. cbn zeta in *. split; [|split; [|exact S]].
  - rewrite M, word_write by apply le_bytes_length. rewrite le_val_bytes. unfold word in V. rewrite V. apply Z.mod_small, R.
  - intros x X. rewrite M. apply write_other. rewrite le_bytes_length. lia.
Qed.
Lemma cbump_word ptr n c o s v : word (m_mem s) (a + o) 4 = v -> 0 <= v + n < 4294967296 -> (c = O -> n = 0) ->
  let s' := vexec a d junk (if Z.of_nat c =? 0 then [] else bump ptr n o 4) s in
  word (m_mem s') (a + o) 4 = v + n /\ (forall x, x < a + o \/ a + o + 4 <= x -> m_mem s' x = m_mem s x) /\ same_but [AX] s s'.
Proof.
  intros V R N. destruct (Z.eqb_spec (Z.of_nat c) 0) as [E|E].
  - unfold vexec. cbn [fold_left]. rewrite N by lia. split; [rewrite V; lia|]. split; [reflexivity|apply same_refl].
  - apply (bump_word ptr n o 4 s v); auto.
Qed.

Definition taken : list reg := match d with InReg q => [q] | InMem _ => [] end.
Lemma object_regs w q : object_ok save base size a t w (InReg q) -> ~ In q (AX :: CX :: DX :: SI :: DI :: [XMM 0]).
Proof.
  intros (k & _ & H) N. destruct k; try contradiction; try (destruct H as [H _]); cbn in H; repeat (destruct H as [<-|H]; [cbn in N; intuition discriminate|]); contradiction.
Qed.
Lemma object_one w q : object_ok save base size a t w (InReg q) -> eightbytes t = 1.
Proof. intros (k & -> & H). destruct k; try contradiction; reflexivity. Qed.

Lemma regs_part ptr lv rs F V s gp fp : 
  gp = count_cls INTEGER pc -> fp = count_cls SSE pc ->
  va_slices t pc 0 (Z.to_nat (eightbytes t)) 0 0 0 = Some lv ->
  assign (firstn (Z.to_nat (eightbytes t)) pc) (skipn ints integer_registers) (skipn sses vector_registers) = Some (rs, F, V) ->
  object_ok save base size a t (Registers rs) d -> apart a 24 save 176 ->
  word (m_mem s) a 4 = 8 * Z.of_nat ints -> word (m_mem s) (a + 4) 4 = 48 + 16 * Z.of_nat sses -> word (m_mem s) (a + 16) 8 = save ->
  (gp <> O -> le_val (m_reg s CX) = 8 * Z.of_nat ints) -> (fp <> O -> le_val (m_reg s DX) = 48 + 16 * Z.of_nat sses) -> (ints + gp <= 6)%nat -> (sses + fp <= 8)%nat ->
  let s' := vexec a d junk ([LoadF SI reg_save_area 8] ++ lv ++ (if Z.of_nat gp =? 0 then [] else bump ptr (8 * Z.of_nat gp) gp_offset 4) ++ (if Z.of_nat fp =? 0 then [] else bump ptr (16 * Z.of_nat fp) fp_offset 4)) s in
  (forall k, 0 <= k < lsize t -> kept_byte (m_mem s) save base (Registers rs) k = Some (object_byte s' d k)) /\
  word (m_mem s') a 4 = 8 * Z.of_nat (ints + gp) /\ word (m_mem s') (a + 4) 4 = 48 + 16 * Z.of_nat (sses + fp) /\
  (forall x, ~ (a <= x < a + 8) -> (forall p, d = InMem p -> ~ (p <= x < p + 8 * eightbytes t)) -> m_mem s' x = m_mem s x) /\
  same_but (AX :: SI :: XMM 0 :: taken) s s'.
Proof.
  intros -> -> EV AS OK AP W1 W2 W3 HC HD L1 L2. rewrite !vexec_app. cbn zeta. unfold reg_save_area, gp_offset, fp_offset.
  set (s1 := vexec a d junk [LoadF SI 16 8] s).
  assert (m_mem s1 = m_mem s /\ le_val (m_reg s1 SI) = save /\ same_but [SI] s s1) as (M1 & R1 & S1).
  { unfold s1, vexec. cbn [fold_left vstep]. split; [reflexivity|]. split; [|apply same_reg; left; reflexivity]. cbn [with_reg m_reg]. rewrite setr_same, fill_8 by (auto using read_length). exact W3. }
  clearbody s1.
  assert (bases pc save ints sses s1) as B.
  { destruct S1 as (_ & _ & S1). split; [exact R1|]. rewrite !S1 by (intros [X|[]]; discriminate).
    assert (forall j c, nth j pc NO_CLASS = c -> c <> NO_CLASS -> count_cls c pc <> O) as CN.
    { intros j c NJ NC. unfold count_cls. clear - NJ NC. revert j NJ. induction pc as [|x r IH]; intros j NJ; [destruct j; cbn in NJ; congruence|]. destruct j as [|j]; cbn in NJ |- *.
      - subst x. assert (cls_eqb c c = true) as -> by (destruct c; reflexivity). lia.
      - specialize (IH _ NJ). lia. }
    split; intros j NJ; [apply HC|apply HD]; apply (CN j); auto; discriminate. }
  set (s2 := vexec a d junk lv s1).
  assert ((forall k, 0 <= k < lsize t -> exists r o, nth_error rs (Z.to_nat (k / 8)) = Some r /\ save_offset r = Some o /\ object_byte s2 d k = m_mem s (save + o + k mod 8)) /\
    (forall x, (forall p, d = InMem p -> ~ (p <= x < p + 8 * eightbytes t)) -> m_mem s2 x = m_mem s x) /\ same_but (AX :: XMM 0 :: taken) s1 s2) as (H1 & H2 & H3).
  { unfold taken, s2, object_byte. destruct d as [p|q] eqn:ED.
    - destruct OK as (OK1 & OK2 & OK3 & OK4 & OK5). fold (eightbytes t) in OK3, OK4, OK5.
      pose proof (eb_pos t P) as EP. 
      destruct (slices_mem a junk t pc save ints sses P C I6 S8 p (Z.to_nat (eightbytes t)) 0 0 0 lv rs F V s1) as (G1 & G2 & G3); [exact EV|lia|rewrite !Nat.add_0_r; exact AS|exact B|exact OK4|].
      cbn zeta in *. split; [|split; [|exact G3]].
      + intros k K. destruct (G1 k) as (r & o & X1 & X2 & X3); [lia|]. rewrite Nat.sub_0_r in X1. rewrite M1 in X3. eauto.
      + intros x X. rewrite G2, M1; [reflexivity|]. specialize (X p eq_refl). lia.
    - pose proof (object_one _ _ OK) as E1. rewrite E1 in EV, AS. change (Z.to_nat 1) with 1%nat in EV, AS.
      destruct (slices_reg q lv rs F V s1) as (G1 & G2 & G3); [eapply object_regs; exact OK|exact ED|exact E1|exact EV|exact AS|exact B|]. cbn zeta in *. rewrite ED in *.
      split; [|split; [|exact G3]].
      + intros k K. destruct (G1 k K) as (r & o & X1 & X2 & X3). rewrite M1 in X3. eauto.
      + intros x X. rewrite G2, M1. reflexivity. }
  clearbody s2.
  assert (forall x, a <= x < a + 24 -> m_mem s2 x = m_mem s x) as KA.
  { intros x X. apply H2. intros p ->. destruct OK as (_ & _ & OK3 & _). fold (eightbytes t) in OK3. unfold apart in OK3. lia. }
  destruct (cbump_word ptr (8 * Z.of_nat (count_cls INTEGER pc)) (count_cls INTEGER pc) 0 s2 (8 * Z.of_nat ints)) as (G1 & G2 & G3); [rewrite Z.add_0_r, <- W1; apply word_ext; intros x X; apply KA; lia|lia|intros ->; reflexivity|].
  cbn zeta in *. set (s3 := vexec a d junk _ s2) in *. clearbody s3. rewrite Z.add_0_r in G1, G2.
  destruct (cbump_word ptr (16 * Z.of_nat (count_cls SSE pc)) (count_cls SSE pc) 4 s3 (48 + 16 * Z.of_nat sses)) as (K1 & K2 & K3); [rewrite <- W2; apply word_ext; intros x X; rewrite G2 by lia; apply KA; lia|lia|intros ->; reflexivity|].
  cbn zeta in *. set (s4 := vexec a d junk _ s3) in *. clearbody s4.
  assert (same_but [AX] s2 s4) as S24 by (eapply same_trans; eassumption).
  assert (forall k, 0 <= k < lsize t -> object_byte s4 d k = object_byte s2 d k) as OB.
  { intros k K. unfold object_byte. destruct d as [p|q].
    - destruct OK as (_ & _ & OK3 & _). fold (eightbytes t) in OK3. unfold apart in OK3. pose proof (eb_bound t P). rewrite K2, G2 by lia. reflexivity.
    - destruct S24 as (_ & _ & X). rewrite X; [reflexivity|]. pose proof (object_regs _ _ OK) as NQ. intros [Y|[]]. apply NQ. left. exact Y. }
  split; [|split; [|split; [|split]]].
  - intros k K. cbn [kept_byte]. destruct (H1 k K) as (r & o & X1 & X2 & X3). rewrite X1, X2, (OB k K), X3. reflexivity.
  - rewrite (word_ext (m_mem s3)) by (intros x X; apply K2; lia). rewrite G1. lia.
  - rewrite K1. lia.
  - intros x X1 X2. rewrite K2, G2 by lia. apply H2, X2.
  - apply (same_trans _ s s1); [eapply same_weak; [exact S1|intros y [<-|[]]; right; left; reflexivity]|].
    apply (same_trans _ s1 s2); [eapply same_weak; [exact H3|intros y [<-|[<-|Y]]; [left; reflexivity|right; right; left; reflexivity|right; right; right; exact Y]]|].
    eapply same_weak; [exact S24|]. intros y [<-|[]]. left. reflexivity.
Qed.

Lemma stack_part mc ptr deref o s : object_ok save base size a t (Stack o) d -> (forall q, d = InReg q -> deref = false) ->
  apart a 24 base size -> word (m_mem s) (a + 8) 8 = base + o -> 0 <= o -> o + lsize t <= size -> 0 <= base + o -> base + o + 8 * eightbytes t < 2 ^ 64 ->
  let s' := vexec a d junk ([LoadF SI overflow_arg_area 8]
    ++ (if standard_width (lsize t) && negb deref then match d with InReg _ => [Take (Z.to_nat (lsize t))] | InMem _ => [Fetch 0 None AX (Z.to_nat (lsize t)); Put AX 0 (Z.to_nat (lsize t))] end
        else LeaDi :: emit_memcpy mc (Z.to_nat (lsize t))) ++ bump ptr (eightbytes t * 8) overflow_arg_area 8) s in
  (forall k, 0 <= k < lsize t -> kept_byte (m_mem s) save base (Stack o) k = Some (object_byte s' d k)) /\
  word (m_mem s') (a + 8) 8 = base + o + 8 * eightbytes t /\
  (forall x, ~ (a + 8 <= x < a + 16) -> (forall p, d = InMem p -> ~ (p <= x < p + lsize t)) -> m_mem s' x = m_mem s x) /\
  same_but (volatile ++ taken) s s' /\ (lsize t <= 64 \/ mc = false -> same_but (scratch ++ taken) s s').
Proof.
  intros OK DR AP W O1 O2 B1 B2. rewrite !vexec_app. cbn zeta. unfold overflow_arg_area. pose proof (eb_bound t P) as EB.
  set (s1 := vexec a d junk [LoadF SI 8 8] s).
  assert (m_mem s1 = m_mem s /\ le_val (m_reg s1 SI) = base + o /\ same_but [SI] s s1) as (M1 & R1 & S1).
  { unfold s1, vexec. cbn [fold_left vstep]. split; [reflexivity|]. split; [|apply same_reg; left; reflexivity]. cbn [with_reg m_reg]. rewrite setr_same, fill_8 by (auto using read_length). exact W. }
  clearbody s1.
  set (mid := if standard_width (lsize t) && negb deref then _ else _). set (s2 := vexec a d junk mid s1).
  assert ((forall k, 0 <= k < lsize t -> object_byte s2 d k = m_mem s (base + o + k)) /\
    (forall x, (forall p, d = InMem p -> ~ (p <= x < p + lsize t)) -> m_mem s2 x = m_mem s x) /\ same_but (volatile ++ taken) s1 s2 /\
    (lsize t <= 64 \/ mc = false -> same_but (scratch ++ taken) s1 s2)) as (H1 & H2 & H3 & H4).
  { assert (incl [AX; DI] (volatile ++ taken)) as IV by (intros x [<-|[<-|[]]]; apply in_or_app; left; cbn; auto 12).
    assert (incl [AX; DI] (scratch ++ taken)) as IS by (intros x [<-|[<-|[]]]; apply in_or_app; left; cbn; auto 12).
    destruct d as [p|q] eqn:ED.
    - destruct OK as (OK1 & OK2 & OK3 & OK4 & OK5). fold (eightbytes t) in OK3, OK4, OK5. unfold apart in OK5.
      assert (same_but [AX; DI] s1 s2 \/ same_but volatile s1 s2 /\ (lsize t <= 64 \/ mc = false -> same_but [AX; DI] s1 s2)) as SS; [|assert (forall x, m_mem s2 x = write (m_mem s) p (read (m_mem s) (base + o) (Z.to_nat (lsize t))) x) as MM].
      + unfold s2, mid. destruct (standard_width (lsize t) && negb deref).
        * left. unfold vexec. cbn [fold_left vstep]. eapply same_trans; [apply same_reg; left; reflexivity|apply same_mem].
        * right. rewrite vexec_cons. set (s1' := vstep a (InMem p) junk s1 LeaDi).
          assert (le_val (m_reg s1' DI) = p /\ le_val (m_reg s1' SI) = base + o /\ same_but [AX; DI] s1 s1') as (D1 & D2 & D3).
          { unfold s1'. cbn [vstep with_reg m_reg]. rewrite setr_same, (setr_other _ DI _ SI) by discriminate. rewrite le_val_bytes. split; [apply Z.mod_small; change (256 ^ Z.of_nat 8) with (2 ^ 64); lia|]. split; [exact R1|]. apply same_reg. right; left; reflexivity. }
          clearbody s1'. destruct (memcpy_ok a (InMem p) junk mc (Z.to_nat (lsize t)) s1' (base + o) p D2 D1) as (_ & C2 & C3); [lia|]. cbn zeta in *. split.
          -- eapply same_trans; [|exact C2]. eapply same_weak; [exact D3|]. intros x [<-|[<-|[]]]; cbn; auto 12.
          -- intro X. eapply same_trans; [exact D3|]. eapply same_weak; [apply C3|]. { destruct X; [left; lia|right; assumption]. } intros x [<-|[]]. left. reflexivity.
      + unfold s2, mid. destruct (standard_width (lsize t) && negb deref).
        * unfold vexec. cbn [fold_left vstep with_mem with_reg m_mem m_reg]. intro x. rewrite setr_same, R1, M1. rewrite fill_take by apply read_length. rewrite !Z.add_0_r. reflexivity.
        * rewrite vexec_cons. set (s1' := vstep a (InMem p) junk s1 LeaDi).
          assert (m_mem s1' = m_mem s /\ le_val (m_reg s1' DI) = p /\ le_val (m_reg s1' SI) = base + o) as (D0 & D1 & D2).
          { unfold s1'. cbn [vstep with_reg m_reg m_mem]. rewrite setr_same, (setr_other _ DI _ SI) by discriminate. rewrite le_val_bytes. split; [exact M1|]. split; [apply Z.mod_small; change (256 ^ Z.of_nat 8) with (2 ^ 64); lia|exact R1]. }
          clearbody s1'. destruct (memcpy_ok a (InMem p) junk mc (Z.to_nat (lsize t)) s1' (base + o) p D2 D1) as (C1 & _); [lia|]. cbn zeta in *. rewrite D0 in C1. exact C1.
      + split; [|split; [|split]].
        * intros k K. cbn [object_byte]. rewrite MM. replace (p + k) with (p + Z.of_nat (Z.to_nat k)) by lia. rewrite write_at by (rewrite read_length; lia). rewrite nth_read by lia. f_equal. lia.
        * intros x X. specialize (X p eq_refl). rewrite MM. apply write_other. rewrite read_length. lia.
        * destruct SS as [SS|[SS _]]; [eapply same_weak; [exact SS|exact IV]|]. eapply same_weak; [exact SS|]. intros x X. apply in_or_app. left. exact X.
        * intro X. destruct SS as [SS|[_ SS]]; [|specialize (SS X)]; (eapply same_weak; [exact SS|exact IS]).
    - specialize (DR q eq_refl). subst deref. destruct OK as (k0 & Et & OK).
      assert (In q temp_int_reg /\ standard_width (lsize t) = true /\ general q = q /\ gpr q = true) as (QI & SW & GQ & QG).
      { rewrite Et. destruct k0; try contradiction; try (destruct OK as [_ (rs & X)]; discriminate); (split; [exact OK|]); (split; [reflexivity|]); cbn in OK; repeat (destruct OK as [<-|OK]; [split; reflexivity|]); contradiction. }
      unfold s2, mid. rewrite SW. cbn [negb andb]. unfold vexec. cbn [fold_left vstep]. rewrite GQ, R1, M1. split; [|split; [|split]].
      + intros k K. cbn [object_byte with_reg m_reg]. rewrite setr_same. set (v := fill q _ _).
        assert (firstn (Z.to_nat (lsize t)) v = read (m_mem s) (base + o) (Z.to_nat (lsize t))) as VE by (apply fill_take, read_length).
        assert (nth (Z.to_nat k) v 0 = nth (Z.to_nat k) (firstn (Z.to_nat (lsize t)) v) 0) as ->.
        { symmetry. rewrite <- (firstn_skipn (Z.to_nat (lsize t)) v) at 2. assert (length (firstn (Z.to_nat (lsize t)) v) = Z.to_nat (lsize t)) by (rewrite VE; apply read_length). rewrite app_nth1 by lia. reflexivity. }
        rewrite VE, nth_read by lia. f_equal. lia.
      + intros x X. exact (f_equal (fun f => f x) M1).
      + apply same_reg. apply in_or_app. right. unfold taken. rewrite ED. left. reflexivity.
      + intros _. apply same_reg. apply in_or_app. right. unfold taken. rewrite ED. left. reflexivity. }
  clearbody s2. clear mid.
  assert (forall x, a <= x < a + 24 -> m_mem s2 x = m_mem s x) as KA.
  { intros x X. apply H2. intros p ED. rewrite ED in OK. destruct OK as (_ & _ & OK3 & _). fold (eightbytes t) in OK3. unfold apart in OK3. lia. }
  destruct (bump_word ptr (eightbytes t * 8) 8 8 s2 (base + o)) as (G1 & G2 & G3); [auto|rewrite <- W; apply word_ext; intros x X; apply KA; lia|change (256 ^ Z.of_nat 8) with (2 ^ 64); lia|].
  cbn zeta in *. set (s3 := vexec a d junk _ s2) in *. clearbody s3. split; [|split; [|split; [|split]]].
  - intros k K. cbn [kept_byte]. f_equal. rewrite <- (H1 k K). unfold object_byte. destruct d as [p|q].
    + destruct OK as (_ & _ & OK3 & _). fold (eightbytes t) in OK3. unfold apart in OK3. rewrite G2 by lia. reflexivity.
    + destruct G3 as (_ & _ & X). rewrite X; [reflexivity|]. pose proof (object_regs _ _ OK) as NQ. intros [Y|[]]. apply NQ. left. exact Y.
  - rewrite G1. lia.
  - intros x X1 X2. rewrite G2 by lia. apply H2, X2.
  - apply (same_trans _ s s1); [eapply same_weak; [exact S1|]; intros y [<-|[]]; apply in_or_app; left; cbn; auto 12|].
    apply (same_trans _ s1 s2); [exact H3|]. eapply same_weak; [exact G3|]. intros y [<-|[]]. apply in_or_app; left; cbn; auto.
  - intro X. apply (same_trans _ s s1); [eapply same_weak; [exact S1|]; intros y [<-|[]]; apply in_or_app; left; cbn; auto 12|].
    apply (same_trans _ s1 s2); [exact (H4 X)|]. eapply same_weak; [exact G3|]. intros y [<-|[]]. apply in_or_app; left; cbn; auto.
Qed.
End Arg.

Lemma slices_classes t pc n : forall i il sl off lv, va_slices t pc i n il sl off = Some lv -> Forall (fun c => c = INTEGER \/ c = SSE) (firstn n (skipn i pc)).
Proof.
  induction n as [|n IH]; intros i il sl off lv E; [constructor|]. cbn [va_slices] in E.
  assert (i < length pc)%nat as LT. { destruct (Nat.ltb_spec i (length pc)) as [Q|Q]; [exact Q|]. rewrite nth_overflow in E by exact Q. discriminate. }
  rewrite (skipn_nth pc i LT). cbn [firstn]. destruct (nth i pc NO_CLASS); try discriminate.
  - apply obnd_some in E. destruct E as (w & _ & E). apply obnd_some in E. destruct E as (l' & E & _). constructor; [auto|eapply IH, E].
  - apply obnd_some in E. destruct E as (l' & E & _). constructor; [auto|eapply IH, E].
Qed.
Lemma assign_all l : forall I X, Forall (fun c => c = INTEGER \/ c = SSE) l -> (count_cls INTEGER l <= length I)%nat -> (count_cls SSE l <= length X)%nat ->
  exists x, assign l I X = Some x.
Proof.
  unfold count_cls. induction l as [|c l IH]; intros I X F A B; [cbn; eauto|]. inversion F as [|? ? [-> | ->] F2]; subst; cbn [assign countb cls_eqb] in *.
  - destruct I as [|r I]; [cbn in A; lia|]. destruct (IH I X F2) as (x & ->); [cbn in A; lia|lia|]. cbn. eauto.
  - destruct X as [|r X]; [cbn in B; lia|]. destruct (IH I X F2) as (x & ->); [lia|cbn in B; lia|]. cbn. eauto.
Qed.

Lemma arg_ok a d junk mc ptr deref t x code save base size ints sses o w s :
  classed t x -> va_arg mc ptr deref d t = Some code -> (ints <= 6)%nat -> (sses <= 8)%nat ->
  w = match assign (fst x) (skipn ints integer_registers) (skipn sses vector_registers) with Some (rs, _, _) => Registers rs | None => Stack o end ->
  object_ok save base size a t w d -> (forall q, d = InReg q -> deref = false) -> apart a 24 save 176 -> apart a 24 base size ->
  word (m_mem s) a 4 = 8 * Z.of_nat ints -> word (m_mem s) (a + 4) 4 = 48 + 16 * Z.of_nat sses -> word (m_mem s) (a + 8) 8 = base + o -> word (m_mem s) (a + 16) 8 = save ->
  0 <= o -> (forall o', w = Stack o' -> o + 8 * eightbytes t <= size) -> 0 <= base -> base + size < 2 ^ 64 ->
  let s' := run_va a d junk code s in
  (forall k, 0 <= k < lsize t -> kept_byte (m_mem s) save base w k = Some (object_byte s' d k)) /\
  (exists ints' sses' o', after [x] (skipn ints integer_registers) (skipn sses vector_registers) o = (skipn ints' integer_registers, skipn sses' vector_registers, o') /\
     (ints' <= 6)%nat /\ (sses' <= 8)%nat /\
     word (m_mem s') a 4 = 8 * Z.of_nat ints' /\ word (m_mem s') (a + 4) 4 = 48 + 16 * Z.of_nat sses' /\ word (m_mem s') (a + 8) 8 = base + o') /\
  (forall y, ~ (a <= y < a + 16) -> (forall p, d = InMem p -> ~ (p <= y < p + 8 * eightbytes t)) -> m_mem s' y = m_mem s y) /\
  same_but (volatile ++ taken d) s s' /\ (lsize t <= 64 \/ mc = false -> same_but (scratch ++ taken d) s s').
Proof.
  intros CX0 EV I6 S8 EW OK DR AP1 AP2 W1 W2 W3 W4 O0 O1 B0 B1. pose proof CX0 as (pc & C & FX & SX & T & NE & P).
  pose proof (eb_pos t P) as EP. pose proof (eb_bound t P) as EB. unfold va_arg in EV. destruct (ptr && deref); [discriminate|]. rewrite C in EV. cbn [obnd] in EV.
  set (stack := [LoadF SI overflow_arg_area 8] ++ _ ++ _) in EV. destruct x as [l n]. cbn [fst snd] in *.
  assert (forall s0, m_mem s0 = m_mem s -> same_but [CX; DX] s s0 -> assign l (skipn ints integer_registers) (skipn sses vector_registers) = None ->
    let s' := vexec a d junk stack s0 in
    (forall k, 0 <= k < lsize t -> kept_byte (m_mem s) save base w k = Some (object_byte s' d k)) /\
    (exists ints' sses' o', after [(l, n)] (skipn ints integer_registers) (skipn sses vector_registers) o = (skipn ints' integer_registers, skipn sses' vector_registers, o') /\
       (ints' <= 6)%nat /\ (sses' <= 8)%nat /\
       word (m_mem s') a 4 = 8 * Z.of_nat ints' /\ word (m_mem s') (a + 4) 4 = 48 + 16 * Z.of_nat sses' /\ word (m_mem s') (a + 8) 8 = base + o') /\
    (forall y, ~ (a <= y < a + 16) -> (forall p, d = InMem p -> ~ (p <= y < p + 8 * eightbytes t)) -> m_mem s' y = m_mem s y) /\
    same_but (volatile ++ taken d) s s' /\ (lsize t <= 64 \/ mc = false -> same_but (scratch ++ taken d) s s')) as STK.
  { intros s0 M0 S0 AN. rewrite AN in EW. subst w. specialize (O1 _ eq_refl).
    destruct (stack_part a d junk t save base size ints sses P I6 S8 mc ptr deref o s0) as (G1 & G2 & G3 & G4 & G5); [exact OK|exact DR|exact AP2|rewrite M0; exact W3|exact O0|lia|lia|lia|].
    cbn zeta in *. fold stack in G1, G2, G3, G4, G5. set (s' := vexec a d junk stack s0) in *. clearbody s'. rewrite M0 in *.
    assert (forall y, a <= y < a + 24 -> ~ (a + 8 <= y < a + 16) -> m_mem s' y = m_mem s y) as KA.
    { intros y Y1 Y2. apply G3; [exact Y2|]. intros p ED. rewrite ED in OK. destruct OK as (_ & _ & OK3 & _). fold (eightbytes t) in OK3. unfold apart in OK3. lia. }
    split; [exact G1|]. split; [|split; [|split]].
    - exists ints, sses, (o + 8 * eightbytes t). cbn [after]. rewrite AN, SX. fold (eightbytes t). split; [reflexivity|]. split; [exact I6|]. split; [exact S8|].
      split; [rewrite <- W1; apply word_ext; intros y Y; apply KA; lia|]. split; [rewrite <- W2; apply word_ext; intros y Y; apply KA; lia|]. rewrite G2. lia.
    - intros y Y1 Y2. apply G3; [lia|]. intros p ED. specialize (Y2 p ED). lia.
    - eapply same_trans; [|exact G4]. eapply same_weak; [exact S0|]. intros y [<-|[<-|[]]]; apply in_or_app; left; cbn; auto 12.
    - intro X. eapply same_trans; [|exact (G5 X)]. eapply same_weak; [exact S0|]. intros y [<-|[<-|[]]]; apply in_or_app; left; cbn; auto 12. }
  assert (exists m, Z.to_nat (eightbytes t) = S m) as (m & EM) by (exists (pred (Z.to_nat (eightbytes t))); lia).
  destruct pc as [|c pc0]; [congruence|]. cbn [nth] in EV. set (pc := c :: pc0) in *.
  assert (c = INTEGER \/ c = SSE \/ (c <> INTEGER /\ c <> SSE)) as [D|[D|D]] by (destruct c; auto; right; right; split; discriminate).
  3: { assert (code = mkCode [] [] stack) as -> by (destruct D; destruct c; try congruence; injection EV as <-; reflexivity).
    unfold run_va. cbn [v_tests v_stack]. apply STK; [reflexivity|apply same_refl|]. rewrite FX. unfold classes, pc. rewrite EM. destruct D. destruct c; try congruence; reflexivity. }
  1, 2: (assert (obnd (va_slices t pc 0 (Z.to_nat (eightbytes t)) 0 0 0) (fun l =>
    Some (mkCode
      ((if Z.of_nat (count_cls INTEGER pc) =? 0 then [] else [(CX, gp_offset, 48 - 8 * Z.of_nat (count_cls INTEGER pc))]) ++ (if Z.of_nat (count_cls SSE pc) =? 0 then [] else [(DX, fp_offset, 48 + 128 - 16 * Z.of_nat (count_cls SSE pc))]))
      ([LoadF SI reg_save_area 8] ++ l ++ (if Z.of_nat (count_cls INTEGER pc) =? 0 then [] else bump ptr (8 * Z.of_nat (count_cls INTEGER pc)) gp_offset 4) ++ (if Z.of_nat (count_cls SSE pc) =? 0 then [] else bump ptr (16 * Z.of_nat (count_cls SSE pc)) fp_offset 4))
      stack)) = Some code) as EV' by (rewrite D in EV; exact EV); clear EV;
    assert (l = firstn (Z.to_nat (eightbytes t)) pc) as LE by (rewrite FX; unfold classes, pc; rewrite D; reflexivity);
    assert (0 < count_cls INTEGER pc + count_cls SSE pc)%nat as CP by (unfold pc, count_cls; rewrite D; cbn; lia);
    assert (alloc_register_params pc ints sses = if (ints + count_cls INTEGER pc <=? 6)%nat && (sses + count_cls SSE pc <=? 8)%nat then Some ((ints + count_cls INTEGER pc)%nat, (sses + count_cls SSE pc)%nat) else None) as AL by (unfold alloc_register_params, pc; cbn [nth]; rewrite D; reflexivity)).
  1, 2: (
    apply obnd_some in EV'; destruct EV' as (lv & EL & EC); injection EC as <-; unfold run_va; cbn [v_tests v_regs v_stack];
    destruct (tests_ok a d junk ints sses I6 S8 (count_cls INTEGER pc) (count_cls SSE pc) s W1 W2 CP) as [TN TR];
    set (tests := (if Z.of_nat (count_cls INTEGER pc) =? 0 then [] else _) ++ _) in *;
    destruct tests as [|t0 tests]; [congruence|]; destruct (run_tests a d junk (t0 :: tests) s) as [s1 b]; destruct TR as (TB & TM & TS & TV);
    destruct b).
  2, 4: (apply STK; [exact TM|exact TS|]; rewrite <- TB in AL; apply (assign_none t (l, n) pc ints sses CX0 C AL I6 S8)).
  1, 2: (
    destruct (TV eq_refl) as [TV1 TV2]; symmetry in TB; apply andb_true_iff in TB; destruct TB as [TB1 TB2]; apply Nat.leb_le in TB1, TB2;
    pose proof (count_tail INTEGER (Z.to_nat (eightbytes t)) pc ltac:(rewrite Z2Nat.id by lia; exact T) ltac:(auto)) as K1;
    pose proof (count_tail SSE (Z.to_nat (eightbytes t)) pc ltac:(rewrite Z2Nat.id by lia; exact T) ltac:(auto)) as K2;
    unfold cnt in K1, K2; cbn [skipn] in K1, K2; change (count_cls INTEGER (firstn (Z.to_nat (eightbytes t)) pc) = count_cls INTEGER pc) in K1; change (count_cls SSE (firstn (Z.to_nat (eightbytes t)) pc) = count_cls SSE pc) in K2;
    destruct (assign_all (firstn (Z.to_nat (eightbytes t)) pc) (skipn ints integer_registers) (skipn sses vector_registers)) as ([[rs F] V] & AS);
      [exact (slices_classes t pc _ 0 _ _ _ _ EL)|rewrite K1, skip_len; cbn [length integer_registers]; lia|rewrite K2, skip_len; cbn [length vector_registers]; lia|];
    rewrite LE in *; rewrite AS in EW; subst w;
    destruct (regs_part a d junk t pc save base size ints sses P C I6 S8 ptr lv rs F V s1 _ _ eq_refl eq_refl EL AS OK AP1) as (G1 & G2 & G3 & G4 & G5);
      [rewrite TM; exact W1|rewrite TM; exact W2|rewrite TM; exact W4|exact TV1|exact TV2|exact TB1|exact TB2|];
    cbn zeta in *; set (s' := vexec a d junk _ s1) in *; clearbody s'; rewrite TM in *;
    destruct (assign_skip _ _ _ _ _ _ AS I6 S8) as (EF & EVV & _ & _); rewrite K1 in EF; rewrite K2 in EVV).
  1, 2: (
    split; [exact G1|]; split; [|split; [|split]];
    [ exists (ints + count_cls INTEGER pc)%nat, (sses + count_cls SSE pc)%nat, o; cbn [after]; rewrite AS, EF, EVV; split; [reflexivity|]; split; [exact TB1|]; split; [exact TB2|]; split; [exact G2|]; split; [exact G3|];
      rewrite <- W3; apply word_ext; intros y Y; apply G4; [lia|]; intros p ED; rewrite ED in OK; destruct OK as (_ & _ & OK3 & _); fold (eightbytes t) in OK3; unfold apart in OK3; lia
    | intros y Y1 Y2; apply G4; [lia|exact Y2]
    | eapply same_trans; [eapply same_weak; [exact TS|]|eapply same_weak; [exact G5|]]
    | intro X; eapply same_trans; [eapply same_weak; [exact TS|]|eapply same_weak; [exact G5|]]]).
  all: intros y Y; cbn [In] in Y; apply in_or_app; repeat (destruct Y as [<-|Y]; [left; cbn; auto 40|]); try contradiction; right; exact Y.
Qed.

(* --- lists --- *)
Lemma starting_skip result : exists f, starting result = skipn f integer_registers /\ (f <= 1)%nat.
Proof. unfold starting. destruct result as [|[] [|? ?]]; (exists 0%nat; split; [reflexivity|lia]) || (exists 1%nat; split; [reflexivity|lia]). Qed.
Lemma after_bound args i x F V : Forall (fun x => 0 <= snd x) args -> nth_error args i = Some x ->
  let '(F', V', o) := after (firstn i args) F V 0 in 0 <= o /\ (assign (fst x) F' V' = None -> o + 8 * ((snd x + 7) / 8) <= snd (after args F V 0)) /\ o <= snd (after args F V 0).
Proof.
  intros P N. destruct (nth_error_split _ _ N) as (x1 & x2 & EX & EL).
  assert (firstn i args = x1) as FI. { rewrite EX, <- EL, firstn_app, firstn_all, Nat.sub_diag. cbn [firstn]. apply app_nil_r. }
  rewrite FI. rewrite EX in P |- *. apply Forall_app in P. destruct P as [P1 P2]. rewrite after_app. pose proof (after_mono x1 F V 0 P1) as M1. destruct (after x1 F V 0) as [[F' V'] o]. cbn [snd] in M1.
  split; [exact M1|]. split; [|apply after_mono, P2]. inversion P2 as [|? ? P3 P4]; subst. intro A. destruct x as [l n]. cbn [fst snd] in *. cbn [after]. rewrite A. apply after_mono, P4.
Qed.
Lemma firstn_next {A} i (l : list A) x : nth_error l i = Some x -> firstn (S i) l = firstn i l ++ [x].
Proof. revert l; induction i as [|i IH]; intros [|y l] E; try discriminate; cbn in E |- *; [injection E as ->; reflexivity|]. f_equal. apply IH, E. Qed.
Lemma assign_in l : forall I X rs F V, assign l I X = Some (rs, F, V) -> forall r, In r rs -> In r I \/ In r X.
Proof.
  induction l as [|c l IH]; intros I X rs F V E r R; cbn [assign] in E; [injection E as <- <- <-; destruct R|].
  destruct c; try discriminate.
  - destruct I as [|r0 I]; [discriminate|]. destruct (assign l I X) as [[[rs' F'] V']|] eqn:Q; [|discriminate]. cbn in E. injection E as <- <- <-.
    destruct R as [<-|R]; [left; left; reflexivity|]. destruct (IH _ _ _ _ _ Q r R); [left; right; assumption|right; assumption].
  - destruct X as [|r0 X]; [discriminate|]. destruct (assign l I X) as [[[rs' F'] V']|] eqn:Q; [|discriminate]. cbn in E. injection E as <- <- <-.
    destruct R as [<-|R]; [right; left; reflexivity|]. destruct (IH _ _ _ _ _ Q r R); [left; assumption|right; right; assumption].
Qed.
Lemma skip_in {A} (x : A) n l : In x (skipn n l) -> In x l.
Proof. intro H. rewrite <- (firstn_skipn n l). apply in_or_app. right. exact H. Qed.
Lemma locate_regs args : forall F V o j rs, nth_error (locate args F V o) j = Some (Registers rs) -> forall r, In r rs -> In r F \/ In r V.
Proof.
  induction args as [|[l n] args IH]; intros F V o j rs E r R; [destruct j; discriminate|]. cbn [locate] in E.
  destruct (assign l F V) as [[[rs' F'] V']|] eqn:A; destruct j as [|j]; cbn [nth_error] in E; try discriminate.
  - injection E as <-. apply (assign_in _ _ _ _ _ _ A r R).
  - assert (forall r, In r F' -> In r F) as IF.
    { clear - A. revert F V rs' F' V' A. induction l as [|c l IH]; intros F V rs F' V' A r R; cbn [assign] in A; [injection A as <- <- <-; exact R|]. destruct c; try discriminate.
      - destruct F as [|r0 F]; [discriminate|]. destruct (assign l F V) as [[[a b] c]|] eqn:Q; [|discriminate]. cbn in A. injection A as <- <- <-. right. apply (IH _ _ _ _ _ Q r R).
      - destruct V as [|r0 V]; [discriminate|]. destruct (assign l F V) as [[[a b] c]|] eqn:Q; [|discriminate]. cbn in A. injection A as <- <- <-. apply (IH _ _ _ _ _ Q r R). }
    assert (forall r, In r V' -> In r V) as IV.
    { clear - A. revert F V rs' F' V' A. induction l as [|c l IH]; intros F V rs F' V' A r R; cbn [assign] in A; [injection A as <- <- <-; exact R|]. destruct c; try discriminate.
      - destruct F as [|r0 F]; [discriminate|]. destruct (assign l F V) as [[[a b] c]|] eqn:Q; [|discriminate]. cbn in A. injection A as <- <- <-. apply (IH _ _ _ _ _ Q r R).
      - destruct V as [|r0 V]; [discriminate|]. destruct (assign l F V) as [[[a b] c]|] eqn:Q; [|discriminate]. cbn in A. injection A as <- <- <-. right. apply (IH _ _ _ _ _ Q r R). }
    destruct (IH _ _ _ _ _ E r R); auto.
  - apply (IH _ _ _ _ _ E r R).
Qed.
Lemma starting_in result r : In r (starting result) -> In r integer_registers.
Proof. destruct (starting_skip result) as (f & -> & _). apply skip_in. Qed.

(* what a list needs from memory *)
Lemma kept_ext mem mem' save base result args j w l n k : Forall (fun x => 0 <= snd x) args ->
  nth_error (locations result args) j = Some w -> nth_error args j = Some (l, n) -> 0 <= k < n ->
  (forall y, save <= y < save + 176 \/ base <= y < base + stack_size result args -> mem' y = mem y) -> kept_byte mem' save base w k = kept_byte mem save base w k.
Proof.
  intros P NW NA K H. unfold locations in NW. fold (starting result) in NW. destruct w as [rs|o]; cbn [kept_byte].
  - destruct (nth_error rs (Z.to_nat (k / 8))) as [r|]; [|reflexivity]. destruct (save_offset r) as [o|] eqn:SO; [|reflexivity]. cbn [option_map]. f_equal. apply H. left.
    pose proof (offset_range _ _ SO). pose proof (Z.mod_pos_bound k 8 ltac:(lia)). lia.
  - f_equal. apply H. right. destruct (stack_bound _ _ _ _ _ _ _ P NW NA) as [A B]. unfold stack_size. lia.
Qed.
Lemma list_ext val result args save base a mem mem' i : Forall (fun x => 0 <= snd x) args -> va_list val result args save base a mem i ->
  (forall y, a <= y < a + 24 \/ save <= y < save + 176 \/ base <= y < base + stack_size result args -> mem' y = mem y) -> va_list val result args save base a mem' i.
Proof.
  intros P [A1 A2 A3 A4 A5] H. split.
  - rewrite <- A1. apply word_ext. intros x X. apply H. lia.
  - rewrite <- A2. apply word_ext. intros x X. apply H. lia.
  - rewrite <- A3. apply word_ext. intros x X. apply H. lia.
  - rewrite <- A4. apply word_ext. intros x X. apply H. lia.
  - intros j w l n k J NW NA K. rewrite <- (A5 j w l n k J NW NA K). apply (kept_ext mem mem' save base result args j w l n k P NW NA K). auto.
Qed.

Lemma arg_list val result args save base a d junk mc ptr deref t x w code i s :
  Forall (fun x => 0 <= snd x) args -> va_list val result args save base a (m_mem s) i -> nth_error args i = Some x -> nth_error (locations result args) i = Some w ->
  classed t x -> va_arg mc ptr deref d t = Some code -> object_ok save base (stack_size result args) a t w d -> (forall q, d = InReg q -> deref = false) ->
  apart a 24 save 176 -> apart a 24 base (stack_size result args) -> 0 <= base -> base + stack_size result args < 2 ^ 64 ->
  let s' := run_va a d junk code s in
  (forall k, 0 <= k < lsize t -> object_byte s' d k = val i k) /\ va_list val result args save base a (m_mem s') (S i) /\
  (forall y, ~ (a <= y < a + 16) -> (forall p, d = InMem p -> ~ (p <= y < p + 8 * eightbytes t)) -> m_mem s' y = m_mem s y) /\
  same_but (volatile ++ taken d) s s' /\ (lsize t <= 64 \/ mc = false -> same_but (scratch ++ taken d) s s').
Proof.
  intros P VL NA NW CL EV OK DR AP1 AP2 B0 B1. destruct x as [l n]. pose proof VL as [V1 V2 V3 V4 V5].
  destruct (starting_skip result) as (f & SF & F1).
  pose proof (locate_nth args (starting result) vector_registers 0 i w l n NW NA) as EW. pose proof (after_bound args i _ (starting result) vector_registers P NA) as AB.
  destruct (after_skip (firstn i args) f 0 0) as (ints & sses & o & EA & I6 & S8); [lia|lia|]. cbn [skipn] in EA. rewrite <- SF in EA.
  change (skipn 0 vector_registers) with vector_registers in EA. rewrite EA in *. cbn [fst snd] in *. rewrite !skip_len in *. cbn [length integer_registers vector_registers] in *.
  assert (lsize t = n /\ n = lsize t) as [SZ _] by (destruct CL as (pc & _ & _ & S & _); cbn [snd] in S; auto).
  destruct AB as (AB1 & AB2 & AB3).
  destruct (arg_ok a d junk mc ptr deref t (l, n) code save base (stack_size result args) ints sses o w s) as (G1 & (ints' & sses' & o' & G2 & G3 & G4 & G5 & G6 & G7) & G8 & G9 & G10);
    try assumption; try lia.
  { intros o1 E1. unfold eightbytes. rewrite SZ. apply AB2. rewrite E1 in EW. cbn [fst]. destruct (assign l _ _) as [[[? ?] ?]|]; [discriminate|reflexivity]. }
  cbn zeta in *. set (s' := run_va a d junk code s) in *. clearbody s'.
  assert (forall y, save <= y < save + 176 \/ base <= y < base + stack_size result args -> m_mem s' y = m_mem s y) as KP.
  { intros y Y. apply G8; [unfold apart in AP1, AP2; lia|]. intros p ED. rewrite ED in OK. destruct OK as (_ & _ & _ & OK4 & OK5). fold (eightbytes t) in OK4, OK5. unfold apart in OK4, OK5. lia. }
  split; [|split; [|split; [exact G8|split; assumption]]].
  - intros k K. specialize (G1 k K). rewrite (V5 i w l n k ltac:(lia) NW NA ltac:(lia)) in G1. congruence.
  - assert (after (firstn (S i) args) (starting result) vector_registers 0 = (skipn ints' integer_registers, skipn sses' vector_registers, o')) as EA'.
    { rewrite (firstn_next _ _ _ NA), after_app, EA. exact G2. }
    split; try rewrite EA'; cbn [fst snd]; rewrite ?skip_len; cbn [length integer_registers vector_registers]; try lia.
    + rewrite <- V4. apply word_ext. intros y Y. apply G8; [lia|]. intros p ED. rewrite ED in OK. destruct OK as (_ & _ & OK3 & _). fold (eightbytes t) in OK3. unfold apart in OK3. lia.
    + intros j w' l' n' k J NW' NA' K. rewrite <- (V5 j w' l' n' k ltac:(lia) NW' NA' K). apply (kept_ext _ _ save base result args j w' l' n' k P NW' NA' K KP).
Qed.

(* --- va_start --- *)
Lemma place_after mk ts xs : Forall2 classed ts xs -> forall i ro q q' R S0 ops o, place_params i ts ro q = Some q' -> split_args i ts (p_ints q) (p_sses q) = Some (R, S0) ->
  gen mk (argpc_of R) (p_ints q) (p_sses q) = Some ops -> (forall k t, nth_error ts k = Some t -> exists f, mk (i + k)%nat = Some (t, f)) -> (p_ints q <= 6)%nat -> (p_sses q <= 8)%nat ->
  after xs (skipn (p_ints q) integer_registers) (skipn (p_sses q) vector_registers) o = (skipn (p_ints q') integer_registers, skipn (p_sses q') vector_registers, o + total S0) /\
  (p_ints q' <= 6)%nat /\ (p_sses q' <= 8)%nat.
Proof.
  induction 1 as [|t x ts xs H F IH]; intros i ro q q' R S0 ops o EP ES EG HM I6 S8.
  - cbn in EP, ES. injection EP as <-. injection ES as <- <-. cbn. rewrite Z.add_0_r. auto.
  - cbn [place_params split_args] in EP, ES. apply obnd_some in EP. destruct EP as (pc & C & EP). rewrite C in ES. cbn [obnd] in ES. destruct x as [l n]. cbn [after].
    assert (forall k t, nth_error ts k = Some t -> exists f, mk (S i + k)%nat = Some (t, f)) as HM'.
    { intros k' t' N. replace (S i + k')%nat with (i + S k')%nat by lia. apply HM, N. }
    destruct (alloc_register_params pc (p_ints q) (p_sses q)) as [[i' s']|] eqn:AL; apply obnd_some in ES; destruct ES as ([R' S'] & ES & X); cbn [fst snd] in X; injection X as <- <-.
    + destruct (length (p_argpc q) <? 14)%nat; [|discriminate].
      cbn [argpc_of map gen fst snd] in EG. fold (argpc_of R') in EG. destruct (HM O t eq_refl) as (f & MK). rewrite Nat.add_0_r in MK. rewrite MK in EG.
      cbn [obnd fst snd] in EG. apply obnd_some in EG. destruct EG as (rw & ER & EG). apply obnd_some in EG. destruct EG as (ops' & EG & EO). injection EO as <-.
      destruct (assign_some _ _ _ _ _ _ _ _ H C AL ER) as (AS & E1 & E2 & L1 & L2). cbn [fst] in AS. rewrite AS. rewrite <- E1, <- E2 in EG.
      eapply IH in EP; [|exact ES|exact EG|exact HM'|exact L1|exact L2]. cbn [p_ints p_sses] in EP. apply EP.
    + rewrite (assign_none _ _ _ _ _ H C AL I6 S8 : assign l _ _ = None).
      destruct H as (pc' & _ & _ & N & _). cbn [snd] in N.
      eapply (IH _ _ _ _ _ _ _ (o + 8 * ((n + 7) / 8))) in EP; [|exact ES|exact EG|exact HM'|exact I6|exact S8]. cbn [p_ints p_sses] in EP. destruct EP as [EP EQ]. split; [|exact EQ].
      rewrite EP. f_equal. cbn [total fold_right snd]. fold (total S'). unfold eightbytes. rewrite N. lia.
Qed.
Lemma locals_total respc vararg params locals f : enter respc vararg params locals = Some f -> exists q ro st,
  place_params 0 params ro (mkPlaced [] [] (first_reg respc) 0 16 st) = Some q /\ va_gp (f_va f) = 8 * Z.of_nat (p_ints q) /\ va_fp (f_va f) = 48 + 16 * Z.of_nat (p_sses q).
Proof.
  unfold enter. fold (first_reg respc). destruct (allocate_registers locals 0 0) as [[slots ints] sses]. intro E. apply obnd_some in E. destruct E as (q & EP & E).
  destruct (allocate_locals locals slots _ _) as [los st]. apply obnd_some in E. destruct E as (stores & _ & E). injection E as <-. eexists q, _, _. split; [exact EP|]. split; reflexivity.
Qed.

Lemma start_words a d junk ptr v s : 0 <= va_gp v < 4294967296 -> 0 <= va_fp v < 4294967296 -> 0 <= m_rbp s + va_overflow v < 2 ^ 64 -> 0 <= m_rbp s + va_save v < 2 ^ 64 ->
  let s' := vexec a d junk (va_start ptr v) s in
  word (m_mem s') a 4 = va_gp v /\ word (m_mem s') (a + 4) 4 = va_fp v /\ word (m_mem s') (a + 8) 8 = m_rbp s + va_overflow v /\ word (m_mem s') (a + 16) 8 = m_rbp s + va_save v /\
  (forall y, y < a \/ a + 24 <= y -> m_mem s' y = m_mem s y) /\ same_but [AX] s s'.
Proof.
  intros G F O S. cbn zeta. unfold va_start. rewrite vexec_app. unfold gp_offset, fp_offset, overflow_arg_area, reg_save_area. set (hd := if ptr then _ else _). set (s1 := vexec a d junk hd s).
  assert (m_mem s1 = write (write (m_mem s) (a + 0) (le_bytes 4 (va_gp v))) (a + 4) (le_bytes 4 (va_fp v)) /\ same_but [AX] s s1) as [M1 S1].
  { unfold s1, hd. destruct ptr; unfold vexec; cbn [fold_left vstep with_reg with_mem m_mem m_reg].
    - rewrite !setr_same. rewrite !fill_take by apply le_bytes_length. split; [reflexivity|]. split; [reflexivity|]. split; [reflexivity|].
      intros r N. cbn [with_reg with_mem m_reg]. rewrite !setr_other by (intros <-; apply N; left; reflexivity). reflexivity.
    - split; [reflexivity|]. repeat split. }
  clearbody s1. clear hd. pose proof S1 as (_ & BP & _).
  unfold vexec. cbn [fold_left vstep with_reg with_mem m_mem m_reg]. rewrite !setr_same. cbn [with_reg with_mem m_rbp]. rewrite BP.
  assert (forall z, firstn 8 (le_bytes 8 z) = le_bytes 8 z) as F8 by (intro z; rewrite <- (le_bytes_length 8 z) at 1; apply firstn_all). rewrite !F8, M1.
  assert (forall p z p' n m, (p' + Z.of_nat n <= p \/ p + 8 <= p') -> word (write m p (le_bytes 8 z)) p' n = word m p' n) as WO.
  { intros p z p' n m H. apply word_ext. intros x X. apply write_other. rewrite le_bytes_length. lia. }
  assert (forall p z p' n m, (p' + Z.of_nat n <= p \/ p + 4 <= p') -> word (write m p (le_bytes 4 z)) p' n = word m p' n) as WO4.
  { intros p z p' n m H. apply word_ext. intros x X. apply write_other. rewrite le_bytes_length. lia. }
  split; [|split; [|split; [|split; [|split]]]].
  - rewrite !WO, WO4 by lia. rewrite Z.add_0_r, word_write by apply le_bytes_length. rewrite le_val_bytes. apply Z.mod_small. exact G.
  - rewrite !WO by lia. rewrite word_write by apply le_bytes_length. rewrite le_val_bytes. apply Z.mod_small. exact F.
  - rewrite WO by lia. rewrite word_write by apply le_bytes_length. rewrite le_val_bytes. apply Z.mod_small. exact O.
  - rewrite word_write by apply le_bytes_length. rewrite le_val_bytes. apply Z.mod_small. exact S.
  - intros y Y. rewrite !write_other; [reflexivity| | | |]; rewrite le_bytes_length; lia.
  - eapply same_trans; [exact S1|]. split; [reflexivity|]. split; [reflexivity|]. intros r N. cbn [with_reg with_mem m_reg]. rewrite !setr_other by (intros <-; apply N; left; reflexivity). reflexivity.
Qed.

Lemma nth_in_registers l (r : reg) : In r l -> exists j, nth_error l j = Some r.
Proof. apply In_nth_error. Qed.
Lemma start_list obj ext junk val result args ts respc locals f s a d junk' ptr :
  starting result = (if is_memory respc then tl integer_registers else integer_registers) ->
  Forall (fun x => 0 <= snd x) args -> Forall2 classed ts (firstn (length ts) args) -> locals_sized locals -> (forall r, length (m_reg s r) = rsize r) -> enter respc true ts locals = Some f ->
  (forall j w l n k, (length ts <= j)%nat -> nth_error (locations result args) j = Some w -> nth_error args j = Some (l, n) -> 0 <= k < n -> byte_at s (m_rsp s + 8) w k = Some (val j k)) ->
  (vectors (locations result args) <> [] -> nth 0 (m_reg s AX) 0 <> 0) ->
  0 <= m_rsp s - 184 -> m_rsp s + 8 + stack_size result args < 2 ^ 64 ->
  apart a 24 (m_rsp s - 184) 176 -> apart a 24 (m_rsp s + 8) (stack_size result args) ->
  let s2 := exec obj ext junk (f_ops f) s in
  let s3 := vexec a d junk' (va_start ptr (f_va f)) s2 in
  va_list val result args (m_rsp s - 184) (m_rsp s + 8) a (m_mem s3) (length ts) /\
  (forall y, y < a \/ a + 24 <= y -> m_mem s3 y = m_mem s2 y) /\ same_but [AX] s2 s3.
Proof.
  intros ST P FC SL G EE HV AL R1 R2 AP1 AP2 s2 s3. pose proof (classed_sized _ _ FC) as SP.
  destruct (enter_ok _ _ _ _ _ SP SL EE) as (R & S0 & st0 & st2 & st3 & sub & stores & EN).
  destruct (enter_exec obj ext junk _ _ _ _ _ _ _ _ _ _ _ _ s SP EN G) as (D1 & D2 & D3 & D4 & D5 & _).
  destruct (enter_more obj ext junk _ _ _ _ _ _ _ _ _ _ _ _ s SP EN G) as (_ & DI' & DS').
  fold s2 in D1, D2, D3, D4, D5, DI', DS'. specialize (DI' eq_refl). specialize (DS' eq_refl).
  destruct EN as [_ _ E3 E4 _ _ _ _ _ _ _ E12 _ _ _ (EV1 & EV2)].
  destruct (locals_total _ _ _ _ _ EE) as (q & ro & st & EP & EG & EF).
  assert (first_reg respc <= 6)%nat as F6 by (unfold first_reg; destruct (is_memory respc); lia).
  destruct (place_after (mk_store ts (f_offs f)) ts _ FC 0 ro _ q R S0 stores 0 EP E3 (store_gen _ _ _ _ _ _ E12)) as (EA & I6 & S8); [|exact F6|cbn; lia|].
  { intros k' t' N. unfold mk_store. cbn [Nat.add]. rewrite N. cbn [obnd]. destruct (nth_error (f_offs f) k') as [o|] eqn:NO; [cbn; eauto|].
    apply nth_error_None in NO. assert (k' < length ts)%nat by (apply nth_error_Some; congruence). lia. }
  cbn [p_ints p_sses] in EA. rewrite first_regs, <- ST in EA. change (skipn 0 vector_registers) with vector_registers in EA.
  assert (0 <= total S0 <= stack_size result args) as TS.
  { unfold stack_size. rewrite <- (firstn_skipn (length ts) args), after_app, EA.
    assert (Forall (fun x : list cls * Z => 0 <= snd x) (firstn (length ts) args) /\ Forall (fun x : list cls * Z => 0 <= snd x) (skipn (length ts) args)) as [P1 P2] by (apply Forall_app; rewrite firstn_skipn; exact P).
    pose proof (after_mono _ (starting result) vector_registers 0 P1) as M. rewrite EA in M. cbn [snd] in M. pose proof (after_mono _ (skipn (p_ints q) integer_registers) (skipn (p_sses q) vector_registers) (0 + total S0) P2). lia. }
  destruct (start_words a d junk' ptr (f_va f) s2) as (W1 & W2 & W3 & W4 & W5 & W6); [lia|lia|rewrite EV1; lia|rewrite EV2; lia|]. cbn zeta in *. fold s3 in W1, W2, W3, W4, W5, W6.
  split; [|split; [exact W5|exact W6]]. split; try rewrite EA; cbn [fst snd]; rewrite ?skip_len; cbn [length integer_registers vector_registers]; try lia.
  intros j w l n k J NW NA K. pose proof (HV j w l n k J NW NA K) as B.
  assert (forall y, m_rsp s - 184 <= y < m_rsp s - 184 + 176 \/ m_rsp s + 8 <= y < m_rsp s + 8 + stack_size result args -> m_mem s3 y = m_mem s2 y) as KP by (intros y Y; apply W5; unfold apart in AP1, AP2; lia).
  rewrite (kept_ext (m_mem s2) (m_mem s3) _ _ result args j w l n k P NW NA K KP). unfold locations in NW. fold (starting result) in NW.
  destruct w as [rs|o]; cbn [byte_at kept_byte] in *.
  - destruct (nth_error rs (Z.to_nat (k / 8))) as [r|] eqn:NR; [|discriminate]. cbn [option_map] in B. rewrite <- B.
    pose proof (nth_error_In _ _ NR) as IR. pose proof (Z.mod_pos_bound k 8 ltac:(lia)) as KM.
    destruct (locate_regs _ _ _ _ _ _ NW r IR) as [IX|IX].
    + apply starting_in in IX. apply In_nth_error in IX. destruct IX as (m & NM). rewrite (offset_int _ _ NM). cbn [option_map]. f_equal.
      rewrite <- (DI' m r NM (k mod 8) KM). f_equal. lia.
    + apply In_nth_error in IX. destruct IX as (m & NM). rewrite (offset_sse _ _ NM). cbn [option_map]. f_equal.
      assert (nth 0 (m_reg s AX) 0 <> 0) as AX0.
      { apply AL. unfold vectors, locations. fold (starting result). intro Q.
        assert (In r (filter is_vector (flat_map (fun x => match x with Registers rs => rs | Stack _ => [] end) (locate args (starting result) vector_registers 0)))) as IQ.
        { apply filter_In. split; [apply in_flat_map; exists (Registers rs); split; [apply (nth_error_In _ _ NW)|exact IR]|].
          apply nth_error_In in NM. cbn in NM. repeat (destruct NM as [<-|NM]; [reflexivity|]). destruct NM. }
        rewrite Q in IQ. destruct IQ. }
      rewrite <- (DS' AX0 m r NM (k mod 8)) by lia. f_equal. lia.
  - destruct (stack_bound _ _ _ _ _ _ _ P NW NA) as [B1 B2]. rewrite <- B. f_equal. apply D5. lia.
Qed.
