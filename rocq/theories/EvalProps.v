(* C16: integer conversions.  C17: constant folding agrees with C's definition of the operators. *)
From Coq Require Import ZArith Bool.
From Verif Require Import TypeModel TypeSpec TypeProofs EvalModel EvalSpec EvalProofs.
Open Scope Z_scope.

(* For every value of every integer type and every target integer type: the cast is a constant of the
   target type, holding the unique value C prescribes; in particular representable values are unchanged. *)
Theorem C16_conversion : forall t to k k' v bits,
  denotes t (I k) -> denotes to (I k') -> Repr k v bits ->
  exists t' v' bits', eval_cast t bits to = Const t' bits' /\ denotes t' (I k') /\ Repr k' v' bits' /\
    Converted k' v v' /\ (forall w, Converted k' v w -> w = v') /\ (in_range k' v -> v' = v).
Proof.
  intros t to k k' v bits H1 H2 HR. unfold eval_cast.
  destruct (denotes_signed _ _ H1) as (_ & _ & I1). destruct (denotes_signed _ _ H2) as (_ & _ & I2).
  rewrite I1, I2. cbn [andb negb]. destruct (type_equal t to) eqn:E.
  - apply type_equal_eq in E. subst to. rewrite (denotes_unique _ _ _ H2 H1).
    exists t, v, bits. split; [reflexivity|]. split; [exact H1|]. split; [exact HR|].
    pose proof (converted_id k v (proj1 HR)) as C. split; [exact C|].
    split; [intros w Hw; exact (converted_unique _ _ _ _ Hw C)|reflexivity].
  - destruct (convert_ok _ _ _ _ _ _ H1 H2 HR) as (v' & b' & EC & C & R). rewrite EC.
    exists to, v', b'. split; [reflexivity|]. split; [exact H2|]. split; [exact R|]. split; [exact C|].
    split; [intros w Hw; exact (converted_unique _ _ _ _ Hw C)|].
    intro X. exact (converted_unique _ _ _ _ C (converted_id _ _ X)).
Qed.
Print Assumptions C16_conversion.

(* (unsigned char) of the int -1; (_Bool) of the long 256 *)
Example C16_instance :
  denotes basic_type__int (I Int) /\ Repr Int (-1) (2 ^ 64 - 1) /\
  eval_cast basic_type__int (2 ^ 64 - 1) basic_type__unsigned_char = Const basic_type__unsigned_char 255 /\
  Repr Long 256 256 /\ eval_cast basic_type__long 256 basic_type__bool = Const basic_type__bool 1.
Proof. repeat split; try reflexivity; vm_compute; discriminate. Qed.

(* Arithmetic, bitwise and comparison operators: whenever C defines the result in the common type, the
   fold is a constant of the right type denoting it. *)
Theorem C17_binary : forall op t1 t2 k1 k2 a b l r k a' b' v, is_shift op = false ->
  denotes t1 (I k1) -> denotes t2 (I k2) -> Repr k1 a l -> Repr k2 b r ->
  Common (I k1) (I k2) (I k) -> Converted k a a' -> Converted k b b' -> c_binary op k a' b' = Some v ->
  exists t bits, eval_binary op t1 l t2 r = Const t bits /\
    denotes t (I (result_kind op k)) /\ Repr (result_kind op k) v bits.
Proof.
  intros op t1 t2 k1 k2 a b l r k a' b' v HS H1 H2 R1 R2 HC CA CB Hv.
  destruct (binary_ok op _ _ _ _ _ _ _ _ HS H1 H2 R1 R2) as (k0 & a0 & b0 & HC0 & CA0 & CB0 & H).
  pose proof (common_unique _ _ _ _ HC HC0) as E. injection E as <-.
  rewrite (converted_unique _ _ _ _ CA CA0), (converted_unique _ _ _ _ CB CB0) in Hv. exact (H v Hv).
Qed.
Print Assumptions C17_binary.

(* -1 < 1u is false: int -1 converts to 4294967295 *)
Example C17_binary_instance :
  Common (I Int) (I UInt) (I UInt) /\ Converted UInt (-1) 4294967295 /\
  c_binary Gt UInt 1 4294967295 = Some 0 /\
  eval_binary Gt basic_type__unsigned_int 1 basic_type__int (2 ^ 64 - 1) = Const basic_type__int 0 /\
  c_binary Mod Int (-7) 2 = Some (-1) /\
  eval_binary Mod basic_type__int (2 ^ 64 - 7) basic_type__short 2 = Const basic_type__int (2 ^ 64 - 1).
Proof.
  split.
  { right; right; right. exists Int, UInt, Int, UInt, UInt. repeat split; auto.
    - exact (prom_ok Int).
    - exact (prom_ok UInt).
    - right; right; right. exists Int, UInt. repeat split; auto. left. split; [vm_compute; discriminate|reflexivity]. }
  split; [split; [split; vm_compute; discriminate|exists 1; reflexivity]|]. vm_compute. auto.
Qed.

Theorem C17_shift : forall left t1 t2 k1 k2 a n l r k a' v,
  denotes t1 (I k1) -> denotes t2 (I k2) -> Repr k1 a l -> Repr k2 n r ->
  Promoted k1 k -> Converted k a a' -> c_shift left k a' n = Some v ->
  exists t bits, eval_binary (if left then Shl else Shr) t1 l t2 r = Const t bits /\ denotes t (I k) /\ Repr k v bits.
Proof.
  intros left t1 t2 k1 k2 a n l r k a' v H1 H2 R1 R2 HP CA Hv.
  destruct (shift_ok left _ _ _ _ _ _ _ _ H1 H2 R1 R2) as (k0 & a0 & HP0 & CA0 & H).
  rewrite (promoted_unique _ _ _ HP HP0) in *. rewrite (converted_unique _ _ _ _ CA CA0) in Hv. exact (H v Hv).
Qed.
Print Assumptions C17_shift.

(* (char)-8 >> 1u = -4 *)
Example C17_shift_instance : Promoted SChar Int /\ Converted Int (-8) (-8) /\ c_shift false Int (-8) 1 = Some (-4) /\
  eval_binary Shr basic_type__char (2 ^ 64 - 8) basic_type__unsigned_int 1 = Const basic_type__int (2 ^ 64 - 4).
Proof.
  split; [exact (prom_ok SChar)|]. split; [split; [split; vm_compute; discriminate|exists 0; reflexivity]|]. vm_compute. auto.
Qed.

Theorem C17_complement : forall t1 k1 a l k a', denotes t1 (I k1) -> Repr k1 a l -> Promoted k1 k -> Converted k a a' ->
  exists t bits, eval_not t1 l = Const t bits /\ denotes t (I k) /\ Repr k (c_not k a') bits.
Proof.
  intros t1 k1 a l k a' H1 R1 HP CA. destruct (not_ok _ _ _ _ H1 R1) as (k0 & a0 & HP0 & CA0 & H).
  rewrite (promoted_unique _ _ _ HP HP0) in *. rewrite (converted_unique _ _ _ _ CA CA0). exact H.
Qed.
Print Assumptions C17_complement.

Theorem C17_negation : forall t1 k1 a l k a' v, denotes t1 (I k1) -> Repr k1 a l -> Promoted k1 k -> Converted k a a' ->
  c_neg k a' = Some v ->
  exists t bits, eval_neg t1 l = Const t bits /\ denotes t (I k) /\ Repr k v bits.
Proof.
  intros t1 k1 a l k a' v H1 R1 HP CA Hv. destruct (neg_ok _ _ _ _ H1 R1) as (k0 & a0 & HP0 & CA0 & H).
  rewrite (promoted_unique _ _ _ HP HP0) in *. rewrite (converted_unique _ _ _ _ CA CA0) in Hv. exact (H v Hv).
Qed.
Print Assumptions C17_negation.

(* ~(unsigned short)1 = -2 as int; -(unsigned)1 = 4294967295 *)
Example C17_unary_instance :
  Promoted UShort Int /\ eval_not basic_type__unsigned_short 1 = Const basic_type__int (2 ^ 64 - 2) /\ c_not Int 1 = -2 /\
  c_neg UInt 1 = Some 4294967295 /\ eval_neg basic_type__unsigned_int 1 = Const basic_type__unsigned_int 4294967295.
Proof. split; [exact (prom_ok UShort)|]. vm_compute. auto. Qed.

(* Division by a zero constant is not folded but left for run time, for all types. *)
Theorem C17_division_by_zero : forall op t1 t2 k1 k2 a l r, op = Div \/ op = Mod ->
  denotes t1 (I k1) -> denotes t2 (I k2) -> Repr k1 a l -> Repr k2 0 r ->
  eval_binary op t1 l t2 r = Runtime.
Proof. intros. eapply div_zero; eauto. Qed.
Print Assumptions C17_division_by_zero.

(* No undefined behaviour in the compiler, as long as no operand has type long and the operator is
   not a shift.  Missing: long operands and shift amounts; see the refutations. *)
Theorem C17_no_crash_partial : forall op t1 t2 k1 k2 a b l r, is_shift op = false ->
  denotes t1 (I k1) -> denotes t2 (I k2) -> Repr k1 a l -> Repr k2 b r -> k1 <> Long -> k2 <> Long ->
  eval_binary op t1 l t2 r <> HostUB.
Proof. intros. eapply small_no_ub; eauto. Qed.
Print Assumptions C17_no_crash_partial.

(* INT_MIN / -1 in int *)
Example C17_no_crash_instance : Repr Int (- 2 ^ 31) (2 ^ 64 - 2 ^ 31) /\ Repr Int (-1) (2 ^ 64 - 1) /\
  eval_binary Div basic_type__int (2 ^ 64 - 2 ^ 31) basic_type__int (2 ^ 64 - 1) = Const basic_type__int (2 ^ 64 - 2 ^ 31).
Proof. repeat split; try reflexivity; vm_compute; discriminate. Qed.

(* LONG_MIN / -1 is evaluated by the compiler itself: host undefined behaviour (SIGFPE on x86). *)
Theorem C17_no_crash_refuted : exists op t1 t2 k1 k2 a b l r, is_shift op = false /\
  denotes t1 (I k1) /\ denotes t2 (I k2) /\ Repr k1 a l /\ Repr k2 b r /\ eval_binary op t1 l t2 r = HostUB.
Proof.
  exists Div, basic_type__long, basic_type__int, Long, Int, (- 2 ^ 63), (-1), (2 ^ 63), (2 ^ 64 - 1).
  repeat split; try reflexivity; vm_compute; discriminate.
Qed.
Print Assumptions C17_no_crash_refuted.

(* 1 << 64 in a constant expression is a host shift by 64. *)
Theorem C17_shift_crash_refuted : exists t1 t2 k1 k2 a n l r,
  denotes t1 (I k1) /\ denotes t2 (I k2) /\ Repr k1 a l /\ Repr k2 n r /\ eval_binary Shl t1 l t2 r = HostUB.
Proof.
  exists basic_type__int, basic_type__int, Int, Int, 1, 64, 1, 64. repeat split; try reflexivity; vm_compute; discriminate.
Qed.
Print Assumptions C17_shift_crash_refuted.
