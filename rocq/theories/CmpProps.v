(* C45: compiled comparisons give the result C prescribes. *)
From Coq Require Import ZArith Bool List Lia.
From Verif Require Import CmpModel.
Import ListNotations.
Local Open Scope Z_scope.

Section Spec.
Variable R : Type.
Variable rcmp : R -> R -> option comparison.
(* A value of the type k. *)
Definition has_kind (k : kind) (v : value R) : Prop :=
  match k, v with
  | KSigned w, VInt a => 0 < w /\ - 2 ^ (w - 1) <= a < 2 ^ (w - 1)
  | KUnsigned w, VInt a => 0 < w /\ 0 <= a < 2 ^ w
  | KReal, VReal _ => True
  | _, _ => False
  end.
(* C99 6.5.8, 6.5.9: the result of l o r; comparisons with a NaN are false, except != which is true. *)
Definition c_compare (o : cmpop) (l r : value R) : Prop :=
  match l, r with
  | VInt a, VInt b => match o with OEq => a = b | ONe => a <> b | OGe => a >= b | OGt => a > b end
  | VReal a, VReal b =>
    match o with
    | OEq => rcmp a b = Some Eq
    | ONe => rcmp a b <> Some Eq
    | OGe => rcmp a b = Some Eq \/ rcmp a b = Some Gt
    | OGt => rcmp a b = Some Gt
    end
  | _, _ => False
  end.
(* a < b exactly if b > a, and so on. *)
Definition mirrored : Prop := forall a b, rcmp a b = option_map CompOpp (rcmp b a).
End Spec.
Arguments has_kind {R} k v.

Lemma pow_half : forall w, 0 < w -> 2 ^ w = 2 * 2 ^ (w - 1).
Proof. intros w H. rewrite <- Z.pow_succ_r by lia. f_equal. lia. Qed.
Lemma pow_one : forall w, 0 < w -> 1 <= 2 ^ (w - 1).
Proof. intros w H. pose proof (Z.pow_pos_nonneg 2 (w - 1)). lia. Qed.
Lemma signed_id : forall w a, 0 < w -> - 2 ^ (w - 1) <= a < 2 ^ (w - 1) -> signed w a = a.
Proof.
  intros w a W A. unfold signed. pose proof (pow_half w W) as H. pose proof (pow_one w W). destruct (Z_lt_le_dec a 0).
  - replace (a mod 2 ^ w) with (a + 2 ^ w) by (apply Z.mod_unique with (-1); [left|]; lia).
    destruct (Z.ltb_spec (a + 2 ^ w) (2 ^ (w - 1))); lia.
  - rewrite Z.mod_small by lia. destruct (Z.ltb_spec a (2 ^ (w - 1))); lia.
Qed.
Lemma cmp_zf : forall w a b, 0 < w -> - 2 ^ w < a - b < 2 ^ w -> zf (cmp_int w a b) = (a =? b).
Proof.
  intros w a b W H. unfold cmp_int. cbn [zf]. pose proof (pow_half w W). pose proof (pow_one w W).
  destruct (Z.eqb_spec a b) as [->|N].
  - rewrite Z.sub_diag, Z.mod_0_l by lia. reflexivity.
  - apply Z.eqb_neq. intro E. apply Z.mod_divide in E; [|lia]. destruct E as (q & E). assert (q = 0 \/ q <= -1 \/ 1 <= q) as [->|[Q|Q]] by lia; nia.
Qed.
Lemma cmp_cf : forall w a b, 0 <= a < 2 ^ w -> 0 <= b < 2 ^ w -> cf (cmp_int w a b) = (a <? b).
Proof. intros w a b A B. unfold cmp_int. cbn [cf]. rewrite !Z.mod_small by lia. reflexivity. Qed.
Lemma cmp_lt : forall w a b, 0 < w -> - 2 ^ (w - 1) <= a < 2 ^ (w - 1) -> - 2 ^ (w - 1) <= b < 2 ^ (w - 1) ->
  xorb (sf (cmp_int w a b)) (o_f (cmp_int w a b)) = (a <? b).
Proof.
  intros w a b W A B. unfold cmp_int. cbn [sf o_f]. rewrite !signed_id by assumption. pose proof (pow_half w W) as H. pose proof (pow_one w W).
  destruct (Z.ltb_spec a b) as [L|L].
  - replace ((a - b) mod 2 ^ w) with (a - b + 2 ^ w) by (apply Z.mod_unique with (-1); [left|]; lia).
    destruct (Z.leb_spec (2 ^ (w - 1)) (a - b + 2 ^ w)), (Z.leb_spec (- 2 ^ (w - 1)) (a - b)), (Z.ltb_spec (a - b) (2 ^ (w - 1))); simpl; lia.
  - rewrite (Z.mod_small (a - b)) by lia.
    destruct (Z.leb_spec (2 ^ (w - 1)) (a - b)), (Z.leb_spec (- 2 ^ (w - 1)) (a - b)), (Z.ltb_spec (a - b) (2 ^ (w - 1))); simpl; lia.
Qed.

Section Proofs.
Variable R : Type.
Variable rcmp : R -> R -> option comparison.
Variable zero : R.
Hypothesis M : mirrored R rcmp.

Lemma flip : forall a b c, rcmp a b = c -> rcmp b a = option_map CompOpp c.
Proof. intros a b c <-. apply M. Qed.

Ltac bool_prop := repeat match goal with
  | |- context [Z.eqb ?a ?b] => destruct (Z.eqb_spec a b)
  | |- context [Z.ltb ?a ?b] => destruct (Z.ltb_spec a b)
  end; simpl; split; intros; try discriminate; try reflexivity; try lia.

(* For integers the condition returned holds exactly when the comparison does. *)
Lemma compare_int : forall o k ld imm a b cc f, is_real k = false -> has_kind k (VInt a : value R) -> has_kind k (VInt b : value R) ->
  compile_compare R rcmp o k ld imm (VInt a) (VInt b) = (cc, f) ->
  (holds cc f = true <-> c_compare R rcmp o (VInt a) (VInt b)) /\
  match o, cc with
  | OEq, CC_E | ONe, CC_NE | (OGe | OGt), (CC_G | CC_NG | CC_A | CC_NA | CC_GE | CC_NGE | CC_AE | CC_NAE) => True
  | _, _ => False
  end.
Proof.
  intros o k ld imm a b cc f K A B H. unfold compile_compare in H.
  destruct k as [w|w|]; [| |discriminate]; destruct A as [W A], B as [_ B]; pose proof (pow_half w W) as PH; pose proof (pow_one w W);
    destruct (imm && (w <? 64)); injection H as <- <-; destruct o; cbn [initial_cc swap_cc holds c_compare]; (split; [|exact I]);
    rewrite ?cmp_lt, ?cmp_zf, ?cmp_cf by lia; bool_prop.
Qed.
Lemma compare_real : forall o ld imm a b cc f, compile_compare R rcmp o KReal ld imm (VReal a) (VReal b) = (cc, f) ->
  match o with
  | OEq => cc = CC_E /\ (zf f && negb (pf f) = true <-> rcmp a b = Some Eq)
  | ONe => cc = CC_NE /\ (negb (zf f) || pf f = true <-> rcmp a b <> Some Eq)
  | OGe => cc = CC_AE /\ (holds CC_AE f = true <-> rcmp a b = Some Eq \/ rcmp a b = Some Gt)
  | OGt => cc = CC_A /\ (holds CC_A f = true <-> rcmp a b = Some Gt)
  end.
Proof.
  intros o ld imm a b cc f H. cbn in H.
  destruct o, ld; injection H as <- <-; (split; [reflexivity|]); unfold cmp_real;
    try rewrite (M b a); destruct (rcmp a b) as [[| |]|]; cbn; split; intro X; try reflexivity; try discriminate; try tauto; try congruence;
    try (destruct X; discriminate); auto.
Qed.

Lemma value_ok : forall o k ld imm l r cc f, has_kind k l -> has_kind k r -> compile_compare R rcmp o k ld imm l r = (cc, f) ->
  (set_compare_value k cc f = 1 <-> c_compare R rcmp o l r) /\ (set_compare_value k cc f = 0 <-> ~ c_compare R rcmp o l r).
Proof.
  intros o k ld imm l r cc f A B H.
  assert (G : exists x, set_compare_value k cc f = Z.b2z x /\ (x = true <-> c_compare R rcmp o l r)).
  { destruct (is_real k) eqn:K.
    - destruct k; try discriminate. destruct l as [a|a]; [contradiction|]. destruct r as [b|b]; [contradiction|].
      apply compare_real in H. unfold set_compare_value. cbn [is_real c_compare].
      destruct o; destruct H as [-> H].
      + exists (zf f && negb (pf f)). split; [cbn [holds]; destruct (zf f), (pf f); reflexivity|exact H].
      + exists (negb (zf f) || pf f). split; [cbn [holds]; destruct (zf f), (pf f); reflexivity|exact H].
      + exists (holds CC_AE f). split; [destruct (holds CC_AE f); reflexivity|exact H].
      + exists (holds CC_A f). split; [destruct (holds CC_A f); reflexivity|exact H].
    - destruct l as [a|a]; [|destruct k; contradiction || discriminate]. destruct r as [b|b]; [|destruct k; contradiction || discriminate].
      apply compare_int in H as [H _]; try assumption. exists (holds cc f). split; [unfold set_compare_value; rewrite K; reflexivity|exact H]. }
  destruct G as (x & -> & G). rewrite <- G. destruct x; simpl; intuition (try discriminate; try congruence).
Qed.
Lemma jumps_ok : forall o k ld imm l r cc f, has_kind k l -> has_kind k r -> compile_compare R rcmp o k ld imm l r = (cc, f) ->
  exists code, compare_jumps k cc = Some code /\ (take code f = true <-> c_compare R rcmp o l r).
Proof.
  intros o k ld imm l r cc f A B H. destruct (is_real k) eqn:K.
  - destruct k; try discriminate. destruct l as [a|a]; [contradiction|]. destruct r as [b|b]; [contradiction|].
    apply compare_real in H.
    destruct o; destruct H as [-> H]; eexists; (split; [reflexivity|]); cbn [c_compare]; rewrite <- H; cbn; destruct f as [z c s v p]; cbn; destruct z, p, c; cbn; tauto.
  - destruct l as [a|a]; [|destruct k; contradiction || discriminate]. destruct r as [b|b]; [|destruct k; contradiction || discriminate].
    apply compare_int in H as [H C]; try assumption.
    destruct o, cc; try contradiction; cbn [compare_jumps]; rewrite ?K; eexists; (split; [reflexivity|]); rewrite <- H; cbn;
      destruct f as [z c s v p]; cbn; destruct z, c, s, v; cbn; tauto.
Qed.
Lemma scalar_ok : forall k v, has_kind k v -> (take (scalar_jumps k) (scalar_flags R rcmp zero k v) = true <->
  match v with VInt a => a <> 0 | VReal a => rcmp a zero <> Some Eq end).
Proof.
  intros [w|w|] [a|a] A; cbn in A; try contradiction.
  - destruct A as [W A]. pose proof (pow_half w W). pose proof (pow_one w W). cbn [scalar_jumps is_real take scalar_flags holds].
    rewrite cmp_zf by lia. destruct (Z.eqb_spec a 0); split; intro; try congruence; try contradiction.
  - destruct A as [W A]. pose proof (pow_half w W). pose proof (pow_one w W). cbn [scalar_jumps is_real take scalar_flags holds].
    rewrite cmp_zf by lia. destruct (Z.eqb_spec a 0); split; intro; try congruence; try contradiction.
  - cbn. unfold cmp_real. rewrite (M zero a). destruct (rcmp a zero) as [[| |]|]; cbn; split; intro; congruence.
Qed.
End Proofs.

(* An expression l == r, l != r, l >= r or l > r leaves 1 if C says so and 0 otherwise: for integers of any width, signed
   and unsigned, and for floating types with NaN; whether or not the left operand is a constant. *)
Theorem C45_value : forall R rcmp, mirrored R rcmp -> forall o k long_double left_imm l r cc f, has_kind k l -> has_kind k r ->
  compile_compare R rcmp o k long_double left_imm l r = (cc, f) ->
  (set_compare_value k cc f = 1 <-> c_compare R rcmp o l r) /\ (set_compare_value k cc f = 0 <-> ~ c_compare R rcmp o l r).
Proof. exact value_ok. Qed.
Print Assumptions C45_value.

(* As a branch condition it leads to the second successor exactly when it holds, and no assertion fails. *)
Theorem C45_branch : forall R rcmp, mirrored R rcmp -> forall o k long_double left_imm l r cc f, has_kind k l -> has_kind k r ->
  compile_compare R rcmp o k long_double left_imm l r = (cc, f) ->
  exists code, compare_jumps k cc = Some code /\ (take code f = true <-> c_compare R rcmp o l r).
Proof. exact jumps_ok. Qed.
Print Assumptions C45_branch.

(* Any other scalar condition leads there exactly when it compares unequal to zero. *)
Theorem C45_scalar : forall R rcmp zero, mirrored R rcmp -> forall k v, has_kind k v ->
  (take (scalar_jumps k) (scalar_flags R rcmp zero k v) = true <->
   match v with VInt a => a <> 0 | VReal a => rcmp a zero <> Some Eq end).
Proof. exact scalar_ok. Qed.
Print Assumptions C45_scalar.

(* -128 >= 127 as signed char; 5 > 4 with a constant on the left; NaN comparisons, where None stands for NaN. *)
Definition ocmp (a b : option Z) : option comparison := match a, b with Some x, Some y => Some (x ?= y) | _, _ => None end.
Example C45_mirrored : mirrored _ ocmp.
Proof. intros [a|] [b|]; cbn; try reflexivity. rewrite (Z.compare_antisym a b). destruct (a ?= b); reflexivity. Qed.
Example C45_instance :
  (let '(cc, f) := compile_compare _ ocmp OGe (KSigned 8) false false (VInt (-128)) (VInt 127) in set_compare_value (KSigned 8) cc f) = 0 /\
  (let '(cc, f) := compile_compare _ ocmp OGt (KUnsigned 32) false true (VInt 5) (VInt 4) in set_compare_value (KUnsigned 32) cc f) = 1 /\
  (let '(cc, f) := compile_compare _ ocmp ONe KReal false false (VReal None) (VReal None) in set_compare_value KReal cc f) = 1 /\
  (let '(cc, f) := compile_compare _ ocmp OEq KReal true false (VReal None) (VReal None) in set_compare_value KReal cc f) = 0 /\
  take (scalar_jumps KReal) (scalar_flags _ ocmp (Some 0) KReal (VReal None)) = true.
Proof. vm_compute. auto. Qed.
