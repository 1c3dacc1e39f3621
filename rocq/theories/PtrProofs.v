(* The code that is generated for objects and pointers computes the addresses that C says. *)
From Coq Require Import List Bool Arith ZArith Lia.
From Verif Require Import PtrModel PtrSpec.
Import ListNotations.
Open Scope Z_scope.

(* ---- numbers ---- *)
Lemma p64 : 2 ^ 64 = 18446744073709551616. Proof. reflexivity. Qed.
Lemma p63 : 2 ^ 63 = 9223372036854775808. Proof. reflexivity. Qed.
Lemma p31 : 2 ^ 31 = 2147483648. Proof. reflexivity. Qed.
Lemma wrap_range z : 0 <= wrap z < 2 ^ 64.
Proof. apply Z.mod_pos_bound. reflexivity. Qed.
Lemma wrap_id z : 0 <= z < 2 ^ 64 -> wrap z = z.
Proof. intros. apply Z.mod_small. assumption. Qed.
Lemma wrap_wrap z : wrap (wrap z) = wrap z.
Proof. apply wrap_id, wrap_range. Qed.
Lemma wrap_eq a b k : a = b + k * 2 ^ 64 -> wrap a = wrap b.
Proof. intros ->. unfold wrap. apply Z.mod_add. discriminate. Qed.
Lemma wrap_div z : exists k, z = wrap z + k * 2 ^ 64.
Proof. exists (z / 2 ^ 64). unfold wrap. pose proof (Z.div_mod z (2 ^ 64)). lia. Qed.
Ltac wraps :=
  repeat match goal with
  | |- context [wrap ?z] => lazymatch z with context [wrap _] => fail | _ => idtac end;
      lazymatch goal with K : z = _ + _ * 2 ^ 64 |- _ => fail | _ => idtac end;
      let k := fresh "k" in let q := fresh "q" in let E := fresh "E" in
      destruct (wrap_div z) as [k E]; set (q := wrap z) in *; clearbody q
  end.
Lemma wrap_add a b : wrap (wrap a + b) = wrap (a + b).
Proof. unfold wrap. apply Zplus_mod_idemp_l. Qed.
Lemma wrap_add_r a b : wrap (a + wrap b) = wrap (a + b).
Proof. unfold wrap. apply Zplus_mod_idemp_r. Qed.
Lemma wrap_sub a b : wrap (wrap a - b) = wrap (a - b).
Proof. unfold wrap. apply Zminus_mod_idemp_l. Qed.
Lemma wrap_sub_r a b : wrap (a - wrap b) = wrap (a - b).
Proof. unfold wrap. apply Zminus_mod_idemp_r. Qed.
Lemma wrap_mul a b : wrap (wrap a * b) = wrap (a * b).
Proof. unfold wrap. apply Zmult_mod_idemp_l. Qed.
Lemma wrap_mul_r a b : wrap (a * wrap b) = wrap (a * b).
Proof. unfold wrap. apply Zmult_mod_idemp_r. Qed.
Lemma signed_id z : - 2 ^ 63 <= z < 2 ^ 63 -> signed (wrap z) = z.
Proof.
  intros H. unfold signed. rewrite wrap_wrap. destruct (wrap_div z) as [k E]. pose proof (wrap_range z).
  rewrite p64, p63 in *. destruct (Z.ltb_spec (wrap z) 9223372036854775808); lia.
Qed.
Lemma signed_wrap z : wrap (signed z) = wrap z.
Proof. unfold signed. destruct (_ <? _); [apply wrap_wrap|]. rewrite <- (wrap_wrap z). apply wrap_eq with (k := -1). rewrite wrap_wrap. lia. Qed.
Lemma extend8 sg z : extend 8 sg z = wrap z.
Proof.
  unfold extend, low. change (2 ^ (8 * 8)) with (2 ^ 64). fold (wrap z).
  destruct (_ && _); [|reflexivity]. rewrite <- (wrap_wrap z) at 2. apply wrap_eq with (k := -1). lia.
Qed.
Lemma convert8 t z : (exists sg, t = TInt 8 sg) \/ is_pointer t = true -> convert z t = wrap z.
Proof. intros [[sg ->]|H]; [apply extend8|]. destruct t; try discriminate H. reflexivity. Qed.

Lemma halves G s sg : type_ok G (TInt s sg) -> 0 < 2 ^ (8 * s) <= 2 ^ 64 /\ 2 ^ (8 * s) = 2 * 2 ^ (8 * s - 1).
Proof. cbn [type_ok]. intros [->|[->|[->| ->]]]; repeat split; discriminate || reflexivity. Qed.
(* converting, on the 64 bits *)
Lemma convert_converted G t z : type_ok G t -> scalar t = true -> convert (wrap z) t = wrap (converted t z).
Proof.
  intros T S. destruct t as [|s sg|u| |]; try discriminate S.
  2:{ cbn [convert]. rewrite wrap_wrap. unfold converted. cbn [lowest bits]. rewrite Z.sub_0_r, Z.add_0_r. symmetry. apply wrap_wrap. }
  cbn in T. unfold converted. cbn [convert lowest bits].
  assert (L : low s (wrap z) = z mod 2 ^ (8 * s)).
  { unfold low, wrap. destruct T as [->|[->|[->| ->]]]; symmetry; apply Znumtheory.Zmod_div_mod; try reflexivity.
    - exists (2 ^ 56). reflexivity. - exists (2 ^ 48). reflexivity. - exists (2 ^ 32). reflexivity. }
  unfold extend. rewrite L. unfold least.
  assert (P : 0 < 2 ^ (8 * s) <= 2 ^ 64) by (destruct T as [->|[->|[->| ->]]]; split; discriminate || reflexivity).
  assert (D : 2 ^ (8 * s) = 2 * 2 ^ (8 * s - 1)) by (destruct T as [->|[->|[->| ->]]]; reflexivity).
  pose proof (Z.mod_pos_bound z (2 ^ (8 * s)) ltac:(lia)) as B. set (M := 2 ^ (8 * s)) in *. set (H := 2 ^ (8 * s - 1)) in *. clearbody M H.
  destruct sg; cbn [andb].
  2:{ rewrite Z.sub_0_r, Z.add_0_r. symmetry. apply wrap_id. lia. }
  assert (E : (z - - H) mod M = if H <=? z mod M then z mod M - H else z mod M + H).
  { pose proof (Z.div_mod z M ltac:(lia)). destruct (Z.leb_spec H (z mod M)).
    - symmetry. apply Z.mod_unique_pos with (q := z / M + 1); lia.
    - symmetry. apply Z.mod_unique_pos with (q := z / M); lia. }
  rewrite E. destruct (H <=? z mod M); [f_equal; lia|]. symmetry. rewrite wrap_id; lia.
Qed.
Lemma converted_fits G t z : type_ok G t -> scalar t = true -> fits t (converted t z).
Proof.
  intros T S. destruct t as [|s sg|u| |]; try discriminate S; unfold converted; cbn [fits lowest bits].
  - destruct (halves _ _ _ T) as [P D]. pose proof (Z.mod_pos_bound (z - least s sg) (2 ^ (8 * s)) ltac:(lia)) as B.
    unfold least, most in *. destruct sg; lia.
  - rewrite Z.sub_0_r, Z.add_0_r. apply Z.mod_pos_bound. reflexivity.
Qed.
Lemma converted_id G t z : type_ok G t -> fits t z -> converted t z = z.
Proof.
  intros T F. destruct t as [|s sg|u| |]; try contradiction F; unfold converted; cbn [fits lowest bits] in *.
  - destruct (halves _ _ _ T) as [P D]. unfold least, most in F. unfold least. rewrite Z.mod_small; destruct sg; lia.
  - rewrite Z.mod_small; lia.
Qed.
Lemma fitsb_fits t z : fitsb t z = true -> fits t z.
Proof. destruct t; cbn; intros H; try discriminate H; apply andb_true_iff in H as [A B]; apply Z.leb_le in A; apply Z.ltb_lt in B; lia. Qed.

Lemma fits_long G t z : type_ok G t -> fits t z -> is_integer t = true -> - 2 ^ 63 <= z < 2 ^ 64.
Proof.
  intros T F I. destruct t as [|s sg| | |]; try discriminate I. destruct (halves _ _ _ T) as [P D]. cbn [fits] in F. unfold least, most in F.
  rewrite p64, p63 in *. destruct sg; lia.
Qed.

Lemma type_equal_eq a : forall b, type_equal a b = true -> a = b.
Proof.
  induction a; destruct b; cbn; intros H; try discriminate H; try reflexivity.
  - apply andb_true_iff in H as [A B]. apply Z.eqb_eq in A. apply eqb_prop in B. congruence.
  - f_equal. auto.
  - apply andb_true_iff in H as [A B]. apply Z.eqb_eq in A. f_equal; auto.
  - apply Nat.eqb_eq in H. congruence.
Qed.
Lemma type_equal_refl a : type_equal a a = true.
Proof. induction a; cbn; rewrite ?Z.eqb_refl, ?eqb_reflx, ?Nat.eqb_refl, ?IHa; reflexivity. Qed.

(* ---- memory ---- *)
Lemma read_bytes m : forall n a, read m a n = bytes_at m a n.
Proof.
  induction n; intros a; [reflexivity|]. cbn [read]. rewrite IHn. unfold bytes_at. cbn [seq map fold_right].
  rewrite Z.add_0_r. change (2 ^ (8 * Z.of_nat 0)) with 1. rewrite Z.mul_1_r. f_equal.
  rewrite <- seq_shift, map_map. generalize (seq 0 n). induction l as [|i l IH]; [reflexivity|]. cbn [map fold_right].
  rewrite Z.mul_add_distr_l, IH. f_equal. rewrite Nat2Z.inj_succ, <- Z.add_1_l, <- Z.add_assoc.
  replace (8 * (1 + Z.of_nat i)) with (8 + 8 * Z.of_nat i) by lia. rewrite Z.pow_add_r by lia. change (2 ^ 8) with 256.
  replace (a + 1 + Z.of_nat i) with (a + (1 + Z.of_nat i)) by lia. ring.
Qed.

(* ---- code that is generated ---- *)
Section Code.
Variable G : tagged.
Variable w : world.

Definition agree (k : nat) (T T' : temps) : Prop := forall i, (i < k)%nat -> T' i = T i.
(* m comes to a result, and the statements it generates run, change no temporary there was, and end with P *)
Definition gives {A} (m : M A) (k : nat) (T : temps) (P : A -> nat -> temps -> Prop) : Prop :=
  forall l, exists a k' l' T', m (k, l) = Ok (a, (k', l ++ l')) /\ (k <= k')%nat /\ run G w l' T = Some T' /\ agree k T T' /\ P a k' T'.
Lemma run_app l1 : forall l2 T T1, run G w l1 T = Some T1 -> run G w (l1 ++ l2) T = run G w l2 T1.
Proof. induction l1 as [|s l IH]; cbn; intros l2 T T1 H; [injection H as <-; reflexivity|]. destruct (meaning _ _ _ _); [auto|discriminate H]. Qed.
Lemma gives_ret {A} (a : A) k T (P : A -> nat -> temps -> Prop) : P a k T -> gives (ret a) k T P.
Proof. intros H l. exists a, k, [], T. rewrite app_nil_r. repeat split; auto. Qed.
Lemma gives_bind {A B} (m : M A) (f : A -> M B) k T P Q :
  gives m k T P -> (forall a k' T', (k <= k')%nat -> agree k T T' -> P a k' T' -> gives (f a) k' T' Q) -> gives (bind m f) k T Q.
Proof.
  intros H F l. destruct (H l) as (a & k1 & l1 & T1 & E & L & R & A1 & p). destruct (F _ _ _ L A1 p (l ++ l1)) as (b & k2 & l2 & T2 & E2 & L2 & R2 & A2 & q).
  exists b, k2, (l1 ++ l2), T2. split; [unfold bind; rewrite E, E2, app_assoc; reflexivity|]. split; [lia|].
  split; [rewrite (run_app _ _ _ _ R); exact R2|]. split; [|exact q]. intros i I. rewrite A2 by lia. apply A1. exact I.
Qed.
Lemma gives_imp {A} (m : M A) k T (P Q : A -> nat -> temps -> Prop) :
  gives m k T P -> (forall a k' T', (k <= k')%nat -> P a k' T' -> Q a k' T') -> gives m k T Q.
Proof. intros H F l. destruct (H l) as (a & k1 & l1 & T1 & E & L & R & A1 & p). exists a, k1, l1, T1. repeat (split; [assumption|]). auto. Qed.
Lemma agree_refl k T : agree k T T. Proof. intros i _. reflexivity. Qed.

(* types of 64 bits *)
Definition wide (t : cty) : Prop := (exists sg, t = TInt 8 sg) \/ is_pointer t = true.
(* vars as they come about *)
Definition near (v : var) : Prop := 0 <= offset v /\ (offset v = 0 \/ offset v + size_of G (vtype v) < 2 ^ 31).
Definition sound (k : nat) (v : var) : Prop :=
  type_ok G (vtype v) /\
  match kind v, sym v with
  | IMMEDIATE, None => offset v = 0 /\ 0 <= imm v < 2 ^ 64
  | DIRECT, Some (mkSym (Obj _) _) => True
  | DIRECT, Some (mkSym (Tmp n) t) => (n < k)%nat /\ offset v = 0 /\ lvalue v = false /\ size_of G t = size_of G (vtype v) /\ scalar t = true /\ scalar (vtype v) = true
  | ADDRESS, Some (mkSym (Obj _) _) => wide (vtype v)
  | DEREF, Some (mkSym (Obj _) t) => is_pointer t = true /\ near v
  | DEREF, Some (mkSym (Tmp n) t) => is_pointer t = true /\ near v /\ (n < k)%nat
  | DEREF, None => near v
  | _, _ => False
  end.
Definition holds (T : temps) (v : var) (t : cty) (b : Z) : Prop := vtype v = t /\ value G w T v = Some b.
Definition located (T : temps) (v : var) (t : cty) (a : Z) : Prop := vtype v = t /\ lvalue v = true /\ location w T v = Some a.
Definition is_result (T : temps) (v : var) (r : result) : Prop :=
  match r with At t a => located T v t a | Val t z => holds T v t (wrap z) /\ scalar t = true end.

Lemma scalar_is t : is_scalar t = scalar t.
Proof. destruct t; reflexivity. Qed.
Ltac kinds v :=
  let K := fresh "K" in let S := fresh "S" in
  destruct (kind v) eqn:K; destruct (sym v) as [[[?x|?n] ?ts]|] eqn:S; try contradiction.
Lemma location_agree k T T' v : sound k v -> agree k T T' -> location w T' v = location w T v.
Proof.
  intros [_ W] A. unfold location in *. destruct (kind v); destruct (sym v) as [[[x|n] t]|]; try reflexivity; try contradiction W.
  destruct W as (_ & _ & L). rewrite (A n L). reflexivity.
Qed.
Lemma value_agree k T T' v : sound k v -> agree k T T' -> value G w T' v = value G w T v.
Proof.
  intros W A. pose proof (location_agree _ _ _ _ W A) as E. destruct W as [_ W]. unfold value in *. rewrite E.
  destruct (kind v); destruct (sym v) as [[[x|n] t]|]; try reflexivity; try contradiction W. destruct W as (L & _). rewrite (A n L). reflexivity.
Qed.
Lemma sound_more k k' v : (k <= k')%nat -> sound k v -> sound k' v.
Proof.
  intros L [T W]. split; [exact T|]. destruct (kind v); destruct (sym v) as [[[x|n] t]|]; auto.
  - destruct W as (A & B). split; [lia|exact B].
  - destruct W as (A & B & C). split; [exact A|]. split; [exact B|lia].
Qed.
Lemma result_agree k T T' v r : sound k v -> agree k T T' -> is_result T v r -> is_result T' v r.
Proof.
  intros W A. destruct r; cbn [is_result]; unfold located, holds; rewrite ?(location_agree _ _ _ _ W A), ?(value_agree _ _ _ _ W A); auto.
Qed.
Lemma holds_agree k T T' v t b : sound k v -> agree k T T' -> holds T v t b -> holds T' v t b.
Proof. intros W A. unfold holds. rewrite (value_agree _ _ _ _ W A). auto. Qed.

(* values are 64 bits, and those of their type *)
Lemma bytes_range m n : forall a, 0 <= read m a n < 2 ^ (8 * Z.of_nat n).
Proof.
  induction n; intros a; [cbn; lia|]. cbn [read]. specialize (IHn (a + 1)). pose proof (Z.mod_pos_bound (m a) 256 ltac:(lia)).
  replace (8 * Z.of_nat (S n)) with (8 + 8 * Z.of_nat n) by lia. rewrite Z.pow_add_r by lia. change (2 ^ 8) with 256. lia.
Qed.
Lemma read8 m a : 0 <= read m a 8 < 2 ^ 64.
Proof. apply (bytes_range m 8). Qed.
Lemma convert_range t z : type_ok G t -> 0 <= convert z t < 2 ^ 64.
Proof.
  intros T. destruct t as [|s sg| | |]; try apply wrap_range. cbn [convert]. destruct (halves _ _ _ T) as [P D]. unfold extend, low.
  pose proof (Z.mod_pos_bound z (2 ^ (8 * s)) ltac:(lia)). destruct (_ && _); [apply wrap_range|lia].
Qed.
Lemma load_range t a z : type_ok G t -> load w t a = Some z -> 0 <= z < 2 ^ 64.
Proof.
  intros T L. destruct t; try discriminate L; injection L as <-; [|apply read8].
  apply (convert_range (TInt size signed)). exact T.
Qed.
Lemma value_range k T v b : sound k v -> value G w T v = Some b -> 0 <= b < 2 ^ 64.
Proof.
  intros [Y W] E. unfold value in E. destruct (kind v) eqn:K; destruct (sym v) as [[[x|n] t]|] eqn:S; try contradiction W.
  all: try (destruct (location w T v) as [a|]; [|discriminate E]; apply (load_range _ _ _ Y E)).
  - destruct W as [W R]. rewrite (proj2 (Z.eqb_eq _ _) W) in E. injection E as <-. exact R.
  - destruct (_ && _) in E; [|discriminate E]. injection E as <-. apply convert_range. exact Y.
  - injection E as <-. apply wrap_range.
Qed.
Lemma convert_wrap t z : type_ok G t -> scalar t = true -> convert (wrap z) t = convert z t.
Proof.
  intros T S. destruct t as [|s sg|u| |]; try discriminate S; [|apply wrap_wrap].
  cbn [convert]. unfold extend. replace (low s (wrap z)) with (low s z); [reflexivity|]. unfold low, wrap. cbn in T.
  destruct T as [->|[->|[->| ->]]]; apply Znumtheory.Zmod_div_mod; try reflexivity.
  - exists (2 ^ 56). reflexivity. - exists (2 ^ 48). reflexivity. - exists (2 ^ 32). reflexivity.
Qed.
Lemma convert_is t z : type_ok G t -> scalar t = true -> convert z t = wrap (converted t z).
Proof. intros T S. rewrite <- (convert_wrap _ _ T S). apply (convert_converted G); assumption. Qed.
Lemma convert_twice t z : type_ok G t -> scalar t = true -> convert (convert z t) t = convert z t.
Proof.
  intros T S. rewrite (convert_is t z T S), (convert_wrap _ _ T S), (convert_is t _ T S). f_equal.
  apply (converted_id G); [exact T|]. apply (converted_fits G); assumption.
Qed.
Lemma load_scalar t a z : load w t a = Some z -> scalar t = true.
Proof. destruct t; intros H; try discriminate H; reflexivity. Qed.
Lemma load_convert t a z : type_ok G t -> load w t a = Some z -> convert z t = z.
Proof.
  intros T L. destruct t as [|s sg|u| |]; try discriminate L; injection L as E.
  - rewrite <- E. apply (convert_twice (TInt s sg)); [exact T|reflexivity].
  - cbn [convert]. apply wrap_id. rewrite <- E. apply read8.
Qed.
Lemma held_load t a z : type_ok G t -> 0 <= a < 2 ^ 64 -> held w t a = Some z -> load w t a = Some (wrap z) /\ fits t z.
Proof.
  intros T A H. destruct t as [|s sg|u| |]; try discriminate H; injection H as H; cbn [load]; rewrite (wrap_id _ A).
  - rewrite <- H. split; [|apply (converted_fits G); [exact T|reflexivity]]. f_equal. rewrite read_bytes. apply (convert_is (TInt s sg)); [exact T|reflexivity].
  - change (read (mem w) a 8 = z) in H || idtac. rewrite read_bytes. pose proof (read8 (mem w) a) as R. rewrite read_bytes in R.
    change (bytes_at (mem w) a 8 = z) in H. rewrite H in *. split; [rewrite wrap_id by exact R; reflexivity|exact R].
Qed.

(* ---- eval, cast_operand ---- *)
Definition var_is (t : cty) (b : Z) : var -> nat -> temps -> Prop := fun v k T => sound k v /\ holds T v t b.
Definition var_result (r : result) : var -> nat -> temps -> Prop := fun v k T => sound k v /\ is_result T v r.
(* an expression is a var, or something to be computed *)
Definition expr_is (t : cty) (b : Z) : expr -> nat -> temps -> Prop := fun e k T =>
  (exists v, e = as_expr v /\ sound k v /\ holds T v t b) \/
  ((is_identity e = false /\ (e_op e = CAST -> is_imm (e_l e) = false)) /\ e_type e = t /\ type_ok G t /\ scalar t = true /\ meaning G w T e = Some b /\ convert b t = b).
Definition expr_result (r : result) : expr -> nat -> temps -> Prop := fun e k T =>
  match r with
  | At t a => exists v, e = as_expr v /\ sound k v /\ located T v t a
  | Val t z => expr_is t (wrap z) e k T /\ scalar t = true
  end.
Lemma as_expr_identity v : is_identity (as_expr v) = true.
Proof. apply type_equal_refl. Qed.
Lemma new_tmp t e k T b : type_ok G t -> scalar t = true -> meaning G w T e = Some b -> convert b t = b ->
  gives (assign_tmp t e) k T (fun v k' T' => v = mkV DIRECT t (Some (mkSym (Tmp k) t)) 0 0 false /\ var_is t b v k' T').
Proof.
  intros Y S E C l. exists (mkV DIRECT t (Some (mkSym (Tmp k) t)) 0 0 false), (Datatypes.S k), [mkS k e], (set T k b).
  split; [reflexivity|]. split; [lia|]. split; [cbn; rewrite E; reflexivity|]. split.
  { intros i I. unfold set. destruct (Nat.eqb_spec i k); [lia|reflexivity]. }
  split; [reflexivity|]. split.
  - split; [exact Y|]. cbn. repeat split; auto.
  - split; [reflexivity|]. unfold value. cbn [kind sym offset vtype]. rewrite !scalar_is, S, !Z.eqb_refl. cbn [andb]. unfold set. rewrite Nat.eqb_refl, C. reflexivity.
Qed.
Lemma eval_ok t b e k T : expr_is t b e k T -> gives (eval e) k T (var_is t b).
Proof.
  intros [(v & -> & W & H)|((I & _) & E & Y & S & V & C)]; unfold eval.
  - rewrite as_expr_identity. apply gives_ret. split; assumption.
  - rewrite I, E. eapply gives_imp; [apply (new_tmp t e k T b Y S V C)|]. cbv beta. intros a k' T' _ [_ H]. exact H.
Qed.
Lemma eval_result r e k T : expr_result r e k T -> gives (eval e) k T (var_result r).
Proof.
  destruct r as [t a|t z]; cbn [expr_result].
  - intros (v & -> & W & H). unfold eval. rewrite as_expr_identity. apply gives_ret. split; assumption.
  - intros [H S]. eapply gives_imp; [apply eval_ok; exact H|]. intros v k' T' _ [A B]. split; [exact A|]. split; assumption.
Qed.
Lemma value_canonical k T v b : sound k v -> is_imm v = false -> is_addr v = false -> value G w T v = Some b -> convert b (vtype v) = b /\ scalar (vtype v) = true.
Proof.
  intros [Y W] I A E. unfold is_imm, is_addr in *. unfold value in E. destruct (kind v) eqn:K; try discriminate I; try discriminate A;
    destruct (sym v) as [[[x|n] t]|] eqn:S; try contradiction W.
  all: try (destruct (location w T v) as [a|]; [|discriminate E]; split; [apply (load_convert _ _ _ Y E)|apply (load_scalar _ _ _ E)]; fail).
  destruct W as (_ & _ & _ & _ & _ & W). destruct (_ && _) in E; [|discriminate E]. injection E as <-. split; [apply convert_twice; assumption|exact W].
Qed.
Lemma wide_scalar t : wide t -> scalar t = true.
Proof. intros [[sg ->]|H]; [reflexivity|]. destruct t; try discriminate H. reflexivity. Qed.
Lemma wide_size t : wide t -> size_of G t = 8.
Proof. intros [[sg ->]|H]; [reflexivity|]. destruct t; try discriminate H. reflexivity. Qed.
Lemma wide_of t : scalar t = true -> size_of G t = 8 -> wide t.
Proof. destruct t as [|s sg|u| |]; intros S E; try discriminate S; [left; exists sg; cbn in E; congruence|right; reflexivity]. Qed.
Lemma wide_load t u a : wide t -> wide u -> load w t a = load w u a.
Proof.
  assert (X : forall t, wide t -> load w t a = Some (read (mem w) (wrap a) 8)).
  { intros t0 [[sg ->]|H]; [|destruct t0; try discriminate H; reflexivity]. cbn [load]. rewrite extend8.
    change (Z.to_nat 8) with 8%nat. rewrite wrap_id by apply read8. reflexivity. }
  intros A B. rewrite (X _ A), (X _ B). reflexivity.
Qed.
Lemma retype_wide k T v t b : sound k v -> wide (vtype v) -> wide t -> type_ok G t -> value G w T v = Some b ->
  sound k (retype v t) /\ holds T (retype v t) t b.
Proof.
  intros [Y W] A B Y' E. assert (Z8 : size_of G (vtype v) = size_of G t) by (rewrite !wide_size by assumption; reflexivity). split.
  - split; [exact Y'|]. cbn [kind sym retype offset vtype lvalue imm]. unfold near in *. cbn [offset vtype retype]. rewrite Z8 in W.
    destruct (kind v); destruct (sym v) as [[[x|n] s]|]; auto. intuition (auto using wide_scalar).
  - split; [reflexivity|]. revert E. unfold value. change (location w T (retype v t)) with (location w T v). cbn [kind sym retype offset imm vtype].
    destruct (kind v); destruct (sym v) as [[[x|n] s]|]; try contradiction W; auto;
      try (destruct (location w T v) as [a|]; [rewrite (wide_load t (vtype v)) by assumption; auto|auto]; fail).
    rewrite !scalar_is, Z8, (wide_scalar _ A), (wide_scalar _ B), !convert8 by assumption. auto.
Qed.
Lemma cast_ok k T v u b t : sound k v -> holds T v u b -> scalar u = true -> type_ok G t -> scalar t = true ->
  convert b u = b ->
  gives (cast_operand G v t) k T (var_is t (convert b t)).
Proof.
  intros W [E V] S Y S' C. unfold cast_operand. rewrite E. destruct (type_equal u t) eqn:Q.
  { apply type_equal_eq in Q as <-. apply gives_ret. split; [exact W|]. rewrite C. split; assumption. }
  unfold is_imm. destruct (kind v) eqn:K.
  { destruct W as [_ W]. rewrite K in W. destruct (sym v) eqn:SY; [contradiction W|]. destruct W as [O R]. rewrite O. cbn [Z.eqb].
    unfold value in V. rewrite K, SY, O in V. injection V as <-. apply gives_ret. split; [|split; reflexivity].
    split; [exact Y|]. cbn. split; [reflexivity|]. apply convert_range. exact Y. }
  all: destruct (_ && _) eqn:P.
  all: try (apply andb_true_iff in P as [P1 P2]; apply Z.eqb_eq in P1;
    assert (X : wide u /\ wide t) by (apply orb_true_iff in P2 as [P2|P2];
      [assert (wide u) by (right; exact P2); split; [assumption|apply wide_of; [exact S'|rewrite <- P1; apply wide_size; assumption]]
      |assert (wide t) by (right; exact P2); split; [apply wide_of; [exact S|rewrite P1; apply wide_size; assumption]|assumption]]);
    destruct X as [X1 X2]; rewrite (convert8 t) by exact X2; rewrite wrap_id by (apply (value_range k T v b W V));
    apply gives_ret; apply retype_wide; rewrite ?E; assumption).
  all: apply eval_ok; right; split; [split; [cbn; rewrite E; destruct (type_equal t u) eqn:Q'; [apply type_equal_eq in Q' as ->; rewrite type_equal_refl in Q; discriminate Q|reflexivity]|intros _; unfold is_imm; cbn [e_l]; rewrite K; reflexivity]|].
  all: split; [reflexivity|]; split; [exact Y|]; split; [exact S'|]; split; [unfold meaning; cbn [e_l e_op e_type]; rewrite V; reflexivity|apply convert_twice; assumption].
Qed.
Lemma imm_value k T v b : sound k v -> is_imm v = true -> value G w T v = Some b -> kind v = IMMEDIATE /\ imm v = b /\ sym v = None /\ offset v = 0.
Proof.
  intros [_ W] I V. unfold is_imm in I. destruct (kind v) eqn:K; try discriminate I. destruct (sym v) eqn:S; [contradiction W|]. destruct W as [O _].
  unfold value in V. rewrite K, S, O in V. injection V as <-. auto.
Qed.
Lemma addr_value k T v b : sound k v -> is_addr v = true -> value G w T v = Some b ->
  kind v = ADDRESS /\ wide (vtype v) /\ exists x s, sym v = Some (mkSym (Obj x) s) /\ b = wrap (addr w x + offset v).
Proof.
  intros [_ W] I V. unfold is_addr in I. destruct (kind v) eqn:K; try discriminate I. destruct (sym v) as [[[x|n] s]|] eqn:S; try contradiction W.
  unfold value in V. rewrite K, S in V. injection V as <-. split; [reflexivity|]. split; [exact W|]. exists x, s. auto.
Qed.
Lemma shift_ok k T v t b d : sound k v -> is_addr v = true -> holds T v t b -> sound k (shift v d) /\ holds T (shift v d) t (wrap (b + d)).
Proof.
  intros W A [E V]. destruct (addr_value _ _ _ _ W A V) as (K & D & x & s & S & ->). destruct W as [Y _]. split.
  - split; [exact Y|]. cbn [kind sym shift vtype]. rewrite K, S. exact D.
  - split; [exact E|]. unfold value. cbn [kind sym shift offset]. rewrite K, S, wrap_add, wrap_add_r. f_equal. f_equal. lia.
Qed.
Lemma imm_ok k T t z : type_ok G t -> 0 <= z < 2 ^ 64 -> sound k (var_numeric t z) /\ holds T (var_numeric t z) t z.
Proof. intros Y R. repeat split; cbn; auto; lia. Qed.
Lemma as_is k T v t b : sound k v -> holds T v t b -> expr_is t b (as_expr v) k T.
Proof. intros. left. exists v. auto. Qed.
Lemma long_ok sg : type_ok G (TInt 8 sg). Proof. cbn. auto. Qed.
Lemma wide_convert t b : wide t -> 0 <= b < 2 ^ 64 -> convert b t = b.
Proof. intros W R. rewrite convert8 by exact W. apply wrap_id. exact R. Qed.
Definition combined (o : op) (t : cty) (b c z : Z) : Prop :=
  match o with
  | ADD => z = convert (b + c) t | SUB => z = convert (b - c) t | MUL => z = convert (b * c) t
  | AND => z = convert (Z.land b c) t | OR => z = convert (Z.lor b c) t | XOR => z = convert (Z.lxor b c) t
  | DIV => exists p, quotient t b c = Some p /\ z = convert (fst p) t
  | MOD => exists p, quotient t b c = Some p /\ z = convert (snd p) t
  | _ => False
  end.
Lemma binary_gen o k T t l r b c z : scalar t = true -> type_ok G t -> value G w T l = Some b -> value G w T r = Some c ->
  size_of G (vtype l) = size_of G t -> size_of G (vtype r) = size_of G t -> combined o t b c z ->
  expr_is t z (binary o t l r) k T.
Proof.
  intros D Y L R Dl Dr H. right. split; [split; [destruct o; reflexivity || contradiction H|intros E; cbn in E; subst o; contradiction H]|]. split; [reflexivity|]. split; [exact Y|].
  split; [exact D|]. unfold meaning, binary. cbn [e_l e_r e_op e_type]. cbv zeta. rewrite L, R, Dl, Dr, Z.eqb_refl. cbn [andb negb].
  destruct o; cbn [combined] in H; try contradiction H; try (subst z; split; [reflexivity|apply convert_twice; assumption]);
    destruct H as (p & -> & ->); (split; [reflexivity|apply convert_twice; assumption]).
Qed.
Lemma binary_ok o k T t l r b c z : wide t -> type_ok G t -> sound k l -> sound k r -> value G w T l = Some b -> value G w T r = Some c ->
  wide (vtype l) -> wide (vtype r) ->
  match o with ADD => z = wrap (b + c) | SUB => z = wrap (b - c) | MUL => z = wrap (b * c) | _ => False end ->
  expr_is t z (binary o t l r) k T.
Proof.
  intros D Y _ _ L R Dl Dr H. apply binary_gen with (b := b) (c := c); auto using wide_scalar; try (rewrite !wide_size by assumption; reflexivity).
  destruct o; cbn [combined]; try contradiction H; rewrite ?convert8 by exact D; exact H.
Qed.
Lemma cast_wide k T v u b t : sound k v -> holds T v u b -> wide u -> type_ok G t -> wide t -> gives (cast_operand G v t) k T (var_is t b).
Proof.
  intros W H D Y D'. assert (R : 0 <= b < 2 ^ 64) by (apply (value_range k T v b W), H).
  replace (var_is t b) with (var_is t (convert b t)) by (rewrite wide_convert by assumption; reflexivity).
  apply cast_ok with (u := u); auto using wide_scalar, wide_convert.
Qed.
Lemma wl sg : wide (TInt 8 sg). Proof. left. exists sg. reflexivity. Qed.
Lemma wp t : wide (TPtr t). Proof. right. reflexivity. Qed.
Hint Resolve wl wp long_ok : ptr.

(* ---- multiplying by the size ---- *)
Lemma imm_int8 t z : wide t -> imm_int t z = var_numeric t (wrap z).
Proof. intros D. unfold imm_int. rewrite convert8 by exact D. reflexivity. Qed.
Lemma scaled k T sg r b size : sound k r -> holds T r long b ->
  gives (let* e := eval_mul G (imm_int (TInt 8 sg) size) r in eval e) k T (var_is (TInt 8 sg) (wrap (b * size))).
Proof.
  intros W H. unfold eval_mul. rewrite (proj1 H), imm_int8 by apply wl. change (vtype (var_numeric (TInt 8 sg) (wrap size))) with (TInt 8 sg).
  replace (usual_conversion G (TInt 8 sg) long) with (TInt 8 sg) by (destruct sg; reflexivity). cbn [is_integer long negb orb].
  apply gives_bind with (P := expr_is (TInt 8 sg) (wrap (b * size))); [|intros e k' T' _ _ E; apply eval_ok; exact E].
  destruct (imm_ok k T (TInt 8 sg) (wrap size) (long_ok sg) (wrap_range _)) as [W1 H1].
  eapply gives_bind; [eapply cast_wide with (t := TInt 8 sg); [exact W1|exact H1|auto with ptr..]|]. cbv beta. intros l k1 T1 L1 A1 [Wl Hl].
  eapply gives_bind; [eapply cast_wide with (t := TInt 8 sg); [exact (sound_more _ _ _ L1 W)|exact (holds_agree _ _ _ _ _ _ W A1 H)|unfold long; auto with ptr..]|].
  cbv beta. intros r2 k2 T2 L2 A2 [Wr Hr]. pose proof (holds_agree _ _ _ _ _ _ Wl A2 Hl) as Hl2. pose proof (sound_more _ _ _ L2 Wl) as Wl2.
  apply gives_ret. destruct (is_imm l && is_imm r2) eqn:I.
  - apply andb_true_iff in I as [I1 I2]. destruct (imm_value _ _ _ _ Wl2 I1 (proj2 Hl2)) as (_ & -> & _). destruct (imm_value _ _ _ _ Wr I2 (proj2 Hr)) as (_ & -> & _).
    rewrite imm_int8, wrap_mul, Z.mul_comm by apply wl. apply as_is; apply imm_ok; auto with ptr; apply wrap_range.
  - apply (binary_ok MUL) with (b := wrap size) (c := b); auto with ptr; try apply Hl2; try apply Hr.
    + rewrite (proj1 Hl2). auto with ptr.
    + rewrite (proj1 Hr). auto with ptr.
    + rewrite wrap_mul, Z.mul_comm. reflexivity.
Qed.

(* ---- pointer and integer ---- *)
Lemma add_offset_ok k T l r t p u b : sound k l -> holds T l (TPtr t) p -> sound k r -> holds T r u b -> type_ok G u -> is_integer u = true -> convert b u = b ->
  0 < size_of G t -> type_ok G t -> gives (add_offset G l r) k T (expr_is (TPtr t) (wrap (p + b * size_of G t))).
Proof.
  intros Wl [El Vl] Wr Hr Yu Iu C P Yt. unfold add_offset. rewrite El. set (size := size_of G t) in *.
  assert (Rb : 0 <= b < 2 ^ 64) by (apply (value_range k T r b Wr), Hr).
  eapply gives_bind.
  { eapply cast_ok with (t := long); [exact Wr|exact Hr|destruct u; try discriminate Iu; reflexivity|apply long_ok|reflexivity|exact C]. }
  cbv beta. intros r1 k1 T1 L1 A1 [W1 H1]. rewrite (wide_convert long) in H1 by (auto with ptr; apply wl).
  pose proof (sound_more _ _ _ L1 Wl) as Wl1. pose proof (holds_agree _ _ _ _ _ _ Wl A1 (conj El Vl)) as Hl1.
  destruct (Z.eqb_spec size 0) as [Z0|_]; [lia|].
  destruct (is_addr l && is_imm r1) eqn:B1.
  { apply andb_true_iff in B1 as [B1 B2]. destruct (imm_value _ _ _ _ W1 B2 (proj2 H1)) as (_ & -> & _). apply gives_ret.
    destruct (shift_ok _ _ _ _ _ (signed b * size) Wl1 B1 Hl1) as [X Y]. apply as_is; [exact X|].
    replace (wrap (p + b * size)) with (wrap (p + signed b * size)); [exact Y|].
    rewrite <- (wrap_add_r p (signed b * size)), <- (wrap_mul (signed b)), signed_wrap, wrap_mul, wrap_add_r. reflexivity. }
  destruct (is_imm l && is_imm r1) eqn:B2.
  { apply andb_true_iff in B2 as [B2 B3]. destruct (imm_value _ _ _ _ W1 B3 (proj2 H1)) as (_ & -> & _).
    destruct (imm_value _ _ _ _ Wl1 B2 (proj2 Hl1)) as (K & -> & S & O). apply gives_ret. apply as_is.
    - split; [cbn; exact Yt|]. cbn [kind sym offset imm]. rewrite S. split; [exact O|apply wrap_range].
    - split; [reflexivity|]. unfold value. cbn [kind sym offset imm]. rewrite S, O. reflexivity. }
  destruct (is_imm r1 && (imm r1 =? 0)) eqn:B3; cbn [negb].
  { apply andb_true_iff in B3 as [B3 B4]. destruct (imm_value _ _ _ _ W1 B3 (proj2 H1)) as (_ & I & _). apply Z.eqb_eq in B4. rewrite I in B4. subst b.
    apply gives_ret. rewrite Z.mul_0_l, Z.add_0_r, wrap_id by apply (value_range _ _ _ _ Wl Vl). apply as_is; assumption. }
  eapply gives_bind; [eapply cast_wide with (t := long); [exact Wl1|exact Hl1|apply wp|apply long_ok|apply wl]|].
  cbv beta. intros l2 k2 T2 L2 A2 [W2 H2].
  pose proof (sound_more _ _ _ L2 W1) as W12. pose proof (holds_agree _ _ _ _ _ _ W1 A2 H1) as H12.
  apply gives_bind with (P := fun v k' T' => sound k' v /\ exists c, holds T' v long c /\ wrap (p + c) = wrap (p + b * size)).
  { destruct (Z.eqb_spec size 1) as [S1|S1].
    - apply gives_ret. split; [exact W12|]. exists b. split; [exact H12|]. rewrite S1, Z.mul_1_r. reflexivity.
    - eapply gives_imp; [apply scaled with (b := b); [exact W12|exact H12]|]. intros v k3 T3 _ [X Y]. split; [exact X|]. exists (wrap (b * size)). split; [exact Y|apply wrap_add_r]. }
  cbv beta. intros r3 k3 T3 L3 A3 (W3 & c & H3 & Q). apply gives_ret.
  pose proof (holds_agree _ _ _ _ _ _ W2 A3 H2) as H23.
  apply (binary_ok ADD) with (b := p) (c := c); auto with ptr.
  - exact (sound_more _ _ _ L3 W2).
  - apply H23.
  - apply H3.
  - rewrite (proj1 H23). apply wl.
  - rewrite (proj1 H3). apply wl.
Qed.
End Code.
