From Coq Require Import List ZArith Lia Bool Arith.
From Verif Require Import TokModel EscModel EscSpec EscProofs NumberModel NumberSpec NumberProofs TypeModel TypeSpec EvalModel EvalProofs TokenizeModel TokenizeSpec IfModel IfSpec.
Import ListNotations.
Open Scope Z_scope.

Lemma sext64 x : sext 64 x mod 2 ^ 64 = x mod 2 ^ 64.
Proof.
  unfold sext. destruct (_ <? _); [apply Z.mod_mod; lia|]. replace (x mod 2 ^ 64 - 2 ^ 64) with (x mod 2 ^ 64 + (-1) * 2 ^ 64) by ring.
  rewrite Z.mod_add by lia. apply Z.mod_mod. lia.
Qed.

(* the representation of types by a flag is that of the conversions of typetree.c and eval.c *)
Lemma both_signed_types :
  let T u := if u : bool then basic_type__unsigned_long else basic_type__long in
  forall a b, usual_arithmetic_conversion (T a) (T b) = T (a || b) /\
  forall n, 0 <= n < 2 ^ 64 -> convert n (T a) (T (a || b)) = Some n.
Proof.
  intros T a b. split; [destruct a, b; reflexivity|]. intros n Hn.
  assert (E : forall x, x mod 2 ^ 64 = n -> put (sext 64 x) = n /\ put (wrap 64 x) = n).
  { intros x H. unfold put, wrap. rewrite sext64, Z.mod_mod by lia. split; exact H. }
  assert (I : as_i n mod 2 ^ 64 = n) by (unfold as_i; rewrite sext64; apply Z.mod_small; exact Hn).
  assert (U : as_u n mod 2 ^ 64 = n) by (apply Z.mod_small; exact Hn).
  destruct a, b; unfold convert; cbn [type_of T orb basic_type__unsigned_long basic_type__long basic ty_pointer ty]; f_equal;
    (change (is_signed basic_type__unsigned_long) with false || change (is_signed basic_type__long) with true);
    cbn match; try apply (E _ I); try apply (E _ U).
Qed.

Section P.
Variable ismacro : list Z -> bool.
Variable erange : list Z -> bool.
Notation ev := (ev ismacro erange).

Lemma ibind_ok {A B} (x : ires A) (f : A -> ires B) r : ibind x f = IOk r -> exists a, x = IOk a /\ f a = IOk r.
Proof. destruct x; intro H; try discriminate H. eauto. Qed.

Definition fueled {A} (x y : ires A) : Prop := x = IFuel \/ x = y.
Lemma fueled_refl {A} (x : ires A) : fueled x x. Proof. right. reflexivity. Qed.
Lemma fueled_bind {A B} (x y : ires A) (f g : A -> ires B) : fueled x y -> (forall a, x = IOk a -> fueled (f a) (g a)) -> fueled (ibind x f) (ibind y g).
Proof. intros [->|<-] H; [left; reflexivity|]. destruct x; try (right; reflexivity). apply H. reflexivity. Qed.
Lemma fueled_if {A} (c : bool) (x y x' y' : ires A) : fueled x x' -> fueled y y' -> fueled (if c then x else y) (if c then x' else y').
Proof. destruct c; auto. Qed.

Ltac fu IH := repeat first
  [ apply fueled_refl
  | apply IH; lia
  | apply fueled_if
  | apply fueled_bind; [|let a := fresh "a" in intros a _; destruct a as [? ?]; cbn [fst snd]]
  | apply fueled_bind; [|intros ? _]
  | progress cbv zeta
  | match goal with |- context [match ?l with [] => _ | _ :: _ => _ end] => destruct l end
  | match goal with |- context [match ?l with Ok _ => _ | Error => _ | OutOfBounds => _ | NoFuel => _ end] => destruct l end
  | match goal with |- context [match ?l with Integer _ _ _ => _ | Floating _ => _ | OutOfRange => _ | Invalid => _ | AssertFailed => _ end] => destruct l end ].

Lemma ev_mono : forall n m f ts, (n <= m)%nat -> fueled (ev n f ts) (ev m f ts).
Proof.
  induction n as [|n IH]; intros m f ts L; [left; reflexivity|].
  destruct m as [|m]; [lia|]. destruct ts as [|t r]; [right; reflexivity|].
  destruct f; cbn [IfModel.ev]; fu IH.
Qed.

(* the fuel of if_value is enough *)
Definition rank (f : fn) : nat :=
  match f with
  | Primary => 1 | Unary => 2 | Mult => 3 | Addi => 4 | Shift => 5 | Rela => 6 | Equa => 7 | And_ => 8 | Xor_ => 9 | Ior => 10 | Land => 11
  | Lor => 12 | Cond => 13 | Expr => 14 | _ => 0
  end%nat.
Definition loop_fn (f : fn) : nat := match f with MultLoop _ | AddiLoop _ | ShiftLoop _ | RelaLoop _ => 1 | _ => 0 end%nat.
Definition within {A} (m : nat) (x : ires (A * list tok)) : Prop := x <> IFuel /\ forall a r, x = IOk (a, r) -> (length r < m)%nat.
Lemma within_bind {A B} m k (x : ires (A * list tok)) (f : A * list tok -> ires (B * list tok)) :
  within k x -> (forall a r, (length r < k)%nat -> within m (f (a, r))) -> within m (ibind x f).
Proof.
  intros [H1 H2] H3. destruct x as [[a r]| | | |]; try (split; [discriminate|intros ? ? X; discriminate X]); [|congruence].
  apply H3. eapply H2. reflexivity.
Qed.
Lemma within_bind0 {A B} m (x : ires A) (f : A -> ires (B * list tok)) : x <> IFuel -> (forall a, within m (f a)) -> within m (ibind x f).
Proof. intros H1 H3. destruct x; try (split; [discriminate|intros ? ? X; discriminate X]); [apply H3|congruence]. Qed.
Lemma within_ok {A} m (a : A) r : (length r < m)%nat -> within m (IOk (a, r)).
Proof. intro H. split; [discriminate|]. intros ? ? X. injection X as _ <-. exact H. Qed.
Lemma within_err {A} m (x : ires (A * list tok)) : x = IError \/ x = IAssert \/ x = IUB -> within m x.
Proof. intros [->|[->| ->]]; (split; [discriminate|intros ? ? X; discriminate X]). Qed.
Lemma within_if {A} m (c : bool) (x y : ires (A * list tok)) : within m x -> within m y -> within m (if c then x else y).
Proof. destruct c; auto. Qed.
Lemma within_weaken {A} k m (x : ires (A * list tok)) : within k x -> (k <= m)%nat -> within m x.
Proof. intros [H1 H2] L. split; [exact H1|]. intros a r X. specialize (H2 _ _ X). lia. Qed.
Lemma host_fuel n : host n <> IFuel. Proof. unfold host. destruct (in_long n); discriminate. Qed.
Lemma mul_fuel o l r : mul_op o l r <> IFuel.
Proof. unfold mul_op. repeat match goal with |- context [if ?c then _ else _] => destruct c end; try apply host_fuel; discriminate. Qed.
Lemma add_fuel o l r : add_op o l r <> IFuel.
Proof. unfold add_op. repeat match goal with |- context [if ?c then _ else _] => destruct c end; try apply host_fuel; discriminate. Qed.
Lemma shift_fuel o l r : shift_op o l r <> IFuel.
Proof. unfold shift_op. cbv zeta. repeat match goal with |- context [if ?c then _ else _] => destruct c end; try apply host_fuel; discriminate. Qed.
Lemma norm_fuel t v : normalize t v <> IFuel.
Proof. destruct t; discriminate. Qed.
Lemma tl_len (r : list tok) m : (length r < m)%nat -> (length (tl r) < m)%nat. Proof. destruct r; cbn [tl length]; lia. Qed.
Lemma tl_len' (r : list tok) z : hd_tt r = z -> 0 <= z -> (length (tl r) < length r)%nat.
Proof. destruct r; cbn [hd_tt tl length]; lia. Qed.

Lemma convert_char_nofuel t : convert_char t <> NoFuel.
Proof.
  unfold convert_char. destruct t as [|c r]; [discriminate|]. destruct (c =? 92); [|discriminate].
  unfold convert_escape_sequence. repeat first [discriminate | match goal with |- context [match ?l with _ => _ end] => destruct l end].
Qed.
Lemma char_fuel t : convert_preprocessing_char t <> NoFuel.
Proof.
  unfold convert_preprocessing_char. pose proof (convert_char_nofuel t). destruct (convert_char t) as [[? ?]| | |]; try discriminate; congruence. Qed.

Ltac wi IH := repeat first
  [ apply within_err; solve [auto]
  | apply within_ok; cbn [length loop_fn] in *; lia
  | eapply within_weaken; [apply IH; cbn [length rank] in *; lia|cbn [length loop_fn] in *; lia]
  | apply within_bind0; [first [apply host_fuel|apply mul_fuel|apply add_fuel|apply shift_fuel|apply norm_fuel|discriminate]|intros ?]
  | eapply within_bind; [apply IH; cbn [length rank] in *; lia|intros ? ? ?; cbn [fst snd loop_fn] in *]
  | match goal with |- context [hd_tt ?l =? ?z] => let H := fresh "H" in destruct (Z.eqb_spec (hd_tt l) z) as [H|]; [apply tl_len' in H; [|lia]|]; cbn [orb] end
  | apply within_if
  | progress cbv zeta
  | match goal with |- context [match ?l with [] => _ | _ :: _ => _ end] => destruct l end
  | match goal with |- context [match ?l with Integer _ _ _ => _ | Floating _ => _ | OutOfRange => _ | Invalid => _ | AssertFailed => _ end] => destruct l end ].

Lemma ev_fuel : forall n f ts, (20 * length ts + rank f < n)%nat -> within (length ts + loop_fn f) (ev n f ts).
Proof.
  induction n as [|n IH]; intros f ts L; [lia|].
  destruct ts as [|t r]; [apply within_err; auto|].
  destruct f; cbn [IfModel.ev].
  1: { wi IH. destruct (convert_preprocessing_char (spell t)) eqn:E; wi IH. exfalso. revert E. apply char_fuel. }
  1: { wi IH. all: destruct (uns a); wi IH. }
  all: wi IH.
Qed.

Definition N (u : bool) (v : Z) : num := mkNum u (v mod 2 ^ 64).
Definition rng (u : bool) (v : Z) : Prop := if u then 0 <= v < 2 ^ 64 else - 2 ^ 63 <= v < 2 ^ 63.

Lemma sgn_N v : rng false v -> sgn (N false v) = v.
Proof.
  intro H. unfold sgn, as_i. cbn [N bits]. cbn [rng] in H. rewrite sext_mod by lia. apply sext_id; [lia|].
  change (2 ^ (64 - 1)) with (2 ^ 63). lia.
Qed.
Lemma unsg_N u v : unsg (N u v) = v mod 2 ^ 64. Proof. reflexivity. Qed.
Lemma N_zero u v : rng u v -> (bits (N u v) =? 0) = (v =? 0).
Proof.
  intro H. cbn [N bits]. destruct (Z.eqb_spec v 0) as [->|n]; [reflexivity|]. apply Z.eqb_neq. intro E. apply n.
  apply Z.mod_divide in E; [|lia]. destruct E as [q E]. destruct u; cbn [rng] in H; lia.
Qed.
Lemma in_long_fits v : in_long v = fits v.
Proof. unfold in_long, fits. f_equal. destruct (Z.leb_spec v (2 ^ 63 - 1)), (Z.ltb_spec v (2 ^ 63)); lia. Qed.
Lemma fits_rng v : fits v = true <-> rng false v.
Proof. unfold fits, rng. rewrite andb_true_iff, Z.leb_le, Z.ltb_lt. reflexivity. Qed.
Lemma mod64 v : 0 <= v mod 2 ^ 64 < 2 ^ 64. Proof. apply Z.mod_pos_bound. lia. Qed.
Lemma exact_rng u n v : IfSpec.exact u n = Some v -> rng u v.
Proof. unfold IfSpec.exact. destruct u; [intro H; injection H as <-; apply mod64|]. destruct (fits n) eqn:F; [|discriminate]. intro H. injection H as <-. apply fits_rng, F. Qed.
Lemma exact_u n v : IfSpec.exact true n = Some v -> IOk (mkNum true (put n)) = IOk (N true v).
Proof. unfold IfSpec.exact. intro H. injection H as <-. unfold N, put, wrap. rewrite Z.mod_mod by lia. reflexivity. Qed.
Lemma exact_s n v : IfSpec.exact false n = Some v -> host n = IOk (N false v).
Proof. unfold IfSpec.exact, host. rewrite in_long_fits. destruct (fits n); [|discriminate]. intro H. injection H as <-. reflexivity. Qed.
Lemma rng_kind u v : rng u v <-> in_range (if u then ULong else Long) v.
Proof. destruct u; unfold rng, in_range, lo, hi; cbn [width signed]; change (2 ^ (64 - 1)) with (2 ^ 63); lia. Qed.
Lemma truth_rng b v : truth b = Some v -> rng false v.
Proof. unfold truth. intro H. injection H as <-. destruct b; cbn; lia. Qed.
Lemma truth_N b v : truth b = Some v -> long b = N false v.
Proof. unfold truth. intro H. injection H as <-. destruct b; reflexivity. Qed.
Lemma conv_rng u ua x : rng ua x -> (u = false -> ua = false) -> rng u (conv u x).
Proof. intros H1 H2. unfold conv. destruct u; [apply mod64|]. rewrite (H2 eq_refl) in H1. exact H1. Qed.

Lemma quot_rng x y : 0 <= x < 2 ^ 64 -> 0 <= y < 2 ^ 64 -> y <> 0 -> 0 <= x / y < 2 ^ 64.
Proof. intros. split; [apply Z.div_pos; lia|]. apply Z.le_lt_trans with x; [apply Z.div_le_upper_bound; nia|lia]. Qed.

Lemma arith_rng o u x y v : rng u x -> rng u y -> arith o u x y = Some v ->
  rng (match o with Times | Quot | Rem | Plus2 | Minus2 | BAnd | BXor | BOr => u | _ => false end) v.
Proof.
  intros Hx Hy. destruct o; cbn [arith]; try discriminate; try apply exact_rng; try apply truth_rng.
  - destruct (y =? 0); [discriminate|]. apply exact_rng.
  - destruct (Z.eqb_spec y 0); [discriminate|]. destruct (u || fits (Z.quot x y)) eqn:F; [|discriminate]. intro H. injection H as <-.
    destruct u; cbn [rng] in *.
    + rewrite Z.rem_mod_nonneg by lia. pose proof (Z.mod_pos_bound x y). lia.
    + pose proof (Z.rem_bound_abs x y). lia.
  - intro H. injection H as <-. rewrite rng_kind in *. apply land_range; assumption.
  - intro H. injection H as <-. rewrite rng_kind in *. apply lxor_range; assumption.
  - intro H. injection H as <-. rewrite rng_kind in *. apply lor_range; assumption.
Qed.

Lemma shifted_rng left u x n v : rng u x -> shifted left u x n = Some v -> rng u v.
Proof.
  intros Hx. unfold shifted. destruct (Z.ltb_spec n 0); [discriminate|]. destruct (Z.leb_spec 64 n); [discriminate|]. cbn [orb].
  destruct left; [destruct (_ && _); [discriminate|apply exact_rng]|].
  intro H1. injection H1 as <-. assert (P : 0 < 2 ^ n) by (apply Z.pow_pos_nonneg; lia).
  destruct u; cbn [rng] in *.
  - split; [apply Z.div_pos; lia|]. apply Z.div_lt_upper_bound; nia.
  - split; [apply Z.div_le_lower_bound; nia|]. apply Z.div_lt_upper_bound; nia.
Qed.

Lemma leaf_rng t u v : Leaf t u v -> rng u v.
Proof.
  intro H. inversion H; subst.
  - assert (P : 0 <= NumberSpec.value (radix b) ds) by (apply value_nonneg; [destruct b; cbn; lia|eapply Digits_hex; eauto]).
    destruct u0; cbn [orb]; [cbn [rng]; lia|]. destruct (Z.leb_spec (2 ^ 63) (NumberSpec.value (radix b) ds)); cbn [rng]; destruct b; lia.
  - destruct (convert_char_one _ _ H1) as (w & E & Hw & Hm). cbn [rng].
    assert (Hc : 0 <= c < 256) by (rewrite <- Hm; apply Z.mod_pos_bound; lia). destruct (Z.ltb_spec c 128); lia.
  - cbn. lia.
Qed.

Lemma val_rng e : forall k v, Derives k e -> val e = Some v -> rng (utype e) v.
Proof.
  induction e as [t u w|l e IH r|o t e IH|o a IHa t b IHb|a IHa q b IHb c d IHd]; intros k v D V; cbn [Derives] in D; cbn [val] in V.
  - injection V as <-. cbn [utype]. eapply leaf_rng; exact D.
  - cbn [utype]. eapply IH; [apply D|exact V].
  - destruct D as (_ & _ & D). destruct (val e) as [x|] eqn:E; [|discriminate]. specialize (IH _ _ D eq_refl).
    destruct o; cbn [utype].
    + injection V as <-. exact IH.
    + eapply exact_rng; exact V.
    + eapply exact_rng; exact V.
    + eapply truth_rng; exact V.
  - destruct D as (_ & Da & _ & Db). destruct (val a) as [x|] eqn:Ea; [|destruct o; discriminate V].
    specialize (IHa _ _ Da eq_refl).
    assert (HL : o = LAnd \/ o = LOr -> rng (utype (EBin o a t b)) v).
    { intros [->| ->]; destruct (x =? 0); cbn [utype]; try (injection V as <-; cbn; lia);
      destruct (val b); try discriminate; eapply truth_rng; exact V. }
    destruct (val b) as [y|] eqn:Eb; [|destruct o; try discriminate V; solve [apply HL; auto]].
    specialize (IHb _ _ Db eq_refl).
    assert (HC : arith o (utype a || utype b) (conv (utype a || utype b) x) (conv (utype a || utype b) y) = Some v ->
      rng (match o with Times | Quot | Rem | Plus2 | Minus2 | BAnd | BXor | BOr => utype a || utype b | _ => false end) v).
    { apply arith_rng; eapply conv_rng; try eassumption; intro X; apply orb_false_iff in X; tauto. }
    destruct o; cbn [utype]; try (solve [apply HC; exact V]); try (solve [apply HL; auto]).
    all: eapply shifted_rng; eassumption.
  - destruct D as (_ & Da & _ & Db & _ & Dd). destruct (val a) as [x|]; [|discriminate].
    cbn [utype]. destruct (x =? 0).
    + destruct (val d) as [y|]; [|discriminate]. specialize (IHd _ _ Dd eq_refl). injection V as <-. eapply conv_rng; [eassumption|]. intro X. apply orb_false_iff in X. tauto.
    + destruct (val b) as [y|]; [|discriminate]. specialize (IHb _ _ Db eq_refl). injection V as <-. eapply conv_rng; [eassumption|]. intro X. apply orb_false_iff in X. tauto.
Qed.

Lemma both_N ua ub x y : both_signed (N ua x) (N ub y) = negb (ua || ub). Proof. reflexivity. Qed.
Lemma conv_zero u ua x : rng ua x -> (u = false -> ua = false) -> (conv u x =? 0) = (x =? 0).
Proof.
  intros H1 H2. unfold conv. destruct u; [|reflexivity]. apply (N_zero ua x H1).
Qed.

Ltac signs ua ub :=
  let U := fresh "U" in
  destruct (ua || ub) eqn:U; [|apply orb_false_iff in U as [-> ->]]; cbn [negb orb conv] in *.

Lemma mul_ok o ua ub x y v : o = Times \/ o = Quot \/ o = Rem -> rng ua x -> rng ub y ->
  arith o (ua || ub) (conv (ua || ub) x) (conv (ua || ub) y) = Some v -> mul_op (bin_tok o) (N ua x) (N ub y) = IOk (N (ua || ub) v).
Proof.
  intros Ho Hx Hy V. unfold mul_op. rewrite both_N.
  assert (Z0 : (unsg (N ub y) =? 0) = (conv (ua || ub) y =? 0)).
  { rewrite (conv_zero _ ub) by (try assumption; intro X; apply orb_false_iff in X; tauto). apply (N_zero ub y Hy). }
  destruct Ho as [->|[->| ->]]; cbn [bin_tok arith] in *; cbn [Z.eqb Pos.eqb].
  - signs ua ub; [rewrite !unsg_N; apply exact_u, V|]. rewrite !sgn_N by assumption. apply exact_s, V.
  - rewrite Z0. destruct (Z.eqb_spec (conv (ua || ub) y) 0) as [|n]; [discriminate|].
    signs ua ub; [|rewrite !sgn_N by assumption; apply exact_s, V]. rewrite !unsg_N.
    pose proof (mod64 x). pose proof (mod64 y). rewrite Z.quot_div_nonneg in V by lia.
    assert (E : N true (x mod 2 ^ 64 / (y mod 2 ^ 64)) = N true v).
    { apply exact_u in V. injection V as V. unfold N. f_equal. unfold put, wrap in V. exact V. }
    rewrite <- E. unfold N. rewrite (Z.mod_small (_ / _)); [reflexivity|]. apply quot_rng; assumption.
  - rewrite Z0. destruct (Z.eqb_spec (conv (ua || ub) y) 0) as [|n]; [discriminate|].
    signs ua ub.
    + rewrite !unsg_N. pose proof (mod64 x). pose proof (mod64 y). injection V as <-. rewrite Z.rem_mod_nonneg by lia.
      pose proof (Z.mod_pos_bound (x mod 2 ^ 64) (y mod 2 ^ 64)). unfold N. rewrite (Z.mod_small (_ mod (y mod 2 ^ 64))) by lia. reflexivity.
    + rewrite !sgn_N by assumption. rewrite in_long_fits. destruct (fits (Z.quot x y)); [|discriminate]. injection V as <-.
      apply exact_s. unfold IfSpec.exact. rewrite (proj2 (fits_rng _)); [reflexivity|]. cbn [rng] in *. pose proof (Z.rem_bound_abs x y). lia.
Qed.
Lemma add_ok o ua ub x y v : o = Plus2 \/ o = Minus2 -> rng ua x -> rng ub y ->
  arith o (ua || ub) (conv (ua || ub) x) (conv (ua || ub) y) = Some v -> add_op (bin_tok o) (N ua x) (N ub y) = IOk (N (ua || ub) v).
Proof.
  intros Ho Hx Hy V. unfold add_op. rewrite both_N.
  destruct Ho as [->| ->]; cbn [bin_tok arith] in *; cbn [Z.eqb Pos.eqb];
    (signs ua ub; [rewrite !unsg_N; apply exact_u, V|]; rewrite !sgn_N by assumption; apply exact_s, V).
Qed.
Lemma ext_N ua ub x y : rng ua x -> rng ub y ->
  (if both_signed (N ua x) (N ub y) then sgn (N ua x) else unsg (N ua x)) = conv (ua || ub) x /\
  (if both_signed (N ua x) (N ub y) then sgn (N ub y) else unsg (N ub y)) = conv (ua || ub) y.
Proof. intros Hx Hy. rewrite both_N. signs ua ub; [split; reflexivity|]. rewrite !sgn_N by assumption. split; reflexivity. Qed.
Lemma rel_ok o ua ub x y v : o = Lt \/ o = Gt \/ o = Le \/ o = Ge -> rng ua x -> rng ub y ->
  arith o (ua || ub) (conv (ua || ub) x) (conv (ua || ub) y) = Some v -> rel_op (bin_tok o) (N ua x) (N ub y) = IOk (N false v).
Proof.
  intros Ho Hx Hy V. unfold rel_op. destruct (ext_N ua ub x y Hx Hy) as [E1 E2]. cbv zeta. rewrite E1, E2.
  destruct Ho as [->|[->|[->| ->]]]; cbn [bin_tok arith] in *; cbn [Z.eqb Pos.eqb]; f_equal; apply truth_N, V.
Qed.
Lemma eq_ok o ua ub x y v : o = Equal \/ o = NEqual -> rng ua x -> rng ub y ->
  arith o (ua || ub) (conv (ua || ub) x) (conv (ua || ub) y) = Some v -> eq_op (bin_tok o) (N ua x) (N ub y) = IOk (N false v).
Proof.
  intros Ho Hx Hy V. unfold eq_op. destruct (ext_N ua ub x y Hx Hy) as [E1 E2]. cbv zeta. rewrite E1, E2.
  destruct Ho as [->| ->]; cbn [bin_tok arith] in *; cbn [Z.eqb Pos.eqb]; f_equal; apply truth_N, V.
Qed.
Lemma shift_ok o ua ub x y v : o = Lsh \/ o = Rsh -> ua = true \/ ub = false -> rng ua x -> rng ub y ->
  shifted (match o with Lsh => true | _ => false end) ua x y = Some v -> shift_op (bin_tok o) (N ua x) (N ub y) = IOk (N ua v).
Proof.
  intros Ho Hs Hx Hy V. unfold shift_op. destruct (ext_N ua ub x y Hx Hy) as [E1 E2]. cbv zeta. rewrite E2.
  unfold shifted in V. destruct (Z.ltb_spec y 0); [discriminate|]. destruct (Z.leb_spec 64 y); [discriminate|]. cbn [orb] in V.
  assert (EY : conv (ua || ub) y = y) by (unfold conv; destruct (ua || ub); [apply Z.mod_small|]; lia).
  rewrite EY, (proj2 (Z.ltb_ge y 0)), (proj2 (Z.leb_gt 64 y)) by lia. cbn [orb]. rewrite both_N.
  assert (P : 0 < 2 ^ y) by (apply Z.pow_pos_nonneg; lia).
  assert (EU : ua || ub = ua) by (destruct Hs as [->| ->]; [reflexivity|apply orb_false_r]). rewrite EU.
  destruct Ho as [->| ->]; cbn [bin_tok] in *; cbn [Z.eqb Pos.eqb].
  - destruct ua; cbn [negb andb] in *.
    + rewrite unsg_N. cbn [rng] in Hx. rewrite Z.mod_small by lia. apply exact_u, V.
    + rewrite sgn_N by assumption. destruct (x <? 0); [discriminate|]. apply exact_s, V.
  - injection V as <-. destruct ua; cbn [negb].
    + rewrite unsg_N. cbn [rng] in Hx. rewrite (Z.mod_small x) by lia. unfold N. rewrite Z.mod_small; [reflexivity|].
      split; [apply Z.div_pos; lia|]. apply Z.div_lt_upper_bound; nia.
    + rewrite sgn_N by assumption. apply exact_s. unfold IfSpec.exact. rewrite (proj2 (fits_rng _)); [reflexivity|]. cbn [rng] in *.
      split; [apply Z.div_le_lower_bound; nia|]. apply Z.div_lt_upper_bound; nia.
Qed.
Lemma bitop_mod f (Hf : exists g, g false false = false /\ forall a b i, Z.testbit (f a b) i = g (Z.testbit a i) (Z.testbit b i)) x y :
  f (x mod 2 ^ 64) (y mod 2 ^ 64) = f x y mod 2 ^ 64.
Proof.
  destruct Hf as (g & Hg & Hf). apply Z.bits_inj'. intros i Hi. rewrite Hf.
  destruct (Z.ltb_spec i 64).
  - rewrite !Z.mod_pow2_bits_low by lia. symmetry. apply Hf.
  - rewrite !Z.mod_pow2_bits_high by lia. exact Hg.
Qed.
Lemma bit_ok o f ua ub x y v : (o = BAnd /\ f = Z.land) \/ (o = BXor /\ f = Z.lxor) \/ (o = BOr /\ f = Z.lor) ->
  arith o (ua || ub) (conv (ua || ub) x) (conv (ua || ub) y) = Some v -> bit_op f (N ua x) (N ub y) = N (ua || ub) v.
Proof.
  intros Ho V.
  assert (Hf : exists g, g false false = false /\ forall a b i, Z.testbit (f a b) i = g (Z.testbit a i) (Z.testbit b i)).
  { destruct Ho as [[_ ->]|[[_ ->]|[_ ->]]]; [exists andb|exists xorb|exists orb]; (split; [reflexivity|]); intros; [apply Z.land_spec|apply Z.lxor_spec|apply Z.lor_spec]. }
  assert (V' : v = f (conv (ua || ub) x) (conv (ua || ub) y)) by (destruct Ho as [[-> ->]|[[-> ->]|[-> ->]]]; cbn [arith] in V; congruence).
  subst v. unfold bit_op, N. cbn [bits uns]. f_equal. rewrite bitop_mod by exact Hf. unfold conv. destruct (ua || ub); [|reflexivity].
  rewrite bitop_mod by exact Hf. rewrite Z.mod_mod by lia. reflexivity.
Qed.

Definition Ev (f : fn) (ts : list tok) (x : num) (rest : list tok) : Prop := exists n, ev n f ts = IOk (x, rest).

Lemma ev_le n m f ts x : ev n f ts = IOk x -> (n <= m)%nat -> ev m f ts = IOk x.
Proof. intros H L. destruct (ev_mono n m f ts L); congruence. Qed.
Lemma Ev_if ts x rest : Ev Cond ts x rest -> if_value ismacro erange ts = IOk (negb (bits x =? 0)).
Proof.
  intros [n H]. unfold if_value. destruct (ev_fuel (20 * length ts + 20) Cond ts ltac:(cbn [rank]; lia)) as [F _].
  set (m := (20 * length ts + 20)%nat) in *. assert (E : ev m Cond ts = IOk (x, rest)).
  { destruct (Nat.le_ge_cases n m) as [L|L]; [eapply ev_le; eassumption|]. destruct (ev_mono m n Cond ts L); congruence. }
  rewrite E. reflexivity.
Qed.

(* functions of the parser by level *)
Definition fnk (k : nat) : fn :=
  match k with
  | 0 => Primary | 1 => Unary | 2 => Mult | 3 => Addi | 4 => Shift | 5 => Rela | 6 => Equa | 7 => And_ | 8 => Xor_ | 9 => Ior | 10 => Land
  | 11 => Lor | _ => Cond
  end%nat.
Definition loopk (k : nat) (l : num) : fn := match k with 2 => MultLoop l | 3 => AddiLoop l | 4 => ShiftLoop l | _ => RelaLoop l end%nat.
Definition opk (k : nat) (op : Z) (l r : num) : ires num :=
  match k with 2 => mul_op op l r | 3 => add_op op l r | 4 => shift_op op l r | _ => rel_op op l r end%nat.
Definition is_op (k : nat) (t : Z) : Prop := exists o, level o = k /\ t = bin_tok o.
Definition stop (k : nat) (rest : list tok) : Prop :=
  rest <> [] /\ (forall j, (j <= k)%nat -> ~ is_op j (hd_tt rest)) /\ (k = 12%nat -> hd_tt rest <> 63).
Lemma stop_le k j rest : stop k rest -> (j <= k)%nat -> (k <= 12)%nat -> stop j rest.
Proof. intros (H1 & H2 & H3) L K. split; [exact H1|]. split; [intros i Hi; apply H2; lia|]. intro. apply H3. lia. Qed.
Lemma stop_op j o t rest : tt t = bin_tok o -> (j < level o)%nat -> stop j (t :: rest).
Proof.
  intros H L. split; [discriminate|]. cbn [hd_tt]. split.
  - intros i Hi (o' & E1 & E2). rewrite H in E2. destruct o, o'; cbn in *; try discriminate; lia.
  - intro. destruct o; cbn in L; lia.
Qed.
Lemma stop_other k t rest : tt t = 41 \/ tt t = 58 -> stop k (t :: rest).
Proof.
  intro H. split; [discriminate|]. cbn [hd_tt]. split.
  - intros i Hi (o' & E1 & E2). destruct o'; cbn in *; lia.
  - lia.
Qed.

Lemma loop_stop k l rest : (2 <= k <= 5)%nat -> stop k rest -> Ev (loopk k l) rest l rest.
Proof.
  intros K (H1 & H2 & _). exists 1%nat. destruct rest as [|t r]; [congruence|]. cbn [hd_tt] in H2.
  assert (Q : forall o, level o = k -> (tt t =? bin_tok o) = false).
  { intros o <-. apply Z.eqb_neq. intro E. apply (H2 (level o)); [lia|]. exists o. auto. }
  destruct k as [|[|[|[|[|[|k]]]]]]; try lia; cbn [loopk IfModel.ev].
  - rewrite (Q Times eq_refl : (tt t =? 42) = false), (Q Quot eq_refl : (tt t =? 47) = false), (Q Rem eq_refl : (tt t =? 37) = false). reflexivity.
  - rewrite (Q Plus2 eq_refl : (tt t =? 43) = false), (Q Minus2 eq_refl : (tt t =? 45) = false). reflexivity.
  - rewrite (Q Lsh eq_refl : (tt t =? 74) = false), (Q Rsh eq_refl : (tt t =? 75) = false). reflexivity.
  - rewrite (Q Lt eq_refl : (tt t =? 60) = false), (Q Gt eq_refl : (tt t =? 62) = false), (Q Le eq_refl : (tt t =? 67) = false), (Q Ge eq_refl : (tt t =? 68) = false). reflexivity.
Qed.
Lemma loop_step k o l t r y r1 z x r2 : (2 <= k <= 5)%nat -> level o = k -> tt t = bin_tok o -> Ev (fnk (pred k)) r y r1 -> opk k (bin_tok o) l y = IOk z ->
  Ev (loopk k z) r1 x r2 -> Ev (loopk k l) (t :: r) x r2.
Proof.
  intros K Ho Ht [n1 H1] Hz [n2 H2]. exists (S (n1 + n2)). apply (ev_le _ (n1 + n2)) in H1; [|lia]. apply (ev_le _ (n1 + n2)) in H2; [|lia].
  destruct k as [|[|[|[|[|[|k]]]]]]; try lia; cbn [pred fnk loopk opk] in *; cbn [IfModel.ev]; rewrite Ht;
    destruct o; try discriminate Ho; cbn [bin_tok] in *; cbn [Z.eqb Pos.eqb orb]; rewrite H1; cbn [ibind fst snd]; rewrite Hz; exact H2.
Qed.
Lemma loop_enter k ts y r1 x r2 : (2 <= k <= 5)%nat -> Ev (fnk (pred k)) ts y r1 -> Ev (loopk k y) r1 x r2 -> Ev (fnk k) ts x r2.
Proof.
  intros K [n1 H1] [n2 H2]. exists (S (n1 + n2)). apply (ev_le _ (n1 + n2)) in H1; [|lia]. apply (ev_le _ (n1 + n2)) in H2; [|lia].
  destruct ts as [|t ts]; [destruct (n1 + n2)%nat; discriminate H1|].
  destruct k as [|[|[|[|[|[|k]]]]]]; try lia; cbn [pred fnk loopk] in *; cbn [IfModel.ev]; rewrite H1; exact H2.
Qed.

(* right recursive levels *)
Definition rr (k : nat) : Prop := k = 7%nat \/ k = 8%nat \/ k = 10%nat \/ k = 11%nat.
Definition opr (k : nat) : binop := match k with 7 => BAnd | 8 => BXor | 10 => LAnd | _ => LOr end%nat.
Definition comb (k : nat) (x y : num) : num :=
  match k with
  | 7 => bit_op Z.land x y | 8 => bit_op Z.lxor x y
  | 10 => long (negb (bits x =? 0)%Z && negb (bits y =? 0)%Z)
  | _ => long (negb (bits x =? 0)%Z || negb (bits y =? 0)%Z)
  end%nat.
Lemma comb_assoc k x y z : comb k (comb k x y) z = comb k x (comb k y z).
Proof.
  unfold comb. do 12 (destruct k as [|k]; [try (unfold bit_op; cbn [uns bits]; rewrite orb_assoc; f_equal; first [symmetry; apply Z.land_assoc|apply Z.lxor_assoc]);
    unfold long; cbn [bits]; destruct (bits x =? 0), (bits y =? 0), (bits z =? 0); reflexivity|]).
  unfold long; cbn [bits]; destruct (bits x =? 0), (bits y =? 0), (bits z =? 0); reflexivity.
Qed.
Lemma rr_stop k ts y r : rr k -> Ev (fnk (pred k)) ts y r -> stop k r -> Ev (fnk k) ts y r.
Proof.
  intros K [n1 H1] (S1 & S2 & _). exists (S n1). destruct ts as [|t ts]; [destruct n1; discriminate H1|].
  assert (Q : (hd_tt r =? bin_tok (opr k)) = false).
  { apply Z.eqb_neq. intro E. apply (S2 k); [lia|]. exists (opr k). split; [destruct K as [->|[->|[->| ->]]]; reflexivity|exact E]. }
  destruct K as [->|[->|[->| ->]]]; cbn [pred fnk opr bin_tok] in *; cbn [IfModel.ev]; rewrite H1; cbn [ibind fst snd]; rewrite Q; reflexivity.
Qed.
Lemma rr_step k ts y t r x r2 : rr k -> Ev (fnk (pred k)) ts y (t :: r) -> tt t = bin_tok (opr k) -> Ev (fnk k) r x r2 -> Ev (fnk k) ts (comb k y x) r2.
Proof.
  intros K [n1 H1] Ht [n2 H2]. exists (S (n1 + n2)). apply (ev_le _ (n1 + n2)) in H1; [|lia]. apply (ev_le _ (n1 + n2)) in H2; [|lia].
  destruct ts as [|t0 ts]; [destruct (n1 + n2)%nat; discriminate H1|].
  destruct K as [->|[->|[->| ->]]]; cbn [pred fnk opr bin_tok] in *; cbn [IfModel.ev]; rewrite H1; cbn [ibind fst snd hd_tt]; rewrite Ht; cbn [Z.eqb Pos.eqb tl]; rewrite H2; reflexivity.
Qed.
Lemma eq_stop ts y r : Ev Rela ts y r -> stop 6 r -> Ev Equa ts y r.
Proof.
  intros [n1 H1] (S1 & S2 & _). exists (S n1). destruct ts as [|t ts]; [destruct n1; discriminate H1|].
  assert (Q : forall o, level o = 6%nat -> (hd_tt r =? bin_tok o) = false).
  { intros o E. apply Z.eqb_neq. intro E'. apply (S2 6%nat); [lia|]. exists o. auto. }
  cbn [IfModel.ev]; rewrite H1; cbn [ibind fst snd]. rewrite (Q Equal eq_refl : (hd_tt r =? 69) = false), (Q NEqual eq_refl : (hd_tt r =? 70) = false). reflexivity.
Qed.
Lemma eq_step o ts y t r x r2 z : level o = 6%nat -> Ev Rela ts y (t :: r) -> tt t = bin_tok o -> Ev Equa r x r2 -> eq_op (bin_tok o) y x = IOk z -> Ev Equa ts z r2.
Proof.
  intros Ho [n1 H1] Ht [n2 H2] Hz. exists (S (n1 + n2)). apply (ev_le _ (n1 + n2)) in H1; [|lia]. apply (ev_le _ (n1 + n2)) in H2; [|lia].
  destruct ts as [|t0 ts]; [destruct (n1 + n2)%nat; discriminate H1|].
  cbn [IfModel.ev]; rewrite H1; cbn [ibind fst snd hd_tt]; rewrite Ht. destruct o; try discriminate Ho; cbn [bin_tok] in *; cbn [Z.eqb Pos.eqb tl orb]; rewrite H2; cbn [ibind fst snd]; rewrite Hz; reflexivity.
Qed.
Lemma ior_stop ts y r : Ev Xor_ ts y r -> stop 9 r -> Ev Ior ts y r.
Proof.
  intros [n1 H1] (S1 & S2 & _). exists (S n1). destruct ts as [|t ts]; [destruct n1; discriminate H1|].
  assert (Q : (hd_tt r =? 124) = false).
  { apply Z.eqb_neq. intro E'. apply (S2 9%nat); [lia|]. exists BOr. auto. }
  cbn [IfModel.ev]; rewrite H1; cbn [ibind fst snd]. rewrite Q. reflexivity.
Qed.
Lemma ior_step ts y t r x r2 : Ev Xor_ ts y (t :: r) -> tt t = 124 -> Ev Xor_ r x r2 -> Ev Ior ts (bit_op Z.lor y x) r2.
Proof.
  intros [n1 H1] Ht [n2 H2]. exists (S (n1 + n2)). apply (ev_le _ (n1 + n2)) in H1; [|lia]. apply (ev_le _ (n1 + n2)) in H2; [|lia].
  destruct ts as [|t0 ts]; [destruct (n1 + n2)%nat; discriminate H1|].
  cbn [IfModel.ev]; rewrite H1; cbn [ibind fst snd hd_tt]; rewrite Ht. cbn [Z.eqb Pos.eqb tl]; rewrite H2; reflexivity.
Qed.
Lemma cond_stop ts y r : Ev Lor ts y r -> hd_tt r <> 63 -> Ev Cond ts y r.
Proof.
  intros [n1 H1] Q. exists (S n1). destruct ts as [|t ts]; [destruct n1; discriminate H1|].
  cbn [IfModel.ev]; rewrite H1; cbn [ibind fst snd]. rewrite (proj2 (Z.eqb_neq _ _) Q). reflexivity.
Qed.
Lemma expr_stop ts y r : Ev Cond ts y r -> hd_tt r <> 44 -> Ev Expr ts y r.
Proof.
  intros [n1 H1] Q. exists (S n1). destruct ts as [|t ts]; [destruct n1; discriminate H1|].
  cbn [IfModel.ev]; rewrite H1; cbn [ibind fst snd]. rewrite (proj2 (Z.eqb_neq _ _) Q). reflexivity.
Qed.
Lemma cond_step ts a q r b c r1 d r2 : Ev Lor ts a (q :: r) -> tt q = 63 -> Ev Expr r b (c :: r1) -> tt c = 58 -> Ev Cond r1 d r2 ->
  Ev Cond ts (mkNum (uns b || uns d) (if bits a =? 0 then bits d else bits b)) r2.
Proof.
  intros [n1 H1] Hq [n2 H2] Hc [n3 H3]. exists (S (n1 + n2 + n3)). apply (ev_le _ (n1 + n2 + n3)) in H1; [|lia]. apply (ev_le _ (n1 + n2 + n3)) in H2; [|lia]. apply (ev_le _ (n1 + n2 + n3)) in H3; [|lia].
  destruct ts as [|t0 ts]; [destruct (n1 + n2 + n3)%nat; discriminate H1|].
  cbn [IfModel.ev]; rewrite H1; cbn [ibind fst snd hd_tt]; rewrite Hq. cbn [Z.eqb Pos.eqb tl]; rewrite H2; cbn [ibind fst snd]. rewrite Hc. cbn [Z.eqb Pos.eqb]. rewrite H3. reflexivity.
Qed.
Lemma paren_step l r x t rest : tt l = 40 -> Ev Expr r x (t :: rest) -> tt t = 41 -> Ev Primary (l :: r) x rest.
Proof.
  intros Hl [n H] Ht. exists (S n). cbn [IfModel.ev]. rewrite Hl. cbn [T_PREP_NUMBER T_PREP_CHAR Z.eqb Pos.eqb]. rewrite H. cbn [ibind fst snd]. rewrite Ht. reflexivity.
Qed.
Lemma unary_stop t r x rest : (forall o, tt t <> un_tok o) -> Ev Primary (t :: r) x rest -> Ev Unary (t :: r) x rest.
Proof.
  intros Q [n H]. exists (S n). assert (Q' : forall o, (tt t =? un_tok o) = false) by (intro; apply Z.eqb_neq, Q).
  cbn [IfModel.ev]. rewrite (Q' Plus : (tt t =? 43) = false), (Q' Minus : (tt t =? 45) = false), (Q' Compl : (tt t =? 126) = false), (Q' Not : (tt t =? 33) = false). exact H.
Qed.
Definition unk (o : unop) (l : num) : ires num :=
  match o with
  | Plus => IOk l
  | Minus => if uns l then IOk (mkNum true (put (- unsg l))) else host (- sgn l)
  | Compl => IOk (mkNum (uns l) (put (- bits l - 1)))
  | Not => IOk (mkNum (uns l) (if bits l =? 0 then 1 else 0))
  end.
Lemma unary_step o t r x rest z : tt t = un_tok o -> Ev Unary r x rest -> unk o x = IOk z -> Ev Unary (t :: r) z rest.
Proof.
  intros Ht [n H] Hz. exists (S n). cbn [IfModel.ev]. rewrite Ht. destruct o; cbn [un_tok unk] in *; cbn [Z.eqb Pos.eqb].
  - rewrite H. congruence.
  - rewrite H. cbn [ibind fst snd]. cbv zeta. rewrite Hz. reflexivity.
  - rewrite H. cbn [ibind fst snd]. congruence.
  - rewrite H. cbn [ibind fst snd]. congruence.
Qed.
Lemma unk_ok o u x v : rng u x -> (o = Not -> u = false) ->
  match o with Plus => Some x | Minus => IfSpec.exact u (- x) | Compl => IfSpec.exact u (- x - 1) | Not => truth (x =? 0) end = Some v ->
  unk o (N u x) = IOk (N (match o with Not => false | _ => u end) v).
Proof.
  intros R HN V. destruct o; cbn [unk].
  - injection V as <-. reflexivity.
  - cbn [uns N]. destruct u.
    + unfold IfSpec.exact in V. assert (V' : v = (- x) mod 2 ^ 64) by congruence. subst v. unfold N at 2. rewrite Z.mod_mod by lia. f_equal. f_equal.
      unfold put, wrap. rewrite unsg_N. rewrite <- (Z.sub_0_l x), <- (Z.sub_0_l (x mod _)), (Zminus_mod_idemp_r 0 x). reflexivity.
    + rewrite sgn_N by exact R. apply exact_s, V.
  - cbn [uns bits N]. unfold N. f_equal. f_equal. assert (E : v mod 2 ^ 64 = (- x - 1) mod 2 ^ 64).
    { unfold IfSpec.exact in V. destruct u; [injection V as <-; apply Z.mod_mod; lia|]. destruct (fits _); [congruence|discriminate]. }
    rewrite E. unfold put, wrap. replace (- (x mod 2 ^ 64) - 1) with (-1 - x mod 2 ^ 64) by ring. rewrite Zminus_mod_idemp_r. f_equal. ring.
  - rewrite (HN eq_refl). cbn [uns N]. rewrite N_zero by (rewrite (HN eq_refl) in R; exact R). unfold truth in V. injection V as <-. destruct (x =? 0); reflexivity.
Qed.

Lemma digits_no_l b ds w : Digits b ds w -> b <> Dec -> hd 0 w = 48 /\ ~ In 108 w /\ ~ In 76 w.
Proof.
  intros H NB. inversion H as [|ds' H0|x ds' H00 H1 H2]; subst; [congruence| |].
  - split; [reflexivity|]. assert (F : Forall (fun c => c <> 108 /\ c <> 76) ds') by (eapply Forall_impl; [|exact H0]; intros c Hc; unfold oct in Hc; lia).
    rewrite Forall_forall in F. split; (intros [E|I]; [lia|]; apply F in I; lia).
  - split; [reflexivity|]. assert (F : Forall (fun c => c <> 108 /\ c <> 76) ds) by (eapply Forall_impl; [|exact H1]; intros c Hc; unfold hex, digit in Hc; lia).
    rewrite Forall_forall in F. split; (intros [E|[E|I]]; [lia|lia|]; apply F in I; lia).
Qed.
Lemma N_small u v : 0 <= v < 2 ^ 64 -> mkNum u v = N u v.
Proof. intro H. unfold N. rewrite Z.mod_small by exact H. reflexivity. Qed.
Lemma suffix_zero u sfx : Suffix u 0 sfx -> u = false -> sfx = [].
Proof. intros H E. inversion H; subst; try discriminate; try reflexivity. inversion H0. Qed.

Lemma number_ok b ds w u l sfx t : tt t = T_PREP_NUMBER -> spell t = w ++ sfx -> Digits b ds w -> Suffix u l sfx ->
  let v := NumberSpec.value (radix b) ds in
  v < 2 ^ (if u then 64 else match b with Dec => 63 | _ => 64 end) ->
  plain_leaf ismacro t (u || (2 ^ 63 <=? v)) v ->
  exists ty, convert_preprocessing_number erange (spell t) = Integer v ty false /\ normalize ty v = IOk (N (u || (2 ^ 63 <=? v)) v).
Proof.
  intros Ht Hs D S v L [P _]. rewrite Hs, (integer_ok erange b ds w u l sfx D S). fold v. cbv zeta.
  assert (V0 : 0 <= v) by (apply value_nonneg; [destruct b; cbn; lia|eapply Digits_hex; eauto]).
  assert (V1 : v < 2 ^ 64) by (destruct u; [exact L|]; destruct b; lia). rewrite (proj2 (Z.ltb_lt _ _) V1).
  assert (C : forall T, T = candidates b u l -> exists ty, match first_fit v T with Some t0 => Integer v t0 false | None => Integer v NULong true end = Integer v ty false /\
    normalize ty v = IOk (N (u || (2 ^ 63 <=? v)) v)); [|exact (C _ eq_refl)].
  intros T ->. destruct u; cbn [orb] in *.
  - destruct l, b; cbn [candidates first_fit limit]; rewrite ?(proj2 (Z.ltb_lt _ _) V1);
      try (destruct (v <? 2 ^ 32)); eexists; (split; [reflexivity|]); cbn [normalize]; rewrite (N_small true) by lia; reflexivity.
  - destruct (Z.leb_spec (2 ^ 63) v) as [B|B].
    + destruct b; [lia| |]; destruct l; cbn [candidates first_fit limit];
      rewrite ?(proj2 (Z.ltb_ge v (2 ^ 31))), ?(proj2 (Z.ltb_ge v (2 ^ 32))), ?(proj2 (Z.ltb_ge v (2 ^ 63))), ?(proj2 (Z.ltb_lt _ _) V1) by lia;
      eexists; (split; [reflexivity|]); cbn [normalize]; rewrite (N_small true) by lia; reflexivity.
    + destruct (Nat.eq_dec l 0) as [->|L0].
      * destruct b; cbn [candidates first_fit limit].
        { destruct (v <? 2 ^ 31); [|rewrite (proj2 (Z.ltb_lt _ _) B)]; eexists; (split; [reflexivity|]); cbn [normalize]; rewrite (N_small false) by lia; reflexivity. }
        all: destruct (Z.ltb_spec v (2 ^ 31)) as [?|G]; [eexists; (split; [reflexivity|]); cbn [normalize]; rewrite (N_small false) by lia; reflexivity|].
        all: destruct (Z.ltb_spec v (2 ^ 32)) as [G2|?]; [exfalso|rewrite (proj2 (Z.ltb_lt _ _) B); eexists; (split; [reflexivity|]); cbn [normalize]; rewrite (N_small false) by lia; reflexivity].
        all: specialize (P Ht eq_refl (conj G G2)); rewrite Hs, (suffix_zero _ _ S eq_refl), app_nil_r in P;
          destruct (digits_no_l _ _ _ D ltac:(discriminate)) as (A1 & A2 & A3); tauto.
      * destruct l; [congruence|]. destruct b; cbn [candidates first_fit limit]; rewrite (proj2 (Z.ltb_lt _ _) B); eexists; (split; [reflexivity|]); cbn [normalize]; rewrite (N_small false) by lia; reflexivity.
Qed.

Lemma word_toks : Forall (fun k : list Z * Z * bool => let t := snd (fst k) in
  (t =? T_PREP_NUMBER) || (t =? T_PREP_CHAR) || (t =? 40) || (t =? 43) || (t =? 45) || (t =? 126) || (t =? 33) = false) keywords.
Proof. repeat constructor. Qed.
Lemma word_tok t : tt t = T_IDENTIFIER \/ In (tt t) (map (fun k => snd (fst k)) keywords) ->
  (tt t =? T_PREP_NUMBER) || (tt t =? T_PREP_CHAR) || (tt t =? 40) || (tt t =? 43) || (tt t =? 45) || (tt t =? 126) || (tt t =? 33) = false.
Proof.
  intros [->|H]; [reflexivity|]. apply in_map_iff in H as (k & <- & I). pose proof word_toks as W. rewrite Forall_forall in W. apply (W k I).
Qed.
Lemma leaf_ok t u v rest : Leaf t u v -> plain_leaf ismacro t u v -> Ev Primary (t :: rest) (N u v) rest.
Proof.
  intros H P. exists 1%nat. cbn [IfModel.ev]. inversion H; subst.
  - rewrite (proj2 (Z.eqb_eq _ _) H0). destruct (number_ok b ds w u0 l sfx t H0 H1 H2 H3 H4 P) as (ty & E1 & E2). rewrite E1, E2. reflexivity.
  - rewrite H0. cbn [T_PREP_NUMBER T_PREP_CHAR Z.eqb Pos.eqb]. destruct (convert_char_one _ _ H1) as (w & E & Hw & Hm). rewrite E.
    unfold N, put, wrap. repeat f_equal.
    assert (Hc : 0 <= c < 256) by (rewrite <- Hm; apply Z.mod_pos_bound; lia).
    pose proof (Z.div_mod w 256 ltac:(lia)). rewrite Hm in *. destruct (Z.ltb_spec c 128); lia.
  - pose proof (word_tok t H0) as W. rewrite !orb_false_iff in W. destruct W as ((((((W1 & W2) & W3) & _) & _) & _) & _).
    rewrite W1, W2, W3. destruct P as [_ P]. destruct (P (proj1 (Z.eqb_neq _ _) W1) (proj1 (Z.eqb_neq _ _) W2)) as [Pm Pe]. rewrite Pm.
    assert (E : (tt t =? T_IDENTIFIER) || expandable t = true) by (destruct Pe as [->| ->]; [reflexivity|apply orb_true_r]). rewrite E. reflexivity.
Qed.
Lemma leaf_head t u v : Leaf t u v -> forall o, tt t <> un_tok o.
Proof.
  intros H o. inversion H; subst.
  - rewrite H0. destruct o; discriminate.
  - rewrite H0. destruct o; discriminate.
  - pose proof (word_tok t H0) as W. rewrite !orb_false_iff in W. destruct W as ((((((W1 & W2) & W3) & W4) & W5) & W6) & W7).
    apply Z.eqb_neq in W4, W5, W6, W7. destruct o; assumption.
Qed.

Definition nm (e : expr) (v : Z) : num := N (utype e) v.
Definition Value (k : nat) (e : expr) (v : Z) : Prop := forall rest, stop k rest -> Ev (fnk k) (toks e ++ rest) (nm e v) rest.
Definition Cont (k : nat) (e : expr) (v : Z) : Prop :=
  ((2 <= k <= 5)%nat -> forall rest x rest', stop (pred k) rest -> Ev (loopk k (nm e v)) rest x rest' -> Ev (fnk k) (toks e ++ rest) x rest') /\
  (rr k -> forall t rest x rest', tt t = bin_tok (opr k) -> Ev (fnk k) rest x rest' -> Ev (fnk k) (toks e ++ t :: rest) (comb k (nm e v) x) rest').
Lemma cont_value k e v : (2 <= k <= 5)%nat -> Cont k e v -> Value k e v.
Proof. intros K [C _] rest S. apply (C K); [eapply stop_le; [exact S|lia|lia]|]. apply loop_stop; assumption. Qed.

(* an expression of a lower level *)
Lemma lift k e v : (k <= 11)%nat -> Derives k e -> Value k e v -> Value (S k) e v /\ Cont (S k) e v.
Proof.
  intros K D V.
  assert (CL : (2 <= S k <= 5)%nat -> Cont (S k) e v).
  { intro K2. split; [|intro R; unfold rr in R; lia]. intros _ rest x rest' S E. eapply loop_enter; [exact K2| |exact E]. apply V. exact S. }
  assert (HR : rr (S k) -> Value (S k) e v /\ Cont (S k) e v).
  { intro R. split.
    - intros rest S. apply rr_stop; [exact R| |exact S]. apply V. eapply stop_le; [exact S|cbn [pred]; lia|lia].
    - split; [unfold rr in R; lia|]. intros _ t rest x rest' Ht E. eapply rr_step; [exact R| |exact Ht|exact E]. apply V.
      eapply stop_op; [exact Ht|]. destruct R as [R|[R|[R|R]]]; rewrite R; cbn; lia. }
  assert (NC : ~ (2 <= S k <= 5)%nat -> ~ rr (S k) -> Cont (S k) e v) by (intros A B; split; intros; tauto).
  assert (DEC : (2 <= S k <= 5)%nat \/ rr (S k) \/ k = 0%nat \/ k = 5%nat \/ k = 8%nat \/ k = 11%nat) by (unfold rr; lia).
  destruct DEC as [X|[X|[X|[X|[X|X]]]]].
  - split; [apply cont_value; auto|auto].
  - auto.
  - split; [|apply NC; unfold rr; lia]. subst k. intros rest S. cbn [fnk].
    assert (H : Ev Primary (toks e ++ rest) (nm e v) rest).
    { apply V. eapply stop_le; [exact S|lia|lia]. }
    destruct e as [t u w|l e r|o t e|o a t b|a q b c d]; cbn [toks app] in *.
    + apply unary_stop; [|exact H]. eapply leaf_head; exact D.
    + apply unary_stop; [|exact H]. cbn [Derives] in D. destruct D as (-> & _). intros []; discriminate.
    + cbn [Derives] in D. lia.
    + cbn [Derives] in D. destruct o; cbn [level] in D; lia.
    + cbn [Derives] in D. lia.
  - split; [|apply NC; unfold rr; lia]. subst k. intros rest S. apply eq_stop; [|exact S]. apply V. eapply stop_le; [exact S|lia|lia].
  - split; [|apply NC; unfold rr; lia]. subst k. intros rest S. apply ior_stop; [|exact S]. apply V. eapply stop_le; [exact S|lia|lia].
  - split; [|apply NC; unfold rr; lia]. subst k. intros rest S. apply cond_stop; [|apply S; reflexivity]. apply V. eapply stop_le; [exact S|lia|lia].
Qed.

Lemma plain_val e : plain ismacro e -> exists v, val e = Some v.
Proof. intro P. assert (H : val e <> None) by (destruct e; apply P). destruct (val e) as [v|]; [eauto|congruence]. Qed.

Lemma node_cases k e : Derives k e -> (exists j, k = S j /\ Derives j e) \/
  match e with
  | ELeaf _ _ _ | EParen _ _ _ => k = 0%nat
  | EUn _ _ _ => k = 1%nat
  | EBin o _ _ _ => k = level o
  | ECond _ _ _ _ _ => (12 <= k)%nat
  end.
Proof.
  destruct k as [|j]; intro D; destruct e; cbn [Derives] in *; try (right; lia); try (solve [left; eauto]).
  - destruct (Nat.eq_dec j 0) as [->|]; [right; reflexivity|left]. exists j. split; [reflexivity|]. split; [lia|tauto].
  - destruct (Nat.eq_dec (level o) (S j)) as [E|]; [right; auto|left]. exists j. split; [reflexivity|]. split; [lia|tauto].
Qed.

Lemma main e : plain ismacro e -> forall v, val e = Some v -> forall k, (k <= 12)%nat -> Derives k e -> Value k e v /\ Cont k e v.
Proof.
  induction e as [t u w|l e IH r|o t e IH|o a IHa t b IHb|a IHa q b IHb c d IHd]; intros P v V; induction k as [|k IHk]; intros K D;
    (destruct (node_cases _ _ D) as [(j & Ej & Dj)|Hk]; [first [discriminate Ej|injection Ej as <-; apply lift; [lia|exact Dj|apply IHk; [lia|exact Dj]]]|try discriminate Hk]).
  - split; [|split; [lia|unfold rr; lia]]. intros rest S. cbn [fnk toks app]. cbn [val] in V. injection V as <-. apply leaf_ok; [exact D|apply P].
  - split; [|split; [lia|unfold rr; lia]]. intros rest S. cbn [fnk toks app]. cbn [val] in V. cbn [Derives] in D. destruct D as (D1 & D2 & D3).
    eapply paren_step; [exact D1| |exact D3]. rewrite <- app_assoc. cbn [app]. apply expr_stop; [|cbn [hd_tt]; lia].
    apply (proj1 (IH (proj2 P) v V 12%nat ltac:(lia) D2)). apply stop_other. auto.
  - injection Hk as ->. split; [|split; [lia|unfold rr; lia]]. intros rest S. cbn [fnk toks app]. cbn [Derives] in D. destruct D as (_ & Dt & De).
    destruct P as (_ & P & PN). destruct (plain_val e P) as [x Vx]. cbn [val] in V. rewrite Vx in V.
    eapply unary_step; [exact Dt|apply (proj1 (IH P x Vx 1%nat ltac:(lia) De)); exact S|].
    replace (nm (EUn o t e) v) with (N (match o with Not => false | _ => utype e end) v) by (destruct o; reflexivity).
    apply unk_ok; [eapply val_rng; eassumption|exact PN|exact V].
  - destruct o; discriminate Hk.
  - clear IHk. rewrite Hk in *. clear Hk k. cbn [Derives] in D. destruct D as (_ & Da & Dt & Db).
    destruct P as (_ & Pa & Pb & Po). destruct (plain_val a Pa) as [x Vx]. destruct (plain_val b Pb) as [y Vy].
    specialize (IHa Pa x Vx). specialize (IHb Pb y Vy). pose proof (val_rng _ _ _ Da Vx) as Rx. pose proof (val_rng _ _ _ Db Vy) as Ry.
    assert (LP : (2 <= level o <= 5)%nat -> opk (level o) (bin_tok o) (nm a x) (nm b y) = IOk (nm (EBin o a t b) v) ->
      Value (level o) (EBin o a t b) v /\ Cont (level o) (EBin o a t b) v).
    { intros KL Eop. assert (C : Cont (level o) (EBin o a t b) v).
      { split; [|unfold rr; lia]. intros _ rest z' rest' S E. cbn [toks]. rewrite <- app_assoc. cbn [app].
        destruct (IHa (level o) ltac:(lia) Da) as [_ [C _]]. apply (C KL); [eapply stop_op; [exact Dt|lia]|].
        eapply loop_step; [exact KL|reflexivity|exact Dt| |exact Eop|exact E]. apply (proj1 (IHb (pred (level o)) ltac:(lia) Db)). exact S. }
      split; [apply cont_value; assumption|exact C]. }
    assert (RP : rr (level o) -> o = opr (level o) -> comb (level o) (nm a x) (nm b y) = nm (EBin o a t b) v ->
      Value (level o) (EBin o a t b) v /\ Cont (level o) (EBin o a t b) v).
    { intros KR Eo Ec. destruct (IHa (level o) ltac:(unfold rr in KR; lia) Da) as [_ [_ C]].
      assert (LB : (pred (level o) <= 11)%nat) by (unfold rr in KR; lia).
      pose proof (proj1 (IHb (pred (level o)) ltac:(lia) Db)) as VB.
      destruct (lift _ _ _ LB Db VB) as [VB1 CB1]. replace (S (pred (level o))) with (level o) in * by (unfold rr in KR; lia).
      split.
      - intros rest S. cbn [toks]. rewrite <- app_assoc. cbn [app]. rewrite <- Ec. apply (C KR); [rewrite <- Eo; exact Dt|]. apply VB1. exact S.
      - split; [unfold rr in KR; lia|]. intros _ t' rest z' rest' Ht E. cbn [toks]. rewrite <- app_assoc. cbn [app]. rewrite <- Ec, comb_assoc.
        apply (C KR); [rewrite <- Eo; exact Dt|]. apply (proj2 CB1 KR); assumption. }
    cbn [val] in V. rewrite Vx, Vy in V.
    destruct o; cbn [level] in *.
    all: try (apply LP; [lia|]; cbn [opk]; unfold nm; cbn [utype]).
    1-3: apply mul_ok; auto.
    1-2: apply add_ok; auto.
    1-2: apply shift_ok; auto.
    1-4: apply rel_ok; auto.
    1-2: split; [|split; [lia|unfold rr; lia]]; intros rest S; cbn [fnk toks pred] in *; rewrite <- app_assoc; cbn [app];
      (eapply eq_step; [|apply (proj1 (IHa 5%nat ltac:(lia) Po)); eapply stop_op; [exact Dt|]| exact Dt |apply eq_stop; [|exact S]; apply (proj1 (IHb 5%nat ltac:(lia) Db)); eapply stop_le; [exact S|lia|lia]|];
       [reflexivity|cbn; lia|unfold nm; cbn [utype]; apply eq_ok; auto]).
    + apply RP; [unfold rr; lia|reflexivity|]. cbn [comb]. unfold nm. cbn [utype]. apply (bit_ok BAnd); auto.
    + apply RP; [unfold rr; lia|reflexivity|]. cbn [comb]. unfold nm. cbn [utype]. apply (bit_ok BXor); auto.
    + split; [|split; [lia|unfold rr; lia]]. intros rest S. cbn [fnk toks pred] in *. rewrite <- app_assoc. cbn [app].
      assert (E : nm (EBin BOr a t b) v = bit_op Z.lor (nm a x) (nm b y)).
      { symmetry. unfold nm. cbn [utype]. apply (bit_ok BOr); auto. }
      rewrite E. eapply ior_step; [apply (proj1 (IHa 8%nat ltac:(lia) Po)); eapply stop_op; [exact Dt|cbn; lia]|exact Dt|].
      apply (proj1 (IHb 8%nat ltac:(lia) Db)). eapply stop_le; [exact S|lia|lia].
    + apply RP; [unfold rr; lia|reflexivity|]. cbn [comb]. unfold nm. cbn [utype]. rewrite !N_zero by assumption. apply truth_N.
      destruct (x =? 0); [exact V|exact V].
    + apply RP; [unfold rr; lia|reflexivity|]. cbn [comb]. unfold nm. cbn [utype]. rewrite !N_zero by assumption. apply truth_N.
      destruct (x =? 0); [exact V|exact V].
  - cbn in Hk. lia.
  - assert (k = 11)%nat by lia. subst k. clear IHk Hk. split; [|split; [lia|unfold rr; lia]]. intros rest S. cbn [Derives] in D.
    destruct D as (_ & Da & Dq & Db & Dc & Dd). destruct P as (_ & Pa & Pb & Pd).
    destruct (plain_val a Pa) as [x Vx]. destruct (plain_val b Pb) as [y Vy]. destruct (plain_val d Pd) as [z Vz].
    cbn [toks fnk]. rewrite <- app_assoc. cbn [app]. rewrite <- app_assoc. cbn [app]. cbn [val] in V. rewrite Vx in V.
    assert (E : nm (ECond a q b c d) v = mkNum (uns (nm b y) || uns (nm d z)) (if bits (nm a x) =? 0 then bits (nm d z) else bits (nm b y))).
    { unfold nm. rewrite N_zero by (eapply val_rng; eassumption). cbn [utype N uns bits]. unfold N. f_equal. rewrite Vy, Vz in V.
      destruct (x =? 0); injection V as <-; unfold conv; (destruct (utype b || utype d); [apply Z.mod_mod; lia|reflexivity]). }
    rewrite E. eapply cond_step; [|exact Dq| |exact Dc|].
    + apply (proj1 (IHa Pa x Vx 11%nat ltac:(lia) Da)). split; [discriminate|]. cbn [hd_tt]. split; [|lia]. intros i Hi (o & E1 & E2). destruct o; cbn in E2; lia.
    + apply expr_stop; [|cbn [hd_tt]; lia]. apply (proj1 (IHb Pb y Vy 12%nat ltac:(lia) Db)). apply stop_other. auto.
    + apply (proj1 (IHd Pd z Vz 12%nat ltac:(lia) Dd)). exact S.
Qed.

Theorem if_ok e nl rest : Derives 12 e -> plain ismacro e -> (forall o, tt nl <> bin_tok o) -> tt nl <> 63 ->
  exists v, val e = Some v /\ if_value ismacro erange (toks e ++ nl :: rest) = IOk (negb (v =? 0)).
Proof.
  intros D P H1 H2. destruct (plain_val e P) as [v V]. exists v. split; [exact V|].
  destruct (main e P v V 12%nat ltac:(lia) D) as [VV _]. assert (S : stop 12 (nl :: rest)).
  { split; [discriminate|]. split; [|intros _; exact H2]. intros j Hj (o & _ & E). exact (H1 o E). }
  specialize (VV _ S). apply Ev_if in VV. rewrite VV. unfold nm. rewrite N_zero; [reflexivity|]. eapply val_rng; eassumption.
Qed.
End P.
