(* Proofs about assembly text. *)
From Coq Require Import String ZArith Bool Lia List.
From Verif Require Import Bytes EncModel EncSpec EscModel ArgsModel AttModel AttSpec.
Import ListNotations.
Open Scope Z_scope.

(* a character that ends a name or a number *)
Definition stop (c : Z) : bool := negb (symchar c) && negb (c =? 64) && negb (c =? 43) && negb (c =? 45).
Definition stops (l : list Z) : Prop := match l with c :: _ => stop c = true | [] => False end.

Lemma span_all p a r : forallb p a = true -> match r with c :: _ => p c = false | [] => True end -> span p (a ++ r) = (a, r).
Proof.
  induction a as [|c a IH]; cbn [app forallb span]; intros H R.
  - destruct r as [|c r]; [reflexivity|]. cbn [span]. now rewrite R.
  - apply andb_true_iff in H as [H1 H2]. rewrite H1, IH by assumption. reflexivity.
Qed.

Lemma dig z : 0 <= z < 10 -> forallb digit [48 + z] = true.
Proof. intro. cbn [forallb]. unfold digit, between. rewrite andb_true_r. apply andb_true_intro. split; apply Z.leb_le; lia. Qed.
Lemma digits_digit : forall f z, 0 <= z -> forallb digit (digits f z) = true.
Proof.
  induction f; intros z H; cbn [digits]; [reflexivity|]. destruct (Z.ltb_spec z 10).
  - apply dig. lia.
  - rewrite forallb_app, IHf by (apply Z.div_pos; lia). apply dig. apply Z.mod_pos_bound. lia.
Qed.
Lemma value_app a b : value (a ++ b) = fold_left (fun v c => 10 * v + (c - 48)) b (value a).
Proof. unfold value. now rewrite fold_left_app. Qed.
Lemma digits_value : forall f z, 0 <= z < 10 ^ Z.of_nat f -> value (digits f z) = z.
Proof.
  induction f as [|f IH]; intros z H; [cbn in *; lia|]. rewrite Nat2Z.inj_succ, Z.pow_succ_r in H by lia.
  cbn [digits]. destruct (Z.ltb_spec z 10); [cbn [value fold_left]; unfold value; cbn [fold_left]; lia|].
  rewrite value_app, IH.
  - cbn [fold_left]. pose proof (Z.div_mod z 10 ltac:(lia)). lia.
  - split; [apply Z.div_pos; lia|]. apply Z.div_lt_upper_bound; lia.
Qed.
Lemma digits_nonempty : forall f z, digits (S f) z <> [].
Proof. intros f z. simpl. destruct (z <? 10); [discriminate|]. destruct (digits f (z / 10)); discriminate. Qed.

Lemma unsigned_digits f z r : 0 <= z < 10 ^ Z.of_nat (S f) -> match r with c :: _ => digit c = false | [] => True end -> unsigned_number (digits (S f) z ++ r) = Some (z, r).
Proof.
  intros H R. unfold unsigned_number. rewrite span_all by (try assumption; apply digits_digit; lia).
  pose proof (digits_value (S f) z H) as V. destruct (digits (S f) z) eqn:E; [now apply digits_nonempty in E|]. now rewrite V.
Qed.
Lemma stops_digit r : stops r -> match r with c :: _ => digit c = false | [] => True end.
Proof.
  destruct r as [|c r]; [trivial|]. unfold stops, stop, symchar, alnum. destruct (digit c); [|reflexivity]. rewrite orb_true_r. discriminate.
Qed.
Definition small (z : Z) : Prop := -10000000000000000000 < z < 10000000000000000000.
Lemma pow19 : 10 ^ Z.of_nat 19 = 10000000000000000000. Proof. reflexivity. Qed.
Lemma digits_head f z : 0 <= z -> exists c l, digits (S f) z = c :: l /\ digit c = true.
Proof.
  intro H. pose proof (digits_digit (S f) z H) as D. destruct (digits (S f) z) as [|c l] eqn:E; [now apply digits_nonempty in E|].
  exists c, l. split; [reflexivity|]. cbn in D. now apply andb_true_iff in D as [D _].
Qed.
Lemma number_decimal z r : small z -> match r with c :: _ => digit c = false | [] => True end -> number (decimal z ++ r) = Some (z, r).
Proof.
  intros H R. unfold small in H. unfold decimal, number. change 19%nat with (S 18). destruct (Z.ltb_spec z 0).
  - change (text "-" ++ digits (S 18) (- z)) with (45 :: digits (S 18) (- z)). cbn [app]. rewrite unsigned_digits by (try assumption; rewrite pow19; lia).
    cbn [obind fst snd]. now rewrite Z.opp_involutive.
  - destruct (digits_head 18 z H0) as (c & l & E & D). rewrite E. cbn [app]. destruct (Z.eqb_spec c 45); [subst; discriminate|].
    replace (match c with 45 => _ | _ => unsigned_number (c :: l ++ r) end) with (unsigned_number (c :: l ++ r)).
    + rewrite app_comm_cons, <- E. apply unsigned_digits; [rewrite pow19; lia|assumption].
    + destruct c as [|p|p]; try reflexivity. repeat (destruct p as [p|p|]; try reflexivity). congruence.
Qed.

(* registers *)
Lemma stops_alnum r : stops r -> match r with c :: _ => alnum c = false | [] => True end.
Proof. destruct r as [|c r]; [trivial|]. unfold stops, stop, symchar. destruct (alnum c); [discriminate|reflexivity]. Qed.
Lemma register_name n r a : forallb alnum n = true -> text_eqb n (text "rip") = false -> text_eqb n (text "st") = false -> lookup n registers = Some a -> stops r ->
  register (n ++ r) = Some (Named a, r).
Proof. intros A B C L R. unfold register. rewrite span_all by (try assumption; now apply stops_alnum). now rewrite B, C, L. Qed.

Ltac in_list n := let k := fresh in assert (In n [1;2;3;4;5;6;7;8;9;10;11;12;13;14;15;16]) as k by (cbn [In]; lia); cbn [In] in k; repeat (destruct k as [<-|k]); [..|destruct k].
Definition shown (depth : Z) (r : registr) (a : arg) : Prop := exists s, regname depth r = Done (37 :: s) /\ forall l, stops l -> register (s ++ l) = Some (Named a, l).
Definition reads_as (s : list Z) (a : arg) : Prop :=
  forallb alnum s = true /\ text_eqb s (text "rip") = false /\ text_eqb s (text "st") = false /\ lookup s registers = Some a.
Lemma shown_by depth r a s : regname depth r = Done (37 :: s) -> reads_as s a -> shown depth r a.
Proof. intros E (A & B & C & L). exists s. split; [exact E|]. intros l R. now apply register_name. Qed.
Lemma wide_cases w : wide w = true -> w = 1 \/ w = 2 \/ w = 4 \/ w = 8.
Proof. unfold wide. rewrite !orb_true_iff, !Z.eqb_eq. tauto. Qed.
Lemma shown_gp depth n w : 1 <= n <= 16 -> wide w = true -> shown depth (Reg w n) (R (n - 1) w).
Proof.
  intros H W. apply wide_cases in W. destruct W as [->|[->|[->| ->]]]; in_list n;
  (eapply shown_by; [vm_compute; reflexivity|repeat split; vm_compute; reflexivity]).
Qed.
Lemma shown_xm depth n w : 17 <= n <= 32 -> shown depth (Reg w n) (X (n - 17)).
Proof.
  intros H. replace n with (16 + (n - 16)) by lia. set (m := n - 16). assert (1 <= m <= 16) as M by lia. clearbody m. clear H. in_list m;
  (eapply shown_by; [vm_compute; reflexivity|repeat split; vm_compute; reflexivity]).
Qed.
Lemma shown_st depth r a : st depth r = Some a -> 1 < depth -> shown depth r a.
Proof.
  destruct r as [w n]. unfold st. cbn [r_reg r_width]. intros H D.
  destruct ((34 <=? n) && (n <=? 41) && (w =? 16) && (0 <=? depth - 1 - (n - 34)) && (depth - 1 - (n - 34) <? 8)) eqn:E; [|discriminate]. injection H as <-.
  rewrite !andb_true_iff in E. destruct E as ((((E1 & E2) & E3) & E4) & E5). apply Z.leb_le in E1, E2, E4. apply Z.ltb_lt in E5.
  unfold shown, regname. cbn [r_reg]. replace (n =? IP) with false by (symmetry; apply Z.eqb_neq; unfold IP; lia). replace (n <? XMM0) with false by (symmetry; apply Z.ltb_ge; unfold XMM0; lia).
  replace (n <? ST0) with false by (symmetry; apply Z.ltb_ge; unfold ST0; lia). unfold x87_stack_pos. change ST0 with 34. change ST7 with 41.
  replace ((34 <=? n) && (n <=? 41) && (1 <? depth)) with true by (symmetry; rewrite !andb_true_iff; repeat split; [apply Z.leb_le|apply Z.leb_le|apply Z.ltb_lt]; lia). cbn [check bind].
  set (m := depth - 1 - (n - 34)) in *. assert (In m [0;1;2;3;4;5;6;7]) as K by (cbn [In]; lia). clearbody m. cbn [In] in K.
  repeat (destruct K as [<-|K]; [eexists; split; [vm_compute; reflexivity|intros l _; reflexivity]|]). destruct K.
Qed.

(* operands *)
Definition ends (l : list Z) : Prop := match l with c :: _ => c = 44 \/ c = 10 | [] => False end.
Lemma ends_stops l : ends l -> stops l.
Proof. destruct l as [|c l]; [contradiction|]. intros [->| ->]; reflexivity. Qed.

Ltac zcases c := destruct c as [|?p|?p]; try reflexivity; repeat (match goal with p : positive |- _ => destruct p as [p|p|]; try reflexivity end).
Lemma operand_memory find loc e c l : c <> 42 -> c <> 37 -> c <> 36 -> operand find loc e (c :: l) = memory_operand find loc e (c :: l).
Proof.
  intros A B C. unfold operand. 
  assert (D : direct_operand find loc e (c :: l) = memory_operand find loc e (c :: l)) by (unfold direct_operand; zcases c; congruence).
  rewrite <- D. clear D. zcases c; congruence.
Qed.
Lemma operand_register find loc e depth r a : shown depth r a -> exists s, regname depth r = Done s /\ forall l, stops l -> operand find loc e (s ++ l) = Some (OReg a, l).
Proof. intros (s & E & H). exists (37 :: s). split; [exact E|]. intros l L. cbn [app operand direct_operand]. now rewrite H. Qed.
Lemma operand_star find loc e depth r a : shown depth r a -> exists s, regname depth r = Done s /\ forall l, stops l -> operand find loc e (42 :: s ++ l) = Some (OStar (OReg a), l).
Proof. intros (s & E & H). exists (37 :: s). split; [exact E|]. intros l L. cbn [app operand direct_operand]. rewrite H by assumption. reflexivity. Qed.
Lemma operand_number find loc e z l : small z -> stops l -> operand find loc e (36 :: decimal z ++ l) = Some (OImm z, l).
Proof. intros Z0 L. cbn [operand direct_operand]. rewrite number_decimal by (try assumption; now apply stops_digit). reflexivity. Qed.

Lemma decimal_head z : small z -> exists c l, decimal z = c :: l /\ digit c || (c =? 45) = true.
Proof.
  unfold small. intro H. unfold decimal. destruct (Z.ltb_spec z 0).
  - eexists _, _. split; [reflexivity|reflexivity].
  - destruct (digits_head 18 z H0) as (c & l & E & D). exists c, l. change 19%nat with (S 18). rewrite D. auto.
Qed.
Lemma expression_number find z l : small z -> stops l -> expression find (decimal z ++ l) = Some (Some (TNum z), l).
Proof.
  intros Z0 L. pose proof (number_decimal z l Z0 (stops_digit _ L)) as N. destruct (decimal_head z Z0) as (c & t & E & D). rewrite E in *. cbn [app] in *.
  unfold expression. rewrite N, D. replace (symstart c) with false; [reflexivity|].
  symmetry. unfold digit, between, symstart, letter, between in *. 
  destruct (Z.eqb_spec c 45); [subst; reflexivity|]. rewrite orb_false_r in D. apply andb_true_iff in D as [D1 D2]. apply Z.leb_le in D1, D2.
  replace (65 <=? c) with false by (symmetry; apply Z.leb_gt; lia). replace (97 <=? c) with false by (symmetry; apply Z.leb_gt; lia).
  replace (c =? 95) with false by (symmetry; apply Z.eqb_neq; lia). replace (c =? 46) with false by (symmetry; apply Z.eqb_neq; lia). reflexivity.
Qed.

(* a symbol, what it refers to, and the offset *)
Definition kind_of (t : addr_type) : kind := match t with ADDR_NORMAL => PC32 | ADDR_GLOBAL_OFFSET => GOTPCREL | ADDR_PLT => PLT32 end.
Definition sym_part (name : Z -> list Z) (a : address) (y : Z) : res (list Z) :=
  do t <- match a_type a with
          | ADDR_GLOBAL_OFFSET => do _ <- check (a_disp a =? 0); Done (text "@GOTPCREL")
          | ADDR_PLT => do _ <- check (a_disp a =? 0); Done (text "@PLT")
          | ADDR_NORMAL => Done (if a_disp a =? 0 then [] else (if 0 <? a_disp a then text "+" else []) ++ decimal (a_disp a))
          end;
  Done (name y ++ t).
Definition known (name : Z -> list Z) (find : list Z -> option Z) : Prop := forall y, symbol_name (name y) = true /\ find (name y) = Some y.

Lemma offset_decimal d l : small d -> d <> 0 -> stops l -> offset ((if 0 <? d then text "+" else []) ++ decimal d ++ l) = Some (d, l).
Proof.
  intros S0 N L. unfold decimal. destruct (Z.ltb_spec 0 d).
  - replace (d <? 0) with false by (symmetry; apply Z.ltb_ge; lia). change (text "+" ++ digits 19 d ++ l) with (43 :: digits (S 18) d ++ l). cbn [offset].
    apply unsigned_digits; [unfold small in S0; rewrite pow19; lia|now apply stops_digit].
  - replace (d <? 0) with true by (symmetry; apply Z.ltb_lt; lia). change ([] ++ (text "-" ++ digits 19 (- d)) ++ l) with (45 :: digits (S 18) (- d) ++ l). cbn [offset].
    rewrite unsigned_digits by (try (now apply stops_digit); unfold small in S0; rewrite pow19; lia). cbn [obind fst snd]. now rewrite Z.opp_involutive.
Qed.
Lemma stops_symchar r : stops r -> match r with c :: _ => symchar c = false | [] => True end.
Proof. destruct r as [|c r]; [trivial|]. unfold stops, stop. destruct (symchar c); [discriminate|reflexivity]. Qed.
Lemma stops_plain r : stops r -> relocation r = Some (PC32, r) /\ offset r = Some (0, r).
Proof.
  destruct r as [|c r]; [contradiction|]. unfold stops, stop. intro H. rewrite !andb_true_iff, !negb_true_iff, !Z.eqb_neq in H. destruct H as (((_ & A) & B) & C).
  split; [unfold relocation|unfold offset]; zcases c; congruence.
Qed.
Lemma stops_letter r : stops r -> match r with c :: _ => letter c = false | [] => True end.
Proof. intro H. apply stops_alnum in H. destruct r as [|c r]; [trivial|]. unfold alnum in H. now apply orb_false_iff in H as [H _]. Qed.
Lemma named_relocation k n t l : t = 64 :: n -> forallb letter n = true -> match l with c :: _ => letter c = false | [] => True end ->
  (if text_eqb n (text "PLT") then Some PLT32 else if text_eqb n (text "GOTPCREL") then Some GOTPCREL else None) = Some k -> relocation (t ++ l) = Some (k, l).
Proof.
  intros -> A L K. cbn [app relocation]. rewrite span_all by assumption. destruct (text_eqb n (text "PLT")); [now injection K as <-|].
  destruct (text_eqb n (text "GOTPCREL")); [now injection K as <-|discriminate].
Qed.
Lemma expression_symbol name find a y s l : known name find -> small (a_disp a) -> sym_part name a y = Done s -> stops l ->
  expression find (s ++ l) = Some (Some (TSym (kind_of (a_type a)) y (a_disp a)), l) /\ exists c t, s = c :: t /\ symstart c = true.
Proof.
  intros K S0 E L. unfold sym_part in E. destruct (K y) as [N F]. unfold symbol_name in N. apply andb_true_iff in N as [N1 N2].
  destruct (name y) as [|c n] eqn:En; [discriminate|].
  assert (X : forall t, (match t ++ l with c :: _ => symchar c = false | [] => True end) ->
            obind (relocation (t ++ l)) (fun x => obind (offset (snd x)) (fun z => Some (fst x, fst z, snd z))) = Some (kind_of (a_type a), a_disp a, l) ->
            expression find ((c :: n) ++ t ++ l) = Some (Some (TSym (kind_of (a_type a)) y (a_disp a)), l)).
  { intros t T1 T2. unfold expression. cbn [app]. rewrite N1. rewrite app_comm_cons. rewrite span_all by assumption. rewrite F. cbn [obind].
    destruct (relocation (t ++ l)) as [[k r]|]; [|discriminate]. cbn [obind fst snd] in *. destruct (offset r) as [[z r']|]; [|discriminate].
    cbn [obind fst snd] in *. injection T2 as -> -> ->. reflexivity. }
  destruct (a_type a) eqn:Et; cbn [bind kind_of] in *.
  - injection E as <-. split; [|eexists _, _; split; [reflexivity|assumption]]. rewrite app_comm_cons, <- app_assoc. apply X.
    + destruct (Z.eqb_spec (a_disp a) 0); [now apply stops_symchar|]. destruct (0 <? a_disp a) eqn:E0; [reflexivity|].
      cbn [app]. unfold decimal. replace (a_disp a <? 0) with true by (symmetry; apply Z.ltb_lt; apply Z.ltb_ge in E0; lia). reflexivity.
    + destruct (stops_plain l L) as [P1 P2]. destruct (Z.eqb_spec (a_disp a) 0) as [->|D].
      * cbn [app]. rewrite P1. cbn [obind snd]. rewrite P2. reflexivity.
      * cbv iota. rewrite <- app_assoc. pose proof (offset_decimal _ l S0 D L) as O1.
        assert (R1 : forall x, relocation ((if 0 <? a_disp a then text "+" else []) ++ decimal (a_disp a) ++ x) = Some (PC32, (if 0 <? a_disp a then text "+" else []) ++ decimal (a_disp a) ++ x)).
        { intro x. destruct (0 <? a_disp a) eqn:E0; [reflexivity|]. cbn [app]. unfold decimal.
          replace (a_disp a <? 0) with true by (symmetry; apply Z.ltb_lt; apply Z.ltb_ge in E0; lia). reflexivity. }
        rewrite R1. cbn [obind snd]. rewrite O1. reflexivity.
  - destruct (Z.eqb_spec (a_disp a) 0) as [D|]; cbn [check bind] in E; [|discriminate]. injection E as <-. split; [|eexists _, _; split; [reflexivity|assumption]].
    rewrite app_comm_cons, <- app_assoc. apply X; [reflexivity|]. rewrite D. rewrite named_relocation with (k := GOTPCREL) (n := text "GOTPCREL") by (auto; now apply stops_letter).
    cbn [obind fst snd]. now rewrite (proj2 (stops_plain l L)).
  - destruct (Z.eqb_spec (a_disp a) 0) as [D|]; cbn [check bind] in E; [|discriminate]. injection E as <-. split; [|eexists _, _; split; [reflexivity|assumption]].
    rewrite app_comm_cons, <- app_assoc. apply X; [reflexivity|]. rewrite D. rewrite named_relocation with (k := PLT32) (n := text "PLT") by (auto; now apply stops_letter).
    cbn [obind fst snd]. now rewrite (proj2 (stops_plain l L)).
Qed.

Lemma int32_small d : int32 d = true -> small d.
Proof. unfold int32, small. rewrite andb_true_iff, !Z.leb_le. lia. Qed.
Lemma shown_base depth n : is_gp n = true -> shown depth (Reg 8 n) (R (n - 1) 8).
Proof. unfold is_gp. rewrite andb_true_iff, !Z.leb_le. intro. now apply shown_gp. Qed.
(* what is printed of an index *)
Definition index_part (depth x sc : Z) : res (list Z) := do t <- regname depth (Reg 8 x); Done (text "," ++ t ++ text "," ++ decimal sc).
Lemma scale_cases n : scale_ok n = true -> n = 0 \/ n = 1 \/ n = 2 \/ n = 4 \/ n = 8.
Proof. unfold scale_ok. rewrite !orb_true_iff, !Z.eqb_eq. tauto. Qed.
Lemma index_read depth x sc t l : is_gp x = true -> x <> SP -> scale_ok sc = true -> sc <> 0 -> index_part depth x sc = Done t ->
  index_of (t ++ 41 :: l) = Some (Some (x - 1, sc), 41 :: l) /\ exists t', t = 44 :: t'.
Proof.
  intros G N K Z0 E. unfold index_part in E. destruct (shown_base depth x G) as (s & E1 & H). rewrite E1 in E. cbn [bind] in E. injection E as <-.
  split; [|eexists; reflexivity]. change (text ",") with [44].
  cbn [app]. rewrite <- app_assoc. cbn [app index_of]. rewrite H by reflexivity. cbn [obind fst snd]. replace (x - 1 =? 4) with false by (symmetry; apply Z.eqb_neq; unfold SP in N; lia).
  apply scale_cases in K. destruct K as [->|[->|[->|[->| ->]]]]; [congruence|reflexivity..].
Qed.
Lemma base_read depth n s l : is_gp n = true -> regname depth (Reg 8 n) = Done s -> stops l -> base_of (s ++ l) = Some (Some (Named (R (n - 1) 8)), l) /\ exists t, s = 37 :: t.
Proof.
  intros G E L. destruct (shown_base depth n G) as (t & E1 & H). rewrite E1 in E. injection E as <-. split; [|eauto]. cbn [app base_of]. rewrite H by assumption. reflexivity.
Qed.
Lemma no_base t l : base_of (44 :: t ++ l) = Some (None, 44 :: t ++ l). Proof. reflexivity. Qed.
Lemma end_index l : index_of (41 :: l) = Some (None, 41 :: l). Proof. reflexivity. Qed.

Lemma done_inj A (x y : A) : Done x = Done y -> x = y. Proof. now intros [= H]. Qed.
Lemma operand_address name find loc e depth a p s l : known name find -> where_ loc e a = Some p -> odd_address a = false -> asm_address name depth a = Done s -> ends l ->
  operand find loc e (s ++ l) = Some (OMem p, l).
Proof.
  intros K W O E L. unfold odd_address in O. rewrite !orb_false_iff in O. destruct O as ((O1 & O2) & O3). apply negb_false_iff in O1.
  unfold asm_address in E. unfold where_ in W. pose proof (int32_small _ O1) as SM.
  destruct (a_sym a) as [y|].
  - fold (sym_part name a y) in E. destruct (sym_part name a y) as [t| | |] eqn:Et; try discriminate. cbn [bind] in E.
    apply negb_false_iff in O3. apply Z.eqb_eq in O3. rewrite O3 in *. change (IP =? 0) with false in *. change (IP =? IP) with true in *. cbn [negb orb andb] in *.
    destruct (a_index a =? 0) eqn:Ex; [|discriminate]. cbn [negb] in E. unfold regname in E. cbn [r_reg r_width] in E. change (IP =? IP) with true in E. cbn [check bind Z.eqb Pos.eqb] in E.
    destruct (a_scale a =? 0); cbn [check bind] in E; [|discriminate]. destruct (zlen _ <=? 255); [|discriminate]. apply done_inj in E. subst s.
    rewrite <- app_assoc. destruct (expression_symbol name find a y t (text "(" ++ text "%rip" ++ [] ++ text ")" ++ l) K SM Et ltac:(reflexivity)) as (X & c & t' & -> & C).
    replace ((text "(" ++ text "%rip" ++ [] ++ text ")") ++ l) with (text "(" ++ text "%rip" ++ [] ++ text ")" ++ l) by reflexivity.
    rewrite <- ?app_comm_cons in *. rewrite operand_memory by (intros ->; discriminate). unfold memory_operand. rewrite X. cbn [obind fst snd].
    destruct (a_type a); try discriminate; injection W as <-; reflexivity.
  - destruct ((if a_base a =? 0 then Some None else if is_gp (a_base a) then Some (Some (a_base a - 1)) else None)) as [b|] eqn:Eb; [|discriminate].
    destruct (if a_index a =? 0 then Some None else if is_gp (a_index a) && negb (a_index a =? SP) then Some (Some (a_index a - 1, if a_scale a =? 0 then 1 else a_scale a)) else None) as [x|] eqn:Ex; [|discriminate].
    rewrite O1 in W. cbn [andb] in W. destruct (scale_ok (a_scale a)) eqn:Sc; [|discriminate]. injection W as <-.
    (* the number *)
    assert (N : forall r, stops (r ++ l) -> (a_disp a = 0 -> exists q, r = 40 :: q) -> memory_operand find loc e (((if a_disp a =? 0 then [] else decimal (a_disp a)) ++ r) ++ l) = Some (OMem (At b x (a_disp a)), l) ->
                operand find loc e (((if a_disp a =? 0 then [] else decimal (a_disp a)) ++ r) ++ l) = Some (OMem (At b x (a_disp a)), l)).
    { intros r R Q <-. destruct (Z.eqb_spec (a_disp a) 0).
      - destruct (Q e0) as (q & ->). cbn [app]. apply operand_memory; discriminate.
      - destruct (decimal_head _ SM) as (c & t & -> & C). cbn [app]. apply operand_memory; intros ->; discriminate. }
    assert (P : forall q, obind (parenthesis (q ++ l)) (fun u => obind (place_at (a_disp a) (fst (fst u)) (snd (fst u))) (fun o => Some (o, snd u))) = Some (OMem (At b x (a_disp a)), l) ->
                (forall u, parenthesis (q ++ l) = Some u -> fst (fst u) <> Some Pointer) ->
                memory_operand find loc e (((if a_disp a =? 0 then [] else decimal (a_disp a)) ++ 40 :: q) ++ l) = Some (OMem (At b x (a_disp a)), l)).
    { intros q Q U. rewrite <- app_assoc. unfold memory_operand.
      assert (X : expression find ((if a_disp a =? 0 then [] else decimal (a_disp a)) ++ (40 :: q) ++ l) = Some (if a_disp a =? 0 then None else Some (TNum (a_disp a)), 40 :: q ++ l)).
      { destruct (a_disp a =? 0); [reflexivity|]. now apply expression_number. }
      rewrite X. cbn [obind snd fst]. destruct (parenthesis (q ++ l)) as [[[b' x'] r]|] eqn:Ep; [|discriminate]. cbn [obind fst snd] in *. specialize (U _ eq_refl). cbn [fst snd] in U.
      destruct (Z.eqb_spec (a_disp a) 0) as [D|]; unfold addressed; [rewrite D in Q|]; destruct b' as [[n0|]|]; try congruence; rewrite ?D; exact Q. }
    destruct (Z.eqb_spec (a_base a) 0) as [B|B]; cbn [negb bind] in E.
    + injection Eb as <-. destruct (Z.eqb_spec (a_index a) 0) as [I0|I0]; cbn [negb] in *.
      * destruct (a_scale a =? 0); cbn [check bind] in E; [|discriminate]. destruct (zlen _ <=? 255); [|discriminate]. apply done_inj in E. subst s. injection Ex as <-.
        cbn [andb] in O3. rewrite O3 in *. rewrite app_nil_r. unfold memory_operand in N. specialize (N []). rewrite app_nil_r in N. cbn [app] in N. apply N.
        { now apply ends_stops. } { intro H. rewrite H in O3. discriminate. }
        rewrite expression_number by (try assumption; now apply ends_stops). cbn [obind fst snd].
        unfold place_at. rewrite O1. cbn [obind]. destruct l as [|c l]; [contradiction|]. destruct L as [->| ->]; reflexivity.
      * assert (O2' : a_scale a <> 0) by (intro H; rewrite H in O2; discriminate).
        destruct (is_gp (a_index a)) eqn:G; [|discriminate]. destruct (Z.eqb_spec (a_index a) SP); [discriminate|]. cbn [andb negb] in Ex. injection Ex as <-.
        destruct (regname depth (Reg 8 (a_index a))) as [t| | |] eqn:Et; try discriminate. cbn [bind] in E. destruct (zlen _ <=? 255); [|discriminate]. apply done_inj in E. subst s.
        pose proof (index_read depth (a_index a) (a_scale a) (text "," ++ t ++ text "," ++ decimal (a_scale a)) l G n Sc O2') as X. unfold index_part in X. rewrite Et in X. specialize (X eq_refl).
        destruct X as [X _]. 
        assert (PP : parenthesis ((text "," ++ t ++ text "," ++ decimal (a_scale a) ++ text ")") ++ l) = Some (None, Some (a_index a - 1, a_scale a), l)).
        { unfold parenthesis. change (text ",") with [44] in *. change (text ")") with [41]. cbn [app]. rewrite <- !app_assoc in *. cbn [app base_of obind fst snd] in *. rewrite <- ?app_assoc in *. cbn [app] in *. rewrite X. reflexivity. }
        apply N; [reflexivity|intros; eexists; reflexivity|]. replace (a_scale a =? 0) with false in * by (symmetry; now apply Z.eqb_neq).
        apply (P (text "," ++ t ++ text "," ++ decimal (a_scale a) ++ text ")")); rewrite PP; [unfold place_at; cbn [obind fst snd]; rewrite O1; reflexivity|]. intros u [= <-]. discriminate.
    + destruct (is_gp (a_base a)) eqn:G0; [|discriminate]. injection Eb as <-. destruct (regname depth (Reg 8 (a_base a))) as [tb| | |] eqn:Etb; try discriminate. cbn [bind] in E.
      destruct (Z.eqb_spec (a_index a) 0) as [I0|I0]; cbn [negb] in *.
      * destruct (a_scale a =? 0); cbn [check bind] in E; [|discriminate]. destruct (zlen _ <=? 255); [|discriminate]. apply done_inj in E. subst s. injection Ex as <-.
        destruct (base_read depth (a_base a) tb (41 :: l) G0 Etb ltac:(reflexivity)) as [X _].
        assert (PP : parenthesis ((tb ++ text ")") ++ l) = Some (Some (Named (R (a_base a - 1) 8)), None, l)).
        { unfold parenthesis. rewrite <- app_assoc. change (text ")" ++ l) with (41 :: l). rewrite X. reflexivity. }
        apply N; [reflexivity|intros; eexists; reflexivity|].
        apply (P (tb ++ text ")")); rewrite PP; [unfold place_at; cbn [obind fst snd]; rewrite O1; reflexivity|]. intros u [= <-]. discriminate.
      * assert (O2' : a_scale a <> 0) by (intro H; rewrite H in O2; discriminate).
        destruct (is_gp (a_index a)) eqn:G; [|discriminate]. destruct (Z.eqb_spec (a_index a) SP); [discriminate|]. cbn [andb negb] in Ex. injection Ex as <-.
        destruct (regname depth (Reg 8 (a_index a))) as [t| | |] eqn:Et; try discriminate. cbn [bind] in E. destruct (zlen _ <=? 255); [|discriminate]. apply done_inj in E. subst s.
        pose proof (index_read depth (a_index a) (a_scale a) (text "," ++ t ++ text "," ++ decimal (a_scale a)) l G n Sc O2') as X. unfold index_part in X. rewrite Et in X. specialize (X eq_refl).
        destruct X as [X _].
        destruct (base_read depth (a_base a) tb ((text "," ++ t ++ text "," ++ decimal (a_scale a)) ++ 41 :: l) G0 Etb ltac:(reflexivity)) as [Y _].
        assert (PP : parenthesis ((tb ++ (text "," ++ t ++ text "," ++ decimal (a_scale a)) ++ text ")") ++ l) = Some (Some (Named (R (a_base a - 1) 8)), Some (a_index a - 1, a_scale a), l)).
        { unfold parenthesis. rewrite <- !app_assoc. change (text ")" ++ l) with (41 :: l). rewrite <- !app_assoc in X, Y. rewrite Y. cbn [obind snd fst]. rewrite X. reflexivity. }
        apply N; [reflexivity|intros; eexists; reflexivity|]. replace (a_scale a =? 0) with false in * by (symmetry; now apply Z.eqb_neq).
        apply (P (tb ++ (text "," ++ t ++ text "," ++ decimal (a_scale a)) ++ text ")")); rewrite PP; [unfold place_at; cbn [obind fst snd]; rewrite O1; reflexivity|]. intros u [= <-]. discriminate.
Qed.
Lemma operand_target name find loc e depth w a y s l : known name find -> a_sym a = Some y -> odd_target (Imm w (IAddr a)) = false -> asm_address name depth a = Done s -> ends l ->
  operand find loc e (s ++ l) = Some (OSym (kind_of (a_type a)) y (a_disp a), l).
Proof.
  intros K Y O E L. unfold odd_target in O. cbn [i_val] in O. rewrite !orb_false_iff, !negb_false_iff in O. destruct O as ((O1 & O2) & O3).
  unfold asm_address in E. rewrite Y, O2, O3 in E. fold (sym_part name a y) in E. destruct (sym_part name a y) as [t| | |] eqn:Et; try discriminate. cbn [bind negb] in E.
  destruct (a_scale a =? 0); cbn [check bind] in E; [|discriminate]. destruct (zlen _ <=? 255); [|discriminate]. apply done_inj in E. subst s. rewrite app_nil_r.
  destruct (expression_symbol name find a y t l K (int32_small _ O1) Et (ends_stops _ L)) as (X & c & t' & -> & C). rewrite <- app_comm_cons in *.
  rewrite operand_memory by (intros ->; discriminate). unfold memory_operand. rewrite X. cbn [obind fst snd]. destruct l as [|d l]; [contradiction|]. destruct L as [->| ->]; reflexivity.
Qed.

(* integers *)
Lemma signed_part_signed n q : signed_part (S n) q = signed (S n) q.
Proof.
  unfold signed_part, signed. replace (2 ^ (8 * Z.of_nat (S n))) with (256 ^ Z.of_nat (S n)) by (rewrite Z.pow_mul_r by lia; reflexivity).
  assert (E : exists m, 256 ^ Z.of_nat (S n) = 2 * m) by (exists (128 * 256 ^ Z.of_nat n); rewrite Nat2Z.inj_succ, Z.pow_succ_r by lia; lia).
  destruct E as (m & ->). rewrite (Z.mul_comm 2 m), Z.div_mul by lia. 
  destruct (Z.ltb_spec (q mod (m * 2)) m), (Z.ltb_spec (2 * (q mod (m * 2))) (m * 2)); lia.
Qed.
Lemma signed_range n q m : 256 ^ Z.of_nat n = 2 * m -> 0 < m -> - m <= signed n q < m.
Proof. unfold signed. intros -> M. pose proof (Z.mod_pos_bound q (2 * m)). destruct (Z.ltb_spec (2 * (q mod (2 * m))) (2 * m)); lia. Qed.
Lemma signed_signed n q : signed n (signed n q) = signed n q.
Proof.
  assert (M : 0 < 256 ^ Z.of_nat n) by (apply Z.pow_pos_nonneg; lia). unfold signed at 1 3. 
  assert (E : signed n q mod 256 ^ Z.of_nat n = q mod 256 ^ Z.of_nat n).
  { unfold signed. destruct (2 * (q mod 256 ^ Z.of_nat n) <? 256 ^ Z.of_nat n); [apply Z.mod_mod; lia|].
    rewrite <- (Z.mod_mod q) at 2 by lia. rewrite <- (Z.mod_add (q mod 256 ^ Z.of_nat n - 256 ^ Z.of_nat n) 1) by lia. f_equal. lia. }
  now rewrite E.
Qed.
Definition imm_value (w q : Z) : Z := signed (Z.to_nat w) q.
Lemma operand_integer name find loc e depth w q l : wide w = true -> stops l ->
  exists s, asm_immediate name depth (Imm w (IInt q)) = Done s /\ operand find loc e (s ++ l) = Some (OImm (imm_value w q), l).
Proof.
  intros W L. apply wide_cases in W. unfold asm_immediate. cbn [i_val i_width].
  assert (R : forall z, small z -> exists s, Done (text "$" ++ decimal z) = Done s /\ operand find loc e (s ++ l) = Some (OImm z, l)).
  { intros z S0. eexists. split; [reflexivity|]. change (text "$") with [36]. cbn [app]. now apply operand_number. }
  destruct W as [->|[->|[->| ->]]]; cbn [Z.ltb Z.compare Pos.compare Pos.compare_cont Z.eqb Pos.eqb]; rewrite signed_part_signed; unfold imm_value; apply R; unfold small.
  - change (Z.to_nat 1) with 1%nat. pose proof (signed_range 1 q 128 eq_refl ltac:(lia)). lia.
  - change (Z.to_nat 2) with 2%nat. pose proof (signed_range 2 q 32768 eq_refl ltac:(lia)). lia.
  - change (Z.to_nat 4) with 4%nat. pose proof (signed_range 4 q 2147483648 eq_refl ltac:(lia)). lia.
  - change (Z.to_nat 8) with 8%nat. pose proof (signed_range 8 q 9223372036854775808 eq_refl ltac:(lia)). lia.
Qed.
(* as an operand of w bytes *)
Lemma immediate_read w q long : wide w = true -> ((w =? 8) && negb long = true -> int32 (imm_value w q) = true) -> immediate_of w long (imm_value w q) = Some (Imv (imm_value w q)).
Proof.
  intros W C. unfold immediate_of, imm_value in *. rewrite signed_signed. 
  assert (B : (- 2 ^ (8 * w - 1) <=? signed (Z.to_nat w) q) && (signed (Z.to_nat w) q <? 2 ^ (8 * w)) = true).
  { apply wide_cases in W. apply andb_true_intro. rewrite Z.leb_le, Z.ltb_lt. destruct W as [->|[->|[->| ->]]].
    - change (Z.to_nat 1) with 1%nat. pose proof (signed_range 1 q 128 eq_refl ltac:(lia)). lia.
    - change (Z.to_nat 2) with 2%nat. pose proof (signed_range 2 q 32768 eq_refl ltac:(lia)). lia.
    - change (Z.to_nat 4) with 4%nat. pose proof (signed_range 4 q 2147483648 eq_refl ltac:(lia)). lia.
    - change (Z.to_nat 8) with 8%nat. pose proof (signed_range 8 q 9223372036854775808 eq_refl ltac:(lia)). lia. }
  rewrite B. destruct ((w =? 8) && negb long) eqn:E; [|reflexivity]. rewrite C by reflexivity. reflexivity.
Qed.
Lemma imm_value_int32 q : int32 q = true -> int32 (imm_value 8 q) = true.
Proof.
  intro H. replace (imm_value 8 q) with q; [assumption|]. unfold imm_value, signed. change (256 ^ Z.of_nat (Z.to_nat 8)) with 18446744073709551616.
  unfold int32 in H. apply andb_true_iff in H as [H1 H2]. apply Z.leb_le in H1, H2. destruct (Z.ltb_spec q 0).
  - replace (q mod 18446744073709551616) with (q + 18446744073709551616) by (rewrite <- (Z.mod_add q 1), Z.mod_small; lia).
    destruct (Z.ltb_spec (2 * (q + 18446744073709551616)) 18446744073709551616); lia.
  - rewrite Z.mod_small by lia. destruct (Z.ltb_spec (2 * q) 18446744073709551616); lia.
Qed.
