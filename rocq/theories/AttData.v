(* Lines of data are read as the bytes they are made from. *)
From Coq Require Import String ZArith Bool Lia List.
From Verif Require Import Bytes EncModel EncSpec EscModel ArgsModel AttModel AttSpec AttProofs AttDataSpec.
Import ListNotations.
Open Scope Z_scope.
Notation span := AttSpec.span.

Lemma le_bytes_mod n a b : a mod 256 ^ Z.of_nat n = b mod 256 ^ Z.of_nat n -> le_bytes n a = le_bytes n b.
Proof. intro H. apply le_val_inj; [apply le_bytes_is_byte..|now rewrite !le_bytes_length|now rewrite !le_val_bytes]. Qed.
Lemma signed_mod n q : signed n q mod 256 ^ Z.of_nat n = q mod 256 ^ Z.of_nat n.
Proof.
  assert (M : 0 < 256 ^ Z.of_nat n) by (apply Z.pow_pos_nonneg; lia). unfold signed. destruct (2 * (q mod 256 ^ Z.of_nat n) <? 256 ^ Z.of_nat n); [apply Z.mod_mod; lia|].
  rewrite <- (Z.mod_mod q) at 2 by lia. rewrite <- (Z.mod_add (q mod 256 ^ Z.of_nat n - 256 ^ Z.of_nat n) 1) by lia. f_equal. lia.
Qed.
Lemma signed_in n q : (n = 1 \/ n = 2 \/ n = 4 \/ n = 8)%nat -> in_bytes n (signed n q) = true /\ small (signed n q).
Proof.
  unfold in_bytes, small. rewrite andb_true_iff, Z.leb_le, Z.ltb_lt. intros [->|[->|[->| ->]]].
  - pose proof (signed_range 1 q 128 eq_refl ltac:(lia)). lia.
  - pose proof (signed_range 2 q 32768 eq_refl ltac:(lia)). lia.
  - pose proof (signed_range 4 q 2147483648 eq_refl ltac:(lia)). lia.
  - pose proof (signed_range 8 q 9223372036854775808 eq_refl ltac:(lia)). lia.
Qed.

Section Data.
Variables (name : Z -> list Z) (find : list Z -> option Z).
Hypothesis K : known name find.

Lemma value_number n q r : (n = 1 \/ n = 2 \/ n = 4 \/ n = 8)%nat -> stops r -> value_items find n (decimal (signed_part n q) ++ r) = Some (map Byte (le_bytes n q), r).
Proof.
  intros N R. replace (signed_part n q) with (signed n q) by (destruct n; [lia|symmetry; apply signed_part_signed]). destruct (signed_in n q N) as [A B].
  unfold value_items. rewrite expression_number by assumption. cbn [obind fst snd]. unfold integer_bytes. rewrite A. cbn [obind]. now rewrite (le_bytes_mod n _ q (signed_mod n q)).
Qed.
Lemma line_any d x r : d <> [] -> forallb symchar d = true -> (exists c t, x = c :: t /\ blank c = false) ->
  data_line find (directive d x ++ r) =
  obind (match lookup d [(text ".byte", 1%nat); (text ".short", 2%nat); (text ".int", 4%nat); (text ".quad", 8%nat)] with
         | Some k => value_items find k (x ++ 10 :: r)
         | None => if text_eqb d (text ".ascii") then string_items [] (x ++ 10 :: r) else if text_eqb d (text ".string") then string_items [0] (x ++ 10 :: r) else None
         end)
  (fun x => match skip (snd x) with 10 :: r => Some (fst x, r) | _ => None end).
Proof.
  intros N D (c & t & -> & B). unfold data_line, directive. cbn [app]. rewrite <- !app_assoc. cbn [app]. rewrite <- app_assoc.
  destruct d as [|d0 d]; [congruence|]. assert (B0 : blank d0 = false).
  { cbn [forallb] in D. apply andb_true_iff in D as [D _]. unfold blank. destruct (Z.eqb_spec d0 32) as [->|]; [discriminate|]. destruct (Z.eqb_spec d0 9) as [->|]; [discriminate|reflexivity]. }
  assert (S1 : forall b c l, blank b = true -> blank c = false -> skip (b :: c :: l) = c :: l) by (intros b c0 l X Y; unfold skip; cbn [AttSpec.span]; rewrite X, Y; reflexivity).
  cbn [app]. rewrite S1 by (reflexivity || assumption). rewrite app_comm_cons. rewrite (span_all symchar (d0 :: d) (9 :: c :: t ++ 10 :: r) D ltac:(reflexivity)).
  rewrite S1 by (reflexivity || assumption). reflexivity.
Qed.
Lemma line_value d n x it r : forallb symchar d = true -> lookup d [(text ".byte", 1%nat); (text ".short", 2%nat); (text ".int", 4%nat); (text ".quad", 8%nat)] = Some n ->
  (exists c t, x = c :: t /\ blank c = false) -> value_items find n (x ++ 10 :: r) = Some (it, 10 :: r) -> data_line find (directive d x ++ r) = Some (it, r).
Proof. intros D L B V. rewrite line_any; [rewrite L, V; reflexivity|intros ->; discriminate|assumption..]. Qed.
Lemma decimal_start z : small z -> exists c t, decimal z = c :: t /\ blank c = false.
Proof.
  intro H. destruct (decimal_head z H) as (c & t & E & D). exists c, t. split; [exact E|]. unfold blank. destruct (Z.eqb_spec c 32) as [->|]; [discriminate|]. destruct (Z.eqb_spec c 9) as [->|]; [discriminate|reflexivity].
Qed.
Lemma line_number d n q r : forallb symchar d = true -> lookup d [(text ".byte", 1%nat); (text ".short", 2%nat); (text ".int", 4%nat); (text ".quad", 8%nat)] = Some n ->
  (n = 1 \/ n = 2 \/ n = 4 \/ n = 8)%nat -> data_line find (directive d (decimal (signed_part n q)) ++ r) = Some (map Byte (le_bytes n q), r).
Proof.
  intros D L N. apply line_value with (n := n); [assumption..| |apply value_number; [exact N|reflexivity]].
  apply decimal_start. replace (signed_part n q) with (signed n q) by (destruct n; [lia|symmetry; apply signed_part_signed]). now apply signed_in.
Qed.

(* strings *)
Lemma chars_read : Forall (fun c => forall r, string_body (printchar c ++ r) = obind (string_body r) (fun y => Some (c :: fst y, snd y))) (map Z.of_nat (seq 0 256)).
Proof. cbn [seq map]. repeat (constructor; [intro r; reflexivity|]). constructor. Qed.
Lemma char_read c r : between 0 c 255 = true -> string_body (printchar c ++ r) = obind (string_body r) (fun y => Some (c :: fst y, snd y)).
Proof.
  unfold between. rewrite andb_true_iff, !Z.leb_le. intro H. pose proof chars_read as F. rewrite Forall_forall in F. apply F. rewrite <- (Z2Nat.id c) by lia. apply in_map, in_seq. lia.
Qed.
Lemma body_read s r : forallb (fun c => between 0 c 255) s = true -> string_body (flat_map printchar s ++ 34 :: r) = Some (s, r).
Proof.
  induction s as [|c s IH]; intro H; [reflexivity|]. cbn [forallb] in H. apply andb_true_iff in H as [H1 H2]. cbn [flat_map]. rewrite <- app_assoc, char_read, IH by assumption. reflexivity.
Qed.
Lemma line_string d s tail r : (d, tail) = (text ".ascii", []) \/ (d, tail) = (text ".string", [0]) -> forallb (fun c => between 0 c 255) s = true ->
  data_line find (directive d (fprintstr s) ++ r) = Some (map Byte (s ++ tail), r).
Proof.
  intros D H.
  assert (E : string_items tail (fprintstr s ++ 10 :: r) = Some (map Byte (s ++ tail), 10 :: r)).
  { unfold fprintstr, QUOTE. cbn [app string_items]. rewrite <- app_assoc. cbn [app]. rewrite body_read by assumption. reflexivity. }
  assert (B : exists c t, fprintstr s = c :: t /\ blank c = false) by (unfold fprintstr, QUOTE; eexists _, _; split; reflexivity).
  destruct D as [[= -> ->]|[= -> ->]]; (rewrite line_any; [|discriminate|reflexivity|exact B]).
  - change (lookup (text ".ascii") _) with (@None nat). change (text_eqb (text ".ascii") (text ".ascii")) with true. cbv iota. rewrite E. reflexivity.
  - change (lookup (text ".string") _) with (@None nat). change (text_eqb (text ".string") (text ".ascii")) with false. change (text_eqb (text ".string") (text ".string")) with true. cbv iota. rewrite E. reflexivity.
Qed.

(* lines *)
Lemma one_line l it : l <> [] -> data_line find l = Some (it, []) -> read_data find l = Some it.
Proof. intros N H. unfold read_data. destruct l as [|c l]; [congruence|]. cbn [List.length data_lines]. rewrite H. cbn [obind snd fst]. destruct (List.length l); cbn [data_lines obind]; now rewrite app_nil_r. Qed.
Lemma byte_lines q : forall n k f, (n <= f)%nat ->
  data_lines find f (concat (map (fun i => directive (text ".byte") (decimal (signed_part 1 (Z.shiftr q (8 * Z.of_nat i))))) (seq k n))) = Some (map Byte (le_bytes n (Z.shiftr q (8 * Z.of_nat k)))).
Proof.
  induction n as [|n IH]; intros k f F; [destruct f; reflexivity|]. destruct f as [|f]; [lia|]. cbn [seq map concat].
  assert (D : exists c t, directive (text ".byte") (decimal (signed_part 1 (Z.shiftr q (8 * Z.of_nat k)))) = c :: t) by (eexists _, _; reflexivity).
  cbn [data_lines]. rewrite (line_number (text ".byte") 1 (Z.shiftr q (8 * Z.of_nat k))) by (auto; reflexivity). destruct D as (c & t & ->). cbn [app obind fst snd].
  rewrite IH by lia. cbn [obind le_bytes map app]. do 3 f_equal. f_equal. rewrite <- Z.shiftr_div_pow2 with (n := 8) by lia. rewrite Z.shiftr_shiftr by lia. f_equal. lia.
Qed.
Lemma lines_length q n : forall k, (n <= List.length (concat (map (fun i => directive (text ".byte") (decimal (signed_part 1 (Z.shiftr q (8 * Z.of_nat i))))) (seq k n))))%nat.
Proof. induction n as [|n IH]; intro k; [cbn; lia|]. cbn [seq map concat]. rewrite app_length. unfold directive at 1. cbn [app List.length]. specialize (IH (S k)). lia. Qed.
Theorem data_ok d l : asm_data name d = Done l -> regular d = true -> read_data find l = Some (stands_for d).
Proof.
  destruct d as [w q|a|w s]; unfold asm_data; intros E R.
  - assert (N : forall d x, directive d x <> []) by discriminate.
    assert (G : forall d n, w = Z.of_nat n -> forallb symchar d = true -> lookup d [(text ".byte", 1%nat); (text ".short", 2%nat); (text ".int", 4%nat); (text ".quad", 8%nat)] = Some n ->
       (n = 1 \/ n = 2 \/ n = 4 \/ n = 8)%nat -> Done (directive d (decimal (signed_part n q))) = Done l -> read_data find l = Some (stands_for (DInt w q))).
    { intros d n -> A B C H. apply done_inj in H. subst l. apply one_line; [apply N|]. cbn [stands_for]. rewrite Nat2Z.id. rewrite <- (app_nil_r (directive _ _)). now apply line_number. }
    destruct (Z.eqb_spec w 1) as [->|]; [apply (G (text ".byte") 1%nat); auto|]. destruct (Z.eqb_spec w 2) as [->|]; [apply (G (text ".short") 2%nat); auto|].
    destruct (Z.eqb_spec w 4) as [->|]; [apply (G (text ".int") 4%nat); auto|]. destruct (Z.eqb_spec w 8) as [->|]; [apply (G (text ".quad") 8%nat); auto|].
    destruct (check _) eqn:C; try discriminate. cbn [bind] in E. apply done_inj in E. subst l. unfold read_data.
    replace (stands_for (DInt w q)) with (map Byte (le_bytes (Z.to_nat w) (Z.shiftr q (8 * Z.of_nat 0)))) by (cbn [Z.of_nat Z.mul]; rewrite Z.shiftr_0_r; reflexivity).
    apply byte_lines, lines_length.
  - cbn [regular] in R. destruct (a_sym a) as [y|] eqn:Y; [|discriminate]. apply done_inj in E. subst l. apply one_line; [discriminate|]. rewrite <- (app_nil_r (directive _ _)).
    set (x := name y ++ _). cbn [stands_for]. rewrite Y.
    assert (S0 : sym_part name (Addr ADDR_NORMAL (Some y) (a_disp a) 0 0 0) y = Done x).
    { unfold sym_part. cbn [a_type a_disp bind]. unfold x. destruct (Z.eqb_spec (a_disp a) 0); [reflexivity|]. replace (0 <? a_disp a) with (negb (a_disp a <? 0)); [destruct (a_disp a <? 0); reflexivity|].
      destruct (Z.ltb_spec (a_disp a) 0), (Z.ltb_spec 0 (a_disp a)); try reflexivity; lia. }
    destruct (expression_symbol name find (Addr ADDR_NORMAL (Some y) (a_disp a) 0 0 0) y x [10] K (int32_small _ R) S0 ltac:(reflexivity)) as (X & c & t & Ex & C). cbn [a_type a_disp kind_of] in X.
    apply line_value with (n := 8%nat); [reflexivity|reflexivity| |].
    + exists c, t. split; [exact Ex|]. unfold blank. destruct (Z.eqb_spec c 32) as [->|]; [discriminate|]. destruct (Z.eqb_spec c 9) as [->|]; [discriminate|reflexivity].
    + unfold value_items. rewrite X. reflexivity.
  - cbn [regular] in R. cbn [stands_for]. destruct (Z.eqb_spec w (zlen s)).
    + apply done_inj in E. subst l. apply one_line; [discriminate|]. rewrite <- (app_nil_r (directive _ _)). apply line_string; [now left|assumption].
    + destruct (check _); try discriminate. cbn [bind] in E. apply done_inj in E. subst l. apply one_line; [discriminate|]. rewrite <- (app_nil_r (directive _ _)). apply line_string; [now right|assumption].
Qed.
End Data.
