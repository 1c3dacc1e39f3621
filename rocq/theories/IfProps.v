(* C06: #if expressions. *)
From Coq Require Import ZArith Lia Bool String List.
From Verif Require Import Bytes TokModel EscModel EscSpec TokenizeModel TokenizeSpec NumberModel NumberSpec IfModel IfSpec IfProofs IfSyntax.
Import ListNotations.
Open Scope Z_scope.

(* The full statement would be: for every e with Derives 12 e and val e = Some v,
   if_value ismacro er (toks e ++ nl :: rest) = IOk (negb (v =? 0)).  It is false (the theorems _refuted below).
   This is the part that holds: plain (IfSpec.v) leaves out the cases refuted below.  er is whatever the C library
   says about floating constants, nl is the token after the expression, not one that continues it. *)
Theorem C06_value_partial : forall ismacro er e nl rest, Derives 12 e -> plain ismacro e ->
  (forall o, tt nl <> bin_tok o) -> tt nl <> 63 ->
  exists v, val e = Some v /\ if_value ismacro er (toks e ++ nl :: rest) = IOk (negb (v =? 0)).
Proof. exact if_ok. Qed.
Print Assumptions C06_value_partial.

(* Evaluation ends for every list of tokens. *)
Theorem C06_terminates : forall ismacro er ts, if_value ismacro er ts <> IFuel.
Proof.
  intros m er ts. unfold if_value. destruct (ev_fuel m er (20 * length ts + 20) Cond ts ltac:(cbn [rank]; lia)) as [F _].
  destruct (ev m er (20 * length ts + 20) Cond ts); try discriminate. congruence.
Qed.
Print Assumptions C06_terminates.

(* An accepted line begins with an expression of the grammar: unbalanced parentheses, missing operands and
   the like are diagnosed. *)
Theorem C06_syntax : forall ismacro er ts b, if_value ismacro er ts = IOk b ->
  exists p rest, ts = p ++ rest /\ Str 12 p.
Proof. exact if_syntax. Qed.
Print Assumptions C06_syntax.

(* tokens of a line, as the tokeniser makes them *)
Definition lex (s : string) : list tok := match tokenize_line true (chars s) with Ok l => l | _ => [] end.
Definition nl : tok := mk_tok T_NEWLINE false false 0 [10] 0.
Definition no : list Z -> bool := fun _ => false.
Definition run (s : string) : ires bool := if_value no no (lex s ++ [nl]).
Definition at' (l : list tok) (n : nat) : tok := nth n l nl.

Lemma dec_leaf t v d ds : tt t = T_PREP_NUMBER -> spell t = d :: ds -> 49 <= d <= 57 -> Forall digit ds -> NumberSpec.value 10 (d :: ds) < 2 ^ 63 ->
  v = NumberSpec.value 10 (d :: ds) -> Leaf t false v.
Proof.
  intros H1 H2 H3 H4 H5 ->. pose proof (Leaf_number t Dec (d :: ds) (d :: ds) false 0 [] H1) as L. rewrite app_nil_r in L.
  specialize (L H2 (D_dec d ds H3 H4) S_none H5). cbn [radix orb] in L. rewrite (proj2 (Z.leb_gt _ _) H5) in L. exact L.
Qed.
Lemma zero_leaf t : tt t = T_PREP_NUMBER -> spell t = [48] -> Leaf t false 0.
Proof. intros H1 H2. exact (Leaf_number t Oct [48] [48] false 0 [] H1 H2 (D_oct [] (Forall_nil _)) S_none eq_refl). Qed.
Lemma zero_u_leaf t : tt t = T_PREP_NUMBER -> spell t = [48; 117] -> Leaf t true 0.
Proof. intros H1 H2. exact (Leaf_number t Oct [48] [48] true 0 [117] H1 H2 (D_oct [] (Forall_nil _)) (S_u 117 (or_introl eq_refl)) eq_refl). Qed.
Lemma one_u_leaf t : tt t = T_PREP_NUMBER -> spell t = [49; 117] -> Leaf t true 1.
Proof. intros H1 H2. refine (Leaf_number t Dec [49] [49] true 0 [117] H1 H2 (D_dec 49 [] _ (Forall_nil _)) (S_u 117 (or_introl eq_refl)) eq_refl). lia. Qed.

Ltac leaf := first [ apply zero_leaf; reflexivity | apply zero_u_leaf; reflexivity | apply one_u_leaf; reflexivity
  | eapply dec_leaf; [reflexivity|vm_compute; reflexivity|lia|repeat (apply Forall_cons; [unfold digit; lia|]); apply Forall_nil|reflexivity|reflexivity] ].
Ltac derives := repeat match goal with |- _ /\ _ => split end; first [reflexivity | leaf | cbn; lia].

(* Meets the hypotheses: (2 + 3 * 4 == 14) && 12 % 5 << 2 > 1 ? -1 : foo *)
Example C06_instance :
  let l := lex "(2 + 3 * 4 == 14) && 12 % 5 << 2 > 1 ? -1 : foo" in
  let L n v := ELeaf (at' l n) false v in
  let e := ECond (EBin LAnd (EParen (at' l 0) (EBin Equal (EBin Plus2 (L 1%nat 2) (at' l 2) (EBin Times (L 3%nat 3) (at' l 4) (L 5%nat 4))) (at' l 6) (L 7%nat 14)) (at' l 8))
      (at' l 9) (EBin Gt (EBin Lsh (EBin Rem (L 10%nat 12) (at' l 11) (L 12%nat 5)) (at' l 13) (L 14%nat 2)) (at' l 15) (L 16%nat 1)))
    (at' l 17) (EUn Minus (at' l 18) (L 19%nat 1)) (at' l 20) (L 21%nat 0) in
  toks e = l /\ Derives 12 e /\ plain no e /\ val e = Some (-1) /\ run "(2 + 3 * 4 == 14) && 12 % 5 << 2 > 1 ? -1 : foo" = IOk true.
Proof.
  intros l L e. split; [reflexivity|]. split; [|split; [|split; reflexivity]].
  - cbn [Derives e L level pred]. repeat match goal with |- _ /\ _ => split end; try lia; try reflexivity; try leaf.
    apply Leaf_ident. left. reflexivity.
  - cbn [plain e L]. unfold plain_leaf.
    repeat match goal with |- _ /\ _ => split end; try (vm_compute; discriminate); try exact I; try (intros; lia); try (intro X; discriminate X); try reflexivity.
    all: try (intros X; exfalso; apply X; reflexivity).
    all: try (intros _ _; split; [reflexivity|left; reflexivity]).
    all: cbn [Derives level pred]; repeat match goal with |- _ /\ _ => split end; try lia; try reflexivity; first [right; reflexivity|leaf].
Qed.

(* The second of two | is not read: 0 | 0 | 1 *)
Theorem C06_or_chain_refuted : exists e, Derives 12 e /\ val e = Some 1 /\ if_value no no (toks e ++ [nl]) = IOk false.
Proof.
  pose (l := lex "0 | 0 | 1").
  exists (EBin BOr (EBin BOr (ELeaf (at' l 0) false 0) (at' l 1) (ELeaf (at' l 2) false 0)) (at' l 3) (ELeaf (at' l 4) false 1)).
  split; [|split; reflexivity]. cbn [Derives level pred]. derives.
Qed.
Print Assumptions C06_or_chain_refuted.

(* == groups from the right: 2 == 1 == 0 *)
Theorem C06_eq_chain_refuted : exists e, Derives 12 e /\ val e = Some 1 /\ if_value no no (toks e ++ [nl]) = IOk false.
Proof.
  pose (l := lex "2 == 1 == 0").
  exists (EBin Equal (EBin Equal (ELeaf (at' l 0) false 2) (at' l 1) (ELeaf (at' l 2) false 1)) (at' l 3) (ELeaf (at' l 4) false 0)).
  split; [|split; reflexivity]. cbn [Derives level pred]. derives.
Qed.
Print Assumptions C06_eq_chain_refuted.

(* Operands that C does not evaluate are evaluated: 0 && 1 / 0 and 1 ? 1 : 1 / 0 *)
Theorem C06_short_circuit_refuted : exists e e', Derives 12 e /\ Derives 12 e' /\ val e = Some 0 /\ val e' = Some 1 /\
  if_value no no (toks e ++ [nl]) = IError /\ if_value no no (toks e' ++ [nl]) = IError.
Proof.
  pose (l := lex "0 && 1 / 0"). pose (l' := lex "1 ? 1 : 1 / 0").
  exists (EBin LAnd (ELeaf (at' l 0) false 0) (at' l 1) (EBin Quot (ELeaf (at' l 2) false 1) (at' l 3) (ELeaf (at' l 4) false 0))).
  exists (ECond (ELeaf (at' l' 0) false 1) (at' l' 1) (ELeaf (at' l' 2) false 1) (at' l' 3) (EBin Quot (ELeaf (at' l' 4) false 1) (at' l' 5) (ELeaf (at' l' 6) false 0))).
  split; [cbn [Derives level pred]; derives|]. split; [cbn [Derives level pred]; derives|]. vm_compute. auto.
Qed.
Print Assumptions C06_short_circuit_refuted.

(* ! keeps the type of its operand: - ! 0u < 0 *)
Theorem C06_not_type_refuted : exists e, Derives 12 e /\ val e = Some 1 /\ if_value no no (toks e ++ [nl]) = IOk false.
Proof.
  pose (l := lex "- ! 0u < 0").
  exists (EBin Lt (EUn Minus (at' l 0) (EUn Not (at' l 1) (ELeaf (at' l 2) true 0))) (at' l 3) (ELeaf (at' l 4) false 0)).
  split; [|split; reflexivity]. cbn [Derives level pred]. derives.
Qed.
Print Assumptions C06_not_type_refuted.

(* Shifts convert the left operand to the type of the right one: -1 >> 1u < 0 *)
Theorem C06_shift_type_refuted : exists e, Derives 12 e /\ val e = Some 1 /\ if_value no no (toks e ++ [nl]) = IOk false.
Proof.
  pose (l := lex "-1 >> 1u < 0").
  exists (EBin Lt (EBin Rsh (EUn Minus (at' l 0) (ELeaf (at' l 1) false 1)) (at' l 2) (ELeaf (at' l 3) true 1)) (at' l 4) (ELeaf (at' l 5) false 0)).
  split; [|split; reflexivity]. cbn [Derives level pred]. derives.
Qed.
Print Assumptions C06_shift_type_refuted.

(* Constants keep the signedness of their type outside #if: -1 < 0xFFFFFFFF *)
Theorem C06_constant_type_refuted : exists e, Derives 12 e /\ val e = Some 1 /\ if_value no no (toks e ++ [nl]) = IOk false.
Proof.
  pose (l := lex "-1 < 0xFFFFFFFF").
  exists (EBin Lt (EUn Minus (at' l 0) (ELeaf (at' l 1) false 1)) (at' l 2) (ELeaf (at' l 3) false 4294967295)).
  split; [|split; reflexivity]. cbn [Derives level pred]. split; [lia|]. split; [|split; [reflexivity|]].
  - derives.
  - refine (Leaf_number (at' l 3) Hex (chars "FFFFFFFF") (chars "0xFFFFFFFF") false 0 [] eq_refl eq_refl (D_hex 120 (chars "FFFFFFFF") _ _ _) S_none eq_refl).
    + auto.
    + cbn. repeat (apply Forall_cons; [unfold hex, digit; lia|]). apply Forall_nil.
    + discriminate.
Qed.
Print Assumptions C06_constant_type_refuted.

(* A keyword that is not in the table of expandable tokens is an error: _Bool *)
Theorem C06_keyword_refuted : exists e, Derives 12 e /\ val e = Some 0 /\ if_value no no (toks e ++ [nl]) = IError.
Proof.
  pose (l := lex "_Bool"). exists (ELeaf (at' l 0) false 0). split; [|split; reflexivity].
  cbn [Derives]. apply Leaf_ident. right. vm_compute. tauto.
Qed.
Print Assumptions C06_keyword_refuted.

(* A name that is left by macro expansion and is that of a macro (#define foo foo) fails an assertion. *)
Theorem C06_macro_name_refuted : exists e, Derives 12 e /\ val e = Some 0 /\ if_value (list_eqb (chars "foo")) no (toks e ++ [nl]) = IAssert.
Proof.
  pose (l := lex "foo"). exists (ELeaf (at' l 0) false 0). split; [|split; reflexivity].
  cbn [Derives]. apply Leaf_ident. left. reflexivity.
Qed.
Print Assumptions C06_macro_name_refuted.

(* Tokens after the expression are not diagnosed: 1 1 *)
Theorem C06_trailing_tokens_refuted : run "1 1" = IOk true /\ forall k e, Derives k e -> toks e <> lex "1 1".
Proof.
  split; [reflexivity|]. intros k e D E.
  assert (NE : forall e, toks e <> []) by (clear; destruct e; cbn [toks]; try discriminate; intro X; apply app_eq_nil in X as [_ X]; discriminate).
  assert (P1 : forall a t (b : list tok), toks a ++ t :: b = lex "1 1" -> b = []).
  { intros a t b X. specialize (NE a). destruct (toks a) as [|x [|y r]]; [congruence| |]; injection X; intros; subst; [auto|]. destruct r; discriminate. }
  destruct e as [t u v|l e r|o t e|o a t b|a q b c d]; cbn [toks] in E.
  - discriminate E.
  - cbn [Derives] in D. injection E as E1 _. destruct D as (D & _). rewrite E1 in D. discriminate D.
  - cbn [Derives] in D. injection E as E1 _. destruct D as (_ & D & _). rewrite E1 in D. destruct o; discriminate D.
  - apply P1 in E. exact (NE b E).
  - apply P1 in E. destruct (toks b); discriminate E.
Qed.
Print Assumptions C06_trailing_tokens_refuted.

(* The compiler itself divides LONG_MIN by -1. *)
Theorem C06_no_crash_refuted : exists s, run s = IUB.
Proof. exists "(-9223372036854775807 - 1) / -1"%string. reflexivity. Qed.
Print Assumptions C06_no_crash_refuted.

(* Accepted and rejected lines. *)
Example C06_syntax_instance : run "(1 + 2) * 3" = IOk true /\ run "(1 + 2" = IError /\ run "1 + * 2" = IError /\ run "1 ? 2" = IError.
Proof. vm_compute. repeat split. Qed.
