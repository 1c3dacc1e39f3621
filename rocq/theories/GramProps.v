(* C49: expressions are read as the grammar of C says *)
From Coq Require Import List ZArith Bool Lia.
From Verif Require Import GramModel GramSpec GramProofs.
From Verif Require CfgSyntax CfgSpec CfgProps.
Import ListNotations.

(* Declarations for the examples: names 0-19 are typedef names, 20-99 are variables, 100 is int f(int, int), 101 is int p(char *, ...),
   102 is int g(), 103 is h, a pointer to int (void); names from 110 on are not declared. *)
Definition names (x : nat) : cls := if Nat.ltb x 20 then Typedef else if Nat.ltb x 110 then Ordinary else Unknown.
Definition funs (e : tree) : option (nat * bool) :=
  match e with
  | Leaf (Id 100) => Some (2, false) | Leaf (Id 101) => Some (1, true) | Leaf (Id 102) | Leaf (Id 103) => Some (0, false)
  | Paren (Un Deref (Leaf (Id 103))) => Some (0, false)
  | _ => None
  end.
Lemma funs_named a n : funs a = Some (n, true) -> n <> 0.
Proof.
  unfold funs. intros H. repeat match type of H with match ?x with _ => _ end = _ => destruct x; try discriminate H end; injection H as <-; discriminate.
Qed.
Notation v x := (Leaf (Id x)).

(* Every expression of the grammar is accepted, all of its tokens are read, nothing behind them is, and the operations are made on
   the operands that the grammar gives them, up to the grouping of chains of && and of || (C49_grouping).  Partial: see plain
   (GramSpec.v) for what is asked besides, and C49_unprototyped_refuted and C49_literal_refuted for why. *)
Theorem C49_complete_partial class sig e rest :
  Derives class true 15 e -> plain sig e -> hd_is continues rest = false -> expression class sig (toks e ++ rest) = POk (norm e) rest.
Proof. exact (expression_complete class sig e rest). Qed.
Print Assumptions C49_complete_partial.
(* a = b + c * d[i]->x && ( * h)() || p(s, i++, -c) ? ( T * ) - f(a, (b, c)) : sizeof d << 2, & k *)
Definition example : tree :=
  Seq (Assign None (v 20)
        (Cond (Bin LOr (Bin LAnd (Bin Add (v 21) (Bin Mul (v 22) (Via (Index (v 23) (v 24)) 200))) (Call (Paren (Un Deref (v 103))) TNil))
                       (Call (v 101) (TCons (Leaf (Str 0)) (TCons (Post Inc (v 24)) (TCons (Un Neg (v 22)) TNil)))))
              (Cast (TN (Id 1) 1) (Un Neg (Call (v 100) (TCons (v 20) (TCons (Paren (Seq (v 21) (v 22))) TNil)))))
              (Bin Shl (SizeE (v 23)) (Leaf (Num 2)))))
      (Un Addr (v 25)).
Example C49_complete_ex :
  expression names funs
    [Id 20; P ASG; Id 21; P PLUS; Id 22; P STAR; Id 23; P LB; Id 24; P RB; P ARROW; Id 200; P AND2; P LP; P STAR; Id 103; P RP; P LP; P RP;
     P OR2; Id 101; P LP; Str 0; P COMMA; Id 24; P INCR; P COMMA; P MINUS; Id 22; P RP; P QUEST; P LP; Id 1; P STAR; P RP; P MINUS;
     Id 100; P LP; Id 20; P COMMA; P LP; Id 21; P COMMA; Id 22; P RP; P RP; P COLON; SIZEOF; Id 23; P LSHIFT; Num 2; P COMMA; P AMP; Id 25; End 0]
  = POk example [End 0].
Proof.
  refine (C49_complete_partial names funs example [End 0] _ _ _); [cbn; repeat split; try lia; discriminate| |reflexivity].
  cbn. repeat split; eexists; eexists; (split; [reflexivity|cbn; lia]).
Qed.

(* Whatever is accepted is spelled by a tree of the grammar, except that typedef names are accepted as operands and that the left
   operand of an assignment can be any conditional-expression (then eval_assign reports that it is no lvalue). *)
Theorem C49_sound class sig ts e q :
  (forall a n, sig a = Some (n, true) -> n <> 0) -> expression class sig ts = POk e q ->
  exists c, ts = toks c ++ q /\ norm c = e /\ Derives class false 15 c.
Proof. exact (expression_sound class sig ts e q). Qed.
Print Assumptions C49_sound.
(* a && b && c | d = e ; *)
Example C49_sound_ex : exists e, expression names funs [Id 20; P AND2; Id 21; P AND2; Id 22; P BAR; Id 23; P ASG; Id 24; End 0] = POk e [End 0]
  /\ e <> Leaf (Id 20).
Proof. eexists. split; [vm_compute; reflexivity|discriminate]. Qed.

(* Every input is accepted or refused. *)
Theorem C49_terminates class sig ts : (exists e q, expression class sig ts = POk e q) \/ expression class sig ts = PErr.
Proof. pose proof (expression_ends class sig ts) as H. destruct (expression class sig ts) as [e q| |]; [left; eauto|right; reflexivity|congruence]. Qed.
Print Assumptions C49_terminates.
Example C49_terminates_ex : expression names funs [P LP; P LP; P MINUS; Id 20; P RP; P PLUS] = PErr.
Proof. reflexivity. Qed.

(* The grammar gives each text one tree. *)
Theorem C49_unambiguous class sig e e' :
  Derives class true 15 e -> Derives class true 15 e' -> plain sig e -> plain sig e' -> toks e = toks e' -> norm e = norm e'.
Proof.
  intros D D' W W' T. pose proof (C49_complete_partial class sig e [] D W eq_refl) as A.
  pose proof (C49_complete_partial class sig e' [] D' W' eq_refl) as B. rewrite T in A. congruence.
Qed.
Print Assumptions C49_unambiguous.
Example C49_unambiguous_ex :
  let e := Bin LAnd (Bin LAnd (v 20) (v 21)) (v 22) in Derives names true 15 e /\ plain funs e /\ norm e = Bin LAnd (v 20) (Bin LAnd (v 21) (v 22)).
Proof. cbn. repeat split; lia. Qed.

(* Chains of && and of || are grouped to the right instead of to the left, and nothing else is changed; this does not matter (C49_same_meaning) *)
Theorem C49_grouping e : regroup e (norm e).
Proof. exact (proj1 norm_regroup e). Qed.
Print Assumptions C49_grouping.
Example C49_grouping_ex : norm (Bin LOr (Bin LOr (v 20) (Bin LAnd (Bin LAnd (v 21) (v 22)) (v 23))) (v 24))
  = Bin LOr (v 20) (Bin LOr (Bin LAnd (v 21) (Bin LAnd (v 22) (v 23))) (v 24)).
Proof. reflexivity. Qed.
(* Expressions of C that are not read as the grammar says.  6.5.2.2#6: a function declared without a prototype can be called with
   arguments.  g(x) is refused if g is declared as int g(). *)
Theorem C49_unprototyped_refuted : exists e, Derives names true 15 e /\ expression names funs (toks e ++ [End 0]) = PErr.
Proof. exists (Call (v 102) (TCons (v 20) TNil)). split; [cbn; repeat split|vm_compute; reflexivity]. Qed.
Print Assumptions C49_unprototyped_refuted.
(* 6.5.3: sizeof and ++ apply to a compound literal: sizeof (int) { 1 }, ++(int) { 1 } *)
Theorem C49_literal_refuted :
  (exists e, Derives names true 15 e /\ expression names funs (toks e ++ [End 0]) = POk (SizeT (TN (Ty 0) 0)) [Init 0; End 0])
  /\ exists e, Derives names true 15 e /\ expression names funs (toks e ++ [End 0]) = PErr.
Proof.
  split.
  - exists (SizeE (Lit (TN (Ty 0) 0) 0)). split; [cbn; repeat split; lia|vm_compute; reflexivity].
  - exists (Pre Inc (Lit (TN (Ty 0) 0) 0)). split; [cbn; repeat split; lia|vm_compute; reflexivity].
Qed.
Print Assumptions C49_literal_refuted.
(* The other way round: T + 1 with a typedef name T is accepted, though no expression of C is spelled like this. *)
Theorem C49_typedef_operand_refuted : exists ts e, expression names funs ts = POk e [End 0]
  /\ forall c, Derives names true 15 c -> ts <> toks c ++ [End 0].
Proof.
  exists [Id 1; P PLUS; Num 1; End 0], (Bin Add (v 1) (Leaf (Num 1))). split; [vm_compute; reflexivity|]. intros c D E.
  destruct (first names c 15 D) as (t & q & F & O). rewrite F in E. injection E as <- _. discriminate O.
Qed.
Print Assumptions C49_typedef_operand_refuted.

(* With chains of && or || grouped to the right the same effects are made in the same order, and the value is the same. *)
Import CfgSyntax CfgSpec CfgProps.
Theorem C49_same_meaning L (late : expr L -> bool) : lawful L -> forall a b c m,
  sem late (EAnd (EAnd a b) c) m = sem late (EAnd a (EAnd b c)) m /\ sem late (EOr (EOr a b) c) m = sem late (EOr a (EOr b c)) m.
Proof.
  intros (_ & _ & _ & _ & T) a b c m. cbn [sem].
  destruct (sem late a m) as [[t1 m1] r1].
  destruct (truth L (rvalue r1 m1)) eqn:E1; destruct (sem late b m1) as [[t2 m2] r2];
    cbn [rvalue]; rewrite ?T; destruct (truth L (rvalue r2 m2)) eqn:E2;
    try destruct (sem late c m2) as [[t3 m3] r3]; cbn [rvalue]; rewrite ?T, ?app_assoc; split; reflexivity.
Qed.
Print Assumptions C49_same_meaning.
Example C49_same_meaning_ex :     (* x = 1 && 2 && 3, with assignments as operands *)
  let e x := EAssign (L := ints) x (EConst (L := ints) 1%Z) in
  lawful ints /\ value_of (L:=ints) (fun _ => false) (EAnd (EAnd (e 1%Z) (e 2%Z)) (e 3%Z)) (fun _ => 0%Z)
  = value_of (L:=ints) (fun _ => false) (EAnd (e 1%Z) (EAnd (e 2%Z) (e 3%Z))) (fun _ => 0%Z).
Proof.
  cbv zeta. split; [exact ints_lawful|]. unfold value_of. rewrite (proj1 (C49_same_meaning ints (fun _ => false) ints_lawful _ _ _ _)). reflexivity.
Qed.

