(* C26: the emitted instructions execute the control-flow graph. *)
From Coq Require Import List Bool Arith ZArith Lia.
From Verif Require Import CmpModel CmpProps LinearModel LinearSpec LinearProofs DfsProofs.
Import ListNotations.

Section Machine.
Variable St R : Type.
Variable rcmp : R -> R -> option comparison.
Variable zero : R.
(* Evaluating the operands of the condition of a block; for a scalar condition the second is not used. *)
Variable operands : nat -> St -> St * value R * value R.

(* The flags left by the comparison emitted for a block, compile.c:2218-2345 and 3250-3275. *)
Definition compare_of (g : lgraph) (b : nat) (s : St) : St * flags :=
  let '(s', l, r) := operands b s in
  (s', match test (g b) with
       | Comparison o k ld imm => snd (compile_compare R rcmp o k ld imm l r)
       | Scalar k => scalar_flags R rcmp zero k l
       end).
(* The operands have the types the condition says. *)
Definition typed (g : lgraph) : Prop := forall b s,
  let '(s', l, r) := operands b s in
  match test (g b) with Comparison o k _ _ => has_kind k l /\ has_kind k r | Scalar k => has_kind k l end.
(* The choice C prescribes: the condition holds, or compares unequal to zero. *)
Definition means (g : lgraph) (choose : nat -> St -> St * bool) : Prop := forall b s,
  let '(s', l, r) := operands b s in
  fst (choose b s) = s' /\
  (snd (choose b s) = true <->
   match test (g b) with
   | Comparison o _ _ _ => c_compare R rcmp o l r
   | Scalar _ => match l with VInt a => a <> 0%Z | VReal a => rcmp a zero <> Some Eq end
   end).

Lemma condition_fst : forall o k ld imm (l r : value R), has_kind k l -> has_kind k r ->
  fst (compile_compare R rcmp o k ld imm l r) = condition_of o k imm.
Proof.
  intros o k ld imm l r A B. destruct k, l, r; cbn in A, B; try contradiction; cbn [compile_compare condition_of]; try reflexivity;
    destruct (imm && (w <? 64)%Z); reflexivity.
Qed.
Lemma agree : mirrored R rcmp -> forall g choose, typed g -> means g choose ->
  forall b t u s, to0 (g b) = Some t -> to1 (g b) = Some u ->
  exists l, branch_instrs (test (g b)) t u = Some (map (jump_to t u) l) /\
            fst (compare_of g b s) = fst (choose b s) /\ take l (snd (compare_of g b s)) = snd (choose b s).
Proof.
  intros M g choose TY ME b t u s T0 T1. specialize (TY b s). specialize (ME b s). unfold compare_of.
  destruct (operands b s) as [[s' l] r]. destruct ME as [E ME]. cbn [fst snd].
  assert (BE : forall x y : bool, (x = true <-> y = true) -> x = y) by (intros [] [] X; try reflexivity; destruct X as [X1 X2]; [symmetry; auto|auto]).
  destruct (test (g b)) as [o k ld imm|k].
  - destruct TY as [A B]. destruct (compile_compare R rcmp o k ld imm l r) as [cc f] eqn:C.
    destruct (jumps_ok R rcmp M _ _ _ _ _ _ _ _ A B C) as (code & J & TK). exists code. cbn [branch_instrs].
    pose proof (condition_fst o k ld imm l r A B) as CF. rewrite C in CF. cbn [fst] in CF. rewrite <- CF, J. split; [reflexivity|].
    split; [symmetry; exact E|]. apply BE. cbn [snd]. rewrite TK, ME. reflexivity.
  - exists (scalar_jumps k). split; [reflexivity|]. split; [symmetry; exact E|]. apply BE. rewrite (scalar_ok R rcmp zero M k l TY), ME. reflexivity.
Qed.
End Machine.

(* A path in the graph. *)
Inductive leads_to (g : lgraph) : nat -> nat -> Prop :=
| leads_here : forall b, leads_to g b b
| leads_zero : forall b t c, leads_to g b t -> to0 (g t) = Some c -> leads_to g b c
| leads_one : forall b t c, leads_to g b t -> to1 (g t) = Some c -> leads_to g b c.

(* Executing the emitted instructions from the first one enters the same blocks in the same order in the same states as the
   graph, and returns with the same state if the graph does: everything the graph does the machine does, and conversely.  The
   machine never gets to the end of the code or to a label that is not there. *)
Theorem C26_execution : forall St body leave choose R rcmp zero operands g fuel entry code black,
  mirrored R rcmp -> typed St R operands g -> means St R rcmp zero operands g choose ->
  compile_block fuel g [] entry = Some (code, black) ->
  (forall n s f, exists k,
     fst (machine_run St body leave (compare_of St R rcmp zero operands g) code k code s f) = fst (graph_run St body leave choose g n entry s) /\
     (forall v, snd (graph_run St body leave choose g n entry s) = Some v ->
        snd (machine_run St body leave (compare_of St R rcmp zero operands g) code k code s f) = Halted v)) /\
  (forall k s f, exists n,
     (exists more, fst (graph_run St body leave choose g n entry s) =
                   fst (machine_run St body leave (compare_of St R rcmp zero operands g) code k code s f) ++ more) /\
     match snd (machine_run St body leave (compare_of St R rcmp zero operands g) code k code s f) with
     | Halted v => graph_run St body leave choose g n entry s =
         (fst (machine_run St body leave (compare_of St R rcmp zero operands g) code k code s f), Some v)
     | Running _ _ _ => True
     | Lost => False
     end).
Proof.
  intros until black. intros M TY ME C. pose proof (compile_ok g _ _ _ _ _ C) as OK.
  pose proof (agree St R rcmp zero operands M g choose TY ME) as AG. split.
  - intros n s f. destruct (follows_entry g St body leave choose _ code black entry OK AG n s f) as (k & Y & Z). exists k. split; [exact Y|].
    intros v V. rewrite V in Z. exact Z.
  - intros k s f. exact (machine_graph g St body leave choose _ code black entry OK AG k s f).
Qed.
Print Assumptions C26_execution.

(* Every block that can be reached is emitted exactly once, and no other.  The recursion ends on every finite graph, and no
   assertion fails. *)
Theorem C26_blocks : forall g entry, (forall b, to1 (g b) <> None -> to0 (g b) <> None) ->
  (forall fuel code black, compile_block fuel g [] entry = Some (code, black) ->
     NoDup (labels code) /\ forall b, In (Label b) code <-> leads_to g entry b) /\
  (forall n, entry < n -> (forall b t, b < n -> to0 (g b) = Some t \/ to1 (g b) = Some t -> t < n) ->
     exists fuel code black, compile_block fuel g [] entry = Some (code, black)).
Proof.
  intros g entry W. split.
  - intros fuel code black C. pose proof (compile_ok g _ _ _ _ _ C) as OK. split; [apply (ok_nodup _ _ _ _ _ OK)|].
    assert (IL : forall b, In (Label b) code <-> In b (labels code)).
    { intro b. clear. induction code as [|i code IH]; simpl; [tauto|]. destruct i; simpl; rewrite <- IH; intuition (try discriminate; try congruence). }
    assert (BL : forall b, In b black <-> In b (labels code)) by (intro b; rewrite (ok_black _ _ _ _ _ OK); simpl; tauto).
    intro b. rewrite IL. split.
    + intro I. apply (ok_path _ _ _ _ _ OK) in I.
      assert (G : forall x y, path (lsuccs g) x y -> forall a, leads_to g a x -> leads_to g a y).
      { induction 1 as [x|x y z I' _ IH]; intros a F; [exact F|]. apply IH. unfold lsuccs in I'. destruct (to0 (g x)) as [t|] eqn:J; [|contradiction].
        destruct (to1 (g x)) as [u|] eqn:K.
        - destruct I' as [<-|[<-|[]]]; [eapply leads_one|eapply leads_zero]; eassumption.
        - destruct I' as [<-|[]]. eapply leads_zero; eassumption. }
      apply (G _ _ I). apply leads_here.
    + induction 1 as [b|b t c L IH J|b t c L IH J].
      * destruct (ok_first _ _ _ _ _ OK) as (r & ->); [intros []|]. left. reflexivity.
      * specialize (IH C OK). apply BL. apply (ok_at _ _ _ _ _ OK _ IH). unfold lsuccs. rewrite J. destruct (to1 (g t)); [right; left|left]; reflexivity.
      * specialize (IH C OK). apply BL. apply (ok_at _ _ _ _ _ OK _ IH). unfold lsuccs. rewrite J. destruct (to0 (g t)) eqn:J0; [left; reflexivity|].
        exfalso. apply (W t); congruence.
  - intros n E CL. exists (S n). apply (compile_fuel g n W).
    + intros b c B I. unfold lsuccs in I. destruct (to0 (g b)) as [t|] eqn:J; [|contradiction].
      destruct (to1 (g b)) as [u|] eqn:K; [destruct I as [<-|[<-|[]]]|destruct I as [<-|[]]]; eapply CL; eauto.
    + exact E.
    + rewrite white_nil. lia.
Qed.
Print Assumptions C26_blocks.

(* s = 0; do { x: if (s == 3) break; s++; } while (s > t): a loop, a comparison of doubles and an unsigned one. *)
Definition a_graph : lgraph := fun b =>
  match b with
  | 0 => mk_lblk (Some 1) None (Scalar KReal)
  | 1 => mk_lblk (Some 2) (Some 3) (Comparison OEq KReal false false)
  | 2 => mk_lblk (Some 3) (Some 1) (Comparison OGt (KUnsigned 32) false true)
  | _ => mk_lblk None None (Scalar KReal)
  end.
Example C26_instance : compile_block 5 a_graph [] 0 = Some
  ([Label 0; Body 0; Label 1; Body 1; Compare 1; JumpCc CC_NE 2; JumpCc CC_P 2; Jump 3; Label 3; Body 3; Return 3;
    Label 2; Body 2; Compare 2; JumpCc CC_AE 3; Jump 1], [0; 1; 3; 2]).
Proof. reflexivity. Qed.
(* Running it: the state is a number; block 2 adds one; block 1 compares the state to 3, block 2 compares 10 to the state. *)
Definition ops (b : nat) (s : Z) : Z * value (option Z) * value (option Z) :=
  match b with
  | 1 => (s, VReal (Some s), VReal (Some 3%Z))
  | 2 => (s, VInt 10, VInt (Z.max 0 (Z.min s 1000)))
  | _ => (s, VReal (Some 0%Z), VReal None)
  end.
Example C26_run_instance : typed Z (option Z) ops a_graph /\ means Z (option Z) ocmp (Some 0%Z) ops a_graph
    (fun b s => (s, match b with 1 => Z.eqb s 3 | 2 => Z.ltb (Z.max 0 (Z.min s 1000)) 10 | _ => false end)) /\
  (let code := match compile_block 5 a_graph [] 0 with Some (c, _) => c | None => [] end in
   machine_run Z (fun b s => match b with 2 => (s + 1)%Z | _ => s end) (fun _ s => s)
     (compare_of Z (option Z) ocmp (Some 0%Z) ops a_graph) code 40 code 1%Z (mk_flags false false false false false) =
   ([(0, 1%Z); (1, 1%Z); (2, 1%Z); (1, 2%Z); (2, 2%Z); (1, 3%Z); (3, 3%Z)], Halted 3%Z)).
Proof.
  split; [|split].
  - intros b s. destruct b as [|[|[|b]]]; cbn; auto. lia.
  - intros b s. destruct b as [|[|[|b]]]; cbn [ops fst snd a_graph test]; (split; [reflexivity|]); cbn.
    + split; [discriminate|congruence].
    + rewrite Z.eqb_eq. split; [intros ->; reflexivity|]. intro H. injection H as H. apply Z.compare_eq. exact H.
    + rewrite Z.ltb_lt. lia.
    + split; [discriminate|congruence].
  - vm_compute. reflexivity.
Qed.
