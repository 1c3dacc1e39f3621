(* C05: conditional groups. *)
From Coq Require Import ZArith Bool String List Lia.
From Verif Require Import Bytes TokModel EscModel TokenizeModel TokenizeSpec IfModel CondModel CondSpec CondProofs.
Import ListNotations.

(* For every properly nested file (and included files), whatever conditions, directives and text lines mean:
   the preprocessor finishes with output os and state e' exactly if the rules of C 6.10.1 give os and e', where
   of each condition in a skipped group it is required that its line can be read and macro expanded.  Missing to
   the full statement: C requires nothing of the condition of a skipped group; see the refutation below. *)
Theorem C05_groups_partial :
  forall Env Cnd Prep Name Dir Txt Out prepare value isdef exec emit (g : group Cnd Name Dir Txt) (e e' : Env) os,
  (exists fuel, pp Env Cnd Prep Name Dir Txt Out prepare value isdef
      (fun e d => match exec e d with Some (e1, inc) => Some (e1, flat inc) | None => None end) emit
      fuel [] e (flat g) [] = Done _ _ os e') <->
  Run Env Cnd Name Dir Txt Out (fun e c => match prepare e c with Some p => value e p | None => None end) isdef exec emit
    (fun e c => prepare e c <> None) e g os e'.
Proof. intros. apply run_iff. Qed.
Print Assumptions C05_groups_partial.

(* So the lines that are output are always those of C. *)
Theorem C05_selected_lines :
  forall Env Cnd Prep Name Dir Txt Out prepare value isdef exec emit (g : group Cnd Name Dir Txt) (e e' : Env) os fuel,
  pp Env Cnd Prep Name Dir Txt Out prepare value isdef
      (fun e d => match exec e d with Some (e1, inc) => Some (e1, flat inc) | None => None end) emit
      fuel [] e (flat g) [] = Done _ _ os e' ->
  Run Env Cnd Name Dir Txt Out (fun e c => match prepare e c with Some p => value e p | None => None end) isdef exec emit
    (fun _ _ => True) e g os e'.
Proof.
  intros until fuel. intro H. eapply (proj1 (run_weaken _ _ _ _ _ _ _ prepare value isdef exec emit (fun e c => prepare e c <> None) (fun _ _ => True) (fun _ _ _ => I))).
  apply run_iff. exists fuel. exact H.
Qed.
Print Assumptions C05_selected_lines.

(* The assertions on the stack of states hold for every sequence of lines, nested properly or not. *)
Theorem C05_no_assertion : forall Env Cnd Prep Name Dir Txt Out prepare value isdef exec emit fuel (e : Env) lines acc,
  pp Env Cnd Prep Name Dir Txt Out prepare value isdef exec emit fuel [] e lines acc <> AssertFails _ _.
Proof. intros. apply never_asserts. exact I. Qed.
Print Assumptions C05_no_assertion.

(* Conditions as lists of tokens, with the macros foo and bar; a #define is a name. *)
Definition words (s : string) : list tok := match tokenize_line false (chars s) with Ok l => l | _ => [] end.
Definition ismac (e : list string) (n : list Z) : bool := existsb (fun m => list_eqb n (chars m)) e.
Definition eval_if (e : list string) (ts : list tok) : option bool :=
  match if_value (ismac e) (fun _ => false) (ts ++ [mk_tok T_NEWLINE false false 0 [10%Z] 0%Z]) with IOk b => Some b | _ => None end.
Definition run (e : list string) (l : list (line (list tok) string string string)) : result (list string) string :=
  pp (list string) (list tok) (list tok) string string string string
    (fun e c => read_condition (ismac e) c) eval_if (fun e n => Some (existsb (String.eqb n) e))
    (fun e d => Some (d :: e, [])) (fun _ t => Some t) 100 [] e l [].

(* #if 0 / #if defined 3 / #endif / #endif / a is rejected: the condition in the skipped group is read. *)
Theorem C05_skipped_condition_refuted : exists g : group (list tok) string string string,
  run [] (flat g) = Err _ _ /\
  Run (list string) (list tok) string string string string
    (fun e c => match read_condition (ismac e) c with Some p => eval_if e p | None => None end) (fun e n => Some (existsb (String.eqb n) e))
    (fun e d => Some (d :: e, GNil)) (fun _ t => Some t) (fun _ _ => True) [] g ["a"%string] [].
Proof.
  exists (GSect (Tif (words "0")) (GSect (Tif (words "defined 3")) GNil AEnd GNil) AEnd (GText "a"%string GNil)).
  split; [vm_compute; reflexivity|]. eapply (RFalse _ _ _ _ _ _ _ _ _ _ _ _ _ _ _ _ [] _ ["a"%string]); [vm_compute; reflexivity| |apply RAEnd|].
  - cbn. tauto.
  - eapply RText; [reflexivity|]. apply RNil.
Qed.
Print Assumptions C05_skipped_condition_refuted.

(* A missing #endif is not diagnosed. *)
Lemma balanced {Cnd Name Dir Txt} (f : line Cnd Name Dir Txt -> Z) : (forall c, f (LIf c) = 1%Z) -> (forall n, f (LIfdef n) = 1%Z) -> (forall n, f (LIfndef n) = 1%Z) ->
  f LEndif = (-1)%Z -> (forall t, f (LText t) = 0%Z) -> (forall c, f (LElif c) = 0%Z) -> f LElse = 0%Z -> (forall d, f (LDir d) = 0%Z) -> f LNull = 0%Z ->
  (forall g : group Cnd Name Dir Txt, fold_right Z.add 0%Z (map f (flat g)) = 0%Z) /\
  (forall a : alts Cnd Name Dir Txt, fold_right Z.add 0%Z (map f (flat_alts a)) = (-1)%Z).
Proof.
  intros F1 F2 F3 F4 F5 F6 F7 F8 F9.
  assert (S : forall a b, fold_right Z.add 0%Z (map f (a ++ b)) = (fold_right Z.add 0%Z (map f a) + fold_right Z.add 0%Z (map f b))%Z).
  { induction a as [|x a IH]; intro b; [reflexivity|]. cbn [app map fold_right]. rewrite IH. lia. }
  assert (O : forall t, f (opener t) = 1%Z) by (intros [x|x|x]; cbn [opener]; auto).
  apply group_alts_ind.
  - reflexivity.
  - intros t r IH. rewrite flat_text. cbn [map fold_right]. rewrite F5, IH. reflexivity.
  - intros t r IH. rewrite flat_dir. cbn [map fold_right]. rewrite F8, IH. reflexivity.
  - intros r IH. rewrite flat_null. cbn [map fold_right]. rewrite F9, IH. reflexivity.
  - intros t b IHb a IHa r IHr. rewrite flat_sect. cbn [map fold_right]. rewrite !S, O, IHb, IHa, IHr. reflexivity.
  - rewrite flat_end. cbn [map fold_right]. rewrite F4. reflexivity.
  - intros b IH. rewrite flat_else. cbn [map fold_right]. rewrite S, F7, IH. cbn [map fold_right]. rewrite F4. reflexivity.
  - intros c b IHb m IHm. rewrite flat_elif. cbn [map fold_right]. rewrite S, F6, IHb, IHm. reflexivity.
Qed.
Theorem C05_unterminated_refuted : exists l : list (line (list tok) string string string),
  (forall g, l <> flat g) /\ run [] l = Done _ _ ["a"%string] [].
Proof.
  exists [LIf (words "1"); LText "a"%string]. split; [|vm_compute; reflexivity]. intros g E.
  set (f := fun l : line (list tok) string string string =>
    match l with LIf _ | LIfdef _ | LIfndef _ => 1%Z | LEndif => (-1)%Z | _ => 0%Z end).
  assert (B : fold_right Z.add 0%Z (map f (flat g)) = 0%Z) by (apply (balanced f); reflexivity).
  rewrite <- E in B. vm_compute in B. discriminate B.
Qed.
Print Assumptions C05_unterminated_refuted.

(* #ifdef foo / #if 1/0 / x / #endif / #elif !defined(foo) / #define foo / #ifndef foo / b / #else / c / #endif / #elif 1/0 / d / #else / e / #endif / f *)
Example C05_instance :
  let g := GSect (Tifdef "foo"%string) (GSect (Tif (words "1/0")) (GText "x"%string GNil) AEnd GNil)
    (AElif (words "!defined(foo)") (GDir "foo"%string (GSect (Tifndef "foo"%string) (GText "b"%string GNil) (AElse (GText "c"%string GNil)) GNil))
       (AElif (words "1/0") (GText "d"%string GNil) (AElse (GText "e"%string GNil)))) (GText "f"%string GNil) in
  List.length (flat g) = 17%nat /\ run [] (flat g) = Done _ _ ["c"; "f"]%string ["foo"]%string.
Proof. split; vm_compute; reflexivity. Qed.
