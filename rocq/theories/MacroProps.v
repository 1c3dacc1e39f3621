(* C11 and C12. *)
From Coq Require Import String List ZArith Bool Lia.
From Verif Require Import Bytes EscModel TokModel TokenizeModel TokenizeSpec MacroModel MacroSpec MacroTableProofs MacroProofs.
Import ListNotations.
Open Scope Z_scope.

(* Source text to tokens, for the examples. *)
Definition toks (s : string) : list tok :=
  match tokenize_line true (chars s) with Ok l => l | _ => [] end.
Definition macro_text (s : string) : macro :=
  match preprocess_define (toks s ++ [punct_tok T_NEWLINE 0]) with
  | MOk m => m | _ => mk_macro [] false 0 false [] end.
Definition table_text (ls : list string) : table := map macro_text ls.
Definition expand_text (tb : table) (s : string) (fuel : nat) := expand true (find tb) fuel (toks s).

(* ---- C11 ---- *)

(* After any accepted history a name is a macro exactly if the last directive about it
   was #define, and its definition is that one. *)
Theorem C11_history : forall ops tb n r, ops_ok ops -> run ops [] = MOk tb -> last_def ops n r ->
  match find tb n, r with
  | Some m, Some d => same_macro m d
  | None, None => True
  | _, _ => False
  end.
Proof. intros ops tb n r W R L. exact (history ops n r L W tb R). Qed.
Print Assumptions C11_history.

(* A history is accepted exactly if every #define of a name that is a macro repeats its definition
   (name, kind, number of parameters, replacement tokens). *)
Theorem C11_accepted : forall ops, ops_ok ops ->
  ((exists tb, run ops [] = MOk tb) <->
   forall a m b old, ops = a ++ Define m :: b -> last_def a (m_name m) (Some old) -> same_macro old m).
Proof. exact accepted. Qed.
Print Assumptions C11_accepted.

(* A #define line gives a macro, and repeating a definition in the sense of C is accepted. *)
Theorem C11_same_definition : forall d e, wf_defn d -> wf_defn e -> same_in_c d e ->
  exists m m', preprocess_define (def_line d) = MOk m /\ preprocess_define (def_line e) = MOk m' /\ same_macro m m'.
Proof.
  intros d e D E S. exists (macro_of d), (macro_of e).
  split; [apply preprocess_define_ok; exact D|]. split; [apply preprocess_define_ok; exact E|].
  apply same_accepted; assumption.
Qed.
Print Assumptions C11_same_definition.

(* The macro of a #define line: its parameters, numbered, in the replacement list. *)
Theorem C11_define_line : forall d, wf_defn d -> exists m, preprocess_define (def_line d) = MOk m /\
  m_name m = spell (d_name d) /\
  (d_params d = None -> m_func m = false /\ m_repl m = d_body d) /\
  (forall ps va, d_params d = Some (ps, va) ->
     m_func m = true /\ m_vararg m = va /\ m_params m = Z.of_nat (length ps) + (if va : bool then 1 else 0) /\
     List.length (m_repl m) = List.length (d_body d)).
Proof.
  intros d W. exists (macro_of d). split; [apply preprocess_define_ok; exact W|].
  unfold macro_of. destruct (d_params d) as [[ps va]|] eqn:P; cbn.
  - split; [reflexivity|]. split; [intro X; discriminate X|]. intros p v E. inversion E; subst.
    split; [reflexivity|]. split; [reflexivity|]. split.
    + rewrite app_length. destruct v; simpl; lia.
    + apply map_length.
  - split; [reflexivity|]. split; [auto|]. intros p v X. discriminate X.
Qed.
Print Assumptions C11_define_line.

(* #define f(x) x+1   #undef f   #define f 2   #define f 2 : accepted, f is 2. *)
Example C11_instance :
  let f1 := macro_text "f(x) x+1" in let f2 := macro_text "f 2" in
  match run [Define f1; Undef (chars "f"); Define f2; Define f2] [] with
  | MOk tb => find tb (chars "f") = Some f2
  | _ => False
  end /\ run [Define f1; Define f2] [] = MError.
Proof. vm_compute. split; reflexivity. Qed.

Definition id_tok (s : string) (w : Z) : tok := mk_tok T_IDENTIFIER true false w (chars s) 0.
(* f(x,...) x : the line of a definition *)
Example C11_line_instance :
  let d := mk_defn (id_tok "f" 1) (Some ([id_tok "x" 0], true)) [id_tok "x" 1] in
  wf_defn d /\ same_in_c d d /\ preprocess_define (def_line d) = MOk (mk_macro (chars "f") true 2 true [param_tok 0]).
Proof.
  cbv zeta. assert (I : forall s w, ident (id_tok s w)) by (intros; unfold ident; cbn; repeat split; discriminate).
  split; [|split].
  - split; [apply I|]. split; [intros ps va E; inversion E; repeat constructor; discriminate|].
    split; [discriminate|]. repeat constructor; discriminate.
  - split; [split; reflexivity|]. split; [split; [repeat constructor|reflexivity]|].
    split; repeat constructor.
  - vm_compute. reflexivity.
Qed.

(* The other direction is false: definitions that differ for C are taken as the same. *)
Definition d_space1 := mk_defn (id_tok "A" 1) None [id_tok "x" 1; mk_tok 43 false false 0 [43] 0].
Definition d_space2 := mk_defn (id_tok "A" 1) None [id_tok "x" 1; mk_tok 43 false false 1 [43] 0].
Definition d_param1 := mk_defn (id_tok "f" 1) (Some ([id_tok "x" 0], false)) [id_tok "x" 1].
Definition d_param2 := mk_defn (id_tok "f" 1) (Some ([id_tok "y" 0], false)) [id_tok "y" 1].
Definition d_va := mk_defn (id_tok "f" 1) (Some ([], true)) [id_tok "__VA_ARGS__" 1].
Lemma ident_id : forall s w, ident (id_tok s w).
Proof. intros. unfold ident; cbn; repeat split; discriminate. Qed.
Ltac wf_line := split; [apply ident_id|]; split;
  [let E := fresh in intros ? ? E; inversion E; repeat constructor; discriminate|]; split;
  [let X := fresh in intro X; first [discriminate X | simpl; intro; discriminate]|repeat constructor; discriminate].

Theorem C11_spacing_refuted : exists d e, wf_defn d /\ wf_defn e /\ ~ same_in_c d e /\
  exists m m' tb, preprocess_define (def_line d) = MOk m /\ preprocess_define (def_line e) = MOk m' /\
    run [Define m; Define m'] [] = MOk tb.
Proof.
  exists d_space1, d_space2. split; [wf_line|]. split; [wf_line|]. split.
  - intros (_ & _ & _ & W). inversion W as [|? ? ? ? [X _]]; subst. specialize (X eq_refl). discriminate X.
  - do 3 eexists. split; [vm_compute; reflexivity|]. split; vm_compute; reflexivity.
Qed.
Print Assumptions C11_spacing_refuted.
Theorem C11_parameter_names_refuted : exists d e, wf_defn d /\ wf_defn e /\ ~ same_in_c d e /\
  exists m m' tb, preprocess_define (def_line d) = MOk m /\ preprocess_define (def_line e) = MOk m' /\
    run [Define m; Define m'] [] = MOk tb.
Proof.
  exists d_param1, d_param2. split; [wf_line|]. split; [wf_line|]. split.
  - intros (_ & (F & _) & _). inversion F as [|? ? ? ? [_ X]]; subst. discriminate X.
  - do 3 eexists. split; [vm_compute; reflexivity|]. split; vm_compute; reflexivity.
Qed.
Print Assumptions C11_parameter_names_refuted.
(* Variadic and not variadic. *)
Theorem C11_variadic_refuted : exists d e, wf_defn d /\ wf_defn e /\ ~ same_in_c d e /\
  exists m m' tb, preprocess_define (def_line d) = MOk m /\ preprocess_define (def_line e) = MOk m' /\
    run [Define m; Define m'] [] = MOk tb.
Proof.
  exists d_va, d_param1. split; [wf_line|]. split; [wf_line|]. split.
  - intros (_ & (F & _) & _). inversion F.
  - do 3 eexists. split; [vm_compute; reflexivity|]. split; vm_compute; reflexivity.
Qed.
Print Assumptions C11_variadic_refuted.

(* ---- C12 ---- *)

(* Full statement: replacement of any line terminates, with the tokens Prosser's algorithm gives.
   Proved for the lines on which the algorithm meets no # or ##, no macro name in an argument, and
   no invocation that reaches out of the text of the macro it begins in. *)
Theorem C12_replacement_partial : forall c99 tb l o, Forall (fun t => disabled t = false) l ->
  px (find tb) (map (fun t => (t, [])) l) o ->
  exists n k o', expand c99 (find tb) n l = MOk (k, o') /\ map core o' = map core o.
Proof. intros c99 tb l o D P. apply prosser; auto. intros n m. apply find_name. Qed.
Print Assumptions C12_replacement_partial.

(* The result does not depend on how long one waits for it. *)
Theorem C12_deterministic : forall c99 lookup n m l r, expand c99 lookup n l = MOk r -> (n <= m)%nat ->
  expand c99 lookup m l = MOk r.
Proof. intros c99 lookup n m l r. apply xl_mono. Qed.
Print Assumptions C12_deterministic.

(* For every table and line: in a finished expansion no object-like macro is left, unless it was
   marked, and a function-like one that is left was not followed by arguments. *)
Theorem C12_complete : forall c99 tb n l k o, expand c99 (find tb) n l = MOk (k, o) ->
  Forall (fun t => expandable t = true -> disabled t = false ->
            forall m, find tb (spell t) = Some m -> m_func m = true) o.
Proof.
  intros c99 tb n l k o H. apply xl_settled in H. eapply Forall_impl; [|exact H].
  intros t S A B m F. specialize (S A B). rewrite F in S. exact S.
Qed.
Print Assumptions C12_complete.

(* A macro table with recursion: x -> y+x, y -> x*y, f(a,b) -> a-b x. *)
Definition tb1 := table_text ["x y+x"; "y x*y"; "f(a,b) a-b x"]%string.
Example C12_instance :
  exists o, px (find tb1) (map (fun t => (t, [])) (toks "x f(1,(2,3)) z")) o /\
            map spell o = map chars ["x"; "*"; "y"; "+"; "x"; "1"; "-"; "("; "2"; ","; "3"; ")"; "x"; "*"; "y"; "+"; "x"; "z"]%string.
Proof.
  assert (PX : plain (macro_text "x y+x")).
  { split; [|vm_compute; intuition discriminate]. vm_compute. repeat constructor; try discriminate. }
  assert (PY : plain (macro_text "y x*y")).
  { split; [|vm_compute; intuition discriminate]. vm_compute. repeat constructor; try discriminate. }
  assert (PF : plain (macro_text "f(a,b) a-b x")).
  { split; [|vm_compute; intuition discriminate]. vm_compute. repeat constructor; try discriminate. }
  assert (XX : forall ts o h w, ~ In (chars "x") h -> In (chars "y") h -> 
      px (find tb1) ts o -> px (find tb1) ((id_tok "x" w, h) :: ts) o -> True) by auto.
  clear XX.
  eexists. split.
  - vm_compute toks. cbn [map].
    eapply px_object; [reflexivity|vm_compute; reflexivity|reflexivity|intros []|exact PX|].
    cbn [macro_text]. vm_compute map. cbn [app].
    eapply px_object; [reflexivity|vm_compute; reflexivity|reflexivity|vm_compute; intuition discriminate|exact PY|].
    vm_compute map. cbn [app].
    apply px_hidden; [reflexivity|vm_compute; tauto|].
    apply px_other; [discriminate|].
    apply px_hidden; [reflexivity|vm_compute; tauto|].
    apply px_other; [discriminate|].
    apply px_hidden; [reflexivity|vm_compute; tauto|].
    match goal with |- px _ ((?f, _) :: (?p, _) :: (?a, _) :: (?c, _) :: (?b1, _) :: (?b2, _) :: (?b3, _) :: (?b4, _) :: (?b5, _) :: (?q, _) :: ?ts) _ =>
      apply (px_call (find tb1) f [] ts _ (macro_text "f(a,b) a-b x") p q [[a]; [b1; b2; b3; b4; b5]] [a; c; b1; b2; b3; b4; b5]) end;
      [reflexivity|vm_compute; reflexivity|reflexivity|intros []|exact PF|reflexivity|reflexivity| | | |].
    + apply (sep_cons [_] _ [_; _; _; _; _] [] _); [reflexivity|apply sep_one].
    + split; [reflexivity|]. vm_compute m_vararg. cbv iota. constructor; [|constructor; [|constructor]].
      * apply bal_tok; try discriminate; auto using bal_nil.
      * apply (bal_group false _ [_; _; _] _ []); try reflexivity; [|apply bal_nil].
        repeat (apply bal_tok; [discriminate|discriminate|discriminate|discriminate|]). apply bal_nil.
    + repeat constructor; discriminate.
    + vm_compute map. cbn [app].
      apply px_other; [discriminate|]. apply px_other; [discriminate|].
      do 5 (apply px_other; [discriminate|]).
      eapply px_object; [reflexivity|vm_compute; reflexivity|reflexivity|vm_compute; intuition discriminate|exact PX|].
      vm_compute map. cbn [app].
      eapply px_object; [reflexivity|vm_compute; reflexivity|reflexivity|vm_compute; intuition discriminate|exact PY|].
      vm_compute map. cbn [app].
      apply px_hidden; [reflexivity|vm_compute; tauto|].
      apply px_other; [discriminate|].
      apply px_hidden; [reflexivity|vm_compute; tauto|].
      apply px_other; [discriminate|].
      apply px_hidden; [reflexivity|vm_compute; tauto|].
      apply px_other; [intros _; vm_compute; reflexivity|]. apply px_nil.
  - vm_compute. reflexivity.
Qed.
Example C12_run_instance :
  match expand_text tb1 "x f(1,(2,3)) z" 40 with
  | MOk (k, o) => map spell o = map chars ["x"; "*"; "y"; "+"; "x"; "1"; "-"; "("; "2"; ","; "3"; ")"; "x"; "*"; "y"; "+"; "x"; "z"]%string
  | _ => False
  end.
Proof. vm_compute. reflexivity. Qed.

(* Termination is false: #define h(x) x, #define a h(b), #define b h(a).  An argument is
   expanded with an empty stack of names, so a and b call each other for ever. *)
Definition tb2 := table_text ["h(x) x"; "a h(b)"; "b h(a)"]%string.
Definition tok_a (w : Z) := id_tok "a" w. Definition tok_b (w : Z) := id_tok "b" w.
Lemma object_fuel : forall c99 lookup n scope t ts m r, expandable t = true -> disabled t = false ->
  lookup (spell t) = Some m -> is_expanded scope (spell t) = false -> m_func m = false -> m_params m = 0 ->
  expand_stringify_and_paste c99 m [] = MOk r ->
  expand_line c99 lookup n (m_name m :: scope) r = MFuel -> expand_line c99 lookup (S n) scope (t :: ts) = MFuel.
Proof.
  intros c99 lookup n scope t ts m r E D L S F P X H. rewrite xl_step. cbv zeta.
  rewrite E, D, L, S, F. cbn [negb orb andb]. unfold read_args. rewrite F. cbn [negb mbind]. rewrite X. cbn [mbind].
  rewrite P. replace (0 <? 0) with false by reflexivity. cbn [mbind]. rewrite H. reflexivity.
Qed.
Lemma call_fuel : forall c99 lookup n scope t p ts m a e r, expandable t = true -> disabled t = false ->
  lookup (spell t) = Some m -> is_expanded scope (spell t) = false -> tt p = T_LPAREN -> 0 < m_params m ->
  read_args scope m (p :: ts) = MOk ([a], e) -> expand_stringify_and_paste c99 m [a] = MOk r ->
  expand_line c99 lookup n [] a = MFuel -> expand_line c99 lookup (S n) scope (t :: p :: ts) = MFuel.
Proof.
  intros c99 lookup n scope t p ts m a e r E D L S P M A X H. rewrite xl_step. cbv zeta.
  rewrite E, D, L, S, P. cbn [negb orb]. replace (m_func m && negb (T_LPAREN =? T_LPAREN)) with false
    by (rewrite Z.eqb_refl, andb_false_r; reflexivity).
  rewrite A. cbn [mbind]. rewrite X. cbn [mbind]. rewrite (proj2 (Z.ltb_lt _ _) M).
  cbn [mmap]. rewrite H. reflexivity.
Qed.
Lemma forever : forall n, (forall w, expand_line true (find tb2) n [] [tok_a w] = MFuel) /\
                          (forall w, expand_line true (find tb2) n [] [tok_b w] = MFuel).
Proof.
  induction n as [n IH] using (well_founded_induction lt_wf).
  destruct n as [|n]; [split; reflexivity|].
  destruct n as [|n]; [split; intro; vm_compute; reflexivity|].
  destruct (IH n) as [IA IB]; [lia|].
  split; intro w.
  - apply (object_fuel true (find tb2) (S n) [] (tok_a w) [] (macro_text "a h(b)") (toks " h(b)"));
      [reflexivity|reflexivity|vm_compute; reflexivity..|].
    change (toks " h(b)") with (id_tok "h" 1 :: punct_tok T_LPAREN 0 :: [tok_b 0; punct_tok T_RPAREN 0]).
    apply (call_fuel true (find tb2) n _ _ _ _ (macro_text "h(x) x") [tok_b 0] [] [param_tok 0]);
      [reflexivity|reflexivity|vm_compute; reflexivity..|]. apply IB.
  - apply (object_fuel true (find tb2) (S n) [] (tok_b w) [] (macro_text "b h(a)") (toks " h(a)"));
      [reflexivity|reflexivity|vm_compute; reflexivity..|].
    change (toks " h(a)") with (id_tok "h" 1 :: punct_tok T_LPAREN 0 :: [tok_a 0; punct_tok T_RPAREN 0]).
    apply (call_fuel true (find tb2) n _ _ _ _ (macro_text "h(x) x") [tok_a 0] [] [param_tok 0]);
      [reflexivity|reflexivity|vm_compute; reflexivity..|]. apply IA.
Qed.
Theorem C12_termination_refuted : exists tb l, (forall m, In m tb -> plain m) /\
  forall n, expand true (find tb) n l = MFuel.
Proof.
  exists tb2, [tok_a 0]. split; [|intro n; apply forever].
  intros m I. unfold tb2, table_text in I.
  simpl map in I. destruct I as [<-|[<-|[<-|[]]]];
    (split; [vm_compute; repeat constructor; try discriminate|vm_compute; intuition discriminate]).
Qed.
Print Assumptions C12_termination_refuted.

(* An invocation that ends outside the macro it begins in: the argument is read beyond the end
   of the replacement list.  #define f(x) x   #define g f(1   g ) *)
Theorem C12_open_call_refuted : exists tb l n, (forall m, In m tb -> plain m) /\
  expand true (find tb) n l = MOut.
Proof.
  exists (table_text ["f(x) x"; "g f(1"]%string), (toks "g )"), 9%nat. split; [|vm_compute; reflexivity].
  intros m I. simpl map in I. destruct I as [<-|[<-|[]]];
    (split; [vm_compute; repeat constructor; try discriminate|vm_compute; intuition discriminate]).
Qed.
Print Assumptions C12_open_call_refuted.
(* Two empty operands of ## in a row: the token before an empty list is read.
   #define f(x,y,z) x##y##z   f(,,1) *)
Theorem C12_empty_paste_refuted : exists tb l n, expand true (find tb) n l = MOut.
Proof.
  exists (table_text ["f(x,y,z) x##y##z"]%string), (toks "f(,,1)"), 9%nat. vm_compute. reflexivity.
Qed.
Print Assumptions C12_empty_paste_refuted.
(* #define f a ## : the operand after the end of the replacement list is read. *)
Theorem C12_trailing_paste_refuted : exists tb l n, expand true (find tb) n l = MOut.
Proof. exists (table_text ["f a ##"]%string), (toks "f"), 9%nat. vm_compute. reflexivity. Qed.
Print Assumptions C12_trailing_paste_refuted.
(* A superfluous empty argument is accepted.  #define f(x) x   f(1,) *)
Theorem C12_extra_argument_refuted : exists tb l n k o, expand true (find tb) n l = MOk (k, o) /\
  map spell o = [chars "1"].
Proof.
  exists (table_text ["f(x) x"]%string), (toks "f(1,)"), 9%nat. eexists. eexists.
  split; vm_compute; reflexivity.
Qed.
Print Assumptions C12_extra_argument_refuted.
(* A # in an object-like macro is an ordinary token in C, and rejected here. *)
Theorem C12_object_hash_refuted : exists tb l, forall n, (2 <= n)%nat -> expand true (find tb) n l = MError.
Proof.
  exists (table_text ["H #"]%string), (toks "H"). intros n L. destruct n as [|n]; [lia|].
  vm_compute. reflexivity.
Qed.
Print Assumptions C12_object_hash_refuted.
