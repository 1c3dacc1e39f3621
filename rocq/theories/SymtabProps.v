(* C19, C20, C21: scopes, assembler names, and what is emitted. *)
From Coq Require Import ZArith Bool String List Sorted Lia.
From Verif Require Import Bytes TokenizeSpec SymtabModel SymtabSpec SymtabProofs.
Import ListNotations.
Open Scope Z_scope.

(* C19.  For every sequence of scopes opened and closed and names declared that the compiler accepts (with scopes less
   than 32768 deep), a lookup gives the declaration found by going back in the text and skipping closed blocks. *)
Theorem C19_lookup : forall Ty is_function type_equal apply_type label (ops : list (sop Ty)) st tr,
  max_depth 0 ops < 32768 ->
  runs Ty is_function type_equal apply_type label (ns0 Ty) [] ops = Some (st, tr) ->
  forall n, sym_lookup Ty st n = seen 0 tr n.
Proof. intros until tr. intros M H. exact (lookup_seen _ _ _ _ label ops st tr M H). Qed.
Print Assumptions C19_lookup.

Lemma max_depth_app : forall {Ty} (a b : list (sop Ty)) d, max_depth d a <= max_depth d (a ++ b).
Proof.
  induction a as [|[| | |] a IH]; intros b d; simpl; try apply IH.
  - apply max_depth_ge.
  - specialize (IH b (d + 1)). lia.
  - specialize (IH b (d - 1)). lia.
Qed.
(* After a block every name means what it meant before. *)
Theorem C19_block : forall Ty is_function type_equal apply_type label (a b : list (sop Ty)) st tr st' tr',
  max_depth 0 (a ++ OPush :: b ++ [OPop]) < 32768 -> block b ->
  runs Ty is_function type_equal apply_type label (ns0 Ty) [] a = Some (st, tr) ->
  runs Ty is_function type_equal apply_type label st tr (OPush :: b ++ [OPop]) = Some (st', tr') ->
  forall n, sym_lookup Ty st' n = sym_lookup Ty st n.
Proof.
  intros until tr'. intros M1 B H1 H2 n.
  assert (M2 : max_depth 0 a < 32768) by (eapply Z.le_lt_trans; [apply max_depth_app|exact M1]).
  rewrite (lookup_seen _ _ _ _ label a st tr M2 H1).
  rewrite (lookup_seen _ is_function type_equal apply_type label (a ++ OPush :: b ++ [OPop]) st' tr' M1) by (rewrite runs_app, H1; exact H2).
  assert (B2 : block (OPush :: b ++ [OPop])) by (apply (block_nest b []); [exact B|apply block_nil]).
  cbn [runs exec] in H2. rewrite runs_app in H2.
  destruct (runs Ty is_function type_equal apply_type label (push_scope Ty st) (EPush :: tr) b) as [[st1 tr1]|] eqn:R; [|discriminate].
  cbn in H2. destruct (pop_scope Ty st1); [|discriminate]. inversion H2; subst. cbn [seen].
  rewrite (block_seen _ _ _ _ _ B _ _ _ _ _ R). reflexivity.
Qed.
Print Assumptions C19_block.

(* Types for the examples: functions are 1, all other numbers are object types. *)
Definition isf (t : nat) : bool := Nat.eqb t 1.
Definition join (a b : nat) : option nat := if Nat.eqb a b then Some a else None.
Definition go (ops : list (sop nat)) := runs nat isf Nat.eqb join false (ns0 nat) [] ops.
(* int x; f() { int x; { extern int y; short x; } (here) *)
Definition scoped : list (sop nat) :=
  [OAdd (chars "x") 0%nat STentative LExtern; OAdd (chars "f") 1%nat STentative LExtern; OPush; OAdd (chars "x") 0%nat SDefinition LNone;
   OPush; OAdd (chars "y") 0%nat SDeclaration LExtern; OAdd (chars "x") 2%nat SDefinition LNone; OPop].
Example C19_lookup_instance : exists st tr, go scoped = Some (st, tr) /\ max_depth 0 scoped < 32768 /\
  sym_lookup _ st (chars "x") = Some 2%nat /\ sym_lookup _ st (chars "y") = None /\ sym_lookup _ st (chars "f") = Some 1%nat.
Proof. do 2 eexists. split; [vm_compute; reflexivity|]. repeat split. Qed.
Example C19_block_instance : exists st tr st' tr', go (firstn 4 scoped) = Some (st, tr) /\
  @block nat [OAdd (chars "y") 0%nat SDeclaration LExtern; OAdd (chars "x") 2%nat SDefinition LNone] /\
  runs nat isf Nat.eqb join false st tr (skipn 4 scoped) = Some (st', tr').
Proof. do 4 eexists. split; [vm_compute; reflexivity|]. split; [repeat constructor|vm_compute; reflexivity]. Qed.

(* C 6.7 paragraph 3: an identifier without linkage shall not be declared twice in the same scope.
   { int x; short x; } is accepted. *)
Theorem C19_duplicate_refuted : exists st tr, go [OPush; OAdd (chars "x") 0%nat SDefinition LNone; OAdd (chars "x") 2%nat SDefinition LNone] = Some (st, tr).
Proof. do 2 eexists. vm_compute. reflexivity. Qed.
(* C 6.2.2 paragraph 2: each declaration of x with external linkage denotes the same object.
   { extern int x; } int x; gives two symbols, both named x. *)
Theorem C19_extern_refuted : exists st tr, go [OPush; OAdd (chars "x") 0%nat SDeclaration LExtern; OPop; OAdd (chars "x") 0%nat STentative LExtern] = Some (st, tr) /\
  List.length (symbols _ st) = 2%nat /\ Forall (fun x => sym_name (s_name _ x) (s_n _ x) = Some (chars "x")) (symbols _ st).
Proof. do 2 eexists. split; [vm_compute; reflexivity|]. split; [reflexivity|]. repeat constructor. Qed.

(* C20.  With less than 32768 temporaries, unnamed symbols, labels, constants, strings and local statics each, all their
   names are different, and none of them is an identifier.  Missing to the full statement: more than that, see below. *)
Theorem C20_names_partial : forall cs, Forall wf_creation cs -> (forall k, Z.of_nat (how_many k cs) < 32768) ->
  exists names, map (fun p => sym_name (fst p) (snd p)) (create (fun _ => 0) cs) = map Some names /\
    NoDup names /\ forall n, identifier n -> ~ In n names.
Proof. exact names_distinct. Qed.
Print Assumptions C20_names_partial.
Example C20_names_instance : let cs := [CString; CTemporary; CStatic (chars "t"); CString; CStatic (chars "t"); CConstant; CLabel] in
  Forall wf_creation cs /\
  map (fun p => sym_name (fst p) (snd p)) (create (fun _ => 0) cs) =
  map (fun s => Some (chars s)) [".LC1"; ".t1"; "t.1"; ".LC2"; "t.2"; ".C1"; ".L1"]%string.
Proof.
  split; [|vm_compute; reflexivity].
  assert (I : identifier (chars "t")) by (split; [discriminate|split; [|simpl; lia]]; simpl; intros [H|[]]; discriminate).
  repeat constructor; try exact I; apply I.
Qed.

(* The local statics that sym_add creates have different numbers. *)
Theorem C20_statics_partial : forall Ty is_function type_equal apply_type label (ops : list (sop Ty)) st tr i j x y,
  runs Ty is_function type_equal apply_type label (ns0 Ty) [] ops = Some (st, tr) -> statics _ st < 32768 ->
  nth_error (symbols _ st) i = Some x -> nth_error (symbols _ st) j = Some y ->
  s_n _ x = s_n _ y -> s_n _ x <> 0 -> i = j.
Proof. intros until y. apply statics_distinct. Qed.
Print Assumptions C20_statics_partial.
Example C20_statics_instance : exists st tr,
  go [OPush; OAdd (chars "a") 0%nat SDefinition LIntern; OPush; OAdd (chars "a") 0%nat SDefinition LIntern] = Some (st, tr) /\
  statics _ st < 32768 /\ map (fun x => sym_name (s_name _ x) (s_n _ x)) (symbols _ st) = [Some (chars "a.1"); Some (chars "a.2")].
Proof. do 2 eexists. split; [vm_compute; reflexivity|]. split; reflexivity. Qed.

Lemma create_strings : forall k c i, (i < k)%nat ->
  nth_error (create c (repeat CString k)) i = Some ([46; 76; 67], to_short (c 4 + Z.of_nat i + 1)).
Proof.
  induction k as [|k IH]; intros c i H; [lia|]. destruct i as [|i]; cbn [repeat create nth_error].
  - cbn [kind_no raw_name]. do 2 f_equal. f_equal. lia.
  - rewrite IH by lia. cbn [kind_no]. rewrite Z.eqb_refl. do 2 f_equal. f_equal. lia.
Qed.
(* The first and the 65537th string literal are both .LC1. *)
Theorem C20_many_strings_refuted : exists cs i j a b, i <> j /\ Forall wf_creation cs /\
  nth_error (create (fun _ => 0) cs) i = Some a /\ nth_error (create (fun _ => 0) cs) j = Some b /\
  sym_name (fst a) (snd a) = Some (chars ".LC1") /\ sym_name (fst b) (snd b) = Some (chars ".LC1").
Proof.
  exists (repeat CString (Z.to_nat 65537)), 0%nat, (Z.to_nat 65536).
  exists ([46; 76; 67], to_short 1), ([46; 76; 67], to_short 65537).
  split; [intro H; apply (f_equal Z.of_nat) in H; rewrite Z2Nat.id in H; [discriminate H|intro; discriminate]|].
  split; [apply Forall_forall; intros x I; apply repeat_spec in I; subst; exact Logic.I|].
  split; [rewrite create_strings by (apply (Nat2Z.inj_lt 0); rewrite Z2Nat.id by lia; reflexivity); reflexivity|].
  split; [rewrite create_strings by (apply Z2Nat.inj_lt; lia); rewrite Z2Nat.id by lia; reflexivity|].
  split; vm_compute; reflexivity.
Qed.

(* C21.  All definitions that are not inline are compiled in the order of the input, then the inline ones that are
   referenced, in order. *)
Theorem C21_definitions : forall referenced (inp : list (list definition)) fuel,
  (2 * length (concat inp) < fuel)%nat ->
  parse_all fuel referenced (mk_pstate inp [] []) =
  Some (filter (fun d => negb (def_inlined d)) (concat inp) ++ filter (fun d => referenced (def_id d)) (filter def_inlined (concat inp))).
Proof.
  intros r inp fuel H. set (st := mk_pstate inp [] []). apply (parse_all_ok r (List.length (remaining r st)) fuel st eq_refl).
  unfold remaining, pending, normal, inlined. cbn [queue input inlines app]. unfold st. cbn [queue input inlines app].
  rewrite app_length.
  assert (L : forall l : list definition, (length (filter (fun d => negb (def_inlined d)) l) + length (filter (fun d => r (def_id d)) (filter def_inlined l)) <= length l)%nat).
  { induction l as [|d l IH]; simpl; [lia|]. destruct (def_inlined d); simpl; [destruct (r (def_id d)); simpl; lia|lia]. }
  specialize (L (concat inp)). lia.
Qed.
Print Assumptions C21_definitions.
(* Hence each definition once or not at all. *)
Theorem C21_once : forall referenced inp fuel l, (2 * length (concat inp) < fuel)%nat -> NoDup (concat inp) ->
  parse_all fuel referenced (mk_pstate inp [] []) = Some l ->
  NoDup l /\ forall d, In d l <-> In d (concat inp) /\ (def_inlined d = true -> referenced (def_id d) = true).
Proof.
  intros r inp fuel l F N H. rewrite C21_definitions in H by exact F. injection H as <-. split.
  - revert N. generalize (concat inp). clear. intros l N.
    assert (D : forall d, In d (filter (fun d => negb (def_inlined d)) l) -> ~ In d (filter (fun d => r (def_id d)) (filter def_inlined l))).
    { intros d A B. apply filter_In in A as [_ A]. apply filter_In in B as [B _]. apply filter_In in B as [_ B]. rewrite B in A. discriminate. }
    assert (N1 : NoDup (filter (fun d => negb (def_inlined d)) l)) by (apply NoDup_filter; exact N).
    assert (N2 : NoDup (filter (fun d => r (def_id d)) (filter def_inlined l))) by (do 2 apply NoDup_filter; exact N).
    revert N1 D. generalize (filter (fun d => negb (def_inlined d)) l). induction l0 as [|x l0 IH]; intros N1 D; simpl; [exact N2|].
    inversion N1 as [|? ? NI N1']; subst. constructor.
    + rewrite in_app_iff. intros [A|A]; [contradiction|]. apply (D x (or_introl eq_refl) A).
    + apply IH; [exact N1'|]. intros d A. apply D. right. exact A.
  - intro d. rewrite in_app_iff, !filter_In. destruct (def_inlined d); simpl; intuition discriminate.
Qed.
Print Assumptions C21_once.
Example C21_definitions_instance : let inp := [[mk_def 0 false]; []; [mk_def 1 true; mk_def 2 true]; [mk_def 3 false]] in
  NoDup (concat inp) /\ parse_all 9 (fun i => Nat.eqb i 2) (mk_pstate inp [] []) = Some [mk_def 0 false; mk_def 3 false; mk_def 2 true].
Proof. split; [|reflexivity]. cbn. repeat constructor; cbn; intuition discriminate. Qed.

(* The symbols handed to the back end at the end: exactly the tentative definitions and the referenced literals,
   constants and declarations, once each, in the order of declaration. *)
Theorem C21_symbols : forall Ty (l : list (symbol Ty)),
  let out := yield_from Ty (length l) 0 l in
  NoDup out /\ StronglySorted Nat.lt out /\
  forall i, In i out <-> exists x, nth_error l i = Some x /\
    (s_kind _ x = STentative \/ (s_kind _ x = SLiteral \/ s_kind _ x = SConstant \/ s_kind _ x = SDeclaration) /\ s_ref _ x = true).
Proof.
  intros Ty l out. unfold out. rewrite yield_ok by lia. rewrite Nat.sub_0_r. split; [apply NoDup_filter, seq_NoDup|]. split.
  - generalize 0%nat. generalize (length l). induction n as [|n IH]; intro c; cbn [seq filter]; [constructor|].
    destruct (match nth_error l c with Some _ => _ | None => _ end); [|apply IH]. constructor; [apply IH|].
    apply Forall_forall. intros x X. apply filter_In in X as [X _]. apply in_seq in X. lia.
  - intro i. rewrite filter_In, in_seq. split.
    + intros [_ H]. destruct (nth_error l i) as [x|]; [|discriminate]. exists x. split; [reflexivity|]. unfold yields in H. destruct (s_kind _ x); tauto || discriminate.
    + intros (x & X & H). assert (i < length l)%nat by (apply nth_error_Some; congruence). split; [lia|]. rewrite X. unfold yields.
      destruct H as [->|[[->|[->| ->]] H]]; auto.
Qed.
Print Assumptions C21_symbols.
Example C21_symbols_instance : exists st tr, go scoped = Some (st, tr) /\ yield_from nat (length (symbols _ st)) 0 (symbols _ st) = [0; 1]%nat.
Proof. do 2 eexists. split; vm_compute; reflexivity. Qed.
(* { extern int x; x; } int x; : x is handed over twice. *)
Theorem C21_extern_refuted : exists l : list (symbol nat),
  (exists st tr, go [OPush; OAdd (chars "x") 0%nat SDeclaration LExtern; OPop; OAdd (chars "x") 0%nat STentative LExtern] = Some (st, tr) /\
   l = update _ (symbols _ st) 0 (fun x => mk_symbol _ (s_name _ x) (s_type _ x) (s_kind _ x) (s_link _ x) (s_n _ x) (s_depth _ x) true)) /\
  yield_from nat (length l) 0 l = [0; 1]%nat /\ Forall (fun x => sym_name (s_name _ x) (s_n _ x) = Some (chars "x")) l.
Proof. eexists. split; [do 2 eexists; split; [vm_compute; reflexivity|reflexivity]|]. split; [reflexivity|repeat constructor]. Qed.
