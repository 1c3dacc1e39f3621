(* C48: a declarator gives a name the type C says.  The conditions, and declarators that do not meet them and go wrong. *)
From Coq Require Import List Bool Arith ZArith Lia.
From Verif Require Import Util DeclModel DeclSpec DeclProofs DeclPath DeclParse DeclMain DeclDone.
Import ListNotations.
Open Scope Z_scope.

Lemma env_envd : forall tag h e s, env_ok tag h e s -> envd tag (fun r => (r <= length h)%nat) h e s.
Proof.
  intros tag h e. induction e as [|[x [T|]] e IH]; intros [|[y [t|]] s]; cbn; auto.
  - intros (A & B & C). split; auto. split; auto. now apply denotes_den.
  - intros (A & B). auto.
Qed.
Lemma tags_tagsd : forall tag h, tags_ok tag h -> tagsd tag (fun r => (r <= length h)%nat) h.
Proof.
  intros tag h H r k z E. destruct (H r k z E) as (A & _ & n & B & C). split; auto. split; [apply node_at_dom in B; lia|eauto].
Qed.
Lemma tags_sizes : forall tag h, tags_ok tag h -> sizes_ok tag.
Proof. intros tag h H r k z E. destruct (H r k z E) as (_ & A & _). exact A. Qed.

Lemma declarator_ok : forall tag def e s h base bt d named rest,
  env_ok tag h e s -> tags_ok tag h -> denotes tag h base bt ->
  good tag def false s d = true -> declarable tag (meaning s d bt) = true -> named = true \/ declares d = None -> ends_here rest = true ->
  exists n h' T, (forall m, (n <= m)%nat -> declarator m def e h base named (write d ++ rest) = Ok (h', T, declares d, rest)) /\
    denotes tag h' T (meaning s d bt) /\ (forall X t, denotes tag h X t -> denotes tag h' X t).
Proof.
  intros tag def e s h base bt d named rest He Ht Hd Hg Hdec Hn Hr. set (P0 := fun r => (r <= length h)%nat).
  assert (Hb : bounded P0 h) by (intros k A; exact A).
  destruct (claims tag (tags_sizes _ _ Ht) def (S (length (write d))) d ltac:(lia)) as [Hc _].
  destruct (Hc e s h base bt P0 named rest Hb (env_envd _ _ _ _ He) (tags_tagsd _ _ Ht) (denotes_den _ _ _ _ Hd) Hg Hdec Hn Hr) as (m0 & h' & T & z & E & HB).
  exists m0, h', T. split; [|split].
  - intros m Hm. unfold declarator. rewrite (E m Hm). reflexivity.
  - rewrite meaning_plug. eapply den_denotes. eapply built_den; eauto. now apply denotes_den.
  - intros X t HX. eapply den_denotes. eapply den_frame; [|intros r A; exact A|apply denotes_den; exact HX].
    eapply grows_agrees; [exact (proj1 HB)|auto].
Qed.

Lemma denotes_det : forall tag h, forall T t, denotes tag h T t -> forall t', denotes tag h T t' -> t = t'.
Proof.
  intros tag h. apply (denotes_mind tag h (fun T t => forall t', denotes tag h T t' -> t = t') (fun ms ps => forall ps', denote tag h ms ps' -> ps = ps')).
  - intros k u c v Hk t' H. inversion H; subst; auto; try discriminate;
      try (match goal with A : _ = STRUCT \/ _ = UNION |- _ => destruct A as [E|E]; rewrite E in *; discriminate end).
    destruct k; discriminate.
  - intros k r c v n z A1 A2 A3 A4 A5 t' H. inversion H; subst; auto;
      try (match goal with A : is_pointer _ = true |- _ => unfold is_pointer, type_of in A; cbn in A; destruct A5 as [E|E]; rewrite E in A; discriminate end);
      try (destruct A5 as [E|E]; rewrite E in *; discriminate); destruct A5; congruence.
  - intros T T' t A1 A2 A3 A4 IH t' H. inversion H; subst; try discriminate.
    + match goal with A : basic ?k = true |- _ => destruct k; discriminate end.
    + match goal with A : _ = STRUCT \/ _ = UNION |- _ => unfold is_pointer, type_of in A1; cbn in A1; destruct A as [E|E]; rewrite E in A1; discriminate end.
    + match goal with A : type_deref h T = Ok ?x, B : denotes tag h ?x ?y |- _ => rewrite A3 in A; injection A as <-; now rewrite (IH _ B) end.
  - intros r n l t A1 A2 A3 A4 A5 IH t' H. inversion H; subst; try discriminate.
    + match goal with A : _ = STRUCT \/ _ = UNION |- _ => destruct A; congruence end.
    + match goal with A : node_at h r = Some ?m, B : denotes tag h (nnext ?m) ?y |- _ => rewrite A1 in A; injection A as <-; rewrite (IH _ B) end.
      destruct l, l0; congruence.
  - intros r n ps k t A1 A2 A3 A4 A5 IHp A6 IH t' H. inversion H; subst; try discriminate.
    + match goal with A : _ = STRUCT \/ _ = UNION |- _ => destruct A; congruence end.
    + match goal with A : node_at h r = Some ?m, B : denotes tag h (nnext ?m) ?y, C : denote tag h (members ?m) ?z |- _ =>
        rewrite A1 in A; injection A as <-; rewrite (IH _ B), (IHp _ C) end.
      destruct k as [|[]], k0 as [|[]]; congruence.
  - intros t' H. inversion H; subst; auto; try discriminate.
  - intros ps' H. now inversion H.
  - intros m ms x t ps A1 A2 IH A3 IHs ps' H. inversion H; subst. f_equal; auto. f_equal. auto.
Qed.

(* ---- The theorems ---- *)
(* What a type of the compiler stands for is never two things. *)
Theorem C48_one_type : forall tag h T t t', denotes tag h T t -> denotes tag h T t' -> t = t'.
Proof. intros tag h T t t' A B. exact (denotes_det tag h T t A t' B). Qed.

(* With the identifiers and the structs of the program known, any declarator that is grammatical and keeps to the constraints
   is read to its end, and no further; the name it gets is the one that is written, its type is the one C says; all types there
   were before are what they were.  Partial: no qualifiers on a typedef name for an array or function, no pointer to a pointer
   that is `restrict`, no parenthesis around a name that is a typedef name or around brackets without a name, no qualifiers or
   `static` in brackets inside parentheses, no arrays of variable length; see below for what happens with them. *)
Theorem C48_type_partial : forall tag def e s h base bt d named rest,
  env_ok tag h e s -> tags_ok tag h -> denotes tag h base bt ->
  good tag def false s d = true -> declarable tag (meaning s d bt) = true -> named = true \/ declares d = None -> ends_here rest = true ->
  exists n h' T, (forall m, (n <= m)%nat -> declarator m def e h base named (write d ++ rest) = Ok (h', T, declares d, rest)) /\
    denotes tag h' T (meaning s d bt) /\ (forall X t, denotes tag h X t -> denotes tag h' X t).
Proof. exact declarator_ok. Qed.
Print Assumptions C48_one_type.
Print Assumptions C48_type_partial.

(* ---- An instance ---- *)
Definition no_tags : tags := fun _ => None.
Definition int : typ := plain INT false 0.
Definition t_int : ty := TBasic INT false false false.
Definition s_int : specs := mkS [] (SBasic INT false) [].
Definition sized (n : Z) : brackets := mkB false [] false (Some n).
(* typedef char *T;  int ( *f[3])(int a[const 2], T x, ...) *)
Definition char_p : typ := mkT CHAR false false false false true false false false 0.
Definition example : decl :=
  DFun (DParen (DPtr [] (DArr (DName (Some 1%nat)) (sized 3))))
    [(s_int, DArr (DName (Some 2%nat)) (mkB false [Qconst] false (Some 2))); (mkS [] (STypedef 7) [], DName (Some 3%nat))] true.
Example C48_instance :
  let s := [(7%nat, Some (TPtr unqualified (TBasic CHAR false false false)))] in
  let means := TArr unqualified (Some 3) (TPtr unqualified
    (TFun [(Some 2%nat, TPtr (mkq true false false) t_int); (Some 3%nat, TPtr unqualified (TBasic CHAR false false false))] (Proto true) t_int)) in
  meaning s example t_int = means /\ declares example = Some 1%nat /\
  exists n h' T, (forall m, (n <= m)%nat -> declarator m true [(7%nat, Some char_p)] [] int true (write example ++ [Kother 0]) = Ok (h', T, Some 1%nat, [Kother 0])) /\
    denotes no_tags h' T means.
Proof.
  intros s means. split; [reflexivity|]. split; [reflexivity|].
  destruct (C48_type_partial no_tags true [(7%nat, Some char_p)] s [] int t_int example true [Kother 0]) as (n & h' & T & E & D & _).
  - cbn. split; auto. split; auto. apply (den_ptr no_tags [] char_p (plain CHAR false 0) (TBasic CHAR false false false)); try reflexivity; [discriminate|].
    now constructor.
  - intros r k z; discriminate.
  - now constructor.
  - reflexivity.
  - reflexivity.
  - auto.
  - reflexivity.
  - exists n, h', T. split; auto.
Qed.
Example C48_runs : match declarator 40 true [(7%nat, Some char_p)] [] int true (write example ++ [Kother 0]) with Ok (_, _, x, r) => x = Some 1%nat /\ r = [Kother 0] | _ => False end.
Proof. vm_compute. auto. Qed.

(* ---- Declarators for which it is not so ---- *)
Ltac ptr h T B t := change (denotes no_tags h T (TPtr (mkq (is_const T) (is_volatile T) (is_restrict T)) t)); apply (den_ptr no_tags h T B t); [reflexivity|auto|reflexivity|].
(* int * restrict * p: the qualifier is lost. *)
Definition restrict_p : decl := DPtr [Qrestrict] (DPtr [] (DName (Some 1%nat))).
Theorem C48_restrict_refuted : exists h T, declarator 40 true [] [] int true (write restrict_p) = Ok (h, T, Some 1%nat, []) /\
  denotes no_tags h T (TPtr unqualified (TPtr unqualified t_int)) /\
  meaning [] restrict_p t_int = TPtr unqualified (TPtr (mkq false false true) t_int).
Proof.
  set (h := [mkN POINTER false false false 0 false false [] int]).
  exists h, (plain POINTER false 1). split; [reflexivity|]. split; [|reflexivity].
  ptr h (plain POINTER false 1) (mkT INT false false false false true false false false 0) (TPtr unqualified t_int).
  ptr h (mkT INT false false false false true false false false 0) int t_int. now constructor.
Qed.
(* int ([3]), an array without a name, is taken for a function with an array for its parameter. *)
Definition unnamed_array : decl := DParen (DArr (DName None) (sized 3)).
Theorem C48_parenthesis_refuted : exists h T, declarator 40 true [] [] int true (write unnamed_array) = Ok (h, T, None, []) /\
  denotes no_tags h T (TFun [(None, TPtr unqualified t_int)] (Proto false) t_int) /\
  meaning [] unnamed_array t_int = TArr unqualified (Some 3) t_int.
Proof.
  set (p := mkT INT false false false false true false false false 0).
  set (h := [mkN FUNCTION false false false 0 false false [mkM None p 3] int]).
  exists h, (plain FUNCTION false 1). split; [reflexivity|]. split; [|reflexivity].
  apply (den_fun no_tags h 1%nat (mkN FUNCTION false false false 0 false false [mkM None p 3] int)); try reflexivity; [|now constructor].
  constructor; [reflexivity| |constructor]. ptr h p int t_int. now constructor.
Qed.
(* typedef int T; and in a block: int (T), which declares T, is taken for a function whose parameter is a T. *)
Definition hidden : decl := DParen (DName (Some 7%nat)).
Theorem C48_hidden_refuted : exists h T, declarator 40 true [(7%nat, Some int)] [] int true (write hidden) = Ok (h, T, None, []) /\
  denotes no_tags h T (TFun [(None, t_int)] (Proto false) t_int) /\
  meaning [(7%nat, Some t_int)] hidden t_int = t_int /\ declares hidden = Some 7%nat.
Proof.
  set (h := [mkN FUNCTION false false false 0 false false [mkM None int 0] int]).
  exists h, (plain FUNCTION false 1). split; [reflexivity|]. split; [|split; reflexivity].
  apply (den_fun no_tags h 1%nat (mkN FUNCTION false false false 0 false false [mkM None int 0] int)); try reflexivity; [|now constructor].
  constructor; [reflexivity| |constructor]. now constructor.
Qed.
(* typedef int A[2];  int f(const A x): the parameter is a pointer to const int, but not here. *)
Definition const_array : decl := DFun (DName (Some 1%nat)) [(mkS [true] (STypedef 7) [], DName (Some 2%nat))] false.
Theorem C48_const_array_refuted : exists h h' T, denotes no_tags h (plain ARRAY false 1) (TArr unqualified (Some 2) t_int) /\
  declarator 40 true [(7%nat, Some (plain ARRAY false 1))] h int true (write const_array) = Ok (h', T, Some 1%nat, []) /\
  denotes no_tags h' T (TFun [(Some 2%nat, TPtr unqualified t_int)] (Proto false) t_int) /\
  meaning [(7%nat, Some (TArr unqualified (Some 2) t_int))] const_array t_int =
    TFun [(Some 2%nat, TPtr unqualified (TBasic INT false true false))] (Proto false) t_int.
Proof.
  set (a := mkN ARRAY false false false 2 false false [] int).
  set (p := mkT INT false false false false true false false false 0).
  set (n := mkN FUNCTION false false false 0 false false [mkM (Some 2%nat) p 0] int).
  exists [a], [a; n], (plain FUNCTION false 2). split; [|split; [reflexivity|split; [|reflexivity]]].
  - apply (den_arr no_tags [a] 1%nat a (Some 2) t_int); try reflexivity. now constructor.
  - apply (den_fun no_tags [a; n] 2%nat n); try reflexivity; [|now constructor].
    constructor; [reflexivity| |constructor]. ptr [a; n] p int t_int. now constructor.
Qed.
(* int f(int (a[const 3])) is refused. *)
Theorem C48_inner_const_refuted : exists p, declares p = Some 2%nat /\ adjusted (meaning [] p t_int) = TPtr (mkq true false false) t_int /\
  forall m, (40 <= m)%nat -> declarator m true [] [] int true (write (DFun (DName (Some 1%nat)) [(s_int, p)] false)) = Stop.
Proof.
  exists (DParen (DArr (DName (Some 2%nat)) (mkB false [Qconst] false (Some 3)))). split; [reflexivity|]. split; [reflexivity|].
  intros m Hm. do 40 (destruct m as [|m]; [lia|]). vm_compute. reflexivity.
Qed.
(* Constraints that are not checked: an array of functions, int (a[3])(void), and of arrays without a length, int (a[3])[]. *)
Theorem C48_constraints_refuted :
  (exists h T, declarator 40 true [] [] int true (write (DVoid (DParen (DArr (DName (Some 1%nat)) (sized 3))))) = Ok (h, T, Some 1%nat, []) /\
     denotes no_tags h T (TArr unqualified (Some 3) (TFun [] (Proto false) t_int))) /\
  (exists h T, declarator 40 true [] [] int true (write (DArr (DParen (DArr (DName (Some 1%nat)) (sized 3))) (mkB false [] false None))) = Ok (h, T, Some 1%nat, []) /\
     denotes no_tags h T (TArr unqualified (Some 3) (TArr unqualified None t_int))).
Proof.
  split.
  - set (a := mkN ARRAY false false false 3 false false [] (plain FUNCTION false 2)).
    set (n := mkN FUNCTION false false false 0 false false [] int).
    exists [a; n], (plain ARRAY false 1). split; [reflexivity|].
    apply (den_arr no_tags [a; n] 1%nat a (Some 3)); try reflexivity.
    apply (den_fun no_tags [a; n] 2%nat n); try reflexivity; now constructor.
  - set (a := mkN ARRAY false false false 3 false false [] (plain ARRAY false 2)).
    set (n := mkN ARRAY false false false 0 true false [] int).
    exists [a; n], (plain ARRAY false 1). split; [reflexivity|].
    apply (den_arr no_tags [a; n] 1%nat a (Some 3)); try reflexivity.
    apply (den_arr no_tags [a; n] 2%nat n None); try reflexivity; now constructor.
Qed.
Print Assumptions C48_restrict_refuted.
Print Assumptions C48_parenthesis_refuted.
Print Assumptions C48_hidden_refuted.
Print Assumptions C48_const_array_refuted.
Print Assumptions C48_inner_const_refuted.
Print Assumptions C48_constraints_refuted.
