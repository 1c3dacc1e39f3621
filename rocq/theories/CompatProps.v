(* C53: declarations of one name *)
From Coq Require Import List Bool Arith ZArith Lia.
From Verif Require Import Util DeclModel DeclSpec DeclProofs DeclProps CompatModel CompatSpec CompatProofs CompatMain CompatDecl.
Import ListNotations.
Open Scope Z_scope.

(* ---- The theorems ---- *)
(* Types are found equal if they are the same.  Partial: structs that are not the same differ in their kind, size or number of
   members (apart); see C53_structs_refuted, C53_self_reference_refuted. *)
Theorem C53_equal_partial : forall tag h f T t T' t', apart tag h -> tidy h -> (depth t < f)%nat ->
  denotes tag h T t -> denotes tag h T' t' -> tidy_typ h T -> tidy_typ h T' -> type_equal f h T T' = Ok (same true t t').
Proof. intros tag h f T t T' t' A B. exact (type_equal_ok tag h A B f T t T' t'). Qed.

(* Types that are compatible are found to be so, if what functions return is not compatible with other types; types that are
   found to be compatible are, up to signedness, `...`, parameters when there is only one prototype, and the length 0. *)
Theorem C53_compatible_partial : forall tag h f T t T' t', apart tag h -> tidy h -> (S (depth t) < f)%nat ->
  denotes tag h T t -> denotes tag h T' t' -> tidy_typ h T -> tidy_typ h T' ->
  exists b, is_compatible f h T T' = Ok b /\ (compatible t t' = true -> firm t = true -> firm t' = true -> b = true) /\ (b = true -> compat Loose false t t' = true).
Proof.
  intros tag h f T t T' t' A B F D D' Ti Ti'. exists (compat Tight false t t'). split; [exact (compatible_ok tag h A B f T t T' t' F D D' Ti Ti')|].
  split; [exact (firm_tight t false t')|exact (tight_loose t false t')].
Qed.

(* A name is declared twice, with types that are compatible: the second declaration is taken, and the name has then a type that
   is compatible with both, with a length if one is an array that has one, with parameters if one is a function that has some.
   Partial: as above, and for an array the same is asked of its elements. *)
Theorem C53_declared_twice_partial : forall tag def e1 e2 s1 s2 h base1 base2 bt1 bt2 d1 d2 rest1 rest2,
  env_ok tag h e1 s1 -> env_ok tag h e2 s2 -> tags_ok tag h -> denotes tag h base1 bt1 -> denotes tag h base2 bt2 ->
  good tag def false s1 d1 = true -> good tag def false s2 d2 = true ->
  declarable tag (meaning s1 d1 bt1) = true -> declarable tag (meaning s2 d2 bt2) = true -> ends_here rest1 = true -> ends_here rest2 = true ->
  apart tag h -> fitting h -> fits h base1 -> fits h base2 -> env_fits h e1 -> env_fits h e2 -> toks_ok (write d1 ++ rest1) -> toks_ok (write d2 ++ rest2) ->
  let t1 := meaning s1 d1 bt1 in let t2 := meaning s2 d2 bt2 in
  compatible t1 t2 = true -> regular t1 = true -> regular t2 = true ->
  exists n h1 T1 h2 T2, forall m, (n <= m)%nat ->
    declarator m def e1 h base1 true (write d1 ++ rest1) = Ok (h1, T1, declares d1, rest1) /\
    declarator m def e2 h1 base2 true (write d2 ++ rest2) = Ok (h2, T2, declares d2, rest2) /\
    exists h3 T r, sym_apply_type m h2 T1 T2 = Ok (h3, T) /\ denotes tag h3 T r /\ compatible r t1 = true /\ compatible r t2 = true /\ (knows t1 || knows t2 = true -> knows r = true).
Proof. exact twice_accepted. Qed.

(* It is refused if the types are not compatible, even up to that, and, for an array without a length, up to qualifiers. *)
Theorem C53_refused_partial : forall tag def e1 e2 s1 s2 h base1 base2 bt1 bt2 d1 d2 rest1 rest2,
  env_ok tag h e1 s1 -> env_ok tag h e2 s2 -> tags_ok tag h -> denotes tag h base1 bt1 -> denotes tag h base2 bt2 ->
  good tag def false s1 d1 = true -> good tag def false s2 d2 = true ->
  declarable tag (meaning s1 d1 bt1) = true -> declarable tag (meaning s2 d2 bt2) = true -> ends_here rest1 = true -> ends_here rest2 = true ->
  apart tag h -> fitting h -> fits h base1 -> fits h base2 -> env_fits h e1 -> env_fits h e2 -> toks_ok (write d1 ++ rest1) -> toks_ok (write d2 ++ rest2) ->
  let t1 := meaning s1 d1 bt1 in let t2 := meaning s2 d2 bt2 in
  formed t1 = true -> ~ taken t1 t2 ->
  exists n h1 T1 h2 T2, forall m, (n <= m)%nat ->
    declarator m def e1 h base1 true (write d1 ++ rest1) = Ok (h1, T1, declares d1, rest1) /\
    declarator m def e2 h1 base2 true (write d2 ++ rest2) = Ok (h2, T2, declares d2, rest2) /\
    sym_apply_type m h2 T1 T2 = Stop.
Proof. exact twice_refused. Qed.

(* The same for any two types in the table, however they got there; the table is as tidy as before, so that this holds for a
   third declaration. *)
Theorem C53_settled_partial : forall tag h f T1 t1 T2 t2, apart tag h -> tidy h -> (S (S (depth t1)) < f)%nat ->
  denotes tag h T1 t1 -> denotes tag h T2 t2 -> tidy_typ h T1 -> tidy_typ h T2 -> formed t1 = true ->
  sym_apply_type f h T1 T2 = Stop \/
  (taken t1 t2 /\ exists h' T r, sym_apply_type f h T1 T2 = Ok (h', T) /\ denotes tag h' T r /\ tidy h' /\ tidy_typ h' T /\
     (forall k, k <> ref T1 -> node_at h' k = node_at h k) /\ (knows t1 || knows t2 = true -> knows r = true) /\
     (compatible t1 t2 = true -> regular t1 = true -> regular t2 = true -> compatible r t1 = true /\ compatible r t2 = true)).
Proof.
  intros tag h f T1 t1 T2 t2 A B F D1 D2 Ti1 Ti2 Fo. destruct (apply_settles tag h A B f T1 t1 T2 t2 F D1 D2 Ti1 Ti2 Fo) as [S|(X & h' & T & r & E & (S1 & S2 & S3 & S4 & S5))]; [now left|].
  right. split; [exact X|]. exists h', T, r. repeat (split; [assumption|]). intros C R1 R2.
  destruct (apply_accepts tag h A B f T1 t1 T2 t2 F D1 D2 Ti1 Ti2 C R1 R2) as (h0 & T0 & r0 & E0 & (Q1 & _) & Q2). rewrite E in E0. injection E0 as <- <-.
  now rewrite (denotes_det tag h' T r S1 r0 Q1).
Qed.
(* After its definition, a name may be declared with the same type; nothing changes. *)
Theorem C53_after_definition_partial : forall tag h f T1 t1 T2 t2, apart tag h -> tidy h -> (depth t1 < f)%nat ->
  denotes tag h T1 t1 -> denotes tag h T2 t2 -> tidy_typ h T1 -> tidy_typ h T2 ->
  redeclare_type f h true false T1 T2 = if same true t1 t2 then Ok (h, T1) else Stop.
Proof.
  intros tag h f T1 t1 T2 t2 A B F D1 D2 Ti1 Ti2. unfold redeclare_type. cbn [andb negb]. now rewrite (type_equal_ok tag h A B f T1 t1 T2 t2 F D1 D2 Ti1 Ti2).
Qed.
(* Being compatible is what it should be: reflexive and symmetric. *)
Theorem C53_compatible_is : (forall t, compatible t t = true) /\ forall t t', compatible t t' = compatible t' t.
Proof. split; [exact (compat_refl Strict false)|]. intros t t'. exact (compat_sym t false t'). Qed.
Print Assumptions C53_equal_partial.
Print Assumptions C53_compatible_partial.
Print Assumptions C53_declared_twice_partial.
Print Assumptions C53_refused_partial.
Print Assumptions C53_settled_partial.
Print Assumptions C53_after_definition_partial.
Print Assumptions C53_compatible_is.

(* ---- Instances ---- *)
(* int a[]; int a[3]; *)
Definition arr (n : option Z) : decl := DArr (DName (Some 1%nat)) (mkB false [] false n).
Definition again (d1 d2 : decl) (b1 b2 : typ) (h : heap) : outcome (heap * typ) :=
  let* (h, T1, _, _) := declarator 60 true [] h b1 true (write d1) in
  let* (h, T2, _, _) := declarator 60 true [] h b2 true (write d2) in
  sym_apply_type 60 h T1 T2.
Lemma no_apart h : apart no_tags h. Proof. intros r r' n n' H. now elim H. Qed.
Example C53_instance :
  exists n h1 T1 h2 T2, forall m, (n <= m)%nat ->
    declarator m true [] [] int true (write (arr None) ++ []) = Ok (h1, T1, Some 1%nat, []) /\
    declarator m true [] h1 int true (write (arr (Some 3)) ++ []) = Ok (h2, T2, Some 1%nat, []) /\
    exists h3 T, sym_apply_type m h2 T1 T2 = Ok (h3, T) /\ denotes no_tags h3 T (TArr unqualified (Some 3) t_int).
Proof.
  destruct (C53_declared_twice_partial no_tags true [] [] [] [] [] int int t_int t_int (arr None) (arr (Some 3)) [] []) as (n & h1 & T1 & h2 & T2 & H);
    try reflexivity; try exact I; try (now constructor); try (intros r k z; discriminate); try apply no_apart; try (intros [|[|r]] x; discriminate).
  exists n, h1, T1, h2, T2. intros m L. destruct (H m L) as (A & B & h3 & T & r & C & D & E & F & G). split; [exact A|]. split; [exact B|]. exists h3, T. split; [exact C|].
  specialize (G eq_refl). replace (TArr unqualified (Some 3) t_int) with r; [exact D|].
  clear - D E F G. destruct r as [| | |q l e| |]; try discriminate E. destruct l as [z|]; [|discriminate G]. unfold compatible in *. cbn in E, F. 
  apply andb_true_iff in F as [F1 F2]. rewrite orb_false_r in F1. apply Z.eqb_eq in F1. subst z. assert (q = unqualified) by (inversion D; reflexivity). subst q. f_equal.
  destruct e as [k u c v| | | | |]; try discriminate E. cbn in E. rewrite !andb_true_iff in E. destruct E as ((E1 & E2) & E3 & E4). apply tk_eqb_eq in E1. apply eqb_prop in E2, E3, E4. now subst.
Qed.
(* int f(); int f(int, char * const); and then int *f(); *)
Definition fun_ids : decl := DIds (DName (Some 1%nat)) [].
Definition fun_proto : decl := DFun (DName (Some 1%nat)) [(s_int, DName None); (mkS [] (SBasic CHAR false) [], DPtr [Qconst] (DName None))] false.
Example C53_runs :
  (match again fun_ids fun_proto int int [] with Ok (h, T) => T = plain FUNCTION false 2 /\ option_map incomplete (node_at h 2) = Some false | _ => False end) /\
  again fun_proto (DIds (DPtr [] (DName (Some 1%nat))) []) int int [] = Stop /\
  compatible (meaning [] fun_ids t_int) (meaning [] fun_proto t_int) = true /\
  compatible (meaning [] fun_proto t_int) (meaning [] (DIds (DPtr [] (DName (Some 1%nat))) []) t_int) = false.
Proof. vm_compute. repeat split; reflexivity. Qed.

(* ---- Declarations for which it is not so ---- *)
Definition uint : typ := plain INT true 0.
Definition t_uint : ty := TBasic INT true false false.
Definition char_ : typ := plain CHAR false 0.
Definition t_char : ty := TBasic CHAR false false false.
Definition takes (o : outcome (heap * typ)) : Prop := exists h T, o = Ok (h, T).
Definition var : decl := DName (Some 1%nat).
(* int x; unsigned x; is taken *)
Theorem C53_sign_refuted : takes (again var var int uint []) /\ compatible (meaning [] var t_int) (meaning [] var t_uint) = false.
Proof. split; [|reflexivity]. eexists _, _. vm_compute. reflexivity. Qed.
(* int f(int); int f(int, ...); *)
Definition f_int (va : bool) : decl := DFun var [(s_int, DName None)] va.
Theorem C53_dots_refuted : takes (again (f_int false) (f_int true) int int []) /\ compatible (meaning [] (f_int false) t_int) (meaning [] (f_int true) t_int) = false.
Proof. split; [|reflexivity]. eexists _, _. vm_compute. reflexivity. Qed.
(* int f(); int f(char); and int f(char); int f(); *)
Definition f_char : decl := DFun var [(mkS [] (SBasic CHAR false) [], DName None)] false.
Theorem C53_promotion_refuted : takes (again fun_ids f_char int int []) /\ takes (again f_char fun_ids int int []) /\
  compatible (meaning [] fun_ids t_int) (meaning [] f_char t_int) = false.
Proof. split; [|split; [|reflexivity]]; eexists _, _; vm_compute; reflexivity. Qed.
(* const int a[]; int a[2]; *)
Theorem C53_const_elements_refuted : takes (again (arr None) (arr (Some 2)) (set_const int) int []) /\
  compatible (meaning [] (arr None) (TBasic INT false true false)) (meaning [] (arr (Some 2)) t_int) = false.
Proof. split; [|reflexivity]. eexists _, _. vm_compute. reflexivity. Qed.
(* struct a { int x; } s; struct b { int x; } s; *)
Definition one_int : node := mkN STRUCT false false false 4 false false [mkM (Some 9%nat) int 0] void_type.
Theorem C53_structs_refuted : takes (again var var (plain STRUCT false 1) (plain STRUCT false 2) [one_int; one_int]) /\
  compatible (meaning [] var (TTag STRUCT 1 false false)) (meaning [] var (TTag STRUCT 2 false false)) = false.
Proof. split; [|reflexivity]. eexists _, _. vm_compute. reflexivity. Qed.
(* int ( *f(void))[]; int ( *f(void))[3]; is refused, and int ( *a[2])[]; int ( *a[2])[3]; *)
Definition ret_arr (n : option Z) : decl := DArr (DParen (DPtr [] (DVoid var))) (mkB false [] false n).
Definition elem_arr (n : option Z) : decl := DArr (DParen (DPtr [] (arr (Some 2)))) (mkB false [] false n).
Theorem C53_valid_refused_refuted : again (ret_arr None) (ret_arr (Some 3)) int int [] = Stop /\ again (elem_arr None) (elem_arr (Some 3)) int int [] = Stop /\
  compatible (meaning [] (ret_arr None) t_int) (meaning [] (ret_arr (Some 3)) t_int) = true /\
  compatible (meaning [] (elem_arr None) t_int) (meaning [] (elem_arr (Some 3)) t_int) = true.
Proof. vm_compute. auto. Qed.
(* int a[3] = {0}; extern int a[]; is refused, and int f(void) { return 0; } int f(); *)
Definition after (d1 d2 : decl) : outcome (heap * typ) :=
  let* (h, T1, _, _) := declarator 60 true [] [] int true (write d1) in
  let* (h, T2, _, _) := declarator 60 true [] h int true (write d2) in
  redeclare_type 60 h true false T1 T2.
Theorem C53_after_definition_refuted : after (arr (Some 3)) (arr None) = Stop /\ after (DVoid var) fun_ids = Stop /\
  compatible (meaning [] (arr (Some 3)) t_int) (meaning [] (arr None) t_int) = true /\
  compatible (meaning [] (DVoid var) t_int) (meaning [] fun_ids t_int) = true.
Proof. vm_compute. auto. Qed.
(* int f(int ( * )[3]); int f(int ( * )[]); the length is lost: the type f has then is compatible with int f(int ( * )[4]) *)
Definition p_arr (n : option Z) : decl := DFun var [(s_int, DArr (DParen (DPtr [] (DName None))) (mkB false [] false n))] false.
Theorem C53_composite_refuted :
  (let* (h, T1, _, _) := declarator 60 true [] [] int true (write (p_arr (Some 3))) in
   let* (h, T2, _, _) := declarator 60 true [] h int true (write (p_arr None)) in
   let* (h, T) := sym_apply_type 60 h T1 T2 in
   let* (h, T3, _, _) := declarator 60 true [] h int true (write (p_arr (Some 4))) in
   let* (h, T) := sym_apply_type 60 h T T3 in Ok tt) = Ok tt /\
  compatible (meaning [] (p_arr (Some 3)) t_int) (meaning [] (p_arr None) t_int) = true /\
  compatible (meaning [] (p_arr (Some 3)) t_int) (meaning [] (p_arr (Some 4)) t_int) = false.
Proof. vm_compute. auto. Qed.
(* struct a { struct a *p; }; struct b { struct b *p; }; extern struct a *x; extern struct b *x; the compiler never comes to an end *)
Definition self (r : nat) : typ := mkT STRUCT false false false false true false false false r.
Definition selves : heap := map (fun r => mkN STRUCT false false false 8 false false [mkM (Some 9%nat) (self r) 0] void_type) [1; 2]%nat.
Lemma never_step g a b : (a = self 1 /\ b = self 2) \/ (a = plain STRUCT false 1 /\ b = plain STRUCT false 2) ->
  equal true (S g) selves a b =
  let* e := equal true g selves void_type void_type in if negb e then Ok false else let* e := equal true g selves (self 1) (self 2) in if negb e then Ok false else Ok true.
Proof. intros [(-> & ->)|(-> & ->)]; reflexivity. Qed.
Lemma never_equal f : type_equal f selves (self 1) (self 2) = Fuel.
Proof. unfold type_equal. induction f as [|f IH]; [reflexivity|]. rewrite never_step, IH by auto. destruct f; reflexivity. Qed.
Lemma never_equal' f : type_equal f selves (plain STRUCT false 1) (plain STRUCT false 2) = Fuel.
Proof. unfold type_equal. destruct f as [|f]; [reflexivity|]. pose proof (never_equal f) as IH. unfold type_equal in IH. rewrite never_step, IH by auto. destruct f; reflexivity. Qed.
Theorem C53_self_reference_refuted : forall f, sym_apply_type f selves (self 1) (self 2) = Fuel /\ compatible (TPtr unqualified (TTag STRUCT 1 false false)) (TPtr unqualified (TTag STRUCT 2 false false)) = false.
Proof.
  intro f. split; [|reflexivity]. destruct f as [|[|f]]; [reflexivity|reflexivity|].
  transitivity (let* e := type_equal f selves (plain STRUCT false 1) (plain STRUCT false 2) in if e then Ok (selves, self 1) else Stop); [reflexivity|]. now rewrite never_equal'.
Qed.
Print Assumptions C53_sign_refuted.
Print Assumptions C53_dots_refuted.
Print Assumptions C53_promotion_refuted.
Print Assumptions C53_const_elements_refuted.
Print Assumptions C53_structs_refuted.
Print Assumptions C53_valid_refused_refuted.
Print Assumptions C53_composite_refuted.
Print Assumptions C53_self_reference_refuted.
Print Assumptions C53_after_definition_refuted.
