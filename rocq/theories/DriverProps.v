(* C36: exit status.  C38: default output names, macros given with -D. *)
From Coq Require Import ZArith List Bool Lia.
From Verif Require Import DriverModel.
Import ListNotations.
Local Open Scope Z_scope.

(* ---- C36 ---- *)
Definition failed (e : file_event) : Prop := match e with CannotOpen | Fatal => True | Compiled n => n <> 0 end.
Definition errors_in (e : file_event) : Z := match e with Compiled n => n | _ => 1 end.
Definition total (l : list file_event) : Z := fold_right (fun e n => errors_in e + n) 0 l.
Definition linked (e : link_event) : Prop := e = Exited 0.

Lemma process_ok : forall l, Forall (fun e => 0 <= errors_in e) l ->
  (Forall (fun e => ~ failed e) l -> process_files 0 l = Some 0) /\
  (Exists failed l -> process_files 0 l = None \/ exists n, process_files 0 l = Some n /\ 1 <= n <= total l).
Proof.
  induction l as [|e l IH]; intros P.
  - split; [reflexivity|]. intro E. inversion E.
  - inversion P as [|? ? P1 P2]; subst. destruct (IH P2) as [A B].
    assert (T : 0 <= total l) by (clear - P2; induction l as [|x l IH]; simpl; [lia|]; inversion P2; subst; specialize (IH H2); unfold total in *; lia).
    split.
    + intro F. inversion F as [|? ? F1 F2]; subst. cbn [process_files]. destruct e as [| |n]; simpl in F1; try tauto.
      cbn [process_file]. destruct (Z.eqb_spec (0 + n) 0); [|lia]. replace (0 + n) with 0 by lia. apply A. exact F2.
    + intro E. cbn [process_files]. destruct e as [| |n]; cbn [process_file]; simpl in P1.
      * right. exists 1. split; [reflexivity|]. cbn [total fold_right errors_in]. unfold total in T. lia.
      * left. reflexivity.
      * destruct (Z.eqb_spec (0 + n) 0).
        -- replace (0 + n) with 0 by lia. inversion E as [? ? E1|? ? E1]; subst; [simpl in E1; lia|]. destruct (B E1) as [->|(k & -> & K)]; [left; reflexivity|].
           right. exists k. split; [reflexivity|]. simpl. unfold total in *. lia.
        -- right. exists (0 + n). split; [reflexivity|]. simpl. unfold total in *. lia.
Qed.

(* After the arguments have been accepted, the status is 0 if and only if no input failed and, when linking, the linker
   succeeded.  What is missing for the full statement: fewer than 256 errors are counted, and the linker could be started and
   was not killed; see the refutations. *)
Theorem C36_status_partial : forall files exe link,
  Forall (fun e => 0 <= errors_in e) files -> total files < 256 ->
  (exe = true -> link = ForkFailed \/ exists code, link = Exited code /\ 0 <= code < 256) ->
  (main 0 files exe link = 0 <-> Forall (fun e => ~ failed e) files /\ (exe = true -> linked link)).
Proof.
  intros files exe link P T L. destruct (process_ok files P) as [A B]. unfold main. cbn [Z.eqb negb].
  assert (D : forall e, failed e \/ ~ failed e) by (intros [| |n]; simpl; auto; destruct (Z.eq_dec n 0); lia).
  destruct (Exists_dec failed files) as [E|E]; [intros [| |n]; simpl; [left; exact I|left; exact I|destruct (Z.eq_dec n 0); [right|left]; lia]| |].
  - assert (NF : ~ Forall (fun e => ~ failed e) files) by (intro F; apply Exists_exists in E as (x & I & X); rewrite Forall_forall in F; exact (F x I X)).
    destruct (B E) as [->|(n & -> & N)].
    + split; [discriminate|tauto].
    + destruct (Z.eqb_spec n 0); [lia|]. destruct (Z.ltb_spec n 0); [lia|]. rewrite Z.mod_small by lia. split; [lia|tauto].
  - assert (F : Forall (fun e => ~ failed e) files) by (apply Forall_forall; intros x I X; apply E; apply Exists_exists; eauto).
    rewrite (A F). cbn [Z.eqb]. destruct exe; [|cbn; split; [intros _; split; [exact F|discriminate]|reflexivity]].
    destruct (L eq_refl) as [->|(code & -> & C)]; unfold invoke_linker, linked.
    + cbn. split; [discriminate|intros [_ H]; specialize (H eq_refl); discriminate].
    + cbn [status_word]. unfold wexitstatus. rewrite (Z.mod_small code) by lia. rewrite Z.div_mul by lia. rewrite (Z.mod_small code) by lia.
      destruct (Z.ltb_spec code 0); [lia|]. rewrite Z.mod_small by lia. split.
      * intros ->. split; [exact F|reflexivity].
      * intros [_ X]. specialize (X eq_refl). congruence.
Qed.
Print Assumptions C36_status_partial.
Example C36_instance : main 0 [Compiled 0; Compiled 3; Fatal] true (Exited 0) = 3 /\ main 0 [Compiled 0; Compiled 0] true (Exited 2) = 2 /\
  main 0 [Compiled 0; Compiled 0] true (Exited 0) = 0.
Proof. auto. Qed.

(* 256 errors, a linker that cannot be started (the child exits with status 0), and a linker killed by a signal all give
   status 0. *)
Theorem C36_status_refuted :
  (exists files, Exists failed files /\ main 0 files false (Exited 0) = 0) /\
  (exists files link, ~ linked link /\ main 0 files true link = 0 /\ link = ExecFailed) /\
  (exists files link, ~ linked link /\ main 0 files true link = 0 /\ link = Killed 9).
Proof.
  split; [|split].
  - exists [Compiled 256]. split; [constructor; simpl; lia|reflexivity].
  - exists [Compiled 0], ExecFailed. repeat split. discriminate.
  - exists [Compiled 0], (Killed 9). repeat split. discriminate.
Qed.
Print Assumptions C36_status_refuted.

(* ---- C38 ---- *)
Lemma strrchr_none : forall s c, ~ In c s -> strrchr s c = None.
Proof.
  induction s as [|x s IH]; intros c N; [reflexivity|]. simpl. rewrite IH by (intro; apply N; right; assumption).
  destruct (Z.eqb_spec x c) as [->|]; [exfalso; apply N; left; reflexivity|reflexivity].
Qed.
Lemma strrchr_app : forall a b c, ~ In c b -> strrchr (a ++ c :: b) c = Some (length a).
Proof.
  induction a as [|x a IH]; intros b c N; simpl.
  - rewrite strrchr_none by exact N. rewrite Z.eqb_refl. reflexivity.
  - rewrite IH by exact N. reflexivity.
Qed.
Lemma put_eq : forall a x b c, put (a ++ x :: b) (length a) c = Some (a ++ c :: b).
Proof. induction a as [|y a IH]; intros x b c; simpl; [reflexivity|]. rewrite IH. reflexivity. Qed.
Lemma puts_eq : forall s a b c, length b = length s -> puts (a ++ b ++ c) (length a) s = Some (a ++ s ++ c).
Proof.
  induction s as [|x s IH]; intros a b c L; destruct b as [|y b]; try discriminate; [reflexivity|]. simpl.
  rewrite put_eq. replace (a ++ x :: b ++ c) with ((a ++ [x]) ++ b ++ c) by (rewrite <- app_assoc; reflexivity).
  replace (S (length a)) with (length (a ++ [x])) by (rewrite app_length; simpl; lia). rewrite IH by (simpl in L; lia). rewrite <- app_assoc. reflexivity.
Qed.
Lemma cstring_eq : forall s r, ~ In 0 s -> cstring (s ++ 0 :: r) = Some s.
Proof.
  induction s as [|x s IH]; intros r N; [reflexivity|]. simpl. destruct (Z.eqb_spec x 0) as [->|]; [exfalso; apply N; left; reflexivity|].
  rewrite IH by (intro; apply N; right; assumption). reflexivity.
Qed.
Lemma name_of : forall base stem suffix, ~ In 0 stem -> ~ In 0 suffix -> suffix <> [] ->
  firstn (length stem) base = stem ->
  (match puts (repeat 0 (length stem + length suffix + 1)) 0 (firstn (length stem) base) with
   | None => None
   | Some buf =>
     let at_len := nth (length stem) buf 0 in
     if (at_len =? 0) || (at_len =? 46) then
       match put buf (length stem) 46 with
       | None => None
       | Some buf => match puts buf (length stem) (suffix ++ [0]) with
                     | None => None
                     | Some buf => match cstring buf with Some s => Some (Some s) | None => None end
                     end
       end
     else None
   end) = Some (Some (stem ++ suffix)).
Proof.
  intros base stem suffix N1 N2 NE F. rewrite F.
  replace (repeat 0 (length stem + length suffix + 1)) with ([] ++ repeat 0 (length stem) ++ repeat 0 (length suffix + 1)) by (simpl; rewrite <- repeat_app; f_equal; lia).
  rewrite (puts_eq stem [] (repeat 0 (length stem))) by apply repeat_length. cbn [app].
  destruct suffix as [|c suffix]; [congruence|]. cbn [length Nat.add repeat].
  rewrite app_nth2, Nat.sub_diag by lia. cbn [nth Z.eqb orb]. rewrite put_eq.
  replace (stem ++ 46 :: repeat 0 (length suffix + 1)) with (stem ++ (46 :: repeat 0 (length suffix + 1)) ++ []) by (rewrite app_nil_r; reflexivity).
  rewrite puts_eq by (simpl; rewrite app_length, repeat_length; simpl; lia). rewrite app_nil_r, app_assoc, cstring_eq; [reflexivity|].
  rewrite in_app_iff. tauto.
Qed.

(* The path of a file: the directory, ending in a slash if there is one; the name without extension; the extension. *)
Definition is_path (file dir stem ext : list Z) : Prop :=
  file = dir ++ stem ++ ext /\ (dir = [] \/ exists d, dir = d ++ [47]) /\ ~ In 47 (stem ++ ext) /\
  (ext = [] /\ ~ In 46 stem \/ exists e, ext = 46 :: e /\ ~ In 46 e).
(* The default output name is the name without directory, with the extension replaced; nothing is written outside the
   buffer and no assertion fails.  Every path without a NUL can be taken apart. *)
Theorem C38_name : forall file, ~ In 0 file ->
  (exists dir stem ext, is_path file dir stem ext) /\
  (forall dir stem ext t suffix, is_path file dir stem ext -> suffix_of t = Some suffix ->
     change_file_suffix file t = Some (Some (stem ++ suffix))).
Proof.
  intros file N. split.
  - assert (SP : forall (c : Z) s, exists a b, s = a ++ b /\ (a = [] \/ exists d, a = d ++ [c]) /\ ~ In c b).
    { intros c s. induction s as [|x s (a & b & -> & A & B)]; [exists [], []; auto|].
      destruct A as [->|(d & ->)].
      - destruct (Z.eq_dec x c) as [->|NE]; [exists [c], b; split; [reflexivity|]; split; [right; exists []; reflexivity|exact B]|].
        exists [], (x :: b). split; [reflexivity|]. split; [left; reflexivity|]. intros [->|I]; contradiction.
      - exists (x :: d ++ [c]), b. split; [reflexivity|]. split; [right; exists (x :: d); reflexivity|exact B]. }
    destruct (SP 47 file) as (dir & base & -> & D & B). destruct (SP 46 base) as (a & e & -> & A & E).
    destruct A as [->|(d & ->)].
    + exists dir, e, []. unfold is_path. rewrite app_nil_r. repeat split; auto.
    + exists dir, d, (46 :: e). unfold is_path. rewrite <- app_assoc in *. repeat split; eauto.
  - intros dir stem ext t suffix (-> & D & S & E) T. unfold change_file_suffix. rewrite T.
    assert (B : match strrchr (dir ++ stem ++ ext) 47 with Some n => skipn (Datatypes.S n) (dir ++ stem ++ ext) | None => dir ++ stem ++ ext end = stem ++ ext).
    { destruct D as [->|(d & ->)]; [simpl; rewrite strrchr_none by exact S; reflexivity|].
      rewrite <- app_assoc. cbn [app]. rewrite strrchr_app by exact S.
      replace (d ++ 47 :: stem ++ ext) with ((d ++ [47]) ++ stem ++ ext) by (rewrite <- app_assoc; reflexivity).
      rewrite skipn_app. replace (Datatypes.S (length d)) with (length (d ++ [47])) by (rewrite app_length; simpl; lia).
      rewrite skipn_all, Nat.sub_diag. reflexivity. }
    rewrite B. clear B.
    assert (L : match strrchr (stem ++ ext) 46 with Some n => n | None => length (stem ++ ext) end = length stem).
    { destruct E as [[-> E]|(e & -> & E)]; [rewrite app_nil_r, strrchr_none by exact E; reflexivity|]. rewrite strrchr_app by exact E. reflexivity. }
    rewrite L. clear L. apply name_of.
    + intro I. apply N. rewrite !in_app_iff. auto.
    + destruct t; inversion T; subst; simpl; intuition discriminate.
    + destruct t; inversion T; discriminate.
    + rewrite firstn_app, firstn_all, Nat.sub_diag. simpl. apply app_nil_r.
Qed.
Print Assumptions C38_name.

(* The output names of two inputs are different if their names without directory and extension are. *)
Theorem C38_distinct_partial : forall f1 f2 d1 d2 s1 s2 e1 e2 t n1 n2, ~ In 0 f1 -> ~ In 0 f2 ->
  is_path f1 d1 s1 e1 -> is_path f2 d2 s2 e2 -> s1 <> s2 ->
  change_file_suffix f1 t = Some (Some n1) -> change_file_suffix f2 t = Some (Some n2) -> n1 <> n2.
Proof.
  intros f1 f2 d1 d2 s1 s2 e1 e2 t n1 n2 N1 N2 P1 P2 NE H1 H2 ->.
  destruct (suffix_of t) as [suffix|] eqn:T; [|unfold change_file_suffix in H1; rewrite T in H1; discriminate].
  rewrite (proj2 (C38_name f1 N1) _ _ _ _ _ P1 T) in H1. rewrite (proj2 (C38_name f2 N2) _ _ _ _ _ P2 T) in H2.
  apply NE. apply (app_inv_tail suffix). congruence.
Qed.
Print Assumptions C38_distinct_partial.
(* Different inputs get the same output: a/x.c and b/x.c. *)
Theorem C38_distinct_refuted : exists f1 f2, f1 <> f2 /\ change_file_suffix f1 T_Obj = change_file_suffix f2 T_Obj /\ change_file_suffix f1 T_Obj <> None.
Proof. exists [97; 47; 120; 46; 99], [98; 47; 120; 46; 99]. repeat split; discriminate. Qed.
Print Assumptions C38_distinct_refuted.
(* An input can be its own output: with -x c, compiling x.o writes x.o. *)
Theorem C38_overwrite_refuted : exists f, change_file_suffix f T_Obj = Some (Some f).
Proof. exists [120; 46; 111]. reflexivity. Qed.
Print Assumptions C38_overwrite_refuted.
(* src/lib.d/x.tar.c becomes x.tar.s. *)
Example C38_instance : change_file_suffix [115; 46; 100; 47; 120; 46; 116; 46; 99] T_Asm = Some (Some [120; 46; 116; 46; 115]) /\
  is_path [115; 46; 100; 47; 120; 46; 116; 46; 99] [115; 46; 100; 47] [120; 46; 116] [46; 99].
Proof.
  split; [reflexivity|]. split; [reflexivity|]. split; [right; exists [115; 46; 100]; reflexivity|].
  split; [simpl; intuition discriminate|]. right. exists [99]. split; [reflexivity|]. simpl. intuition discriminate.
Qed.

(* -DX=V defines X as V, with V up to the end; -DX defines X as 1.  Nothing is written outside the buffer. *)
Definition define_text : list Z := [35; 100; 101; 102; 105; 110; 101; 32].
Theorem C38_define : forall name value, ~ In 0 name -> ~ In 0 value -> ~ In 61 name ->
  define_macro (name ++ 61 :: value) = Some (define_text ++ name ++ 32 :: value) /\
  define_macro name = Some (define_text ++ name ++ [32; 49]).
Proof.
  intros name value N V E.
  assert (C1 : forall n v, ~ In 61 n -> strchr (n ++ 61 :: v) 61 = Some (length n)).
  { induction n as [|x n IH]; intros v Q; [reflexivity|]. simpl. destruct (Z.eqb_spec x 61) as [->|]; [exfalso; apply Q; left; reflexivity|].
    rewrite IH by (intro; apply Q; right; assumption). reflexivity. }
  assert (C2 : forall n, ~ In 61 n -> strchr n 61 = None).
  { induction n as [|x n IH]; intros Q; [reflexivity|]. simpl. destruct (Z.eqb_spec x 61) as [->|]; [exfalso; apply Q; left; reflexivity|].
    rewrite IH by (intro; apply Q; right; assumption). reflexivity. }
  assert (PT : forall s n, (length s <= n)%nat -> puts (repeat 0 n) 0 s = Some (s ++ repeat 0 (n - length s))).
  { intros s n L. replace (repeat 0 n) with ([] ++ repeat 0 (length s) ++ repeat 0 (n - length s)) by (simpl; rewrite <- repeat_app; f_equal; lia).
    apply (puts_eq s []). apply repeat_length. }
  assert (DT : ~ In 0 define_text) by (simpl; intuition discriminate).
  unfold define_macro. fold define_text. split.
  - rewrite C1 by exact E. rewrite PT by (rewrite !app_length; simpl; lia).
    match goal with |- context [_ ++ repeat 0 ?n] => generalize (repeat 0 n); intro R end.
    replace (((define_text ++ name ++ 61 :: value) ++ [0]) ++ R) with ((define_text ++ name) ++ 61 :: value ++ 0 :: R)
      by (rewrite <- !app_assoc; cbn [app]; rewrite <- ?app_assoc; reflexivity).
    replace (8 + length name)%nat with (length (define_text ++ name)) by (rewrite app_length; reflexivity).
    rewrite put_eq. replace ((define_text ++ name) ++ 32 :: value ++ 0 :: R) with ((define_text ++ name ++ 32 :: value) ++ 0 :: R)
      by (rewrite <- !app_assoc; reflexivity).
    apply cstring_eq. rewrite !in_app_iff. cbn [In]. intuition discriminate.
  - rewrite C2 by exact E. rewrite PT by (rewrite !app_length; simpl; lia).
    match goal with |- context [cstring ?x] => set (b := x) end.
    assert (B : exists r, b = (define_text ++ name ++ [32; 49]) ++ 0 :: r) by (unfold b; eexists; rewrite <- !app_assoc; simpl; reflexivity).
    destruct B as (r & ->). apply cstring_eq. rewrite !in_app_iff. simpl. intuition discriminate.
Qed.
Print Assumptions C38_define.
