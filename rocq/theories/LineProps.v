(* C07: reading logical lines.  The statements; proofs are in LineProofs, LineSafe and LineFile. *)
From Coq Require Import ZArith String List Bool Lia Arith.
From Verif Require Import TokenizeSpec LineModel LineSpec LineProofs LineSafe LineFile.
Import ListNotations.
Local Open Scope Z_scope.

(* A logical line in the buffer, whatever follows: what is read is the text that phases 1 to 3 make of it, it is consumed together
   with the newline that ends it and nothing more, and all newlines are counted.  Missing from the full statement: two question
   marks that are no trigraph outside literals and comments, three in a row, and the trigraph for a backslash before a newline;
   these are refuted below. *)
Theorem C07_line_partial : forall cap p r t len, clear p -> ~ In 0 p -> logical_line false p t ->
  (List.length p < len)%nat -> (List.length p < cap)%nat ->
  read_line cap (p ++ 10 :: r) len = Line t r (newlines p + 1).
Proof. exact read_line_ok. Qed.

(* Any buffer contents x, followed by a NUL: no access outside the buffer, no write beyond the room for the line if that is as
   large as x; a line that is read ends at a newline of x, its newlines are counted, and it is not longer than what was consumed. *)
Theorem C07_safe : forall cap x, (List.length x <= cap)%nat ->
  match read_line cap (x ++ [0]) (List.length x) with
  | Line t rest n => exists u v, x = u ++ 10 :: v /\ rest = v ++ [0] /\ n = newlines (u ++ [10]) /\ (List.length t <= List.length u)%nat
  | Incomplete | Exit => True
  | Oob => False
  end.
Proof.
  intros cap x C. assert (G := read_line_gen cap x C). destruct (read_line cap (x ++ [0]) (List.length x)); auto.
  destruct G as (u & v & E & R & N & L & _). exists u, v. rewrite newlines_app. auto.
Qed.

(* Calling initial_preprocess_line until it gives no more: the lines with the line number after each, and how it ended.  The
   number of calls, and the fuel of each, are bounded. *)
Fixpoint read_file (calls fuel : nat) (s : source) : list (list Z * nat) * got :=
  match calls with
  | O => ([], Spin)
  | S k => match initial_preprocess_line fuel s with
           | Got t s' => let (ls, e) := read_file k fuel s' in ((t, s'.(lines)) :: ls, e)
           | e => ([], e)
           end
  end.
(* The same with the whole text in one buffer *)
Fixpoint read_text (calls : nat) (x : list Z) (n : nat) : list (list Z * nat) * got :=
  match calls with
  | O => ([], Spin)
  | S k => match x with
           | [] => ([], Done)
           | _ => match read_line (List.length x) (x ++ [0]) (List.length x) with
                  | Line t rest m => let (ls, e) := read_text k (removelast rest) (n + m) in ((t, (n + m)%nat) :: ls, e)
                  | Incomplete | Exit => ([], Failed)
                  | Oob => ([], Bad)
                  end
           end
  end.
Lemma read_text_S : forall k x n, read_text (S k) x n = match x with
  | [] => ([], Done)
  | _ => match read_line (List.length x) (x ++ [0]) (List.length x) with
         | Line t rest m => let (ls, e) := read_text k (removelast rest) (n + m) in ((t, (n + m)%nat) :: ls, e)
         | Incomplete | Exit => ([], Failed)
         | Oob => ([], Bad)
         end
  end.
Proof. reflexivity. Qed.
Lemma removelast_0 : forall x : list Z, removelast (x ++ [0]) = x.
Proof. intro x. rewrite removelast_app by discriminate. apply app_nil_r. Qed.
Lemma whole_suffix : forall x t rest n, whole x = Line t (rest ++ [0]) n -> exists u, x = u ++ 10 :: rest.
Proof.
  intros x t rest n H. assert (G := whole_prefix x []). rewrite H in G. destruct G as (u & v & E & R & _).
  apply app_inj_tail in R as [-> _]. eauto.
Qed.
Lemma read_file_text : forall calls fuel s, Inv s -> last (pending s) 10 = 10 -> (List.length (pending s) + 3 < fuel)%nat ->
  read_file calls fuel s = read_text calls (pending s) s.(lines).
Proof.
  induction calls as [|k IH]; intros fuel s I L F; [reflexivity|]. cbn [read_file read_text].
  assert (M : (measure s < fuel)%nat).
  { unfold measure. assert (List.length (file s) <= List.length (pending s))%nat by (unfold pending; rewrite app_length; lia).
    destruct (eof s), (Nat.eqb (processed s) 0); lia. }
  assert (G := file_gen fuel s I L M). destruct (initial_preprocess_line fuel s) as [t s'| | | |].
  - destruct G as (rest & n & W & P & LN & I'). assert (NE : pending s <> []).
    { destruct (whole_suffix _ _ _ _ W) as [u E]. rewrite E. destruct u; discriminate. }
    destruct (pending s) as [|a x] eqn:E; [congruence|]. rewrite <- E in *. fold (whole (pending s)). rewrite W, removelast_0.
    destruct (whole_suffix _ _ _ _ W) as [u EU].
    rewrite IH; [rewrite P, LN; reflexivity|auto| |].
    + rewrite P. rewrite EU in L. apply (last_app10 (u ++ [10])). now rewrite <- app_assoc.
    + rewrite P. rewrite EU, app_length in F. cbn [List.length] in F. lia.
  - rewrite G. reflexivity.
  - destruct G as [NE W]. destruct (pending s) as [|a x] eqn:E; [congruence|]. rewrite <- E in *. fold (whole (pending s)).
    destruct W as [W|W]; rewrite W; reflexivity.
  - destruct G.
  - destruct G.
Qed.
Lemma open_inv : forall room x, (FILE_BUFFER_SIZE <= room)%nat -> Inv (open_file room x).
Proof.
  intros. assert (1 < FILE_BUFFER_SIZE)%nat by (unfold FILE_BUFFER_SIZE; lia). constructor; cbn [open_file processed data size rlen eof file term List.length]; auto; try lia; discriminate.
Qed.
(* Every file that is empty or ends in a newline, whatever it contains: reading it through the buffer gives what reading it from
   one large buffer gives; nothing outside the buffers is touched, and it ends. *)
Theorem C07_buffer : forall room x fuel calls, last x 10 = 10 -> (FILE_BUFFER_SIZE <= room)%nat -> (List.length x + 3 < fuel)%nat ->
  read_file calls fuel (open_file room x) = read_text calls x 0.
Proof.
  intros. rewrite (read_file_text calls fuel (open_file room x)); auto; [now apply open_inv].
Qed.

(* A file made of logical lines: exactly their contents, with the right line numbers, and then the end. *)
Fixpoint numbered (n : nat) (ls : list (list Z * list Z)) : list (list Z * nat) :=
  match ls with [] => [] | (p, t) :: ls => (t, (n + newlines (p ++ [10%Z]))%nat) :: numbered (n + newlines (p ++ [10%Z])) ls end.
Theorem C07_file_partial : forall room (ls : list (list Z * list Z)) fuel x,
  (forall p t, In (p, t) ls -> clear p /\ ~ In 0 p /\ logical_line false p t) ->
  x = concat (map (fun l => fst l ++ [10]) ls) -> (FILE_BUFFER_SIZE <= room)%nat -> (List.length x + 3 < fuel)%nat ->
  read_file (S (List.length ls)) fuel (open_file room x) = (numbered 0 ls, Done).
Proof.
  intros rl ls fuel x G E R F. rewrite C07_buffer; auto.
  - rewrite E. clear R F E x. generalize 0%nat as n. induction ls as [|[p t] ls IH]; intro n; [reflexivity|].
    cbn [map concat fst]. set (y := concat (map (fun l => fst l ++ [10]) ls)) in *.
    destruct (G p t (or_introl eq_refl)) as (G1 & G2 & G3).
    assert (W : read_line (List.length ((p ++ [10]) ++ y)) (((p ++ [10]) ++ y) ++ [0]) (List.length ((p ++ [10]) ++ y)) = Line t (y ++ [0]) (newlines p + 1)).
    { replace (((p ++ [10]) ++ y) ++ [0]) with (p ++ 10 :: y ++ [0]) by now rewrite <- !app_assoc.
      apply read_line_ok; auto; rewrite !app_length; cbn [List.length]; lia. }
    cbn [List.length numbered]. rewrite read_text_S. destruct ((p ++ [10]) ++ y) as [|a z] eqn:EZ; [destruct p; discriminate|]. rewrite <- EZ in *.
    rewrite W, removelast_0. replace (newlines p + 1)%nat with (newlines (p ++ [10%Z])) by (rewrite newlines_app; reflexivity).

    rewrite (IH (fun p t H => G p t (or_intror H)) (n + newlines (p ++ [10%Z]))%nat). reflexivity.
  - rewrite E. clear. induction ls as [|[p t] ls IH]; [reflexivity|]. cbn [map concat fst].
    destruct (concat (map (fun l => fst l ++ [10]) ls)) as [|a z] eqn:EZ.
    + rewrite app_nil_r. apply last_last.
    + rewrite <- EZ in *. clear - IH EZ. assert (NE : concat (map (fun l : list Z * list Z => fst l ++ [10]) ls) <> []) by (rewrite EZ; discriminate).
      revert IH NE. generalize (concat (map (fun l : list Z * list Z => fst l ++ [10]) ls)) as w. intros w IH NE.
      induction (p ++ [10]) as [|b q IQ]; [exact IH|]. cbn [app]. rewrite last_cons. destruct (q ++ w) eqn:Q; [apply app_eq_nil in Q; tauto|exact IQ].
Qed.

(* The four restrictions are needed. *)
Definition nl : string := String (Ascii.ascii_of_nat 10) EmptyString.
Theorem C07_query_refuted : exists p t, clear p /\ ~ In 0 p /\ logical_line true p t /\
  exists t', read_line 100 (p ++ [10; 0]) (List.length p + 1) = Line t' [0] 1 /\ t' <> t.
Proof.
  exists (chars "a??b"), (chars "a??b"). split; [cbn; repeat split; discriminate|]. split; [cbn; intuition discriminate|]. split.
  - split; [vm_compute; discriminate|]. vm_compute. repeat (apply p3_char; [discriminate|discriminate|discriminate|discriminate|now left|]). apply p3_end.
  - exists (chars "a??"). split; [vm_compute; reflexivity|discriminate].
Qed.
Theorem C07_queries_refuted : exists p t, ~ In 0 p /\ logical_line false p t /\
  exists t', read_line 100 (p ++ [10; 0]) (List.length p + 1) = Line t' [0] 1 /\ t' <> t.
Proof.
  exists (chars "a???=b"), (chars "a?#b"). split; [cbn; intuition discriminate|]. split.
  - split; [vm_compute; discriminate|]. vm_compute.
    repeat (apply p3_char; [discriminate|discriminate|discriminate|discriminate|right; (left; discriminate) || (right; discriminate)|]). apply p3_end.
  - eexists. split; [vm_compute; reflexivity|discriminate].
Qed.
Theorem C07_trigraph_splice_refuted : exists p t, ~ In 0 p /\ logical_line false p t /\
  exists t' rest, read_line 100 (p ++ [10; 0]) (List.length p + 1) = Line t' rest 1 /\ t' <> t /\ rest <> [0].
Proof.
  exists (chars ("a??/" ++ nl ++ "b")), (chars "ab"). split; [cbn; intuition discriminate|]. split.
  - split; [vm_compute; discriminate|]. vm_compute.
    repeat (apply p3_char; [discriminate|discriminate|discriminate|discriminate|right; left; discriminate|]). apply p3_end.
  - eexists _, _. split; [vm_compute; reflexivity|split; discriminate].
Qed.
(* A newline inside a literal, after splicing, is accepted. *)
Theorem C07_literal_refuted : exists p t, clear p /\ ~ In 0 p /\ last (phase1 p) 0 <> 92 /\
  read_line 100 (p ++ [10; 0]) (List.length p + 1) = Line t [0] (newlines p + 1) /\
  forall t', ~ phase3 true (phase2 (phase1 p)) t'.
Proof.
  exists (chars ("'\\" ++ nl ++ nl ++ "a'")), (chars "'a'"). split; [cbn; repeat split; discriminate|].
  split; [cbn; intuition discriminate|]. split; [vm_compute; discriminate|]. split; [vm_compute; reflexivity|].
  vm_compute. intros t' P. inversion P as [|? ? ? ? ? N| ? ? ? ? ? ? Q| |]; subst; [lia|].
  inversion Q; subst; [congruence|]. match goal with H : quoted _ true _ _ _ |- _ => inversion H end. lia.
Qed.
(* A file that does not end in a newline: accesses outside the buffer, or a failed assertion. *)
Theorem C07_end_refuted :
  (exists x t s, ~ In 0 x /\ initial_preprocess_line 100 (open_file FILE_BUFFER_SIZE x) = Got t s /\ initial_preprocess_line 100 s = Bad) /\
  (exists x, ~ In 0 x /\ initial_preprocess_line 100 (open_file FILE_BUFFER_SIZE x) = Bad).
Proof.
  split.
  - exists (chars "a//b"), (chars "a"). eexists. split; [cbn; intuition discriminate|]. split; [vm_compute; reflexivity|]. vm_compute. reflexivity.
  - exists (chars "/*"). split; [cbn; intuition discriminate|]. vm_compute. reflexivity.
Qed.

(* Instances: a splice inside a string, a comment over two lines, a trigraph and a line comment; what follows stays. *)
Definition sample : list Z := chars ("x = " ++ String (Ascii.ascii_of_nat 34) "a/*\" ++ nl ++ "b" ++ String (Ascii.ascii_of_nat 34) " /* c" ++ nl ++ " **/+??( // d").
Definition sample_text : list Z := chars ("x = " ++ String (Ascii.ascii_of_nat 34) "a/*b" ++ String (Ascii.ascii_of_nat 34) "  +[ ").
Lemma sample_ok : clear sample /\ ~ In 0 sample /\ logical_line false sample sample_text.
Proof.
  split; [cbn; repeat split; discriminate|]. split; [cbn; intuition discriminate|]. split; [vm_compute; discriminate|].
  vm_compute. repeat (apply p3_char; [discriminate|discriminate|discriminate|discriminate|right; left; discriminate|]).
  apply (p3_literal false 34 _ [97; 47; 42; 98; 34] [32; 47; 42; 32; 99; 10; 32; 42; 42; 47; 43; 91; 32; 47; 47; 32; 100]).
  - now left.
  - repeat (apply quoted_char; [discriminate|discriminate|discriminate|]). apply quoted_end.
  - apply p3_char; [discriminate|discriminate|discriminate|discriminate|right; left; discriminate|].
    eapply p3_comment; [reflexivity|]. repeat (apply p3_char; [discriminate|discriminate|discriminate|discriminate|right; left; discriminate|]).
    apply p3_line_comment. cbn. intuition discriminate.
Qed.
Example C07_instance : read_line 200 (sample ++ 10 :: chars "y") (List.length sample + 2) = Line sample_text (chars "y") 3.
Proof. apply C07_line_partial; [apply sample_ok|apply sample_ok|apply sample_ok| |]; vm_compute; lia. Qed.
Example C07_file_instance : read_file 3 200 (open_file FILE_BUFFER_SIZE (sample ++ [10] ++ sample ++ [10])) = ([(sample_text, 3%nat); (sample_text, 6%nat)], Done).
Proof.
  rewrite (C07_file_partial FILE_BUFFER_SIZE [(sample, sample_text); (sample, sample_text)]); auto.
  - intros p t [H|[H|[]]]; injection H as <- <-; exact sample_ok.
  - vm_compute. lia.
Qed.
Example C07_safe_instance : read_line 7 (chars "/* ?\??" ++ [0]) 7 = Incomplete /\ exists t r n, read_line 7 (chars ("??'" ++ nl ++ "?\?") ++ [0]) 7 = Line t r n.
Proof. split; [vm_compute; reflexivity|]. eexists _, _, _. vm_compute. reflexivity. Qed.

Print Assumptions C07_line_partial.
Print Assumptions C07_safe.
Print Assumptions C07_buffer.
Print Assumptions C07_file_partial.
Print Assumptions C07_query_refuted.
Print Assumptions C07_queries_refuted.
Print Assumptions C07_trigraph_splice_refuted.
Print Assumptions C07_literal_refuted.
Print Assumptions C07_end_refuted.
