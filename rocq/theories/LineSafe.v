(* Reading a line from any memory that ends in a NUL: nothing outside is touched, newlines are counted, and the outcome does not
   depend on how much of the file is in the buffer. *)
From Coq Require Import ZArith String List Bool Lia Arith.
From Verif Require Import TokenizeSpec LineModel LineSpec LineProofs.
Import ListNotations.
Local Open Scope Z_scope.

Definition comment_spec (star : bool) (x : list Z) (l : nat) : Prop :=
  match read_comment star (x ++ [0]) l with
  | Closed rest n => exists u v, x = u ++ v /\ rest = v ++ [0] /\ n = (l + newlines u)%nat /\
                       forall y, read_comment star (x ++ y) l = Closed (v ++ y) n
  | Unclosed => True
  | CommentOob => False
  end.
Lemma comment_gen : forall n x star l, (length x <= n)%nat -> comment_spec star x l.
Proof.
  induction n as [|n IH]; intros x star l LE; (destruct x as [|c x]; [unfold comment_spec; destruct star; exact I|]); cbn [length] in LE; [lia|].
  assert (P : forall star' l', (forall y, read_comment star ((c :: x) ++ y) l = read_comment star' (x ++ y) l') ->
            (l' = l + newlines [c])%nat -> comment_spec star (c :: x) l).
  { intros star' l' E N. unfold comment_spec. rewrite E. assert (Q := IH x star' l' ltac:(lia)). unfold comment_spec in Q.
    destruct (read_comment star' (x ++ [0]) l') as [rest m| |]; auto. destruct Q as (u & v & -> & -> & -> & R).
    exists (c :: u), v. split; [reflexivity|]. split; [reflexivity|]. split; [change (c :: u) with ([c] ++ u); rewrite newlines_app; lia|]. intro y. rewrite E. apply R. }
  destruct (Z.eqb_spec c 0) as [->|N0].
  { unfold comment_spec. cbn. destruct star; [|exact I]. destruct (x ++ [0]); exact I. }
  destruct star.
  - destruct (Z.eqb_spec c 47) as [->|N47].
    { unfold comment_spec. cbn. exists [47], x. repeat split; cbn; try lia; reflexivity. }
    destruct (Z.eqb_spec c 92) as [->|N92].
    + destruct x as [|d x].
      * unfold comment_spec. exact I.
      * destruct (Z.eqb_spec d 10) as [->|N10].
        -- assert (E : forall y, read_comment true ((92 :: 10 :: x) ++ y) l = read_comment true (x ++ y) (S l)) by reflexivity.
           unfold comment_spec. rewrite E. assert (Q := IH x true (S l) ltac:(cbn in LE; lia)). unfold comment_spec in Q.
           destruct (read_comment true (x ++ [0]) (S l)) as [rest m| |]; auto. destruct Q as (u & v & -> & -> & -> & R).
           exists (92 :: 10 :: u), v. split; [reflexivity|]. split; [reflexivity|]. split; [rewrite !newlines_cons; cbn; lia|]. intro y. rewrite E. apply R.
        -- apply (P false l); [|cbn; lia]. intro y. rewrite <- !app_comm_cons.
           change (read_comment true (92 :: d :: x ++ y) l) with (if d =? 10 then read_comment true (x ++ y) (S l) else read_comment false (d :: x ++ y) l).
           now rewrite (eqb_no d 10) by auto.
    + apply (P (c =? 42) (if c =? 10 then S l else l)); [|rewrite newlines_cons; destruct (c =? 10); cbn; lia].
      intro y. rewrite <- app_comm_cons. apply rc_plain; auto.
  - apply (P (c =? 42) (if c =? 10 then S l else l)); [|rewrite newlines_cons; destruct (c =? 10); cbn; lia].
    intro y. rewrite <- app_comm_cons. apply rc_plain; auto. discriminate.
Qed.

Definition line_comment_spec (x : list Z) (l : nat) : Prop :=
  match read_line_comment (x ++ [0]) l with
  | Closed rest n => exists u v, x = u ++ 10 :: v /\ rest = v ++ [0] /\ n = (l + newlines u)%nat /\
                       forall y, read_line_comment (x ++ y) l = Closed (v ++ y) n
  | Unclosed => True
  | CommentOob => False
  end.
Lemma line_comment_gen : forall n x l, (length x <= n)%nat -> line_comment_spec x l.
Proof.
  induction n as [|n IH]; intros x l LE; (destruct x as [|c x]; [exact I|]); cbn [length] in LE; [lia|].
  assert (P : (forall y, read_line_comment ((c :: x) ++ y) l = read_line_comment (x ++ y) l) -> c <> 10 -> line_comment_spec (c :: x) l).
  { intros E N. unfold line_comment_spec. rewrite E. assert (Q := IH x l ltac:(lia)). unfold line_comment_spec in Q.
    destruct (read_line_comment (x ++ [0]) l) as [rest m| |]; auto. destruct Q as (u & v & -> & -> & -> & R).
    exists (c :: u), v. split; [reflexivity|]. split; [reflexivity|]. split; [rewrite newlines_cons, (eqb_no c 10) by auto; lia|].
    intro y. rewrite E. apply R. }
  destruct (Z.eqb_spec c 0) as [->|N0]; [exact I|].
  destruct (Z.eqb_spec c 10) as [->|N10].
  { unfold line_comment_spec. cbn. exists [], x. repeat split; cbn; try lia; reflexivity. }
  destruct (Z.eqb_spec c 92) as [->|N92].
  - destruct x as [|d x]; [exact I|]. destruct (Z.eqb_spec d 10) as [->|Nd].
    + assert (E : forall y, read_line_comment ((92 :: 10 :: x) ++ y) l = read_line_comment (x ++ y) (S l)) by reflexivity.
      unfold line_comment_spec. rewrite E. assert (Q := IH x (S l) ltac:(cbn in LE; lia)). unfold line_comment_spec in Q.
      destruct (read_line_comment (x ++ [0]) (S l)) as [rest m| |]; auto. destruct Q as (u & v & -> & -> & -> & R).
      exists (92 :: 10 :: u), v. split; [reflexivity|]. split; [reflexivity|]. split; [rewrite !newlines_cons; cbn; lia|]. intro y. rewrite E. apply R.
    + apply P; [|lia]. intro y. rewrite <- !app_comm_cons.
      change (read_line_comment (92 :: d :: x ++ y) l) with (if d =? 10 then read_line_comment (x ++ y) (S l) else read_line_comment (d :: x ++ y) l).
      now rewrite (eqb_no d 10) by auto.
  - apply P; auto. intro y. rewrite <- app_comm_cons. now apply rlc_plain.
Qed.

Definition literal_spec (cap : nat) (q : Z) (x w : list Z) (l : nat) : Prop :=
  match read_literal_loop cap q (x ++ [0]) w l with
  | LitDone rest w' n => exists u v, x = u ++ v /\ rest = v ++ [0] /\ n = (l + newlines u)%nat /\ (length w' <= length w + length u)%nat /\
                           forall y cap2, (cap <= cap2)%nat -> read_literal_loop cap2 q (x ++ y) w l = LitDone (v ++ y) w' n
  | LitNone => forall cap2, (cap <= cap2)%nat -> read_literal_loop cap2 q (x ++ [0]) w l = LitNone
  | LitError => forall y cap2, (cap <= cap2)%nat -> read_literal_loop cap2 q (x ++ y) w l = LitError
  | LitOob => False
  end.
Lemma literal_gen : forall cap q n x w l, q <> 92 -> (length x <= n)%nat -> In q w -> (length w + length x <= cap)%nat -> literal_spec cap q x w l.
Proof.
  intros cap q n x w l Q. revert x w l. induction n as [|n IH]; intros x w l LE W CAP; (destruct x as [|c x]; [intros ? ?; reflexivity|]); cbn [length] in LE, CAP; [lia|].
  assert (LT : forall cap2, (cap <= cap2)%nat -> Nat.ltb (length w) cap2 = true) by (intros; apply Nat.ltb_lt; lia).
  assert (P : forall d x' w' l', c :: x = d ++ x' -> d <> [] -> (forall y cap2, (cap <= cap2)%nat -> read_literal_loop cap2 q ((c :: x) ++ y) w l = read_literal_loop cap2 q (x' ++ y) w' l') ->
    In q w' -> (length w' <= S (length w))%nat -> (l' = l + newlines d)%nat -> literal_spec cap q (c :: x) w l).
  { intros d x' w' l' E NE EQ W' LW LN. unfold literal_spec. rewrite EQ by lia.
    assert (LX : length (c :: x) = (length d + length x')%nat) by (rewrite E; apply app_length). cbn [length] in LX.
    assert (0 < length d)%nat by (destruct d; [congruence|cbn; lia]).
    assert (S := IH x' w' l' ltac:(lia) W' ltac:(lia)). unfold literal_spec in S.
    destruct (read_literal_loop cap q (x' ++ [0]) w' l') as [rest w2 m| | |]; [| | |exact S].
    - destruct S as (u & v & -> & -> & -> & L2 & R). exists (d ++ u), v. split; [rewrite E; apply app_assoc|]. split; [reflexivity|].
      split; [rewrite newlines_app; lia|]. split; [rewrite app_length; lia|]. intros y cap2 C2. rewrite EQ by auto. now apply R.
    - intros cap2 C2. rewrite EQ by auto. now apply S.
    - intros y cap2 C2. rewrite EQ by auto. now apply S. }
  assert (COPY : (forall y cap2, (cap <= cap2)%nat -> read_literal_loop cap2 q ((c :: x) ++ y) w l = read_literal_loop cap2 q (x ++ y) (c :: w) l) -> c <> 10 -> literal_spec cap q (c :: x) w l).
  { intros E N. apply (P [c] x (c :: w) l); auto; [discriminate|now right|]. rewrite newlines_cons, (eqb_no c 10) by auto. cbn. lia. }
  destruct (Z.eqb_spec c 0) as [->|N0]; [intros ? ?; reflexivity|].
  destruct (Z.eqb_spec c 10) as [->|N10].
  { destruct w as [|b w]; [destruct W|]. destruct (Z.eqb_spec b 92) as [->|NB].
    - apply (P [10] x w (S l)); auto; [discriminate|destruct W; [congruence|auto]|cbn; lia|cbn; lia].
    - unfold literal_spec. cbn [app read_literal_loop]. cbn [Z.eqb Pos.eqb]. rewrite (eqb_no b 92) by auto. reflexivity. }
  destruct (Z.eqb_spec c 63) as [->|N63].
  { assert (EX : forall s cap2, (cap <= cap2)%nat -> read_literal_loop cap2 q (63 :: s) w l = match s with [] => LitOob | d :: r2 => if d =? 63 then match r2 with [] => LitOob
                 | e :: r3 => let t := read_trigraph e in if t =? 0 then read_literal_loop cap2 q s (63 :: w) l else read_literal_loop cap2 q r3 (t :: w) l end
                 else read_literal_loop cap2 q s (63 :: w) l end).
    { intros [|d s] cap2 C2; [reflexivity|]. cbn [read_literal_loop]. cbn [Z.eqb Pos.eqb]. rewrite LT by auto. destruct (d =? 63); [|reflexivity]. destruct s; reflexivity. }
    destruct x as [|d x].
    - unfold literal_spec. cbn [app]. rewrite EX by lia. intros cap2 C2. rewrite EX by lia. reflexivity.
    - destruct (Z.eqb_spec d 63) as [->|Nd].
      + destruct x as [|e x].
        * assert (E : forall cap2, (cap <= cap2)%nat -> read_literal_loop cap2 q (([63; 63] : list Z) ++ [0]) w l = LitNone).
          { intros cap2 C2. cbn [app]. rewrite EX by lia. cbn [Z.eqb Pos.eqb]. cbn [read_trigraph Z.eqb]. cbn [read_literal_loop]. cbn [Z.eqb Pos.eqb].
            destruct (Nat.ltb (length (63 :: w)) cap2) eqn:LT2; [reflexivity|]. apply Nat.ltb_ge in LT2. cbn [length] in *. lia. }
          unfold literal_spec. rewrite E by lia. exact E.
        * destruct (Z.eqb_spec (read_trigraph e) 0) as [T|T].
          -- apply COPY; [|lia]. intros y cap2 C2. rewrite <- !app_comm_cons. rewrite EX by lia. cbn [Z.eqb Pos.eqb]. rewrite T. reflexivity.
          -- apply (P [63; 63; e] x (read_trigraph e :: w) l); auto.
             ++ discriminate.
             ++ intros y cap2 C2. rewrite <- !app_comm_cons. rewrite EX by lia. cbn [Z.eqb Pos.eqb]. cbv zeta. rewrite (eqb_no _ _ T). reflexivity.
             ++ now right.
             ++ assert (TS := tri_some _ _ eq_refl T). apply trigraph_pos in TS. rewrite !newlines_cons, (eqb_no e 10) by tauto. cbn. lia.
      + apply COPY; [|lia]. intros y cap2 C2. rewrite <- !app_comm_cons. rewrite EX, (eqb_no d 63) by auto. reflexivity. }
  destruct (Bool.bool_dec ((c =? q) && Nat.even (backslashes w)) true) as [F|F].
  - unfold literal_spec. assert (E : forall s cap2, (cap <= cap2)%nat -> read_literal_loop cap2 q (c :: s) w l = LitDone s (c :: w) l).
    { intros s cap2 C2. cbn [read_literal_loop]. rewrite (eqb_no c 0), (eqb_no c 10), (eqb_no c 63), F, LT by auto. reflexivity. }
    cbn [app]. rewrite E by lia. exists [c], x. split; [reflexivity|]. split; [reflexivity|]. split; [rewrite newlines_cons, (eqb_no c 10) by auto; cbn; lia|].
    split; [cbn; lia|]. intros y cap2 C2. now apply E.
  - apply COPY; auto. intros y cap2 C2. cbn [app read_literal_loop]. apply not_true_is_false in F. rewrite (eqb_no c 0), (eqb_no c 10), (eqb_no c 63), F, LT by auto. reflexivity.
Qed.

(* the loops: x, what is left of the buffer; d, what start has before it. *)
Definition rest_spec (f cap : nat) (x d : list Z) (count : nat) (w : list Z) (l : nat) : Prop :=
  match read_rest f cap (x ++ [0]) (length x) (d ++ x ++ [0]) count w l with
  | Line t rest n => exists u v, x = u ++ 10 :: v /\ rest = v ++ [0] /\ n = (l + newlines u + 1)%nat /\ (length t <= length w + count + length u)%nat /\
                       forall y f2 m cap2, (cap <= cap2)%nat -> (f <= f2)%nat -> read_rest f2 cap2 (x ++ y) (length x + m) (d ++ x ++ y) count w l = Line t (v ++ y) n
  | Incomplete => forall f2 cap2, (cap <= cap2)%nat -> (f <= f2)%nat -> read_rest f2 cap2 (x ++ [0]) (length x) (d ++ x ++ [0]) count w l = Incomplete
  | Exit => forall y f2 m cap2, (cap <= cap2)%nat -> (f <= f2)%nat -> read_rest f2 cap2 (x ++ y) (length x + m) (d ++ x ++ y) count w l = Exit
  | Oob => False
  end.
Lemma flush_some : forall cap count (d x w : list Z), (length w + count <= cap)%nat -> (count <= length d)%nat ->
  flush cap (d ++ x) count w = Some (rev (firstn count d) ++ w).
Proof.
  intros. unfold flush. rewrite app_length. replace (Nat.leb (length w + count) cap) with true by (symmetry; apply Nat.leb_le; lia).
  replace (Nat.leb count (length d + length x)) with true by (symmetry; apply Nat.leb_le; lia). cbn [andb].
  rewrite firstn_app. replace (count - length d)%nat with O by lia. now rewrite firstn_O, app_nil_r.
Qed.
Lemma skip_some : forall count (d x : list Z), (count <= length d)%nat -> skipn count (d ++ x) = skipn count d ++ x.
Proof. intros. rewrite skipn_app. replace (count - length d)%nat with O by lia. reflexivity. Qed.
Lemma rest_gen : forall f cap x d count w l, (length x < f)%nat -> (count <= length d)%nat -> (length w + count + length x <= cap)%nat ->
  rest_spec f cap x d count w l.
Proof.
  induction f as [|f IH]; intros cap x d count w l F D CAP; [lia|].
  destruct x as [|c x]; [intros [|f2] cap2 C2 F2; [lia|]; reflexivity|]. cbn [length] in F, CAP.
  (* a step that goes on with x', having consumed p *)
  assert (STEP : forall p x' d' count' w' l', c :: x = p ++ x' -> p <> [] ->
    (forall y f2 m cap2, (cap <= cap2)%nat -> read_rest (S f2) cap2 ((c :: x) ++ y) (length (c :: x) + m) (d ++ (c :: x) ++ y) count w l = read_rest f2 cap2 (x' ++ y) (length x' + m) (d' ++ x' ++ y) count' w' l') ->
    (count' <= length d')%nat -> (length w' + count' <= length w + count + length p)%nat -> (l' = l + newlines p)%nat ->
    rest_spec (S f) cap (c :: x) d count w l).
  { intros p x' d' count' w' l' E NE EQ D' W' L'. unfold rest_spec.
    assert (LX : length (c :: x) = (length p + length x')%nat) by (rewrite E; apply app_length).
    assert (0 < length p)%nat by (destruct p; [congruence|cbn; lia]). cbn [length] in LX.
    assert (Q := IH cap x' d' count' w' l' ltac:(lia) D' ltac:(lia)). unfold rest_spec in Q.
    assert (E0 := EQ [0] f O cap (le_n _)). rewrite !Nat.add_0_r in E0. rewrite E0. clear E0.
    destruct (read_rest f cap (x' ++ [0]) (length x') (d' ++ x' ++ [0]) count' w' l') as [t rest n| | |]; [| | |exact Q].
    - destruct Q as (u & v & -> & -> & -> & LT & R). exists (p ++ u), v. split; [rewrite E; apply app_assoc|]. split; [reflexivity|].
      split; [rewrite newlines_app; lia|]. split; [rewrite app_length; lia|]. intros y [|f2] m cap2 C2 F2; [lia|]. rewrite EQ by auto. apply R; lia.
    - intros [|f2] cap2 C2 F2; [lia|]. assert (E0 := EQ [0] f2 O cap2 C2). rewrite !Nat.add_0_r in E0. rewrite E0. apply Q; lia.
    - intros y [|f2] m cap2 C2 F2; [lia|]. rewrite EQ by auto. apply Q; lia. }
  assert (FL : forall y cap2, (cap <= cap2)%nat -> flush cap2 (d ++ y) count w = Some (rev (firstn count d) ++ w)) by (intros; apply flush_some; lia).
  assert (SK : forall y, skipn count (d ++ y) = skipn count d ++ y) by (intro; now apply skip_some).
  assert (LF : length (rev (firstn count d)) = count) by (rewrite rev_length, firstn_length; lia).
  set (v := rev (firstn count d) ++ w) in *. assert (LV : length v = (count + length w)%nat) by (unfold v; rewrite app_length; lia).
  destruct (Z.eqb_spec c 10) as [->|N10].
  { unfold rest_spec. rewrite <- app_comm_cons. cbn [read_rest length]. cbn [Z.eqb Pos.eqb]. unfold finish. rewrite FL by lia.
    replace (Nat.ltb (length v) cap) with true by (symmetry; apply Nat.ltb_lt; lia).
    exists [], x. split; [reflexivity|]. split; [reflexivity|]. split; [cbn; lia|]. split; [rewrite rev_length; cbn; lia|].
    intros y [|f2] m cap2 C2 F2; [lia|]. rewrite <- app_comm_cons. cbn [read_rest Nat.add]. cbn [Z.eqb Pos.eqb]. unfold finish. rewrite FL by lia.
    replace (Nat.ltb (length v) cap2) with true by (symmetry; apply Nat.ltb_lt; lia). reflexivity. }
  destruct (special c) eqn:SP.
  2: { apply (STEP [c] x (d ++ [c]) (S count) w l); auto.
       - discriminate.
       - intros y f2 m cap2 C2. rewrite <- !app_comm_cons. cbn [read_rest length Nat.add]. rewrite (eqb_no c 10) by auto. fold (special c). rewrite SP. now rewrite <- app_assoc.
       - rewrite app_length. cbn. lia.
       - cbn. lia.
       - rewrite newlines_cons, (eqb_no c 10) by auto. cbn. lia. }
  assert (KEEP : (forall y f2 m cap2, (cap <= cap2)%nat -> read_rest (S f2) cap2 ((c :: x) ++ y) (length (c :: x) + m) (d ++ (c :: x) ++ y) count w l =
                    read_rest f2 cap2 (x ++ y) (length x + m) (skipn count (d ++ c :: x ++ y)) 1 v l) -> rest_spec (S f) cap (c :: x) d count w l).
  { intro E. apply (STEP [c] x (skipn count d ++ [c]) 1%nat v l); auto.
    - discriminate.
    - intros y f2 m cap2 C2. rewrite E, SK, <- app_assoc by auto. reflexivity.
    - rewrite app_length. cbn. lia.
    - cbn [length]. lia.
    - rewrite newlines_cons, (eqb_no c 10) by auto. cbn. lia. }
  (* going on after a part u *)
  assert (CONT : forall u x' w' l', c :: x = u ++ x' -> u <> [] ->
    (forall y f2 m cap2, (cap <= cap2)%nat -> read_rest (S f2) cap2 ((c :: x) ++ y) (length (c :: x) + m) (d ++ (c :: x) ++ y) count w l =
       read_rest f2 cap2 (x' ++ y) (length (c :: x) + m - (length ((c :: x) ++ y) - length (x' ++ y))) (x' ++ y) 0 w' l') ->
    (length w' <= length w + count + length u)%nat -> (l' = l + newlines u)%nat -> rest_spec (S f) cap (c :: x) d count w l).
  { intros u x' w' l' E NE EQ W' L'. apply (STEP u x' [] O w' l'); auto; [|lia]. intros y f2 m cap2 C2. rewrite EQ, E by auto. f_equal. rewrite !app_length. lia. }
  destruct ((c =? 34) || (c =? 39)) eqn:QT.
  { assert (NQ : c <> 92 /\ c <> 63 /\ c <> 42 /\ c <> 47) by (repeat split; intros ->; discriminate).
    assert (LS := literal_gen cap c (length x) x (c :: v) l ltac:(tauto) (le_n _) (or_introl eq_refl) ltac:(cbn [length]; lia)). unfold literal_spec in LS.
    assert (LT : forall cap2, (cap <= cap2)%nat -> Nat.ltb (length v) cap2 = true) by (intros; apply Nat.ltb_lt; lia).
    assert (EQ : forall y f2 k cap2, (cap <= cap2)%nat -> read_rest (S f2) cap2 ((c :: x) ++ y) (S k) (d ++ (c :: x) ++ y) count w l =
      match read_literal_loop cap2 c (x ++ y) (c :: v) l with
      | LitDone rest w' l' => read_rest f2 cap2 rest (S k - (length ((c :: x) ++ y) - length rest)) rest 0 w' l'
      | LitNone => Incomplete | LitError => Exit | LitOob => Oob end).
    { intros y f2 k cap2 C2. rewrite <- app_comm_cons. cbn [read_rest]. rewrite (eqb_no c 10), FL, QT by auto. cbn [orb]. unfold read_literal. rewrite LT by auto. reflexivity. }
    destruct (read_literal_loop cap c (x ++ [0]) (c :: v) l) as [rest w' l'| | |] eqn:RL; [| | |destruct LS].
    - destruct LS as (u & x' & -> & -> & -> & LW & R). apply (CONT (c :: u) x' w' (l + newlines u)%nat); auto.
      + discriminate.
      + intros y f2 m cap2 C2. cbn [length Nat.add]. rewrite EQ, R by auto. reflexivity.
      + cbn [length] in *. lia.
      + rewrite newlines_cons, (eqb_no c 10) by auto. reflexivity.
    - unfold rest_spec. cbn [length]. rewrite EQ, RL by lia. intros [|f2] cap2 C2 F2; [lia|]. rewrite EQ, LS by auto. reflexivity.
    - unfold rest_spec. cbn [length]. rewrite EQ, RL by lia. intros y [|f2] m cap2 C2 F2; [lia|]. cbn [Nat.add]. rewrite EQ, LS by auto. reflexivity. }
  assert (BODY : forall y f2 k cap2, (cap <= cap2)%nat -> read_rest (S f2) cap2 ((c :: x) ++ y) (S k) (d ++ (c :: x) ++ y) count w l =
    if (c =? 42) && (hd 0 v =? 47) then
      match read_comment false (x ++ y) l with
      | Closed rest l' => read_rest f2 cap2 rest (S k - (length ((c :: x) ++ y) - length rest)) rest 0 (32 :: tl v) l'
      | Unclosed => Incomplete | CommentOob => Oob end
    else if c =? 92 then
      match x ++ y with
      | [] => Oob
      | e :: r2 => if e =? 10 then read_rest f2 cap2 r2 (S k - (length ((c :: x) ++ y) - length r2)) r2 0 v (S l)
                   else read_rest f2 cap2 (x ++ y) k (skipn count (d ++ c :: x ++ y)) 1 v l
      end
    else if c =? 63 then
      match x ++ y with
      | [] => Oob
      | e :: r2 => if e =? 63 then match r2 with
                                   | [] => Oob
                                   | g :: r3 => let t := read_trigraph g in
                                                if t =? 0 then read_rest f2 cap2 (x ++ y) k (skipn count (d ++ c :: x ++ y)) 0 v l
                                                else if Nat.ltb (length v) cap2 then read_rest f2 cap2 r3 (S k - (length ((c :: x) ++ y) - length r3)) r3 0 (t :: v) l else Oob
                                   end
                   else read_rest f2 cap2 (x ++ y) k (skipn count (d ++ c :: x ++ y)) 1 v l
      end
    else if (c =? 47) && (hd 0 v =? 47) then
      match read_line_comment (x ++ y) l with
      | Closed rest l' => Line (rev (tl v)) rest (S l')
      | Unclosed => Incomplete | CommentOob => Oob end
    else read_rest f2 cap2 (x ++ y) k (skipn count (d ++ c :: x ++ y)) 1 v l).
  { intros y f2 k cap2 C2. rewrite <- app_comm_cons. cbn [read_rest]. rewrite (eqb_no c 10), FL by auto. fold (special c). rewrite SP, QT. reflexivity. }
  assert (TV : (length (tl v) <= length v)%nat) by (destruct v; cbn; lia).
  destruct ((c =? 42) && (hd 0 v =? 47)) eqn:CM.
  { assert (CS := comment_gen (length x) x false l (le_n _)). unfold comment_spec in CS.
    destruct (read_comment false (x ++ [0]) l) as [rest l'| |] eqn:RC; [| |destruct CS].
    - destruct CS as (u & x' & -> & -> & -> & R). apply (CONT (c :: u) x' (32 :: tl v) (l + newlines u)%nat); auto.
      + discriminate.
      + intros y f2 m cap2 C2. cbn [length Nat.add]. rewrite BODY, R by auto. reflexivity.
      + cbn [length]. lia.
      + rewrite newlines_cons, (eqb_no c 10) by auto. reflexivity.
    - unfold rest_spec. cbn [length]. rewrite BODY, RC by lia. intros [|f2] cap2 C2 F2; [lia|]. rewrite BODY, RC by auto. reflexivity. }
  destruct (Z.eqb_spec c 92) as [->|N92].
  { destruct x as [|e x]; [unfold rest_spec; cbn [length]; rewrite BODY by lia; cbn [app]; cbn [Z.eqb]; (destruct f as [|f]; [lia|]); intros [|[|f2]] cap2 C2 F2; try lia; assert (EB := BODY [0] (S f2) O cap2 C2); cbn [app length] in EB |- *; rewrite EB; reflexivity|].
    destruct (Z.eqb_spec e 10) as [->|NE].
    - apply (CONT [92; 10] x v (S l)); auto; [discriminate| |lia|cbn; lia].
      intros y f2 m cap2 C2. cbn [length Nat.add]. rewrite BODY by lia. reflexivity.
    - apply KEEP. intros y f2 m cap2 C2. cbn [length Nat.add]. rewrite BODY by lia. rewrite <- !app_comm_cons. rewrite (eqb_no e 10) by auto. reflexivity. }
  destruct (Z.eqb_spec c 63) as [->|N63].
  { destruct x as [|e x]; [unfold rest_spec; cbn [length]; rewrite BODY by lia; cbn [app]; cbn [Z.eqb]; (destruct f as [|f]; [lia|]); intros [|[|f2]] cap2 C2 F2; try lia; assert (EB := BODY [0] (S f2) O cap2 C2); cbn [app length] in EB |- *; rewrite EB; reflexivity|].
    destruct (Z.eqb_spec e 63) as [->|NE].
    - destruct x as [|g x].
      + unfold rest_spec. cbn [length]. rewrite BODY by lia. cbn [app]. cbn [Z.eqb Pos.eqb read_trigraph].
        cbn [length] in *. destruct f as [|[|f]]; try lia. cbn [read_rest]. cbn [Z.eqb Pos.eqb orb andb].
        match goal with |- context [flush cap ?s 0 v] => assert (FE : flush cap s 0 v = Some v) by (apply (flush_some cap 0 [] s v); cbn; lia); rewrite FE end.
        cbn [firstn rev app Z.eqb]. intros [|[|[|f2]]] cap2 C2 F2; try lia. assert (EB := BODY [0] (S (S f2)) 1%nat cap2 C2). cbn [app length] in EB |- *. rewrite EB. cbn [Z.eqb Pos.eqb read_trigraph]. cbn [read_rest]. cbn [Z.eqb Pos.eqb orb andb].
        match goal with |- context [flush cap2 ?s 0 v] => assert (FE2 : flush cap2 s 0 v = Some v) by (apply (flush_some cap2 0 [] s v); cbn; lia); rewrite FE2 end.
        reflexivity.
      + destruct (Z.eqb_spec (read_trigraph g) 0) as [T|T].
        * apply (STEP [63] (63 :: g :: x) (skipn count d ++ [63]) O v l); auto.
          -- discriminate.
          -- intros y f2 m cap2 C2. cbn [length Nat.add]. rewrite BODY by lia. rewrite <- !app_comm_cons. cbn [Z.eqb Pos.eqb]. cbv zeta. rewrite T. cbn [Z.eqb].
             rewrite SK, <- app_assoc. reflexivity.
          -- lia.
          -- cbn [length]. lia.
        * assert (TS := tri_some _ _ eq_refl T). apply trigraph_pos in TS.
          apply (CONT [63; 63; g] x (read_trigraph g :: v) l); auto.
          -- discriminate.
          -- intros y f2 m cap2 C2. cbn [length Nat.add]. rewrite BODY by lia. rewrite <- !app_comm_cons. cbn [Z.eqb Pos.eqb]. cbv zeta. rewrite (eqb_no _ _ T).
             replace (Nat.ltb (length v) cap2) with true by (symmetry; apply Nat.ltb_lt; lia). reflexivity.
          -- cbn [length]. lia.
          -- rewrite !newlines_cons, (eqb_no g 10) by tauto. cbn. lia.
    - apply KEEP. intros y f2 m cap2 C2. cbn [length Nat.add]. rewrite BODY by lia. rewrite <- !app_comm_cons. rewrite (eqb_no e 63) by auto. reflexivity. }
  destruct ((c =? 47) && (hd 0 v =? 47)) eqn:LC.
  { assert (CS := line_comment_gen (length x) x l (le_n _)). unfold line_comment_spec in CS.
    unfold rest_spec. cbn [length]. rewrite BODY by lia.
    destruct (read_line_comment (x ++ [0]) l) as [rest l'| |] eqn:RC; [|intros [|f2] cap2 C2 F2; [lia|]; rewrite BODY, RC by auto; reflexivity|destruct CS].
    destruct CS as (u & x' & -> & -> & -> & R). exists (c :: u), x'. split; [reflexivity|]. split; [reflexivity|].
    split; [rewrite newlines_cons, (eqb_no c 10) by auto; lia|]. split; [rewrite rev_length; cbn [length]; lia|].
    intros y [|f2] m cap2 C2 F2; [lia|]. cbn [Nat.add]. rewrite BODY, R by auto. reflexivity. }
  apply KEEP. intros y f2 m cap2 C2. cbn [length Nat.add]. rewrite BODY by lia. reflexivity.
Qed.

Definition first_spec (cap : nat) (x d : list Z) (count : nat) : Prop :=
  match read_first cap (d ++ x ++ [0]) (x ++ [0]) (length x) count with
  | Line t rest n => exists u v, x = u ++ 10 :: v /\ rest = v ++ [0] /\ n = (newlines u + 1)%nat /\ (length t <= count + length u)%nat /\
                       forall y m cap2, (cap <= cap2)%nat -> read_first cap2 (d ++ x ++ y) (x ++ y) (length x + m) count = Line t (v ++ y) n \/ y = []
  | Incomplete => forall cap2, (cap <= cap2)%nat -> read_first cap2 (d ++ x ++ [0]) (x ++ [0]) (length x) count = Incomplete
  | Exit => forall y m cap2, (cap <= cap2)%nat -> read_first cap2 (d ++ x ++ y) (x ++ y) (length x + m) count = Exit \/ y = []
  | Oob => False
  end.
Lemma first_gen : forall x cap d count, (count <= length d)%nat -> (count + length x <= cap)%nat -> first_spec cap x d count.
Proof.
  induction x as [|c x IH]; intros cap d count D CAP; [intros cap2 C2; reflexivity|]. cbn [length] in CAP. unfold first_spec.
  assert (E : forall y k cap2, read_first cap2 (d ++ (c :: x) ++ y) ((c :: x) ++ y) (S k) count =
    if c =? 10 then finish cap2 (d ++ (c :: x) ++ y) count [] (x ++ y) 0
    else if (c =? 34) || (c =? 39) || (c =? 47) || (c =? 63) || (c =? 92) then read_rest (S (length ((c :: x) ++ y))) cap2 ((c :: x) ++ y) (S k) (d ++ (c :: x) ++ y) count [] 0
    else read_first cap2 (d ++ (c :: x) ++ y) (x ++ y) k (S count)) by reflexivity.
  destruct (Z.eqb_spec c 10) as [->|N10].
  - assert (FI : forall y r cap2, (cap <= cap2)%nat -> finish cap2 (d ++ y) count [] r 0 = Line (firstn count d) r 1).
    { intros y r cap2 C2. unfold finish. rewrite flush_some by (cbn; lia). rewrite app_nil_r, rev_length, firstn_length.
      replace (Nat.ltb (min count (length d)) cap2) with true by (symmetry; apply Nat.ltb_lt; lia). now rewrite rev_involutive. }
    cbn [length]. rewrite E, FI by lia. exists [], x. split; [reflexivity|]. split; [reflexivity|]. split; [reflexivity|].
    split; [rewrite firstn_length; cbn; lia|]. intros y m cap2 C2. left. cbn [Nat.add]. rewrite E, FI by auto. reflexivity.
  - destruct ((c =? 34) || (c =? 39) || (c =? 47) || (c =? 63) || (c =? 92)).
    + cbn [length]. rewrite E. assert (Q := rest_gen (S (length ((c :: x) ++ [0]))) cap (c :: x) d count [] 0 ltac:(rewrite app_length; cbn [length]; lia) D ltac:(cbn [length]; lia)).
      unfold rest_spec in Q. cbn [length] in Q.
      destruct (read_rest (S (length ((c :: x) ++ [0]))) cap ((c :: x) ++ [0]) (S (length x)) (d ++ (c :: x) ++ [0]) count [] 0) as [t rest n| | |]; [| | |exact Q].
      * destruct Q as (u & v & EX & -> & -> & LT & R). exists u, v. split; [exact EX|]. split; [reflexivity|]. split; [reflexivity|]. split; [cbn in *; lia|].
        intros [|a y] m cap2 C2; [now right|]. left. cbn [Nat.add]. rewrite E. apply R; [auto|]. rewrite !app_length. cbn [length]. lia.
      * intros cap2 C2. cbn [length]. rewrite E. apply Q; auto.
      * intros [|a y] m cap2 C2; [now right|]. left. cbn [Nat.add]. rewrite E. apply Q; [auto|]. rewrite !app_length. cbn [length]. lia.
    + cbn [length]. rewrite E. assert (Q := IH cap (d ++ [c]) (S count) ltac:(rewrite app_length; cbn; lia) ltac:(lia)). unfold first_spec in Q.
      assert (EA : forall y, d ++ (c :: x) ++ y = (d ++ [c]) ++ x ++ y) by (intro y; now rewrite <- app_assoc).
      rewrite EA. destruct (read_first cap ((d ++ [c]) ++ x ++ [0]) (x ++ [0]) (length x) (S count)) as [t rest n| | |]; [| | |exact Q].
      * destruct Q as (u & v & -> & -> & -> & LT & R). exists (c :: u), v. split; [reflexivity|]. split; [reflexivity|].
        split; [rewrite newlines_cons, (eqb_no c 10) by auto; reflexivity|]. split; [cbn [length]; lia|].
        intros y m cap2 C2. cbn [Nat.add]. rewrite E, EA. now apply R.
      * intros cap2 C2. cbn [length]. rewrite <- EA, E, EA. now apply Q.
      * intros y m cap2 C2. cbn [Nat.add]. rewrite E, EA. now apply Q.
Qed.
(* What read_line does on a buffer holding x, and on any buffer that goes on after x. *)
Theorem read_line_gen : forall cap x, (length x <= cap)%nat ->
  match read_line cap (x ++ [0]) (length x) with
  | Line t rest n => exists u v, x = u ++ 10 :: v /\ rest = v ++ [0] /\ n = (newlines u + 1)%nat /\ (length t <= length u)%nat /\
                       forall y m cap2, y <> [] -> (cap <= cap2)%nat -> read_line cap2 (x ++ y) (length x + m) = Line t (v ++ y) n
  | Incomplete => forall cap2, (cap <= cap2)%nat -> read_line cap2 (x ++ [0]) (length x) = Incomplete
  | Exit => forall y m cap2, y <> [] -> (cap <= cap2)%nat -> read_line cap2 (x ++ y) (length x + m) = Exit
  | Oob => False
  end.
Proof.
  intros cap x CAP. assert (Q := first_gen x cap [] 0 (le_n _) CAP). unfold first_spec in Q. cbn [app] in Q. unfold read_line.
  destruct (read_first cap (x ++ [0]) (x ++ [0]) (length x) 0) as [t rest n| | |]; auto.
  - destruct Q as (u & v & -> & -> & -> & LT & R). exists u, v. repeat split; auto. intros y m cap2 NE C2. destruct (R y m cap2 C2); [auto|contradiction].
  - intros y m cap2 NE C2. destruct (Q y m cap2 C2); [auto|contradiction].
Qed.
