(* Reading a file line by line: where the buffer ends does not show. *)
From Coq Require Import ZArith String List Bool Lia Arith.
From Verif Require Import TokenizeSpec LineModel LineSpec LineProofs LineSafe.
Import ListNotations.
Local Open Scope Z_scope.

(* What a whole text gives, the room for the line being no concern. *)
Definition whole (x : list Z) : line := read_line (length x) (x ++ [0]) (length x).
Lemma whole_ok : forall x cap, (length x <= cap)%nat -> read_line cap (x ++ [0]) (length x) = whole x.
Proof.
  intros x cap C. assert (G := read_line_gen (length x) x (le_n _)). unfold whole. destruct (read_line (length x) (x ++ [0]) (length x)) as [t rest n| | |].
  - destruct G as (u & v & _ & -> & _ & _ & R). specialize (R [0] O cap ltac:(discriminate) C). now rewrite Nat.add_0_r in R.
  - now apply G.
  - specialize (G [0] O cap ltac:(discriminate) C). now rewrite Nat.add_0_r in G.
  - destruct G.
Qed.
Lemma whole_prefix : forall x y, match whole x with
  | Line t rest n => exists u v, x = u ++ 10 :: v /\ rest = v ++ [0] /\ n = (newlines u + 1)%nat /\ whole (x ++ y) = Line t ((v ++ y) ++ [0]) n
  | Exit => whole (x ++ y) = Exit
  | Incomplete => True
  | Oob => False
  end.
Proof.
  intros x y. assert (G := read_line_gen (length x) x (le_n _)). fold (whole x) in G.
  assert (E : forall cap, (length (x ++ y) <= cap)%nat -> read_line cap (x ++ y ++ [0]) (length x + length y) = whole (x ++ y)).
  { intros cap C. rewrite <- (whole_ok (x ++ y) cap C), <- app_assoc, app_length. reflexivity. }
  assert (L : (length x <= length (x ++ y))%nat) by (rewrite app_length; lia).
  destruct (whole x) as [t rest n| | |].
  - destruct G as (u & v & -> & -> & -> & _ & R). exists u, v. repeat split. rewrite <- (E _ (le_n _)), R; [now rewrite <- app_assoc|now destruct y|auto].
  - exact I.
  - rewrite <- (E _ (le_n _)). apply G; [now destruct y|auto].
  - exact G.
Qed.

Definition pending (s : source) : list Z := skipn s.(processed) s.(data) ++ s.(file).
Record Inv (s : source) : Prop := {
  i_proc : (s.(processed) <= length s.(data))%nat;
  i_size : (length s.(data) < s.(size))%nat;
  i_room : (s.(processed) = 0 -> length s.(data) + 1 < s.(size))%nat;
  i_rlen : (s.(size) <= s.(rlen))%nat;
  i_eof : s.(eof) = true -> s.(file) = [];
  i_term : s.(term) = 0;
  i_tried : s.(eof) = true -> s.(processed) = O -> whole s.(data) = Incomplete;
}.
Definition measure (s : source) : nat := ((if s.(eof) then 0 else S (length s.(file))) + (if Nat.eqb s.(processed) 0 then 0 else 1) + 1)%nat.

Lemma last_app10 : forall x y : list Z, last (x ++ y) 10 = 10 -> last y 10 = 10.
Proof. induction x as [|a x IH]; intros y H; [exact H|]. apply IH. cbn [app] in H. rewrite last_cons in H. destruct (x ++ y); [reflexivity|exact H]. Qed.
Lemma refill_ok : forall s, Inv s -> last (pending s) 10 = 10 ->
  match refill s with
  | Ready s1 => pending s1 = pending s /\ (s1.(processed) < length s1.(data))%nat /\ (length s1.(data) < s1.(size))%nat /\ (s1.(size) <= s1.(rlen))%nat /\
                (s1.(eof) = true -> s1.(file) = []) /\ s1.(term) = 0 /\ s1.(lines) = s.(lines) /\
                ((s1 = s /\ s.(processed) <> O) \/ (s1.(processed) = O /\ (measure s1 < measure s)%nat))
  | NoMore => pending s = []
  | Whole => pending s = s.(data) /\ s.(eof) = true /\ s.(processed) = O /\ s.(data) <> []
  end.
Proof.
  intros s I L. destruct I as [I1 I2 I3 I4 I5 I6 _]. unfold refill.
  destruct (Nat.eqb (processed s) (length (data s)) || Nat.eqb (processed s) 0) eqn:B.
  2: { apply orb_false_iff in B as [B1 B2]. apply Nat.eqb_neq in B1, B2. repeat split; auto; lia. }
  destruct (eof s) eqn:EF.
  - destruct (Nat.ltb_spec (processed s) (length (data s))) as [LT|GE].
    + apply orb_prop in B as [B|B]; apply Nat.eqb_eq in B; [lia|]. unfold pending. rewrite B, (I5 eq_refl), app_nil_r. cbn. repeat split. intro H. rewrite H in LT. cbn in LT. lia.
    + unfold pending. rewrite (I5 eq_refl), app_nil_r. replace (processed s) with (length (data s)) by lia. apply skipn_all.
  - assert (EQ : exists n d0, (if Nat.eqb (processed s) 0 then let '(d, f, e) := fread (size s - length (data s) - 1) s in (data s ++ d, f, e) else fread (size s - 1) s) =
        (d0 ++ firstn n (file s), skipn n (file s), Nat.ltb (length (file s)) n) /\ (0 < n)%nat /\ (length d0 + n < size s)%nat /\ pending s = d0 ++ file s).
    { unfold fread. rewrite EF. cbn [orb]. destruct (Nat.eqb_spec (processed s) 0) as [P0|P0].
      - exists (size s - length (data s) - 1)%nat, (data s). repeat split; try lia. unfold pending. now rewrite P0.
      - exists (size s - 1)%nat, []. cbn [app length]. repeat split; try lia. unfold pending.
        apply orb_prop in B as [B|B]; [apply Nat.eqb_eq in B|discriminate]. rewrite B, skipn_all. reflexivity. }
    destruct EQ as (n & d0 & -> & N & SZ & PE).
    assert (LF := firstn_le_length n (file s)). assert (LF2 : (length (firstn n (file s)) <= n)%nat) by apply firstn_le_length.
    assert (PE2 : pending s = (d0 ++ firstn n (file s)) ++ skipn n (file s)) by (rewrite <- app_assoc, firstn_skipn; exact PE).
    assert (ALL : Nat.ltb (length (file s)) n = true -> skipn n (file s) = []) by (intro H; apply Nat.ltb_lt in H; apply skipn_all2; lia).
    destruct (Nat.ltb (length (file s)) n && Nat.eqb (length (d0 ++ firstn n (file s))) 0) eqn:E0.
    + apply andb_prop in E0 as [E1 E2]. apply Nat.eqb_eq, length_zero_iff_nil in E2. rewrite PE2, E2, (ALL E1). reflexivity.
    + assert (NL : Nat.ltb (length (file s)) n && negb (last (d0 ++ firstn n (file s)) 10 =? 10) = false).
      { destruct (Nat.ltb (length (file s)) n) eqn:E1; [|reflexivity]. rewrite PE2, (ALL eq_refl), app_nil_r in L. rewrite L. reflexivity. }
      rewrite NL. cbn [processed data size rlen eof file term lines]. unfold pending at 1. cbn [processed data file skipn].
      split; [now rewrite <- PE2|].
      assert (LD : (0 < length (d0 ++ firstn n (file s)))%nat).
      { destruct (Nat.ltb_spec (length (file s)) n) as [H|H]; cbn [andb] in E0.
        - apply Nat.eqb_neq in E0. lia.
        - rewrite app_length, firstn_length. lia. }
      split; [exact LD|]. split; [rewrite app_length; lia|]. split; [auto|]. split; [exact ALL|]. split; [reflexivity|]. split; [reflexivity|].
      right. split; [reflexivity|]. unfold measure. cbn [eof file processed]. rewrite EF. cbn [Nat.eqb].
      destruct (Nat.ltb_spec (length (file s)) n) as [H|H].
      * destruct (Nat.eqb (processed s) 0); lia.
      * rewrite skipn_length. destruct (Nat.eqb (processed s) 0); lia.
Qed.

Lemma skip_skip : forall n m (l : list Z), skipn n (skipn m l) = skipn (n + m) l.
Proof.
  intros n m. revert n. induction m as [|m IH]; intros n l; [now rewrite Nat.add_0_r|].
  destruct l; [now rewrite !skipn_nil|]. replace (n + S m)%nat with (S (n + m))%nat by lia. cbn [skipn]. apply IH.
Qed.
Theorem file_gen : forall fuel s, Inv s -> last (pending s) 10 = 10 -> (measure s < fuel)%nat ->
  match initial_preprocess_line fuel s with
  | Got t s' => exists rest n, whole (pending s) = Line t (rest ++ [0]) n /\ pending s' = rest /\ s'.(lines) = (s.(lines) + n)%nat /\ Inv s'
  | Done => pending s = []
  | Failed => pending s <> [] /\ (whole (pending s) = Incomplete \/ whole (pending s) = Exit)
  | Bad | Spin => False
  end.
Proof.
  induction fuel as [|fuel IH]; intros s I L M; [lia|]. cbn [initial_preprocess_line].
  assert (I' := I). destruct I' as [I1 I2 I3 I4 I5 I6 I7].
  destruct (Nat.ltb_spec (length (data s)) (processed s)) as [H|_]; [lia|].
  assert (R := refill_ok s I L). destruct (refill s) as [s1| |]; [|exact R|].
  2: { destruct R as (PE & EF & P0 & NE). rewrite PE. split; [auto|].
       left. auto. }
  destruct R as (PE & LT & SZ & RL & EF & TM & LN & CASE).
  destruct (Nat.leb_spec (length (data s1)) (processed s1)) as [H|_]; [lia|]. rewrite TM.
  set (x := skipn (processed s1) (data s1)). assert (LX : length x = (length (data s1) - processed s1)%nat) by (unfold x; apply skipn_length).
  rewrite <- LX. rewrite whole_ok by lia.
  assert (PX : pending s = x ++ file s1) by (rewrite <- PE; reflexivity).
  assert (W := whole_prefix x (file s1)). rewrite <- PX in W. destruct (whole x) as [t rest n| | |] eqn:WX.
  - destruct W as (u & v & EX & -> & -> & WH). exists (v ++ file s1), (newlines u + 1)%nat. split; [exact WH|].
    assert (PR : (S (length (data s1)) - length (v ++ [0%Z]) = processed s1 + S (length u))%nat).
    { assert (length x = length (u ++ 10 :: v)) by now rewrite EX. rewrite !app_length in *. cbn [length] in *. lia. }
    cbn [lines]. split; [|split; [lia|]].
    + unfold pending. cbn [processed data file]. rewrite PR. f_equal.
      replace (processed s1 + S (length u))%nat with (S (length u) + processed s1)%nat by lia. rewrite <- skip_skip. fold x. rewrite EX.
      rewrite skipn_app. replace (S (length u) - length u)%nat with 1%nat by lia. rewrite skipn_all2 by lia. reflexivity.
    + constructor; cbn [processed data size rlen eof file term]; auto; rewrite PR; try (intros; lia).
      assert (length x = length (u ++ 10 :: v)) by now rewrite EX. rewrite app_length in H. cbn [length] in H. lia.
  - assert (EX : eof s1 = true -> pending s = x) by (intro H; rewrite PX, (EF H); apply app_nil_r).
    destruct (Nat.eqb_spec (processed s1) 0) as [P0|P0].
    + set (s2 := {| data := data s1; term := 0; processed := 0; size := size s1 + FILE_BUFFER_SIZE; file := file s1; eof := eof s1;
                    lines := lines s1; rlen := _ |}).
      assert (PE2 : pending s2 = pending s) by (rewrite PX; unfold x; rewrite P0; reflexivity).
      assert (FB : (1 < FILE_BUFFER_SIZE)%nat) by (unfold FILE_BUFFER_SIZE; lia).
      assert (INV : Inv s2).
      { constructor; cbn [processed data size rlen eof file term s2]; auto; try lia.
        - destruct (Nat.leb_spec (rlen s1) (size s1 + FILE_BUFFER_SIZE)); lia.
        - intros _ _. rewrite <- WX. unfold x. now rewrite P0. }
      assert (Q := IH s2 INV). rewrite PE2 in Q. specialize (Q L).
      replace (lines s) with (lines s2) by exact LN. apply Q.
      destruct CASE as [[-> N0]|[_ ME]]; [congruence|]. unfold measure in *. cbn [processed data size rlen eof file term s2]. rewrite P0 in ME. lia.
    + destruct CASE as [[-> N0]|[N0 _]]; [|congruence].
      set (s2 := {| data := x; term := 0; processed := 0; size := size s; file := file s; eof := eof s; lines := lines s; rlen := rlen s |}).
      assert (PE2 : pending s2 = pending s) by (rewrite PX; reflexivity).
      assert (INV : Inv s2).
      { constructor; cbn [processed data size rlen eof file term s2]; auto; try lia. }
      assert (Q := IH s2 INV). rewrite PE2 in Q. specialize (Q L).
      change (lines s) with (lines s2). apply Q.
      unfold measure in *. cbn [processed data size rlen eof file term s2]. apply Nat.eqb_neq in P0. rewrite P0 in M. cbn [Nat.eqb]. lia.
  - split; [|now right]. intro H. rewrite PX in H. apply app_eq_nil in H as [H _]. rewrite H in LX. cbn in LX. lia.
  - exact W.
Qed.
