(* C40: adjacent string literals. *)
From Coq Require Import List Bool ZArith Arith Lia.
From Verif Require Import JoinModel.
Import ListNotations.

(* Translation phase 6, C99 5.1.1.2 and 6.4.5p4: a maximal run of adjacent literals becomes one. *)
Inductive joined : list tok -> list tok -> Prop :=
| joined_nil : joined [] []
| joined_other : forall t l m, is_string t = false -> joined l m -> joined (t :: l) (t :: m)
| joined_run : forall ss l m, ss <> [] -> (forall s r, l <> Str s :: r) -> joined l m -> joined (map Str ss ++ l) (Str (concat ss) :: m).
(* What the parser is to see at position i: the stream, then END for ever. *)
Definition at_ (stream : list tok) (i : nat) : tok := nth i stream END.
(* The tokens seen by a sequence of operations that starts after i tokens have been consumed. *)
Fixpoint seen (stream : list tok) (i : nat) (l : list op) : list tok :=
  match l with
  | [] => []
  | Next :: r => at_ stream i :: seen stream (S i) r
  | Peek n :: r => at_ stream (i + n - 1) :: seen stream i r
  end.

Fixpoint join (l : list tok) : list tok :=
  match l with
  | [] => []
  | Str s :: r => match join r with Str p :: m => Str (s ++ p) :: m | m => Str s :: m end
  | t :: r => t :: join r
  end.
Lemma join_head : forall l s m, join l = Str s :: m -> exists p r, l = Str p :: r.
Proof. intros [|[] r] s' m H; cbn in H; try discriminate. eauto. Qed.
Lemma join_joined : forall l, joined l (join l).
Proof.
  enough (G : forall n l, length l <= n -> joined l (join l)) by (intro l; apply (G (length l)); lia).
  induction n as [|n IH]; intros [|t l] L; cbn in L; try lia; try constructor.
  destruct t; try (apply joined_other; [reflexivity|apply IH; lia]).
  cbn [join]. assert (J : joined l (join l)) by (apply IH; lia).
  assert (ONE : (forall p r, l <> Str p :: r) -> joined (Str s :: l) (Str s :: join l)).
  { intro H. pose proof (joined_run [s] l (join l) ltac:(discriminate) H J) as X. cbn in X. rewrite app_nil_r in X. exact X. }
  assert (HD : forall p r, l = Str p :: r -> exists q m, join l = Str q :: m) by (intros p r ->; cbn; destruct (join r) as [|[] ?]; eauto).
  destruct (join l) as [|[] m] eqn:E; try (apply ONE; intros p r X; destruct (HD p r X) as (? & ? & Y); discriminate Y).
  inversion J as [|? ? ? S|ss l' m' NE H J' E1 E2]; subst; [discriminate S|].
  apply (joined_run (s :: ss) l'); [discriminate|exact H|exact J'].
Qed.
Lemma joined_join : forall l m, joined l m -> m = join l.
Proof.
  intros l m J. induction J as [|t l m S J IH|ss l m NE H J IH]; [reflexivity| |].
  - subst m. destruct t; try reflexivity. discriminate S.
  - subst m. induction ss as [|s ss IHs]; [contradiction|]. cbn [map app join concat].
    destruct ss as [|s2 ss].
    + cbn [map app concat]. rewrite app_nil_r. destruct (join l) as [|[] m] eqn:E; try reflexivity.
      apply join_head in E as (p & r & ->). exfalso. eapply H. reflexivity.
    + rewrite <- IHs by discriminate. reflexivity.
Qed.

Definition plain_end (l : list tok) : Prop := match back l with Some (Str _) => False | _ => True end.
Lemma back_app : forall l t, back (l ++ [t]) = Some t.
Proof. intros [|x l] t; cbn; [reflexivity|]. f_equal. apply last_last. Qed.
Lemma back_app2 : forall l m, m <> [] -> back (l ++ m) = back m.
Proof.
  intros l m NE. destruct (exists_last NE) as (m' & t & ->). rewrite app_assoc, !back_app. reflexivity.
Qed.
Lemma back_cons : forall x l, l <> [] -> back (x :: l) = back l.
Proof. intros x l NE. exact (back_app2 [x] l NE). Qed.
Lemma removelast_app2 : forall (l m : list tok), m <> [] -> removelast (l ++ m) = l ++ removelast m.
Proof. intros. apply removelast_app. assumption. Qed.
Lemma join_snoc : forall l t, join (l ++ [t]) =
  match t with
  | Str s => match back (join l) with Some (Str p) => removelast (join l) ++ [Str (p ++ s)] | _ => join l ++ [Str s] end
  | t => join l ++ [t]
  end.
Proof.
  induction l as [|x l IH]; intro t; [destruct t; reflexivity|]. cbn [app].
  assert (NS : is_string x = false -> forall r, join (x :: r) = x :: join r) by (intros N r; destruct x; try discriminate N; reflexivity).
  destruct (is_string x) eqn:SX.
  2: { rewrite !NS by reflexivity. rewrite IH. destruct t; try reflexivity. destruct (join l) as [|y m] eqn:E.
       - cbn. destruct x; try discriminate SX; reflexivity.
       - rewrite (back_cons x (y :: m)) by discriminate. destruct (back (y :: m)) as [[]|]; reflexivity. }
  destruct x; try discriminate SX. clear NS SX.
  cbn [join]. rewrite IH. destruct t; try (destruct (join l) as [|[] m]; reflexivity).
  destruct (join l) as [|y m] eqn:E; [reflexivity|].
  destruct m as [|z m].
  - destruct y; cbn; rewrite <- ?app_assoc; reflexivity.
  - rewrite (back_cons y (z :: m)) by discriminate.
    destruct (back (z :: m)) as [[]|] eqn:B; destruct y; cbn [app removelast]; rewrite ?(back_cons (Str s) (_ :: z :: m)), ?(back_cons _ (z :: m)), ?B by discriminate; reflexivity.
Qed.

Section Stream.
Variable conv_string : list Z -> list Z.
Variable conv_char conv_number : list Z -> Z.
Notation conv := (convert conv_string conv_char conv_number).
Notation add := (add_to_lookahead conv_string conv_char conv_number).

Lemma add_join : forall la0 l t, plain_end la0 -> add false (la0 ++ join l) t = la0 ++ join (l ++ [conv t]).
Proof.
  intros la0 l t P. unfold add_to_lookahead. rewrite join_snoc. destruct (conv t); try (rewrite app_assoc; reflexivity).
  destruct (join l) as [|y m] eqn:E.
  - rewrite app_nil_r. unfold plain_end in P. cbn [back app]. destruct (back la0) as [[]|]; try reflexivity. contradiction.
  - rewrite back_app2 by discriminate. destruct (back (y :: m)) as [[]|]; try (rewrite app_assoc; reflexivity).
    rewrite removelast_app2 by discriminate. rewrite <- app_assoc. reflexivity.
Qed.
Lemma add_line : forall line la0 l, plain_end la0 -> fold_left (add false) line (la0 ++ join l) = la0 ++ join (l ++ map conv line).
Proof.
  induction line as [|t line IH]; intros la0 l P; cbn [fold_left map]; [rewrite app_nil_r; reflexivity|].
  rewrite add_join by exact P. rewrite IH by exact P. rewrite <- app_assoc. reflexivity.
Qed.
Lemma join_app_plain : forall a b, plain_end (join a) -> join (a ++ b) = join a ++ join b.
Proof.
  induction a as [|x a IH]; intros b P; [reflexivity|]. cbn [app join] in *.
  assert (Q : forall t, plain_end (t :: join a) -> join a <> [] -> plain_end (join a)).
  { intros t H NE. unfold plain_end in *. rewrite (back_cons t (join a) NE) in H. exact H. }
  assert (Q0 : join a = [] -> plain_end (join a)) by (intros ->; exact I).
  destruct x; try (rewrite IH; [reflexivity|]; destruct (join a) eqn:E; [exact I|]; eapply Q; [exact P|discriminate]).
  destruct (join a) as [|y m] eqn:E; [contradiction|].
  assert (PA : plain_end (y :: m)).
  { destruct m as [|z m]; [|destruct y; unfold plain_end in *; rewrite ?(back_cons (Str s) (_ :: z :: m)), ?(back_cons _ (z :: m)) in * by discriminate; exact P].
    destruct y; try exact I. contradiction. }
  rewrite IH by exact PA. destruct y; reflexivity.
Qed.

Lemma fill_ok : forall inp la0 l n la' inp', plain_end la0 -> fill conv_string conv_char conv_number false inp (la0 ++ join l) n = (la', inp') ->
  exists l', la' = la0 ++ join l' /\ l ++ concat (map (map conv) inp) = l' ++ concat (map (map conv) inp') /\
    (inp' = [] \/ plain_end la') /\ (inp' = [] \/ n <= length la').
Proof.
  induction inp as [|line inp IH]; intros la0 l n la' inp' P H; cbn [fill] in H.
  - injection H as <- <-. exists l. split; [reflexivity|]. split; [reflexivity|]. auto.
  - rewrite add_line in H by exact P. destruct (is_lookahead_ready false (la0 ++ join (l ++ map conv line)) n) eqn:R.
    + injection H as <- <-. exists (l ++ map conv line). split; [reflexivity|]. split; [cbn; rewrite app_assoc; reflexivity|].
      unfold is_lookahead_ready in R. destruct (Nat.ltb_spec (length (la0 ++ join (l ++ map conv line))) n); [discriminate|].
      split; [right|right; assumption]. unfold plain_end. destruct (back (la0 ++ join (l ++ map conv line))) as [[]|]; try exact I. discriminate R.
    + destruct (IH la0 (l ++ map conv line) n la' inp' P H) as (l' & A & B & C). exists l'. split; [exact A|]. split; [|exact C].
      cbn. rewrite app_assoc. exact B.
Qed.
Lemma pad_ok : forall k la, pad conv_string conv_char conv_number false k la = la ++ repeat END k.
Proof.
  induction k as [|k IH]; intro la; cbn [pad repeat]; [rewrite app_nil_r; reflexivity|]. rewrite IH.
  replace (add false la END) with (la ++ [END]) by reflexivity. rewrite <- app_assoc. reflexivity.
Qed.

(* consumed, buffered and remaining tokens make up the stream, followed by ENDs once the input is exhausted. *)
Definition ok (stream : list tok) (b : buffer) : Prop :=
  exists k, consumed b ++ ahead b ++ join (concat (map (map conv) (input b))) = stream ++ repeat END k /\
    (input b = [] \/ (k = 0 /\ plain_end (ahead b) /\ (ahead b = [] -> plain_end (consumed b)))).
Lemma nth_end : forall stream k i, nth i (stream ++ repeat END k) END = nth i stream END.
Proof.
  intros stream k i. destruct (Nat.lt_ge_cases i (length stream)) as [L|L]; [apply app_nth1; exact L|].
  rewrite app_nth2 by exact L. rewrite (nth_overflow stream) by exact L. revert k. generalize (i - length stream). clear.
  induction n as [|n IH]; intros [|k]; cbn; try reflexivity. apply IH.
Qed.
Lemma step_ok : forall stream b o b' t, ok stream b -> step conv_string conv_char conv_number false b o = Some (b', t) ->
  ok stream b' /\ t = at_ stream (length (consumed b) + match o with Next => 0 | Peek n => n - 1 end) /\
  length (consumed b') = length (consumed b) + match o with Next => 1 | Peek _ => 0 end.
Proof.
  intros stream b o b' t (k & S & D) H. destruct o as [|[|n]]; cbn [step] in H; [|discriminate|].
  - destruct (ahead b) as [|x r] eqn:A; [discriminate|]. injection H as <- <-. cbn. split; [|split].
    + exists k. cbn. split; [rewrite <- app_assoc; exact S|]. destruct D as [D|(D1 & D2 & D3)]; [left; exact D|right].
      split; [exact D1|]. split.
      * unfold plain_end in *. destruct r as [|y r]; [exact I|]. rewrite (back_cons x (y :: r)) in D2 by discriminate. exact D2.
      * intros ->. unfold plain_end in *. rewrite back_app. exact D2.
    + unfold at_. rewrite <- (nth_end stream k), <- S. rewrite Nat.add_0_r. rewrite app_nth2 by lia. rewrite Nat.sub_diag. reflexivity.
    + rewrite app_length. reflexivity.
  - remember (Datatypes.S n) as n1 eqn:N1. assert (LOOK : forall la inp k', consumed b ++ la ++ join (concat (map (map conv) inp)) = stream ++ repeat END k' ->
        nth_error la (n1 - 1) = Some t -> t = at_ stream (length (consumed b) + (n1 - 1))).
    { intros la inp k' S' N. unfold at_. rewrite <- (nth_end stream k'), <- S'. rewrite app_nth2 by lia.
      replace (length (consumed b) + (n1 - 1) - length (consumed b)) with (n1 - 1) by lia.
      rewrite app_nth1; [symmetry; apply nth_error_nth; exact N|]. apply nth_error_Some. congruence. }
    destruct (Nat.ltb_spec (length (ahead b)) (n1)) as [L|L].
    + unfold preprocess_line in H.
      destruct (fill conv_string conv_char conv_number false (input b) (ahead b) (n1)) as [la inp] eqn:F.
      rewrite pad_ok in H. destruct (nth_error (la ++ repeat END (n1 - length la)) (n1 - 1)) as [t'|] eqn:N; [|discriminate].
      injection H as <- ->. destruct D as [D|(-> & D2 & D3)].
      * rewrite D in *. cbn in F. injection F as <- <-.
        assert (S' : consumed b ++ (ahead b ++ repeat END (n1 - length (ahead b))) ++ join (concat (map (map conv) [])) = stream ++ repeat END (k + (n1 - length (ahead b)))).
        { cbn in *. rewrite app_nil_r in *. rewrite repeat_app. rewrite (app_assoc stream). rewrite <- S. rewrite <- app_assoc. reflexivity. }
        split; [exists (k + (n1 - length (ahead b))); cbn; split; [exact S'|left; reflexivity]|].
        split; [eapply LOOK; eassumption|cbn; lia].
      * rewrite <- (app_nil_r (ahead b)) in F. destruct (fill_ok _ _ [] _ _ _ D2 F) as (l' & A & B & C1 & C2). cbn in B.
        assert (S2 : (inp = [] \/ plain_end (join l')) -> consumed b ++ la ++ join (concat (map (map conv) inp)) = stream).
        { intro C. rewrite A. cbn in S. rewrite app_nil_r in S. rewrite <- S. rewrite B. f_equal. rewrite <- app_assoc. f_equal.
          destruct C as [->|C]; [cbn; rewrite !app_nil_r; reflexivity|symmetry; apply join_app_plain; exact C]. }
        assert (C : inp = [] \/ plain_end (join l')).
        { destruct C1 as [C1|C1]; [left; exact C1|right]. rewrite A in C1. unfold plain_end in *. destruct (join l') as [|y m]; [exact I|].
          rewrite back_app2 in C1 by discriminate. exact C1. }
        specialize (S2 C). destruct C2 as [->|C2].
        -- assert (S' : consumed b ++ (la ++ repeat END (n1 - length la)) ++ join (concat (map (map conv) [])) = stream ++ repeat END (n1 - length la)).
           { rewrite <- S2. cbn. rewrite !app_nil_r. rewrite <- app_assoc. reflexivity. }
           split; [exists (n1 - length la); cbn; split; [exact S'|left; reflexivity]|]. split; [eapply LOOK; eassumption|cbn; lia].
        -- assert (Z0 : n1 - length la = 0) by lia. rewrite Z0 in N |- *. cbn [repeat] in *. rewrite app_nil_r in N |- *.
           split; [|split; [eapply (LOOK la inp 0); [rewrite app_nil_r; exact S2|exact N]|cbn; lia]].
           exists 0. cbn [repeat input ahead consumed]. rewrite app_nil_r. split; [exact S2|]. destruct C1 as [C1|C1]; [left; exact C1|right].
           split; [reflexivity|]. split; [exact C1|]. intro E. subst la. rewrite E in C2. cbn in C2. subst n1. lia.
    + destruct (nth_error (ahead b) (n1 - 1)) as [t'|] eqn:N; [|discriminate]. injection H as <- ->.
      split; [exists k; split; [exact S|exact D]|]. split; [eapply LOOK; eassumption|cbn; lia].
Qed.
Lemma run_ok : forall l stream b b' ts, ok stream b -> run conv_string conv_char conv_number false b l = Some (b', ts) ->
  ts = seen stream (length (consumed b)) l.
Proof.
  induction l as [|o l IH]; intros stream b b' ts V H; cbn [run] in H; [injection H as <- <-; reflexivity|].
  destruct (step conv_string conv_char conv_number false b o) as [[b1 t]|] eqn:E; [|discriminate].
  destruct (run conv_string conv_char conv_number false b1 l) as [[b2 ts']|] eqn:R; [|discriminate]. injection H as <- <-.
  destruct (step_ok _ _ _ _ _ V E) as (V1 & T & C). rewrite (IH _ _ _ _ V1 R), C, T. destruct o as [|n]; cbn [seen].
  - rewrite Nat.add_0_r, Nat.add_1_r. reflexivity.
  - destruct n as [|n]; [discriminate E|]. rewrite Nat.add_0_r. f_equal. f_equal. lia.
Qed.
End Stream.

(* However the tokens are divided into lines and however the parser looks ahead and advances: what it sees is the stream with
   every maximal run of adjacent string literals replaced by their concatenation, each piece converted separately, and every
   other token unchanged and in order; then END for ever. *)
Theorem C40_stream : forall conv_string conv_char conv_number lines stream ops b tokens,
  joined (map (convert conv_string conv_char conv_number) (concat lines)) stream ->
  run conv_string conv_char conv_number false (mk_buffer lines [] []) ops = Some (b, tokens) ->
  tokens = seen stream 0 ops.
Proof.
  intros cs cc cn lines stream ops b tokens J H.
  apply (run_ok cs cc cn ops stream (mk_buffer lines [] []) b tokens); [|exact H].
  exists 0. cbn. rewrite app_nil_r. rewrite <- concat_map. split; [symmetry; apply joined_join; exact J|].
  right. split; [reflexivity|]. split; [exact I|intros _; exact I].
Qed.
Print Assumptions C40_stream.

(* A parser that looks before it advances never hits an assertion. *)
Fixpoint legal (k : nat) (l : list op) : Prop := (* k: tokens known to be buffered *)
  match l with
  | [] => True
  | Next :: r => match k with O => False | S k => legal k r end
  | Peek n :: r => 0 < n /\ legal (max k n) r
  end.
Theorem C40_total : forall cs cc cn verbatim lines ops, legal 0 ops -> run cs cc cn verbatim (mk_buffer lines [] []) ops <> None.
Proof.
  intros cs cc cn verbatim lines ops.
  assert (PAD : forall k la, length (pad cs cc cn verbatim k la) = k + length la).
  { induction k as [|k IH]; intro la; cbn [pad]; [reflexivity|]. rewrite IH. unfold add_to_lookahead. cbn. destruct verbatim; rewrite app_length; cbn; lia. }
  assert (G : forall ops k b, legal k ops -> k <= length (ahead b) -> run cs cc cn verbatim b ops <> None).
  { clear ops. induction ops as [|o ops IH]; intros k b L LE; [discriminate|]. cbn [run].
    assert (X : exists b' t k', step cs cc cn verbatim b o = Some (b', t) /\ legal k' ops /\ k' <= length (ahead b')).
    { destruct o as [|n]; cbn [legal] in L.
      - destruct k as [|k]; [contradiction|]. cbn [step]. destruct (ahead b) as [|x r] eqn:A; [cbn in LE; lia|]. eexists _, _, k. split; [reflexivity|].
        split; [exact L|]. cbn in *. lia.
      - destruct L as [P L]. destruct n as [|n]; [lia|]. cbn [step].
        destruct (Nat.ltb_spec (length (ahead b)) (S n)) as [Q|Q].
        + unfold preprocess_line. destruct (fill cs cc cn verbatim (input b) (ahead b) (S n)) as [la inp].
          pose proof (PAD (S n - length la) la) as PL.
          destruct (nth_error (pad cs cc cn verbatim (S n - length la) la) (S n - 1)) as [t|] eqn:N.
          * eexists _, t, (max k (S n)). split; [reflexivity|]. split; [exact L|]. cbn [ahead]. lia.
          * apply nth_error_None in N. lia.
        + destruct (nth_error (ahead b) (S n - 1)) as [t|] eqn:N.
          * eexists _, t, (max k (S n)). split; [reflexivity|]. split; [exact L|]. cbn [ahead]. lia.
          * apply nth_error_None in N. lia. }
    destruct X as (b' & t & k' & -> & L' & LE'). specialize (IH k' b' L' LE').
    destruct (run cs cc cn verbatim b' ops) as [[]|]; [discriminate|contradiction]. }
  intro L. apply (G ops 0); [exact L|cbn; lia].
Qed.
Print Assumptions C40_total.

(* Lines:  f ( "a"  //  (a directive)  //  "b" "" , 1 ;  *)
Example C40_instance :
  let lines := [[Tok 1; Tok 2; PrepString [97]%Z]; []; [PrepString [98]%Z; PrepString []; Tok 3; PrepNumber [49]%Z; Tok 4]] in
  let ops := [Peek 1; Next; Peek 2; Next; Peek 1; Next; Peek 1; Next; Peek 1; Next; Peek 1; Next; Peek 1] in
  let stream := [Tok 1; Tok 2; Str [97; 98]%Z; Tok 3; Number 1%Z; Tok 4] in
  let cn := fun _ : list Z => 1%Z in
  legal 0 ops /\ joined (map (convert (fun s => s) cn cn) (concat lines)) stream /\
  exists b, run (fun s => s) cn cn false (mk_buffer lines [] []) ops = Some (b, seen stream 0 ops).
Proof.
  intros lines ops stream cn. split; [cbn; lia|]. split.
  - replace stream with (join (map (convert (fun s => s) cn cn) (concat lines))) by reflexivity. apply join_joined.
  - eexists. reflexivity.
Qed.
