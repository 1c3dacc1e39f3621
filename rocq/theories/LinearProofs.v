(* Emission of blocks: the instructions follow the graph. *)
From Coq Require Import List Bool Arith ZArith Lia.
From Verif Require Import CmpModel CmpProps LinearModel LinearSpec DfsProofs.
Import ListNotations.

Fixpoint labels (code : list instr) : list nat :=
  match code with [] => [] | Label b :: r => b :: labels r | _ :: r => labels r end.
Lemma labels_app : forall a b, labels (a ++ b) = labels a ++ labels b.
Proof. intros a c. induction a as [|[] a IH]; simpl; rewrite ?IH; reflexivity. Qed.
Lemma labels_jumps : forall t u l, labels (map (jump_to t u) l) = [].
Proof. induction l as [|[] l IH]; simpl; auto. Qed.
Lemma branch_labels : forall c t u jumps, branch_instrs c t u = Some jumps -> labels jumps = [].
Proof.
  intros [o k ld imm|k] t u jumps H; cbn in H.
  - destruct (compare_jumps k _); [|discriminate]. injection H as <-. apply labels_jumps.
  - injection H as <-. apply labels_jumps.
Qed.

Section G.
Variable g : lgraph.
Definition next_is (t : nat) (rest : list instr) : Prop := exists r, rest = Jump t :: r \/ rest = Label t :: r.
Definition tail (x : nat) (rest : list instr) : Prop :=
  match to0 (g x), to1 (g x) with
  | None, None => exists r, rest = Return x :: r
  | None, Some _ => False
  | Some t, None => next_is t rest
  | Some t, Some u => exists jumps r, branch_instrs (test (g x)) t u = Some jumps /\ rest = Compare x :: jumps ++ r /\ next_is u r
  end.
Definition at_block (code : list instr) (x : nat) : Prop :=
  exists pre rest, code = pre ++ Label x :: Body x :: rest /\ tail x rest.
Definition lsuccs (b : nat) : list nat :=
  match to0 (g b) with None => [] | Some t => match to1 (g b) with None => [t] | Some u => [u; t] end end.

Lemma next_app : forall t r post, next_is t r -> next_is t (r ++ post).
Proof. intros t r post (x & [->| ->]); exists (x ++ post); [left|right]; reflexivity. Qed.
Lemma tail_app : forall x rest post, tail x rest -> tail x (rest ++ post).
Proof.
  intros x rest post H. unfold tail in *. destruct (to0 (g x)) as [t|]; [|destruct (to1 (g x)); [exact H|]].
  - destruct (to1 (g x)) as [u|]; [|apply next_app; exact H].
    destruct H as (j & r & B & -> & N). exists j, (r ++ post). split; [exact B|]. split; [cbn; rewrite <- app_assoc; reflexivity|apply next_app; exact N].
  - destruct H as (r & ->). exists (r ++ post). reflexivity.
Qed.
Lemma at_app : forall pre code post x, at_block code x -> at_block (pre ++ code ++ post) x.
Proof.
  intros pre code post x (p & r & -> & T). exists (pre ++ p), (r ++ post). split; [rewrite <- !app_assoc; reflexivity|apply tail_app; exact T].
Qed.


Record ok (b : nat) (black : list nat) (code : list instr) (black' : list nat) : Prop := {
  ok_nodup : NoDup (labels code);
  ok_fresh : forall x, In x (labels code) -> ~ In x black;
  ok_black : forall x, In x black' <-> In x black \/ In x (labels code);
  ok_first : ~ In b black -> exists r, code = Label b :: r;
  ok_path : forall x, In x (labels code) -> path lsuccs b x;
  ok_at : forall x, In x (labels code) -> at_block code x /\ forall y, In y (lsuccs x) -> In y black'
}.

Lemma NoDup_app : forall (a b : list nat), NoDup a -> NoDup b -> (forall x, In x b -> ~ In x a) -> NoDup (a ++ b).
Proof.
  induction a as [|x a IH]; intros b A B D; [exact B|]. inversion A; subst. simpl. constructor.
  - intro I. apply in_app_or in I as [I|I]; [contradiction|]. apply (D x I). left. reflexivity.
  - apply IH; auto. intros y Y Z. apply (D y Y). right. exact Z.
Qed.

Lemma compile_ok : forall fuel black b code black', compile_block fuel g black b = Some (code, black') -> ok b black code black'.
Proof.
  induction fuel as [|n IH]; intros black b code black' H; [discriminate|]. cbn [compile_block] in H.
  destruct (existsb (Nat.eqb b) black) eqn:M.
  { injection H as <- <-. apply mem_in in M. split; simpl; try tauto; try constructor; intros; tauto. }
  assert (NB : ~ In b black) by (apply mem_not; exact M).
  destruct (to0 (g b)) as [t|] eqn:T0.
  - destruct (to1 (g b)) as [u|] eqn:T1.
    + destruct (branch_instrs (test (g b)) t u) as [jumps|] eqn:BI; [|discriminate]. pose proof (branch_labels _ _ _ _ BI) as LJ.
      set (bl := black ++ [b]) in *.
      assert (SECOND : exists code1 bl1 code0, (if existsb (Nat.eqb u) bl then Some ([Jump u], bl) else compile_block n g bl u) = Some (code1, bl1) /\
        compile_block n g bl1 t = Some (code0, black') /\ code = [Label b; Body b] ++ Compare b :: jumps ++ code1 ++ code0).
      { destruct (if existsb (Nat.eqb u) bl then Some ([Jump u], bl) else compile_block n g bl u) as [[code1 bl1]|]; [|discriminate].
        destruct (compile_block n g bl1 t) as [[code0 bl0]|] eqn:C0; [|discriminate]. injection H as <- <-. exists code1, bl1, code0. auto. }
      clear H. destruct SECOND as (code1 & bl1 & code0 & S1 & S0 & ->).
      assert (O1 : NoDup (labels code1) /\ (forall x, In x (labels code1) -> ~ In x bl) /\ (forall x, In x bl1 <-> In x bl \/ In x (labels code1)) /\
                   next_is u code1 /\ (forall x, In x (labels code1) -> path lsuccs u x) /\ In u bl1 /\
                   (forall x, In x (labels code1) -> at_block code1 x /\ forall y, In y (lsuccs x) -> In y bl1)).
      { destruct (existsb (Nat.eqb u) bl) eqn:MU.
        - injection S1 as <- <-. simpl. apply mem_in in MU. split; [constructor|]. split; [tauto|]. split; [tauto|]. split; [exists []; auto|]. split; [tauto|]. split; [exact MU|tauto].
        - destruct (IH _ _ _ _ S1) as [A B C D E F]. destruct D as (r & ->); [apply mem_not; exact MU|].
          split; [exact A|]. split; [exact B|]. split; [exact C|]. split; [exists r; right; reflexivity|]. split; [exact E|].
          split; [apply C; right; left; reflexivity|exact F]. }
      destruct O1 as (A1 & B1 & C1 & D1 & E1 & U1 & F1). destruct (IH _ _ _ _ S0) as [A0 B0 C0 D0 E0 F0].
      assert (IT : In t black').
      { apply C0. destruct (in_dec Nat.eq_dec t bl1) as [I|I]; [left; exact I|]. destruct (D0 I) as (r & ->). right. left. reflexivity. }
      assert (LAB : labels ([Label b; Body b] ++ Compare b :: jumps ++ code1 ++ code0) = b :: labels code1 ++ labels code0).
      { simpl. rewrite !labels_app, LJ. reflexivity. }
      assert (INB : forall x, In x bl <-> In x black \/ x = b) by (intro x; unfold bl; rewrite in_app_iff; simpl; intuition).
      split; try rewrite LAB.
      * constructor.
        -- intro I. apply in_app_or in I as [I|I]; [apply (B1 _ I), INB; auto|]. apply (B0 _ I), C1. left. apply INB. auto.
        -- apply NoDup_app; auto. intros x I J. apply (B0 _ I), C1. auto.
      * intros x [<-|I]; [exact NB|]. intro J. apply in_app_or in I as [I|I]; [apply (B1 _ I), INB; auto|]. apply (B0 _ I), C1. left. apply INB. auto.
      * intro x. rewrite C0, C1, INB. simpl. rewrite in_app_iff. intuition.
      * intros _. eexists. reflexivity.
      * intros x [<-|I]; [apply path_here|]. assert (LS : lsuccs b = [u; t]) by (unfold lsuccs; rewrite T0, T1; reflexivity).
        apply in_app_or in I as [I|I]; (eapply path_step; [rewrite LS|]); [left; reflexivity|apply E1; exact I|right; left; reflexivity|apply E0; exact I].
      * intros x X. destruct X as [<-|I].
        -- split.
           ++ exists [], (Compare b :: jumps ++ code1 ++ code0). split; [reflexivity|]. unfold tail. rewrite T0, T1.
              exists jumps, (code1 ++ code0). split; [exact BI|]. split; [reflexivity|apply next_app; exact D1].
           ++ intros y Y. unfold lsuccs in Y. rewrite T0, T1 in Y. destruct Y as [<-|[<-|[]]]; [apply C0; auto|exact IT].
        -- apply in_app_or in I as [I|I].
           ++ destruct (F1 x I) as [P Q]. split; [|intros y Y; apply C0; left; apply Q; exact Y].
              replace ([Label b; Body b] ++ Compare b :: jumps ++ code1 ++ code0) with (([Label b; Body b] ++ Compare b :: jumps) ++ code1 ++ code0) by (simpl; reflexivity).
              apply at_app. exact P.
           ++ destruct (F0 x I) as [P Q]. split; [|exact Q].
              replace ([Label b; Body b] ++ Compare b :: jumps ++ code1 ++ code0) with (([Label b; Body b] ++ Compare b :: jumps ++ code1) ++ code0 ++ [])
                by (simpl; rewrite app_nil_r, <- app_assoc; reflexivity).
              apply at_app. exact P.
    + assert (INB : forall x, In x (black ++ [b]) <-> In x black \/ x = b) by (intro x; rewrite in_app_iff; simpl; intuition).
      assert (LS : lsuccs b = [t]) by (unfold lsuccs; rewrite T0, T1; reflexivity).
      destruct (existsb (Nat.eqb t) (black ++ [b])) eqn:MT.
      * injection H as <- <-. apply mem_in in MT. split; simpl.
        -- repeat constructor. simpl. tauto.
        -- intros x [<-|[]]. exact NB.
        -- intro x. rewrite INB. intuition.
        -- intros _. eauto.
        -- intros x [<-|[]]. apply path_here.
        -- intros x [<-|[]]. split; [|rewrite LS; intros y [<-|[]]; exact MT].
           exists [], [Jump t]. split; [reflexivity|]. unfold tail. rewrite T0, T1. exists []. auto.
      * destruct (compile_block n g (black ++ [b]) t) as [[code0 bl0]|] eqn:S0; [|discriminate]. injection H as <- <-.
        destruct (IH _ _ _ _ S0) as [A0 B0 C0 D0 E0 F0]. destruct D0 as (r & ->); [apply mem_not; exact MT|].
        split; simpl.
        -- constructor; [|exact A0]. intro I. apply (B0 b); [exact I|apply INB; auto].
        -- intros x [<-|I]; [exact NB|]. intro J. apply (B0 x); [exact I|apply INB; auto].
        -- intro x. rewrite C0, INB. simpl. intuition.
        -- intros _. eauto.
        -- intros x [<-|I]; [apply path_here|]. eapply path_step; [rewrite LS; left; reflexivity|apply E0; exact I].
        -- intros x [<-|I].
           ++ split; [|rewrite LS; intros y [<-|[]]; apply C0; right; left; reflexivity].
              exists [], (Label t :: r). split; [reflexivity|]. unfold tail. rewrite T0, T1. exists r. auto.
           ++ destruct (F0 x I) as [P Q]. split; [|exact Q].
              replace (Label b :: Body b :: Label t :: r) with ([Label b; Body b] ++ (Label t :: r) ++ []) by (simpl; rewrite app_nil_r; reflexivity).
              apply at_app. exact P.
  - destruct (to1 (g b)) as [u|] eqn:T1; [discriminate|]. injection H as <- <-.
    assert (INB : forall x, In x (black ++ [b]) <-> In x black \/ x = b) by (intro x; rewrite in_app_iff; simpl; intuition).
    split; simpl.
    + repeat constructor. simpl. tauto.
    + intros x [<-|[]]. exact NB.
    + intro x. rewrite INB. intuition.
    + intros _. eauto.
    + intros x [<-|[]]. apply path_here.
    + intros x [<-|[]]. split; [|unfold lsuccs; rewrite T0; intros y []].
      exists [], [Return b]. split; [reflexivity|]. unfold tail. rewrite T0, T1. eauto.
Qed.

Lemma jumps_total : forall o k imm, compare_jumps k (condition_of o k imm) <> None.
Proof.
  intros o k imm. destruct k as [w|w|]; unfold condition_of; [destruct (imm && (w <? 64)%Z)..|]; destruct o; cbn; discriminate.
Qed.
Lemma compile_fuel : forall N, (forall b, to1 (g b) <> None -> to0 (g b) <> None) -> (forall b c, b < N -> In c (lsuccs b) -> c < N) ->
  forall fuel black b, b < N -> white N black < fuel -> exists code black', compile_block fuel g black b = Some (code, black').
Proof.
  intros N W C. induction fuel as [|n IH]; intros black b B F; [lia|]. cbn [compile_block].
  destruct (existsb (Nat.eqb b) black) eqn:M; [eauto|]. pose proof (white_add N black b B M) as WA.
  pose proof (C b) as CB. unfold lsuccs in CB.
  destruct (to0 (g b)) as [t|] eqn:T0.
  - destruct (to1 (g b)) as [u|] eqn:T1.
    + assert (BI : exists j, branch_instrs (test (g b)) t u = Some j).
      { destruct (test (g b)) as [o k ld imm|k]; cbn; [|eauto]. pose proof (jumps_total o k imm). destruct (compare_jumps k _); [cbn; eauto|congruence]. }
      destruct BI as (j & ->).
      assert (S1 : exists code1 bl1, (if existsb (Nat.eqb u) (black ++ [b]) then Some ([Jump u], black ++ [b]) else compile_block n g (black ++ [b]) u) = Some (code1, bl1)
                   /\ forall x, In x (black ++ [b]) -> In x bl1).
      { destruct (existsb (Nat.eqb u) (black ++ [b])); [eexists _, _; split; [reflexivity|auto]|].
        destruct (IH (black ++ [b]) u) as (c1 & b1 & E); [apply CB; [exact B|left; reflexivity]|lia|]. exists c1, b1. split; [exact E|].
        intros x X. apply (ok_black _ _ _ _ (compile_ok _ _ _ _ _ E)). auto. }
      destruct S1 as (c1 & b1 & -> & SUB).
      destruct (IH b1 t) as (c0 & b0 & E); [apply CB; [exact B|right; left; reflexivity]| |rewrite E; eauto].
      pose proof (white_mono N _ _ SUB). lia.
    + destruct (existsb (Nat.eqb t) (black ++ [b])); [eauto|]. destruct (IH (black ++ [b]) t) as (c1 & b1 & E); [apply CB; [exact B|left; reflexivity]|lia|]. rewrite E. eauto.
  - destruct (to1 (g b)) eqn:T1; [|eauto]. exfalso. apply (W b); congruence.
Qed.

(* ---- Execution ---- *)
Lemma find_label : forall pre x r, NoDup (labels (pre ++ Label x :: r)) -> find x (pre ++ Label x :: r) = Some r.
Proof.
  induction pre as [|i pre IH]; intros x r N.
  - simpl. rewrite Nat.eqb_refl. reflexivity.
  - destruct i; simpl in *; try (apply IH; exact N). inversion N; subst.
    destruct (Nat.eqb_spec x b) as [->|NE]; [|apply IH; assumption]. exfalso. apply H1. rewrite labels_app. apply in_or_app. right. left. reflexivity.
Qed.

Section X.
Variable St : Type.
Variable body leave : nat -> St -> St.
Variable choose : nat -> St -> St * bool.
Variable compare : nat -> St -> St * flags.
Notation graph_run := (graph_run St body leave choose).
Notation machine_run := (machine_run St body leave compare).

Lemma machine_app : forall code j k rest s f tr1 r1 s1 f1 tr2 o,
  machine_run code j rest s f = (tr1, Running r1 s1 f1) -> machine_run code k r1 s1 f1 = (tr2, o) ->
  machine_run code (j + k) rest s f = (tr1 ++ tr2, o).
Proof.
  intros code j. induction j as [|j IH]; intros k rest s f tr1 r1 s1 f1 tr2 o H1 H2.
  - cbn in H1. injection H1 as <- <- <- <-. exact H2.
  - cbn [LinearSpec.machine_run Nat.add] in *. destruct (step St body leave compare code rest s f) as [t [r' s' f'|v|]]; [|discriminate..].
    destruct (machine_run code j r' s' f') as [t' o'] eqn:E. injection H1 as <- ->. rewrite (IH _ _ _ _ _ _ _ _ _ _ E H2). rewrite app_assoc. reflexivity.
Qed.
(* Once the machine has stopped nothing more happens; up to then the events are a beginning. *)
Lemma machine_stop : forall code k rest s f tr o, machine_run code k rest s f = (tr, o) -> (forall r s f, o <> Running r s f) ->
  forall m, machine_run code (k + m) rest s f = (tr, o).
Proof.
  intros code k. induction k as [|k IH]; intros rest s f tr o H N m.
  - cbn in H. injection H as <- <-. exfalso. eapply N. reflexivity.
  - cbn [LinearSpec.machine_run Nat.add] in *. destruct (step St body leave compare code rest s f) as [t [r' s' f'|v|]]; [|exact H..].
    destruct (machine_run code k r' s' f') as [t' o'] eqn:E. injection H as <- ->. rewrite (IH _ _ _ _ _ E N m). reflexivity.
Qed.
Lemma machine_more : forall code k rest s f m, exists tr', fst (machine_run code (k + m) rest s f) = fst (machine_run code k rest s f) ++ tr'.
Proof.
  intros code k rest s f m. destruct (machine_run code k rest s f) as [tr o] eqn:E. destruct o as [r' s' f'|v|].
  - destruct (machine_run code m r' s' f') as [tr2 o2] eqn:E2. rewrite (machine_app _ _ _ _ _ _ _ _ _ _ _ _ E E2). exists tr2. reflexivity.
  - rewrite (machine_stop _ _ _ _ _ _ _ E) by discriminate. exists []. rewrite app_nil_r. reflexivity.
  - rewrite (machine_stop _ _ _ _ _ _ _ E) by discriminate. exists []. rewrite app_nil_r. reflexivity.
Qed.

Variable code : list instr.
Variable black : list nat.
Variable entry : nat.
Hypothesis OK : ok entry [] code black.
(* The compiled condition: the flags make the jumps go where the condition says. *)
Hypothesis AGREE : forall b t u s, to0 (g b) = Some t -> to1 (g b) = Some u ->
  exists l, branch_instrs (test (g b)) t u = Some (map (jump_to t u) l) /\
            fst (compare b s) = fst (choose b s) /\ take l (snd (compare b s)) = snd (choose b s).

Definition here (b : nat) (rest : list instr) : Prop := find b code = Some rest /\ exists r, rest = Body b :: r /\ tail b r /\ exists pre, code = pre ++ Label b :: rest.
Lemma here_in : forall b, In b black -> exists rest, here b rest.
Proof.
  intros b I. apply (ok_black _ _ _ _ OK) in I as [[]|I]. destruct (ok_at _ _ _ _ OK b I) as [(pre & rest & E & T) _].
  exists (Body b :: rest). split; [|exists rest; split; [reflexivity|]; split; [exact T|]; exists pre; exact E].
  rewrite E. apply find_label. rewrite <- E. apply (ok_nodup _ _ _ _ OK).
Qed.
Lemma succ_black : forall b t, In b black -> In t (lsuccs b) -> In t black.
Proof. intros b t I S. apply (ok_black _ _ _ _ OK) in I as [[]|I]. destruct (ok_at _ _ _ _ OK b I) as [_ C]. apply C. exact S. Qed.

(* Going to block t from code that has a jump to it or its label next. *)
Lemma go_jump : forall t r s f, In t black -> exists rest, here t rest /\ machine_run code 1 (Jump t :: r) s f = ([], Running rest s f).
Proof. intros t r s f I. destruct (here_in t I) as (rest & H). exists rest. split; [exact H|]. cbn. rewrite (proj1 H). reflexivity. Qed.
Lemma go_next : forall t pre r s f, In t black -> next_is t r -> code = pre ++ r -> exists rest, here t rest /\ machine_run code 1 r s f = ([], Running rest s f).
Proof.
  intros t pre r s f I (x & [->| ->]) E; [apply go_jump; exact I|]. destruct (here_in t I) as (rest & H). exists rest. split; [exact H|]. cbn.
  assert (X : find t code = Some x) by (rewrite E; apply find_label; rewrite <- E; apply (ok_nodup _ _ _ _ OK)).
  destruct H as [H _]. congruence.
Qed.
(* The conditional jumps. *)
Lemma go_branch : forall t u l pre r s f, In t black -> In u black -> next_is u r -> code = pre ++ map (jump_to t u) l ++ r ->
  exists k rest, here (if take l f then u else t) rest /\ machine_run code k (map (jump_to t u) l ++ r) s f = ([], Running rest s f).
Proof.
  intros t u. induction l as [|j l IH]; intros pre r s f T U N E; cbn [map app take].
  - destruct (go_next u pre r s f U N E) as (rest & H & X). exists 1, rest. split; assumption.
  - destruct j as [cc second|second]; cbn [jump_to].
    + destruct (holds cc f) eqn:HC.
      * destruct (here_in (if second then u else t)) as (rest & H); [destruct second; assumption|]. exists 1, rest.
        split; [exact H|]. cbn. rewrite HC, (proj1 H). reflexivity.
      * destruct (IH (pre ++ [JumpCc cc (if second then u else t)]) r s f T U N) as (k & rest & H & X); [rewrite <- app_assoc; exact E|].
        exists (S k), rest. split; [exact H|]. cbn [LinearSpec.machine_run step]. rewrite HC, X. reflexivity.
    + destruct (go_jump (if second then u else t) (map (jump_to t u) l ++ r) s f) as (rest & H & X); [destruct second; assumption|].
      exists 1, rest. split; assumption.
Qed.

Lemma machine_block : forall b rest s f, In b black -> here b rest ->
  match to0 (g b), to1 (g b) with
  | None, _ => exists k, machine_run code k rest s f = ([(b, s)], Halted (leave b (body b s)))
  | Some t, None => exists k r f', here t r /\ machine_run code k rest s f = ([(b, s)], Running r (body b s) f')
  | Some t, Some u => exists k r f', here (if snd (choose b (body b s)) then u else t) r /\
      machine_run code k rest s f = ([(b, s)], Running r (fst (choose b (body b s))) f')
  end.
Proof.
  intros b rest s f I (_ & r & -> & T & pre & E). unfold tail in T. pose proof (succ_black b) as SB. unfold lsuccs in SB.
  destruct (to0 (g b)) as [t|] eqn:T0.
  - destruct (to1 (g b)) as [u|] eqn:T1.
    + destruct T as (jumps & r' & BI & -> & N). destruct (AGREE b t u (body b s) T0 T1) as (l & BI' & A1 & A2).
      assert (jumps = map (jump_to t u) l) by congruence. subst jumps.
      destruct (compare b (body b s)) as [s2 f2] eqn:CB. simpl in A1, A2.
      destruct (go_branch t u l (pre ++ [Label b; Body b; Compare b]) r' s2 f2) as (k & rest & H & X).
      * apply SB; [exact I|right; left; reflexivity].
      * apply SB; [exact I|left; reflexivity].
      * exact N.
      * rewrite <- app_assoc. exact E.
      * exists (S (S k)), rest, f2. rewrite <- A2. split; [exact H|]. cbn [LinearSpec.machine_run step]. rewrite CB. rewrite X, <- A1. reflexivity.
    + destruct (go_next t (pre ++ [Label b; Body b]) r (body b s) f) as (rest & H & X).
      * apply SB; [exact I|left; reflexivity].
      * exact T.
      * rewrite <- app_assoc. exact E.
      * exists 2, rest, f. split; [exact H|]. cbn [LinearSpec.machine_run step] in *. destruct (step St body leave compare code r (body b s) f) as [t1 [r1 s1 f1|v|]]; cbn in *; congruence.
  - destruct (to1 (g b)); [contradiction|]. destruct T as (r' & ->). exists 2. reflexivity.
Qed.

Lemma machine_follows : forall n b rest s f, In b black -> here b rest ->
  exists k, fst (machine_run code k rest s f) = fst (graph_run g n b s) /\
            match snd (graph_run g n b s) with
            | Some v => snd (machine_run code k rest s f) = Halted v
            | None => exists r s' f', snd (machine_run code k rest s f) = Running r s' f'
            end.
Proof.
  induction n as [|n IH]; intros b rest s f I H.
  - exists 0. cbn. eauto.
  - pose proof (machine_block b rest s f I H) as MB. pose proof (succ_black b) as SB. unfold lsuccs in SB. cbn [LinearSpec.graph_run].
    destruct (to0 (g b)) as [t|] eqn:T0.
    + destruct (to1 (g b)) as [u|] eqn:T1.
      * destruct MB as (k & r & f' & H' & X). destruct (choose b (body b s)) as [s2 c]. cbn [fst snd] in *.
        destruct (IH (if c then u else t) r s2 f') as (k2 & Y & Z); [destruct c; apply SB; [exact I|left; reflexivity|exact I|right; left; reflexivity]|exact H'|].
        destruct (graph_run g n (if c then u else t) s2) as [tr fin]. destruct (machine_run code k2 r s2 f') as [tr2 o2] eqn:E2. cbn [fst snd] in *. subst tr2.
        exists (k + k2). rewrite (machine_app _ _ _ _ _ _ _ _ _ _ _ _ X E2). split; [reflexivity|exact Z].
      * destruct MB as (k & r & f' & H' & X).
        destruct (IH t r (body b s) f') as (k2 & Y & Z); [apply SB; [exact I|left; reflexivity]|exact H'|].
        destruct (graph_run g n t (body b s)) as [tr fin]. destruct (machine_run code k2 r (body b s) f') as [tr2 o2] eqn:E2. cbn [fst snd] in *. subst tr2.
        exists (k + k2). rewrite (machine_app _ _ _ _ _ _ _ _ _ _ _ _ X E2). split; [reflexivity|exact Z].
    + destruct MB as (k & X). exists k. rewrite X. cbn. auto.
Qed.

Lemma start : exists rest, here entry rest /\ forall s f, machine_run code 1 code s f = ([], Running rest s f).
Proof.
  destruct (ok_first _ _ _ _ OK) as (r & E); [intros []|].
  destruct (here_in entry) as (rest & H); [apply (ok_black _ _ _ _ OK); right; rewrite E; left; reflexivity|].
  exists rest. split; [exact H|]. intros s f.
  assert (X : find entry code = Some r) by (rewrite E; simpl; rewrite Nat.eqb_refl; reflexivity).
  destruct H as [H _]. assert (rest = r) by congruence. subst rest. rewrite E at 2. reflexivity.
Qed.
Lemma follows_entry : forall n s f, exists k, fst (machine_run code k code s f) = fst (graph_run g n entry s) /\
            match snd (graph_run g n entry s) with
            | Some v => snd (machine_run code k code s f) = Halted v
            | None => exists r s' f', snd (machine_run code k code s f) = Running r s' f'
            end.
Proof.
  intros n s f. destruct start as (rest & H & X).
  assert (I : In entry black).
  { destruct (ok_first _ _ _ _ OK) as (r & E); [intros []|]. apply (ok_black _ _ _ _ OK). right. rewrite E. left. reflexivity. }
  destruct (machine_follows n entry rest s f I H) as (k & Y & Z). exists (1 + k).
  destruct (machine_run code k rest s f) as [tr o] eqn:E. rewrite (machine_app _ _ _ _ _ _ _ _ _ _ _ _ (X s f) E). split; assumption.
Qed.
Lemma graph_length : forall n b s, snd (graph_run g n b s) = None -> length (fst (graph_run g n b s)) = n.
Proof.
  induction n as [|n IH]; intros b s H; [reflexivity|]. cbn [LinearSpec.graph_run] in *.
  destruct (to0 (g b)) as [t|]; [|discriminate]. destruct (to1 (g b)) as [u|].
  - destruct (choose b (body b s)) as [s2 c]. specialize (IH (if c then u else t) s2). destruct (graph_run g n _ s2). cbn in *. auto.
  - specialize (IH t (body b s)). destruct (graph_run g n _ _). cbn in *. auto.
Qed.
(* What the machine does in k instructions, the graph does too. *)
Lemma machine_graph : forall k s f, exists n,
  (exists more, fst (graph_run g n entry s) = fst (machine_run code k code s f) ++ more) /\
  match snd (machine_run code k code s f) with
  | Halted v => graph_run g n entry s = (fst (machine_run code k code s f), Some v)
  | Running _ _ _ => True
  | Lost => False
  end.
Proof.
  intros k s f. set (n := S (length (fst (machine_run code k code s f)))). exists n.
  destruct (follows_entry n s f) as (k2 & Y & Z).
  destruct (machine_run code k code s f) as [tr o] eqn:E. cbn [fst snd] in *.
  destruct o as [r' s' f'|v|].
  - split; [|exact I]. destruct (le_lt_dec k k2) as [L|L].
    + replace k2 with (k + (k2 - k)) in Y by lia. destruct (machine_more code k code s f (k2 - k)) as (more & M).
      rewrite E in M. cbn [fst] in M. exists more. rewrite <- Y. exact M.
    + destruct (snd (graph_run g n entry s)) as [v|] eqn:G.
      * exfalso. destruct (machine_run code k2 code s f) as [tr2 o2] eqn:E2. cbn [fst snd] in *. subst o2.
        pose proof (machine_stop _ _ _ _ _ _ _ E2 ltac:(discriminate) (k - k2)) as S. replace (k2 + (k - k2)) with k in S by lia. congruence.
      * exfalso. apply graph_length in G. destruct (machine_more code k2 code s f (k - k2)) as (more & M). replace (k2 + (k - k2)) with k in M by lia.
        rewrite E, Y in M. cbn [fst] in M. apply (f_equal (@length _)) in M. rewrite app_length, G in M. unfold n in M. lia.
  - pose proof (machine_stop _ _ _ _ _ _ _ E ltac:(discriminate) k2) as S1.
    destruct (machine_run code k2 code s f) as [tr2 o2] eqn:E2. cbn [fst snd] in *.
    destruct (snd (graph_run g n entry s)) as [v'|] eqn:G.
    + subst o2. pose proof (machine_stop _ _ _ _ _ _ _ E2 ltac:(discriminate) k) as S2. rewrite Nat.add_comm in S2. rewrite S1 in S2. injection S2 as -> ->.
      destruct (graph_run g n entry s) as [a b]. cbn [fst snd] in *. subst. split; [exists []; rewrite app_nil_r; reflexivity|reflexivity].
    + exfalso. apply graph_length in G. destruct (machine_more code k2 code s f k) as (more & M). rewrite Nat.add_comm, S1, E2 in M. cbn [fst] in M.
      apply (f_equal (@length _)) in M. rewrite app_length, Y, G in M. unfold n in M. lia.
  - exfalso. pose proof (machine_stop _ _ _ _ _ _ _ E ltac:(discriminate) k2) as S1.
    destruct (machine_run code k2 code s f) as [tr2 o2] eqn:E2. cbn [fst snd] in *.
    destruct (snd (graph_run g n entry s)) as [v'|] eqn:G.
    + subst o2. pose proof (machine_stop _ _ _ _ _ _ _ E2 ltac:(discriminate) k) as S2. rewrite Nat.add_comm in S2. rewrite S1 in S2. discriminate.
    + apply graph_length in G. destruct (machine_more code k2 code s f k) as (more & M). rewrite Nat.add_comm, S1, E2 in M. cbn [fst] in M.
      apply (f_equal (@length _)) in M. rewrite app_length, Y, G in M. unfold n in M. lia.
Qed.
End X.
End G.
