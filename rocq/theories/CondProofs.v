From Coq Require Import List Bool Lia Arith.
From Verif Require Import CondModel CondSpec.
Import ListNotations.

Section P.
Variables Env Cnd Prep Name Dir Txt Out : Type.
Variable prepare : Env -> Cnd -> option Prep.
Variable value : Env -> Prep -> option bool.
Variable isdef : Env -> Name -> option bool.
Variable exec : Env -> Dir -> option (Env * group Cnd Name Dir Txt).
Variable emit : Env -> Txt -> option Out.

Notation line := (line Cnd Name Dir Txt).
Notation group := (group Cnd Name Dir Txt).
Notation alts := (alts Cnd Name Dir Txt).
Definition fexec (e : Env) (d : Dir) : option (Env * list line) := match exec e d with Some (e', g) => Some (e', flat g) | None => None end.
Definition cond (e : Env) (c : Cnd) : option bool := match prepare e c with Some p => value e p | None => None end.
Definition readable (e : Env) (c : Cnd) : Prop := prepare e c <> None.

Lemma flat_text t (r : group) : flat (GText t r) = LText t :: flat r. Proof. reflexivity. Qed.
Lemma flat_dir d (r : group) : flat (GDir d r) = LDir d :: flat r. Proof. reflexivity. Qed.
Lemma flat_null (r : group) : flat (GNull r) = LNull :: flat r. Proof. reflexivity. Qed.
Lemma flat_sect t b a (r : group) : flat (GSect t b a r) = opener t :: flat b ++ flat_alts a ++ flat r. Proof. reflexivity. Qed.
Lemma flat_end : flat_alts (AEnd : alts) = [LEndif]. Proof. reflexivity. Qed.
Lemma flat_else (b : group) : flat_alts (AElse b) = LElse :: flat b ++ [LEndif]. Proof. reflexivity. Qed.
Lemma flat_elif c b (m : alts) : flat_alts (AElif c b m) = LElif c :: flat b ++ flat_alts m. Proof. reflexivity. Qed.
Ltac flats := rewrite ?flat_text, ?flat_dir, ?flat_null, ?flat_sect, ?flat_end, ?flat_else, ?flat_elif.
Ltac flats_in H := rewrite ?flat_text, ?flat_dir, ?flat_null, ?flat_sect, ?flat_end, ?flat_else, ?flat_elif in H.
Notation pp := (pp Env Cnd Prep Name Dir Txt Out prepare value isdef fexec emit).
Notation step := (step Env Cnd Prep Name Dir Txt Out prepare value isdef fexec emit).
Notation Run sk := (Run Env Cnd Name Dir Txt Out cond isdef exec emit sk).
Notation RunAlts sk := (RunAlts Env Cnd Name Dir Txt Out cond isdef exec emit sk).
Notation skip_group := (skip_group Env Cnd Name Dir Txt readable).
Notation skip_alts := (skip_alts Env Cnd Name Dir Txt readable).
Notation holds := (holds Env Cnd Name cond isdef).

Lemma pp_cons n st e l rest acc : pp (S n) st e (l :: rest) acc = match step st e l rest with Go _ _ _ _ _ _ st' e' i o => pp n st' e' i (acc ++ o) | Stop _ _ _ _ _ _ r => r end.
Proof. reflexivity. Qed.


(* the states in which the alternatives of a section are skipped *)
Definition closing (st : list bstate) (s : bstate) : Prop := (active st = true /\ s <> DEAD) \/ (active st = false /\ s = DISABLED).

Lemma skip_ok :
  (forall g e st m rest acc, active st = false -> skip_group e g -> pp (length (flat g) + m) st e (flat g ++ rest) acc = pp m st e rest acc) /\
  (forall a e st s m rest acc, closing st s -> skip_alts e a -> pp (length (flat_alts a) + m) (s :: st) e (flat_alts a ++ rest) acc = pp m st e rest acc).
Proof.
  apply group_alts_ind.
  - intros. reflexivity.
  - intros t r IH e st m rest acc A K. flats; cbn [length app Nat.add]. rewrite pp_cons. cbn [step]. unfold CondModel.step. rewrite A, app_nil_r. apply IH; assumption.
  - intros d r IH e st m rest acc A K. flats; cbn [length app Nat.add]. rewrite pp_cons. unfold CondModel.step. rewrite A, app_nil_r. apply IH; assumption.
  - intros r IH e st m rest acc A K. flats; cbn [length app Nat.add]. rewrite pp_cons. unfold CondModel.step. rewrite app_nil_r. apply IH; assumption.
  - intros t b IHb a IHa r IHr e st m rest acc A (Kt & Kb & Ka & Kr).
    assert (E : step st e (opener t) (((flat b) ++ flat_alts a ++ flat r) ++ rest) = Go _ _ _ _ _ _ (DISABLED :: st) e (((flat b) ++ flat_alts a ++ flat r) ++ rest) []).
    { destruct t; unfold CondModel.step, opener; rewrite ?A; try reflexivity. cbn in Kt. unfold readable in Kt. destruct (prepare e c); [reflexivity|congruence]. }
    flats; cbn [length app Nat.add]. rewrite pp_cons. rewrite E, app_nil_r. rewrite !app_length, <- !app_assoc, <- !Nat.add_assoc.
    rewrite IHb by (auto; reflexivity). rewrite IHa by (auto; right; auto). apply IHr; auto.
  - intros e st s m rest acc C K. flats; cbn [length app Nat.add]. rewrite pp_cons. unfold CondModel.step, pop_state. rewrite app_nil_r. reflexivity.
  - intros b IH e st s m rest acc C K. flats; cbn [length app Nat.add]. rewrite pp_cons.
    assert (E : step (s :: st) e LElse ((flat b ++ [LEndif]) ++ rest) = Go _ _ _ _ _ _ (DISABLED :: st) e ((flat b ++ [LEndif]) ++ rest) []).
    { unfold CondModel.step, pop_state. destruct C as [[A N]|[A ->]]; rewrite A; [destruct s; congruence|reflexivity]. }
    rewrite E, app_nil_r. rewrite !app_length, <- !app_assoc, <- !Nat.add_assoc. rewrite IH by (auto; reflexivity).
    cbn [length Nat.add app]. rewrite pp_cons. unfold CondModel.step, pop_state. rewrite app_nil_r. reflexivity.
  - intros c b IHb mo IHm e st s m rest acc C (Kc & Kb & Km). flats; cbn [length app Nat.add]. rewrite pp_cons.
    assert (E : step (s :: st) e (LElif c) ((flat b ++ flat_alts mo) ++ rest) = Go _ _ _ _ _ _ (DISABLED :: st) e ((flat b ++ flat_alts mo) ++ rest) []).
    { unfold CondModel.step, pop_state. unfold readable in Kc. destruct (prepare e c); [|congruence].
      destruct C as [[A N]|[A ->]]; rewrite A; [destruct s; congruence|reflexivity]. }
    rewrite E, app_nil_r. rewrite !app_length, <- !app_assoc, <- !Nat.add_assoc. rewrite IHb by (auto; reflexivity).
    apply IHm; auto. unfold closing. destruct C as [[A N]|[A N]]; [left|right]; split; auto; discriminate.
Qed.

Lemma skip_inv :
  (forall g e st fuel rest acc os e', active st = false -> pp fuel st e (flat g ++ rest) acc = Done _ _ os e' ->
     skip_group e g /\ exists m, fuel = length (flat g) + m /\ pp m st e rest acc = Done _ _ os e') /\
  (forall a e st s fuel rest acc os e', closing st s -> pp fuel (s :: st) e (flat_alts a ++ rest) acc = Done _ _ os e' ->
     skip_alts e a /\ exists m, fuel = length (flat_alts a) + m /\ pp m st e rest acc = Done _ _ os e').
Proof.
  apply group_alts_ind.
  - intros e st fuel rest acc os e' A H. split; [exact I|]. exists fuel. split; [reflexivity|exact H].
  - intros t r IH e st fuel rest acc os e' A H. destruct fuel as [|n]; [discriminate H|]. flats_in H; cbn [app] in H. rewrite pp_cons in H. unfold CondModel.step in H. rewrite A, app_nil_r in H.
    destruct (IH e st n rest acc os e' A H) as (K & m & -> & R). split; [exact K|]. exists m. split; [reflexivity|exact R].
  - intros d r IH e st fuel rest acc os e' A H. destruct fuel as [|n]; [discriminate H|]. flats_in H; cbn [app] in H. rewrite pp_cons in H. unfold CondModel.step in H. rewrite A, app_nil_r in H.
    destruct (IH e st n rest acc os e' A H) as (K & m & -> & R). split; [exact K|]. exists m. split; [reflexivity|exact R].
  - intros r IH e st fuel rest acc os e' A H. destruct fuel as [|n]; [discriminate H|]. flats_in H; cbn [app] in H. rewrite pp_cons in H. unfold CondModel.step in H. rewrite app_nil_r in H.
    destruct (IH e st n rest acc os e' A H) as (K & m & -> & R). split; [exact K|]. exists m. split; [reflexivity|exact R].
  - intros t b IHb a IHa r IHr e st fuel rest acc os e' A H. destruct fuel as [|n]; [discriminate H|]. flats_in H; cbn [app] in H. rewrite pp_cons in H.
    assert (E : (match t with Tif c => readable e c | _ => True end) /\ pp n (DISABLED :: st) e ((flat b ++ flat_alts a ++ flat r) ++ rest) acc = Done _ _ os e').
    { destruct t; unfold CondModel.step, opener in H; rewrite ?A in H; rewrite ?app_nil_r in H; try (split; [exact I|exact H]).
      unfold readable. destruct (prepare e c); [|discriminate H]. rewrite app_nil_r in H. split; [discriminate|exact H]. }
    destruct E as [Kt H1]. rewrite <- !app_assoc in H1.
    destruct (IHb _ _ _ _ _ _ _ (eq_refl : active (DISABLED :: st) = false) H1) as (Kb & m1 & -> & H2).
    destruct (IHa _ _ _ _ _ _ _ _ (or_intror (conj A eq_refl) : closing st DISABLED) H2) as (Ka & m2 & -> & H3).
    destruct (IHr _ _ _ _ _ _ _ A H3) as (Kr & m3 & -> & H4).
    split; [repeat split; assumption|]. exists m3. split; [|exact H4]. flats; cbn [length]. rewrite !app_length. lia.
  - intros e st s fuel rest acc os e' C H. destruct fuel as [|n]; [discriminate H|]. flats_in H; cbn [app] in H. rewrite pp_cons in H. unfold CondModel.step, pop_state in H. rewrite app_nil_r in H.
    split; [exact I|]. exists n. split; [reflexivity|exact H].
  - intros b IH e st s fuel rest acc os e' C H. destruct fuel as [|n]; [discriminate H|]. flats_in H; cbn [app] in H. rewrite pp_cons in H.
    assert (H1 : pp n (DISABLED :: st) e ((flat b ++ [LEndif]) ++ rest) acc = Done _ _ os e').
    { unfold CondModel.step, pop_state in H. destruct C as [[A N]|[A ->]]; rewrite A, ?app_nil_r in H; [destruct s; try rewrite app_nil_r in H; congruence|exact H]. }
    rewrite <- !app_assoc in H1. destruct (IH _ _ _ _ _ _ _ (eq_refl : active (DISABLED :: st) = false) H1) as (Kb & m1 & -> & H2).
    cbn [app] in H2. destruct m1 as [|m1]; [discriminate H2|]. rewrite pp_cons in H2. unfold CondModel.step, pop_state in H2. rewrite app_nil_r in H2.
    split; [exact Kb|]. exists m1. split; [|exact H2]. flats; cbn [length]. rewrite app_length. cbn [length]. lia.
  - intros c b IHb mo IHm e st s fuel rest acc os e' C H. destruct fuel as [|n]; [discriminate H|]. flats_in H; cbn [app] in H. rewrite pp_cons in H.
    assert (H1 : readable e c /\ pp n (DISABLED :: st) e ((flat b ++ flat_alts mo) ++ rest) acc = Done _ _ os e').
    { unfold CondModel.step, pop_state in H. unfold readable. destruct (prepare e c); [|discriminate H]. split; [discriminate|].
      destruct C as [[A N]|[A ->]]; rewrite A, ?app_nil_r in H; [destruct s; try rewrite app_nil_r in H; congruence|exact H]. }
    destruct H1 as [Kc H1]. rewrite <- !app_assoc in H1. destruct (IHb _ _ _ _ _ _ _ (eq_refl : active (DISABLED :: st) = false) H1) as (Kb & m1 & -> & H2).
    assert (C' : closing st DISABLED) by (destruct C as [[A N]|[A N]]; [left|right]; split; auto; discriminate).
    destruct (IHm _ _ _ _ _ _ _ _ C' H2) as (Km & m2 & -> & H3).
    split; [repeat split; assumption|]. exists m2. split; [|exact H3]. flats; cbn [length]. rewrite app_length. lia.
Qed.

Lemma opener_step st e t rest : active st = true -> step st e (opener t) rest =
  match holds e t with Some b => Go _ _ _ _ _ _ (branch b :: st) e rest [] | None => Stop _ _ _ _ _ _ (Err _ _) end.
Proof.
  intro A. destruct t; unfold CondModel.step, opener, CondSpec.holds, ifdef, cond; rewrite A; [|destruct (isdef e n)..]; try reflexivity.
  destruct (prepare e c) as [p|]; [destruct (value e p)|]; reflexivity.
Qed.

(* what the machine computes is what the C semantics prescribes *)
Lemma run_complete :
  (forall e g os e', Run readable e g os e' -> exists n, forall m st rest acc, active st = true ->
     pp (n + m) st e (flat g ++ rest) acc = pp m st e' rest (acc ++ os)) /\
  (forall e a os e', RunAlts readable e a os e' -> exists n, forall m st rest acc, active st = true ->
     pp (n + m) (DEAD :: st) e (flat_alts a ++ rest) acc = pp m st e' rest (acc ++ os)).
Proof.
  apply Run_mutind.
  - intros e. exists 0. intros. rewrite app_nil_r. reflexivity.
  - intros e t r o os e' E _ (n & IH). exists (S n). intros m st rest acc A. flats; cbn [app Nat.add]. rewrite pp_cons. unfold CondModel.step. rewrite A, E. rewrite IH by exact A.
    rewrite <- app_assoc. reflexivity.
  - intros e r os e' _ (n & IH). exists (S n). intros m st rest acc A. flats; cbn [app Nat.add]. rewrite pp_cons. unfold CondModel.step. rewrite app_nil_r. apply IH, A.
  - intros e d r e1 inc os1 e2 os e' E _ (n1 & IH1) _ (n2 & IH2). exists (S (n1 + n2)). intros m st rest acc A. flats; cbn [app Nat.add]. rewrite pp_cons. unfold CondModel.step, fexec. rewrite A, E, app_nil_r.
    rewrite <- Nat.add_assoc. rewrite IH1 by exact A. rewrite IH2 by exact A. rewrite app_assoc. reflexivity.
  - intros e t b a r os1 e1 os e' E _ (n1 & IH1) K _ (n2 & IH2). exists (S (n1 + (length (flat_alts a) + n2))). intros m st rest acc A. flats; cbn [app Nat.add]. rewrite pp_cons, opener_step by exact A.
    rewrite E, app_nil_r. rewrite <- !Nat.add_assoc, <- !app_assoc. rewrite IH1 by reflexivity. rewrite (proj2 skip_ok).
    + rewrite IH2 by exact A. rewrite app_assoc. reflexivity.
    + left. split; [exact A|discriminate].
    + exact K.
  - intros e t b a r os1 e1 os e' E K _ (n1 & IH1) _ (n2 & IH2). exists (S (length (flat b) + (n1 + n2))). intros m st rest acc A. flats; cbn [app Nat.add]. rewrite pp_cons, opener_step by exact A.
    rewrite E, app_nil_r. rewrite <- !Nat.add_assoc, <- !app_assoc. rewrite (proj1 skip_ok) by (auto; reflexivity).
    unfold branch. rewrite IH1 by exact A. rewrite IH2 by exact A. rewrite app_assoc. reflexivity.
  - intros e. exists 1. intros m st rest acc A. flats; cbn [app Nat.add]. rewrite pp_cons. unfold CondModel.step, pop_state. rewrite !app_nil_r. reflexivity.
  - intros e b os e' _ (n & IH). exists (S (n + 1)). intros m st rest acc A. flats; cbn [app Nat.add]. rewrite pp_cons. unfold CondModel.step at 1, pop_state. rewrite A, app_nil_r.
    rewrite <- !Nat.add_assoc, <- !app_assoc. rewrite IH by reflexivity. cbn [Nat.add app]. rewrite pp_cons. unfold CondModel.step, pop_state. rewrite app_nil_r. reflexivity.
  - intros e c b mo os e' E _ (n & IH) K. exists (S (n + length (flat_alts mo))). intros m st rest acc A. flats; cbn [app Nat.add]. rewrite pp_cons. unfold CondModel.step at 1, pop_state.
    unfold cond in E. destruct (prepare e c) as [p|]; [|discriminate E]. rewrite A, E, app_nil_r. unfold branch.
    rewrite <- !Nat.add_assoc, <- !app_assoc. rewrite IH by reflexivity. rewrite (proj2 skip_ok); [reflexivity| |exact K]. left. split; [exact A|discriminate].
  - intros e c b mo os e' E K _ (n & IH). exists (S (length (flat b) + n)). intros m st rest acc A. flats; cbn [app Nat.add]. rewrite pp_cons. unfold CondModel.step at 1, pop_state.
    unfold cond in E. destruct (prepare e c) as [p|]; [|discriminate E]. rewrite A, E, app_nil_r. unfold branch.
    rewrite <- !Nat.add_assoc, <- !app_assoc. rewrite (proj1 skip_ok) by (auto; reflexivity). apply IH, A.
Qed.

Lemma closing_live st : active st = true -> closing st LIVE.
Proof. intro A. left. split; [exact A|intro X; discriminate X]. Qed.

Lemma run_sound : forall fuel,
  (forall g e st rest acc os e', active st = true -> pp fuel st e (flat g ++ rest) acc = Done _ _ os e' ->
     exists os1 e1 m, m <= fuel /\ Run readable e g os1 e1 /\ pp m st e1 rest (acc ++ os1) = Done _ _ os e') /\
  (forall a e st rest acc os e', active st = true -> pp fuel (DEAD :: st) e (flat_alts a ++ rest) acc = Done _ _ os e' ->
     exists os1 e1 m, m <= fuel /\ RunAlts readable e a os1 e1 /\ pp m st e1 rest (acc ++ os1) = Done _ _ os e').
Proof.
  induction fuel as [fuel IH] using (well_founded_induction lt_wf).
  assert (G : forall n, n < fuel -> forall g e st rest acc os e', active st = true -> pp n st e (flat g ++ rest) acc = Done _ _ os e' ->
     exists os1 e1 m, m <= n /\ Run readable e g os1 e1 /\ pp m st e1 rest (acc ++ os1) = Done _ _ os e') by (intros n L; exact (proj1 (IH n L))).
  assert (GA : forall n, n < fuel -> forall a e st rest acc os e', active st = true -> pp n (DEAD :: st) e (flat_alts a ++ rest) acc = Done _ _ os e' ->
     exists os1 e1 m, m <= n /\ RunAlts readable e a os1 e1 /\ pp m st e1 rest (acc ++ os1) = Done _ _ os e') by (intros n L; exact (proj2 (IH n L))).
  split.
  - intros g e st rest acc os e' A H. destruct g as [|t r|d r|r|t b a r].
    + exists [], e, fuel. split; [lia|]. split; [constructor|]. rewrite app_nil_r. exact H.
    + destruct fuel as [|n]; [discriminate H|]. flats_in H; cbn [app] in H. rewrite pp_cons in H. unfold CondModel.step in H. rewrite A in H. destruct (emit e t) as [o|] eqn:E; [|discriminate H].
      destruct (G n ltac:(lia) _ _ _ _ _ _ _ A H) as (os1 & e1 & m & L & R & H1). exists (o :: os1), e1, m. split; [lia|]. split; [econstructor; eassumption|].
      rewrite <- app_assoc in H1. exact H1.
    + destruct fuel as [|n]; [discriminate H|]. flats_in H; cbn [app] in H. rewrite pp_cons in H. unfold CondModel.step, fexec in H. rewrite A in H. destruct (exec e d) as [[e1 inc]|] eqn:E; [|discriminate H].
      rewrite app_nil_r in H. destruct (G n ltac:(lia) _ _ _ _ _ _ _ A H) as (os1 & e2 & m & L & R & H1).
      destruct (G m ltac:(lia) _ _ _ _ _ _ _ A H1) as (os2 & e3 & m2 & L2 & R2 & H2). exists (os1 ++ os2), e3, m2. split; [lia|]. split; [econstructor; eassumption|].
      rewrite <- app_assoc in H2. exact H2.
    + destruct fuel as [|n]; [discriminate H|]. flats_in H; cbn [app] in H. rewrite pp_cons in H. unfold CondModel.step in H. rewrite app_nil_r in H.
      destruct (G n ltac:(lia) _ _ _ _ _ _ _ A H) as (os1 & e1 & m & L & R & H1). exists os1, e1, m. split; [lia|]. split; [constructor; exact R|exact H1].
    + destruct fuel as [|n]; [discriminate H|]. flats_in H; cbn [app] in H. rewrite pp_cons, opener_step in H by exact A. destruct (holds e t) as [[|]|] eqn:E; [| |discriminate H]; rewrite app_nil_r in H; rewrite <- !app_assoc in H.
      * destruct (G n ltac:(lia) _ _ _ _ _ _ _ (eq_refl : active (branch true :: st) = true) H) as (os1 & e1 & m & L & R & H1).
        destruct (proj2 skip_inv _ _ _ _ _ _ _ _ _ (closing_live st A) H1) as (K & m2 & EM & H2).
        destruct (G m2 ltac:(lia) _ _ _ _ _ _ _ A H2) as (os2 & e2 & m3 & L3 & R3 & H3). exists (os1 ++ os2), e2, m3. split; [lia|]. split; [eapply RTrue; eassumption|].
        rewrite <- app_assoc in H3. exact H3.
      * destruct (proj1 skip_inv _ _ _ _ _ _ _ _ (eq_refl : active (DEAD :: st) = false) H) as (K & m2 & EM & H2).
        destruct (GA m2 ltac:(lia) _ _ _ _ _ _ _ A H2) as (os1 & e1 & m & L & R & H1).
        destruct (G m ltac:(lia) _ _ _ _ _ _ _ A H1) as (os2 & e2 & m3 & L3 & R3 & H3). exists (os1 ++ os2), e2, m3. split; [lia|]. split; [eapply RFalse; eassumption|].
        rewrite <- app_assoc in H3. exact H3.
  - intros a e st rest acc os e' A H. destruct a as [|b|c b mo]; (destruct fuel as [|n]; [discriminate H|]); flats_in H; cbn [app] in H; rewrite pp_cons in H.
    + unfold CondModel.step, pop_state in H. exists [], e, n. split; [lia|]. split; [constructor|exact H].
    + unfold CondModel.step at 1, pop_state in H. rewrite A, app_nil_r in H. rewrite <- !app_assoc in H.
      destruct (G n ltac:(lia) _ _ _ _ _ _ _ (eq_refl : active (LIVE :: st) = true) H) as (os1 & e1 & m & L & R & H1).
      cbn [app] in H1. destruct m as [|m]; [discriminate H1|]. rewrite pp_cons in H1. unfold CondModel.step, pop_state in H1. rewrite app_nil_r in H1.
      exists os1, e1, m. split; [lia|]. split; [constructor; exact R|exact H1].
    + unfold CondModel.step at 1, pop_state in H. destruct (prepare e c) as [p|] eqn:P; [|discriminate H]. rewrite A in H. destruct (value e p) as [[|]|] eqn:V; [| |discriminate H]; rewrite app_nil_r in H; rewrite <- !app_assoc in H; unfold branch in H.
      * destruct (G n ltac:(lia) _ _ _ _ _ _ _ (eq_refl : active (LIVE :: st) = true) H) as (os1 & e1 & m & L & R & H1).
        destruct (proj2 skip_inv _ _ _ _ _ _ _ _ _ (closing_live st A) H1) as (K & m2 & EM & H2).
        exists os1, e1, m2. split; [lia|]. split; [|exact H2]. apply RATrue; [unfold cond; rewrite P; exact V|exact R|exact K].
      * destruct (proj1 skip_inv _ _ _ _ _ _ _ _ (eq_refl : active (DEAD :: st) = false) H) as (K & m2 & EM & H2).
        destruct (GA m2 ltac:(lia) _ _ _ _ _ _ _ A H2) as (os1 & e1 & m & L & R & H1).
        exists os1, e1, m. split; [lia|]. split; [|exact H1]. apply RAFalse; [unfold cond; rewrite P; exact V|exact K|exact R].
Qed.

(* the assertions in #else and #elif never fail, whatever the sequence of lines *)

Lemma run_iff g e os e' : (exists fuel, pp fuel [] e (flat g) [] = Done _ _ os e') <-> Run readable e g os e'.
Proof.
  split.
  - intros [fuel H]. destruct (proj1 (run_sound fuel) g e [] [] [] os e' eq_refl) as (os1 & e1 & m & L & R & E); [rewrite app_nil_r; exact H|].
    destruct m; cbn in E; injection E as -> ->; exact R.
  - intro R. destruct (proj1 run_complete e g os e' R) as [n H]. exists (n + 0). specialize (H 0 [] [] [] eq_refl). rewrite app_nil_r in H. exact H.
Qed.

Lemma skip_weaken (s1 s2 : Env -> Cnd -> Prop) : (forall e c, s1 e c -> s2 e c) ->
  (forall g e, CondSpec.skip_group Env Cnd Name Dir Txt s1 e g -> CondSpec.skip_group Env Cnd Name Dir Txt s2 e g) /\
  (forall a e, CondSpec.skip_alts Env Cnd Name Dir Txt s1 e a -> CondSpec.skip_alts Env Cnd Name Dir Txt s2 e a).
Proof.
  intro S. apply group_alts_ind; cbn; intros; auto.
  - destruct H2 as (A & B & C & D). split; [destruct t; auto|]. split; [apply H, B|]. split; [apply H0, C|apply H1, D].
  - apply H, H0.
  - destruct H1 as (A & B & C). split; [apply S, A|]. split; [apply H, B|apply H0, C].
Qed.
Lemma run_weaken (s1 s2 : Env -> Cnd -> Prop) : (forall e c, s1 e c -> s2 e c) ->
  (forall e g os e', Run s1 e g os e' -> Run s2 e g os e') /\ (forall e a os e', RunAlts s1 e a os e' -> RunAlts s2 e a os e').
Proof.
  intro S. destruct (skip_weaken s1 s2 S) as [W1 W2]. apply Run_mutind; intros;
    [apply RNil|eapply RText|apply RNull|eapply RDir|eapply RTrue|eapply RFalse|apply RAEnd|apply RAElse|eapply RATrue|eapply RAFalse]; eauto.
Qed.
End P.

Section NoAssert.
Variables Env Cnd Prep Name Dir Txt Out : Type.
Variable prepare : Env -> Cnd -> option Prep.
Variable value : Env -> Prep -> option bool.
Variable isdef : Env -> Name -> option bool.
Variable exec : Env -> Dir -> option (Env * list (line Cnd Name Dir Txt)).
Variable emit : Env -> Txt -> option Out.
Notation pp := (pp Env Cnd Prep Name Dir Txt Out prepare value isdef exec emit).
Notation step := (step Env Cnd Prep Name Dir Txt Out prepare value isdef exec emit).
Fixpoint inv (st : list bstate) : Prop := match st with [] => True | s :: r => inv r /\ (active r = false -> s = DISABLED) end.

Lemma never_asserts fuel : forall st e input acc, inv st -> pp fuel st e input acc <> AssertFails _ _.
Proof.
  induction fuel as [|n IH]; intros st e [|l rest] acc V; try discriminate.
  cbn [CondModel.pp]. destruct l; unfold CondModel.step, ifdef.
  - destruct (active st); [destruct (emit e t); [apply IH, V|discriminate]|apply IH, V].
  - destruct (prepare e c); [|discriminate]. destruct (active st) eqn:A; [destruct (value e p); [|discriminate]|]; apply IH; cbn; (split; [exact V|congruence]).
  - destruct (active st) eqn:A; [destruct (isdef e n0); [|discriminate]|]; apply IH; cbn; (split; [exact V|congruence]).
  - destruct (active st) eqn:A; [destruct (option_map negb (isdef e n0)); [|discriminate]|]; apply IH; cbn; (split; [exact V|congruence]).
  - destruct (prepare e c); [|discriminate]. unfold pop_state. destruct st as [|s st]; [discriminate|]. destruct V as [V D]. destruct (active st) eqn:A.
    + destruct s; try (destruct (value e p); [|discriminate]); apply IH; cbn; (split; [exact V|congruence]).
    + rewrite (D eq_refl). apply IH. cbn. split; [exact V|reflexivity].
  - unfold pop_state. destruct st as [|s st]; [discriminate|]. destruct V as [V D]. destruct (active st) eqn:A.
    + apply IH. cbn. split; [exact V|congruence].
    + rewrite (D eq_refl). apply IH. cbn. split; [exact V|reflexivity].
  - unfold pop_state. destruct st as [|s st]; [discriminate|]. apply IH. exact (proj1 V).
  - destruct (active st); [destruct (exec e d) as [[e' ls]|]; [apply IH, V|discriminate]|apply IH, V].
  - apply IH, V.
Qed.

Lemma pp_fuel : forall n m st e input acc os e', pp n st e input acc = Done _ _ os e' -> n <= m -> pp m st e input acc = Done _ _ os e'.
Proof.
  induction n as [|n IH]; intros m st e [|l rest] acc os e' H L; try discriminate H.
  - destruct m; exact H.
  - destruct m; exact H.
  - destruct m as [|m]; [lia|]. cbn [CondModel.pp] in *. destruct (step st e l rest); [|exact H]. apply IH; [exact H|lia].
Qed.
End NoAssert.
