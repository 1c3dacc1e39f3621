(* Expressions: the graph does what the expression means. *)
From Coq Require Import ZArith List Bool Arith Lia.
From Verif Require Import CfgSyntax CfgModel CfgSpec CfgProofs.
Import ListNotations.

Section Expr.
Variable L : lang.
Hypothesis law : lawful L.
Local Notation state := (st L).
Local Notation graph := (id -> blk L).

(* The choice made by the compiler: variables are read late, the value of an assignment of a constant is the constant *)
Definition late_ (e : expr L) : bool :=
  match e with EAssign _ a => match constant a with Some _ => false | None => true end | _ => true end.

Definition star (g : graph) (a : gstate L) (tr : list (effect L)) (b : gstate L) : Prop := exists n, gsteps g n a tr b.
Lemma star_refl : forall (g : graph) a, star g a [] a.
Proof. intros g a. exists 0. constructor. Qed.
Lemma gsteps_trans : forall (g : graph) n m a t b u c, gsteps g n a t b -> gsteps g m b u c -> gsteps g (n + m) a (t ++ u) c.
Proof.
  intros g n m a t b u c H. induction H as [s|n s ev s1 tr s2 E _ IH]; intros H2; [exact H2|].
  rewrite <- app_assoc. cbn [plus]. apply gsteps_S with s1; auto.
Qed.
Lemma star_trans : forall (g : graph) a b c t u v, star g a t b -> star g b u c -> v = t ++ u -> star g a v c.
Proof. intros g a b c t u v [n H] [m K] ->. exists (n + m). now apply gsteps_trans with b. Qed.
Lemma star_one : forall (g : graph) a t b, gstep g a = Some (t, b) -> star g a t b.
Proof. intros g a t b H. exists 1. rewrite <- (app_nil_r t). apply gsteps_S with b; [auto|constructor]. Qed.

Definition at_ (s : state) (b : id) : nat := length (code (blocks s b)).

Lemma step_instr : forall (g : graph) b i c m t ps m' t' ps' ev,
  nth_error (code (g b)) i = Some c -> exec c m t ps = (m', t', ps', ev) -> star g (Run b i m t ps) ev (Run b (S i) m' t' ps').
Proof. intros g b i c m t ps m' t' ps' ev H E. apply star_one. simpl. now rewrite H, E. Qed.
Lemma step_branch : forall (g : graph) b m t ps j y v m' ps' ev,
  jump0 (g b) = Some j -> jump1 (g b) = Some y -> run (bexpr (g b)) m t ps = (v, m', ps', ev) ->
  star g (Run b (length (code (g b))) m t ps) ev (Run (if truth L v then y else j) 0 m' t ps').
Proof.
  intros g b m t ps j y v m' ps' ev H1 H2 E. apply star_one. simpl.
  rewrite (proj2 (nth_error_None (code (g b)) (length (code (g b))))) by lia. now rewrite H1, H2, E.
Qed.
Lemma step_jump : forall (g : graph) b m t ps j,
  jump0 (g b) = Some j -> jump1 (g b) = None -> star g (Run b (length (code (g b))) m t ps) [] (Run j 0 m t ps).
Proof.
  intros g b m t ps j H1 H2. apply star_one. simpl.
  rewrite (proj2 (nth_error_None (code (g b)) (length (code (g b))))) by lia. now rewrite H1, H2.
Qed.

(* The blocks made from s with current block b, up to s' *)
Definition own (s : state) (b : id) (s' : state) (c : id) : Prop := c = b \/ exists n, c = B n /\ next s <= n < next s'.
(* G is as in s' on these, apart from b', which may have been continued *)
Definition agr (g : graph) (s : state) (b : id) (s' : state) (b' : id) : Prop :=
  (forall c, own s b s' c -> c <> b' -> g c = blocks s' c) /\ exists l, code (g b') = code (blocks s' b') ++ l.

Lemma agr_sub : forall g s b sf bf s0 b0 s1 b1 X,
  agr g s b sf bf -> old s0 b0 -> good s0 b0 s1 b1 -> chg s1 X sf ->
  (forall c, own s0 b0 s1 c -> own s b sf c) -> (forall c, In c X -> c = b1 \/ ~ own s0 b0 s1 c) -> (bf = b1 \/ ~ own s0 b0 s1 bf) ->
  agr g s0 b0 s1 b1.
Proof.
  intros g s b sf bf s0 b0 s1 b1 X [H1 [l1 H2]] O Gd [C1 C2] HO HX HB.
  assert (O1 : forall c, own s0 b0 s1 c -> old s1 c).
  { intros c [->|(n & -> & H)]; [|simpl; lia]. apply old_grows with s0; [auto|apply Gd]. }
  assert (Ob1 : own s0 b0 s1 b1) by (destruct Gd as (_ & _ & _ & [->|(n & -> & H)] & _); [now left|right; now exists n]).
  split.
  - intros c Oc N. rewrite H1; [apply C1; auto| now apply HO|].
    + intros I. destruct (HX c I); [congruence|contradiction].
    + intros ->. destruct HB; [congruence|contradiction].
  - destruct (C2 b1 (O1 b1 Ob1)) as [l2 E2]. destruct (id_eqb_spec bf b1) as [->|N].
    + exists (l2 ++ l1). now rewrite H2, E2, app_assoc.
    + exists l2. rewrite H1; auto.
Qed.
Lemma agr_trans : forall g s b s1 b1 s2 b2, old s b -> good s b s1 b1 -> good s1 b1 s2 b2 -> agr g s b s2 b2 ->
  agr g s b s1 b1 /\ agr g s1 b1 s2 b2.
Proof.
  intros g s b s1 b1 s2 b2 O G1 G2 A. assert (Gr1 : grows s s1) by apply G1. assert (Gr2 : grows s1 s2) by apply G2.
  destruct Gr1 as [Gr1 _], Gr2 as [Gr2 _]. split.
  - apply agr_sub with s b s2 b2 [b1]; auto; [apply G2| | |].
    + intros c [->|(n & -> & H)]; [now left|right; exists n; split; auto; lia].
    + intros c [<-|[]]. now left.
    + destruct G2 as (_ & _ & _ & [->|(n & -> & H)] & _); [now left|right]. intros [E|(m & E & H2)]; [|assert (n = m) by congruence; lia].
      subst b. simpl in O. lia.
  - destruct A as [A1 A2]. split; [|exact A2]. intros c [->|(n & -> & H)] N; apply A1; auto.
    + destruct G1 as (_ & _ & _ & T & _). destruct T as [->|(n & -> & H)]; [now left|right; exists n; split; auto; lia].
    + right. exists n. split; auto. lia.
Qed.
Lemma agr_code : forall g s b s' b', agr g s b s' b' -> exists l, code (g b') = code (blocks s' b') ++ l.
Proof. intros g s b s' b' [_ H]. exact H. Qed.
Lemma agr_full : forall g s b s' b' c, agr g s b s' b' -> own s b s' c -> c <> b' -> g c = blocks s' c.
Proof. intros g s b s' b' c [H _]. auto. Qed.

(* An operand stands for a result *)
Definition opd_ok (d : opd L) (r : result L) (t : nat -> val L) : Prop :=
  match d, r with DImm v, Val w => v = w | DVar x, Lv y => x = y | DTmp n, Val w => t n = w | _, _ => False end.
Definition below (d : opd L) (n : nat) : Prop := match d with DTmp k => k < n | _ => True end.
Definition belowr (r : res L) (n : nat) : Prop :=
  match r with RId d | RCast _ d | RCall _ d => below d n | RBin _ a b | RRel _ a b => below a n /\ below b n end.
Lemma opd_now : forall d r t m, opd_ok d r t -> opdv d m t = rvalue r m.
Proof. intros [v|x|n] [w|y] t m H; simpl in *; try contradiction; congruence. Qed.
Lemma opd_later : forall d r t t' n, opd_ok d r t -> below d n -> (forall k, k < n -> t' k = t k) -> opd_ok d r t'.
Proof. intros [v|x|k] [w|y] t t' n H B E; simpl in *; auto. now rewrite E. Qed.
Lemma below_le : forall d n m, below d n -> n <= m -> below d m.
Proof. intros [v|x|k] n m H Hl; simpl in *; auto. lia. Qed.

Definition exv (g : graph) (e : expr L) (b : id) (i : nat) (b' : id) (i' : nat) (d : opd L) (lo hi : nat) : Prop :=
  forall m t tr m' r, sem late_ e m = (tr, m', r) ->
  exists t', star g (Run b i m t []) tr (Run b' i' m' t' []) /\ (forall n, n < lo -> t' n = t n) /\ opd_ok d r t' /\ below d hi.
(* up to the pending operation r *)
Definition pend_ok (c : res L) (r : result L) (t : nat -> val L) : Prop := match c with RId d => opd_ok d r t | _ => exists v, r = Val v end.
Definition exr (g : graph) (e : expr L) (b : id) (i : nat) (b' : id) (i' : nat) (c : res L) (lo hi : nat) : Prop :=
  forall m t tr m' r, sem late_ e m = (tr, m', r) ->
  exists tr1 tr2 m1 t' ps, star g (Run b i m t []) tr1 (Run b' i' m1 t' ps) /\ tr = tr1 ++ tr2 /\ (forall n, n < lo -> t' n = t n)
    /\ run c m1 t' ps = (rvalue r m', m', [], tr2) /\ pend_ok c r t' /\ belowr c hi.

Lemma nth_end : forall (l : list (instr L)) x r, nth_error ((l ++ [x]) ++ r) (length l) = Some x.
Proof. intros l x r. rewrite <- app_assoc. rewrite nth_error_app2 by lia. now rewrite Nat.sub_diag. Qed.

Lemma eval_inv : forall b c s d s', eval_ b c s = Some (d, s') -> canapp s b -> old s b ->
  (c = RId d /\ s' = s)
  \/ (exists f, c = RCall true f /\ d = DImm (voidv L) /\ code (blocks s' b) = code (blocks s b) ++ [IExpr c] /\ tmp s' = tmp s)
  \/ (d = DTmp (tmp s) /\ code (blocks s' b) = code (blocks s b) ++ [ITemp (tmp s) None c] /\ tmp s' = S (tmp s)
      /\ (forall x, c <> RId x) /\ (forall f, c <> RCall true f)).
Proof.
  intros b c s d s' H A O.
  assert (X : forall i n s1, append b i (settmp n s) = Some s1 -> tmp s <= n -> code (blocks s1 b) = code (blocks s b) ++ [i] /\ tmp s1 = n).
  { intros i n s1 E Hn. destruct (append_tmp_ok L b i n s A O Hn) as (s2 & E2 & _ & C & _ & _ & _ & _ & _ & T & _). rewrite E in E2.
    assert (s1 = s2) by congruence. now subst. }
  destruct c as [x|o x y|k x y|ty x|[|] f]; cbn [eval_] in H.
  - left. split; congruence.
  - right; right. destruct (append b _ _) as [s1|] eqn:E; [|congruence]. assert (s1 = s' /\ DTmp (tmp s) = d) as [<- <-] by (split; congruence).
    destruct (X _ _ _ E) as [C T]; [lia|]. repeat split; auto; congruence.
  - right; right. destruct (append b _ _) as [s1|] eqn:E; [|congruence]. assert (s1 = s' /\ DTmp (tmp s) = d) as [<- <-] by (split; congruence).
    destruct (X _ _ _ E) as [C T]; [lia|]. repeat split; auto; congruence.
  - right; right. destruct (append b _ _) as [s1|] eqn:E; [|congruence]. assert (s1 = s' /\ DTmp (tmp s) = d) as [<- <-] by (split; congruence).
    destruct (X _ _ _ E) as [C T]; [lia|]. repeat split; auto; congruence.
  - right; left. destruct (append b _ _) as [s1|] eqn:E; [|congruence]. assert (s1 = s' /\ DImm (voidv L) = d) as [<- <-] by (split; congruence).
    exists f. destruct (append_ok L b (IExpr (RCall true f)) s A O) as (s2 & E2 & _ & C & _ & _ & _ & _ & _ & T & _). rewrite E in E2.
    assert (s1 = s2) by congruence. subst. auto.
  - right; right. destruct (append b _ _) as [s1|] eqn:E; [|congruence]. assert (s1 = s' /\ DTmp (tmp s) = d) as [<- <-] by (split; congruence).
    destruct (X _ _ _ E) as [C T]; [lia|]. repeat split; auto; congruence.
Qed.

Lemma eval_ex : forall g e b i b' c lo s d s', exr g e b i b' (at_ s b') c lo (tmp s) -> lo <= tmp s ->
  eval_ b' c s = Some (d, s') -> canapp s b' -> old s b' -> (exists l, code (g b') = code (blocks s' b') ++ l) ->
  exv g e b i b' (at_ s' b') d lo (tmp s').
Proof.
  intros g e b i b' c lo s d s' H Hl E A O [l Hg] m t tr m' r Hs.
  destruct (H m t tr m' r Hs) as (tr1 & tr2 & m1 & t' & ps & S1 & -> & K & R & P & Bl).
  destruct (eval_inv _ _ _ _ _ E A O) as [[-> ->]|[(f & -> & -> & C & T)|(-> & C & T & N1 & N2)]].
  - simpl in R. assert (opdv d m1 t' = rvalue r m' /\ m1 = m' /\ ps = [] /\ [] = tr2) as (_ & -> & -> & <-) by (repeat split; congruence).
    exists t'. rewrite app_nil_r. auto.
  - exists t'. split; [|split; [auto|]].
    + eapply star_trans; [exact S1| |reflexivity]. unfold at_. rewrite C, app_length. simpl. rewrite Nat.add_1_r.
      eapply step_instr; [rewrite Hg, C; apply nth_end|]. cbn [exec]. now rewrite R.
    + destruct P as [v ->]. simpl. split; [|auto]. simpl in R. destruct (callv _ _ _ _). simpl in R. congruence.
  - exists (fun k => if Nat.eqb k (tmp s) then rvalue r m' else t' k). split; [|split].
    + eapply star_trans; [exact S1| |reflexivity]. unfold at_. rewrite C, app_length. simpl. rewrite Nat.add_1_r.
      eapply step_instr; [rewrite Hg, C; apply nth_end|]. cbn [exec]. now rewrite R.
    + intros n Hn. destruct (Nat.eqb_spec n (tmp s)); [lia|auto].
    + assert (exists v, r = Val v) as [v ->] by (destruct c; simpl in P; auto; now destruct (N1 d)).
      simpl. rewrite Nat.eqb_refl. split; [reflexivity|lia].
Qed.
(* a value is an operation already carried out *)
Lemma exv_exr : forall g e b i b' i' d lo hi, exv g e b i b' i' d lo hi -> exr g e b i b' i' (RId d) lo hi.
Proof.
  intros g e b i b' i' d lo hi H m t tr m' r Hs. destruct (H m t tr m' r Hs) as (t' & S1 & K & P & Bl).
  exists tr, [], m', t', []. rewrite app_nil_r. simpl. rewrite (opd_now _ _ _ m' P). repeat split; auto.
Qed.

(* What is known of the pending operation *)
Definition shape (e : expr L) (c : res L) : Prop :=
  (forall v, constant e = Some v -> c = RId (DImm v)) /\ (constant e = None -> forall v, c <> RId (DImm v))
  /\ is_call e = has_side_effects c /\ (direct e = true -> exists d, c = RId d)
  /\ (relational_ e = false -> forall x y, c <> RRel Ge_ x y /\ c <> RRel Gt_ x y)
  /\ (isvoid e = false -> forall f, c <> RCall true f).
Definition vshape (e : expr L) (d : opd L) : Prop :=
  (forall v, constant e = Some v -> d = DImm v) /\ (isvoid e = false -> constant e = None -> forall v, d <> DImm v).

Definition P (e : expr L) : Prop := forall b s, canapp s b -> old s b ->
  exists b' c s', lower e b s = Some (b', c, s') /\ good s b s' b'
    /\ forall v, fine v e -> shape e c /\ (isopen s b -> forall g, agr g s b s' b' -> exr g e b (at_ s b) b' (at_ s' b') c (tmp s) (tmp s')).
Definition exl (g : graph) (l : exprs L) (b : id) (i : nat) (b' : id) (i' : nat) (ds : list (opd L)) (lo hi : nat) : Prop :=
  forall m t tr m' rs, sems late_ l m = (tr, m', rs) ->
  exists t', star g (Run b i m t []) tr (Run b' i' m' t' []) /\ (forall n, n < lo -> t' n = t n)
    /\ Forall2 (fun d r => opd_ok d r t' /\ below d hi) ds rs.
Definition PL (l : exprs L) : Prop := forall b s, canapp s b -> old s b ->
  exists b' ds s', lowers l b s = Some (b', ds, s') /\ good s b s' b'
    /\ (fines l -> isopen s b -> forall g, agr g s b s' b' -> exl g l b (at_ s b) b' (at_ s' b') ds (tmp s) (tmp s')).

(* with evaluation *)
Lemma value_ok : forall e b s, P e -> canapp s b -> old s b ->
  exists b' c s1 d s', lower e b s = Some (b', c, s1) /\ eval_ b' c s1 = Some (d, s') /\ good s b s1 b' /\ good s1 b' s' b' /\ good s b s' b'
    /\ forall v, fine v e -> shape e c /\ vshape e d /\ (isopen s b -> forall g, agr g s b s' b' -> exv g e b (at_ s b) b' (at_ s' b') d (tmp s) (tmp s')).
Proof.
  intros e b s H A O. destruct (H b s A O) as (b' & c & s1 & E & G & F).
  assert (O1 : old s1 b') by now apply good_old with s b. assert (A1 : canapp s1 b') by apply G.
  destruct (eval_ok L b' c s1 A1 O1) as (d & s' & E2 & G2 & _).
  exists b', c, s1, d, s'. split; [exact E|]. split; [exact E2|]. split; [exact G|]. split; [exact G2|]. split; [now apply good_trans with s1 b'|].
  intros v Fv. destruct (F v Fv) as [S X]. split; [exact S|]. split.
  - destruct S as (S1 & S2 & S3 & S4 & S5 & S6). split.
    + intros w Hw. rewrite (S1 w Hw) in E2. simpl in E2. congruence.
    + intros Hv Hc w Hw. subst d. destruct (eval_inv _ _ _ _ _ E2 A1 O1) as [[-> _]|[(f & -> & _)|(Y & _)]]; [now apply (S2 Hc w)|now apply (S6 Hv f)|congruence].
  - intros I g Ag. destruct (agr_trans g s b s1 b' s' b' O G G2 Ag) as [Ag1 Ag2].
    eapply eval_ex; eauto; [apply G|apply Ag2].
Qed.

Lemma fine_void : forall e : expr L, fine true e -> isvoid e = false.
Proof. intros e H. destruct e; apply H; reflexivity. Qed.
Lemma vcase : forall (e : expr L) d, vshape e d -> isvoid e = false ->
  (exists v, constant e = Some v /\ d = DImm v) \/ (constant e = None /\ ((exists x, d = DVar x) \/ exists n, d = DTmp n)).
Proof.
  intros e d [H1 H2] V. destruct (constant e) as [v|] eqn:E; [left; exists v; auto|right]. split; [reflexivity|].
  destruct d as [v|x|n]; [now destruct (H2 V eq_refl v)|left; now exists x|right; now exists n].
Qed.

Lemma run_bin : forall o (d e : opd L) m t ps, run (bin o d e) m t ps = (binv L o (opdv d m t) (opdv e m t), m, ps, []).
Proof. intros o [u|x|n] [v|y|k] m t ps; reflexivity. Qed.
Lemma run_cmp : forall r (d e : opd L) m t ps, run (cmp r d e) m t ps = (int01 L (relv L (rel_of r) (opdv d m t) (opdv e m t)), m, ps, []).
Proof. intros r [u|x|n] [v|y|k] m t ps; reflexivity. Qed.
Lemma run_cast : forall ty (d : opd L) m t ps, run (cast_res ty d) m t ps = (match ty with Some ty => castv L ty (opdv d m t) | None => voidv L end, m, ps, []).
Proof. intros [ty|] [u|x|n] m t ps; reflexivity. Qed.
(* nothing but constants and operations *)
Definition plain (c : res L) : Prop := (exists w, c = RId (DImm w)) \/ (forall d, c <> RId d).
Lemma plain_bin : forall o d e, plain (bin o d e).
Proof. intros o [u|x|n] [v|y|k]; simpl; try (right; intros; congruence). left. eexists. reflexivity. Qed.
Lemma plain_cmp : forall o d e, plain (cmp o d e).
Proof. intros o [u|x|n] [v|y|k]; simpl; try (right; intros; congruence). left. eexists. reflexivity. Qed.
Lemma plain_cast : forall o d, plain (cast_res o d).
Proof. intros [t|] [u|x|n]; simpl; try (right; intros; congruence); left; eexists; reflexivity. Qed.
Lemma plain_relational : forall o d e, plain (relational o d e).
Proof. intros [] d e; apply plain_cmp. Qed.
Lemma pend_plain : forall c m t ps v m' ps' ev, plain c -> run c m t ps = (v, m', ps', ev) -> pend_ok c (Val v) t.
Proof.
  intros c m t ps v m' ps' ev [[w ->]|N] R; simpl in *; [congruence|]. destruct c; simpl; [now destruct (N d)|..]; now exists v.
Qed.
Lemma run_relational : forall o (d e : opd L) m t ps, run (relational o d e) m t ps = (int01 L (relv L o (opdv d m t) (opdv e m t)), m, ps, []).
Proof.
  intros o d e m t ps. destruct law as (L1 & L2 & _). destruct o; cbn [relational]; rewrite run_cmp; cbn [rel_of]; auto.
  - now rewrite L1.
  - now rewrite L2.
Qed.
Lemma below_cmp : forall r d e n, below d n -> below e n -> belowr (cmp r d e) n.
Proof. intros r [u|x|k] [v|y|j] n H1 H2; simpl in *; auto. Qed.
Lemma below_bin : forall r d e n, below d n -> below e n -> belowr (bin r d e) n.
Proof. intros r [u|x|k] [v|y|j] n H1 H2; simpl in *; auto. Qed.
Lemma below_cast : forall r d n, below d n -> belowr (cast_res r d) n.
Proof. intros [t|] [u|x|k] n H1; simpl in *; auto. Qed.
Lemma below_relational : forall r d e n, below d n -> below e n -> belowr (relational r d e) n.
Proof. intros [] d e n H1 H2; apply below_cmp; auto. Qed.

(* two operands *)
Lemma two : forall a b, P a -> P b -> forall bl s, canapp s bl -> old s bl ->
  exists b1 r1 s1 d1 s2 b2 r2 s3 d2 s4, lower a bl s = Some (b1, r1, s1) /\ eval_ b1 r1 s1 = Some (d1, s2)
    /\ lower b b1 s2 = Some (b2, r2, s3) /\ eval_ b2 r2 s3 = Some (d2, s4) /\ good s bl s4 b2
    /\ (fine true a -> fine true b -> vshape a d1 /\ vshape b d2 /\
        (isopen s bl -> forall g, agr g s bl s4 b2 -> forall m t tr1 m1 ra tr2 m2 rb, sem late_ a m = (tr1, m1, ra) -> sem late_ b m1 = (tr2, m2, rb) ->
         exists t', star g (Run bl (at_ s bl) m t []) (tr1 ++ tr2) (Run b2 (at_ s4 b2) m2 t' []) /\ (forall n, n < tmp s -> t' n = t n)
           /\ opd_ok d1 ra t' /\ opd_ok d2 rb t' /\ below d1 (tmp s4) /\ below d2 (tmp s4))).
Proof.
  intros a b Pa Pb bl s A O.
  destruct (value_ok a bl s Pa A O) as (b1 & r1 & s1 & d1 & s2 & E1 & E2 & _ & _ & G1 & F1).
  assert (O2 : old s2 b1) by now apply good_old with s bl. assert (A2 : canapp s2 b1) by apply G1.
  destruct (value_ok b b1 s2 Pb A2 O2) as (b2 & r2 & s3 & d2 & s4 & E3 & E4 & _ & _ & G2 & F2).
  exists b1, r1, s1, d1, s2, b2, r2, s3, d2, s4. split; [exact E1|]. split; [exact E2|]. split; [exact E3|]. split; [exact E4|].
  split; [now apply good_trans with s2 b1|]. intros Fa Fb.
  destruct (F1 _ Fa) as (_ & V1 & X1). destruct (F2 _ Fb) as (_ & V2 & X2). split; [exact V1|]. split; [exact V2|].
  intros I g Ag m t tr1 m1 ra tr2 m2 rb S1 S2.
  destruct (agr_trans g s bl s2 b1 s4 b2 O G1 G2 Ag) as [Ag1 Ag2].
  destruct (X1 I g Ag1 m t _ _ _ S1) as (t1 & T1 & K1 & P1 & Q1).
  assert (I2 : isopen s2 b1) by (apply G1; auto).
  destruct (X2 I2 g Ag2 m1 t1 _ _ _ S2) as (t2 & T2 & K2 & P2 & Q2).
  assert (tmp s <= tmp s2) by apply G1. assert (tmp s2 <= tmp s4) by apply G2.
  exists t2. split; [now apply star_trans with (Run b1 (at_ s2 b1) m1 t1 []) tr1 tr2|].
  split; [|split; [|split; [|split]]]; auto.
  - intros n Hn. rewrite K2 by lia. auto.
  - now apply opd_later with t1 (tmp s2).
  - apply below_le with (tmp s2); auto.
Qed.

Ltac pair_eq S := match type of S with (?a, ?b, ?c) = (?d, ?e, ?f) =>
  let H1 := fresh in let H2 := fresh in let H3 := fresh in
  assert (a = d) as H1 by congruence; assert (b = e) as H2 by congruence; assert (c = f) as H3 by congruence;
  clear S; subst end.

(* a plain operation after its operands *)
Lemma exr_plain : forall g b i b' i' c lo hi m t tr m' v t1,
  star g (Run b i m t []) tr (Run b' i' m' t1 []) -> (forall n, n < lo -> t1 n = t n) -> run c m' t1 [] = (v, m', [], []) -> plain c -> belowr c hi ->
  exists tr1 tr2 m1 t' ps, star g (Run b i m t []) tr1 (Run b' i' m1 t' ps) /\ tr = tr1 ++ tr2 /\ (forall n, n < lo -> t' n = t n)
    /\ run c m1 t' ps = (rvalue (Val v) m', m', [], tr2) /\ pend_ok c (Val v) t' /\ belowr c hi.
Proof.
  intros g b i b' i' c lo hi m t tr m' v t1 S1 K R Pl Bl. exists tr, [], m', t1, []. rewrite app_nil_r.
  split; [exact S1|]. split; [reflexivity|]. split; [exact K|]. split; [exact R|]. split; [|exact Bl]. now apply pend_plain with m' [] m' [] [].
Qed.

Lemma P_const : forall v, P (EConst v).
Proof.
  intros v b s A O. exists b, (RId (DImm v)), s. split; [reflexivity|]. split; [now apply good_refl|]. intros u _. split.
  - repeat split; intros; simpl in *; congruence || (now exists (DImm v)) || auto.
  - intros _ g _ m t tr m' r S. cbn [sem] in S. pair_eq S. apply exr_plain with t; simpl; auto; [apply star_refl|]. left. now exists v.
Qed.
Lemma P_var : forall x, P (EVar x).
Proof.
  intros x b s A O. exists b, (RId (DVar x)), s. split; [reflexivity|]. split; [now apply good_refl|]. intros u _. split.
  - repeat split; intros; simpl in *; congruence || (now exists (DVar x)) || auto.
  - intros _ g _ m t tr m' r S. cbn [sem late_] in S. pair_eq S. exists [], [], m', t, []. repeat split; auto. apply star_refl.
Qed.
Lemma P_op : forall o x y, P x -> P y -> P (EOp o x y).
Proof.
  intros o x y Px Py b s A O. destruct (two x y Px Py b s A O) as (b1 & r1 & s1 & d1 & s2 & b2 & r2 & s3 & d2 & s4 & E1 & E2 & E3 & E4 & G & F).
  exists b2, (bin o d1 d2), s4. split; [cbn [lower bind]; rewrite E1; cbn [bind]; rewrite E2; cbn [bind]; rewrite E3; cbn [bind]; now rewrite E4|].
  split; [exact G|]. intros v (_ & Fx & Fy). destruct (F Fx Fy) as (V1 & V2 & X). split.
  - destruct (vcase _ _ V1 (fine_void _ Fx)) as [(u1 & C1 & ->)|(C1 & [[y1 ->]|[y1 ->]])];
    destruct (vcase _ _ V2 (fine_void _ Fy)) as [(u2 & C2 & ->)|(C2 & [[y2 ->]|[y2 ->]])];
    unfold shape; cbn [constant direct is_call relational_ isvoid bin has_side_effects]; rewrite C1, ?C2;
    (split; [intros; congruence|]; split; [intros; congruence|]; split; [reflexivity|]; split; [intros; (congruence || (eexists; reflexivity))|]; split; [split; congruence|intros; congruence]).
  - intros I g Ag m t tr m' r S. cbn [sem] in S. destruct (sem late_ x m) as [[t1 m1] ra] eqn:S1. destruct (sem late_ y m1) as [[t2 m2] rb] eqn:S2. pair_eq S.
    destruct (X I g Ag m t _ _ _ _ _ _ S1 S2) as (t' & T & K & P1 & P2 & B1 & B2).
    apply exr_plain with t'; auto; [|apply plain_bin|now apply below_bin].
    rewrite run_bin, (opd_now _ _ _ _ P1), (opd_now _ _ _ _ P2). reflexivity.
Qed.

Ltac shape_tac := unfold shape; cbn [constant direct is_call relational_ isvoid bin cmp cast_res relational has_side_effects];
  (split; [intros; congruence|]; split; [intros; congruence|]; split; [reflexivity|]; split; [intros; (congruence || (eexists; reflexivity))|]; split; [split; congruence|intros; congruence]).
Lemma P_rel : forall o x y, P x -> P y -> P (ERel o x y).
Proof.
  intros o x y Px Py b s A O. destruct (two x y Px Py b s A O) as (b1 & r1 & s1 & d1 & s2 & b2 & r2 & s3 & d2 & s4 & E1 & E2 & E3 & E4 & G & F).
  exists b2, (relational o d1 d2), s4. split; [cbn [lower bind]; rewrite E1; cbn [bind]; rewrite E2; cbn [bind]; rewrite E3; cbn [bind]; now rewrite E4|].
  split; [exact G|]. intros v (_ & Fx & Fy). destruct (F Fx Fy) as (V1 & V2 & X). split.
  - destruct law as (L1 & L2 & _).
    destruct (vcase _ _ V1 (fine_void _ Fx)) as [(u1 & C1 & ->)|(C1 & [[y1 ->]|[y1 ->]])];
    destruct (vcase _ _ V2 (fine_void _ Fy)) as [(u2 & C2 & ->)|(C2 & [[y2 ->]|[y2 ->]])];
    unfold shape; cbn [constant direct is_call relational_ isvoid]; rewrite C1, ?C2, ?L1, ?L2; destruct o; cbn [relational cmp rel_of]; rewrite ?L1, ?L2;
    (split; [intros; congruence|]; split; [intros; congruence|]; split; [reflexivity|]; split; [intros; (congruence || (eexists; reflexivity))|]; split; [split; congruence|intros; congruence]).
  - intros I g Ag m t tr m' r S. cbn [sem] in S. destruct (sem late_ x m) as [[t1 m1] ra] eqn:S1. destruct (sem late_ y m1) as [[t2 m2] rb] eqn:S2. pair_eq S.
    destruct (X I g Ag m t _ _ _ _ _ _ S1 S2) as (t' & T & K & P1 & P2 & B1 & B2).
    apply exr_plain with t'; auto; [|apply plain_relational|now apply below_relational].
    rewrite run_relational, (opd_now _ _ _ _ P1), (opd_now _ _ _ _ P2). reflexivity.
Qed.
Lemma P_cast : forall ty x, P x -> P (ECast ty x).
Proof.
  intros ty x Px b s A O. destruct (value_ok x b s Px A O) as (b1 & r1 & s1 & d & s2 & E1 & E2 & _ & _ & G & F).
  exists b1, (cast_res ty d), s2. split; [cbn [lower bind]; rewrite E1; cbn [bind]; now rewrite E2|].
  split; [exact G|]. intros v (V & Fx). destruct (F _ Fx) as (_ & V1 & X). split.
  - destruct ty as [ty|]; [|shape_tac].
    destruct (vcase _ _ V1 (fine_void _ Fx)) as [(u1 & C1 & ->)|(C1 & [[y1 ->]|[y1 ->]])];
      unfold shape; cbn [constant direct]; rewrite C1; shape_tac.
  - intros I g Ag m t tr m' r S. cbn [sem] in S. destruct (sem late_ x m) as [[t1 m1] ra] eqn:S1. pair_eq S.
    destruct (X I g Ag m t _ _ _ S1) as (t' & T & K & P1 & B1).
    apply exr_plain with t'; auto; [|apply plain_cast|now apply below_cast].
    rewrite run_cast, (opd_now _ _ _ _ P1). reflexivity.
Qed.
Lemma not_const : forall v, relv L Req (int01 L false) v = negb (truth L v).
Proof. intros v. destruct law as (_ & _ & L3 & L4 & _). unfold truth. now rewrite L3, negb_involutive. Qed.
Lemma truth01 : forall b, truth L (int01 L b) = b.
Proof. apply law. Qed.
Lemma P_not : forall x, P x -> P (ENot x).
Proof.
  intros x Px b s A O. destruct (Px b s A O) as (b1 & c & s1 & E & G & F).
  assert (D : (exists k u w, c = RRel k u w) \/ (forall k u w, c <> RRel k u w)).
  { destruct c; try (right; intros; congruence). left. eauto. }
  destruct D as [(k & u & w & ->)|N].
  - set (c' := match k with Eq_ => RRel Ne_ u w | Ne_ => RRel Eq_ u w | Ge_ => RRel Gt_ w u | Gt_ => RRel Ge_ w u end).
    exists b1, c', s1. split; [cbn [lower]; rewrite E; unfold c'; now destruct k|]. split; [exact G|].
    intros v (V & Fx & R). destruct (F _ Fx) as ((H1 & H2 & H3 & H4 & H5 & H6) & X).
    assert (C : constant x = None) by (destruct (constant x) as [z|]; auto; now pose proof (H1 z eq_refl)). split.
    + unfold shape, c'. cbn [constant direct is_call relational_ isvoid]. rewrite C.
      split; [intros; congruence|]; split; [intros; destruct k; congruence|]; split; [now destruct k|]; split; [intros; congruence|]; split; [|intros; destruct k; congruence].
      intros Hr p q. pose proof (H5 Hr u w) as [Q1 Q2]. destruct k; split; congruence.
    + intros I g Ag m t tr m' r S. cbn [sem] in S. destruct (sem late_ x m) as [[t1 m1] ra] eqn:S1. pair_eq S.
      destruct (X I g Ag m t _ _ _ S1) as (tr1 & tr2 & mm & t' & ps & T & -> & K & Rn & Pd & Bl).
      simpl in Rn. assert (ps = [] /\ mm = m' /\ tr2 = []) as (-> & -> & ->) by (repeat split; congruence).
      assert (Rv : int01 L (relv L (rel_of k) (opdv u m' t') (opdv w m' t')) = rvalue ra m') by congruence. rewrite <- Rv, truth01, app_nil_r.
      apply exr_plain with t'; auto; [|unfold c'; destruct k; right; intros; congruence|unfold c'; destruct Bl; destruct k; simpl; auto].
      assert (Z : relv L (rel_of (match k with Eq_ => Ne_ | Ne_ => Eq_ | Ge_ => Gt_ | Gt_ => Ge_ end))
         (match k with Ge_ | Gt_ => opdv w m' t' | _ => opdv u m' t' end) (match k with Ge_ | Gt_ => opdv u m' t' | _ => opdv w m' t' end)
         = negb (relv L (rel_of k) (opdv u m' t') (opdv w m' t'))).
      { destruct law as (L1 & L2 & L3 & L4 & L5). destruct k; cbn [rel_of].
        - apply L3.
        - now rewrite L3, negb_involutive.
        - destruct R as [R|R]; [|now destruct (H5 R u w)]. now rewrite <- L1, R.
        - destruct R as [R|R]; [|now destruct (H5 R u w)]. now rewrite <- L1, R, negb_involutive. }
      unfold c'. destruct k; cbn [run rel_of] in *; now rewrite Z.
  - destruct (value_ok x b s Px A O) as (b2 & c2 & s2 & d & s3 & E2 & E3 & _ & _ & G2 & F2).
    assert (b1 = b2 /\ c = c2 /\ s1 = s2) as (-> & -> & ->) by (repeat split; congruence).
    exists b2, (cmp Eq_ zero d), s3. split; [cbn [lower]; rewrite E; cbn [bind]|].
    { assert (NE : not_ b2 c2 s2 = match eval_ b2 c2 s2 with Some (d, s) => Some (cmp Eq_ zero d, s) | None => None end).
      { destruct c2; try reflexivity. now destruct (N r a b0). }
      rewrite NE, E3. reflexivity. }
    split; [exact G2|]. intros v (V & Fx & R). destruct (F2 _ Fx) as (_ & V1 & X). split.
    + destruct (vcase _ _ V1 (fine_void _ Fx)) as [(u1 & C1 & ->)|(C1 & [[y1 ->]|[y1 ->]])]; unfold zero.
      * unfold shape. cbn [constant direct cmp rel_of]. rewrite C1, not_const. shape_tac.
      * unfold shape. cbn [constant direct]. rewrite C1. shape_tac.
      * unfold shape. cbn [constant direct]. rewrite C1. shape_tac.
    + intros I g Ag m t tr m' r S. cbn [sem] in S. destruct (sem late_ x m) as [[t1 m1] ra] eqn:S1. pair_eq S.
      destruct (X I g Ag m t _ _ _ S1) as (t' & T & K & P1 & B1).
      apply exr_plain with t'; auto; [|apply plain_cmp|apply below_cmp; simpl; auto].
      rewrite run_cmp, (opd_now _ _ _ _ P1). cbn [rel_of zero opdv]. now rewrite not_const.
Qed.

Lemma agr_app : forall g s b s' b' l, agr g s b s' b' -> code (blocks s' b') = l -> exists r, code (g b') = l ++ r.
Proof. intros g s b s' b' l [_ [r H]] <-. now exists r. Qed.

Lemma P_assign : forall x y, P y -> P (EAssign x y).
Proof.
  intros x y Py b s A O. destruct (Py b s A O) as (b1 & c & s1 & E & G & F).
  assert (O1 : old s1 b1) by now apply good_old with s b. assert (A1 : canapp s1 b1) by apply G.
  destruct (append_ok L b1 (IAssign x c) s1 A1 O1) as (s2 & E2 & G2 & C & _ & _ & _ & _ & _ & T2 & _).
  exists b1, (match c with RId (DImm v) => RId (DImm (asx L x v)) | _ => RId (DVar x) end), s2.
  split; [cbn [lower]; rewrite E; cbn [bind]; rewrite E2; reflexivity|].
  split; [now apply good_trans with s1 b1|]. intros v (V & Fy). destruct (F _ Fy) as ((H1 & H2 & H3 & H4 & H5 & H6) & X).
  assert (D : (exists w, constant y = Some w /\ c = RId (DImm w)) \/ (constant y = None /\ match c with RId (DImm v) => RId (DImm (asx L x v)) | _ => RId (DVar x) end = RId (DVar x))).
  { destruct (constant y) as [w|] eqn:Cy; [left; exists w; auto|right]. split; auto. destruct c as [[w|z|k]|o u w|o u w|o u|o u]; auto. now destruct (H2 eq_refl w). }
  split.
  - destruct D as [(w & Cy & ->)|(Cy & ->)].
    + unfold shape. cbn [constant direct]. rewrite Cy. shape_tac.
    + unfold shape. cbn [constant direct]. rewrite Cy. shape_tac.
  - intros I g Ag m t tr m' r S. cbn [sem] in S. destruct (sem late_ y m) as [[t1 m1] ra] eqn:S1. pair_eq S.
    destruct (agr_trans g s b s1 b1 s2 b1 O G G2 Ag) as [Ag1 Ag2].
    destruct (X I g Ag1 m t _ _ _ S1) as (tr1 & tr2 & mm & t' & ps & T & -> & K & Rn & Pd & Bl).
    destruct (agr_app _ _ _ _ _ _ Ag C) as [l Cg].
    assert (T' : star g (Run b (at_ s b) m t []) ((tr1 ++ tr2) ++ [Write x (asx L x (rvalue ra m1))])
                  (Run b1 (at_ s2 b1) (wrv L x (asx L x (rvalue ra m1)) m1) t' [])).
    { eapply star_trans; [exact T| |symmetry; apply app_assoc]. unfold at_. rewrite C, app_length. simpl. rewrite Nat.add_1_r.
      eapply step_instr; [rewrite Cg; apply nth_end|]. cbn [exec]. now rewrite Rn. }
    exists ((tr1 ++ tr2) ++ [Write x (asx L x (rvalue ra m1))]), [], (wrv L x (asx L x (rvalue ra m1)) m1), t', [].
    rewrite app_nil_r. split; [exact T'|]. split; [reflexivity|]. split; [exact K|]. cbn [late_].
    destruct D as [(w & Cy & ->)|(Cy & ->)]; rewrite Cy; simpl; auto.
    assert (W : w = rvalue ra m1) by (simpl in Rn; congruence). rewrite W. auto.
Qed.

Lemma P_post : forall o x v, P (EPost o x v).
Proof.
  intros o x v b s A O.
  destruct (append_tmp_ok L b (ITemp (tmp s) None (RId (DVar x))) (S (tmp s)) s A O) as (s1 & E1 & G1 & C1 & _ & _ & _ & _ & _ & T1 & _); [lia|].
  assert (O1 : old s1 b) by now apply good_old with s b. assert (A1 : canapp s1 b) by apply G1.
  destruct (append_ok L b (IAssign x (RBin o (DVar x) (DImm v))) s1 A1 O1) as (s2 & E2 & G2 & C2 & _ & _ & _ & _ & _ & T2 & _).
  exists b, (RId (DTmp (tmp s))), s2. split; [cbn [lower]; rewrite E1; cbn [bind]; rewrite E2; reflexivity|].
  split; [now apply good_trans with s1 b|]. intros u _. split; [shape_tac|].
  intros I g Ag m t tr m' r S. cbn [sem] in S. pair_eq S. rewrite C1 in C2. destruct (agr_app _ _ _ _ _ _ Ag C2) as [l Cg].
  exists ([] ++ [Write x (asx L x (binv L o (rdv L x m) v))]), [], (wrv L x (asx L x (binv L o (rdv L x m) v)) m), (fun k => if Nat.eqb k (tmp s) then rdv L x m else t k), [].
  split; [|split; [reflexivity|split; [|split; [|split]]]].
  - unfold at_. rewrite C2, !app_length. simpl. rewrite !Nat.add_1_r.
    eapply star_trans with (t := []) (u := [Write x (asx L x (binv L o (rdv L x m) v))]); [| |reflexivity].
    + eapply step_instr; [rewrite Cg, <- app_assoc; apply nth_end|]. reflexivity.
    + eapply step_instr with (c := IAssign x (RBin o (DVar x) (DImm v))); [|reflexivity]. rewrite Cg.
      rewrite <- app_assoc. rewrite nth_error_app2 by (rewrite app_length; simpl; lia). rewrite app_length. simpl. now rewrite Nat.add_1_r, Nat.sub_diag.
  - intros n Hn. destruct (Nat.eqb_spec n (tmp s)); [lia|reflexivity].
  - simpl. now rewrite Nat.eqb_refl.
  - simpl. now rewrite Nat.eqb_refl.
  - simpl. lia.
Qed.

Lemma run_pure : forall (c : res L) m t ps v m' ps' ev, has_side_effects c = false -> run c m t ps = (v, m', ps', ev) -> m' = m /\ ps' = ps /\ ev = [].
Proof. intros [d|o x y|k x y|ty x|vd f] m t ps v m' ps' ev H R; simpl in *; try discriminate; repeat split; congruence. Qed.

Lemma P_comma : forall x y, P x -> P y -> P (EComma x y).
Proof.
  intros x y Px Py b s A O. destruct (value_ok x b s Px A O) as (b1 & c & s1 & d & s2 & E1 & E2 & G1 & _ & G2 & F).
  destruct (Px b s A O) as (b1' & c' & s1' & E1' & _ & F').
  assert (b1' = b1 /\ c' = c /\ s1' = s1) as (-> & -> & ->) by (repeat split; congruence). clear E1'.
  assert (Z : exists s3, (if has_side_effects c then bind (eval_ b1 c s1) (fun '(_, s) => Some s) else Some s1) = Some s3 /\ good s b s3 b1
    /\ forall v, fine v x -> isopen s b -> forall g, agr g s b s3 b1 -> forall m t tr m' r, sem late_ x m = (tr, m', r) ->
       exists t', star g (Run b (at_ s b) m t []) tr (Run b1 (at_ s3 b1) m' t' []) /\ (forall n, n < tmp s -> t' n = t n)).
  { destruct (has_side_effects c) eqn:Hc.
    - exists s2. rewrite E2. split; [reflexivity|]. split; [exact G2|]. intros v Fx I g Ag m t tr m' r S.
      destruct (F _ Fx) as (_ & _ & X). destruct (X I g Ag m t _ _ _ S) as (t' & T & K & _). now exists t'.
    - exists s1. split; [reflexivity|]. split; [exact G1|]. intros v Fx I g Ag m t tr m' r S.
      destruct (F' _ Fx) as (_ & X). destruct (X I g Ag m t _ _ _ S) as (tr1 & tr2 & mm & t' & ps & T & -> & K & Rn & _).
      destruct (run_pure _ _ _ _ _ _ _ _ Hc Rn) as (-> & <- & ->). exists t'. rewrite app_nil_r. auto. }
  clear F F'. destruct Z as (s3 & E3 & G3 & X3).
  assert (O3 : old s3 b1) by now apply good_old with s b. assert (A3 : canapp s3 b1) by apply G3.
  destruct (Py b1 s3 A3 O3) as (b2 & c2 & s4 & E4 & G4 & F4).
  exists b2, c2, s4. split; [cbn [lower]; rewrite E1; cbn [bind]; rewrite E3; cbn [bind]; exact E4|].
  split; [now apply good_trans with s3 b1|]. intros v (V & Fx & Fy). destruct (F4 _ Fy) as ((H1 & H2 & H3 & H4 & H5 & H6) & X4). split.
  - repeat split; auto; try (now apply H5). cbn [direct constant]. intros Hd. destruct (constant y) as [w|] eqn:Cy; [exists (DImm w); now apply H1|auto].
  - intros I g Ag m t tr m' r S. cbn [sem] in S. destruct (sem late_ x m) as [[t1 m1] ra] eqn:S1. destruct (sem late_ y m1) as [[t2 m2] rb] eqn:S2. pair_eq S.
    destruct (agr_trans g s b s3 b1 s4 b2 O G3 G4 Ag) as [Ag1 Ag2].
    destruct (X3 _ Fx I g Ag1 m t _ _ _ S1) as (t' & T & K).
    assert (I3 : isopen s3 b1) by (apply G3; auto).
    destruct (X4 I3 g Ag2 m1 t' _ _ _ S2) as (tr1 & tr2 & mm & t'' & ps & T' & -> & K' & Rn & Pd & Bl).
    assert (tmp s <= tmp s3) by apply G3.
    exists (t1 ++ tr1), tr2, mm, t'', ps. split; [eapply star_trans; [exact T|exact T'|reflexivity]|]. split; [apply app_assoc|].
    split; [|auto]. intros n Hn. rewrite K' by lia. auto.
Qed.

Lemma lowers_cons : forall (a : expr L) l b s, lowers (ACons a l) b s =
  bind (lower a b s) (fun '(b, r, s) => bind (eval_ b r s) (fun '(d, s) => bind (lowers l b s) (fun '(b, ds, s) => Some (b, d :: ds, s)))).
Proof. reflexivity. Qed.
Lemma lower_call : forall v (f : expr L) l b s, lower (ECall v f l) b s =
  bind (lower f b s) (fun '(b, r, s) => bind (lowers l b s) (fun '(b, ds, s) => bind (params b ds s) (fun s => bind (eval_ b r s) (fun '(d, s) => Some (b, RCall v d, s))))).
Proof. reflexivity. Qed.
Lemma sems_cons : forall (a : expr L) l m, sems late_ (ACons a l) m = let '(t1, m, r) := sem late_ a m in let '(t2, m, rs) := sems late_ l m in (t1 ++ t2, m, r :: rs).
Proof. reflexivity. Qed.
Lemma sem_call : forall v (f : expr L) l m, sem late_ (ECall v f l) m =
    let '(t1, m, r1) := sem late_ f m in let '(t2, m, rs) := sems late_ l m in
    let g := rvalue r1 m in let vs := map (fun r => rvalue r m) rs in
    let (w, m) := callv L g vs m in
    (t1 ++ t2 ++ [Call g vs], m, Val (if v then voidv L else w)).
Proof. reflexivity. Qed.
Lemma PL_nil : PL ANil.
Proof.
  intros b s A O. exists b, [], s. split; [reflexivity|]. split; [now apply good_refl|]. intros _ I g Ag m t tr m' rs S. cbn [sems] in S. pair_eq S.
  exists t. split; [apply star_refl|]. split; [auto|constructor].
Qed.
Lemma PL_cons : forall a l, P a -> PL l -> PL (ACons a l).
Proof.
  intros a l Pa Pl b s A O. destruct (value_ok a b s Pa A O) as (b1 & c & s1 & d & s2 & E1 & E2 & _ & _ & G2 & F).
  assert (O2 : old s2 b1) by now apply good_old with s b. assert (A2 : canapp s2 b1) by apply G2.
  destruct (Pl b1 s2 A2 O2) as (b2 & ds & s3 & E3 & G3 & F3).
  exists b2, (d :: ds), s3. split; [rewrite lowers_cons, E1; cbn [bind]; rewrite E2; cbn [bind]; now rewrite E3|].
  split; [now apply good_trans with s2 b1|]. intros (Fa & Fl) I g Ag m t tr m' rs S. rewrite sems_cons in S.
  destruct (sem late_ a m) as [[t1 m1] ra] eqn:S1. destruct (sems late_ l m1) as [[t2 m2] rb] eqn:S2. pair_eq S.
  destruct (agr_trans g s b s2 b1 s3 b2 O G2 G3 Ag) as [Ag1 Ag2].
  destruct (F _ Fa) as (_ & _ & X). destruct (X I g Ag1 m t _ _ _ S1) as (t' & T & K & P1 & B1).
  assert (I2 : isopen s2 b1) by (apply G2; auto).
  destruct (F3 Fl I2 g Ag2 m1 t' _ _ _ S2) as (t'' & T' & K' & Q). assert (tmp s <= tmp s2) by apply G2. assert (tmp s2 <= tmp s3) by apply G3.
  exists t''. split; [eapply star_trans; [exact T|exact T'|reflexivity]|]. split; [intros n Hn; rewrite K' by lia; auto|].
  constructor; [|exact Q]. split; [now apply opd_later with t' (tmp s2)|now apply below_le with (tmp s2)].
Qed.

Lemma params_run : forall (g : graph) b m t ds pre rest ps, code (g b) = pre ++ map (fun d => IParam d) ds ++ rest ->
  star g (Run b (length pre) m t ps) [] (Run b (length pre + length ds) m t (ps ++ ds)).
Proof.
  intros g b m t ds. induction ds as [|d ds IH]; intros pre rest ps C.
  - rewrite app_nil_r, Nat.add_0_r. apply star_refl.
  - apply star_trans with (Run b (length (pre ++ [IParam d])) m t (ps ++ [d])) [] []; [| |reflexivity].
    + rewrite app_length. simpl. rewrite Nat.add_1_r. eapply step_instr with (c := IParam d); [rewrite C|reflexivity].
      rewrite nth_error_app2 by lia. now rewrite Nat.sub_diag.
    + replace (length pre + length (d :: ds)) with (length (pre ++ [IParam d]) + length ds) by (rewrite app_length; simpl; lia).
      replace (ps ++ d :: ds) with ((ps ++ [d]) ++ ds) by now rewrite <- app_assoc. apply IH with rest. rewrite C, <- app_assoc. reflexivity.
Qed.

Lemma P_call : forall v f l, P f -> PL l -> P (ECall v f l).
Proof.
  intros v f l Pf Pl b s A O. destruct (Pf b s A O) as (b1 & c & s1 & E1 & G1 & F1).
  assert (O1 : old s1 b1) by now apply good_old with s b. assert (A1 : canapp s1 b1) by apply G1.
  destruct (Pl b1 s1 A1 O1) as (b2 & ds & s2 & E2 & G2 & F2).
  assert (O2 : old s2 b2) by now apply good_old with s1 b1. assert (A2 : canapp s2 b2) by apply G2.
  destruct (params_ok L b2 ds s2 A2 O2) as (s3 & E3 & G3 & C3 & T3 & _).
  assert (O3 : old s3 b2) by now apply good_old with s2 b2. assert (A3 : canapp s3 b2) by apply G3.
  destruct (eval_ok L b2 c s3 A3 O3) as (d & s4 & E4 & G4 & _).
  exists b2, (RCall v d), s4. split; [rewrite lower_call, E1; cbn [bind]; rewrite E2; cbn [bind]; rewrite E3; cbn [bind]; now rewrite E4|].
  assert (G12 : good s b s2 b2) by now apply good_trans with s1 b1.
  assert (G34 : good s2 b2 s4 b2) by now apply good_trans with s3 b2.
  split; [now apply good_trans with s2 b2|]. intros u (V & Ff & Fd & Fl). split.
  - split; [intros; discriminate|]. split; [intros; discriminate|]. split; [reflexivity|]. split; [discriminate|]. split; [split; discriminate|].
    cbn [isvoid]. intros -> g. congruence.
  - intros I g Ag m t tr m' r S. rewrite sem_call in S. destruct (sem late_ f m) as [[t1 m1] ra] eqn:S1. destruct (sems late_ l m1) as [[t2 m2] rb] eqn:S2.
    destruct (F1 _ Ff) as ((H1 & H2 & H3 & H4 & H5 & H6) & X1). destruct (H4 Fd) as [d' ->]. cbn [eval_] in E4.
    assert (d' = d /\ s3 = s4) as [-> ->] by (split; congruence). clear E4.
    destruct (agr_trans g s b s2 b2 s4 b2 O G12 G34 Ag) as [Ag12 Ag34].
    destruct (agr_trans g s b s1 b1 s2 b2 O G1 G2 Ag12) as [Ag1 Ag2].
    destruct (X1 I g Ag1 m t _ _ _ S1) as (tr1 & tr2 & mm & t' & ps & T & -> & K & Rn & Pd & Bl). simpl in Rn, Pd, Bl.
    assert (mm = m1 /\ ps = [] /\ tr2 = []) as (-> & -> & ->) by (repeat split; congruence).
    assert (I1 : isopen s1 b1) by (apply G1; auto).
    destruct (F2 Fl I1 g Ag2 m1 t' _ _ _ S2) as (t'' & T' & K' & Q).
    assert (tmp s <= tmp s1) by apply G1. assert (tmp s1 <= tmp s2) by apply G2.
    destruct (agr_app _ _ _ _ _ _ Ag34 C3) as [rest Cg]. rewrite <- app_assoc in Cg.
    pose proof (params_run g b2 m2 t'' ds _ _ [] Cg) as T3'. simpl in T3'.
    assert (Pd' : opd_ok d ra t'') by (apply opd_later with t' (tmp s1); auto).
    assert (M : map (fun d => opdv d m2 t'') ds = map (fun r => rvalue r m2) rb).
    { clear - Q. induction Q as [|x y xs ys [H _] _ IH]; [reflexivity|]. simpl. rewrite IH. f_equal. now apply opd_now. }
    destruct (callv L (rvalue ra m2) (map (fun r => rvalue r m2) rb) m2) as [w m3] eqn:CV. cbv zeta in S. rewrite CV in S. pair_eq S.
    exists (tr1 ++ t2), [Call (rvalue ra m2) (map (fun r => rvalue r m2) rb)], m2, t'', ds.
    split; [|split; [|split; [|split; [|split]]]].
    + eapply star_trans; [exact T| |reflexivity]. eapply star_trans; [exact T'| |symmetry; apply app_nil_r].
      unfold at_. rewrite C3, app_length, map_length. exact T3'.
    + now rewrite app_nil_r, app_assoc.
    + intros n Hn. rewrite K' by lia. auto.
    + cbn [run]. now rewrite M, (opd_now _ _ _ m2 Pd'), CV.
    + simpl. now exists (if v then voidv L else w).
    + simpl. apply below_le with (tmp s1); auto. lia.
Qed.

(* && and || *)
Definition logic (or_ : bool) (lft : id) (r : res L) (rgt : id) (r2 : res L) (top : id) (s : state) : option (id * res L * state) :=
  match imm_bool r with
  | Some v =>
    if eqb v or_ then
      if id_eqb top rgt && match code (blocks s top) with [] => true | _ => false end then Some (lft, RId (DImm (int01 L or_)), s)
      else Some (B (next s), RId (DImm (int01 L or_)), setj0 lft (Some (B (next s))) (new_ s))
    else
      let s := setj0 lft (Some top) s in
      if is_comparison r2 then Some (rgt, r2, s)
      else bind (eval_ rgt r2 s) (fun '(d, s) => Some (rgt, cmp Ne_ d zero, s))
  | None => join_ or_ lft r rgt r2 top s
  end.
Definition log_ (or_ : bool) (x y : expr L) : expr L := if or_ then EOr x y else EAnd x y.
Lemma lower_log : forall or_ x y b s, lower (log_ or_ x y) b s =
  bind (lower x b s) (fun '(lft, r, s) => bind (lower y (B (next s)) (new_ s)) (fun '(rgt, r2, s') => logic or_ lft r rgt r2 (B (next s)) s')).
Proof.
  intros [] x y b s; cbn [log_ lower]; destruct (lower x b s) as [[[lft r] s1]|]; cbn [bind]; auto;
  destruct (lower y (B (next s1)) (new_ s1)) as [[[rgt r2] s2]|]; cbn [bind]; auto; unfold logic; destruct (imm_bool r) as [[]|]; reflexivity.
Qed.
Lemma sem_log : forall or_ x y m, sem late_ (log_ or_ x y) m =
  let '(t1, m, r1) := sem late_ x m in
  if eqb (truth L (rvalue r1 m)) or_ then (t1, m, Val (int01 L or_))
  else let '(t2, m, r2) := sem late_ y m in (t1 ++ t2, m, Val (int01 L (truth L (rvalue r2 m)))).
Proof.
  intros [] x y m; cbn [log_ sem]; destruct (sem late_ x m) as [[t1 m1] r1]; destruct (truth L (rvalue r1 m1)); reflexivity.
Qed.
Lemma constant_log : forall or_ x y, constant (log_ or_ x y) =
  match constant x with
  | Some u => if eqb (truth L u) or_ then Some (int01 L or_) else match constant y with Some v => Some (int01 L (truth L v)) | None => None end
  | None => None
  end.
Proof. intros [] x y; cbn [log_ constant]; destruct (constant x) as [u|]; auto; destruct (truth L u); reflexivity. Qed.
Lemma direct_log : forall or_ x y, direct (log_ or_ x y) = match constant (log_ or_ x y) with Some _ => true | None => false end.
Proof. intros [] x y; cbn [log_ direct]; reflexivity. Qed.

Lemma fine_log : forall or_ v x y, fine v (log_ or_ x y) -> fine true x /\ fine true y.
Proof. intros [] v x y H; apply H. Qed.
Lemma imm_bool_inv : forall (r : res L) v, imm_bool r = Some v -> exists u, r = RId (DImm u) /\ truth L u = v.
Proof. intros [[u|x|n]|o x y|o x y|t x|vd f] v H; simpl in H; try discriminate. exists u. split; [reflexivity|congruence]. Qed.
Lemma imm_bool_none : forall (r : res L), imm_bool r = None -> forall u, r <> RId (DImm u).
Proof. intros r H u ->. discriminate. Qed.

Lemma own_tgt : forall s b s' b', good s b s' b' -> own s b s' b'.
Proof. intros s b s' b' (_ & _ & _ & T & _). exact T. Qed.

Section Logic.
Variables (or_ : bool) (x y : expr L) (b : id) (s : state).
Hypothesis O : old s b.
Variables (lft : id) (r : res L) (s1 : state) (rgt : id) (r2 : res L) (s2 : state).
Hypothesis G1 : good s b s1 lft.
Hypothesis G2 : good (new_ s1) (B (next s1)) s2 rgt.
Local Notation top := (B (next s1)).

Lemma lg_facts : old s1 lft /\ old s2 lft /\ old s2 rgt /\ lft <> rgt /\ grows s s1 /\ grows s1 s2 /\ same_sw s s2 /\ chg s [b] s1 /\ chg s1 [] s2 /\ chg s [b] s2 /\ blocks s2 lft = blocks s1 lft
  /\ canapp s2 rgt /\ isopen s2 rgt /\ (exists n, rgt = B n /\ next s1 <= n < next s2).
Proof.
  assert (O1 : old s1 lft) by now apply good_old with s b.
  destruct (good_apart L s1 top s2 rgt G2 eq_refl) as (Gr & Sw & C & (n & -> & Hn) & A & I).
  assert (Gr1 : grows s s1) by apply G1. assert (C1 : chg s [b] s1) by apply G1.
  split; [exact O1|]. split; [now apply old_grows with s1|]. split; [simpl; lia|]. split; [intros ->; simpl in O1; lia|].
  split; [exact Gr1|]. split; [exact Gr|]. split; [apply same_trans with s1; [apply G1|exact Sw]|]. split; [exact C1|]. split; [exact C|].
  split; [apply chg_trans with s1 []; auto; intros ? []|]. split; [apply C; auto|]. split; [exact A|]. split; [exact I|]. exists n. auto.
Qed.

(* the parts of the graph made for the operands, in a later state *)
Lemma lg_sub : forall g sf bf X, agr g s b sf bf -> chg s2 X sf -> (forall c, In c X -> c = lft \/ c = rgt \/ ~ old s2 c) -> next s2 <= next sf ->
  (bf = lft \/ bf = rgt \/ ~ old s2 bf) ->
  agr g s b s1 lft /\ agr g (new_ s1) top s2 rgt.
Proof.
  intros g sf bf X Ag C HX Hn HB. destruct lg_facts as (O1 & O2 & O3 & N & Gr1 & Gr2 & _ & _ & C12 & _ & _ & _ & _ & (n & En & Hr)).
  destruct Gr1 as [Gr1 _], Gr2 as [Gr2 _].
  assert (Own1 : forall c, own s b s1 c -> old s1 c).
  { intros c [->|(k & -> & H)]; [apply old_grows with s; [auto|apply G1]|simpl; lia]. }
  assert (Ow1 : forall c, own (new_ s1) top s2 c -> ~ old s1 c).
  { intros c [->|(k & -> & H)]; simpl in *; lia. }
  assert (Ow2 : forall c, own (new_ s1) top s2 c -> old s2 c).
  { intros c [->|(k & -> & H)]; simpl in *; [|lia]. destruct G2 as ((Gn & _) & _). simpl in Gn. lia. }
  assert (C1f : chg s1 (X ++ []) sf).
  { apply chg_trans with s2 X; [split; [lia|apply G2]| |exact C|intros c I _; now rewrite app_nil_r].
    split; intros c Oc; [intros _; apply C12; auto|now apply C12]. }
  split.
  - apply agr_sub with s b sf bf (X ++ []); auto.
    + intros c [->|(k & -> & H)]; [now left|right; exists k; split; auto; lia].
    + intros c I. rewrite app_nil_r in I. destruct (HX c I) as [->|[->|H]]; [now left|right|right]; intros Ho.
      * apply Own1 in Ho. rewrite En in Ho. simpl in Ho. lia.
      * apply H. apply old_grows with s1; [now apply Own1|split; [lia|apply G2]].
    + destruct HB as [->|[->|H]]; [now left|right|right]; intros Ho.
      * apply Own1 in Ho. rewrite En in Ho. simpl in Ho. lia.
      * apply H. apply old_grows with s1; [now apply Own1|split; [lia|apply G2]].
  - apply agr_sub with s b sf bf X; auto.
    + apply old_new.
    + intros c [->|(k & -> & H)]; right; eexists; (split; [reflexivity|]); simpl in *; [|lia]. destruct G2 as ((Gn & _) & _). simpl in Gn. lia.
    + intros c I. destruct (HX c I) as [->|[->|H]]; [right|now left|right]; intros Ho; [now apply (Ow1 lft)|now apply H, Ow2].
    + destruct HB as [->|[->|H]]; [right|now left|right]; intros Ho; [now apply (Ow1 lft)|now apply H, Ow2].
Qed.
End Logic.

Lemma shape_log : forall or_ x y c, constant (log_ or_ x y) = None -> (forall v, c <> RId (DImm v)) -> has_side_effects c = false ->
  (relational_ y = false -> forall p q, c <> RRel Ge_ p q /\ c <> RRel Gt_ p q) -> shape (log_ or_ x y) c.
Proof.
  intros or_ x y c Cn H1 H2 H3. unfold shape. rewrite direct_log, Cn. split; [intros; discriminate|]. split; [auto|].
  split; [rewrite H2; now destruct or_|]. split; [discriminate|]. split; [destruct or_; exact H3|]. intros _ f ->. discriminate.
Qed.
Lemma shape_log_const : forall or_ x y v, constant (log_ or_ x y) = Some v -> shape (log_ or_ x y) (RId (DImm v)).
Proof.
  intros or_ x y v Cn. unfold shape. rewrite direct_log, Cn. split; [intros; congruence|]. split; [discriminate|].
  split; [now destruct or_|]. split; [intros; eexists; reflexivity|]. split; [split; discriminate|discriminate].
Qed.
(* the constant operand *)
Lemma exr_imm : forall g x b i b' i' u lo hi m t tr m' r, exr g x b i b' i' (RId (DImm u)) lo hi -> sem late_ x m = (tr, m', r) ->
  rvalue r m' = u /\ exists t', star g (Run b i m t []) tr (Run b' i' m' t' []) /\ (forall n, n < lo -> t' n = t n).
Proof.
  intros g x b i b' i' u lo hi m t tr m' r H S. destruct (H m t tr m' r S) as (tr1 & tr2 & mm & t' & ps & T & -> & K & Rn & _).
  simpl in Rn. assert (mm = m' /\ ps = [] /\ tr2 = [] /\ u = rvalue r m') as (-> & -> & -> & ->) by (repeat split; congruence).
  split; [reflexivity|]. exists t'. rewrite app_nil_r. auto.
Qed.

Lemma P_log : forall or_ x y, P x -> P y -> P (log_ or_ x y).
Proof.
  intros or_ x y Px Py b s A O.
  destruct (Px b s A O) as (lft & r & s1 & E1 & G1 & F1).
  destruct (Py (B (next s1)) (new_ s1) (canapp_new L s1) (old_new L s1)) as (rgt & r2 & s2 & E2 & G2 & F2).
  pose proof (lg_facts b s O lft s1 rgt s2 G1 G2) as (O1 & O2 & O3 & N & Gr1 & Gr2 & Sw & C1 & C12 & C02 & Bl & A2 & I2 & (n & En & Hr)).
  pose proof (lg_sub b s O lft s1 rgt s2 G1 G2) as Sub.
  rewrite lower_log, E1. cbn [bind]. rewrite E2. cbn [bind]. unfold logic.
  assert (Tl : tgt s b s1 lft) by apply G1.
  assert (Gr : grows s s2) by now apply grows_trans with s1.
  assert (Inl : forall c, c = lft -> old s c -> In c [b]).
  { intros c -> Oc. destruct Tl as [->|(k & -> & Hk)]; [now left|]. simpl in Oc. lia. }
  assert (Inr : forall c, c = rgt -> old s c -> In c [b]).
  { intros c -> Oc. rewrite En in Oc. simpl in Oc. destruct Gr1. lia. }
  assert (Ntop : at_ (new_ s1) (B (next s1)) = 0) by (unfold at_; now rewrite new_same).
  destruct (imm_bool r) as [v|] eqn:IB.
  - destruct (imm_bool_inv _ _ IB) as (u & -> & Tu). destruct (eqb v or_) eqn:Ev.
    + apply eqb_prop in Ev. rewrite Ev in Tu. clear Ev v IB.
      destruct (id_eqb (B (next s1)) rgt && match code (blocks s2 (B (next s1))) with [] => true | _ => false end) eqn:Et.
      * apply andb_prop in Et. destruct Et as [Et1 Et2]. destruct (id_eqb_spec (B (next s1)) rgt) as [Et|]; [|discriminate]. clear Et1.
        assert (Ec : code (blocks s2 rgt) = []) by (rewrite <- Et; destruct (code (blocks s2 (B (next s1)))); [auto|discriminate]).
        assert (Ln : len s2 = len s1).
        { destruct G2 as (_ & _ & _ & _ & _ & _ & Ln). specialize (Ln (old_new L s1) (eq_sym Et)). rewrite new_same in Ln. rewrite <- Et in Ec. rewrite Ec in Ln. simpl in Ln. lia. }
        exists lft, (RId (DImm (int01 L or_))), s2. split; [reflexivity|]. split.
        -- split; [exact Gr|]. split; [exact Sw|]. split; [exact C02|]. split.
           ++ destruct Tl as [->|(k & -> & Hk)]; [now left|right]. exists k. split; auto. destruct Gr2. lia.
           ++ split; [unfold canapp; rewrite Bl, Ln; apply G1|]. split; [intros Io; unfold isopen; rewrite Bl; apply G1; auto|].
              intros _ ->. rewrite Bl, Ln. destruct G1 as (_ & _ & _ & _ & _ & _ & Lx). apply Lx; auto.
        -- intros v Fv. destruct (fine_log _ _ _ _ Fv) as [Fx Fy]. destruct (F1 _ Fx) as ((S1 & S2 & _) & X1).
           assert (Cx : constant x = Some u) by (destruct (constant x) as [w|] eqn:Cw; [pose proof (S1 w eq_refl); congruence|now destruct (S2 eq_refl u)]).
           split; [apply shape_log_const; rewrite constant_log, Cx, Tu, eqb_reflx; reflexivity|].
           intros I g Ag m t tr m' rr S. destruct (Sub g s2 lft [] Ag) as [Ag1 _]; [apply chg_refl|intros ? []|lia|auto|].
           rewrite sem_log in S. destruct (sem late_ x m) as [[t1 m1] ra] eqn:Sx.
           destruct (exr_imm _ _ _ _ _ _ _ _ _ _ t _ _ _ (X1 I g Ag1) Sx) as (Rv & t' & T & K). rewrite Rv, Tu, eqb_reflx in S. pair_eq S.
           apply exr_plain with t'; simpl; auto; [unfold at_; now rewrite Bl|left; eexists; reflexivity].
      * clear Et. set (s3 := setj0 lft (Some (B (next s2))) (new_ s2)).
        assert (C23 : chg s2 [lft] s3) by (unfold s3; apply chg_setj0; [apply chg_new1|intros _; now left]).
        assert (N3 : next s3 = S (next s2)) by reflexivity.
        assert (Nl : lft <> B (next s2)) by nq.
        assert (B3 : blocks s3 (B (next s2)) = empty_blk) by (unfold s3; gt; reflexivity).
        exists (B (next s2)), (RId (DImm (int01 L or_))), s3. split; [reflexivity|]. split.
        -- split; [apply grows_trans with s2; [exact Gr|split; simpl; lia]|]. split; [exact Sw|].
           split; [apply chg_trans with s2 [lft]; auto; intros c [<-|[]]; auto|]. split; [right; exists (next s2); split; auto; destruct Gr; lia|].
           split; [left; now rewrite B3|]. split; [intros _; unfold isopen; now rewrite B3|]. intros Ob E. subst b. simpl in Ob. destruct Gr. lia.
        -- intros v Fv. destruct (fine_log _ _ _ _ Fv) as [Fx Fy]. destruct (F1 _ Fx) as ((S1 & S2 & _) & X1).
           assert (Cx : constant x = Some u) by (destruct (constant x) as [w|] eqn:Cw; [pose proof (S1 w eq_refl); congruence|now destruct (S2 eq_refl u)]).
           split; [apply shape_log_const; rewrite constant_log, Cx, Tu, eqb_reflx; reflexivity|].
           intros I g Ag m t tr m' rr S. destruct (Sub g s3 (B (next s2)) [lft] Ag) as [Ag1 _]; [exact C23|intros c [<-|[]]; auto|lia|right; right; simpl; lia|].
           rewrite sem_log in S. destruct (sem late_ x m) as [[t1 m1] ra] eqn:Sx.
           destruct (exr_imm _ _ _ _ _ _ _ _ _ _ t _ _ _ (X1 I g Ag1) Sx) as (Rv & t' & T & K). rewrite Rv, Tu, eqb_reflx in S. pair_eq S.
           assert (Gl : g lft = blocks s3 lft).
           { apply (agr_full _ _ _ _ _ _ Ag); [|exact Nl]. destruct Tl as [->|(k & -> & Hk)]; [now left|right]. exists k. split; auto. destruct Gr2. lia. }
           apply exr_plain with t'; simpl; auto; [|left; eexists; reflexivity].
           eapply star_trans; [exact T| |symmetry; apply app_nil_r].
           assert (El : blocks s3 lft = let k := blocks s1 lft in Blk (head k) (code k) (bexpr k) (Some (B (next s2))) (jump1 k) (retv k))
             by (unfold s3; gt; rewrite Bl; reflexivity).
           assert (Il : isopen s1 lft) by (apply G1; auto).
           replace (at_ s1 lft) with (length (code (g lft))) by (rewrite Gl, El; reflexivity).
           replace (at_ s3 (B (next s2))) with 0 by (unfold at_; now rewrite B3).
           apply step_jump; rewrite Gl, El; [reflexivity|apply Il].
    + set (s3 := setj0 lft (Some (B (next s1))) s2). cbv zeta.
      assert (C23 : chg s2 [lft] s3) by (unfold s3; apply chg_setj0; [apply chg_refl|intros _; now left]).
      assert (B3 : blocks s3 rgt = blocks s2 rgt) by (unfold s3; gt; reflexivity).
      assert (El : blocks s3 lft = let k := blocks s1 lft in Blk (head k) (code k) (bexpr k) (Some (B (next s1))) (jump1 k) (retv k))
             by (unfold s3; gt; rewrite Bl; reflexivity).
      assert (A3 : canapp s3 rgt) by (unfold canapp; rewrite B3; exact A2).
      assert (I3 : isopen s3 rgt) by (unfold isopen; rewrite B3; exact I2).
      assert (G3 : good s b s3 rgt).
      { split; [exact Gr|]. split; [exact Sw|]. split; [apply chg_trans with s2 [lft]; auto; intros c [<-|[]]; auto|].
        split; [right; exists n; split; auto; unfold s3; norm_next; destruct Gr1; lia|]. split; [exact A3|]. split; [auto|].
        intros Ob E. subst b. rewrite En in Ob. simpl in Ob. destruct Gr1. lia. }
      assert (Com : forall sf X, chg s2 X sf -> (forall c, In c X -> c = lft \/ c = rgt \/ ~ old s2 c) -> next s2 <= next sf -> blocks sf lft = blocks s3 lft ->
        forall v, fine v (log_ or_ x y) -> shape y r2 /\ constant (log_ or_ x y) = match constant y with Some v => Some (int01 L (truth L v)) | None => None end
          /\ forall (I : isopen s b) g (Ag : agr g s b sf rgt), exr g y (B (next s1)) 0 rgt (at_ s2 rgt) r2 (tmp s1) (tmp s2)
          /\ forall m t tr m' rr, sem late_ (log_ or_ x y) m = (tr, m', rr) -> exists m1 t1 t2 rb t', sem late_ y m1 = (t2, m', rb) /\ tr = t1 ++ t2
              /\ rr = Val (int01 L (truth L (rvalue rb m'))) /\ star g (Run b (at_ s b) m t []) t1 (Run (B (next s1)) 0 m1 t' []) /\ (forall n, n < tmp s -> t' n = t n)).
      { intros sf X Cf HX Hn Hl v0 Fv. destruct (fine_log _ _ _ _ Fv) as [Fx Fy]. destruct (F1 _ Fx) as ((S1 & S2 & _) & X1). destruct (F2 _ Fy) as (Sy & X2).
        assert (Cx : constant x = Some u) by (destruct (constant x) as [w|] eqn:Cw; [pose proof (S1 w eq_refl); congruence|now destruct (S2 eq_refl u)]).
        split; [exact Sy|]. split; [rewrite constant_log, Cx, Tu, Ev; reflexivity|].
        intros I g Ag. destruct (Sub g sf rgt X Ag Cf HX Hn (or_intror (or_introl eq_refl))) as [Ag1 Ag2].
        split; [rewrite <- Ntop; apply (X2 (open_new L s1) g Ag2)|].
        intros m t tr m' rr S. rewrite sem_log in S. destruct (sem late_ x m) as [[t1 m1] ra] eqn:Sx.
        destruct (exr_imm _ _ _ _ _ _ _ _ _ _ t _ _ _ (X1 I g Ag1) Sx) as (Rv & t' & T & K). rewrite Rv, Tu, Ev in S.
        destruct (sem late_ y m1) as [[t2 m2] rb] eqn:Sy2. pair_eq S. exists m1, t1, t2, rb, t'. split; [exact Sy2|]. split; [reflexivity|]. split; [reflexivity|]. split; [|exact K].
        assert (Gl : g lft = blocks s3 lft).
        { rewrite <- Hl. apply (agr_full _ _ _ _ _ _ Ag); [|exact N]. destruct Tl as [->|(k & -> & Hk)]; [now left|right]. exists k. split; auto. destruct Gr2. lia. }
        assert (Il : isopen s1 lft) by (apply G1; auto).
        eapply star_trans; [exact T| |symmetry; apply app_nil_r].
        replace (at_ s1 lft) with (length (code (g lft))) by (rewrite Gl, El; reflexivity).
        apply step_jump; rewrite Gl, El; [reflexivity|apply Il]. }
      destruct (is_comparison r2) eqn:Ic.
      * exists rgt, r2, s3. split; [reflexivity|]. split; [exact G3|]. intros v' Fv.
        destruct (Com s3 [lft] C23 ltac:(intros c [<-|[]]; auto) (le_n _) eq_refl v' Fv) as (Sy & Cl & X).
        destruct r2 as [|?|k p q|?|?]; try discriminate. destruct Sy as (S1 & S2 & S3 & S4 & S5 & S6).
        assert (Cy : constant y = None) by (destruct (constant y) as [w|]; auto; now pose proof (S1 w eq_refl)).
        split; [apply shape_log; [now rewrite Cl, Cy|congruence|reflexivity|exact S5]|].
        intros I g Ag m t tr m' rr S. destruct (X I g Ag) as [Xy Xl]. destruct (Xl m t _ _ _ S) as (m1 & t1 & t2 & rb & t' & Sy2 & -> & -> & T & K).
        destruct (Xy m1 t' _ _ _ Sy2) as (tr1 & tr2 & mm & t'' & ps & T' & -> & K' & Rn & Pd & Bw).
        assert (Z : int01 L (truth L (rvalue rb m')) = rvalue rb m').
        { cbn [run] in Rn. assert (Z : rvalue rb m' = int01 L (relv L (rel_of k) (opdv p mm t'') (opdv q mm t''))) by congruence. now rewrite Z, truth01. }
        rewrite Z. exists (t1 ++ tr1), tr2, mm, t'', ps. split; [|split; [apply app_assoc|split; [|split; [exact Rn|split; [|exact Bw]]]]].
        -- unfold at_ in *. rewrite B3. eapply star_trans; [exact T|exact T'|reflexivity].
        -- intros j Hj. rewrite K' by (destruct Gr1; lia). auto.
        -- simpl. eexists. reflexivity.
      * assert (O3' : old s3 rgt) by exact O3.
        destruct (eval_ok L rgt r2 s3 A3 O3') as (d & s4 & E4 & G4 & N4). rewrite E4. cbn [bind].
        exists rgt, (cmp Ne_ d zero), s4. split; [reflexivity|]. split; [now apply good_trans with s3 rgt|]. intros v' Fv.
        assert (C34 : chg s3 [rgt] s4) by apply G4.
        assert (C24 : chg s2 [lft; rgt] s4).
        { apply chg_trans with s3 [rgt]; [split; simpl; lia| |exact C34|intros c [<-|[]] _; simpl; auto].
          split; intros c Oc; [intros Nc; apply C23; auto; intros [<-|[]]; apply Nc; simpl; auto|now apply C23]. }
        assert (H24 : next s2 <= next s4) by (rewrite N4; unfold s3; norm_next; lia).
        assert (L4 : blocks s4 lft = blocks s3 lft) by (apply C34; [exact O2|]; intros [E|[]]; congruence).
        destruct (Com s4 [lft; rgt] C24 ltac:(intros c [<-|[<-|[]]]; auto) H24 L4 v' Fv) as (Sy & Cl & X).
        destruct (fine_log _ _ _ _ Fv) as [Fx Fy].
        assert (Vd : vshape y d).
        { destruct Sy as (S1 & S2 & S3 & S4 & S5 & S6). split.
          - intros w Hw. rewrite (S1 w Hw) in E4. simpl in E4. congruence.
          - intros Hv Hc w Hw. subst d. destruct (eval_inv _ _ _ _ _ E4 A3 O3') as [[-> _]|[(f & -> & _)|(Y & _)]]; [now apply (S2 Hc w)|now apply (S6 Hv f)|congruence]. }
        split.
        -- destruct (vcase _ _ Vd (fine_void _ Fy)) as [(w & Cy & ->)|(Cy & [[k ->]|[k ->]])]; rewrite Cy in Cl.
           ++ apply shape_log_const. exact Cl.
           ++ apply shape_log; auto; simpl; intros; try split; congruence.
           ++ apply shape_log; auto; simpl; intros; try split; congruence.
        -- intros I g Ag m t tr m' rr S. destruct (X I g Ag) as [Xy Xl]. destruct (Xl m t _ _ _ S) as (m1 & t1 & t2 & rb & t' & Sy2 & -> & -> & T & K).
           assert (Xv : exv g y (B (next s1)) 0 rgt (at_ s4 rgt) d (tmp s1) (tmp s4)).
           { apply eval_ex with (c := r2) (s := s3); [|change (tmp s3) with (tmp s2); apply Gr2|exact E4|exact A3|exact O3'|eapply agr_code; exact Ag].
             unfold at_. rewrite B3. exact Xy. }
           destruct (Xv m1 t' _ _ _ Sy2) as (t'' & T' & K' & Pd & Bw).
           apply exr_plain with t''; [eapply star_trans; [exact T|exact T'|reflexivity]| | |apply plain_cmp|apply below_cmp; simpl; auto].
           ++ intros j Hj. rewrite K' by (destruct Gr1; lia). auto.
           ++ rewrite run_cmp, (opd_now _ _ _ _ Pd). reflexivity.
  - destruct (join_ok L or_ lft r rgt r2 (B (next s1)) s2 O2 O3 N) as (s3 & -> & N3 & T3 & Sw3 & C23 & A3 & I3 & El & Er & (Ct & Jt & Kt) & (Cf & Jf & Kf) & Cb).
    set (bf := B (S (S (next s2)))) in *. set (tb := B (next s2)) in *. set (fb := B (S (next s2))) in *.
    exists bf, (RId (DTmp (tmp s2))), s3. split; [reflexivity|].
    assert (Nl : lft <> bf) by (unfold bf; nq). assert (Nr : rgt <> bf) by (unfold bf; nq).
    split.
    + split; [apply grows_trans with s2; [exact Gr|split; lia]|]. split; [now apply same_trans with s2|].
      split; [apply chg_trans with s2 [lft; rgt]; auto; intros c [<-|[<-|[]]]; auto|]. destruct Gr as [Gr _].
      split; [right; exists (S (S (next s2))); split; [reflexivity|lia]|]. split; [exact A3|]. split; [auto|]. intros Ob E. rewrite <- E in Ob. simpl in Ob. lia.
    + intros v' Fv. destruct (fine_log _ _ _ _ Fv) as [Fx Fy]. destruct (F1 _ Fx) as ((S1 & S2 & S3 & _) & X1). destruct (F2 _ Fy) as (Sy & X2).
      assert (Cx : constant x = None) by (destruct (constant x) as [w|]; auto; rewrite (S1 w eq_refl) in IB; discriminate).
      split.
      { apply shape_log; [now rewrite constant_log, Cx|congruence|reflexivity|split; congruence]. }
      intros I g Ag m t tr m' rr Hs.
      destruct (Sub g s3 bf [lft; rgt] Ag C23) as [Ag1 Ag2]; [intros c [<-|[<-|[]]]; auto|lia|right; right; simpl; lia|].
      rewrite sem_log in Hs. destruct (sem late_ x m) as [[t1 m1] ra] eqn:Sx.
      destruct (X1 I g Ag1 m t _ _ _ Sx) as (tr1 & tr2 & mm & t' & ps & T & -> & K & Rn & _ & _).
      assert (Ow : own s b s3 lft) by (destruct Tl as [->|(k & -> & Hk)]; [now left|right]; exists k; split; auto; destruct Gr2; lia).
      assert (Gl : g lft = blocks s3 lft) by (apply (agr_full _ _ _ _ _ _ Ag); auto).
      assert (Grr : g rgt = blocks s3 rgt) by (apply (agr_full _ _ _ _ _ _ Ag); auto; right; exists n; split; auto; destruct Gr1; lia).
      assert (Gt : g tb = blocks s3 tb) by (apply (agr_full _ _ _ _ _ _ Ag); [right; exists (next s2); split; [reflexivity|destruct Gr; lia]|unfold tb, bf; nq]).
      assert (Gf : g fb = blocks s3 fb) by (apply (agr_full _ _ _ _ _ _ Ag); [right; exists (S (next s2)); split; [reflexivity|destruct Gr; lia]|unfold fb, bf; nq]).
      assert (Tb : star g (Run b (at_ s b) m t []) (tr1 ++ tr2) (Run (if truth L (rvalue ra m1) then (if or_ then tb else B (next s1)) else (if or_ then B (next s1) else fb)) 0 m1 t' [])).
      { eapply star_trans; [exact T| |reflexivity]. replace (at_ s1 lft) with (length (code (g lft))) by (rewrite Gl, El; unfold at_; simpl; now rewrite Bl).
        apply step_branch; rewrite Gl, El; auto. }
      assert (Fin : forall (w : bool) mw tw, star g (Run (if w then tb else fb) 0 mw tw []) []
                (Run bf 0 mw (fun k => if Nat.eqb k (tmp s2) then int01 L w else tw k) [])).
      { intros w mw tw. eapply star_trans with (t := []) (u := []); [| |reflexivity].
        - eapply step_instr with (c := ITemp (tmp s2) None (RId (DImm (int01 L w)))); [|reflexivity]. destruct w; [rewrite Gt, Ct|rewrite Gf, Cf]; reflexivity.
        - replace 1 with (length (code (g (if w then tb else fb)))) by (destruct w; [rewrite Gt, Ct|rewrite Gf, Cf]; reflexivity).
          apply step_jump; destruct w; rewrite ?Gt, ?Gf; auto. }
      assert (Res : forall (w : bool) tw m0 trc, star g (Run b (at_ s b) m t []) trc (Run (if w then tb else fb) 0 m0 tw []) -> (forall k, k < tmp s -> tw k = t k) ->
        exists tr3 tr4 m3 t3 ps3, star g (Run b (at_ s b) m t []) tr3 (Run bf (at_ s3 bf) m3 t3 ps3) /\ trc = tr3 ++ tr4 /\ (forall n, n < tmp s -> t3 n = t n)
         /\ run (RId (DTmp (tmp s2))) m3 t3 ps3 = (rvalue (Val (int01 L w)) m0, m0, [], tr4) /\ pend_ok (RId (DTmp (tmp s2))) (Val (int01 L w)) t3 /\ belowr (RId (DTmp (tmp s2))) (tmp s3)).
      { intros w tw m0 trc Tw Kw. exists trc, [], m0, (fun k => if Nat.eqb k (tmp s2) then int01 L w else tw k), [].
        split; [|split; [symmetry; apply app_nil_r|split; [|split; [|split]]]].
        - replace (at_ s3 bf) with 0 by (unfold at_; now rewrite Cb). eapply star_trans; [exact Tw|apply Fin|symmetry; apply app_nil_r].
        - intros j Hj. destruct (Nat.eqb_spec j (tmp s2)); [destruct Gr; lia|auto].
        - simpl. now rewrite Nat.eqb_refl.
        - simpl. now rewrite Nat.eqb_refl.
        - simpl. lia. }
      destruct (eqb (truth L (rvalue ra m1)) or_) eqn:Ev.
      * apply eqb_prop in Ev. rewrite Ev in Tb. clear Ev. pair_eq Hs. apply Res with t'; auto. destruct or_; exact Tb.
      * destruct (sem late_ y m1) as [[t2 m2] rb] eqn:Sy2. clear En. pair_eq Hs.
        destruct (X2 (open_new L s1) g Ag2 m1 t' _ _ _ Sy2) as (tr3 & tr4 & mm2 & t'' & ps2 & T' & -> & K' & Rn2 & _ & _). rewrite Ntop in T'.
        apply Res with t''; [|intros j Hj; rewrite K' by (simpl; destruct Gr1; lia); auto].
        eapply star_trans; [exact Tb| |reflexivity].
        replace (if truth L (rvalue ra m1) then if or_ then tb else B (next s1) else if or_ then B (next s1) else fb) with (B (next s1))
          by (destruct (truth L (rvalue ra m1)), or_; simpl in Ev; congruence).
        eapply star_trans; [exact T'| |reflexivity].
        replace (at_ s2 rgt) with (length (code (g rgt))) by (rewrite Grr, Er; reflexivity).
        apply step_branch; rewrite Grr, Er; auto.
Qed.

(* ?: *)
Lemma belowr_le : forall (c : res L) n m, belowr c n -> n <= m -> belowr c m.
Proof. intros [d|o x y|o x y|ty x|vd f] n m H Hl; simpl in *; try (split; apply below_le with n; tauto); now apply below_le with n. Qed.
Lemma exr_hi : forall g e b i b' i' c lo hi hi', exr g e b i b' i' c lo hi -> hi <= hi' -> exr g e b i b' i' c lo hi'.
Proof.
  intros g e b i b' i' c lo hi hi' H Hl m t tr m' r S. destruct (H m t tr m' r S) as (tr1 & tr2 & m1 & t' & ps & T & E & K & R & Pd & Bl).
  exists tr1, tr2, m1, t', ps. repeat (split; [assumption|]). now apply belowr_le with hi.
Qed.
Lemma run_later : forall (c : res L) m t t' n, belowr c n -> (forall k, k < n -> t' k = t k) -> has_side_effects c = false -> run c m t' [] = run c m t [].
Proof.
  assert (X : forall (d : opd L) m t t' n, below d n -> (forall k, k < n -> t' k = t k) -> opdv d m t' = opdv d m t).
  { intros [u|x|k] m t t' n H K; simpl in *; auto. }
  intros [d|o x y|o x y|ty x|vd f] m t t' n H K Hs; simpl in *; try discriminate; try destruct H; rewrite ?(X _ m t t' n) by auto; auto.
Qed.
Lemma exr_again : forall g e b i b' c lo s d s', exr g e b i b' (at_ s b') c lo (tmp s) -> lo <= tmp s -> has_side_effects c = false ->
  eval_ b' c s = Some (d, s') -> canapp s b' -> old s b' -> (exists l, code (g b') = code (blocks s' b') ++ l) ->
  exr g e b i b' (at_ s' b') c lo (tmp s').
Proof.
  intros g e b i b' c lo s d s' H Hl Hc E A O [l Hg] m t tr m' r Hs.
  destruct (H m t tr m' r Hs) as (tr1 & tr2 & m1 & t' & ps & S1 & -> & K & R & P & Bl).
  destruct (run_pure _ _ _ _ _ _ _ _ Hc R) as (-> & <- & ->).
  destruct (eval_inv _ _ _ _ _ E A O) as [[-> ->]|[(f & -> & _)|(-> & C & T & N1 & N2)]]; [|discriminate|].
  - exists tr1, [], m1, t', []. repeat (split; [assumption||reflexivity|]). assumption.
  - set (t2 := fun k => if Nat.eqb k (tmp s) then rvalue r m1 else t' k).
    assert (K2 : forall k, k < tmp s -> t2 k = t' k) by (intros k Hk; unfold t2; destruct (Nat.eqb_spec k (tmp s)); [lia|reflexivity]).
    exists tr1, [], m1, t2, []. split; [|split; [reflexivity|split; [|split; [|split]]]].
    + eapply star_trans; [exact S1| |symmetry; apply app_nil_r]. unfold at_. rewrite C, app_length. simpl. rewrite Nat.add_1_r.
      eapply step_instr; [rewrite Hg, C; apply nth_end|]. cbn [exec]. now rewrite R.
    + intros n Hn. rewrite K2 by lia. auto.
    + rewrite (run_later c m1 t' t2 (tmp s)); auto.
    + destruct c; auto. now destruct (N1 d).
    + apply belowr_le with (tmp s); auto. lia.
Qed.

Lemma throwaway : forall z b s, P z -> canapp s b -> old s b ->
  exists rgt rr s1 d s2, lower z (B (next s)) (new_ s) = Some (rgt, rr, s1) /\ eval_ rgt rr s1 = Some (d, s2)
    /\ good s b (setlen (len s) s2) b /\ blocks s2 b = blocks s b.
Proof.
  intros z b s Pz A O. destruct (value_ok z (B (next s)) (new_ s) Pz (canapp_new L s) (old_new L s)) as (rgt & rr & s1 & d & s2 & E1 & E2 & _ & _ & G & _).
  destruct (good_apart L s _ s2 rgt G eq_refl) as (Gr & Sw & C & _).
  assert (Bl : blocks s2 b = blocks s b) by (apply C; auto).
  exists rgt, rr, s1, d, s2. split; [exact E1|]. split; [exact E2|]. split; [|exact Bl].
  split; [exact Gr|]. split; [exact Sw|]. split; [split; [intros c Oc _; now apply C|apply C]|]. split; [now left|].
  split; [unfold canapp; cbn [blocks setlen len]; rewrite Bl; exact A|]. split; [unfold isopen; cbn [blocks setlen]; now rewrite Bl|].
  intros _ _. cbn [blocks setlen len]. now rewrite Bl.
Qed.

Definition val_ (ty : option Z) (v : val L) : val L := match ty with Some ty => castv L ty v | None => voidv L end.
Definition valued_ (ty : option Z) : bool := match ty with Some _ => true | None => false end.
(* the arm taken when the condition is constant *)
Lemma pick : forall ty w, P w -> forall b s, canapp s b -> old s b ->
  exists lft rl s2 d s3, lower w b s = Some (lft, rl, s2) /\ eval_ lft rl s2 = Some (d, s3) /\ good s b s3 lft
  /\ forall s3', good s3 lft s3' lft -> blocks s3' lft = blocks s3 lft ->
     exists c s4, match ty with None => Some (lft, RId (DImm (voidv L)), s3') | Some _ => bind (eval_ lft rl s3') (fun '(d, s) => Some (lft, cast_res ty d, s)) end = Some (lft, c, s4)
     /\ good s3' lft s4 lft
     /\ (fine (valued_ ty) w -> (ty <> None -> is_call w = false) ->
         ((ty = None -> c = RId (DImm (voidv L))) /\ (forall y v, ty = Some y -> constant w = Some v -> c = RId (DImm (castv L y v)))
          /\ (forall y, ty = Some y -> constant w = None -> exists d, c = RCast y d))
         /\ (isopen s b -> forall g, agr g s b s4 lft -> forall m t tr m' r, sem late_ w m = (tr, m', r) ->
             exists t', star g (Run b (at_ s b) m t []) tr (Run lft (at_ s4 lft) m' t' []) /\ (forall n, n < tmp s -> t' n = t n)
               /\ run c m' t' [] = (val_ ty (rvalue r m'), m', [], []) /\ plain c /\ belowr c (tmp s4))).
Proof.
  intros ty w Pw b s A O. destruct (value_ok w b s Pw A O) as (lft & rl & s2 & d & s3 & E1 & E2 & G1 & G2 & G12 & F).
  destruct (Pw b s A O) as (lft' & rl' & s2' & E1' & _ & F').
  assert (lft' = lft /\ rl' = rl /\ s2' = s2) as (-> & -> & ->) by (repeat split; congruence). clear E1'.
  exists lft, rl, s2, d, s3. split; [exact E1|]. split; [exact E2|]. split; [exact G12|]. intros s3' G3 Bl.
  assert (O2 : old s2 lft) by now apply good_old with s b. assert (A2 : canapp s2 lft) by apply G1.
  assert (O3 : old s3 lft) by now apply good_old with s b.
  assert (O3' : old s3' lft) by now apply good_old with s3 lft. assert (A3' : canapp s3' lft) by apply G3.
  assert (At : at_ s3' lft = at_ s3 lft) by (unfold at_; now rewrite Bl).
  assert (Tm : tmp s3 <= tmp s3') by apply G3. assert (Tm2 : tmp s2 <= tmp s3) by apply G2. assert (Tm1 : tmp s <= tmp s2) by apply G1.
  destruct ty as [y|].
  - destruct (eval_ok L lft rl s3' A3' O3') as (d4 & s4 & E4 & G4 & _). rewrite E4. cbn [bind].
    exists (cast_res (Some y) d4), s4. split; [reflexivity|]. split; [exact G4|]. cbn [valued_]. intros Fw Hc. specialize (Hc ltac:(discriminate)).
    destruct (F' _ Fw) as (Sh & X). split.
    + pose proof Sh as (S1 & S2 & S3 & S4 & S5 & S6). split; [discriminate|]. split.
      * intros y' v [= <-] Cw. rewrite (S1 v Cw) in E4. cbn [eval_] in E4. assert (d4 = DImm v) as -> by congruence. reflexivity.
      * intros y' [= <-] Cw. destruct (eval_inv _ _ _ _ _ E4 A3' O3') as [[-> _]|[(f & -> & _)|(-> & _)]].
        -- destruct d4 as [v|k|k]; [now destruct (S2 Cw v)|eexists; reflexivity|eexists; reflexivity].
        -- now destruct (S6 (fine_void _ Fw) f).
        -- eexists; reflexivity.
    + intros I g Ag m t tr m' r S. assert (Hs : has_side_effects rl = false) by (destruct Sh as (_ & _ & S3 & _); congruence).
      assert (G14 : good s b s3' lft) by now apply good_trans with s3 lft.
      destruct (agr_trans g s b s3' lft s4 lft O G14 G4 Ag) as [Ag1 Ag2].
      destruct (agr_trans g s b s3 lft s3' lft O G12 G3 Ag1) as [Ag3 _].
      destruct (agr_trans g s b s2 lft s3 lft O G1 G2 Ag3) as [Ag4 _].
      assert (X2 : exr g w b (at_ s b) lft (at_ s3' lft) rl (tmp s) (tmp s3')).
      { rewrite At. apply exr_hi with (tmp s3); auto. apply exr_again with s2 d; auto. eapply agr_code; exact Ag3. }
      assert (X3 : exv g w b (at_ s b) lft (at_ s4 lft) d4 (tmp s) (tmp s4)).
      { apply eval_ex with (c := rl) (s := s3'); auto; [lia|]. eapply agr_code; exact Ag. }
      destruct (X3 m t _ _ _ S) as (t' & T & K & Pd & Bd). exists t'. split; [exact T|]. split; [exact K|]. split; [|split; [apply plain_cast|now apply below_cast]].
      rewrite run_cast, (opd_now _ _ _ _ Pd). reflexivity.
  - exists (RId (DImm (voidv L))), s3'. split; [reflexivity|]. split; [now apply good_refl|]. intros Fw _. split.
    + split; [auto|]. split; intros; discriminate.
    + intros I g Ag m t tr m' r S. destruct (agr_trans g s b s3 lft s3' lft O G12 G3 Ag) as [Ag3 _].
      destruct (F _ Fw) as (_ & _ & X). destruct (X I g Ag3 m t _ _ _ S) as (t' & T & K & _). exists t'. rewrite At.
      split; [exact T|]. split; [exact K|]. split; [reflexivity|]. split; [left; eexists; reflexivity|exact Logic.I].
Qed.
End Expr.
Arguments late_ {L}. Arguments star {L}. Arguments at_ {L}. Arguments own {L}. Arguments agr {L}. Arguments opd_ok {L}. Arguments below {L}. Arguments belowr {L}.
Arguments exv {L}. Arguments pend_ok {L}. Arguments exr {L}. Arguments shape {L}. Arguments vshape {L}. Arguments P {L}. Arguments exl {L}. Arguments PL {L}.
Arguments plain {L}. Arguments log_ {L}. Arguments val_ {L}.
