(* C22: control flow graphs do what statements mean.  C23: logical operators.  C46: every operand once, every call with its
   own arguments. *)
From Coq Require Import ZArith List Bool Arith Lia.
From Verif Require Import CfgSyntax CfgModel CfgSpec CfgExpr CfgBuilt.
Import ListNotations.
Local Open Scope Z_scope.

(* Sound translation of f, when the unspecified order of evaluation is chosen according to late: the same results, also that
   there is none; what the graph has done after some time the program does, and the other way round *)
Definition same_behaviour {L} (late : expr L -> bool) (f : func L) (g : id -> blk L) (m : mem L) : Prop :=
  (forall tr v m', (exists n, steps late f n (start f m) tr (Ret v m')) <-> (exists n, gsteps g n (gstart m) tr (End v m')))
  /\ (forall n tr s, gsteps g n (gstart m) tr s -> exists k tr2 s', steps late f k (start f m) (tr ++ tr2) s')
  /\ (forall k tr s, steps late f k (start f m) tr s -> exists n s', gsteps g n (gstart m) tr s').
(* 6.8.1, 6.8.4.2, 6.8.6 *)
Definition wellformed {L} (f : func L) : Prop :=
  placed false false (body f) /\ NoDup (labels (body f)) /\ incl (gotos (body f)) (labels (body f)).

(* C22.  Partial: [fine_s] excludes the defects refuted below. *)
Theorem C22_lowering_partial : forall L, lawful L -> exists late : expr L -> bool, forall f : func L, wellformed f -> fine_s (body f) ->
  exists g, build f = Some g /\ forall m, same_behaviour late f g m
    /\ forall k tr s, steps late f k (start f m) tr s -> step late f s = None -> exists v m', s = Ret v m'.
Proof.
  intros L law. exists late_. intros f (W1 & W2 & W3) F. destruct (build_ok L law f W1 W2 W3 F) as (g & E & H). exists g. split; [exact E|].
  intros m. destruct (H m) as (H1 & H2 & H3). split; [split; [exact H1|split; [exact H2|]]|].
  - intros k tr s S. apply (H3 k tr s S).
  - intros k tr s S. apply (H3 k tr s S).
Qed.
Print Assumptions C22_lowering_partial.

(* Every program is accepted, and no assertion fails on the way, also with the defects *)
Theorem C22_accepted : forall L, lawful L -> forall f : func L, wellformed f -> exists g, build f = Some g.
Proof. intros L law f (W1 & W2 & W3). exact (build_some L law f W1 W2). Qed.
Print Assumptions C22_accepted.

(* What a graph does is determined *)
Lemma gsteps_det : forall L (g : id -> blk L) n s tr v m, gsteps g n s tr (End v m) ->
  forall n' tr' v' m', gsteps g n' s tr' (End v' m') -> tr = tr' /\ v = v' /\ m = m'.
Proof.
  intros L g n s tr v m H. remember (End v m) as e eqn:E. revert E. induction H as [s|n s ev s1 tr s2 H1 H2 IH]; intros E n' tr' v' m' K.
  - subst s. inversion K; subst; [auto|discriminate].
  - inversion K; subst; [discriminate|]. rewrite H in H1. injection H1 as -> ->. destruct (IH eq_refl _ _ _ _ H0) as (-> & ? & ?). auto.
Qed.
Lemma steps_det : forall L late (f : func L) n s tr v m, steps late f n s tr (Ret v m) ->
  forall n' tr' v' m', steps late f n' s tr' (Ret v' m') -> tr = tr' /\ v = v' /\ m = m'.
Proof.
  intros L late f n s tr v m H. remember (Ret v m) as e eqn:E. revert E. induction H as [s|n s ev s1 tr s2 H1 H2 IH]; intros E n' tr' v' m' K.
  - subst s. inversion K; subst; [auto|discriminate].
  - inversion K; subst; [discriminate|]. rewrite H in H1. injection H1 as -> ->. destruct (IH eq_refl _ _ _ _ H0) as (-> & ? & ?). auto.
Qed.

(* Running a graph or a program for some steps *)
Fixpoint grun {L} (n : nat) (g : id -> blk L) (s : gstate L) : list (effect L) * gstate L :=
  match n with
  | O => ([], s)
  | S n => match gstep g s with Some (ev, s) => let (tr, s) := grun n g s in (ev ++ tr, s) | None => ([], s) end
  end.
Lemma grun_ok : forall L (g : id -> blk L) n s tr s', grun n g s = (tr, s') -> exists k, gsteps g k s tr s'.
Proof.
  induction n; cbn [grun]; intros s tr s' H; [inversion H; subst; exists O; constructor|].
  destruct (gstep g s) as [[ev s1]|] eqn:E; [|inversion H; subst; exists O; constructor].
  destruct (grun n g s1) as [t2 s2] eqn:R. inversion H; subst. destruct (IHn _ _ _ R) as (k & K). exists (S k). now apply gsteps_S with s1.
Qed.
Lemma graph_run : forall L (f : func L) n m tr v,
  match build f with Some g => match grun n g (gstart m) with (t, End w _) => t = tr /\ w = v | _ => False end | None => False end ->
  exists g k m', build f = Some g /\ gsteps g k (gstart m) tr (End v m').
Proof.
  intros L f n m tr v H. destruct (build f) as [g|]; [|destruct H]. exists g. destruct (grun n g (gstart m)) as [t [b i m1 t1 ps|w m']] eqn:R; [destruct H|].
  destruct H as (-> & ->). destruct (grun_ok _ _ _ _ _ _ R) as (k & K). exists k, m'. auto.
Qed.
Fixpoint srun {L} (late : expr L -> bool) (n : nat) (f : func L) (s : sstate L) : list (effect L) * sstate L :=
  match n with
  | O => ([], s)
  | S n => match step late f s with Some (ev, s) => let (tr, s) := srun late n f s in (ev ++ tr, s) | None => ([], s) end
  end.
Lemma srun_ok : forall L late (f : func L) n s tr s', srun late n f s = (tr, s') -> exists k, steps late f k s tr s'.
Proof.
  induction n; cbn [srun]; intros s tr s' H; [inversion H; subst; exists O; constructor|].
  destruct (step late f s) as [[ev s1]|] eqn:E; [|inversion H; subst; exists O; constructor].
  destruct (srun late n f s1) as [t2 s2] eqn:R. inversion H; subst. destruct (IHn _ _ _ R) as (k & K). exists (S k). now apply steps_S with s1.
Qed.

(* ------------------------------------------------------------------ *)
(* C23, as seen in a function that returns the value.  What `returns` says: the graph of `return e;` ends with this trace,
   memory and value, and with no other. *)
Definition returns {L} (ty : Z) (e : expr L) (m : mem L) (tr : list (effect L)) (m' : mem L) (v : val L) : Prop :=
  exists g, build (Func (SReturn (Some (ty, e))) false 0) = Some g /\
    (exists n, gsteps g n (gstart m) tr (End (Some (castv L ty v)) m')) /\
    forall n tr2 v2 m2, gsteps g n (gstart m) tr2 (End v2 m2) -> tr2 = tr /\ v2 = Some (castv L ty v) /\ m2 = m'.
Lemma return_ok : forall L, lawful L -> forall ty (e : expr L) m tr m' v, fine true e -> value_of late_ e m = (tr, m', v) -> returns ty e m tr m' v.
Proof.
  intros L law ty e m tr m' v F V. set (f := Func (SReturn (Some (ty, e))) false 0).
  destruct (build_ok L law f Logic.I (NoDup_nil _) (incl_refl _) F) as (g & E & H). exists g. split; [exact E|].
  assert (K : exists n, gsteps g n (gstart m) tr (End (Some (castv L ty v)) m')).
  { apply (H m). exists 1%nat. rewrite <- (app_nil_r tr). eapply steps_S; [|constructor]. cbn [step start body f]. now rewrite V. }
  split; [exact K|]. intros n tr2 v2 m2 R. destruct K as (n1 & K). destruct (gsteps_det _ _ _ _ _ _ _ R _ _ _ _ K) as (-> & -> & ->). auto.
Qed.
Lemma constant_sem : forall L (e : expr L) w, constant e = Some w -> forall m, exists t m', sem late_ e m = (t, m', Val w).
Proof.
  intros L. induction e; intros w C m; cbn [constant] in C; try discriminate; cbn [sem].
  - inversion C; subst. eauto.
  - destruct (constant e1) as [u1|]; [|discriminate]. destruct (constant e2) as [u2|]; [|discriminate]. inversion C; subst.
    destruct (IHe1 _ eq_refl m) as (t1 & m1 & ->). destruct (IHe2 _ eq_refl m1) as (t2 & m2 & ->). cbn [rvalue]. eauto.
  - destruct (constant e1) as [u1|]; [|discriminate]. destruct (constant e2) as [u2|]; [|discriminate]. inversion C; subst.
    destruct (IHe1 _ eq_refl m) as (t1 & m1 & ->). destruct (IHe2 _ eq_refl m1) as (t2 & m2 & ->). cbn [rvalue]. eauto.
  - destruct (constant e) as [u1|]; [|discriminate]. inversion C; subst. destruct (IHe _ eq_refl m) as (t1 & m1 & ->). cbn [rvalue]. eauto.
  - destruct (constant e1) as [u1|]; [|discriminate]. destruct (IHe1 _ eq_refl m) as (t1 & m1 & ->). cbn [rvalue]. destruct (truth L u1); [|inversion C; eauto].
    destruct (constant e2) as [u2|]; [|discriminate]. inversion C; subst. destruct (IHe2 _ eq_refl m1) as (t2 & m2 & ->). cbn [rvalue]. eauto.
  - destruct (constant e1) as [u1|]; [|discriminate]. destruct (IHe1 _ eq_refl m) as (t1 & m1 & ->). cbn [rvalue]. destruct (truth L u1); [inversion C; eauto|].
    destruct (constant e2) as [u2|]; [|discriminate]. inversion C; subst. destruct (IHe2 _ eq_refl m1) as (t2 & m2 & ->). cbn [rvalue]. eauto.
  - destruct t as [t|].
    + destruct (constant e1) as [u1|]; [|discriminate]. destruct (IHe1 _ eq_refl m) as (t1 & m1 & ->). cbn [rvalue]. destruct (truth L u1).
      * destruct (constant e2) as [u2|]; [|discriminate]. inversion C; subst. destruct (IHe2 _ eq_refl m1) as (t2 & m2 & ->). cbn [rvalue]. eauto.
      * destruct (constant e3) as [u2|]; [|discriminate]. inversion C; subst. destruct (IHe3 _ eq_refl m1) as (t2 & m2 & ->). cbn [rvalue]. eauto.
    + inversion C; subst. destruct (sem late_ e1 m) as [[t1 m1] r1]. destruct (truth L (rvalue r1 m1)); [destruct (sem late_ e2 m1) as [[t2 m2] r2]|destruct (sem late_ e3 m1) as [[t2 m2] r2]]; eauto.
  - destruct (sem late_ e1 m) as [[t1 m1] r1]. destruct (IHe2 _ C m1) as (t2 & m2 & ->). eauto.
  - destruct t as [t|].
    + destruct (constant e) as [u1|]; [|discriminate]. inversion C; subst. destruct (IHe _ eq_refl m) as (t1 & m1 & ->). cbn [rvalue]. eauto.
    + inversion C; subst. destruct (sem late_ e m) as [[t1 m1] r1]. eauto.
  - cbn [late_]. destruct (constant e) as [u1|]; [|discriminate]. inversion C; subst. destruct (IHe _ eq_refl m) as (t1 & m1 & ->). cbn [rvalue]. eauto.
Qed.
Lemma value_and : forall L (late : expr L -> bool) a b m, value_of late (EAnd a b) m =
  let '(t1, m1, u) := value_of late a m in
  if truth L u then let '(t2, m2, v) := value_of late b m1 in (t1 ++ t2, m2, int01 L (truth L v)) else (t1, m1, int01 L false).
Proof.
  intros. unfold value_of. cbn [sem]. destruct (sem late a m) as [[t1 m1] r1]. destruct (truth L (rvalue r1 m1)); [|reflexivity].
  destruct (sem late b m1) as [[t2 m2] r2]. reflexivity.
Qed.
Lemma value_or : forall L (late : expr L -> bool) a b m, value_of late (EOr a b) m =
  let '(t1, m1, u) := value_of late a m in
  if truth L u then (t1, m1, int01 L true) else let '(t2, m2, v) := value_of late b m1 in (t1 ++ t2, m2, int01 L (truth L v)).
Proof.
  intros. unfold value_of. cbn [sem]. destruct (sem late a m) as [[t1 m1] r1]. destruct (truth L (rvalue r1 m1)); [reflexivity|].
  destruct (sem late b m1) as [[t2 m2] r2]. reflexivity.
Qed.

(* The right operand of && is evaluated if and only if the left one is true, of || if and only if it is false; the value
   is 0 or 1.  The operands are any expressions, with the effects they have by themselves. *)
Theorem C23_and_or_partial : forall L, lawful L -> forall ty (a b : expr L) m ta ma u tb mb v,
  fine true a -> fine true b -> value_of late_ a m = (ta, ma, u) -> value_of late_ b ma = (tb, mb, v) ->
  (truth L u = true -> returns ty (EAnd a b) m (ta ++ tb) mb (int01 L (truth L v)) /\ returns ty (EOr a b) m ta ma (int01 L true)) /\
  (truth L u = false -> returns ty (EAnd a b) m ta ma (int01 L false) /\ returns ty (EOr a b) m (ta ++ tb) mb (int01 L (truth L v))).
Proof.
  intros L law ty a b m ta ma u tb mb v Fa Fb Va Vb.
  assert (F1 : fine true (EAnd a b)) by (cbn; auto). assert (F2 : fine true (EOr a b)) by (cbn; auto).
  split; intros T; split; apply return_ok; auto; rewrite ?value_and, ?value_or, Va, T, ?Vb; reflexivity.
Qed.
Print Assumptions C23_and_or_partial.

(* Of a ? b : c, only one of b and c is evaluated.  Partial: not with a constant condition and a call in the chosen arm. *)
Theorem C23_conditional_partial : forall L, lawful L -> forall ty k (a b c : expr L) m ta ma u tb mb v,
  fine true a -> fine true b -> fine true c -> (constant a <> None -> is_call (if truth L u then b else c) = false) ->
  value_of late_ a m = (ta, ma, u) -> value_of late_ (if truth L u then b else c) ma = (tb, mb, v) ->
  returns ty (ECond (Some k) a b c) m (ta ++ tb) mb (castv L k v).
Proof.
  intros L law ty k a b c m ta ma u tb mb v Fa Fb Fc Hc Va Vb. apply return_ok; auto.
  - cbn [fine isvoid]. split; [auto|]. split; [auto|]. split; [auto|]. split; [auto|]. destruct (constant a) as [w|] eqn:C; [|auto].
    assert (W : w = u). { destruct (constant_sem L a w C m) as (t0 & m0 & W). unfold value_of in Va. rewrite W in Va. cbn [rvalue] in Va. congruence. }
    subst w. apply Hc. congruence.
  - unfold value_of in *. cbn [sem]. destruct (sem late_ a m) as [[t1 m1] r1]. inversion Va; subst.
    destruct (truth L (rvalue r1 ma)); (destruct (sem late_ _ ma) as [[t2 m2] r2]; inversion Vb; subst; reflexivity).
Qed.
Print Assumptions C23_conditional_partial.

(* !a is 1 if and only if a compares equal to 0.  Partial: if there are values that do not compare, not when a is a
   comparison with < and so on (see the refutation). *)
Theorem C23_not_partial : forall L, lawful L -> forall ty (a : expr L) m ta ma u,
  fine true a -> ordered L \/ relational_ a = false -> value_of late_ a m = (ta, ma, u) ->
  returns ty (ENot a) m ta ma (int01 L (relv L Req (int01 L false) u)).
Proof.
  intros L law ty a m ta ma u F O V. apply return_ok; auto.
  - cbn [fine isvoid]. auto.
  - rewrite (not_const L law). unfold value_of in *. cbn [sem]. destruct (sem late_ a m) as [[t1 m1] r1]. inversion V; subst. reflexivity.
Qed.
Print Assumptions C23_not_partial.

(* ------------------------------------------------------------------ *)
(* Examples: integers; functions return their address plus the sum of their arguments, and count their calls in variable 100 *)
Definition upd {V} (m : Z -> V) (x : Z) (v : V) : Z -> V := fun y => if Z.eqb y x then v else m y.
Definition zrel (r : relop) (a b : Z) : bool :=
  match r with Req => a =? b | Rne => negb (a =? b) | Rlt => a <? b | Rgt => b <? a | Rle => a <=? b | Rge => b <=? a end.
Definition ints : lang := {|
  val := Z; mem := Z -> Z; rdv := fun x m => m x; wrv := fun x v m => upd m x v; asx := fun _ v => v; castv := fun _ v => v;
  binv := fun o a b => if o =? 0 then a + b else if o =? 1 then a - b else a * b;
  relv := zrel; callv := fun f l m => (f + fold_right Z.add 0 l, upd m 100 (m 100 + 1)); int01 := fun b => if b then 1 else 0; voidv := 0; casev := fun c _ => c |}.
Lemma ints_lawful : lawful ints.
Proof. repeat split; cbn; intros; auto. - apply Z.eqb_sym. - now destruct b. Qed.
Lemma ints_ordered : ordered ints.
Proof. intros a b. cbn. destruct (Z.ltb_spec a b), (Z.leb_spec b a); auto; lia. Qed.

(* i = 0; s = 0;
   while (i < 6) { i = i + 1; switch (i) { case 2: continue; case 3: s = s + 10; case 4: s = s + 1; break; default: f(s); } if (i == 5) goto out; }
   s = 99; out: return s; *)
Definition v_i := EVar (L := ints) 0. Definition v_s := EVar (L := ints) 1.
Fixpoint seqs {L} (l : list (stmt L)) : stmt L := match l with [] => SSkip | c :: l => SSeq c (seqs l) end.
Definition cnum (n : Z) : expr ints := EConst (L := ints) n.
Definition scase (n : Z) (c : stmt ints) : stmt ints := SCase (L := ints) n c.
Definition prog : func ints := Func (L := ints) (seqs [
  SExpr (EAssign 0 (cnum 0)); SExpr (EAssign 1 (cnum 0));
  SWhile (ERel Rlt v_i (cnum 6)) (seqs [
    SExpr (EAssign 0 (EOp 0 v_i (cnum 1)));
    SSwitch v_i (seqs [
      scase 2 SContinue;
      scase 3 (SExpr (EAssign 1 (EOp 0 v_s (cnum 10))));
      scase 4 (SExpr (EAssign 1 (EOp 0 v_s (cnum 1))));
      SBreak;
      SDefault (SExpr (ECall false (cnum 1000) (ACons v_s ANil)))]);
    SIf (ERel Req v_i (cnum 5)) (SGoto 7)]);
  SExpr (EAssign 1 (cnum 99));
  SLabel 7 (SReturn (Some (0, v_s)))]) false 0.
Definition zev (l : list (effect ints)) : list (Z * list Z) := map (fun e : effect ints => match e with Write x v => (x, [v : Z]) | Call f l => (f : Z, l : list Z) end) l.
Definition zend (p : list (effect ints) * gstate ints) : option (list (Z * list Z) * option Z) := match p with (tr, End v _) => Some (zev tr, v) | _ => None end.
Example C22_instance : wellformed prog /\ fine_s (body prog) /\
  match build prog with Some g => zend (grun 100 g (gstart (L := ints) (fun _ => 0))) | None => None end
  = Some ([(0, [0]); (1, [0]); (0, [1]); (1000, [0]); (0, [2]); (0, [3]); (1, [10]); (1, [11]); (0, [4]); (1, [12]); (0, [5]); (1000, [12])], Some 12).
Proof.
  split; [|split].
  - split; [cbn; repeat (split; auto); lia|]. split; [cbn; repeat constructor; auto|]. cbn. intros x [->|[]]. now left.
  - cbn. repeat (split; auto).
  - vm_compute. reflexivity.
Qed.

(* n && f(1) || !(n == 3), n zero: f is not called *)
Definition log_e : expr ints := EOr (EAnd v_i (ECall false (cnum 1000) (ACons (cnum 1) ANil))) (ENot (ERel Req v_i (cnum 3))).
Example C23_instance : fine true log_e /\ value_of late_ log_e (fun _ => 0 : Z) = ([], fun _ => 0, 1)
  /\ zev (fst (fst (value_of late_ log_e (fun _ => 2 : Z)))) = [(1000, [1])] /\ snd (value_of late_ log_e (fun _ => 2 : Z)) = 1.
Proof. split; [cbn; repeat (split; auto); left; exact ints_ordered|]. repeat split; reflexivity. Qed.

(* ------------------------------------------------------------------ *)
(* C46: what is evaluated, and how often *)
Fixpoint calls {L} (e : expr L) : nat :=
  match e with
  | EConst _ | EVar _ | EPost _ _ _ => 0
  | EOp _ a b | ERel _ a b | EAnd a b | EOr a b | EComma a b => calls a + calls b
  | ENot a | ECast _ a | EAssign _ a => calls a
  | ECond _ a b c => calls a + calls b + calls c
  | ECall _ f l => S (calls f + callsl l)
  end
with callsl {L} (l : exprs L) : nat := match l with ANil => 0 | ACons a l => calls a + callsl l end.
Fixpoint writes {L} (e : expr L) : nat :=
  match e with
  | EConst _ | EVar _ => 0
  | EPost _ _ _ => 1
  | EOp _ a b | ERel _ a b | EAnd a b | EOr a b | EComma a b => writes a + writes b
  | ENot a | ECast _ a => writes a
  | EAssign _ a => S (writes a)
  | ECond _ a b c => writes a + writes b + writes c
  | ECall _ f l => writes f + writesl l
  end
with writesl {L} (l : exprs L) : nat := match l with ANil => 0 | ACons a l => writes a + writesl l end.
(* without &&, || and ?: *)
Fixpoint strict {L} (e : expr L) : Prop :=
  match e with
  | EConst _ | EVar _ | EPost _ _ _ => True
  | EOp _ a b | ERel _ a b | EComma a b => strict a /\ strict b
  | ENot a | ECast _ a | EAssign _ a => strict a
  | EAnd _ _ | EOr _ _ | ECond _ _ _ _ => False
  | ECall _ f l => strict f /\ strictl l
  end
with strictl {L} (l : exprs L) : Prop := match l with ANil => True | ACons a l => strict a /\ strictl l end.
Definition is_c {L} (e : effect L) : bool := match e with Call _ _ => true | Write _ _ => false end.
Definition ncalls {L} (t : list (effect L)) : nat := length (filter is_c t).
Definition nwrites {L} (t : list (effect L)) : nat := length (filter (fun e => negb (is_c e)) t).
Lemma ncalls_app : forall L (a b : list (effect L)), ncalls (a ++ b) = (ncalls a + ncalls b)%nat.
Proof. intros. unfold ncalls. now rewrite filter_app, app_length. Qed.
Lemma nwrites_app : forall L (a b : list (effect L)), nwrites (a ++ b) = (nwrites a + nwrites b)%nat.
Proof. intros. unfold nwrites. now rewrite filter_app, app_length. Qed.

Ltac cnt := cbn [app] in *; rewrite ?ncalls_app, ?nwrites_app; unfold ncalls, nwrites; cbn [filter is_c negb length app];
  fold (@ncalls) in *; repeat match goal with |- context [length (filter is_c ?t)] => change (length (filter is_c t)) with (ncalls t) end;
  repeat match goal with |- context [length (filter (fun e => negb (is_c e)) ?t)] => change (length (filter (fun e => negb (is_c e)) t)) with (nwrites t) end.
Lemma sem_counts : forall L, (forall (e : expr L) m t m' r, sem late_ e m = (t, m', r) ->
    (ncalls t <= calls e /\ nwrites t <= writes e)%nat /\ (strict e -> ncalls t = calls e /\ nwrites t = writes e)) /\
  (forall (l : exprs L) m t m' r, sems late_ l m = (t, m', r) ->
    (ncalls t <= callsl l /\ nwrites t <= writesl l)%nat /\ (strictl l -> ncalls t = callsl l /\ nwrites t = writesl l)).
Proof.
  intros L. apply expr_exprs.
  - intros v m t m' r H. inversion H; subst. cbn. auto.
  - intros x m t m' r H. inversion H; subst. cbn. auto.
  - intros o a IHa b IHb m t m' r H. cbn [sem] in H. destruct (sem late_ a m) as [[t1 m1] r1] eqn:A. destruct (sem late_ b m1) as [[t2 m2] r2] eqn:B. inversion H; subst.
    destruct (IHa _ _ _ _ A) as (? & S1), (IHb _ _ _ _ B) as (? & S2). cnt. cbn [calls writes strict]. split; [lia|]. intros (Q1 & Q2). specialize (S1 Q1). specialize (S2 Q2). lia.
  - intros o a IHa b IHb m t m' r H. cbn [sem] in H. destruct (sem late_ a m) as [[t1 m1] r1] eqn:A. destruct (sem late_ b m1) as [[t2 m2] r2] eqn:B. inversion H; subst.
    destruct (IHa _ _ _ _ A) as (? & S1), (IHb _ _ _ _ B) as (? & S2). cnt. cbn [calls writes strict]. split; [lia|]. intros (Q1 & Q2). specialize (S1 Q1). specialize (S2 Q2). lia.
  - intros a IHa m t m' r H. cbn [sem] in H. destruct (sem late_ a m) as [[t1 m1] r1] eqn:A. inversion H; subst. exact (IHa _ _ _ _ A).
  - intros a IHa b IHb m t m' r H. cbn [sem] in H. destruct (sem late_ a m) as [[t1 m1] r1] eqn:A. destruct (IHa _ _ _ _ A) as (? & S1). cbn [calls writes strict].
    split; [|intros []]. destruct (truth L (rvalue r1 m1)).
    + destruct (sem late_ b m1) as [[t2 m2] r2] eqn:B. inversion H; subst. destruct (IHb _ _ _ _ B) as (? & S2). cnt. lia.
    + inversion H; subst. lia.
  - intros a IHa b IHb m t m' r H. cbn [sem] in H. destruct (sem late_ a m) as [[t1 m1] r1] eqn:A. destruct (IHa _ _ _ _ A) as (? & S1). cbn [calls writes strict].
    split; [|intros []]. destruct (truth L (rvalue r1 m1)).
    + inversion H; subst. lia.
    + destruct (sem late_ b m1) as [[t2 m2] r2] eqn:B. inversion H; subst. destruct (IHb _ _ _ _ B) as (? & S2). cnt. lia.
  - intros ty a IHa b IHb c IHc m t m' r H. cbn [sem] in H. destruct (sem late_ a m) as [[t1 m1] r1] eqn:A. destruct (IHa _ _ _ _ A) as (? & S1). cbn [calls writes strict].
    split; [|intros []]. destruct (truth L (rvalue r1 m1)).
    + destruct (sem late_ b m1) as [[t2 m2] r2] eqn:B. inversion H; subst. destruct (IHb _ _ _ _ B) as (? & S2). cnt. lia.
    + destruct (sem late_ c m1) as [[t2 m2] r2] eqn:B. inversion H; subst. destruct (IHc _ _ _ _ B) as (? & S2). cnt. lia.
  - intros a IHa b IHb m t m' r H. cbn [sem] in H. destruct (sem late_ a m) as [[t1 m1] r1] eqn:A. destruct (sem late_ b m1) as [[t2 m2] r2] eqn:B. inversion H; subst.
    destruct (IHa _ _ _ _ A) as (? & S1), (IHb _ _ _ _ B) as (? & S2). cnt. cbn [calls writes strict]. split; [lia|]. intros (Q1 & Q2). specialize (S1 Q1). specialize (S2 Q2). lia.
  - intros ty a IHa m t m' r H. cbn [sem] in H. destruct (sem late_ a m) as [[t1 m1] r1] eqn:A. inversion H; subst. exact (IHa _ _ _ _ A).
  - intros x a IHa m t m' r H. cbn [sem] in H. destruct (sem late_ a m) as [[t1 m1] r1] eqn:A. inversion H; subst. destruct (IHa _ _ _ _ A) as (? & S1).
    cnt. cbn [calls writes strict]. split; [lia|]. intros Q. specialize (S1 Q). lia.
  - intros o x v m t m' r H. cbn [sem] in H. inversion H; subst. cbn. auto.
  - intros v f IHf l IHl m t m' r H. cbn [sem] in H. fold (sems (L := L) late_) in H. destruct (sem late_ f m) as [[t1 m1] r1] eqn:A. destruct (sems late_ l m1) as [[t2 m2] rs] eqn:B.
    destruct (callv L _ _ _) as [w m3]. inversion H; subst. destruct (IHf _ _ _ _ A) as (? & S1), (IHl _ _ _ _ B) as (? & S2).
    cnt. cbn [calls writes strict]. fold (@callsl L). fold (@writesl L). fold (@strictl L). split; [lia|]. intros (Q1 & Q2). specialize (S1 Q1). specialize (S2 Q2). lia.
  - intros m t m' r H. inversion H; subst. cbn. auto.
  - intros a IHa l IHl m t m' r H. rewrite sems_cons in H. destruct (sem late_ a m) as [[t1 m1] r1] eqn:A. destruct (sems late_ l m1) as [[t2 m2] rs] eqn:B. inversion H; subst.
    destruct (IHa _ _ _ _ A) as (? & S1), (IHl _ _ _ _ B) as (? & S2). cnt. change (callsl (ACons a l)) with (calls a + callsl l)%nat. change (writesl (ACons a l)) with (writes a + writesl l)%nat. change (strictl (ACons a l)) with (strict a /\ strictl l). split; [lia|]. intros (Q1 & Q2). specialize (S1 Q1). specialize (S2 Q2). lia.
Qed.

(* The statement `e;` makes at most one call and one store for each call and each assignment in e, and exactly one if e is
   without &&, || and ?:.  Partial: [fine] excludes the expressions refuted below. *)
Theorem C46_once_partial : forall L, lawful L -> forall (e : expr L), fine false e ->
  exists g, build (Func (SExpr e) false 0) = Some g /\ forall m,
    (exists n t m', gsteps g n (gstart m) t (End None m')) /\
    forall n t v m', gsteps g n (gstart m) t (End v m') ->
      (ncalls t <= calls e /\ nwrites t <= writes e)%nat /\ (strict e -> ncalls t = calls e /\ nwrites t = writes e).
Proof.
  intros L law e F. set (f := Func (SExpr e) false 0).
  destruct (build_ok L law f Logic.I (NoDup_nil _) (incl_refl _) F) as (g & E & H). exists g. split; [exact E|]. intros m.
  destruct (sem late_ e m) as [[t m'] r] eqn:S.
  assert (St : exists n, steps late_ f n (start f m) t (Ret None m')).
  { exists 2%nat. rewrite <- (app_nil_r t). eapply steps_S; [unfold start; cbn [step body f do_]; unfold value_of; rewrite S; reflexivity|].
    change (@nil (effect L)) with (@nil (effect L) ++ []). eapply steps_S; [reflexivity|constructor]. }
  split.
  - apply (H m) in St as (n & St). eauto.
  - intros n t2 v2 m2 G. assert (G2 : exists n, steps late_ f n (start f m) t2 (Ret v2 m2)) by (apply (H m); eauto).
    destruct G2 as (k & G2), St as (k2 & St). destruct (steps_det _ _ _ _ _ _ _ _ G2 _ _ _ _ St) as (-> & _ & _). exact (proj1 (sem_counts L) e m t m' r S).
Qed.
Print Assumptions C46_once_partial.

(* x = f(1, y++) + f(2) *)
Definition once_e : expr ints := EAssign 0 (EOp 0 (ECall false (cnum 1000) (ACons (cnum 1) (ACons (EPost (L := ints) 0 1 1) ANil))) (ECall false (cnum 1000) (ACons (cnum 2) ANil))).
Example C46_instance : fine false once_e /\ strict once_e /\ (calls once_e, writes once_e) = (2, 2)%nat
  /\ match build (Func (SExpr once_e) false 0) with Some g => zend (grun 100 g (gstart (L := ints) (fun _ => 5))) | None => None end
  = Some ([(1, [6]); (1000, [1; 5]); (1000, [2]); (0, [2008])], None).
Proof. split; [cbn; repeat (split; auto)|]. split; [cbn; auto|]. split; [reflexivity|]. vm_compute. reflexivity. Qed.

(* A constant condition and a call: the call is made twice, the second time without its argument.
   return 1 ? f(5) : 0; *)
Definition twice_e : expr ints := ECond (Some 0) (cnum 1) (ECall false (cnum 1000) (ACons (cnum 5) ANil)) (cnum 0).
Theorem C46_conditional_refuted : exists (e : expr ints) g n m m' v t, calls e = 1%nat /\ build (Func (SReturn (Some (0, e))) false 0) = Some g
  /\ gsteps g n (gstart m) t (End v m') /\ t = [Call (L := ints) 1000 [5]; Call (L := ints) 1000 []].
Proof.
  destruct (graph_run _ (Func (SReturn (Some (0, twice_e))) false 0) 10 (fun _ => 0) [Call (L := ints) 1000 [5]; Call (L := ints) 1000 []] (Some 1000)) as (g & n & m' & E & G).
  { vm_compute. auto. }
  exists twice_e, g, n, (fun _ => 0), m', (Some 1000), [Call (L := ints) 1000 [5]; Call (L := ints) 1000 []].
  split; [reflexivity|]. auto.
Qed.
Print Assumptions C46_conditional_refuted.

(* A call of the result of a call: f(1)(2) calls f with both arguments, and its result with none *)
Definition curried_e : expr ints := ECall false (ECall false (cnum 1000) (ACons (cnum 1) ANil)) (ACons (cnum 2) ANil).
Theorem C46_arguments_refuted : exists (e : expr ints) g n m m' v t, e = curried_e /\ build (Func (SReturn (Some (0, e))) false 0) = Some g
  /\ gsteps g n (gstart m) t (End v m') /\ t = [Call (L := ints) 1000 [1; 2]; Call (L := ints) 1003 []]
  /\ forall late, fst (fst (sem late e m)) = [Call (L := ints) 1000 [1]; Call (L := ints) 1001 [2]].
Proof.
  destruct (graph_run _ (Func (SReturn (Some (0, curried_e))) false 0) 10 (fun _ => 0) [Call (L := ints) 1000 [1; 2]; Call (L := ints) 1003 []] (Some 1003)) as (g & n & m' & E & G).
  { vm_compute. auto. }
  exists curried_e, g, n, (fun _ => 0), m', (Some 1003), [Call (L := ints) 1000 [1; 2]; Call (L := ints) 1003 []].
  split; [reflexivity|]. split; [exact E|]. split; [exact G|]. split; [reflexivity|]. intros late. reflexivity.
Qed.
Print Assumptions C46_arguments_refuted.

(* ------------------------------------------------------------------ *)
(* C23 refuted: floating point numbers that may be unordered.  a = NaN, b = 1; !(a >= b) is 0 *)
Definition frel (r : relop) (a b : option Z) : bool :=
  match a, b with Some a, Some b => zrel r a b | _, _ => match r with Rne => true | _ => false end end.
Definition floats : lang := {|
  val := option Z; mem := Z -> option Z; rdv := fun x m => m x; wrv := fun x v m => upd m x v; asx := fun _ v => v; castv := fun _ v => v;
  binv := fun o a b => a; relv := frel; callv := fun f l m => (f, m); int01 := fun b => if b then Some 1 else Some 0; voidv := Some 0; casev := fun c _ => c |}.
Lemma floats_lawful : lawful floats.
Proof.
  split; [|split; [|split; [|split]]]; cbn.
  - now intros [a|] [b|].
  - now intros [a|] [b|].
  - now intros [a|] [b|].
  - intros [a|] [b|]; cbn; auto. apply Z.eqb_sym.
  - intros [|]; reflexivity.
Qed.
Theorem C23_not_refuted : exists L (law : lawful L) (a : expr L) m g n m', fine true a
  /\ (forall late, value_of late a m = ([], m, int01 L false))
  /\ build (Func (SReturn (Some (0, ENot a))) false 0) = Some g
  /\ gsteps g n (gstart m) [] (End (Some (castv L 0 (int01 L false))) m') /\ int01 L false <> int01 L true.
Proof.
  set (a := ERel (L := floats) Rge (EVar 0) (EVar 1)). set (m := fun x : Z => if x =? 0 then None else Some 1).
  destruct (graph_run _ (Func (SReturn (Some (0, ENot a))) false 0) 10 m [] (Some (Some 0))) as (g & n & m' & E & G).
  { vm_compute. auto. }
  exists floats, floats_lawful, a, m, g, n, m'.
  split; [cbn; auto 10|]. split; [|split; [exact E|split; [exact G|discriminate]]].
  intros late. unfold value_of, a. cbn [sem]. destruct (late (EVar 0)), (late (EVar 1)); reflexivity.
Qed.
Print Assumptions C23_not_refuted.

(* C22 refuted: case constants are to be converted to the promoted type of the controlling expression (6.8.4.2#5).
   Values of type int (false) and long (true); switch (1) { case 4294967297L: return 1; } return 0; *)
Definition to_int (n : Z) : Z := (n + 2147483648) mod 4294967296 - 2147483648.
Definition wide : lang := {|
  val := Z * bool; mem := unit; rdv := fun _ _ => (0, false); wrv := fun _ _ m => m; asx := fun _ v => v; castv := fun _ v => v;
  binv := fun o a b => a; relv := fun r a b => zrel r (fst a) (fst b); callv := fun f l m => (f, m); int01 := fun b => (if b then 1 else 0, false); voidv := (0, false);
  casev := fun c v => if snd v then (fst c, true) else (to_int (fst c), false) |}.
Lemma wide_lawful : lawful wide.
Proof. repeat split; cbn; intros; auto. - apply Z.eqb_sym. - now destruct b. Qed.
Definition long_case : func wide := Func (L := wide) (SSeq (SSwitch (EConst (L := wide) (1, false)) (SCase (L := wide) (4294967297, true) (SReturn (Some (0, EConst (L := wide) (1, false))))))
  (SReturn (Some (0, EConst (L := wide) (0, false))))) false 0.
Theorem C22_case_refuted : exists L (law : lawful L) (f : func L) m g, wellformed f /\ build f = Some g /\ forall late, ~ same_behaviour late f g m.
Proof.
  destruct (graph_run _ long_case 10 tt [] (Some (0, false))) as (g & n & m' & E & G).
  { lazy -[to_int]. auto. }
  exists wide, wide_lawful, long_case, tt, g.
  split; [|split; [exact E|]].
  - split; [cbn; auto|]. split; [constructor|]. intros x [].
  - intros late (H & _). assert (K : exists n, steps late long_case n (start (L := wide) long_case tt) [] (Ret (L := wide) (Some (0, false)) m')) by (apply H; eauto).
    destruct K as (k & K).
    assert (K2 : srun late 10 long_case (start (L := wide) long_case tt) = ([], Ret (L := wide) (Some (1, false)) tt)) by reflexivity.
    apply srun_ok in K2 as (k2 & K2). destruct (steps_det _ _ _ _ _ _ _ _ K _ _ _ _ K2) as (_ & Q & _). discriminate.
Qed.
Print Assumptions C22_case_refuted.
