(* Statements: what it means that a graph is right for a statement, and that it then does what the statement means. *)
From Coq Require Import ZArith List Bool Arith Lia.
From Verif Require Import CfgSyntax CfgModel CfgSpec CfgProofs CfgExpr CfgCond.
Import ListNotations.

Section Stmt.
Variable L : lang.
Local Notation graph := (id -> blk L).
Variable g : graph.
Variable lbls : list Z.

Definition plus (a : gstate L) (tr : list (effect L)) (b : gstate L) : Prop := exists n, gsteps g (S n) a tr b.
Lemma plus_star : forall a tr b, plus a tr b -> star g a tr b.
Proof. intros a tr b [n H]. now exists (S n). Qed.
Lemma star_plus : forall a t b u c v, star g a t b -> plus b u c -> v = t ++ u -> plus a v c.
Proof. intros a t b u c v [n H] [m K] ->. exists (n + m). rewrite <- Nat.add_succ_r. now apply (gsteps_trans L g n (S m)) with b. Qed.
Lemma plus_star_plus : forall a t b u c v, plus a t b -> star g b u c -> v = t ++ u -> plus a v c.
Proof. intros a t b u c v [n H] [m K] ->. exists (n + m). now apply (gsteps_trans L g (S n) m) with b. Qed.

(* from (b, i) to block n without doing anything *)
Definition ends (b : id) (i : nat) (n : id) : Prop := forall m t, plus (Run b i m t []) [] (Run n 0 m t []).
Definition go (b : id) (i : nat) (n : id) : Prop := (b = n /\ i = 0) \/ ends b i n.
Definition exs (e : expr L) (b : id) (i : nat) (b' : id) (i' : nat) : Prop :=
  forall m t tr m' v, value_of late_ e m = (tr, m', v) -> exists t', star g (Run b i m t []) tr (Run b' i' m' t' []).
Definition cond (e : expr L) (b : id) (i : nat) (yes no : id) : Prop :=
  forall m t tr m' v, value_of late_ e m = (tr, m', v) -> exists t', plus (Run b i m t []) tr (Run (if truth L v then yes else no) 0 m' t' []).
Fixpoint target (v : val L) (cs : list (val L * id)) (d : id) : id :=
  match cs with [] => d | (c, l) :: cs => if relv L Req c v then l else target v cs d end.

(* The part of the graph for statement s begins at (b, i) and ends at (b', i'); cs and df are the case labels in it *)
Fixpoint tr (brk cnt : option id) (s : stmt L) (b : id) (i : nat) (b' : id) (i' : nat) (cs : list (val L * id)) (df : option id) : Prop :=
  match s with
  | SSkip => b' = b /\ i' = i /\ cs = [] /\ df = None
  | SExpr e => exs e b i b' i' /\ cs = [] /\ df = None
  | SSeq x y => exists b1 i1 c1 d1 c2 d2, tr brk cnt x b i b1 i1 c1 d1 /\ tr brk cnt y b1 i1 b' i' c2 d2 /\ cs = c1 ++ c2 /\ df = orelse d1 d2
  | SIf e x => exists yes b1 i1, cond e b i yes b' /\ tr brk cnt x yes 0 b1 i1 cs df /\ ends b1 i1 b' /\ i' = 0
  | SIfElse e x y => exists yes no b1 i1 b2 i2 c1 d1 c2 d2, cond e b i yes no /\ tr brk cnt x yes 0 b1 i1 c1 d1 /\ ends b1 i1 b' /\
      tr brk cnt y no 0 b2 i2 c2 d2 /\ ends b2 i2 b' /\ i' = 0 /\ cs = c1 ++ c2 /\ df = orelse d1 d2
  | SDo x e => exists top con b1 i1, go b i top /\ tr (Some b') (Some con) x top 0 b1 i1 cs df /\ ends b1 i1 con /\ cond e con 0 top b' /\ i' = 0
  | SWhile e x => exists top body b1 i1, go b i top /\ cond e top 0 body b' /\ tr (Some b') (Some top) x body 0 b1 i1 cs df /\ ends b1 i1 top /\ i' = 0
  | SFor ini c inc x => exists b1 i1 top body b2 i2 con,
      match ini with Some e => exs e b i b1 i1 | None => b1 = b /\ i1 = i end /\ go b1 i1 top /\
      match c with Some e => cond e top 0 body b' | None => top = body end /\
      tr (Some b') (Some con) x body 0 b2 i2 cs df /\ ends b2 i2 con /\
      match inc with Some e => exists b3 i3, exs e con 0 b3 i3 /\ go b3 i3 top | None => con = top end /\ i' = 0
  | SSwitch e x => exists body b1 i1 c1 d1, tr (Some b') cnt x body 0 b1 i1 c1 d1 /\ ends b1 i1 b' /\
      (forall m t ev m' v, value_of late_ e m = (ev, m', v) ->
         exists t', plus (Run b i m t []) ev (Run (target v c1 (match d1 with Some d => d | None => b' end)) 0 m' t' [])) /\
      i' = 0 /\ cs = [] /\ df = None
  | SCase v x => exists n c1, ends b i n /\ tr brk cnt x n 0 b' i' c1 df /\ cs = (v, n) :: c1
  | SDefault x => exists n d1, ends b i n /\ tr brk cnt x n 0 b' i' cs d1 /\ df = Some n
  | SLabel l x => ends b i (Lb l) /\ tr brk cnt x (Lb l) 0 b' i' cs df
  | SGoto l => ends b i (Lb l) /\ In l lbls /\ cs = [] /\ df = None
  | SBreak => (exists n, brk = Some n /\ ends b i n) /\ cs = [] /\ df = None
  | SContinue => (exists n, cnt = Some n /\ ends b i n) /\ cs = [] /\ df = None
  | SReturn None => (forall m t, plus (Run b i m t []) [] (End None m)) /\ cs = [] /\ df = None
  | SReturn (Some (ty, e)) => (forall m t ev m' v, value_of late_ e m = (ev, m', v) -> plus (Run b i m t []) ev (End (Some (castv L ty v)) m')) /\ cs = [] /\ df = None
  end.

Variable f : func L.

(* and for what comes after a statement that ends at (b, i) *)
Fixpoint trk (brk cnt : option id) (k : cont L) (b : id) (i : nat) : Prop :=
  match k with
  | Kstop => brk = None /\ cnt = None /\ forall m t, plus (Run b i m t []) [] (End (if main f then Some (castv L (int_ty f) (int01 L false)) else None) m)
  | Kseq s k => exists b1 i1 cs df, fine_s s /\ tr brk cnt s b i b1 i1 cs df /\ trk brk cnt k b1 i1
  | Kwhile e x k => exists top body nxt b1 i1 cs df brk' cnt', fine_s (SWhile e x) /\ ends b i top /\ cond e top 0 body nxt /\ tr (Some nxt) (Some top) x body 0 b1 i1 cs df /\ ends b1 i1 top /\
      brk = Some nxt /\ cnt = Some top /\ trk brk' cnt' k nxt 0
  | Kdo x e k => exists top con nxt b1 i1 cs df brk' cnt', fine_s (SDo x e) /\ ends b i con /\ tr (Some nxt) (Some con) x top 0 b1 i1 cs df /\ ends b1 i1 con /\ cond e con 0 top nxt /\
      brk = Some nxt /\ cnt = Some con /\ trk brk' cnt' k nxt 0
  | Kfor c inc x k => exists top body nxt b2 i2 con cs df brk' cnt', fine_s (SFor None c inc x) /\ ends b i con /\
      match c with Some e => cond e top 0 body nxt | None => top = body end /\
      tr (Some nxt) (Some con) x body 0 b2 i2 cs df /\ ends b2 i2 con /\
      match inc with Some e => exists b3 i3, exs e con 0 b3 i3 /\ go b3 i3 top | None => con = top end /\
      brk = Some nxt /\ cnt = Some con /\ trk brk' cnt' k nxt 0
  | Kswitch k => exists nxt brk', ends b i nxt /\ brk = Some nxt /\ trk brk' cnt k nxt 0
  end.

Fixpoint size (s : stmt L) : nat :=
  match s with
  | SSkip | SGoto _ | SBreak | SContinue => 1
  | SExpr _ | SReturn _ => 2
  | SSeq a b | SIfElse _ a b => size a + size b + 2
  | SIf _ a | SDo a _ | SWhile _ a | SSwitch _ a | SCase _ a | SDefault a | SLabel _ a => size a + 2
  | SFor ini _ _ a => size a + 2 + match ini with Some _ => 1 | None => 0 end
  end.
Fixpoint cost (k : cont L) : nat :=
  match k with Kstop => 0 | Kseq s k => size s + 1 + cost k | Kwhile _ _ k | Kdo _ _ k | Kfor _ _ _ k => cost k | Kswitch k => S (cost k) end.

(* matching states; the number is a measure *)
Inductive match_ : nat -> sstate L -> gstate L -> Prop :=
| match_do : forall s k m b i t brk cnt b' i' cs df, fine_s s -> tr brk cnt s b i b' i' cs df -> trk brk cnt k b' i' ->
    match_ (size s + cost k) (Do s k m) (Run b i m t [])
| match_while : forall e x k m t top body nxt b1 i1 cs df brk' cnt', fine_s (SWhile e x) -> cond e top 0 body nxt -> tr (Some nxt) (Some top) x body 0 b1 i1 cs df -> ends b1 i1 top ->
    trk brk' cnt' k nxt 0 -> match_ (size (SWhile e x) + cost k + 1) (Do SSkip (Kwhile e x k) m) (Run top 0 m t [])
| match_do_ : forall e x k m t top con nxt b1 i1 cs df brk' cnt', fine_s (SDo x e) -> tr (Some nxt) (Some con) x top 0 b1 i1 cs df -> ends b1 i1 con -> cond e con 0 top nxt ->
    trk brk' cnt' k nxt 0 -> match_ 0 (Do SSkip (Kdo x e k) m) (Run con 0 m t [])
| match_for : forall c inc x k m t top body nxt b2 i2 con cs df brk' cnt', fine_s (SFor None c inc x) ->
      match c with Some e => cond e top 0 body nxt | None => top = body end ->
      tr (Some nxt) (Some con) x body 0 b2 i2 cs df -> ends b2 i2 con ->
      match inc with Some e => exists b3 i3, exs e con 0 b3 i3 /\ go b3 i3 top | None => con = top end ->
      trk brk' cnt' k nxt 0 -> match_ (size (SFor None c inc x) + cost k + 1) (Do SSkip (Kfor c inc x k) m) (Run con 0 m t [])
| match_ret : forall v m, match_ 0 (Ret v m) (End v m).

(* ------------------------------------------------------------------ *)
Lemma ends_trans : forall b i n p, ends b i n -> ends n 0 p -> ends b i p.
Proof. intros b i n p H K m t. apply plus_star_plus with [] (Run n 0 m t []) []; auto. now apply plus_star. Qed.
Lemma ends_go : forall b i n p, ends b i n -> go n 0 p -> go b i p.
Proof. intros b i n p H [[-> _]|K]; right; auto. now apply ends_trans with n. Qed.
Lemma ends_exs : forall b i n e b' i', ends b i n -> exs e n 0 b' i' -> exs e b i b' i'.
Proof.
  intros b i n e b' i' H K m t ev m' v E. destruct (K m t ev m' v E) as (t' & Q). exists t'.
  apply (star_trans L g) with (Run n 0 m t []) [] ev; auto. apply plus_star, H.
Qed.
Lemma ends_cond : forall b i n e y z, ends b i n -> cond e n 0 y z -> cond e b i y z.
Proof.
  intros b i n e y z H K m t ev m' v E. destruct (K m t ev m' v E) as (t' & Q). exists t'.
  apply plus_star_plus with [] (Run n 0 m t []) ev; auto. now apply plus_star.
Qed.
Lemma tr_pre : forall s brk cnt b i n b' i' cs df, ends b i n -> tr brk cnt s n 0 b' i' cs df ->
  tr brk cnt s b i b' i' cs df \/ (b' = n /\ i' = 0 /\ tr brk cnt s b i b i cs df).
Proof.
  induction s; cbn [tr]; intros brk cnt bb ii n b' i' cs df E H.
  - right. destruct H as (-> & -> & -> & ->). intuition.
  - left. destruct H as (H & ?). split; auto. now apply ends_exs with n.
  - destruct H as (b1 & i1 & c1 & d1 & c2 & d2 & H1 & H2 & Hc & Hd). destruct (IHs1 _ _ _ _ _ _ _ _ _ E H1) as [K|(-> & -> & K)].
    + left. exists b1, i1, c1, d1, c2, d2. auto.
    + destruct (IHs2 _ _ _ _ _ _ _ _ _ E H2) as [K2|(-> & -> & K2)].
      * left. exists bb, ii, c1, d1, c2, d2. auto.
      * right. split; [auto|]. split; [auto|]. exists bb, ii, c1, d1, c2, d2. auto.
  - left. destruct H as (yes & b1 & i1 & H & R). exists yes, b1, i1. split; auto. now apply ends_cond with n.
  - left. destruct H as (yes & no & b1 & i1 & b2 & i2 & c1 & d1 & c2 & d2 & H & R). exists yes, no, b1, i1, b2, i2, c1, d1, c2, d2. split; auto. now apply ends_cond with n.
  - left. destruct H as (top & con & b1 & i1 & H & R). exists top, con, b1, i1. split; auto. now apply ends_go with n.
  - left. destruct H as (top & con & b1 & i1 & H & R). exists top, con, b1, i1. split; auto. now apply ends_go with n.
  - left. destruct H as (b1 & i1 & top & body & b2 & i2 & con & H & G & R). destruct init as [e|].
    + exists b1, i1, top, body, b2, i2, con. split; [now apply ends_exs with n|]. auto.
    + destruct H as (-> & ->). exists bb, ii, top, body, b2, i2, con. split; [auto|]. split; [now apply ends_go with n|auto].
  - left. destruct H as (body & b1 & i1 & c1 & d1 & H1 & H2 & H3 & R). exists body, b1, i1, c1, d1. split; [auto|]. split; [auto|]. split; [|auto].
    intros m t ev m' v Q. destruct (H3 m t ev m' v Q) as (t' & Q'). exists t'. apply plus_star_plus with [] (Run n 0 m t []) ev; auto. now apply plus_star.
  - left. destruct H as (q & c1 & H & R). exists q, c1. split; auto. now apply ends_trans with n.
  - left. destruct H as (q & c1 & H & R). exists q, c1. split; auto. now apply ends_trans with n.
  - left. destruct H as (H & R). split; auto. now apply ends_trans with n.
  - left. destruct H as (H & R). split; auto. now apply ends_trans with n.
  - left. destruct H as ((q & -> & H) & R). split; auto. exists q. split; auto. now apply ends_trans with n.
  - left. destruct H as ((q & -> & H) & R). split; auto. exists q. split; auto. now apply ends_trans with n.
  - left. destruct e as [[ty e]|].
    + destruct H as (H & R). split; auto. intros m t ev m' v Q. apply plus_star_plus with [] (Run n 0 m t []) ev; auto. apply plus_star; eauto.
    + destruct H as (H & R). split; auto. intros m t. apply plus_star_plus with [] (Run n 0 m t []) []; auto. apply plus_star; eauto.
Qed.
Lemma trk_pre : forall k brk cnt b i n, ends b i n -> trk brk cnt k n 0 -> trk brk cnt k b i.
Proof.
  induction k; cbn [trk]; intros brk cnt b i' n E H.
  - destruct H as (? & ? & H). split; [auto|]. split; [auto|]. intros m t. apply plus_star_plus with [] (Run n 0 m t []) []; auto. apply plus_star, H.
  - destruct H as (b1 & i1 & cs & df & F & H & K). destruct (tr_pre _ _ _ _ _ _ _ _ _ _ E H) as [Q|(-> & -> & Q)].
    + exists b1, i1, cs, df. auto.
    + exists b, i', cs, df. split; [auto|]. split; [auto|]. now apply IHk with n.
  - destruct H as (top & body & nxt & b1 & i1 & cs & df & brk' & cnt' & F & H & R). exists top, body, nxt, b1, i1, cs, df, brk', cnt'. split; [auto|]. split; auto. now apply ends_trans with n.
  - destruct H as (top & body & nxt & b1 & i1 & cs & df & brk' & cnt' & F & H & R). exists top, body, nxt, b1, i1, cs, df, brk', cnt'. split; [auto|]. split; auto. now apply ends_trans with n.
  - destruct H as (top & body & nxt & b2 & i2 & con & cs & df & brk' & cnt' & F & H & R). exists top, body, nxt, b2, i2, con, cs, df, brk', cnt'. split; [auto|]. split; auto. now apply ends_trans with n.
  - destruct H as (nxt & brk' & H & R). exists nxt, brk'. split; auto. now apply ends_trans with n.
Qed.

(* the continuations of the loops *)
Lemma trk_while : forall brk cnt brk' cnt' e x k b i b' i' cs df, fine_s (SWhile e x) -> tr brk cnt (SWhile e x) b i b' i' cs df -> trk brk' cnt' k b' i' ->
  exists top body b1 i1, go b i top /\ cond e top 0 body b' /\ i' = 0 /\ tr (Some b') (Some top) x body 0 b1 i1 cs df /\ trk (Some b') (Some top) (Kwhile e x k) b1 i1.
Proof.
  intros brk cnt brk' cnt' e x k b i b' i' cs df F (top & body & b1 & i1 & H1 & H2 & H3 & H4 & ->) K. exists top, body, b1, i1.
  split; [auto|]. split; [auto|]. split; [auto|]. split; [auto|]. exists top, body, b', b1, i1, cs, df, brk', cnt'. intuition.
Qed.
Lemma trk_do : forall brk cnt brk' cnt' e x k b i b' i' cs df, fine_s (SDo x e) -> tr brk cnt (SDo x e) b i b' i' cs df -> trk brk' cnt' k b' i' ->
  exists top con b1 i1, go b i top /\ i' = 0 /\ tr (Some b') (Some con) x top 0 b1 i1 cs df /\ trk (Some b') (Some con) (Kdo x e k) b1 i1.
Proof.
  intros brk cnt brk' cnt' e x k b i b' i' cs df F (top & con & b1 & i1 & H1 & H2 & H3 & H4 & ->) K. exists top, con, b1, i1.
  split; [auto|]. split; [auto|]. split; [auto|]. exists top, con, b', b1, i1, cs, df, brk', cnt'. intuition.
Qed.
Lemma trk_for : forall brk cnt brk' cnt' ini c inc x k b i b' i' cs df, fine_s (SFor None c inc x) -> tr brk cnt (SFor ini c inc x) b i b' i' cs df -> trk brk' cnt' k b' i' ->
  exists b0 i0 top body b1 i1 con,
  match ini with Some e => exs e b i b0 i0 | None => b0 = b /\ i0 = i end /\ go b0 i0 top /\
  match c with Some e => cond e top 0 body b' | None => top = body end /\ i' = 0 /\
  tr (Some b') (Some con) x body 0 b1 i1 cs df /\ trk (Some b') (Some con) (Kfor c inc x k) b1 i1.
Proof.
  intros brk cnt brk' cnt' ini c inc x k b i b' i' cs df F (b0 & i0 & top & body & b2 & i2 & con & H1 & H2 & H3 & H4 & H5 & H6 & ->) K. exists b0, i0, top, body, b2, i2, con.
  split; [auto|]. split; [auto|]. split; [auto|]. split; [auto|]. split; [auto|]. exists top, body, b', b2, i2, con, cs, df, brk', cnt'. intuition.
Qed.

Lemma target_app : forall v a b d, target v (a ++ b) d = target v a (target v b d).
Proof. induction a as [|[c l] a IH]; intros b d; cbn [app target]; [auto|]. destruct (relv L Req c v); auto. Qed.

Definition found (o : option (stmt L * cont L)) (n : id) : Prop :=
  exists s' k' brk cnt b i cs df, o = Some (s', k') /\ fine_s s' /\ tr brk cnt s' n 0 b i cs df /\ trk brk cnt k' b i.
Definition case_at (v : val L) (o : option (stmt L * cont L)) (cs : list (val L * id)) : Prop :=
  (o = None /\ forall d, target v cs d = d) \/ exists n, found o n /\ forall d, target v cs d = n.
Definition default_at (o : option (stmt L * cont L)) (df : option id) : Prop :=
  match df with Some n => found o n | None => o = None end.
Definition label_at (l : Z) (s : stmt L) (o : option (stmt L * cont L)) : Prop :=
  if in_dec Z.eq_dec l (labels s) then found o (Lb l) else o = None.

Lemma case_app : forall v o p c d, case_at v o c -> case_at v p d -> case_at v (orelse o p) (c ++ d).
Proof.
  intros v o p c d [(-> & H)|(n & H & T)] K.
  - cbn [orelse]. destruct K as [(-> & K)|(n & K & T)]; [left|right]. { split; auto. intros e. now rewrite target_app, H, K. }
    exists n. split; auto. intros e. now rewrite target_app, H, T.
  - right. exists n. split. { destruct H as (s' & k' & brk & cnt & b & i & cs & df & -> & Q). cbn [orelse]. exists s', k', brk, cnt, b, i, cs, df. auto. }
    intros e. now rewrite target_app, T.
Qed.
Lemma found_or : forall o p n, found o n -> found (orelse o p) n.
Proof. intros o p n (s' & k' & brk & cnt & b & i & cs & df & -> & Q). exists s', k', brk, cnt, b, i, cs, df. auto. Qed.
Lemma default_app : forall o p c d, default_at o c -> default_at p d -> default_at (orelse o p) (orelse c d).
Proof. intros o p [n|] [n2|]; cbn [default_at orelse]; intros H K; subst; cbn [orelse]; auto; now apply found_or. Qed.

Lemma find_ok : forall s k v l brk cnt b i b' i' cs df, fine_s s -> tr brk cnt s b i b' i' cs df -> trk brk cnt k b' i' ->
  case_at v (find_case v s k) cs /\ default_at (find_default s k) df /\ label_at l s (find_label l s k).
Proof.
  assert (NC : forall v o, o = None -> case_at v o []) by (intros; left; auto).
  assert (NL : forall l s o, labels s = [] -> o = None -> label_at l s o) by (intros l s o E ->; unfold label_at; now rewrite E).
  induction s; intros k w l' brk cnt b1 i1 b' i' cs df F T K.
  - destruct T as (_ & _ & -> & ->). split; [now apply NC|]. split; [reflexivity|now apply NL].
  - destruct T as (_ & -> & ->). split; [now apply NC|]. split; [reflexivity|now apply NL].
  - destruct F as (F1 & F2). destruct T as (b2 & i2 & c1 & d1 & c2 & d2 & T1 & T2 & -> & ->).
    assert (K1 : trk brk cnt (Kseq s2 k) b2 i2) by (exists b', i', c2, d2; auto).
    destruct (IHs1 _ w l' _ _ _ _ _ _ _ _ F1 T1 K1) as (A1 & A2 & A3). destruct (IHs2 _ w l' _ _ _ _ _ _ _ _ F2 T2 K) as (B1 & B2 & B3).
    split; [now apply case_app|]. split; [now apply default_app|]. unfold label_at in *. cbn [labels find_label].
    destruct (in_dec Z.eq_dec l' (labels s1)), (in_dec Z.eq_dec l' (labels s2)), (in_dec Z.eq_dec l' (labels s1 ++ labels s2)) as [Q|Q];
    try (apply in_app_iff in Q; tauto); try (rewrite in_app_iff in Q; tauto); rewrite ?A3, ?B3; cbn [orelse]; auto; now apply found_or.
  - destruct F as (F1 & F2). destruct T as (yes & b2 & i2 & T1 & T2 & T3 & ->). apply (IHs _ w l' _ _ _ _ _ _ _ _ F2 T2). now apply trk_pre with b'.
  - destruct F as (F0 & F1 & F2). destruct T as (yes & no & b2 & i2 & b3 & i3 & c1 & d1 & c2 & d2 & T0 & T1 & E1 & T2 & E2 & -> & -> & ->).
    destruct (IHs1 k w l' _ _ _ _ _ _ _ _ F1 T1) as (A1 & A2 & A3); [now apply trk_pre with b'|].
    destruct (IHs2 k w l' _ _ _ _ _ _ _ _ F2 T2) as (B1 & B2 & B3); [now apply trk_pre with b'|].
    split; [now apply case_app|]. split; [now apply default_app|]. unfold label_at in *. cbn [labels find_label].
    destruct (in_dec Z.eq_dec l' (labels s1)), (in_dec Z.eq_dec l' (labels s2)), (in_dec Z.eq_dec l' (labels s1 ++ labels s2)) as [Q|Q];
    try (apply in_app_iff in Q; tauto); try (rewrite in_app_iff in Q; tauto); rewrite ?A3, ?B3; cbn [orelse]; auto; now apply found_or.
  - destruct F as (F1 & F2). destruct (trk_do _ _ _ _ _ _ _ _ _ _ _ _ _ (conj F1 F2) T K) as (top & con & b2 & i2 & _ & _ & T2 & K2). apply (IHs _ w l' _ _ _ _ _ _ _ _ F2 T2 K2).
  - destruct F as (F1 & F2). destruct (trk_while _ _ _ _ _ _ _ _ _ _ _ _ _ (conj F1 F2) T K) as (top & con & b2 & i2 & _ & _ & _ & T2 & K2). apply (IHs _ w l' _ _ _ _ _ _ _ _ F2 T2 K2).
  - destruct F as (F1 & F2 & F3 & F4). destruct (trk_for _ _ _ _ _ _ _ _ _ _ _ _ _ _ _ (conj Logic.I (conj F2 (conj F3 F4))) T K) as (b0 & i0 & top & body & b2 & i2 & con & _ & _ & _ & _ & T2 & K2).
    apply (IHs _ w l' _ _ _ _ _ _ _ _ F4 T2 K2).
  - destruct F as (F1 & F2). destruct T as (body & b2 & i2 & c1 & d1 & T1 & T2 & _ & -> & -> & ->).
    split; [now apply NC|]. split; [reflexivity|]. apply (IHs (Kswitch k) w l' _ _ _ _ _ _ _ _ F2 T1). exists b', brk. auto.
  - destruct F as (F1 & F2). destruct T as (n & c1 & T1 & T2 & ->). destruct (IHs k w l' _ _ _ _ _ _ _ _ F2 T2 K) as (A1 & A2 & A3).
    split; [|split; auto]. cbn [find_case]. rewrite <- (F1 w). destruct (relv L Req v w) eqn:E.
    + right. exists n. split. { exists s, k, brk, cnt, b', i', c1, df. auto. } intros d. cbn [target]. now rewrite E.
    + destruct A1 as [(-> & A1)|(q & Q & A1)]; [left|right; exists q]; split; auto; intros d; cbn [target]; rewrite E; auto.
  - cbn [fine_s] in F. destruct T as (n & d1 & T1 & T2 & ->). destruct (IHs k w l' _ _ _ _ _ _ _ _ F T2 K) as (A1 & A2 & A3).
    split; [auto|split; auto]. exists s, k, brk, cnt, b', i', cs, d1. auto.
  - cbn [fine_s] in F. destruct T as (T1 & T2). destruct (IHs k w l' _ _ _ _ _ _ _ _ F T2 K) as (A1 & A2 & A3).
    split; [auto|split; auto]. unfold label_at in *. cbn [labels find_label]. destruct (Z.eqb_spec l' l) as [->|N].
    + destruct (in_dec Z.eq_dec l (l :: labels s)) as [_|Q]; [|exfalso; apply Q; now left]. exists s, k, brk, cnt, b', i', cs, df. auto.
    + destruct (in_dec Z.eq_dec l' (labels s)), (in_dec Z.eq_dec l' (l :: labels s)) as [Q|Q]; auto; [exfalso; apply Q; now right|destruct Q; [congruence|tauto]].
  - destruct T as (_ & _ & -> & ->). split; [now apply NC|]. split; [reflexivity|now apply NL].
  - destruct T as (_ & -> & ->). split; [now apply NC|]. split; [reflexivity|now apply NL].
  - destruct T as (_ & -> & ->). split; [now apply NC|]. split; [reflexivity|now apply NL].
  - assert (cs = [] /\ df = None) as (-> & ->) by (destruct e as [[]|]; cbn [tr] in T; tauto). split; [now apply NC|]. split; [reflexivity|now apply NL].
Qed.

(* ------------------------------------------------------------------ *)
Hypothesis lbls_ok : lbls = labels (body f).
Variables (bend : id) (iend : nat) (cs0 : list (val L * id)) (df0 : option id).
Hypothesis body_fine : fine_s (body f).
Hypothesis body_ok : tr None None (body f) (B 0) 0 bend iend cs0 df0.
Hypothesis end_ok : trk None None Kstop bend iend.

Definition next_ (n : nat) (gs : gstate L) (ev : list (effect L)) (s' : sstate L) : Prop :=
  exists n' gs', match_ n' s' gs' /\ star g gs ev gs' /\ (plus gs ev gs' \/ n' < n).
Lemma next_plus : forall n n' gs ev s' gs', match_ n' s' gs' -> plus gs ev gs' -> next_ n gs ev s'.
Proof. intros n n' gs ev s' gs' H K. exists n', gs'. split; [auto|]. split; [now apply plus_star|auto]. Qed.
Lemma next_0 : forall n n' gs s', match_ n' s' gs -> n' < n -> next_ n gs [] s'.
Proof. intros n n' gs s' H K. exists n', gs. split; [auto|]. split; [apply star_refl|auto]. Qed.

Lemma skip_at : forall k brk cnt b i, trk brk cnt k b i -> forall m t, match_ (1 + cost k) (Do SSkip k m) (Run b i m t []).
Proof. intros k brk cnt b i K m t. apply (match_do SSkip k m b i t brk cnt b i [] None); cbn [fine_s tr]; auto. Qed.

Lemma inc_go : forall inc con top m t ev m', match inc with Some e => exists b3 i3, exs e con 0 b3 i3 /\ go b3 i3 top | None => con = top end -> do_ late_ inc m = (ev, m') ->
  exists b3 i3 t', star g (Run con 0 m t []) ev (Run b3 i3 m' t' []) /\ go b3 i3 top.
Proof.
  intros [e|] con top m t ev m' H E; cbn [do_] in E.
  - destruct (value_of late_ e m) as [[ev1 m1] v] eqn:V. inversion E; subst. destruct H as (b3 & i3 & H & G). destruct (H m t _ _ _ V) as (t' & Q). exists b3, i3, t'. auto.
  - inversion E; subst. exists top, 0, t. split; [apply star_refl|left; auto].
Qed.
Lemma for_at : forall c inc x k top body nxt b2 i2 con cs df brk' cnt', fine_s (SFor None c inc x) ->
  match c with Some e => cond e top 0 body nxt | None => top = body end ->
  tr (Some nxt) (Some con) x body 0 b2 i2 cs df -> ends b2 i2 con ->
  match inc with Some e => exists b3 i3, exs e con 0 b3 i3 /\ go b3 i3 top | None => con = top end ->
  trk brk' cnt' k nxt 0 -> forall b i m t, go b i top -> match_ (size (SFor None c inc x) + cost k) (Do (SFor None c inc x) k m) (Run b i m t []).
Proof.
  intros c inc x k top body nxt b2 i2 con cs df brk' cnt' F C T E I K b i m t G. eapply match_do; [exact F| |exact K]. cbn [tr].
  exists b, i, top, body, b2, i2, con. split; [auto|]. split; [auto|]. split; [auto|]. eauto.
Qed.
Lemma sim : forall n s k m gs, match_ n (Do s k m) gs -> exists ev s', step late_ f (Do s k m) = Some (ev, s') /\ next_ n gs ev s'.
Proof.
  intros n s k m gs H. inversion H as [s0 k0 m0 b i t brk cnt b' i' cs df F T K| e x k0 m0 t top body nxt b1 i1 cs df brk' cnt' F C T E1 K|
   e x k0 m0 t top con nxt b1 i1 cs df brk' cnt' F T E1 C K|c inc x k0 m0 t top body nxt b2 i2 con cs df brk' cnt' F C T E1 I K|]; subst; clear H.
  - cbn [step]. destruct s.
    + destruct T as (-> & -> & -> & ->). destruct k; cbn [trk] in K.
      * destruct K as (_ & _ & K). do 2 eexists. split; [reflexivity|]. eapply next_plus; [constructor|]. apply K.
      * destruct K as (b1 & i1 & cs & df & F1 & T1 & K). do 2 eexists. split; [reflexivity|].
        eapply next_0; [eapply match_do; eassumption|]. cbn [size cost]. lia.
      * destruct K as (top & body & nxt & b1 & i1 & cs & df & brk' & cnt' & F1 & E1 & C & T1 & E2 & -> & -> & K). do 2 eexists. split; [reflexivity|].
        eapply next_plus; [|apply E1]. eapply match_do; [exact F1| |exact K]. cbn [tr]. exists top, body, b1, i1. split; [left; auto|]. eauto.
      * destruct K as (top & con & nxt & b1 & i1 & cs & df & brk' & cnt' & F1 & E1 & T1 & E2 & C & -> & -> & K).
        destruct (value_of late_ e m) as [[ev m'] v] eqn:V. do 2 eexists. split; [reflexivity|].
        destruct (C m t ev m' v V) as (t' & Q). assert (Q2 : plus (Run b i m t []) ev (Run (if truth L v then top else nxt) 0 m' t' [])).
        { apply plus_star_plus with [] (Run con 0 m t []) ev; auto. now apply plus_star. }
        destruct (truth L v); eapply next_plus; try exact Q2; [|now apply skip_at with brk' cnt'].
        eapply match_do; [exact F1| |exact K]. cbn [tr]. exists top, con, b1, i1. split; [left; auto|]. eauto.
      * destruct K as (top & body & nxt & b2 & i2 & con & cs & df & brk' & cnt' & F1 & E1 & C & T1 & E2 & I & -> & -> & K).
        destruct (do_ late_ i0 m) as [ev m'] eqn:V. destruct (inc_go i0 con top m t ev m' I V) as (b3 & i3 & t' & Q & G).
        do 2 eexists. split; [reflexivity|]. eapply next_plus; [eapply for_at; eassumption|].
        apply plus_star_plus with [] (Run con 0 m t []) ev; eauto.
      * destruct K as (nxt & brk' & E1 & -> & K). do 2 eexists. split; [reflexivity|]. eapply next_plus; [|apply E1]. now apply skip_at with brk' cnt.
    + destruct T as (T & -> & ->). cbn [do_]. destruct (value_of late_ e m) as [[ev m'] v] eqn:V. do 2 eexists. split; [reflexivity|].
      destruct (T m t ev m' v V) as (t' & Q). eexists. eexists. split; [apply skip_at with brk cnt; exact K|]. split; [exact Q|]. right. cbn [size]. lia.
    + destruct F as (F1 & F2). destruct T as (b1 & i1 & c1 & d1 & c2 & d2 & T1 & T2 & -> & ->). do 2 eexists. split; [reflexivity|].
      eapply next_0; [eapply match_do; [exact F1|exact T1|]|]. { exists b', i', c2, d2. auto. } cbn [size cost]. lia.
    + destruct F as (F1 & F2). destruct T as (yes & b1 & i1 & C & T & E1 & ->). destruct (value_of late_ e m) as [[ev m'] v] eqn:V. do 2 eexists. split; [reflexivity|].
      destruct (C m t ev m' v V) as (t' & Q). destruct (truth L v); eapply next_plus; try exact Q.
      * eapply match_do; [exact F2|exact T|]. apply trk_pre with b'; auto.
      * now apply skip_at with brk cnt.
    + destruct F as (F0 & F1 & F2). destruct T as (yes & no & b1 & i1 & b2 & i2 & c1 & d1 & c2 & d2 & C & T1 & E1 & T2 & E2 & -> & -> & ->).
      destruct (value_of late_ e m) as [[ev m'] v] eqn:V. do 2 eexists. split; [reflexivity|].
      destruct (C m t ev m' v V) as (t' & Q). destruct (truth L v); eapply next_plus; try exact Q.
      * eapply match_do; [exact F1|exact T1|]. apply trk_pre with b'; auto.
      * eapply match_do; [exact F2|exact T2|]. apply trk_pre with b'; auto.
    + destruct (trk_do _ _ _ _ _ _ _ _ _ _ _ _ _ F T K) as (top & con & b1 & i1 & G & -> & T1 & K1). destruct F as (F0 & F1). do 2 eexists. split; [reflexivity|].
      destruct G as [(-> & ->)|G].
      * eapply next_0; [eapply match_do; [exact F1|exact T1|exact K1]|]. cbn [size cost]. lia.
      * eapply next_plus; [eapply match_do; [exact F1|exact T1|exact K1]|]. apply G.
    + destruct (trk_while _ _ _ _ _ _ _ _ _ _ _ _ _ F T K) as (top & body & b1 & i1 & G & C & -> & T1 & K1). destruct F as (F0 & F1).
      destruct (value_of late_ e m) as [[ev m'] v] eqn:V. do 2 eexists. split; [reflexivity|].
      assert (C' : cond e b i body b') by (destruct G as [(-> & ->)|G]; [auto|now apply ends_cond with top]).
      destruct (C' m t ev m' v V) as (t' & Q). destruct (truth L v); eapply next_plus; try exact Q.
      * eapply match_do; [exact F1|exact T1|exact K1].
      * now apply skip_at with brk cnt.
    + destruct (trk_for _ _ _ _ _ _ _ _ _ _ _ _ _ _ _ (conj Logic.I (proj2 F)) T K) as (b0 & i0 & top & body & b1 & i1 & con & IN & G & C & -> & T1 & K1).
      destruct init as [e|].
      * cbn [do_]. destruct (value_of late_ e m) as [[ev m'] v] eqn:V. do 2 eexists. split; [reflexivity|].
        destruct (IN m t ev m' v V) as (t' & Q). cbn [tr] in T. destruct T as (c0 & j0 & tp & bd & c2 & j2 & cn & X1 & X2 & X3 & X4 & X5 & X6 & _).
        destruct (X1 m t ev m' v V) as (t2 & Q2).
        eexists. eexists. split; [eapply for_at with (b := c0) (i := j0); [exact (conj Logic.I (proj2 F))|exact X3|exact X4|exact X5|exact X6|exact K|exact X2]|].
        split; [exact Q2|]. right. cbn [size]. lia.
      * destruct IN as (-> & ->). destruct F as (_ & F1 & F2 & F3). destruct cond0 as [e|]; cbn [cond_of].
        -- destruct (value_of late_ e m) as [[ev m'] v] eqn:V. do 2 eexists. split; [reflexivity|].
           assert (C' : cond e b i body b') by (destruct G as [(-> & ->)|G]; [auto|now apply ends_cond with top]).
           destruct (C' m t ev m' v V) as (t' & Q). destruct (truth L v); eapply next_plus; try exact Q.
           ++ eapply match_do; [exact F3|exact T1|exact K1].
           ++ now apply skip_at with brk cnt.
        -- do 2 eexists. split; [reflexivity|]. subst top. destruct G as [(-> & ->)|G].
           ++ eapply next_0; [eapply match_do; [exact F3|exact T1|exact K1]|]. cbn [size cost]. lia.
           ++ eapply next_plus; [eapply match_do; [exact F3|exact T1|exact K1]|]. apply G.
    + destruct F as (F0 & F1). destruct T as (body & b1 & i1 & c1 & d1 & T1 & E1 & W & -> & -> & ->).
      destruct (value_of late_ e m) as [[ev m'] v] eqn:V. destruct (W m t ev m' v V) as (t' & Q).
      assert (K1 : trk (Some b') cnt (Kswitch k) b1 i1) by (exists b', brk; auto).
      destruct (find_ok s (Kswitch k) v 0%Z _ _ _ _ _ _ _ _ F1 T1 K1) as (A1 & A2 & _).
      destruct A1 as [(-> & A1)|(n & (s' & k' & q1 & q2 & q3 & q4 & q5 & q6 & -> & R1 & R2 & R3) & A1)]; cbn [orelse]; rewrite A1 in Q.
      * destruct d1 as [d1|]; cbn [default_at] in A2.
        -- destruct A2 as (s' & k' & q1 & q2 & q3 & q4 & q5 & q6 & -> & R1 & R2 & R3). do 2 eexists. split; [reflexivity|].
           eapply next_plus; [|exact Q]. eapply match_do; eassumption.
        -- rewrite A2. do 2 eexists. split; [reflexivity|]. eapply next_plus; [|exact Q]. now apply skip_at with brk cnt.
      * do 2 eexists. split; [reflexivity|]. eapply next_plus; [|exact Q]. eapply match_do; eassumption.
    + destruct F as (F0 & F1). destruct T as (q & c1 & E1 & T & ->). do 2 eexists. split; [reflexivity|]. eapply next_plus; [|apply E1]. eapply match_do; eassumption.
    + destruct T as (q & d1 & E1 & T & ->). do 2 eexists. split; [reflexivity|]. eapply next_plus; [|apply E1]. eapply match_do; eassumption.
    + destruct T as (E1 & T). do 2 eexists. split; [reflexivity|]. eapply next_plus; [|apply E1]. eapply match_do; eassumption.
    + destruct T as (E1 & IN & -> & ->). rewrite lbls_ok in IN.
      destruct (find_ok (body f) Kstop (voidv L) l _ _ _ _ _ _ _ _ body_fine body_ok end_ok) as (_ & _ & A). unfold label_at in A.
      destruct (in_dec Z.eq_dec l (labels (body f))); [|tauto]. destruct A as (s' & k' & q1 & q2 & q3 & q4 & q5 & q6 & -> & R1 & R2 & R3).
      do 2 eexists. split; [reflexivity|]. eapply next_plus; [|apply E1]. eapply match_do; eassumption.
    + destruct T as ((n & -> & E1) & -> & ->). destruct k; cbn [trk] in K.
      * destruct K as (K & _). discriminate.
      * destruct K as (b1 & i1 & cs & df & F1 & T1 & K). do 2 eexists. split; [reflexivity|].
        eapply next_0; [eapply match_do with (brk := Some n); [exact Logic.I| |exact K]|]. { split; [exists n; auto|auto]. } cbn [size cost]. lia.
      * destruct K as (top & body & nxt & b1 & i1 & cs & df & brk' & cnt' & F1 & E0 & C & T1 & E2 & Q & -> & K). inversion Q; subst.
        do 2 eexists. split; [reflexivity|]. eapply next_plus; [|apply E1]. now apply skip_at with brk' cnt'.
      * destruct K as (top & body & nxt & b1 & i1 & cs & df & brk' & cnt' & F1 & E0 & T1 & E2 & C & Q & -> & K). inversion Q; subst.
        do 2 eexists. split; [reflexivity|]. eapply next_plus; [|apply E1]. now apply skip_at with brk' cnt'.
      * destruct K as (top & body & nxt & b2 & i2 & con & cs & df & brk' & cnt' & F1 & E0 & C & T1 & E2 & I & Q & -> & K). inversion Q; subst.
        do 2 eexists. split; [reflexivity|]. eapply next_plus; [|apply E1]. now apply skip_at with brk' cnt'.
      * destruct K as (nxt & brk' & E0 & Q & K). inversion Q; subst. do 2 eexists. split; [reflexivity|]. eapply next_plus; [|apply E1]. now apply skip_at with brk' cnt.
    + destruct T as ((n & -> & E1) & -> & ->). destruct k; cbn [trk] in K.
      * destruct K as (_ & K & _). discriminate.
      * destruct K as (b1 & i1 & cs & df & F1 & T1 & K). do 2 eexists. split; [reflexivity|].
        eapply next_0; [eapply match_do with (cnt := Some n); [exact Logic.I| |exact K]|]. { split; [exists n; auto|auto]. } cbn [size cost]. lia.
      * destruct K as (top & body & nxt & b1 & i1 & cs & df & brk' & cnt' & F1 & E0 & C & T1 & E2 & -> & Q & K). inversion Q; subst.
        do 2 eexists. split; [reflexivity|]. eapply next_plus; [|apply E1]. eapply match_while; eassumption.
      * destruct K as (top & body & nxt & b1 & i1 & cs & df & brk' & cnt' & F1 & E0 & T1 & E2 & C & -> & Q & K). inversion Q; subst.
        do 2 eexists. split; [reflexivity|]. eapply next_plus; [|apply E1]. eapply match_do_; eassumption.
      * destruct K as (top & body & nxt & b2 & i2 & con & cs & df & brk' & cnt' & F1 & E0 & C & T1 & E2 & I & -> & Q & K). inversion Q; subst.
        do 2 eexists. split; [reflexivity|]. eapply next_plus; [|apply E1]. eapply match_for; eassumption.
      * destruct K as (nxt & brk' & E0 & -> & K). do 2 eexists. split; [reflexivity|].
        eapply next_0; [eapply match_do with (brk := brk') (cnt := Some n); [exact Logic.I| |exact K]|]. { split; [exists n; auto|auto]. } cbn [size cost]. lia.
    + destruct e as [[ty e]|]; cbn [tr] in T; destruct T as (T & -> & ->).
      * destruct (value_of late_ e m) as [[ev m'] v] eqn:V. do 2 eexists. split; [reflexivity|]. eapply next_plus; [constructor|]. now apply T.
      * do 2 eexists. split; [reflexivity|]. eapply next_plus; [constructor|]. apply T.
  - cbn [step]. do 2 eexists. split; [reflexivity|]. eapply next_0; [eapply match_do; [exact F| |exact K]|].
    + cbn [tr]. exists top, body, b1, i1. split; [left; auto|]. eauto.
    + lia.
  - cbn [step]. destruct (value_of late_ e m) as [[ev m'] v] eqn:V. do 2 eexists. split; [reflexivity|]. destruct (C m t ev m' v V) as (t' & Q).
    destruct (truth L v); eapply next_plus; try exact Q; [|now apply skip_at with brk' cnt'].
    eapply match_do; [exact F| |exact K]. cbn [tr]. exists top, con, b1, i1. split; [left; auto|]. eauto.
  - cbn [step]. destruct (do_ late_ inc m) as [ev m'] eqn:V. destruct (inc_go inc con top m t ev m' I V) as (b3 & i3 & t' & Q & G).
    do 2 eexists. split; [reflexivity|]. eexists. eexists. split; [eapply for_at; eassumption|]. split; [exact Q|]. right. lia.
Unshelve. all: exact None.
Qed.

Lemma gsteps_split : forall n a t b m u c, gsteps g n a t b -> gsteps g (n + m) a u c -> exists w, u = t ++ w /\ gsteps g m b w c.
Proof.
  induction n; intros a t b m u c H K; inversion H; subst.
  - exists u. auto.
  - inversion K; subst. assert (ev0 = ev /\ s0 = s1) as (-> & ->) by (split; congruence).
    destruct (IHn _ _ _ _ _ _ H2 H4) as (w & -> & W). exists w. split; auto. now rewrite app_assoc.
Qed.
Lemma steps_match : forall n s tr s' k gs, steps late_ f n s tr s' -> match_ k s gs -> exists k' gs', match_ k' s' gs' /\ star g gs tr gs'.
Proof.
  intros n s tr s' k gs H. revert k gs. induction H; intros k gs M.
  - exists k, gs. split; auto. apply star_refl.
  - destruct s as [c kk m|v m]; [|discriminate]. destruct (sim k c kk m gs M) as (ev' & s' & E & n' & gs1 & M1 & R & _).
    assert (ev' = ev /\ s' = s1) as (-> & ->) by (split; congruence).
    destruct (IHsteps n' gs1 M1) as (k2 & gs2 & M2 & R2). exists k2, gs2. split; auto. apply (star_trans L g) with gs1 ev tr0; auto.
Qed.
Lemma gsteps_match : forall N k s gs tr gs', gsteps g N gs tr gs' -> match_ k s gs ->
  exists n tr2 s2, steps late_ f n s (tr ++ tr2) s2 /\ forall v m, gs' = End v m -> tr2 = [] /\ s2 = Ret v m.
Proof.
  induction N as [N IH] using lt_wf_ind. induction k as [k IHk] using lt_wf_ind. intros s gs tr gs' H M.
  destruct s as [c kk m|v m].
  - destruct (Nat.eq_dec N 0) as [->|NZ].
    { inversion H; subst. exists 0, [], (Do c kk m). split; [constructor|]. intros v m' ->. inversion M. }
    destruct (sim k c kk m gs M) as (ev & s' & E & n' & gs1 & M1 & R & PR).
    assert (exists J, gsteps g J gs ev gs1 /\ (0 < J \/ n' < k)) as (J & HJ & PJ).
    { destruct PR as [[J P]|P]; [exists (S J); split; [auto|lia]|]. destruct R as [J R]. exists J. auto. }
    destruct (le_lt_dec J N) as [LE|LT].
    + replace N with (J + (N - J)) in H by lia. destruct (gsteps_split _ _ _ _ _ _ _ HJ H) as (w & -> & W).
      assert (Q : exists n tr2 s2, steps late_ f n s' (w ++ tr2) s2 /\ forall v m, gs' = End v m -> tr2 = [] /\ s2 = Ret v m).
      { destruct (Nat.eq_dec J 0) as [->|]; [|apply IH with (N - J) n' gs1; auto; lia]. rewrite Nat.sub_0_r in W. apply IHk with n' gs1; auto. lia. }
      destruct Q as (n & tr2 & s2 & Q1 & Q2). exists (S n), tr2, s2. split; auto. rewrite <- app_assoc. now apply steps_S with s'.
    + replace J with (N + (J - N)) in HJ by lia. destruct (gsteps_split _ _ _ _ _ _ _ H HJ) as (w & -> & W).
      exists 1, w, s'. split. { rewrite <- (app_nil_r (tr ++ w)). apply steps_S with s'; auto. constructor. }
      intros v m' ->. destruct (J - N) as [|z] eqn:Z; [lia|]. inversion W. discriminate.
  - inversion M; subst. inversion H; subst; [|discriminate]. exists 0, [], (Ret v m). split; [constructor|]. intros v' m' Q. inversion Q; auto.
Qed.

Lemma start_match : forall m, match_ (size (body f) + cost Kstop) (start f m) (gstart m).
Proof. intros m. unfold start, gstart. eapply match_do; [exact body_fine|exact body_ok|exact end_ok]. Qed.

Theorem graph_ok : forall m,
  (forall ev v m', (exists n, steps late_ f n (start f m) ev (Ret v m')) <-> (exists n, gsteps g n (gstart m) ev (End v m'))) /\
  (forall n ev gs, gsteps g n (gstart m) ev gs -> exists k ev2 s, steps late_ f k (start f m) (ev ++ ev2) s) /\
  (forall k ev s, steps late_ f k (start f m) ev s ->
     (step late_ f s = None -> exists v m', s = Ret v m') /\ exists n gs, gsteps g n (gstart m) ev gs).
Proof.
  intros m. split; [|split].
  - intros ev v m'. split.
    + intros (n & H). destruct (steps_match _ _ _ _ _ _ H (start_match m)) as (k & gs & M & R). inversion M; subst. exact R.
    + intros (n & H). destruct (gsteps_match _ _ _ _ _ _ H (start_match m)) as (k & tr2 & s2 & S1 & Q). destruct (Q v m' eq_refl) as (-> & ->).
      rewrite app_nil_r in S1. now exists k.
  - intros n ev gs H. destruct (gsteps_match _ _ _ _ _ _ H (start_match m)) as (k & tr2 & s2 & S1 & _). now exists k, tr2, s2.
  - intros k ev s H. destruct (steps_match _ _ _ _ _ _ H (start_match m)) as (k' & gs & M & n & R). split; [|now exists n, gs].
    intros E. destruct s as [c kk mm|v mm]; [|eauto]. destruct (sim _ _ _ _ _ M) as (ev' & s' & E' & _). congruence.
Qed.
End Stmt.
Arguments plus {L}. Arguments ends {L}. Arguments go {L}. Arguments exs {L}. Arguments cond {L}. Arguments target {L}. Arguments tr {L}. Arguments trk {L}.
