(* Building the graph: no assertion fails, and only the current block and new ones change. *)
From Coq Require Import ZArith List Bool Arith Lia.
From Verif Require Import CfgSyntax CfgModel CfgSpec.
Import ListNotations.

Lemma id_eqb_spec : forall a b, reflect (a = b) (id_eqb a b).
Proof.
  intros [n|x] [m|y]; simpl; try (constructor; congruence).
  - destruct (Nat.eqb_spec n m); constructor; congruence.
  - destruct (Z.eqb_spec x y); constructor; congruence.
Qed.
Lemma id_eqb_refl : forall a, id_eqb a a = true.
Proof. intros a. destruct (id_eqb_spec a a); congruence. Qed.

Section Frames.
Variable L : lang.
Local Notation state := (st L).

Definition old (s : state) (b : id) : Prop := match b with B n => n < next s | Lb _ => True end.
Definition canapp (s : state) (b : id) : Prop :=
  code (blocks s b) = [] \/ head (blocks s b) + length (code (blocks s b)) = len s.
Definition isopen (s : state) (b : id) : Prop :=
  jump0 (blocks s b) = None /\ jump1 (blocks s b) = None /\ retv (blocks s b) = None.
Definition grows (s s' : state) : Prop := next s <= next s' /\ tmp s <= tmp s'.
Definition same_sw (s s' : state) : Prop := defs s' = defs s /\ cases s' = cases s /\ dflt s' = dflt s.
(* only the blocks X and new ones have changed *)
Definition chg (s : state) (X : list id) (s' : state) : Prop :=
  (forall c, old s c -> ~ In c X -> blocks s' c = blocks s c)
  /\ (forall c, old s c -> exists l, code (blocks s' c) = code (blocks s c) ++ l).
Definition tgt (s : state) (b : id) (s' : state) (b' : id) : Prop := b' = b \/ exists n, b' = B n /\ next s <= n < next s'.

Definition good (s : state) (b : id) (s' : state) (b' : id) : Prop :=
  grows s s' /\ same_sw s s' /\ chg s [b] s' /\ tgt s b s' b' /\ canapp s' b' /\ (isopen s b -> isopen s' b')
  /\ (old s b -> b' = b -> len s' + length (code (blocks s b)) = len s + length (code (blocks s' b))).

Lemma modb_same : forall b f (s : state), blocks (modb b f s) b = f (blocks s b).
Proof. intros. unfold modb. simpl. now rewrite id_eqb_refl. Qed.
Lemma modb_other : forall b c f (s : state), c <> b -> blocks (modb b f s) c = blocks s c.
Proof. intros b c f s H. unfold modb. simpl. destruct (id_eqb_spec c b); congruence. Qed.
Lemma old_neq : forall (s : state) b n, old s b -> next s <= n -> b <> B n.
Proof. intros s b n H H1 ->. simpl in H. lia. Qed.
Lemma old_grows : forall s s' b, old s b -> grows s s' -> old s' b.
Proof. intros s s' [n|l] H [H1 H2]; simpl in *; lia. Qed.

Lemma grows_refl : forall s, grows s s.
Proof. split; lia. Qed.
Lemma grows_trans : forall a b c, grows a b -> grows b c -> grows a c.
Proof. intros a b c [] []. split; lia. Qed.
Lemma same_refl : forall s, same_sw s s.
Proof. repeat split. Qed.
Lemma same_trans : forall a b c, same_sw a b -> same_sw b c -> same_sw a c.
Proof. intros a b c (A & B & C) (D & E & F). repeat split; congruence. Qed.
Lemma chg_refl : forall s X, chg s X s.
Proof. split; [auto|]. intros c _. exists []. now rewrite app_nil_r. Qed.
Lemma chg_trans : forall a X b Y c, grows a b -> chg a X b -> chg b Y c -> (forall y, In y Y -> old a y -> In y X) -> chg a X c.
Proof.
  intros a X b Y c G [H1 H2] [H3 H4] S. split.
  - intros d O N. rewrite H3; [now apply H1|now apply old_grows with a|]. intros I. apply N. now apply S.
  - intros d O. destruct (H2 d O) as [l E]. destruct (H4 d) as [l' E']; [now apply old_grows with a|].
    exists (l ++ l'). now rewrite E', E, app_assoc.
Qed.
Lemma chg_mod : forall a X b (c : id) f, chg a X b -> (old a c -> In c X) -> (forall k, exists l, code (f k) = code k ++ l) -> chg a X (modb c f b).
Proof.
  intros a X b c f [H1 H2] I F. split.
  - intros d O N. rewrite modb_other; [now apply H1|]. intros ->. auto.
  - intros d O. destruct (id_eqb_spec d c) as [->|N].
    + rewrite modb_same. destruct (H2 c O) as [l E]. destruct (F (blocks b c)) as [l' E']. exists (l ++ l'). now rewrite E', E, app_assoc.
    + rewrite modb_other; auto.
Qed.

Lemma next_new : forall s : state, next (new_ s) = S (next s).
Proof. reflexivity. Qed.
Lemma new_same : forall s : state, blocks (new_ s) (B (next s)) = empty_blk.
Proof. intros s. unfold new_. now rewrite modb_same. Qed.
Lemma new_other : forall (s : state) c, c <> B (next s) -> blocks (new_ s) c = blocks s c.
Proof. intros s c N. unfold new_. rewrite modb_other; auto. Qed.
Lemma chg_new : forall a X b, grows a b -> chg a X b -> chg a X (new_ b).
Proof.
  intros a X b [G G'] [H1 H2]. split; intros c O.
  - intros N. rewrite new_other; auto. apply old_neq with a; auto.
  - rewrite new_other; auto. apply old_neq with a; auto.
Qed.
Lemma keep_code : forall e j0 j1 r (k : blk L), exists l, code (Blk (head k) (code k) e j0 j1 r) = code k ++ l.
Proof. intros. exists []. simpl. now rewrite app_nil_r. Qed.
Lemma chg_setj0 : forall a X b c j, chg a X b -> (old a c -> In c X) -> chg a X (setj0 c j b).
Proof. intros. apply chg_mod; auto. intros. apply keep_code. Qed.
Lemma chg_setj1 : forall a X b c j, chg a X b -> (old a c -> In c X) -> chg a X (setj1 c j b).
Proof. intros. apply chg_mod; auto. intros. apply keep_code. Qed.
Lemma chg_sete : forall a X b c j, chg a X b -> (old a c -> In c X) -> chg a X (sete c j b).
Proof. intros. apply chg_mod; auto. intros. apply keep_code. Qed.
Lemma chg_setret : forall a X b c j, chg a X b -> (old a c -> In c X) -> chg a X (setret c j b).
Proof. intros. apply chg_mod; auto. intros. apply keep_code. Qed.
Lemma chg_setlen : forall a X b n, chg a X b -> chg a X (setlen n b).
Proof. intros. exact H. Qed.
Lemma chg_settmp : forall a X b n, chg a X b -> chg a X (settmp n b).
Proof. intros. exact H. Qed.

(* the statement is added *)
Lemma append_ok : forall b i (s : state), canapp s b -> old s b ->
  exists s', append b i s = Some s' /\ good s b s' b /\ code (blocks s' b) = code (blocks s b) ++ [i]
    /\ bexpr (blocks s' b) = bexpr (blocks s b) /\ jump0 (blocks s' b) = jump0 (blocks s b)
    /\ jump1 (blocks s' b) = jump1 (blocks s b) /\ retv (blocks s' b) = retv (blocks s b) /\ next s' = next s /\ tmp s' = tmp s
    /\ forall c, c <> b -> blocks s' c = blocks s c.
Proof.
  intros b i s H O. unfold append.
  destruct (code (blocks s b)) as [|x l] eqn:E.
  - eexists. split; [reflexivity|].
    assert (F : chg s [b] (setlen (S (len s)) (modb b (fun k => Blk (len s) [i] (bexpr k) (jump0 k) (jump1 k) (retv k)) s))).
    { split; intros c Oc.
      - intros N. cbn [blocks setlen]. apply modb_other. intros ->. apply N. now left.
      - cbn [blocks setlen]. destruct (id_eqb_spec c b) as [->|N].
        + rewrite modb_same. exists [i]. simpl. now rewrite E.
        + rewrite modb_other by auto. exists []. now rewrite app_nil_r. }
    split.
    + split; [split; cbn; lia|]. split; [repeat split|]. split; [exact F|]. split; [now left|]. split; [|split].
      * right. cbn [blocks len setlen]. rewrite modb_same. simpl. lia.
      * intros (I1 & I2 & I3). unfold isopen. cbn [blocks setlen]. rewrite modb_same. auto.
      * intros _ _. cbn [blocks len setlen]. rewrite modb_same, E. simpl. lia.
    + cbn [blocks setlen]. rewrite modb_same. simpl. repeat split. intros c N. cbn. now destruct (id_eqb_spec c b).
  - destruct H as [H|H]; [congruence|]. rewrite E in H. rewrite H, Nat.eqb_refl. eexists. split; [reflexivity|].
    split.
    + split; [split; cbn; lia|]. split; [repeat split|]. split; [|split; [now left|]; split; [|split]].
      * apply chg_setlen, chg_mod; [apply chg_refl|intros _; now left|]. intros k. now exists [i].
      * right. cbn [blocks len setlen]. rewrite modb_same. cbn [head code]. rewrite E, app_length. simpl. simpl in H. lia.
      * intros (I1 & I2 & I3). unfold isopen. cbn [blocks setlen]. rewrite modb_same. auto.
      * intros _ _. cbn [blocks len setlen]. rewrite modb_same. cbn [code]. rewrite app_length. simpl. lia.
    + cbn [blocks setlen]. rewrite modb_same. cbn [code bexpr jump0 jump1 retv]. rewrite E. repeat split. intros c N. cbn. now destruct (id_eqb_spec c b).
Qed.

Lemma good_refl : forall s b, canapp s b -> good s b s b.
Proof. intros s b H. split; [apply grows_refl|]. split; [apply same_refl|]. split; [apply chg_refl|]. split; [now left|auto]. Qed.
Lemma good_trans : forall a b c x y z, good a x b y -> good b y c z -> good a x c z.
Proof.
  intros a b c x y z (G1 & S1 & C1 & T1 & A1 & O1 & N1) (G2 & S2 & C2 & T2 & A2 & O2 & N2).
  split; [now apply grows_trans with b|]. split; [now apply same_trans with b|]. split; [|split; [|split; [|split]]]; auto.
  - apply chg_trans with b [y]; auto. intros w [<-|[]] O. destruct T1 as [->|(n & -> & H)]; [now left|]. simpl in O. lia.
  - destruct G1 as [Ga Gb], G2 as [Gc Gd]. destruct T2 as [->|(n & -> & H)].
    + destruct T1 as [->|(n & -> & H)]; [now left|]. right. exists n. split; auto; lia.
    + right. exists n. split; auto; lia.
  - intros O E. assert (Y : y = x).
    { destruct T2 as [->|(n & -> & H)]; auto. subst x. destruct G1 as [G1 _]. simpl in O. lia. }
    subst. specialize (N1 O eq_refl). assert (Ob : old b x) by now apply old_grows with a. specialize (N2 Ob eq_refl). lia.
Qed.
Lemma tgt_old : forall s b s' b', old s b -> grows s s' -> tgt s b s' b' -> old s' b'.
Proof. intros s b s' b' O G [->|(n & -> & H)]; [now apply old_grows with s|]. simpl. lia. Qed.
Lemma good_old : forall s b s' b', old s b -> good s b s' b' -> old s' b'.
Proof. intros s b s' b' O (G & _ & _ & T & _). now apply tgt_old with s b. Qed.

Lemma append_tmp_ok : forall b i n (s : state), canapp s b -> old s b -> tmp s <= n ->
  exists s', append b i (settmp n s) = Some s' /\ good s b s' b /\ code (blocks s' b) = code (blocks s b) ++ [i]
    /\ bexpr (blocks s' b) = bexpr (blocks s b) /\ jump0 (blocks s' b) = jump0 (blocks s b)
    /\ jump1 (blocks s' b) = jump1 (blocks s b) /\ retv (blocks s' b) = retv (blocks s b) /\ next s' = next s /\ tmp s' = n
    /\ forall c, c <> b -> blocks s' c = blocks s c.
Proof.
  intros b i n s A O H. destruct (append_ok b i (settmp n s) A O) as (s' & E & G & R). exists s'. split; [exact E|]. split; [|exact R].
  destruct G as ((G1 & G2) & S & C & T' & A' & I & N).
  split; [split; cbn in *; lia|]. split; [exact S|]. split; [exact C|]. split; [exact T'|]. split; [exact A'|]. split; [exact I|exact N].
Qed.
Lemma eval_ok : forall b r (s : state), canapp s b -> old s b ->
  exists d s', eval_ b r s = Some (d, s') /\ good s b s' b /\ next s' = next s.
Proof.
  intros b r s A O.
  assert (X : forall i, exists s', append b i (settmp (S (tmp s)) s) = Some s' /\ good s b s' b /\ next s' = next s).
  { intros i. destruct (append_tmp_ok b i (S (tmp s)) s A O) as (s' & E & G & _ & _ & _ & _ & _ & N & _); [lia|]. now exists s'. }
  assert (Y : forall i, exists s', append b i s = Some s' /\ good s b s' b /\ next s' = next s).
  { intros i. destruct (append_ok b i s A O) as (s' & E & G & _ & _ & _ & _ & _ & N & _). now exists s'. }
  destruct r as [d|o x y|c x y|t x|[|] f]; cbn [eval_].
  - exists d, s. split; [reflexivity|]. split; [now apply good_refl|reflexivity].
  - destruct (X (ITemp (tmp s) None (RBin o x y))) as (s' & -> & G). now exists (DTmp (tmp s)), s'.
  - destruct (X (ITemp (tmp s) None (RRel c x y))) as (s' & -> & G). now exists (DTmp (tmp s)), s'.
  - destruct (X (ITemp (tmp s) None (RCast t x))) as (s' & -> & G). now exists (DTmp (tmp s)), s'.
  - destruct (Y (IExpr (RCall true f))) as (s' & -> & G). now exists (DImm (voidv L)), s'.
  - destruct (X (ITemp (tmp s) None (RCall false f))) as (s' & -> & G). now exists (DTmp (tmp s)), s'.
Qed.

Lemma params_ok : forall b l (s : state), canapp s b -> old s b ->
  exists s', params b l s = Some s' /\ good s b s' b /\ code (blocks s' b) = code (blocks s b) ++ map (fun d => IParam d) l /\ tmp s' = tmp s /\ next s' = next s.
Proof.
  intros b l. induction l as [|d l IH]; intros s A O; cbn [params].
  - exists s. split; [reflexivity|]. split; [now apply good_refl|]. now rewrite app_nil_r.
  - destruct (append_ok b (IParam d) s A O) as (s1 & -> & G & C & _ & _ & _ & _ & N & T & _).
    destruct (IH s1) as (s2 & -> & G2 & C2 & T2 & N2); [apply G|now apply good_old with s b|].
    exists s2. split; [reflexivity|]. split; [now apply good_trans with s1 b|]. split; [|split; congruence]. rewrite C2, C, <- app_assoc. reflexivity.
Qed.

(* A block apart from b: it is new *)
Lemma canapp_new : forall s : state, canapp (new_ s) (B (next s)).
Proof. intros s. left. now rewrite new_same. Qed.
Lemma open_new : forall s : state, isopen (new_ s) (B (next s)).
Proof. intros s. unfold isopen. now rewrite new_same. Qed.
Lemma old_new : forall s : state, old (new_ s) (B (next s)).
Proof. intros s. simpl. lia. Qed.
Lemma old_new' : forall (s : state) b, old s b -> old (new_ s) b.
Proof. intros s [n|l]; simpl; auto. Qed.
Lemma grows_new : forall s : state, grows s (new_ s).
Proof. split; simpl; lia. Qed.
Lemma same_new : forall s : state, same_sw s (new_ s).
Proof. repeat split. Qed.
Lemma chg_new1 : forall (s : state) X, chg s X (new_ s).
Proof. intros. apply chg_new; [apply grows_refl|apply chg_refl]. Qed.

(* lowering in a new block *)
Lemma good_apart : forall s b s' b', good (new_ s) (B (next s)) s' b' -> b = B (next s) ->
  grows s s' /\ same_sw s s' /\ chg s [] s' /\ (exists n, b' = B n /\ next s <= n < next s') /\ canapp s' b' /\ isopen s' b'.
Proof.
  intros s b s' b' (G & S & C & T & A & I & _) ->.
  split; [apply grows_trans with (new_ s); [apply grows_new|auto]|].
  split; [apply same_trans with (new_ s); [apply same_new|auto]|].
  split; [|split; [|split; [auto|apply I, open_new]]].
  - apply chg_trans with (new_ s) [B (next s)]; [apply grows_new|apply chg_new1|exact C|].
    intros y [<-|[]] O. simpl in O. lia.
  - destruct G as [G _]. simpl in G. destruct T as [->|(n & -> & H)].
    + exists (next s). split; [auto|lia].
    + exists n. split; [auto|]. simpl in H. lia.
Qed.

Lemma canapp_chg : forall (s s' : state) X b, chg s X s' -> old s b -> ~ In b X -> len s' = len s -> canapp s b -> canapp s' b.
Proof. intros s s' X b [C _] O N E H. unfold canapp. rewrite (C b O N), E. exact H. Qed.
Lemma open_chg : forall (s s' : state) X b, chg s X s' -> old s b -> ~ In b X -> isopen s b -> isopen s' b.
Proof. intros s s' X b [C _] O N H. unfold isopen. now rewrite (C b O N). Qed.

Lemma next_modb : forall b f (s : state), next (modb b f s) = next s. Proof. reflexivity. Qed.
Lemma next_setj0 : forall b j (s : state), next (setj0 b j s) = next s. Proof. reflexivity. Qed.
Lemma next_setj1 : forall b j (s : state), next (setj1 b j s) = next s. Proof. reflexivity. Qed.
Lemma next_sete : forall b j (s : state), next (sete b j s) = next s. Proof. reflexivity. Qed.
Lemma next_settmp : forall n (s : state), next (settmp n s) = next s. Proof. reflexivity. Qed.
Lemma next_setlen : forall n (s : state), next (setlen n s) = next s. Proof. reflexivity. Qed.

Lemma blocks_setj0_same : forall b j (s : state), blocks (setj0 b j s) b = let k := blocks s b in Blk (head k) (code k) (bexpr k) j (jump1 k) (retv k).
Proof. intros. unfold setj0. now rewrite modb_same. Qed.
Lemma blocks_setj1_same : forall b j (s : state), blocks (setj1 b j s) b = let k := blocks s b in Blk (head k) (code k) (bexpr k) (jump0 k) j (retv k).
Proof. intros. unfold setj1. now rewrite modb_same. Qed.
Lemma blocks_sete_same : forall b j (s : state), blocks (sete b j s) b = let k := blocks s b in Blk (head k) (code k) j (jump0 k) (jump1 k) (retv k).
Proof. intros. unfold sete. now rewrite modb_same. Qed.
Lemma blocks_setret_same : forall b j (s : state), blocks (setret b j s) b = let k := blocks s b in Blk (head k) (code k) (bexpr k) (jump0 k) (jump1 k) (Some j).
Proof. intros. unfold setret. now rewrite modb_same. Qed.
Lemma blocks_setj0_other : forall b j (s : state) c, c <> b -> blocks (setj0 b j s) c = blocks s c.
Proof. intros. unfold setj0. now rewrite modb_other. Qed.
Lemma blocks_setj1_other : forall b j (s : state) c, c <> b -> blocks (setj1 b j s) c = blocks s c.
Proof. intros. unfold setj1. now rewrite modb_other. Qed.
Lemma blocks_sete_other : forall b j (s : state) c, c <> b -> blocks (sete b j s) c = blocks s c.
Proof. intros. unfold sete. now rewrite modb_other. Qed.
Lemma blocks_setret_other : forall b j (s : state) c, c <> b -> blocks (setret b j s) c = blocks s c.
Proof. intros. unfold setret. now rewrite modb_other. Qed.
Lemma blocks_settmp : forall n (s : state), blocks (settmp n s) = blocks s. Proof. reflexivity. Qed.
Lemma blocks_setlen : forall n (s : state), blocks (setlen n s) = blocks s. Proof. reflexivity. Qed.
End Frames.
Arguments old {L}. Arguments canapp {L}. Arguments isopen {L}. Arguments grows {L}. Arguments same_sw {L}. Arguments chg {L}. Arguments tgt {L}. Arguments good {L}.

Ltac norm_next := repeat rewrite ?next_modb, ?next_setj0, ?next_setj1, ?next_sete, ?next_settmp, ?next_setlen, ?next_new in *.
Ltac nq := norm_next; first [ assumption | apply not_eq_sym; assumption
  | eapply old_neq; [eassumption|lia] | apply not_eq_sym; eapply old_neq; [eassumption|lia]
  | let E := fresh in intros E; injection E; lia | congruence ].
Ltac gt := repeat first
  [ rewrite blocks_settmp | rewrite blocks_setlen
  | rewrite blocks_setj0_same | rewrite blocks_setj1_same | rewrite blocks_sete_same | rewrite blocks_setret_same | rewrite new_same
  | rewrite blocks_setj0_other by nq | rewrite blocks_setj1_other by nq | rewrite blocks_sete_other by nq
  | rewrite blocks_setret_other by nq | rewrite new_other by nq ].

Section Lower.
Variable L : lang.
Local Notation state := (st L).

Lemma join_ok : forall or_ l r rt r2 top (s : state), old s l -> old s rt -> l <> rt ->
  let t := B (next s) in let f := B (S (next s)) in let b := B (S (S (next s))) in
  exists s', join_ or_ l r rt r2 top s = Some (b, RId (DTmp (tmp s)), s')
    /\ next s' = S (S (S (next s))) /\ tmp s' = S (tmp s) /\ same_sw s s' /\ chg s [l; rt] s'
    /\ canapp s' b /\ isopen s' b
    /\ blocks s' l = Blk (head (blocks s l)) (code (blocks s l)) r (Some (if or_ then top else f)) (Some (if or_ then t else top)) (retv (blocks s l))
    /\ blocks s' rt = Blk (head (blocks s rt)) (code (blocks s rt)) r2 (Some f) (Some t) (retv (blocks s rt))
    /\ (code (blocks s' t) = [ITemp (tmp s) None (RId one)] /\ jump0 (blocks s' t) = Some b /\ jump1 (blocks s' t) = None)
    /\ (code (blocks s' f) = [ITemp (tmp s) None (RId zero)] /\ jump0 (blocks s' f) = Some b /\ jump1 (blocks s' f) = None)
    /\ (code (blocks s' b) = []).
Proof.
  intros or_ l r rt r2 top s Ol Or N t f b. unfold join_. rewrite !next_new. fold t. fold f. fold b.
  set (s0 := new_ (new_ (new_ s))).
  set (s1 := if or_ then _ else _).
  set (s2 := setj0 f (Some b) _).
  assert (Nl : next s2 = S (S (S (next s)))) by (unfold s2, s1, s0; now destruct or_).
  assert (Tl : tmp s2 = tmp s) by (unfold s2, s1, s0; now destruct or_).
  assert (B0 : forall c, old s c -> blocks s0 c = blocks s c) by (intros c Oc; unfold s0; gt; reflexivity).
  assert (Bn : blocks s0 t = empty_blk /\ blocks s0 f = empty_blk /\ blocks s0 b = empty_blk).
  { unfold s0, t, f, b. change (B (S (next s))) with (B (next (new_ s))). change (B (S (S (next s)))) with (B (next (new_ (new_ s)))).
    repeat split; gt; reflexivity. }
  destruct Bn as (Bt & Bf & Bb).
  assert (D : l <> t /\ l <> f /\ l <> b /\ rt <> t /\ rt <> f /\ rt <> b /\ t <> f /\ t <> b /\ f <> b)
    by (unfold t, f, b; repeat split; nq).
  destruct D as (D1 & D2 & D3 & D4 & D5 & D6 & D7 & D8 & D9).
  assert (El : blocks s2 l = Blk (head (blocks s l)) (code (blocks s l)) r (Some (if or_ then top else f)) (Some (if or_ then t else top)) (retv (blocks s l)))
    by (unfold s2, s1; destruct or_; gt; rewrite B0 by auto; reflexivity).
  assert (Er : blocks s2 rt = Blk (head (blocks s rt)) (code (blocks s rt)) r2 (Some f) (Some t) (retv (blocks s rt)))
    by (unfold s2, s1; destruct or_; gt; rewrite B0 by auto; reflexivity).
  assert (Et : blocks s2 t = Blk 0 [] (RId (DImm (voidv L))) (Some b) None None)
    by (unfold s2, s1; destruct or_; gt; rewrite Bt; reflexivity).
  assert (Ef : blocks s2 f = Blk 0 [] (RId (DImm (voidv L))) (Some b) None None)
    by (unfold s2, s1; destruct or_; gt; rewrite Bf; reflexivity).
  assert (Eb : blocks s2 b = empty_blk)
    by (unfold s2, s1; destruct or_; gt; rewrite Bb; reflexivity).
  assert (C2 : chg s [l; rt] s2).
  { assert (C0 : chg s [l; rt] s0) by (unfold s0; repeat (apply chg_new; [repeat split; simpl; lia|]); apply chg_refl).
    assert (Ot : forall X : Prop, old s t -> X) by (simpl; intros; lia).
    assert (Of : forall X : Prop, old s f -> X) by (simpl; intros; lia).
    unfold s2. apply chg_setj0; [apply chg_setj0; [|intros; now apply Ot]|intros; now apply Of].
    apply chg_setj1; [apply chg_setj0; [apply chg_sete|]|]; try (intros _; simpl; now auto).
    unfold s1. destruct or_; (apply chg_setj1; [apply chg_setj0; [apply chg_sete; [exact C0|]|]|]); intros _; simpl; auto. }
  assert (S2 : same_sw s s2) by (unfold s2, s1, s0; destruct or_; repeat split).
  assert (G2 : grows s s2) by (split; lia).
  clearbody s2. clear s1 s0 B0 Bt Bf Bb.
  destruct (append_tmp_ok L t (ITemp (tmp s2) None (RId one)) (S (tmp s2)) s2) as (s3 & -> & G3 & C3 & _ & J3 & K3 & _ & N3 & T3 & F3).
  { left. now rewrite Et. } { simpl. lia. } { lia. }
  cbn [bind].
  destruct (append_ok L f (ITemp (tmp s2) None (RId zero)) s3) as (s4 & -> & G4 & C4 & _ & J4 & K4 & _ & N4 & T4 & F4).
  { left. rewrite F3 by auto. now rewrite Ef. } { simpl. lia. }
  cbn [bind]. rewrite Tl. exists s4. split; [reflexivity|]. split; [lia|]. split; [lia|].
  split; [|split; [|split; [|split]]].
  - eapply same_trans; [exact S2|]. eapply same_trans; [apply G3|apply G4].
  - apply chg_trans with s3 [f]; [eapply grows_trans; [exact G2|apply G3]| |apply G4|].
    + apply chg_trans with s2 [t]; [exact G2|exact C2|apply G3|]. intros y [<-|[]] O. simpl in O. lia.
    + intros y [<-|[]] O. simpl in O. lia.
  - left. rewrite F4, F3, Eb by auto. reflexivity.
  - unfold isopen. rewrite F4, F3, Eb by auto. auto.
  - rewrite (F4 l), (F3 l), El by auto. rewrite (F4 rt), (F3 rt), Er by auto. rewrite (F4 t) by auto.
    rewrite C3, J3, K3, Et. rewrite C4, J4, K4, (F3 f), Ef by auto. rewrite (F4 b), (F3 b), Eb by auto. rewrite Tl.
    repeat split.
Qed.
End Lower.
