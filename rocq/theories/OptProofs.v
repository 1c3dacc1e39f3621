(* The passes of the optimizer, one by one: what each does to a function does not change what it does. *)
From Coq Require Import List ZArith Bool Lia Arith.
From Verif Require Import Util Bytes OptModel OptSpec OptLive.
Import ListNotations.
Open Scope Z_scope.

(* --- lists --- *)
Lemma list_ext {A} (l l' : list A) : (forall i, nth_error l i = nth_error l' i) -> l = l'.
Proof.
  revert l'. induction l as [|x l IH]; intros [|y l'] H; [reflexivity|specialize (H O); discriminate|specialize (H O); discriminate|].
  pose proof (H O) as H0. cbn in H0. injection H0 as ->. f_equal. apply IH. intros i. exact (H (S i)).
Qed.
Lemma nth_firstn {A} (l : list A) n i : nth_error (firstn n l) i = if (i <? n)%nat then nth_error l i else None.
Proof.
  revert l i. induction n as [|n IH]; intros l i; [destruct i; reflexivity|]. destruct l as [|x l]; [destruct i as [|i]; cbn [firstn nth_error]; [reflexivity|destruct (S i <? S n)%nat; reflexivity]|].
  destruct i as [|i]; [reflexivity|]. cbn [firstn nth_error]. rewrite IH. reflexivity.
Qed.
Lemma nth_skipn {A} (l : list A) n i : nth_error (skipn n l) i = nth_error l (n + i).
Proof. revert l. induction n as [|n IH]; intros l; [reflexivity|]. destruct l as [|x l]; [destruct i; reflexivity|]. exact (IH l). Qed.
Lemma nth_body d b i : nth_error (body d b) i = if (i <? b_count b)%nat then nth_error (d_stmts d) (b_head b + i) else None.
Proof. unfold body. rewrite nth_firstn, nth_skipn. reflexivity. Qed.
Lemma nth_erase {A} (l : list A) k i : (k < length l)%nat -> nth_error (erase l k) i = if (i <? k)%nat then nth_error l i else nth_error l (S i).
Proof.
  intros Hk. unfold erase. destruct (i <? k)%nat eqn:E.
  - apply Nat.ltb_lt in E. rewrite nth_error_app1 by (rewrite firstn_length; lia). rewrite nth_firstn. apply Nat.ltb_lt in E. rewrite E. reflexivity.
  - apply Nat.ltb_ge in E. rewrite nth_error_app2 by (rewrite firstn_length; lia). rewrite nth_skipn, firstn_length. f_equal. lia.
Qed.
Lemma nth_splice (l m : list stmt) k i : (k + length m <= length l)%nat ->
  nth_error (splice l k m) i = if (i <? k)%nat then nth_error l i else if (i <? k + length m)%nat then nth_error m (i - k) else nth_error l i.
Proof.
  intros Hk. unfold splice. destruct (i <? k)%nat eqn:E.
  - pose proof E as E'. apply Nat.ltb_lt in E. rewrite nth_error_app1 by (rewrite firstn_length; lia). rewrite nth_firstn, E'. reflexivity.
  - apply Nat.ltb_ge in E. rewrite nth_error_app2 by (rewrite firstn_length; lia). rewrite firstn_length.
    replace (i - Nat.min k (length l))%nat with (i - k)%nat by lia. destruct (i <? k + length m)%nat eqn:E2.
    + apply Nat.ltb_lt in E2. rewrite nth_error_app1 by lia. reflexivity.
    + apply Nat.ltb_ge in E2. rewrite nth_error_app2 by lia. rewrite nth_skipn. f_equal. lia.
Qed.
Lemma length_erase {A} (l : list A) k : (k < length l)%nat -> length (erase l k) = (length l - 1)%nat.
Proof. intros H. unfold erase. rewrite app_length, firstn_length, skipn_length. lia. Qed.
Lemma length_splice l k m : (k + length m <= length l)%nat -> length (splice l k m) = length l.
Proof. intros H. unfold splice. rewrite !app_length, firstn_length, skipn_length. lia. Qed.
Lemma split_at {A} (l : list A) i x : nth_error l i = Some x -> exists pre post, l = pre ++ x :: post /\ length pre = i.
Proof. apply nth_error_split. Qed.
Lemma erase_app {A} (pre : list A) x post : erase (pre ++ x :: post) (length pre) = pre ++ post.
Proof.
  unfold erase. rewrite firstn_app, firstn_all, Nat.sub_diag. cbn [firstn]. rewrite app_nil_r. f_equal.
  rewrite skipn_app, skipn_all2 by lia. replace (S (length pre) - length pre)%nat with 1%nat by lia. reflexivity.
Qed.
Lemma upd_app {A} (pre : list A) x y post : upd (pre ++ x :: post) (length pre) y = pre ++ y :: post.
Proof. rewrite upd_app_r by lia. rewrite Nat.sub_diag. reflexivity. Qed.

(* --- code --- *)
Definition strip (s : stmt) : stmt := with_out s 0.
Record meta (b b' : block) : Prop := mkMeta { me_expr : b_expr b = b_expr b'; me_j0 : b_jump0 b = b_jump0 b'; me_j1 : b_jump1 b = b_jump1 b'; me_ret : b_ret b = b_ret b' }.
Lemma meta_refl b : meta b b. Proof. constructor; reflexivity. Qed.
Lemma meta_trans a b c : meta a b -> meta b c -> meta a c. Proof. intros [] []. constructor; congruence. Qed.
Lemma meta_sym a b : meta a b -> meta b a. Proof. intros []. constructor; congruence. Qed.

Definition closed (d : def) (bl : list nat) : Prop :=
  forall n b, In n bl -> nth_error (d_nodes d) n = Some b ->
  (forall x, b_jump0 b = Some x -> In x bl) /\ (forall x y, b_jump0 b = Some x -> b_jump1 b = Some y -> In y bl).
Definition ins (d : def) (n : nat) : Z := match nth_error (d_nodes d) n with Some b => b_in b | None => 0 end.

(* the list of statements l of node n is now l'; nothing else has changed *)
Record patch (d d' : def) (n : nat) (l l' : list stmt) : Prop := mkPatch {
  pa_body : d_body d = d_body d';
  pa_node : exists b b', nth_error (d_nodes d) n = Some b /\ nth_error (d_nodes d') n = Some b' /\ meta b b' /\ b_in b = b_in b' /\ body d b = l /\ body d' b' = l';
  pa_other : forall j, j <> n -> match nth_error (d_nodes d) j with
    | Some b => exists b', nth_error (d_nodes d') j = Some b' /\ meta b b' /\ b_in b = b_in b' /\ body d b = body d' b'
    | None => nth_error (d_nodes d') j = None end;
  pa_separate : separate d' }.
Lemma patch_trans d d1 d2 n l l1 l2 : patch d d1 n l l1 -> patch d1 d2 n l1 l2 -> patch d d2 n l l2.
Proof.
  intros [H1 H2 H3 H4] [K1 K2 K3 K4]. constructor; [congruence| | |exact K4].
  - destruct H2 as (b & b' & E & E' & Hm & Hi & HB & HB'), K2 as (c & c' & F & F' & Km & Ki & KB & KB'). rewrite E' in F. injection F as <-.
    exists b, c'. repeat split; try assumption; try congruence; eapply meta_trans; eassumption.
  - intros j Hj. specialize (H3 j Hj). specialize (K3 j Hj). destruct (nth_error (d_nodes d) j) as [b|].
    + destruct H3 as (b' & E & Hm & Hi & HB). rewrite E in K3. destruct K3 as (c & F & Km & Ki & KB). exists c. repeat split; try congruence; eapply meta_trans; eassumption.
    + rewrite H3 in K3. exact K3.
Qed.

Lemma body_length d b : separate d -> In b (d_nodes d) -> length (body d b) = b_count b.
Proof. intros [H _] Hb. specialize (H b Hb). unfold body. rewrite firstn_length, skipn_length. lia. Qed.
Lemma meta_shift i b : meta b (shift_block i b) /\ b_in b = b_in (shift_block i b).
Proof. unfold shift_block. destruct (_ <? _)%nat; [split; [apply meta_refl|reflexivity]|]. destruct (_ && _); [split; [constructor|]; reflexivity|]. destruct (_ <? _)%nat; split; try constructor; reflexivity. Qed.

Lemma patch_erase d n b i : separate d -> nth_error (d_nodes d) n = Some b -> (i < b_count b)%nat ->
  patch d (statement_array_erase d (b_head b + i)) n (body d b) (erase (body d b) i).
Proof.
  intros HS HN Hi. pose proof HS as [HS1 HS2]. pose proof (HS1 b (nth_error_In _ _ HN)) as HB. set (k := (b_head b + i)%nat).
  assert (Hk : (k < length (d_stmts d))%nat) by (unfold k; lia).
  assert (HSh : forall j a, nth_error (d_nodes d) j = Some a -> j <> n ->
     (shift_block k a = a /\ (b_head a + b_count a <= k)%nat) \/
     (k < b_head a /\ b_head (shift_block k a) = b_head a - 1 /\ b_count (shift_block k a) = b_count a)%nat \/
     (shift_block k a = a /\ b_count a = O /\ b_head a <= k)%nat).
  { intros j a Ha Hj. destruct (Nat.eq_dec (b_count a) 0) as [Z0|NZ].
    - unfold shift_block. rewrite Z0. destruct (b_head a + 0 <? k)%nat eqn:E1; [apply Nat.ltb_lt in E1; right; right; repeat split; lia|]. apply Nat.ltb_ge in E1.
      destruct ((b_head a <=? k)%nat && (k <? b_head a + 0)%nat) eqn:E2; [apply andb_true_iff in E2 as [E2 E3]; apply Nat.leb_le in E2; apply Nat.ltb_lt in E3; lia|].
      destruct (k <? b_head a)%nat eqn:E3; [apply Nat.ltb_lt in E3; right; left; cbn; lia|]. apply Nat.ltb_ge in E3. right; right; repeat split; lia.
    - destruct (HS2 n j b a HN Ha ltac:(congruence) ltac:(lia) ltac:(lia)) as [HD|HD].
      + right; left. unfold shift_block. destruct (b_head a + b_count a <? k)%nat eqn:E1; [apply Nat.ltb_lt in E1; unfold k in *; lia|].
        destruct ((b_head a <=? k)%nat && (k <? b_head a + b_count a)%nat) eqn:E2; [apply andb_true_iff in E2 as [E2 E3]; apply Nat.leb_le in E2; unfold k in *; lia|].
        destruct (k <? b_head a)%nat eqn:E3; [apply Nat.ltb_lt in E3; cbn; lia|apply Nat.ltb_ge in E3; unfold k in *; lia].
      + left. unfold shift_block. destruct (b_head a + b_count a <? k)%nat eqn:E1; [apply Nat.ltb_lt in E1; split; [reflexivity|lia]|].
        destruct ((b_head a <=? k)%nat && (k <? b_head a + b_count a)%nat) eqn:E2; [apply andb_true_iff in E2 as [E2 E3]; apply Nat.ltb_lt in E3; unfold k in *; lia|].
        destruct (k <? b_head a)%nat eqn:E3; [apply Nat.ltb_lt in E3; unfold k in *; lia|]. split; [reflexivity|unfold k; lia]. }
  assert (HSn : b_head (shift_block k b) = b_head b /\ b_count (shift_block k b) = (b_count b - 1)%nat).
  { unfold shift_block. destruct (b_head b + b_count b <? k)%nat eqn:E1; [apply Nat.ltb_lt in E1; unfold k in *; lia|].
    destruct ((b_head b <=? k)%nat && (k <? b_head b + b_count b)%nat) eqn:E2; [split; reflexivity|]. exfalso.
    apply andb_false_iff in E2 as [E2|E2]; [apply Nat.leb_gt in E2|apply Nat.ltb_ge in E2]; unfold k in *; lia. }
  constructor; [reflexivity| | |].
  - exists b, (shift_block k b). cbn [statement_array_erase d_nodes]. rewrite nth_error_map, HN. cbn [option_map].
    split; [reflexivity|]. split; [reflexivity|]. split; [apply meta_shift|]. split; [apply meta_shift|]. split; [reflexivity|].
    apply list_ext. intros j. rewrite nth_body. cbn [d_stmts statement_array_erase]. destruct HSn as [-> ->]. rewrite !nth_erase by (rewrite ?(body_length d b HS (nth_error_In _ _ HN)); lia).
    rewrite !nth_body. destruct (j <? b_count b - 1)%nat eqn:E1.
    + apply Nat.ltb_lt in E1. destruct (Nat.ltb_spec (b_head b + j) k) as [E2|E2], (Nat.ltb_spec j i) as [E3|E3]; unfold k in *; try lia.
      * destruct (j <? b_count b)%nat eqn:E4; [reflexivity|apply Nat.ltb_ge in E4; lia].
      * destruct (S j <? b_count b)%nat eqn:E4; [f_equal; lia|apply Nat.ltb_ge in E4; lia].
    + apply Nat.ltb_ge in E1. destruct (j <? i)%nat eqn:E3; [apply Nat.ltb_lt in E3; lia|]. destruct (S j <? b_count b)%nat eqn:E4; [apply Nat.ltb_lt in E4; lia|reflexivity].
  - intros j Hj. cbn [statement_array_erase d_nodes]. rewrite nth_error_map. destruct (nth_error (d_nodes d) j) as [a|] eqn:Ea; [|reflexivity].
    exists (shift_block k a). cbn [option_map]. split; [reflexivity|]. split; [apply meta_shift|]. split; [apply meta_shift|].
    apply list_ext. intros q. rewrite !nth_body. cbn [d_stmts statement_array_erase]. rewrite nth_erase by exact Hk. destruct (HSh j a Ea Hj) as [[-> H1]|[(H1 & -> & ->)|(-> & H1 & H2)]].
    + destruct (q <? b_count a)%nat eqn:E1; [|reflexivity]. apply Nat.ltb_lt in E1. destruct (b_head a + q <? k)%nat eqn:E2; [reflexivity|apply Nat.ltb_ge in E2; lia].
    + destruct (q <? b_count a)%nat eqn:E1; [|reflexivity]. destruct (b_head a - 1 + q <? k)%nat eqn:E2; [apply Nat.ltb_lt in E2; lia|]. f_equal. lia.
    + rewrite H1. reflexivity.
  - split.
    + intros a Ha. cbn [statement_array_erase d_nodes d_stmts] in *. apply in_map_iff in Ha as (a0 & <- & Ha). rewrite length_erase by exact Hk.
      apply In_nth_error in Ha as [j Ha]. pose proof (HS1 a0 (nth_error_In _ _ Ha)). destruct (Nat.eq_dec j n) as [->|Hj].
      * rewrite HN in Ha. injection Ha as <-. destruct HSn as [-> ->]. lia.
      * destruct (HSh j a0 Ha Hj) as [[-> H1]|[(H1 & -> & ->)|(-> & H1 & H2)]]; lia.
    + intros p q a1 a2 H1 H2 Hpq C1 C2. cbn [statement_array_erase d_nodes] in *. rewrite nth_error_map in H1, H2.
      destruct (nth_error (d_nodes d) p) as [x1|] eqn:X1; [|discriminate]. destruct (nth_error (d_nodes d) q) as [x2|] eqn:X2; [|discriminate].
      cbn [option_map] in H1, H2. injection H1 as <-. injection H2 as <-.
      destruct (Nat.eq_dec p n) as [->|Hp].
      * rewrite HN in X1. injection X1 as <-. destruct HSn as [Q1 Q2]. rewrite Q1, Q2 in *. destruct (HSh q x2 X2 ltac:(congruence)) as [[E H1]|[(H1 & E1 & E2)|(E & H1 & H2)]]; try rewrite E in *; try rewrite E1, E2 in *;
        pose proof (HS2 n q b x2 HN X2 Hpq ltac:(lia) ltac:(lia)); lia.
      * destruct (HSh p x1 X1 Hp) as [[E H1]|[(H1 & E1 & E2)|(E & H1 & H2)]].
        all: try rewrite E in *; try rewrite E1, E2 in *.
        all: destruct (Nat.eq_dec q n) as [->|Hq];
          [rewrite HN in X2; injection X2 as <-; destruct HSn as [Q1 Q2]; rewrite Q1, Q2 in *; pose proof (HS2 p n x1 b X1 HN Hp ltac:(lia) ltac:(lia)); lia|].
        all: destruct (HSh q x2 X2 Hq) as [[F K1]|[(K1 & F1 & F2)|(F & K1 & K2)]]; try rewrite F in *; try rewrite F1, F2 in *;
          pose proof (HS2 p q x1 x2 X1 X2 Hpq ltac:(lia) ltac:(lia)); lia.
Qed.

Lemma nth_upd {A} (l : list A) k x i : (k < length l)%nat -> nth_error (upd l k x) i = if Nat.eqb i k then Some x else nth_error l i.
Proof.
  intros H. destruct (Nat.eqb_spec i k) as [->|N]; [apply nth_error_upd_same; exact H|apply nth_error_upd_other; congruence].
Qed.
Lemma patch_upd d n b i s : separate d -> nth_error (d_nodes d) n = Some b -> (i < b_count b)%nat ->
  patch d (set_stmts d (upd (d_stmts d) (b_head b + i) s)) n (body d b) (upd (body d b) i s).
Proof.
  intros HS HN Hi. pose proof HS as [HS1 HS2]. pose proof (HS1 b (nth_error_In _ _ HN)) as HB. set (k := (b_head b + i)%nat).
  assert (Hk : (k < length (d_stmts d))%nat) by (unfold k; lia).
  constructor; [reflexivity| | |].
  - exists b, b. cbn [set_stmts d_nodes]. split; [exact HN|]. split; [exact HN|]. split; [apply meta_refl|]. split; [reflexivity|]. split; [reflexivity|].
    apply list_ext. intros j. rewrite nth_upd by (rewrite (body_length d b HS (nth_error_In _ _ HN)); exact Hi). rewrite !nth_body. cbn [set_stmts d_stmts].
    rewrite nth_upd by exact Hk. destruct (Nat.eqb_spec j i) as [->|N].
    + rewrite (proj2 (Nat.ltb_lt _ _) Hi). unfold k. rewrite Nat.eqb_refl. reflexivity.
    + destruct (j <? b_count b)%nat; [|reflexivity]. destruct (Nat.eqb_spec (b_head b + j) k); [unfold k in *; lia|reflexivity].
  - intros j Hj. cbn [set_stmts d_nodes]. destruct (nth_error (d_nodes d) j) as [a|] eqn:Ea; [|reflexivity]. exists a.
    split; [reflexivity|]. split; [apply meta_refl|]. split; [reflexivity|]. apply list_ext. intros q. rewrite !nth_body. cbn [set_stmts d_stmts]. rewrite nth_upd by exact Hk.
    destruct (q <? b_count a)%nat eqn:E; [|reflexivity]. apply Nat.ltb_lt in E. destruct (Nat.eqb_spec (b_head a + q) k) as [E2|]; [|reflexivity].
    exfalso. pose proof (HS2 j n a b Ea HN Hj ltac:(lia) ltac:(lia)). unfold k in *. lia.
  - split; cbn [set_stmts d_nodes d_stmts]; [|exact HS2]. intros a Ha. rewrite upd_length. apply HS1, Ha.
Qed.

(* --- what is kept --- *)
(* every assignment and parameter of l' is one of l *)
Definition covers (l l' : list stmt) : Prop := forall s', In s' l' ->
  (st_st s' = IR_ASSIGN -> exists s, In s l /\ st_st s = IR_ASSIGN /\ st_t s = st_t s') /\
  (st_st s' = IR_PARAM -> exists s, In s l /\ st_st s = IR_PARAM /\ st_expr s = st_expr s').
Lemma covers_in l l' : (forall s', In s' l' -> exists s, In s l /\ st_st s = st_st s' /\ st_t s = st_t s' /\ st_expr s = st_expr s') -> covers l l'.
Proof. intros H s' Hs. destruct (H s' Hs) as (s & H1 & H2 & H3 & H4). split; intros E; exists s; repeat split; congruence. Qed.
Section Fit.
Variable tab : sym -> symbol.
Record decent (l : list stmt) : Prop := mkDecent { de_whole : Forall (whole tab) l; de_self : no_self l; de_param : Forall plain_param l }.
Lemma decent_covers l l' : covers l l' -> decent l -> decent l'.
Proof.
  intros HC [H1 H2 H3]. rewrite Forall_forall in *. constructor; rewrite ?Forall_forall.
  - intros s' Hs EA. destruct (HC s' Hs) as [H _]. destruct (H EA) as (s & Hi & Ea & Et). rewrite <- Et. apply (H1 s Hi Ea).
  - intros s s' x Hs Hs' EA EA'. destruct (HC s Hs) as [H _]. destruct (H EA) as (s0 & Hi & Ea & Et). destruct (HC s' Hs') as [H' _]. destruct (H' EA') as (s0' & Hi' & Ea' & Et').
    rewrite <- Et, <- Et'. apply H2; assumption.
  - intros s' Hs EP. destruct (HC s' Hs) as [_ H]. destruct (H EP) as (s & Hi & Ea & Et). rewrite <- Et. apply (H3 s Hi Ea).
Qed.
End Fit.
Lemma in_erase {A} (l : list A) k x : In x (erase l k) -> In x l.
Proof.
  unfold erase. revert k. induction l as [|y l IH]; intros k H; [destruct k; exact H|]. destruct k as [|k]; [right; exact H|].
  cbn [firstn app] in H. destruct H as [H|H]; [left; exact H|right]. exact (IH k H).
Qed.
Lemma in_upd {A} (l : list A) k x y : In y (upd l k x) -> y = x \/ In y l.
Proof. revert k. induction l as [|a l IH]; intros [|k] H; cbn in *; [contradiction|contradiction|destruct H as [<-|H]; auto|destruct H as [<-|H]; [auto|]]. destruct (IH k H); auto. Qed.
Lemma in_body d b s : In s (body d b) -> In s (d_stmts d).
Proof. unfold body. intros H. apply In_nth_error in H as [i H]. rewrite nth_firstn in H. destruct (_ <? _)%nat; [|discriminate]. rewrite nth_skipn in H. eapply nth_error_In, H. Qed.
