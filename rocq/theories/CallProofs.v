(* Proofs about calls and frames (C28, C29). *)
From Coq Require Import List ZArith Bool Lia FinFun.
From Verif Require Import Util Bytes TypeModel LayoutModel AbiModel CallModel.
Import ListNotations.
Open Scope Z_scope.

Lemma obnd_some {A B} (x : option A) (f : A -> option B) b : obnd x f = Some b -> exists a, x = Some a /\ f a = Some b.
Proof. destruct x as [a|]; [exists a; auto|discriminate]. Qed.

Lemma in_firstn {A} (x : A) n l : In x (firstn n l) -> In x l.
Proof. intro H. rewrite <- (firstn_skipn n l). apply in_or_app. left. exact H. Qed.

(* --- memory --- *)
Lemma write_other mem a l x : x < a \/ a + Z.of_nat (length l) <= x -> write mem a l x = mem x.
Proof. intro H. unfold write. destruct (Z.leb_spec a x); destruct (Z.ltb_spec x (a + Z.of_nat (length l))); cbn; auto; lia. Qed.
Lemma write_at mem a l k : (k < length l)%nat -> write mem a l (a + Z.of_nat k) = nth k l 0.
Proof.
  intro H. unfold write. rewrite (proj2 (Z.leb_le _ _)), (proj2 (Z.ltb_lt _ _)) by lia. cbn. f_equal. lia.
Qed.
Lemma read_length mem a n : length (read mem a n) = n.
Proof. unfold read. rewrite map_length, seq_length. reflexivity. Qed.
Lemma nth_read mem a n k d : (k < n)%nat -> nth k (read mem a n) d = mem (a + Z.of_nat k).
Proof.
  intro H. unfold read. rewrite (nth_indep _ d (mem (a + Z.of_nat 0))) by (rewrite map_length, seq_length; exact H).
  rewrite (map_nth (fun k => mem (a + Z.of_nat k))). rewrite seq_nth by exact H. reflexivity.
Qed.
Lemma read_ext mem mem' a n : (forall k, (k < n)%nat -> mem (a + Z.of_nat k) = mem' (a + Z.of_nat k)) -> read mem a n = read mem' a n.
Proof. intro H. unfold read. apply map_ext_in. intros k K. apply in_seq in K. apply H. lia. Qed.
Lemma read_write mem a l : read (write mem a l) a (length l) = l.
Proof.
  apply nth_ext with (d := 0) (d' := 0); [apply read_length|]. rewrite read_length. intros k K. rewrite nth_read by exact K. apply write_at, K.
Qed.
Lemma reg_eqb_eq a b : reg_eqb a b = true <-> a = b.
Proof. destruct a, b; cbn; split; intro H; try discriminate; try reflexivity; [apply Nat.eqb_eq in H; congruence|injection H as ->; apply Nat.eqb_refl]. Qed.
Lemma setr_same f r v : setr f r v r = v.
Proof. unfold setr. rewrite (proj2 (reg_eqb_eq r r) eq_refl). reflexivity. Qed.
Lemma setr_other f r v x : r <> x -> setr f r v x = f x.
Proof. unfold setr. intro H. destruct (reg_eqb r x) eqn:E; [apply reg_eqb_eq in E; congruence|reflexivity]. Qed.

(* --- which arguments go where --- *)
Fixpoint split_args (i : nat) (args : list ltype) (ints sses : nat) : option (list (param_class * (nat * ltype)) * list (nat * ltype)) :=
  match args with
  | [] => Some ([], [])
  | t :: r =>
    obnd (classify t) (fun pc =>
    match alloc_register_params pc ints sses with
    | Some (ints', sses') => obnd (split_args (S i) r ints' sses') (fun x => Some ((pc, (i, t)) :: fst x, snd x))
    | None => obnd (split_args (S i) r ints sses) (fun x => Some (fst x, (i, t) :: snd x))
    end)
  end.
Definition total (l : list (nat * ltype)) : Z := fold_right (fun x a => 8 * eightbytes (snd x) + a) 0 l.
Definition argpc_of (l : list (param_class * (nat * ltype))) : list (param_class * nat) := map (fun x => (fst x, fst (snd x))) l.
Lemma total_app a b : total (a ++ b) = total a + total b.
Proof. induction a as [|x a IH]; [reflexivity|]. cbn [app total fold_right] in *. fold (total (a ++ b)) (total a). rewrite IH. lia. Qed.

Lemma classify_args_split args : forall i ints sses used acc argpc u, classify_args i args ints sses used acc = Some (argpc, u) ->
  exists R S, split_args i args ints sses = Some (R, S) /\ argpc = acc ++ argpc_of R /\ u = used + total S.
Proof.
  induction args as [|t args IH]; intros i ints sses used acc argpc u E; cbn [classify_args split_args] in *.
  - injection E as <- <-. exists [], []. rewrite app_nil_r. cbn. auto with zarith.
  - apply obnd_some in E. destruct E as (pc & -> & E). cbn [obnd]. destruct (alloc_register_params pc ints sses) as [[i' s']|].
    + destruct (length acc <? 14)%nat; [|discriminate]. destruct (IH _ _ _ _ _ _ _ E) as (R & S0 & -> & -> & ->). cbn [obnd fst snd].
      exists ((pc, (i, t)) :: R), S0. split; [reflexivity|]. split; [rewrite <- app_assoc; reflexivity|reflexivity].
    + destruct (IH _ _ _ _ _ _ _ E) as (R & S0 & -> & -> & ->). cbn [obnd fst snd]. exists R, ((i, t) :: S0).
      split; [reflexivity|]. split; [reflexivity|]. cbn [total fold_right snd]. fold (total S0). lia.
Qed.

(* indices: each argument is in exactly one of the lists *)
Lemma split_index args : forall i ints sses R S, split_args i args ints sses = Some (R, S) ->
  (forall pc k t, In (pc, (k, t)) R -> (i <= k)%nat /\ nth_error args (k - i) = Some t /\ classify t = Some pc) /\
  (forall k t, In (k, t) S -> (i <= k)%nat /\ nth_error args (k - i) = Some t) /\
  (forall k t, nth_error args k = Some t -> (exists pc, In (pc, ((i + k)%nat, t)) R) \/ In ((i + k)%nat, t) S).
Proof.
  induction args as [|t args IH]; intros i ints sses R S0 E; cbn [split_args] in E.
  - injection E as <- <-. cbn. split; [intros; contradiction|]. split; [intros; contradiction|]. intros [|k] t E; discriminate.
  - apply obnd_some in E. destruct E as (pc & C & E). destruct (alloc_register_params pc ints sses) as [[i' s']|].
    + apply obnd_some in E. destruct E as ([R' S'] & E & X). cbn [fst snd] in X. injection X as <- <-. destruct (IH _ _ _ _ _ E) as (A & B & D).
      split; [|split].
      * intros p k u [H|H]; [injection H as -> -> ->; rewrite Nat.sub_diag; auto|].
        destruct (A _ _ _ H) as (A1 & A2 & A3). split; [lia|]. split; [|exact A3]. replace (k - i)%nat with (S (k - S i)) by lia. exact A2.
      * intros k u H. destruct (B _ _ H) as (A1 & A2). split; [lia|]. replace (k - i)%nat with (S (k - S i)) by lia. exact A2.
      * intros [|k] u H; cbn in H; [injection H as <-; left; exists pc; left; rewrite Nat.add_0_r; reflexivity|].
        replace (i + S k)%nat with (S i + k)%nat by lia. destruct (D _ _ H) as [[p P]|P]; [left; exists p; right; exact P|right; exact P].
    + apply obnd_some in E. destruct E as ([R' S'] & E & X). cbn [fst snd] in X. injection X as <- <-. destruct (IH _ _ _ _ _ E) as (A & B & D).
      split; [|split].
      * intros p k u H. destruct (A _ _ _ H) as (A1 & A2 & A3). split; [lia|]. split; [|exact A3]. replace (k - i)%nat with (S (k - S i)) by lia. exact A2.
      * intros k u [H|H]; [injection H as -> ->; rewrite Nat.sub_diag; auto|]. destruct (B _ _ H) as (A1 & A2). split; [lia|].
        replace (k - i)%nat with (S (k - S i)) by lia. exact A2.
      * intros [|k] u H; cbn in H; [injection H as <-; right; left; rewrite Nat.add_0_r; reflexivity|].
        replace (i + S k)%nat with (S i + k)%nat by lia. destruct (D _ _ H) as [[p P]|P]; [left; exists p; exact P|right; right; exact P].
Qed.

Lemma split_app params extra : forall i ints sses R S, split_args i (params ++ extra) ints sses = Some (R, S) ->
  exists R1 S1 R2 S2, split_args i params ints sses = Some (R1, S1) /\ R = R1 ++ R2 /\ S = S1 ++ S2.
Proof.
  induction params as [|t params IH]; intros i ints sses R S0 E.
  - exists [], [], R, S0. auto.
  - cbn [app split_args] in *. apply obnd_some in E. destruct E as (pc & -> & E). cbn [obnd]. destruct (alloc_register_params pc ints sses) as [[i' s']|];
      apply obnd_some in E; destruct E as ([R' S'] & E & X); cbn [fst snd] in X; injection X as <- <-;
      destruct (IH _ _ _ _ _ E) as (R1 & S1 & R2 & S2 & -> & -> & ->); cbn [obnd fst snd].
    + exists ((pc, (i, t)) :: R1), S1, R2, S2. auto.
    + exists R1, ((i, t) :: S1), R2, S2. auto.
Qed.

(* the pushes *)
Lemma push_args_split args : forall i ints sses R S, split_args i args ints sses = Some (R, S) ->
  push_args (rev (List.combine (seq i (length args)) args)) (rev (argpc_of R)) = flat_map (fun x => push (fst x) (snd x)) (rev S).
Proof.
  assert (forall L M q, push_args (L ++ M) q =
     push_args L (firstn (length q) q) ++ push_args M [] \/ True) as _ by auto.
  assert (G : forall args i ints sses R S0, split_args i args ints sses = Some (R, S0) -> forall rest q, (forall p j, In (p, j) q -> (j < i)%nat) ->
     push_args (rev (List.combine (seq i (length args)) args) ++ rest) (rev (argpc_of R) ++ q) =
     flat_map (fun x => push (fst x) (snd x)) (rev S0) ++ push_args rest q).
  { clear. induction args as [|t args IH]; intros i ints sses R S0 E rest q Q; cbn [split_args] in E.
    - injection E as <- <-. reflexivity.
    - apply obnd_some in E. destruct E as (pc & C & E). cbn [length seq List.combine rev].
      rewrite <- app_assoc. cbn [app]. destruct (alloc_register_params pc ints sses) as [[i' s']|];
      apply obnd_some in E; destruct E as ([R' S'] & E & X); cbn [fst snd] in X; injection X as <- <-.
      + cbn [argpc_of map rev fst snd]. rewrite <- app_assoc. cbn [app]. fold (argpc_of R').
        rewrite (IH _ _ _ _ _ E) by (intros p j [H|H]; [injection H as _ <-; lia|specialize (Q _ _ H); lia]).
        cbn [push_args]. rewrite Nat.eqb_refl. reflexivity.
      + rewrite (IH _ _ _ _ _ E) by (intros p j H; specialize (Q _ _ H); lia).
        cbn [rev]. rewrite flat_map_app. cbn [flat_map fst snd]. rewrite app_nil_r, <- app_assoc. f_equal. cbn [push_args].
        destruct q as [|[p j] q]; [reflexivity|]. assert (j < i)%nat by (apply (Q p j); left; reflexivity).
        destruct (Nat.eqb_spec j i); [lia|reflexivity]. }
  intros i ints sses R S0 E. pose proof (G _ _ _ _ _ _ E [] [] ltac:(intros ? ? [])) as H. rewrite !app_nil_r in H. exact H.
Qed.

(* --- moving eightbytes --- *)
Fixpoint raw (t : ltype) (pc : param_class) (I X : list reg) (i n : nat) : option (list (reg * nat * Z)) :=
  match n with
  | O => Some []
  | S m =>
    match nth i pc NO_CLASS with
    | INTEGER =>
      match I, slice_width t pc i with
      | r :: I', Some w => option_map (cons (r, i, w)) (raw t pc I' X (S i) m)
      | _, _ => None
      end
    | _ =>
      match X, slice_width t pc i with
      | r :: X', Some w => option_map (cons (r, i, w)) (raw t pc I X' (S i) m)
      | _, _ => None
      end
    end
  end.
Definition app3 (mk : reg -> nat -> Z -> op) (x : reg * nat * Z) : op := let '(r, i, w) := x in mk r i w.
Lemma moves_raw mk t pc n : forall I X i, moves mk t pc I X i n = option_map (map (app3 mk)) (raw t pc I X i n).
Proof.
  induction n as [|n IH]; intros I X i; [reflexivity|]. cbn [moves raw].
  destruct (nth i pc NO_CLASS); [| |..]; try (destruct X as [|r X]; [reflexivity|]; destruct (slice_width t pc i); [|reflexivity]; rewrite IH; destruct (raw t pc I X (S i) n); reflexivity).
  destruct I as [|r I]; [reflexivity|]; destruct (slice_width t pc i); [|reflexivity]; rewrite IH; destruct (raw t pc I X (S i) n); reflexivity.
Qed.
Definition cnt (c : cls) (pc : param_class) (i n : nat) : nat := countb (cls_eqb c) (firstn n (skipn i pc)).
Lemma skipn_nth (pc : param_class) i : (i < length pc)%nat -> skipn i pc = nth i pc NO_CLASS :: skipn (S i) pc.
Proof. revert i; induction pc as [|c pc IH]; intros [|i] H; cbn in H; try lia; [reflexivity|]. cbn [skipn nth]. apply IH. lia. Qed.
Lemma slice_cls t pc i w : slice_width t pc i = Some w -> (nth i pc NO_CLASS = INTEGER \/ nth i pc NO_CLASS = SSE) /\ (i < 4)%nat.
Proof. unfold slice_width. destruct (nth i pc NO_CLASS); try discriminate; destruct (Nat.leb_spec 4 i); try discriminate; intros _; auto. Qed.
Lemma cnt_step pc i n : nth i pc NO_CLASS <> NO_CLASS -> forall c, cnt c pc i (S n) = ((if cls_eqb c (nth i pc NO_CLASS) then 1 else 0) + cnt c pc (S i) n)%nat.
Proof.
  intros H c. unfold cnt. rewrite (skipn_nth pc i); [reflexivity|].
  destruct (Nat.ltb_spec i (length pc)) as [L|L]; [exact L|]. exfalso. apply H. apply nth_overflow, L.
Qed.
Lemma raw_facts t pc n : forall I X i l, raw t pc I X i n = Some l ->
  map (fun x => snd (fst x)) l = seq i n /\
  (forall r j w, In (r, j, w) l -> slice_width t pc j = Some w) /\
  (forall r j w, In (r, j, w) l -> In r (firstn (cnt INTEGER pc i n) I) \/ In r (firstn (cnt SSE pc i n) X)) /\
  (NoDup (I ++ X) -> NoDup (map (fun x => fst (fst x)) l)).
Proof.
  induction n as [|n IH]; intros I X i l E; cbn [raw] in E.
  - injection E as <-. repeat split; try (intros; contradiction). intros. constructor.
  - assert (exists r w l', l = (r, i, w) :: l' /\ slice_width t pc i = Some w /\
      ((exists I', nth i pc NO_CLASS = INTEGER /\ I = r :: I' /\ raw t pc I' X (S i) n = Some l') \/
       (exists X', nth i pc NO_CLASS = SSE /\ X = r :: X' /\ raw t pc I X' (S i) n = Some l'))) as (r & w & l' & -> & W & D).
    { destruct (slice_width t pc i) as [w|] eqn:W.
      - destruct (slice_cls _ _ _ _ W) as [[C|C] _]; rewrite C in E.
        + destruct I as [|r I]; [discriminate|]. destruct (raw t pc I X (S i) n) as [l'|] eqn:R; [|discriminate]. cbn in E. injection E as <-. exists r, w, l'. eauto 10.
        + destruct X as [|r X]; [discriminate|]. destruct (raw t pc I X (S i) n) as [l'|] eqn:R; [|discriminate]. cbn in E. injection E as <-. exists r, w, l'. eauto 10.
      - destruct (nth i pc NO_CLASS); try (destruct X; discriminate); destruct I; discriminate. }
    assert (nth i pc NO_CLASS <> NO_CLASS) as NN by (destruct D as [(? & C & _)|(? & C & _)]; congruence).
    pose proof (cnt_step pc i n NN) as CS.
    destruct D as [(I' & C & -> & R)|(X' & C & -> & R)]; destruct (IH _ _ _ _ R) as (A1 & A2 & A3 & A4); rewrite C in CS; rewrite (CS INTEGER), (CS SSE); cbn [cls_eqb Nat.add].
    + split; [cbn; f_equal; exact A1|]. split; [intros r' j w' [H|H]; [injection H as <- <- <-; exact W|eapply A2; eauto]|]. split.
      * intros r' j w' [H|H]; [injection H as <- _ _; left; left; reflexivity|]. destruct (A3 _ _ _ H) as [Q|Q]; [left; right; exact Q|right; exact Q].
      * intro ND. cbn [app] in ND. inversion ND as [|? ? N1 N2]; subst. cbn [map fst]. constructor; [|apply A4, N2].
        intro Q. apply in_map_iff in Q. destruct Q as ([[r2 j2] w2] & E2 & Q). cbn in E2. subst r2. apply N1. apply in_or_app.
        destruct (A3 _ _ _ Q) as [Q'|Q']; [left|right]; eapply in_firstn; exact Q'.
    + split; [cbn; f_equal; exact A1|]. split; [intros r' j w' [H|H]; [injection H as <- <- <-; exact W|eapply A2; eauto]|]. split.
      * intros r' j w' [H|H]; [injection H as <- _ _; right; left; reflexivity|]. destruct (A3 _ _ _ H) as [Q|Q]; [left; exact Q|right; right; exact Q].
      * intro ND. assert (~ In r (I ++ X') /\ NoDup (I ++ X')) as [N1 N2] by (split; [apply NoDup_remove_2 in ND|apply NoDup_remove_1 in ND]; exact ND).
        cbn [map fst]. constructor; [|apply A4, N2].
        intro Q. apply in_map_iff in Q. destruct Q as ([[r2 j2] w2] & E2 & Q). cbn in E2. subst r2. apply N1. apply in_or_app.
        destruct (A3 _ _ _ Q) as [Q'|Q']; [left|right]; eapply in_firstn; exact Q'.
Qed.
Lemma cnt_le c pc n : (cnt c pc 0 n <= count_cls c pc)%nat.
Proof. unfold cnt, count_cls. cbn [skipn]. revert n. induction pc as [|x pc IH]; intros [|n]; cbn; try lia. specialize (IH n). destruct (cls_eqb c x); lia. Qed.

Lemma width_ok t pc j w : 0 < lsize t -> classify t = Some pc -> slice_width t pc j = Some w -> 8 * Z.of_nat j < lsize t ->
  0 < w <= 8 /\ (lsize t - 8 * Z.of_nat j <= w \/ w = 8).
Proof.
  intros P C W J. destruct t as [k|m t|u f z ms].
  - destruct (slice_cls _ _ _ _ W) as [D _]. unfold slice_width in W. cbn [lsize] in P, J.
    assert (exists c0 c1, pc = [c0; c1; NO_CLASS; NO_CLASS] /\ (c1 = NO_CLASS \/ c1 = X87UP) /\ (k = T_LDOUBLE -> c0 = X87)) as (c0 & c1 & -> & C1 & LD).
    { destruct k; cbn in C; injection C as <-; eexists; eexists; (split; [reflexivity|]); (split; [auto|]); congruence. }
    destruct j as [|[|j]]; cbn [nth] in D, W.
    + assert (k <> T_LDOUBLE) as NL by (intro X; specialize (LD X); destruct D; congruence).
      assert (w = lsize (LScalar k)) as -> by (destruct D as [-> | ->]; cbn [Nat.leb] in W; congruence).
      destruct k; cbn in *; try lia; congruence.
    + destruct D, C1; congruence.
    + destruct j as [|[|j]]; cbn in D; [| |destruct j]; destruct D; discriminate.
  - cbn in C. injection C as <-. destruct (slice_cls _ _ _ _ W) as [D _]. destruct j as [|[|[|[|[|j]]]]]; cbn in D; destruct D; discriminate.
  - destruct (slice_cls _ _ _ _ W) as [D J4]. unfold slice_width in W.
    destruct (Nat.leb_spec 4 j) as [?|_]; [lia|].
    set (s := lsize (LAgg u f z ms)) in *. set (w0 := if (Z.of_nat j + 1) * 8 <? s then 8 else let r := s mod 8 in if r =? 1 then 1 else if r =? 2 then 2 else if (r =? 3) || (r =? 4) then 4 else 8) in *.
    assert (0 < w0 <= 8 /\ (s - 8 * Z.of_nat j <= w0 \/ w0 = 8)) as B.
    { unfold w0. destruct (Z.ltb_spec ((Z.of_nat j + 1) * 8) s) as [L|L]; [lia|].
      pose proof (Z.div_mod s 8 ltac:(lia)) as DM. pose proof (Z.mod_pos_bound s 8 ltac:(lia)) as MB. cbn zeta.
      destruct (Z.eqb_spec (s mod 8) 1); [lia|]. destruct (Z.eqb_spec (s mod 8) 2); [lia|]. destruct (Z.eqb_spec (s mod 8) 3); [cbn [orb]; lia|]. destruct (Z.eqb_spec (s mod 8) 4); cbn [orb]; lia. }
    destruct D as [D|D]; rewrite D in W; cbn zeta in W; [injection W as <-; exact B|].
    assert (w0 = 1 \/ w0 = 2 \/ w0 = 4 \/ w0 = 8) as Q.
    { unfold w0. destruct ((Z.of_nat j + 1) * 8 <? s); [auto|]. cbn zeta. destruct (s mod 8 =? 1); [auto|]. destruct (s mod 8 =? 2); [auto|]. destruct ((s mod 8 =? 3) || (s mod 8 =? 4)); auto. }
    destruct Q as [Q|[Q|[Q|Q]]]; rewrite Q in W, B; cbn in W; try discriminate W; injection W as <-; exact B.
Qed.

(* --- parameters of the callee --- *)
Fixpoint desc (B : Z) (R : list (param_class * (nat * ltype))) (offs : list Z) : Prop :=
  match R with
  | [] => True
  | (_, (k, t)) :: R' => nth_error offs k = Some (B - 8 * eightbytes t) /\ desc (B - 8 * eightbytes t) R' offs
  end.
Fixpoint asc (M : Z) (S : list (nat * ltype)) (offs : list Z) : Prop :=
  match S with
  | [] => True
  | (k, t) :: S' => nth_error offs k = Some M /\ asc (M + 8 * eightbytes t) S' offs
  end.
Lemma place_ok params : forall i ro q q', place_params i params ro q = Some q' -> length (p_offs q) = i ->
  exists R S os, split_args i params (p_ints q) (p_sses q) = Some (R, S) /\ p_offs q' = p_offs q ++ os /\ length os = length params /\
    p_argpc q' = p_argpc q ++ argpc_of R /\ p_mem q' = p_mem q + total S /\ p_stack q' = p_stack q - total (map snd R) /\
    desc (p_stack q - ro) R (p_offs q') /\ asc (p_mem q) S (p_offs q').
Proof.
  induction params as [|t params IH]; intros i ro q q' E L; cbn [place_params split_args] in *.
  - injection E as <-. exists [], [], []. cbn. rewrite !app_nil_r. repeat split; lia.
  - apply obnd_some in E. destruct E as (pc & -> & E). cbn [obnd].
    destruct (alloc_register_params pc (p_ints q) (p_sses q)) as [[i' s']|].
    + destruct (length (p_argpc q) <? 14)%nat; [|discriminate].
      destruct (IH _ _ _ _ E) as (R & S0 & os & E1 & E2 & E3 & E4 & E5 & E6 & E7 & E8); [cbn; rewrite app_length; cbn; lia|]. cbn [p_offs p_argpc p_ints p_sses p_mem p_stack] in *.
      rewrite E1. cbn [obnd fst snd]. exists ((pc, (i, t)) :: R), S0, ((p_stack q - eightbytes t * 8 - ro) :: os).
      split; [reflexivity|]. split; [rewrite E2, <- app_assoc; reflexivity|]. split; [cbn; lia|]. split; [rewrite E4, <- app_assoc; reflexivity|]. split; [exact E5|].
      split; [rewrite E6; cbn [map snd total fold_right]; fold (total (map snd R)); lia|]. split; [|exact E8].
      cbn [desc]. replace (p_stack q - ro - 8 * eightbytes t) with (p_stack q - eightbytes t * 8 - ro) by lia. split; [|exact E7].
      rewrite E2, <- app_assoc, nth_error_app2 by lia. rewrite L, Nat.sub_diag. reflexivity.
    + destruct (IH _ _ _ _ E) as (R & S0 & os & E1 & E2 & E3 & E4 & E5 & E6 & E7 & E8); [cbn; rewrite app_length; cbn; lia|]. cbn [p_offs p_argpc p_ints p_sses p_mem p_stack] in *.
      rewrite E1. cbn [obnd fst snd]. exists R, ((i, t) :: S0), (p_mem q :: os).
      split; [reflexivity|]. split; [rewrite E2, <- app_assoc; reflexivity|]. split; [cbn; lia|]. split; [exact E4|].
      split; [rewrite E5; cbn [total fold_right snd]; fold (total S0); lia|]. split; [exact E6|]. split; [exact E7|].
      cbn [asc]. split; [|rewrite (Z.mul_comm 8); exact E8]. rewrite E2, <- app_assoc, nth_error_app2 by lia. rewrite L, Nat.sub_diag. reflexivity.
Qed.
Lemma asc_at M S0 offs A k t B : asc M S0 offs -> S0 = A ++ (k, t) :: B -> nth_error offs k = Some (M + total A).
Proof.
  revert M S0. induction A as [|[j u] A IH]; intros M S0 H ->; cbn [app asc] in H; destruct H as [H1 H2].
  - rewrite H1. cbn. f_equal. lia.
  - rewrite (IH _ _ H2 eq_refl). cbn [total fold_right snd]. fold (total A). f_equal. lia.
Qed.

(* --- loads and stores --- *)
Definition loadop (x : reg * nat * Z * Z) : op := let '(r, i, o, w) := x in Load r i o w.
Definition storeop (x : reg * Z * Z) : op := let '(r, o, w) := x in Store r o w.
Lemma in_skipn {A} (x : A) n l : In x (skipn n l) -> In x l.
Proof. intro H. rewrite <- (firstn_skipn n l). apply in_or_app. right. exact H. Qed.
Lemma skipn_add {A} (l : list A) a b : skipn (a + b) l = skipn b (skipn a l).
Proof. revert l; induction a as [|a IH]; intros [|x l]; cbn [Nat.add skipn]; auto. destruct b; reflexivity. Qed.
Lemma in_skipn_le {A} (x : A) a b l : (a <= b)%nat -> In x (skipn b l) -> In x (skipn a l).
Proof. intros H I. replace b with (a + (b - a))%nat in I by lia. rewrite skipn_add in I. apply in_skipn in I. exact I. Qed.
Lemma nodup_split {A} (l : list A) n m x : NoDup l -> (n <= m)%nat -> In x (firstn n l) -> In x (skipn m l) -> False.
Proof.
  intros ND H I J. apply (in_skipn_le x n m) in J; [|exact H]. revert n ND I J H. induction l as [|y l IH]; intros [|n] ND I J H; cbn in *; try contradiction.
  inversion ND; subst. destruct I as [->|I]; [apply in_skipn in J; contradiction|]. apply (IH n); auto; lia.
Qed.
Lemma param_nodup : NoDup (param_int_reg ++ param_sse_reg).
Proof. cbn. repeat constructor; cbn; intuition discriminate. Qed.
Lemma nodup_skip {A} (I X : list A) a b : NoDup (I ++ X) -> NoDup (skipn a I ++ skipn b X).
Proof.
  revert a. induction I as [|x I IH]; intros a H.
  - destruct a; cbn; clear - H; revert b; induction X as [|y X IH]; intros [|b]; cbn in *; auto; inversion H; subst; auto; apply IH; auto.
  - destruct a as [|a]; cbn in *; inversion H as [|? ? N D]; subst; [|apply IH, D]. constructor; [|apply (IH 0%nat D)].
    intro Q. apply N. apply in_app_or in Q. apply in_or_app. destruct Q as [Q|Q]; [left; exact Q|right; eapply in_skipn; exact Q].
Qed.

Definition ireg_of (x : reg * nat * Z * Z) : reg := fst (fst (fst x)).
Lemma load_facts args argpc : forall ints sses ops z, load_args args argpc ints sses = Some (ops, z) ->
  exists L, ops = map loadop L /\ NoDup (map ireg_of L) /\
    (forall x, In x L -> In (ireg_of x) (skipn ints param_int_reg) \/ In (ireg_of x) (skipn sses param_sse_reg)).
Proof.
  induction argpc as [|[pc i] argpc IH]; intros ints sses ops z E; cbn [load_args] in E.
  - injection E as <- <-. exists []. repeat split; [constructor|intros ? []].
  - apply obnd_some in E. destruct E as (t & ET & E). apply obnd_some in E. destruct E as (l & EM & E). apply obnd_some in E. destruct E as ([ops' z'] & EL & E).
    cbn [fst snd] in E. injection E as <- <-. rewrite moves_raw in EM.
    destruct (raw t pc (skipn ints param_int_reg) (skipn sses param_sse_reg) 0 (Z.to_nat (eightbytes t))) as [rw|] eqn:ER; [|discriminate]. cbn in EM. injection EM as <-.
    destruct (raw_facts _ _ _ _ _ _ _ ER) as (A1 & A2 & A3 & A4). destruct (IH _ _ _ _ EL) as (L & -> & ND & IN).
    exists (map (fun x : reg * nat * Z => let '(r, j, w) := x in (r, i, 8 * Z.of_nat j, w)) rw ++ L).
    assert (map ireg_of (map (fun x : reg * nat * Z => let '(r, j, w) := x in (r, i, 8 * Z.of_nat j, w)) rw) = map (fun x => fst (fst x)) rw) as EQ.
    { rewrite map_map. apply map_ext. intros [[r j] w]. reflexivity. }
    split; [|split].
    + rewrite map_app, map_map. f_equal. apply map_ext. intros [[r j] w]. reflexivity.
    + rewrite map_app, EQ. specialize (A4 (nodup_skip _ _ _ _ param_nodup)).
      assert (forall l1 l2 : list reg, NoDup l1 -> NoDup l2 -> (forall x, In x l1 -> In x l2 -> False) -> NoDup (l1 ++ l2)) as NA.
      { clear. induction l1 as [|x l1 IH]; intros l2 A B D; [exact B|]. inversion A; subst. cbn. constructor.
        - intro Q. apply in_app_or in Q. destruct Q as [Q|Q]; [contradiction|apply (D x); [left; reflexivity|exact Q]].
        - apply IH; auto. intros y Y1 Y2. apply (D y); [right; exact Y1|exact Y2]. }
      apply NA; [exact A4|exact ND|]. intros x X1 X2. apply in_map_iff in X1. destruct X1 as ([[r j] w] & <- & X1). cbn [fst] in X2.
      apply in_map_iff in X2. destruct X2 as (y & EY & X2). specialize (IN _ X2). rewrite EY in IN. specialize (A3 _ _ _ X1).
      pose proof (cnt_le INTEGER pc (Z.to_nat (eightbytes t))) as LI. pose proof (cnt_le SSE pc (Z.to_nat (eightbytes t))) as LS.
      rewrite !skipn_add in IN.
      assert (NoDup (skipn ints param_int_reg) /\ NoDup (skipn sses param_sse_reg)) as [NI NS].
      { split; [pose proof (nodup_skip _ _ ints 8 param_nodup) as Q; cbn [skipn param_sse_reg] in Q; rewrite app_nil_r in Q; exact Q|].
        pose proof (nodup_skip _ _ 6 sses param_nodup) as Q. exact Q. }
      assert (forall a, In a param_int_reg -> In a param_sse_reg -> False) as DIS by (intros a Q1 Q2; cbn in Q1, Q2; intuition congruence).
      destruct A3 as [A3|A3], IN as [IN|IN].
      * exact (nodup_split _ _ _ _ NI LI A3 IN).
      * apply (DIS r); [eapply in_skipn, in_firstn, A3|eapply in_skipn, in_skipn, IN].
      * apply (DIS r); [eapply in_skipn, in_skipn, IN|eapply in_skipn, in_firstn, A3].
      * exact (nodup_split _ _ _ _ NS LS A3 IN).
    + intros x X. apply in_app_or in X. destruct X as [X|X].
      * apply in_map_iff in X. destruct X as ([[r j] w] & <- & X). cbn. destruct (A3 _ _ _ X) as [Q|Q]; [left|right]; eapply in_firstn; exact Q.
      * destruct (IN _ X) as [Q|Q]; [left|right]; (eapply in_skipn_le; [|exact Q]; lia).
Qed.

Lemma agree args params offs A : forall ex ints sses ops z sts,
  (forall i t, nth_error params i = Some t -> nth_error args i = Some t) ->
  load_args args (A ++ ex) ints sses = Some (ops, z) -> store_params params offs A ints sses = Some sts ->
  forall pc i, In (pc, i) A -> exists t off rw, nth_error params i = Some t /\ nth_error offs i = Some off /\
    map (fun x : reg * nat * Z => snd (fst x)) rw = seq 0 (Z.to_nat (eightbytes t)) /\ (forall r j w, In (r, j, w) rw -> slice_width t pc j = Some w) /\
    (forall r j w, In (r, j, w) rw -> In (Load r i (8 * Z.of_nat j) w) ops /\ In (Store r (off + 8 * Z.of_nat j) w) sts).
Proof.
  induction A as [|[pc0 i0] A IH]; intros ex ints sses ops z sts SUB EL ES pc i IN; [destruct IN|].
  cbn [app load_args store_params] in EL, ES.
  apply obnd_some in ES. destruct ES as (t & ET & ES). apply obnd_some in ES. destruct ES as (off & EO & ES). apply obnd_some in ES. destruct ES as (l & EM & ES).
  apply obnd_some in ES. destruct ES as (sts' & ES' & ES). injection ES as <-.
  rewrite (SUB _ _ ET) in EL. cbn [obnd] in EL. apply obnd_some in EL. destruct EL as (l2 & EM2 & EL). apply obnd_some in EL. destruct EL as ([ops' z'] & EL' & EL).
  cbn [fst snd] in EL. injection EL as <- <-. rewrite moves_raw in EM, EM2.
  destruct (raw t pc0 (skipn ints param_int_reg) (skipn sses param_sse_reg) 0 (Z.to_nat (eightbytes t))) as [rw|] eqn:ER; [|discriminate]. cbn in EM, EM2. injection EM as <-. injection EM2 as <-.
  destruct IN as [IN|IN].
  - injection IN as -> ->. exists t, off, rw. destruct (raw_facts _ _ _ _ _ _ _ ER) as (A1 & A2 & _).
    split; [exact ET|]. split; [exact EO|]. split; [exact A1|]. split; [exact A2|]. intros r j w X. split; apply in_or_app; left; apply in_map_iff; exists (r, j, w); auto.
  - destruct (IH _ _ _ _ _ _ SUB EL' ES' _ _ IN) as (t' & off' & rw' & B1 & B2 & B3 & B4 & B5). exists t', off', rw'.
    split; [exact B1|]. split; [exact B2|]. split; [exact B3|]. split; [exact B4|]. intros r j w X. destruct (B5 _ _ _ X). split; apply in_or_app; right; assumption.
Qed.

Definition soff_of (x : reg * Z * Z) : Z := snd (fst x).
Lemma store_facts params offs R : forall B ints sses sts, (8 | B) -> desc B R offs ->
  (forall pc k t, In (pc, (k, t)) R -> nth_error params k = Some t /\ classify t = Some pc /\ 0 < lsize t) ->
  store_params params offs (argpc_of R) ints sses = Some sts ->
  exists L, sts = map storeop L /\ NoDup (map soff_of L) /\
    (forall r o w, In (r, o, w) L -> (8 | o) /\ 0 < w <= 8 /\ B - total (map snd R) <= o /\ o + 8 <= B).
Proof.
  induction R as [|[pc [k t]] R IH]; intros B ints sses sts DB D TY E; cbn [argpc_of map store_params fst snd] in E.
  - injection E as <-. exists []. repeat split; try constructor; intros; contradiction.
  - apply obnd_some in E. destruct E as (t' & ET & E). apply obnd_some in E. destruct E as (off & EO & E). apply obnd_some in E. destruct E as (l & EM & E).
    apply obnd_some in E. destruct E as (sts' & ES' & E). injection E as <-. fold (argpc_of R) in ES'.
    destruct (TY pc k t (or_introl eq_refl)) as (T1 & T2 & T3). rewrite T1 in ET. injection ET as <-.
    cbn [desc] in D. destruct D as [D1 D2]. rewrite D1 in EO. injection EO as <-.
    rewrite moves_raw in EM. destruct (raw t pc (skipn ints param_int_reg) (skipn sses param_sse_reg) 0 (Z.to_nat (eightbytes t))) as [rw|] eqn:ER; [|discriminate].
    cbn in EM. injection EM as <-. destruct (raw_facts _ _ _ _ _ _ _ ER) as (A1 & A2 & _).
    assert (0 <= eightbytes t) as E0 by (unfold eightbytes; apply Z.div_pos; lia).
    assert (8 | B - 8 * eightbytes t) as DB' by (apply Z.divide_sub_r; [exact DB|exists (eightbytes t); lia]).
    destruct (IH _ _ _ _ DB' D2 (fun a b c H => TY a b c (or_intror H)) ES') as (L & -> & ND & IN).
    set (off := B - 8 * eightbytes t) in *.
    exists (map (fun x : reg * nat * Z => let '(r, j, w) := x in (r, off + 8 * Z.of_nat j, w)) rw ++ L).
    assert (map soff_of (map (fun x : reg * nat * Z => let '(r, j, w) := x in (r, off + 8 * Z.of_nat j, w)) rw) = map (fun j => off + 8 * Z.of_nat j) (seq 0 (Z.to_nat (eightbytes t)))) as EQ.
    { rewrite <- A1, !map_map. apply map_ext. intros [[r j] w]. reflexivity. }
    assert (0 <= total (map snd R)) as TR.
    { assert (forall pc k t, In (pc, (k, t)) R -> 0 < lsize t) as Q by (intros a b c H; apply (TY a b c); right; exact H). clear - Q.
      induction R as [|[a [b c]] R IH]; [cbn; lia|]. cbn [map snd total fold_right]. fold (total (map snd R)). specialize (IH (fun x y z H => Q x y z (or_intror H))).
      assert (0 < lsize c) by (apply (Q a b c); left; reflexivity). assert (0 <= eightbytes c) by (unfold eightbytes; apply Z.div_pos; lia). lia. }
    split; [rewrite map_app, map_map; f_equal; apply map_ext; intros [[r j] w]; reflexivity|]. split.
    + rewrite map_app, EQ.
      assert (forall l1 l2 : list Z, NoDup l1 -> NoDup l2 -> (forall x, In x l1 -> In x l2 -> False) -> NoDup (l1 ++ l2)) as NA.
      { clear. induction l1 as [|x l1 IH]; intros l2 A B D; [exact B|]. inversion A; subst. cbn. constructor.
        - intro Q. apply in_app_or in Q. destruct Q as [Q|Q]; [contradiction|apply (D x); [left; reflexivity|exact Q]].
        - apply IH; auto. intros y Y1 Y2. apply (D y); [right; exact Y1|exact Y2]. }
      apply NA; [|exact ND|].
      * apply Injective_map_NoDup; [intros a b H; lia|apply seq_NoDup].
      * intros x X1 X2. apply in_map_iff in X1. destruct X1 as (j & <- & _). apply in_map_iff in X2. destruct X2 as ([[r o] w] & EO & X2). cbn [soff_of fst snd] in EO. destruct (IN _ _ _ X2) as (_ & _ & _ & Q4). unfold soff_of in EO. cbn [fst snd] in EO. lia.
    + intros r o w X. apply in_app_or in X. destruct X as [X|X].
      * apply in_map_iff in X. destruct X as ([[r' j] w'] & EQ' & X). assert (o = off + 8 * Z.of_nat j /\ w = w') as [-> ->] by (split; congruence). pose proof (A2 _ _ _ X) as W.
        assert (In j (seq 0 (Z.to_nat (eightbytes t)))) as J by (rewrite <- A1; apply in_map_iff; exists (r', j, w'); auto). apply in_seq in J.
        assert (8 * Z.of_nat j < lsize t) as JL. { unfold eightbytes in J. pose proof (Z.div_mod (lsize t + 7) 8 ltac:(lia)). pose proof (Z.mod_pos_bound (lsize t + 7) 8 ltac:(lia)). lia. }
        destruct (width_ok t pc j w' T3 T2 W JL) as [W1 _]. cbn [map snd total fold_right]. fold (total (map snd R)).
        split; [apply Z.divide_add_r; [exact DB'|exists (Z.of_nat j); lia]|]. unfold off. lia.
      * destruct (IN _ _ _ X) as (Q1 & Q2 & Q3 & Q4). cbn [map snd total fold_right]. fold (total (map snd R)). unfold off in *. split; [exact Q1|]. lia.
Qed.

Section Exec.
Variables (obj : nat -> Z -> Z) (ext : reg -> list Z -> list Z) (junk : reg -> list Z).
Hypothesis ext_ok : forall r l, length (ext r l) = rsize r /\ ((length l <= rsize r)%nat -> firstn (length l) (ext r l) = l).
Hypothesis junk_ok : forall r, length (junk r) = rsize r.
Local Notation exec := (exec obj ext junk).
Local Notation bytes_of := (bytes_of obj).
Lemma exec_app a b s : exec (a ++ b) s = exec b (exec a s).
Proof. apply fold_left_app. Qed.
Lemma bytes_length i o w : length (bytes_of i o w) = Z.to_nat w.
Proof. unfold CallModel.bytes_of. rewrite map_length, seq_length. reflexivity. Qed.
Lemma nth_bytes i o w k d : (k < Z.to_nat w)%nat -> nth k (bytes_of i o w) d = obj i (o + Z.of_nat k).
Proof.
  intro H. unfold CallModel.bytes_of. rewrite (nth_indep _ d (obj i (o + Z.of_nat 0))) by (rewrite map_length, seq_length; exact H).
  rewrite (map_nth (fun k => obj i (o + Z.of_nat k))). rewrite seq_nth by exact H. reflexivity.
Qed.
Lemma nth_ext_bytes r i o w k : 0 <= w <= Z.of_nat (rsize r) -> 0 <= k < w -> nth (Z.to_nat k) (ext r (bytes_of i o w)) 0 = obj i (o + k).
Proof.
  intros H K. destruct (ext_ok r (bytes_of i o w)) as [L F]. rewrite bytes_length in F. specialize (F ltac:(lia)).
  assert (nth (Z.to_nat k) (firstn (Z.to_nat w) (ext r (bytes_of i o w))) 0 = obj i (o + k)) as X.
  { rewrite F, nth_bytes by lia. f_equal. lia. }
  rewrite <- X. rewrite <- (firstn_skipn (Z.to_nat w) (ext r (bytes_of i o w))) at 1. apply app_nth1. rewrite F, bytes_length. lia.
Qed.
Lemma ext_length r i o w : 0 <= w <= Z.of_nat (rsize r) -> length (ext r (bytes_of i o w)) = rsize r.
Proof. intro H. apply ext_ok. Qed.

(* one argument on the stack *)
Lemma push_one i t s : 0 < lsize t ->
  let s' := exec (push i t) s in
  m_rsp s' = m_rsp s - 8 * eightbytes t /\ m_rbp s' = m_rbp s /\ m_rip s' = m_rip s /\ (forall a, m_rsp s <= a -> m_mem s' a = m_mem s a) /\
  (forall k, 0 <= k < lsize t -> m_mem s' (m_rsp s' + k) = obj i k) /\
  (forall r, ~ In r [AX; CX; SI; DI] -> m_reg s' r = m_reg s r).
Proof.
  intro P.
  assert (forall s o w, 0 <= w <= 8 -> let s' := step obj ext junk s (PushArg i o w) in
    m_rsp s' = m_rsp s - 8 /\ m_rbp s' = m_rbp s /\ m_rip s' = m_rip s /\ (forall a, m_rsp s <= a -> m_mem s' a = m_mem s a) /\
    (forall k, 0 <= k < w -> m_mem s' (m_rsp s' + k) = obj i (o + k)) /\
    (forall r, ~ In r [AX; CX; SI; DI] -> m_reg s' r = m_reg s r)) as PA.
  { clear s. intros s o w W. cbn. repeat split.
    - intros a A. apply write_other. rewrite ext_length by (cbn; lia). cbn. lia.
    - intros k K. rewrite <- (Z2Nat.id k) at 1 by lia. rewrite write_at by (rewrite ext_length; cbn; lia). apply nth_ext_bytes; cbn; lia.
    - intros r R. unfold with_reg, m_reg at 1. rewrite !setr_other; [reflexivity| |]; intro; subst; apply R; cbn; auto. }
  assert (forall w, 0 <= w <= 8 -> eightbytes t = 1 -> lsize t = w ->
    let s' := exec [PushArg i 0 w] s in
    m_rsp s' = m_rsp s - 8 * eightbytes t /\ m_rbp s' = m_rbp s /\ m_rip s' = m_rip s /\ (forall a, m_rsp s <= a -> m_mem s' a = m_mem s a) /\
    (forall k, 0 <= k < lsize t -> m_mem s' (m_rsp s' + k) = obj i k) /\
    (forall r, ~ In r [AX; CX; SI; DI] -> m_reg s' r = m_reg s r)) as ONE.
  { intros w W E L. unfold CallModel.exec. cbn [fold_left]. rewrite E, L. replace (8 * 1) with 8 by lia. apply (PA s 0 w W). }
  assert (let s' := exec [Sub (eightbytes t * 8); CopyArg i (eightbytes t)] s in
    m_rsp s' = m_rsp s - 8 * eightbytes t /\ m_rbp s' = m_rbp s /\ m_rip s' = m_rip s /\ (forall a, m_rsp s <= a -> m_mem s' a = m_mem s a) /\
    (forall k, 0 <= k < lsize t -> m_mem s' (m_rsp s' + k) = obj i k) /\
    (forall r, ~ In r [AX; CX; SI; DI] -> m_reg s' r = m_reg s r)) as COPY.
  { unfold CallModel.exec. cbn [fold_left step m_rsp m_rbp m_reg m_mem m_rip with_reg with_mem].
    assert (lsize t <= 8 * eightbytes t) as G by (unfold eightbytes; pose proof (Z.div_mod (lsize t + 7) 8 ltac:(lia)); pose proof (Z.mod_pos_bound (lsize t + 7) 8 ltac:(lia)); lia).
    split; [lia|]. split; [reflexivity|]. split; [reflexivity|]. split; [|split].
    - intros a A. apply write_other. rewrite bytes_length. lia.
    - intros k K. rewrite <- (Z2Nat.id k) at 1 by lia. rewrite write_at by (rewrite bytes_length; lia). rewrite nth_bytes by lia. f_equal. lia.
    - intros r R. rewrite !setr_other; [reflexivity| | |]; intro; subst; apply R; cbn; auto. }
  destruct t as [k|n t|u f z ms]; [|exact COPY|exact COPY].
  destruct k; cbn in P; try lia; try (apply ONE; cbn; try lia; reflexivity).
  cbn [push]. destruct (PA s 8 8 ltac:(lia)) as (A1 & A2 & A3 & A4 & A5 & A6). set (s1 := step obj ext junk s (PushArg i 8 8)) in *.
  destruct (PA s1 0 8 ltac:(lia)) as (B1 & B2 & B3 & B4 & B5 & B6). unfold CallModel.exec. cbn [fold_left]. fold s1.
  set (s2 := step obj ext junk s1 (PushArg i 0 8)) in *. change (lsize (LScalar T_LDOUBLE)) with 16. change (eightbytes (LScalar T_LDOUBLE)) with 2.
  cbn zeta. split; [lia|]. split; [congruence|]. split; [congruence|]. split; [|split].
  - intros a A. rewrite B4 by lia. apply A4. lia.
  - intros k K. destruct (Z_lt_ge_dec k 8) as [L|L].
    + rewrite (B5 k) by lia. f_equal.
    + rewrite B4 by lia. replace (m_rsp s2 + k) with (m_rsp s1 + (k - 8)) by lia. rewrite A5 by lia. f_equal. lia.
  - intros r R. rewrite B6, A6 by exact R. reflexivity.
Qed.

Lemma push_all S0 : Forall (fun x : nat * ltype => 0 < lsize (snd x)) S0 -> forall s,
  let s' := exec (flat_map (fun x => push (fst x) (snd x)) (rev S0)) s in
  m_rsp s' = m_rsp s - total S0 /\ m_rbp s' = m_rbp s /\ m_rip s' = m_rip s /\ (forall a, m_rsp s <= a -> m_mem s' a = m_mem s a) /\
  (forall A i t B, S0 = A ++ (i, t) :: B -> forall k, 0 <= k < lsize t -> m_mem s' (m_rsp s' + total A + k) = obj i k) /\
  (forall r, ~ In r [AX; CX; SI; DI] -> m_reg s' r = m_reg s r).
Proof.
  induction 1 as [|[i t] S0 P F IH]; intro s.
  - cbn. repeat split; auto; try lia. intros [|? ?] ? ? ? E; discriminate.
  - cbn [rev]. rewrite flat_map_app, exec_app. cbn [flat_map fst snd]. rewrite app_nil_r. cbn [snd] in P.
    destruct (IH s) as (A1 & A2 & A3 & A4 & A5 & A6). set (s1 := exec (flat_map (fun x => push (fst x) (snd x)) (rev S0)) s) in *.
    destruct (push_one i t s1 P) as (B1 & B2 & B3 & B4 & B5 & B6). set (s2 := exec (push i t) s1) in *. cbn zeta.
    cbn [total fold_right snd]. fold (total S0).
    assert (0 <= eightbytes t) as E0 by (unfold eightbytes; apply Z.div_pos; lia).
    assert (0 <= total S0) as T0.
    { clear - F. induction F as [|[i t] S0 P F IH]; [cbn; lia|]. cbn [total fold_right snd] in *. fold (total S0). assert (0 <= eightbytes t) by (unfold eightbytes; apply Z.div_pos; lia). lia. }
    split; [lia|]. split; [congruence|]. split; [congruence|]. split; [|split].
    + intros a A. rewrite B4 by lia. apply A4. lia.
    + intros A j u B E k K. destruct A as [|x A].
      * injection E as <- <- <-. cbn [total fold_right]. rewrite Z.add_0_r. apply B5, K.
      * injection E as <- E. cbn [total fold_right snd]. fold (total A). replace (m_rsp s2 + (8 * eightbytes t + total A) + k) with (m_rsp s1 + total A + k) by lia.
        assert (0 <= total A) as TA.
        { rewrite E in F. apply Forall_app in F. destruct F as [F _]. clear - F. induction F as [|[i t] S0 P F IH]; [cbn; lia|]. cbn [total fold_right snd] in *. fold (total S0). assert (0 <= eightbytes t) by (unfold eightbytes; apply Z.div_pos; lia). lia. }
        rewrite B4 by lia. apply (A5 A j u B E k K).
    + intros r R. rewrite B6, A6 by exact R. reflexivity.
Qed.

(* loads change registers only *)
Lemma exec_loads L : NoDup (map ireg_of L) -> (forall x, In x L -> ireg_of x <> R11) -> forall s, let s' := exec (map loadop L) s in
  m_rsp s' = m_rsp s /\ m_rbp s' = m_rbp s /\ m_mem s' = m_mem s /\ m_rip s' = m_rip s /\
  (forall r, r <> R11 -> ~ In r (map ireg_of L) -> m_reg s' r = m_reg s r) /\
  (forall r i o w, In (r, i, o, w) L -> m_reg s' r = ext r (bytes_of i o w)).
Proof.
  induction L as [|[[[r i] o] w] L IH]; intros ND N11 s; cbn zeta.
  - cbn. repeat split; auto; intros; contradiction.
  - cbn [map loadop] in *. inversion ND as [|? ? N1 N2]; subst. unfold CallModel.exec. cbn [fold_left]. fold (exec (map loadop L) (step obj ext junk s (Load r i o w))).
    destruct (IH N2 (fun x H => N11 x (or_intror H)) (step obj ext junk s (Load r i o w))) as (A1 & A2 & A3 & A4 & A5 & A6).
    assert (r <> R11) as R by (apply (N11 (r, i, o, w)); left; reflexivity).
    split; [rewrite A1; reflexivity|]. split; [rewrite A2; reflexivity|]. split; [rewrite A3; reflexivity|]. split; [rewrite A4; reflexivity|]. split.
    + intros x X1 X2. rewrite A5; [|exact X1|intro Q; apply X2; right; exact Q]. cbn. rewrite setr_other by (intros ->; apply X2; left; reflexivity). rewrite setr_other by congruence. reflexivity.
    + intros r' i' o' w' [X|X].
      * injection X as <- <- <- <-. rewrite A5; [|exact R|exact N1]. cbn. apply setr_same.
      * eapply A6; exact X.
Qed.
(* stores change memory only *)
Lemma exec_stores L : NoDup (map soff_of L) -> (forall r o w, In (r, o, w) L -> (8 | o) /\ 0 < w <= 8) -> forall s,
  (forall r o w, In (r, o, w) L -> 8 <= Z.of_nat (length (m_reg s r))) -> let s' := exec (map storeop L) s in
  m_rsp s' = m_rsp s /\ m_rbp s' = m_rbp s /\ m_reg s' = m_reg s /\ m_rip s' = m_rip s /\
  (forall a, (forall r o w, In (r, o, w) L -> a < m_rbp s + o \/ m_rbp s + o + 8 <= a) -> m_mem s' a = m_mem s a) /\
  (forall r o w k, In (r, o, w) L -> 0 <= k < w -> m_mem s' (m_rbp s + o + k) = nth (Z.to_nat k) (m_reg s r) 0).
Proof.
  induction L as [|[[r o] w] L IH]; intros ND OK s LEN; cbn zeta.
  - cbn. repeat split; auto; intros; contradiction.
  - cbn [map storeop] in *. inversion ND as [|? ? N1 N2]; subst. unfold CallModel.exec. cbn [fold_left]. fold (exec (map storeop L) (step obj ext junk s (Store r o w))).
    destruct (IH N2 (fun a b c H => OK a b c (or_intror H)) (step obj ext junk s (Store r o w)) (fun a b c H => LEN a b c (or_intror H))) as (A1 & A2 & A3 & A4 & A5 & A6).
    destruct (OK r o w (or_introl eq_refl)) as [D W]. pose proof (LEN r o w (or_introl eq_refl)) as LR.
    assert (length (firstn (Z.to_nat w) (m_reg s r)) = Z.to_nat w) as FL by (rewrite firstn_length; lia).
    cbn [step with_mem m_rsp m_rbp m_reg m_mem m_rip] in *.
    split; [exact A1|]. split; [exact A2|]. split; [exact A3|]. split; [exact A4|]. split.
    + intros a X. rewrite A5 by (intros r' o' w' H; apply (X r' o' w'); right; exact H). apply write_other. rewrite FL. specialize (X r o w (or_introl eq_refl)). lia.
    + intros r' o' w' k [X|X] K.
      * injection X as <- <- <-. rewrite A5.
        -- rewrite <- (Z2Nat.id k) at 1 by lia. rewrite write_at by lia.
           rewrite <- (firstn_skipn (Z.to_nat w) (m_reg s r)) at 2. symmetry. apply app_nth1. lia.
        -- intros r' o' w' H. assert (o <> o') as NE. { intros <-. apply N1. apply in_map_iff. exists (r', o, w'). auto. }
           destruct (OK r' o' w' (or_intror H)) as [[q' D'] W']. destruct D as [q D]. lia.
      * apply (A6 r' o' w' k X K).
Qed.

(* --- the caller --- *)
Definition first_reg (respc : param_class) : nat := if is_memory respc then 1 else 0.
Lemma total_nonneg l : Forall (fun x : nat * ltype => 0 < lsize (snd x)) l -> 0 <= total l.
Proof.
  induction 1 as [|[i t] S0 P F IH]; [cbn; lia|]. cbn [total fold_right snd] in *. fold (total S0).
  assert (0 <= eightbytes t) by (unfold eightbytes; apply Z.div_pos; lia). lia.
Qed.
Lemma total_mod l : total l mod 8 = 0.
Proof. assert (8 | total l) as H by (induction l as [|x l IH]; [exists 0; reflexivity|cbn [total fold_right]; fold (total l); apply Z.divide_add_r; [exists (eightbytes (snd x)); lia|exact IH]]). apply Z.mod_divide; [lia|exact H]. Qed.

Definition sized (args : list ltype) : Prop := Forall (fun t => 0 < lsize t) args.
Lemma sized_stack args i ints sses R S0 : sized args -> split_args i args ints sses = Some (R, S0) ->
  Forall (fun x : nat * ltype => 0 < lsize (snd x)) S0 /\ Forall (fun x : param_class * (nat * ltype) => 0 < lsize (snd (snd x))) R.
Proof.
  intros H E. destruct (split_index _ _ _ _ _ _ E) as (A & B & _). split; apply Forall_forall.
  - intros [k t] I. destruct (B _ _ I) as [_ N]. apply nth_error_In in N. unfold sized in H. rewrite Forall_forall in H. apply (H _ N).
  - intros [pc [k t]] I. destruct (A _ _ _ I) as (_ & N & _). apply nth_error_In in N. unfold sized in H. rewrite Forall_forall in H. apply (H _ N).
Qed.

Lemma caller_ok args vararg respc ops used s : sized args -> push_function_arguments args vararg respc = Some (ops, used) ->
  let s1 := exec ops s in
  exists R S0 loads z, split_args 0 args (first_reg respc) 0 = Some (R, S0) /\ load_args args (argpc_of R) (first_reg respc) 0 = Some (loads, z) /\
    used mod 16 = 0 /\ total S0 <= used /\
    m_rsp s1 = m_rsp s - used /\ m_rbp s1 = m_rbp s /\ m_rip s1 = m_rip s /\ (forall a, m_rsp s <= a -> m_mem s1 a = m_mem s a) /\
    (forall A i t B, S0 = A ++ (i, t) :: B -> forall k, 0 <= k < lsize t -> m_mem s1 (m_rsp s1 + total A + k) = obj i k) /\
    (forall r i o w, In (Load r i o w) loads -> m_reg s1 r = ext r (bytes_of i o w)) /\
    (forall r, ~ In r ([AX; R11] ++ param_int_reg ++ param_sse_reg) -> m_reg s1 r = m_reg s r) /\
    (vararg = true -> m_reg s1 AX = ext AX (le_bytes 4 (Z.of_nat z)) /\ (z <= 8)%nat).
Proof.
  intros SZ E. unfold push_function_arguments in E. fold (first_reg respc) in E.
  apply obnd_some in E. destruct E as ([argpc used0] & EC & E). apply obnd_some in E. destruct E as ([pad used1] & EP & E).
  apply obnd_some in E. destruct E as ([loads z] & EL & E). apply obnd_some in E. destruct E as (al & EA & E). injection E as <- <-.
  destruct (classify_args_split _ _ _ _ _ _ _ _ EC) as (R & S0 & ES & -> & ->). change ([] ++ argpc_of R) with (argpc_of R) in *. rewrite (push_args_split _ _ _ _ _ _ ES).
  destruct (sized_stack _ _ _ _ _ _ SZ ES) as [FS _]. pose proof (total_nonneg _ FS) as TN. pose proof (total_mod S0) as TM.
  intro s1. unfold s1. clear s1. rewrite !exec_app.
  assert (exists p, exec pad s = mkMach (m_rsp s - p) (m_rbp s) (m_reg s) (m_mem s) (m_rip s) /\ used1 = total S0 + p /\ 0 <= p /\ used1 mod 16 = 0) as (p & E0 & EU & P0 & M16).
  { rewrite Z.add_0_l in EP. destruct (Z.eqb_spec (total S0 mod 16) 0) as [Q|Q].
    - injection EP as <- <-. exists 0. cbn. rewrite Z.sub_0_r. destruct s; cbn. repeat split; try lia; exact Q.
    - destruct (Z.eqb_spec ((total S0 + 8) mod 16) 0) as [Q'|Q']; [|discriminate]. injection EP as <- <-. exists 8. cbn. repeat split; try lia; exact Q'. }
  rewrite E0. set (s0 := mkMach (m_rsp s - p) (m_rbp s) (m_reg s) (m_mem s) (m_rip s)).
  destruct (push_all S0 FS s0) as (B1 & B2 & B3 & B4 & B5 & B6). set (s2 := exec (flat_map (fun x => push (fst x) (snd x)) (rev S0)) s0) in *.
  destruct (load_facts _ _ _ _ _ _ EL) as (L & -> & ND & IN).
  assert (forall x, In x L -> In (ireg_of x) (param_int_reg ++ param_sse_reg)) as IN'.
  { intros x X. apply in_or_app. destruct (IN _ X) as [Q|Q]; [left|right]; eapply in_skipn; exact Q. }
  assert (forall x, In x L -> ireg_of x <> R11) as N11 by (intros x X Q; apply IN' in X; rewrite Q in X; cbn in X; intuition discriminate).
  assert (forall x, In x L -> ireg_of x <> AX) as NAX by (intros x X Q; apply IN' in X; rewrite Q in X; cbn in X; intuition discriminate).
  destruct (exec_loads L ND N11 s2) as (C1 & C2 & C3 & C4 & C5 & C6). set (s3 := exec (map loadop L) s2) in *.
  assert (m_rsp (exec al s3) = m_rsp s3 /\ m_rbp (exec al s3) = m_rbp s3 /\ m_mem (exec al s3) = m_mem s3 /\ m_rip (exec al s3) = m_rip s3 /\
    (forall r, r <> AX -> m_reg (exec al s3) r = m_reg s3 r) /\ (vararg = true -> m_reg (exec al s3) AX = ext AX (le_bytes 4 (Z.of_nat z)) /\ (z <= 8)%nat)) as (D1 & D2 & D3 & D4 & D5 & D6).
  { destruct vararg.
    - destruct (Nat.leb_spec z 8) as [Z8|]; [|discriminate]. injection EA as <-. unfold CallModel.exec. cbn [fold_left]. repeat split; auto.
      intros r N. cbn. apply setr_other. congruence.
    - injection EA as <-. cbn. repeat split; auto; intros; discriminate. }
  exists R, S0, (map loadop L), z. split; [exact ES|]. split; [exact EL|]. split; [exact M16|]. split; [lia|].
  assert (m_rsp s0 = m_rsp s - p) as RS0 by reflexivity.
  split; [rewrite D1, C1, B1, RS0; lia|]. split; [rewrite D2, C2, B2; reflexivity|]. split; [rewrite D4, C4, B3; reflexivity|]. split; [|split; [|split; [|split]]].
  - intros a A. rewrite D3, C3, B4; [reflexivity|lia].
  - intros A i t B EQ k K. rewrite D3, C3, D1, C1. apply (B5 A i t B EQ k K).
  - intros r i o w X. apply in_map_iff in X. destruct X as ([[[r' i'] o'] w'] & EQ & X). cbn in EQ. injection EQ as -> -> -> ->.
    rewrite D5 by (apply (NAX _ X)). apply (C6 _ _ _ _ X).
  - intros r N. rewrite D5 by (intros ->; apply N; cbn; auto). rewrite C5.
    + rewrite B6; [reflexivity|]. intro Q. apply N. cbn in Q. cbn. intuition.
    + intros ->. apply N. cbn. auto.
    + intro Q. apply in_map_iff in Q. destruct Q as (x & <- & Q). apply N. apply IN' in Q. apply in_or_app. right. exact Q.
  - exact D6.
Qed.

(* --- the callee --- *)
Definition wr (lo hi : Z) (o : op) : Prop :=
  match o with
  | Store _ o w => 0 <= w /\ lo <= o /\ o + w <= hi
  | SaveSse l => Forall (fun x => lo <= snd x /\ snd x + 16 <= hi) l
  | _ => False
  end.
Lemma wr_exec lo hi ops : Forall (wr lo hi) ops -> forall s, let s' := exec ops s in
  m_rsp s' = m_rsp s /\ m_rbp s' = m_rbp s /\ m_reg s' = m_reg s /\ m_rip s' = m_rip s /\
  (forall a, a < m_rbp s + lo \/ m_rbp s + hi <= a -> m_mem s' a = m_mem s a).
Proof.
  induction 1 as [|o ops H F IH]; intro s; cbn zeta; [cbn; auto|].
  unfold CallModel.exec. cbn [fold_left]. fold (exec ops (step obj ext junk s o)).
  assert (m_rsp (step obj ext junk s o) = m_rsp s /\ m_rbp (step obj ext junk s o) = m_rbp s /\ m_reg (step obj ext junk s o) = m_reg s /\ m_rip (step obj ext junk s o) = m_rip s /\
    (forall a, a < m_rbp s + lo \/ m_rbp s + hi <= a -> m_mem (step obj ext junk s o) a = m_mem s a)) as (A1 & A2 & A3 & A4 & A5).
  { destruct o as [k|k|i o w|i n|r i o w|n| | |r|r|r o w|l|r|r|o| | ]; cbn [wr] in H; try contradiction.
    - cbn. repeat split; auto. intros a A. apply write_other. rewrite firstn_length. lia.
    - cbn [step wr] in *. destruct (nth 0 (m_reg s AX) 0 =? 0); [auto 10|]. clear - H. revert s. induction H as [|[r o] l [X1 X2] F IH]; intro s; [cbn; auto|].
      cbn [fold_left fst snd] in *. set (s1 := with_mem s (write (m_mem s) (m_rbp s + o) (firstn 16 (m_reg s r)))).
      destruct (IH s1) as (B1 & B2 & B3 & B4 & B5). split; [exact B1|]. split; [exact B2|]. split; [exact B3|]. split; [exact B4|].
      intros a A. rewrite B5 by exact A. apply write_other. rewrite firstn_length. lia. }
  destruct (IH (step obj ext junk s o)) as (B1 & B2 & B3 & B4 & B5). rewrite B1, B2, B3, B4. repeat split; auto.
  intros a A. rewrite B5 by (rewrite A2; exact A). apply A5, A.
Qed.
Lemma exec_pushes l : (forall r, In r l -> rsize r = 8%nat) -> forall s, (forall r, length (m_reg s r) = rsize r) ->
  let s' := exec (map Push l) s in
  m_rsp s' = m_rsp s - 8 * Z.of_nat (length l) /\ m_rbp s' = m_rbp s /\ m_reg s' = m_reg s /\ m_rip s' = m_rip s /\
  (forall a, m_rsp s <= a -> m_mem s' a = m_mem s a) /\
  (forall k r, nth_error l k = Some r -> read (m_mem s') (m_rsp s - 8 * (Z.of_nat k + 1)) 8 = m_reg s r).
Proof.
  induction l as [|r l IH]; intros RS s RL; cbn zeta.
  - cbn. repeat split; auto; [lia|]. intros [|k] ? E; discriminate.
  - cbn [map]. unfold CallModel.exec. cbn [fold_left]. fold (exec (map Push l) (step obj ext junk s (Push r))).
    destruct (IH (fun x H => RS x (or_intror H)) (step obj ext junk s (Push r)) RL) as (A1 & A2 & A3 & A4 & A5 & A6).
    cbn [step push8 m_rsp m_rbp m_reg m_mem m_rip] in *.
    assert (length (m_reg s r) = 8%nat) as L8 by (rewrite RL; apply RS; left; reflexivity).
    split; [rewrite A1; cbn [length]; lia|]. split; [exact A2|]. split; [exact A3|]. split; [exact A4|]. split.
    + intros a A. rewrite A5 by lia. apply write_other. lia.
    + intros [|k] x E; cbn in E.
      * injection E as <-. replace (m_rsp s - 8 * (Z.of_nat 0 + 1)) with (m_rsp s - 8) by lia.
        transitivity (read (write (m_mem s) (m_rsp s - 8) (m_reg s r)) (m_rsp s - 8) 8).
        -- apply read_ext. intros k K. apply A5. lia.
        -- pose proof (read_write (m_mem s) (m_rsp s - 8) (m_reg s r)) as RW. rewrite L8 in RW. exact RW.
      * rewrite <- (A6 k x E). f_equal. lia.
Qed.

(* the frame *)
Definition nsaved (locals : list local) : nat := snd (fst (allocate_registers locals 0 0)).
Lemma alloc_regs_bound ls : forall i s ks i' s', allocate_registers ls i s = (ks, i', s') -> (i <= 5)%nat -> (s <= 8)%nat ->
  length ks = length ls /\ (i <= i' <= 5)%nat /\ (s <= s' <= 8)%nat.
Proof.
  induction ls as [|l ls IH]; intros i s ks i' s' E I S0; cbn [allocate_registers] in E.
  - injection E as <- <- <-. cbn. lia.
  - assert (forall k a b, (let '(ks, i, s) := allocate_registers ls a b in (k :: ks, i, s)) = (ks, i', s') -> (i <= a <= 5)%nat -> (s <= b <= 8)%nat ->
      length ks = length (l :: ls) /\ (i <= i' <= 5)%nat /\ (s <= s' <= 8)%nat) as G.
    { intros k a b Q A B. destruct (allocate_registers ls a b) as [[ks1 i1] s1] eqn:R. injection Q as <- <- <-. destruct (IH _ _ _ _ _ R) as (X & Y & Z); [lia|lia|]. cbn. lia. }
    destruct (l_temp l); [|eapply G; [exact E|lia|lia]].
    destruct (l_type l) as [k| |]; [|eapply G; [exact E|lia|lia]|eapply G; [exact E|lia|lia]].
    destruct k; try (eapply G; [exact E|lia|lia]); try (destruct (Nat.ltb_spec i 5); (eapply G; [exact E|lia|lia]));
      destruct (Nat.ltb_spec s 8); (eapply G; [exact E|lia|lia]).
Qed.
Lemma alloc_locals_le ls : Forall (fun l => 0 <= lsize (l_type l)) ls -> forall ks ro st os e, allocate_locals ls ks ro st = (os, e) -> (8 | st) -> e <= st /\ (8 | e).
Proof.
  induction 1 as [|l ls H F IH]; intros ks ro st os e E D; cbn [allocate_locals] in E; [injection E as <- <-; split; [lia|exact D]|].
  destruct ks as [|k ks]; [injection E as <- <-; split; [lia|exact D]|].
  assert (0 <= eightbytes (l_type l)) by (unfold eightbytes; apply Z.div_pos; lia).
  destruct (l_none l && (k =? 0)%nat && negb (l_vla l)).
  - destruct (allocate_locals ls ks ro (st - eightbytes (l_type l) * 8)) as [os' e'] eqn:Q. injection E as <- <-.
    destruct (IH _ _ _ _ _ Q) as [A B]; [apply Z.divide_sub_r; [exact D|exists (eightbytes (l_type l)); lia]|]. split; [lia|exact B].
  - destruct (allocate_locals ls ks ro st) as [os' e'] eqn:Q. injection E as <- <-. apply (IH _ _ _ _ _ Q D).
Qed.

Record entered (respc : param_class) (vararg : bool) (params : list ltype) (locals : list local) (f : frame) (R : list (param_class * (nat * ltype))) (S0 : list (nat * ltype))
  (st0 st2 st3 : Z) (sub : list op) (stores : list op) : Prop := {
  en_saved : f_saved f = nsaved locals /\ (nsaved locals <= 5)%nat;
  en_st0 : st0 = if vararg then -176 else if is_memory respc then -8 else 0;
  en_split : split_args 0 params (first_reg respc) 0 = Some (R, S0);
  en_len : length (f_offs f) = length params;
  en_desc : desc (st0 - 8 * Z.of_nat (nsaved locals)) R (f_offs f);
  en_asc : asc 16 S0 (f_offs f);
  en_locals : allocate_locals locals (fst (fst (allocate_registers locals 0 0))) (8 * Z.of_nat (nsaved locals)) (st0 - total (map snd R)) = (f_locals f, st2);
  en_st2 : st2 <= st0 - total (map snd R) /\ (8 | st2);
  en_st3 : st3 <= st2 /\ (8 | st3) /\ (st3 <= 0);
  en_size : f_size f = 8 * Z.of_nat (nsaved locals) - st3 /\ f_size f mod 16 = 0;
  en_ret : f_ret f = if is_memory respc then (if vararg then -176 - 8 * Z.of_nat (nsaved locals) else -8 - 8 * Z.of_nat (nsaved locals)) else 0;
  en_stores : store_params params (f_offs f) (argpc_of R) (first_reg respc) 0 = Some stores;
  en_sub : sub = (if st3 <? 0 then Sub (- st3) :: (if is_memory respc then [Store DI (f_ret f) 8] else []) else []);
  en_ops : f_ops f = [PushBp; MovBp] ++ map Push (firstn (nsaved locals) temp_int_reg) ++ sub ++ (if vararg then SaveSse save_sses :: save_ints else []) ++ stores;
  en_argpc : f_argpc f = argpc_of R;
  en_va : va_overflow (f_va f) = 16 + total S0 /\ va_save (f_va f) = -176 }.
Definition locals_sized (ls : list local) : Prop := Forall (fun l => 0 <= lsize (l_type l)) ls.
Lemma enter_ok respc vararg params locals f : sized params -> locals_sized locals -> enter respc vararg params locals = Some f ->
  exists R S0 st0 st2 st3 sub stores, entered respc vararg params locals f R S0 st0 st2 st3 sub stores.
Proof.
  intros SP SL E. unfold enter in E. fold (first_reg respc) in E.
  destruct (allocate_registers locals 0 0) as [[slots ints] sses] eqn:ER.
  destruct (alloc_regs_bound _ _ _ _ _ _ ER) as (_ & I5 & _); [lia|lia|].
  assert (nsaved locals = ints) as NS by (unfold nsaved; rewrite ER; reflexivity).
  set (st0 := if vararg then -176 else if is_memory respc then -8 else 0) in *.
  apply obnd_some in E. destruct E as (q & EQ & E).
  destruct (place_ok _ _ _ _ _ EQ eq_refl) as (R & S0 & os & P1 & P2 & P3 & P4 & P5 & P6 & P7 & P8). cbn [p_offs p_argpc p_ints p_sses p_mem p_stack app] in *.
  destruct (allocate_locals locals slots (Z.of_nat ints * 8) (p_stack q)) as [los st2] eqn:EL.
  set (st3 := if st2 - Z.of_nat ints * 8 <? 0 then st2 - (16 - (Z.of_nat ints * 8 - st2) mod 16) else st2) in *.
  apply obnd_some in E. destruct E as (stores & ES & E). injection E as <-.
  assert (8 | st0) as D0 by (unfold st0; destruct vararg; [exists (-22); reflexivity|destruct (is_memory respc); [exists (-1); reflexivity|exists 0; reflexivity]]).
  assert (8 | p_stack q) as D1 by (rewrite P6; apply Z.divide_sub_r; [exact D0|apply Z.mod_divide; [lia|apply total_mod]]).
  destruct (alloc_locals_le _ SL _ _ _ _ _ EL D1) as [L1 L2].
  assert (0 <= total (map snd R)) as TR.
  { apply total_nonneg. destruct (sized_stack _ _ _ _ _ _ SP P1) as [_ FR]. clear - FR. induction FR; cbn; constructor; auto. }
  assert (st0 <= 0) as S00 by (unfold st0; destruct vararg; [lia|destruct (is_memory respc); lia]).
  assert (st3 <= st2 /\ (8 | st3) /\ st3 <= 0 /\ (Z.of_nat ints * 8 - st3) mod 16 = 0) as (T1 & T2 & T3 & T4).
  { unfold st3. destruct (Z.ltb_spec (st2 - Z.of_nat ints * 8) 0) as [Q|Q].
    - pose proof (Z.mod_pos_bound (Z.of_nat ints * 8 - st2) 16 ltac:(lia)) as MB. pose proof (Z.div_mod (Z.of_nat ints * 8 - st2) 16 ltac:(lia)) as DM.
      set (m := (Z.of_nat ints * 8 - st2) mod 16) in *. split; [lia|]. split; [|split; [lia|]].
      + destruct L2 as [y Y]. exists (y - 2 + (Z.of_nat ints - y) - 2 * ((Z.of_nat ints * 8 - st2) / 16)). lia.
      + apply Z.mod_divide; [lia|]. exists ((Z.of_nat ints * 8 - st2) / 16 + 1). lia.
    - assert (st2 = 0 /\ ints = 0%nat) as [-> ->] by lia. repeat split; try lia. exact L2. }
  exists R, S0, st0, st2, st3.
  exists (if st3 <? 0 then Sub (- st3) :: (if is_memory respc then [Store DI (if is_memory respc then if vararg then -176 - Z.of_nat ints * 8 else -8 - Z.of_nat ints * 8 else 0) 8] else []) else []), stores.
  constructor; cbn [f_ops f_offs f_locals f_saved f_sses f_ret f_size f_argpc f_va va_overflow va_save]; rewrite ?NS.
  - split; [reflexivity|lia].
  - reflexivity.
  - exact P1.
  - rewrite P2, P3. reflexivity.
  - replace (8 * Z.of_nat ints) with (Z.of_nat ints * 8) by lia. exact P7.
  - exact P8.
  - rewrite ER. cbn [fst]. rewrite <- P6. replace (8 * Z.of_nat ints) with (Z.of_nat ints * 8) by lia. exact EL.
  - split; [lia|exact L2].
  - auto.
  - replace (8 * Z.of_nat ints) with (Z.of_nat ints * 8) by lia. split; [reflexivity|exact T4].
  - replace (8 * Z.of_nat ints) with (Z.of_nat ints * 8) by lia. reflexivity.
  - rewrite <- P4. exact ES.
  - reflexivity.
  - reflexivity.
  - exact P4.
  - split; [exact P5|reflexivity].
Qed.

Lemma save_wr : Forall (wr (-176) 0) (SaveSse save_sses :: save_ints).
Proof. repeat constructor; cbn; lia. Qed.
Lemma wr_weaken lo hi lo' hi' ops : lo' <= lo -> hi <= hi' -> Forall (wr lo hi) ops -> Forall (wr lo' hi') ops.
Proof.
  intros A B. apply Forall_impl. intros [k|k|i o w|i n|r i o w|n| | |r|r|r o w|l|r|r|o| | ] H; cbn [wr] in *; try contradiction; [lia|].
  revert H. apply Forall_impl. intros x X. lia.
Qed.

(* running the code of a function up to its body *)
Lemma enter_exec respc vararg params locals f R S0 st0 st2 st3 sub stores s :
  sized params -> entered respc vararg params locals f R S0 st0 st2 st3 sub stores -> (forall r, length (m_reg s r) = rsize r) ->
  let s' := exec (f_ops f) s in
  m_rbp s' = m_rsp s - 8 /\ m_rsp s' = m_rbp s' - f_size f /\ m_reg s' = m_reg s /\ m_rip s' = m_rip s /\
  (forall a, m_rsp s <= a -> m_mem s' a = m_mem s a) /\
  read (m_mem s') (m_rbp s') 8 = le_bytes 8 (m_rbp s) /\
  ((vararg = false \/ nsaved locals = 0%nat) ->
    forall k r, nth_error (firstn (nsaved locals) temp_int_reg) k = Some r -> read (m_mem s') (m_rbp s' - 8 * (Z.of_nat k + 1)) 8 = m_reg s r) /\
  exists L, stores = map storeop L /\ (forall r o w k, In (r, o, w) L -> 0 <= k < w -> m_mem s' (m_rbp s' + o + k) = nth (Z.to_nat k) (m_reg s r) 0).
Proof.
  intros SP EN RL. destruct EN as [(E1a & E1b) E2 E3 E4 E5 E6 E7 (E8a & E8b) (E9a & E9b & E9c) (E10a & E10b) E11 E12 E13 E14 _ _].
  set (n := nsaved locals) in *. cbn zeta. rewrite E14, !exec_app.
  assert (exec [PushBp; MovBp] s = mkMach (m_rsp s - 8) (m_rsp s - 8) (m_reg s) (write (m_mem s) (m_rsp s - 8) (le_bytes 8 (m_rbp s))) (m_rip s)) as -> by reflexivity.
  set (s1 := mkMach (m_rsp s - 8) (m_rsp s - 8) (m_reg s) (write (m_mem s) (m_rsp s - 8) (le_bytes 8 (m_rbp s))) (m_rip s)).
  assert (length (firstn n temp_int_reg) = n) as LN by (rewrite firstn_length; cbn; lia).
  destruct (exec_pushes (firstn n temp_int_reg)) with (s := s1) as (A1 & A2 & A3 & A4 & A5 & A6).
  { intros r R0. apply in_firstn in R0. cbn in R0. intuition (subst; reflexivity). }
  { exact RL. }
  rewrite LN in A1. set (s2 := exec (map Push (firstn n temp_int_reg)) s1) in *.
  (* the rest *)
  set (sv := if vararg then SaveSse save_sses :: save_ints else []) in *.
  assert (exists rest, sub = (if st3 <? 0 then Sub (- st3) :: rest else []) /\ Forall (wr (- f_size f) (if vararg then 0 else - 8 * Z.of_nat n)) rest) as (rest & ESub & WRest).
  { eexists. split; [exact E13|]. destruct (is_memory respc); [|constructor]. constructor; [|constructor]. cbn [wr]. rewrite E11.
    assert (0 <= total (map snd R)) as TR. { apply total_nonneg. destruct (sized_stack _ _ _ _ _ _ SP E3) as [_ FR]. clear - FR. induction FR; cbn; constructor; auto. }
    destruct vararg; lia. }
  assert (exists s3, exec sub s2 = s3 /\ m_rsp s3 = m_rsp s2 + st3 /\ m_rbp s3 = m_rbp s2 /\ m_reg s3 = m_reg s2 /\ m_rip s3 = m_rip s2 /\
    (forall a, a < m_rbp s2 - f_size f \/ m_rbp s2 + (if vararg then 0 else - 8 * Z.of_nat n) <= a -> m_mem s3 a = m_mem s2 a)) as (s3 & E3' & B1 & B2 & B3 & B4 & B5).
  { eexists. split; [reflexivity|]. rewrite ESub. destruct (Z.ltb_spec st3 0) as [Q|Q].
    - unfold CallModel.exec. cbn [fold_left]. fold (exec rest (step obj ext junk s2 (Sub (- st3)))).
      destruct (wr_exec _ _ _ WRest (step obj ext junk s2 (Sub (- st3)))) as (C1 & C2 & C3 & C4 & C5). cbn [step m_rsp m_rbp m_reg m_mem m_rip] in *.
      rewrite C1. split; [lia|]. split; [exact C2|]. split; [exact C3|]. split; [exact C4|]. intros a A. apply C5. destruct A as [A|A]; [left; lia|right; exact A].
    - cbn. split; [lia|]. auto. }
  rewrite E3'.
  assert (exists s4, exec sv s3 = s4 /\ m_rsp s4 = m_rsp s3 /\ m_rbp s4 = m_rbp s3 /\ m_reg s4 = m_reg s3 /\ m_rip s4 = m_rip s3 /\
    (forall a, (if vararg then a < m_rbp s3 - f_size f \/ m_rbp s3 <= a else True) -> m_mem s4 a = m_mem s3 a)) as (s4 & E4' & C1 & C2 & C3 & C4 & C5).
  { eexists. split; [reflexivity|]. unfold sv. destruct vararg; [|cbn; auto].
    assert (Forall (wr (- f_size f) 0) (SaveSse save_sses :: save_ints)) as W.
    { eapply wr_weaken; [| |exact save_wr]; [|lia].
      assert (0 <= total (map snd R)) as TR. { apply total_nonneg. destruct (sized_stack _ _ _ _ _ _ SP E3) as [_ FR]. clear - FR. induction FR; cbn; constructor; auto. }
      lia. }
    destruct (wr_exec _ _ _ W s3) as (D1 & D2 & D3 & D4 & D5). repeat split; auto. intros a A. apply D5. lia. }
  rewrite E4'.
  destruct (sized_stack _ _ _ _ _ _ SP E3) as [FS FR].
  assert (0 <= total (map snd R)) as TR by (apply total_nonneg; clear - FR; induction FR; cbn; constructor; auto).
  destruct (split_index _ _ _ _ _ _ E3) as (IX & _).
  assert (8 | st0 - 8 * Z.of_nat n) as DB.
  { apply Z.divide_sub_r; [|exists (Z.of_nat n); lia]. rewrite E2. destruct vararg; [exists (-22); reflexivity|destruct (is_memory respc); [exists (-1); reflexivity|exists 0; reflexivity]]. }
  destruct (store_facts params (f_offs f) R (st0 - 8 * Z.of_nat n) (first_reg respc) 0 stores DB E5) as (L & EL & NDL & INL); [|exact E12|].
  { intros pc k t I. destruct (IX _ _ _ I) as (_ & X2 & X3). rewrite Nat.sub_0_r in X2. split; [exact X2|]. split; [exact X3|].
    rewrite Forall_forall in FR. apply (FR _ I). }
  assert (st0 <= 0) as S00 by (rewrite E2; destruct vararg; [lia|destruct (is_memory respc); lia]).
  assert (m_reg s4 = m_reg s) as RG by (rewrite C3, B3, A3; reflexivity).
  assert (m_rbp s4 = m_rsp s - 8) as BP by (rewrite C2, B2, A2; reflexivity).
  destruct (exec_stores L NDL) with (s := s4) as (F1 & F2 & F3 & F4 & F5 & F6).
  { intros r o w I. destruct (INL _ _ _ I) as (? & ? & _). auto. }
  { intros r o w I. rewrite RG, RL. destruct r; cbn; lia. }
  rewrite EL. set (s5 := exec (map storeop L) s4) in *.
  assert (forall a, a < m_rbp s4 - f_size f \/ m_rbp s4 + (if vararg then 0 else - 8 * Z.of_nat n) <= a -> m_mem s5 a = m_mem s2 a) as KEEP.
  { intros a A. rewrite F5.
    - rewrite C5 by (destruct vararg; [cbv iota in A |- *; rewrite BP in A; rewrite C2 in BP; lia|exact Logic.I]). apply B5. rewrite C2, B2 in A. exact A.
    - intros r o w X. destruct (INL _ _ _ X) as (_ & _ & X1 & X2). destruct A as [A|A]; [left; lia|right]. destruct vararg; lia. }
  assert (m_rsp s1 = m_rsp s - 8) as RS1 by reflexivity.
  split; [congruence|]. split; [|split; [|split; [|split; [|split; [|split]]]]].
  - rewrite F1, F2, C1, B1, A1, BP, RS1. lia.
  - rewrite F3. exact RG.
  - rewrite F4, C4, B4, A4. reflexivity.
  - intros a A. rewrite KEEP by (right; destruct vararg; lia). rewrite A5 by (rewrite RS1; lia). unfold s1. cbn [m_mem]. apply write_other. rewrite le_bytes_length. lia.
  - rewrite F2, BP. transitivity (read (write (m_mem s) (m_rsp s - 8) (le_bytes 8 (m_rbp s))) (m_rsp s - 8) 8).
    + apply read_ext. intros k K. rewrite KEEP by (right; destruct vararg; lia). rewrite A5 by (rewrite RS1; lia). reflexivity.
    + exact (read_write (m_mem s) (m_rsp s - 8) (le_bytes 8 (m_rbp s))).
  - intros V k r NK. rewrite F2, BP. change (m_reg s r) with (m_reg s1 r). rewrite <- (A6 k r NK). rewrite RS1. apply read_ext. intros j J.
    assert (k < n)%nat as KN by (rewrite <- LN; apply nth_error_Some; congruence).
    apply KEEP. right. destruct vararg; [destruct V; [discriminate|lia]|lia].
  - exists L. split; [reflexivity|]. intros r o w k I K. rewrite F2. rewrite (F6 r o w k I K). rewrite RG. reflexivity.
Qed.

(* --- a whole call --- *)
Definition good (s : mach) : Prop := forall r, length (m_reg s r) = rsize r.
Lemma good_set s r v : good s -> length v = rsize r -> good (with_reg s r v).
Proof. intros G L x. cbn. unfold setr. destruct (reg_eqb r x) eqn:E; [apply reg_eqb_eq in E; congruence|apply G]. Qed.
Definition nopop (o : op) : Prop := match o with Pop _ => False | _ => True end.
Lemma good_exec ops : Forall nopop ops -> forall s, good s -> good (exec ops s).
Proof.
  induction 1 as [|o ops H F IH]; intros s G; [exact G|]. unfold CallModel.exec. cbn [fold_left]. apply IH.
  destruct o as [k|k|i o w|i n|r i o w|n| | |r|r|r o w|l|r|r|o| | ]; cbn [step]; try exact G; try contradiction;
    try (repeat apply good_set; try exact G; try apply junk_ok; try (apply ext_ok); fail).
  destruct (nth 0 (m_reg s AX) 0 =? 0); [exact G|]. clear - G. revert s G. induction l as [|x l IH]; intros s G; [exact G|]. cbn [fold_left]. apply IH. exact G.
Qed.
(* what the register save area and the slot of the hidden pointer hold *)
Definition save_list : list (reg * Z * Z) := map (fun x => (fst x, snd x, 8)) (List.combine (rev param_int_reg) [-136; -144; -152; -160; -168; -176]).
Lemma save_ints_list : save_ints = map storeop save_list.
Proof. reflexivity. Qed.
Lemma save_sse_mem l : NoDup (map snd l) -> (forall r o, In (r, o) l -> (16 | o)) -> forall s, good s -> (forall r o, In (r, o) l -> rsize r = 16%nat) ->
  let s' := fold_left (fun s (x : reg * Z) => with_mem s (write (m_mem s) (m_rbp s + snd x) (firstn 16 (m_reg s (fst x))))) l s in
  (forall a, (forall r o, In (r, o) l -> a < m_rbp s + o \/ m_rbp s + o + 16 <= a) -> m_mem s' a = m_mem s a) /\
  (forall r o k, In (r, o) l -> 0 <= k < 16 -> m_mem s' (m_rbp s + o + k) = nth (Z.to_nat k) (m_reg s r) 0).
Proof.
  induction l as [|[r o] l IH]; intros ND D s G RS; cbn zeta; [cbn; split; [auto|intros; contradiction]|].
  cbn [fold_left fst snd map] in *. inversion ND as [|? ? N1 N2]; subst. set (s1 := with_mem s (write (m_mem s) (m_rbp s + o) (firstn 16 (m_reg s r)))).
  destruct (IH N2 (fun a b H => D a b (or_intror H)) s1 G (fun a b H => RS a b (or_intror H))) as [A B].
  assert (length (firstn 16 (m_reg s r)) = 16%nat) as FL by (rewrite firstn_length, G, (RS r o) by (left; reflexivity); reflexivity).
  split.
  - intros a X. rewrite A by (intros r' o' H; apply (X r' o'); right; exact H). unfold s1. cbn [with_mem m_mem]. apply write_other. rewrite FL. specialize (X r o (or_introl eq_refl)). lia.
  - intros r' o' k [E|I] K.
    + injection E as <- <-. rewrite A.
      * unfold s1. cbn [with_mem m_mem]. replace (m_rbp s + o + k) with ((m_rbp s + o) + Z.of_nat (Z.to_nat k)) by lia. rewrite write_at by (rewrite FL; lia).
        replace (firstn 16 (m_reg s r)) with (m_reg s r); [reflexivity|]. symmetry. apply firstn_all2. rewrite G, (RS r o) by (left; reflexivity). lia.
      * intros r2 o2 H. cbn [s1 with_mem m_rbp]. destruct (D r o (or_introl eq_refl)) as [x ->]. destruct (D r2 o2 (or_intror H)) as [y ->].
        assert (y <> x) by (intros ->; apply N1; change (x * 16) with (snd (r2, x * 16)); apply in_map, H). unfold s1. cbn [with_mem m_rbp]. lia.
    + apply (B r' o' k I K).
Qed.
Lemma enter_more respc vararg params locals f R S0 st0 st2 st3 sub stores s :
  sized params -> entered respc vararg params locals f R S0 st0 st2 st3 sub stores -> good s ->
  let s' := exec (f_ops f) s in
  (is_memory respc = true -> forall k, 0 <= k < 8 -> m_mem s' (m_rbp s' + f_ret f + k) = nth (Z.to_nat k) (m_reg s DI) 0) /\
  (vararg = true -> forall j r, nth_error param_int_reg j = Some r -> forall k, 0 <= k < 8 -> m_mem s' (m_rbp s' - 176 + 8 * Z.of_nat j + k) = nth (Z.to_nat k) (m_reg s r) 0) /\
  (vararg = true -> nth 0 (m_reg s AX) 0 <> 0 -> forall j r, nth_error param_sse_reg j = Some r ->
    forall k, 0 <= k < 16 -> m_mem s' (m_rbp s' - 176 + 48 + 16 * Z.of_nat j + k) = nth (Z.to_nat k) (m_reg s r) 0).
Proof.
  intros SP EN RL. cbn zeta. destruct (enter_exec _ _ _ _ _ _ _ _ _ _ _ _ s SP EN RL) as (BP' & _). rewrite BP'. clear BP'.
  destruct EN as [(E1a & E1b) E2 E3 E4 E5 E6 E7 (E8a & E8b) (E9a & E9b & E9c) (E10a & E10b) E11 E12 E13 E14 _ _].
  set (n := nsaved locals) in *. rewrite E14, !exec_app.
  assert (exec [PushBp; MovBp] s = mkMach (m_rsp s - 8) (m_rsp s - 8) (m_reg s) (write (m_mem s) (m_rsp s - 8) (le_bytes 8 (m_rbp s))) (m_rip s)) as -> by reflexivity.
  set (s1 := mkMach (m_rsp s - 8) (m_rsp s - 8) (m_reg s) (write (m_mem s) (m_rsp s - 8) (le_bytes 8 (m_rbp s))) (m_rip s)).
  destruct (exec_pushes (firstn n temp_int_reg)) with (s := s1) as (A1 & A2 & A3 & A4 & A5 & A6).
  { intros r R0. apply in_firstn in R0. cbn in R0. intuition (subst; reflexivity). }
  { exact RL. }
  set (s2 := exec (map Push (firstn n temp_int_reg)) s1) in *.
  destruct (sized_stack _ _ _ _ _ _ SP E3) as [FS FR].
  assert (0 <= total (map snd R)) as TR by (apply total_nonneg; clear - FR; induction FR; cbn; constructor; auto).
  set (s3 := exec sub s2).
  assert (m_rbp s3 = m_rsp s - 8 /\ m_reg s3 = m_reg s /\ (is_memory respc = true -> forall k, 0 <= k < 8 -> m_mem s3 (m_rsp s - 8 + f_ret f + k) = nth (Z.to_nat k) (m_reg s DI) 0)) as (B1 & B2 & B3).
  { unfold s3. rewrite E13. assert (is_memory respc = true -> st3 < 0) as N3.
    { intro M. rewrite M in E2. destruct vararg; lia. }
    destruct (Z.ltb_spec st3 0) as [Q|Q].
    - destruct (is_memory respc).
      + cbn. rewrite A2, A3. split; [reflexivity|]. split; [reflexivity|]. intros _ k K. cbn [s1 m_rbp m_reg].
        assert (length (m_reg s DI) = 8%nat) as L8 by apply RL. rewrite <- (Z2Nat.id k) at 1 by lia. rewrite write_at; [rewrite firstn_all2 by lia; reflexivity|]. rewrite firstn_length. lia.
      + cbn. rewrite A2, A3. repeat split; discriminate.
    - cbn. rewrite A2, A3. repeat split. intro M. specialize (N3 M). lia. }
  set (s4 := exec (if vararg then SaveSse save_sses :: save_ints else []) s3).
  assert (m_rbp s4 = m_rsp s - 8 /\ m_reg s4 = m_reg s /\
    (is_memory respc = true -> forall k, 0 <= k < 8 -> m_mem s4 (m_rsp s - 8 + f_ret f + k) = nth (Z.to_nat k) (m_reg s DI) 0) /\
    (vararg = true -> forall j r, nth_error param_int_reg j = Some r -> forall k, 0 <= k < 8 -> m_mem s4 (m_rsp s - 8 - 176 + 8 * Z.of_nat j + k) = nth (Z.to_nat k) (m_reg s r) 0) /\
    (vararg = true -> nth 0 (m_reg s AX) 0 <> 0 -> forall j r, nth_error param_sse_reg j = Some r ->
      forall k, 0 <= k < 16 -> m_mem s4 (m_rsp s - 8 - 176 + 48 + 16 * Z.of_nat j + k) = nth (Z.to_nat k) (m_reg s r) 0)) as (C1 & C2 & C3 & C4 & C5).
  { unfold s4. destruct vararg; [|cbn; repeat split; auto; discriminate].
    destruct (wr_exec _ _ _ save_wr s3) as (D1 & D2 & D3 & D4 & D5). split; [congruence|]. split; [congruence|].
    change (exec (SaveSse save_sses :: save_ints) s3) with (exec save_ints (step obj ext junk s3 (SaveSse save_sses))) in *. set (sx := step obj ext junk s3 (SaveSse save_sses)) in *.
    assert (exists sy, sx = sy) as [sy EY] by eauto.
    assert (m_rbp sx = m_rsp s - 8 /\ m_reg sx = m_reg s) as [X1 X2].
    { destruct (wr_exec _ _ [SaveSse save_sses] (Forall_cons _ (Forall_inv save_wr) (Forall_nil _)) s3) as (X0 & X1 & X2 & _). unfold sx. cbn [CallModel.exec fold_left] in X1, X2. split; [rewrite <- B1; exact X1|rewrite <- B2; exact X2]. }
    destruct (exec_stores save_list) with (s := sx) as (F1 & F2 & F3 & F4 & F5 & F6).
    { repeat constructor; cbn; intuition lia. }
    { intros r o w I. cbn in I. intuition (match goal with H : (_, _, _) = _ |- _ => injection H as <- <- <- end; try (apply Z.mod_divide; [lia|reflexivity]); lia). }
    { intros r o w I. rewrite X2, RL. destruct r; cbn; lia. }
    rewrite <- save_ints_list in *. rewrite X1, X2 in *.
    assert (forall j r, nth_error param_int_reg j = Some r -> forall k, 0 <= k < 8 -> m_mem (exec save_ints sx) (m_rsp s - 8 - 176 + 8 * Z.of_nat j + k) = nth (Z.to_nat k) (m_reg s r) 0) as INT.
    { intros j r J k K. rewrite <- (F6 r (-176 + 8 * Z.of_nat j) 8 k); [f_equal; lia| |exact K].
      do 6 (destruct j as [|j]; [cbn in J; injection J as <-; cbn; auto 10|]). destruct j; discriminate. }
    split; [|split].
    - intros M k K. rewrite M in E11. destruct n as [|n'].
      + rewrite E11. rewrite <- (INT 0%nat DI eq_refl k K). f_equal. lia.
      + rewrite D5 by (rewrite B1, E11; lia). apply B3; assumption.
    - intros _. exact INT.
    - intros _ AXN j r J k K. destruct (save_sse_mem save_sses) with (s := s3) as [G1 G2].
      { repeat constructor; cbn; intuition lia. }
      { intros r' o I. cbn in I. intuition (match goal with H : (_, _) = _ |- _ => injection H as <- <- end; apply Z.mod_divide; [lia|reflexivity]). }
      { intro x. rewrite B2. apply RL. }
      { intros r' o I. cbn in I. intuition (match goal with H : (_, _) = _ |- _ => injection H as <- <- end; reflexivity). }
      rewrite F5.
      + assert (sx = fold_left (fun s (x : reg * Z) => with_mem s (write (m_mem s) (m_rbp s + snd x) (firstn 16 (m_reg s (fst x))))) save_sses s3) as ->.
        { unfold sx. cbn [step]. rewrite B2. destruct (Z.eqb_spec (nth 0 (m_reg s AX) 0) 0); [contradiction|reflexivity]. }
        rewrite B1, B2 in G2. rewrite <- (G2 r (-128 + 16 * Z.of_nat j) k); [f_equal; lia| |exact K].
        do 8 (destruct j as [|j]; [cbn in J; injection J as <-; cbn; auto 12|]). destruct j; discriminate.
      + intros r' o w I. assert (o <= -136) by (cbn in I; intuition (match goal with H : (_, _, _) = _ |- _ => injection H as <- <- <- end; lia)). right. lia. }
  destruct (split_index _ _ _ _ _ _ E3) as (IX & _).
  assert (8 | st0 - 8 * Z.of_nat n) as DB.
  { apply Z.divide_sub_r; [|exists (Z.of_nat n); lia]. rewrite E2. destruct vararg; [exists (-22); reflexivity|destruct (is_memory respc); [exists (-1); reflexivity|exists 0; reflexivity]]. }
  destruct (store_facts params (f_offs f) R (st0 - 8 * Z.of_nat n) (first_reg respc) 0 stores DB E5) as (L & EL & NDL & INL); [|exact E12|].
  { intros pc k t I. destruct (IX _ _ _ I) as (_ & X2 & X3). rewrite Nat.sub_0_r in X2. split; [exact X2|]. split; [exact X3|].
    rewrite Forall_forall in FR. apply (FR _ I). }
  destruct (exec_stores L NDL) with (s := s4) as (F1 & F2 & F3 & F4 & F5 & F6).
  { intros r o w I. destruct (INL _ _ _ I) as (? & ? & _). auto. }
  { intros r o w I. rewrite C2, RL. destruct r; cbn; lia. }
  rewrite EL. rewrite C1 in F5. split; [|split].
  - intros M k K. rewrite F5; [apply C3; assumption|]. intros r o w I. destruct (INL _ _ _ I) as (_ & _ & _ & X). right. rewrite E11, M. rewrite M in E2. destruct vararg; lia.
  - intros V j r J k K. rewrite F5; [apply C4; assumption|]. intros r' o w I. destruct (INL _ _ _ I) as (_ & _ & _ & X). right. rewrite V in E2. lia.
  - intros V AXN j r J k K. rewrite F5; [apply C5; assumption|]. intros r' o w I. destruct (INL _ _ _ I) as (_ & _ & _ & X). right. rewrite V in E2. lia.
Qed.

Lemma nopop_caller args vararg respc ops used : push_function_arguments args vararg respc = Some (ops, used) -> Forall nopop ops.
Proof.
  intro E. unfold push_function_arguments in E. fold (first_reg respc) in E.
  apply obnd_some in E. destruct E as ([argpc used0] & EC & E). apply obnd_some in E. destruct E as ([pad used1] & EP & E).
  apply obnd_some in E. destruct E as ([loads z] & EL & E). apply obnd_some in E. destruct E as (al & EA & E). injection E as <- <-.
  destruct (classify_args_split _ _ _ _ _ _ _ _ EC) as (R & S0 & ES & -> & ->). change ([] ++ argpc_of R) with (argpc_of R) in *. rewrite (push_args_split _ _ _ _ _ _ ES).
  destruct (load_facts _ _ _ _ _ _ EL) as (L & -> & _).
  repeat (apply Forall_app; split).
  - destruct ((0 + total S0) mod 16 =? 0); [injection EP as <- <-; constructor|]. destruct ((0 + total S0 + 8) mod 16 =? 0); [|discriminate]. injection EP as <- <-. repeat constructor.
  - apply Forall_flat_map. apply Forall_forall. intros [i t] _. destruct t as [k| |]; cbn; [destruct k|..]; repeat constructor.
  - apply Forall_forall. intros o O. apply in_map_iff in O. destruct O as ([[[r i] o'] w] & <- & _). exact I.
  - destruct vararg; [destruct (z <=? 8)%nat; [|discriminate]|]; injection EA as <-; repeat constructor.
Qed.

(* saving registers around a call *)
Lemma save_exec l : (forall r, In r l -> rsize r = 16%nat) -> forall s, good s ->
  let s' := exec (flat_map (fun r => [Sub 16; StoreSp r]) l) s in
  m_rsp s' = m_rsp s - 16 * Z.of_nat (length l) /\ m_rbp s' = m_rbp s /\ m_reg s' = m_reg s /\ m_rip s' = m_rip s /\
  (forall a, m_rsp s <= a -> m_mem s' a = m_mem s a) /\
  (forall k r, nth_error l k = Some r -> read (m_mem s') (m_rsp s - 16 * (Z.of_nat k + 1)) 8 = firstn 8 (m_reg s r)).
Proof.
  induction l as [|r l IH]; intros RS s G; cbn zeta.
  - cbn. repeat split; auto; [lia|]. intros [|k] ? E; discriminate.
  - cbn [flat_map app]. unfold CallModel.exec. cbn [fold_left]. set (s1 := step obj ext junk (step obj ext junk s (Sub 16)) (StoreSp r)).
    change (fold_left (step obj ext junk) (flat_map (fun r0 : reg => [Sub 16; StoreSp r0]) l) s1) with (exec (flat_map (fun r => [Sub 16; StoreSp r]) l) s1).
    destruct (IH (fun x H => RS x (or_intror H)) s1 G) as (A1 & A2 & A3 & A4 & A5 & A6).
    assert (length (m_reg s r) = 16%nat) as L8 by (rewrite G; apply RS; left; reflexivity).
    assert (length (firstn 8 (m_reg s r)) = 8%nat) as F8 by (rewrite firstn_length; lia).
    assert (m_rsp s1 = m_rsp s - 16) as S1 by reflexivity.
    assert (m_mem s1 = write (m_mem s) (m_rsp s - 16) (firstn 8 (m_reg s r))) as M1 by reflexivity.
    split; [rewrite A1, S1; cbn [length]; lia|]. split; [exact A2|]. split; [exact A3|]. split; [exact A4|]. split.
    + intros a A. rewrite A5 by lia. rewrite M1. apply write_other. lia.
    + intros [|k] x E; cbn in E.
      * injection E as <-. replace (m_rsp s - 16 * (Z.of_nat 0 + 1)) with (m_rsp s - 16) by lia.
        transitivity (read (write (m_mem s) (m_rsp s - 16) (firstn 8 (m_reg s r))) (m_rsp s - 16) 8).
        -- apply read_ext. intros k K. rewrite A5 by lia. rewrite M1. reflexivity.
        -- pose proof (read_write (m_mem s) (m_rsp s - 16) (firstn 8 (m_reg s r))) as RW. rewrite F8 in RW. exact RW.
      * change (m_reg s x) with (m_reg s1 x). rewrite <- (A6 k x E). f_equal. lia.
Qed.
Lemma restore_exec base (v : reg -> list Z) l : NoDup l -> (forall r, In r l -> rsize r = 16%nat /\ length (v r) = 8%nat) -> forall s,
  m_rsp s = base - 16 * Z.of_nat (length l) -> (forall k r, nth_error l k = Some r -> read (m_mem s) (base - 16 * (Z.of_nat k + 1)) 8 = v r) ->
  let s' := exec (flat_map (fun r => [LoadSp r; Add 16]) (rev l)) s in
  m_rsp s' = base /\ m_rbp s' = m_rbp s /\ m_mem s' = m_mem s /\ m_rip s' = m_rip s /\
  (forall r, ~ In r l -> m_reg s' r = m_reg s r) /\ (forall r, In r l -> firstn 8 (m_reg s' r) = v r).
Proof.
  induction l as [|r l IH] using rev_ind; intros ND RS s SP MM; cbn zeta.
  - cbn in *. repeat split; auto; try lia; try (intros r []).
  - rewrite rev_app_distr. cbn [rev app flat_map]. unfold CallModel.exec. cbn [fold_left]. set (s1 := step obj ext junk (step obj ext junk s (LoadSp r)) (Add 16)).
    change (fold_left (step obj ext junk) (flat_map (fun r0 : reg => [LoadSp r0; Add 16]) (rev l)) s1) with (exec (flat_map (fun r => [LoadSp r; Add 16]) (rev l)) s1).
    rewrite app_length in SP. cbn [length] in SP.
    assert (~ In r l /\ NoDup l) as [N1 N2].
    { apply NoDup_remove in ND. rewrite app_nil_r in ND. tauto. }
    destruct (IH N2 (fun x H => RS x (in_or_app _ _ _ (or_introl H)))  s1) as (A1 & A2 & A3 & A4 & A5 & A6).
    { change (m_rsp s1) with (m_rsp s + 16). lia. }
    { intros k x E. apply (MM k x). rewrite nth_error_app1; [exact E|]. apply nth_error_Some. congruence. }
    split; [exact A1|]. split; [exact A2|]. split; [exact A3|]. split; [exact A4|]. split.
    + intros x X. rewrite A5 by (intro Q; apply X; apply in_or_app; left; exact Q). unfold s1. cbn. apply setr_other. intros ->. apply X. apply in_or_app. right. left. reflexivity.
    + intros x X. apply in_app_or in X. destruct X as [X|[<-|[]]]; [apply A6, X|]. rewrite A5 by exact N1. unfold s1. cbn [step with_reg m_reg]. rewrite setr_same.
      assert (read (m_mem s) (m_rsp s) 8 = v r) as EV.
      { rewrite <- (MM (length l) r); [f_equal; lia|]. rewrite nth_error_app2, Nat.sub_diag by lia. reflexivity. }
      rewrite EV. destruct (RS r) as [R16 V8]; [apply in_or_app; right; left; reflexivity|]. destruct (ext_ok r (v r)) as [_ F]. rewrite V8 in F. apply F. rewrite R16. lia.
Qed.

Lemma eightbyte_of lt k : 0 <= k < lt -> 0 <= k / 8 < (lt + 7) / 8 /\ k = 8 * (k / 8) + k mod 8 /\ 0 <= k mod 8 < 8.
Proof.
  intro H. pose proof (Z.div_mod k 8 ltac:(lia)). pose proof (Z.mod_pos_bound k 8 ltac:(lia)). split; [|lia]. split; [apply Z.div_pos; lia|].
  apply Z.div_lt_upper_bound; [lia|]. pose proof (Z.div_mod (lt + 7) 8 ltac:(lia)). pose proof (Z.mod_pos_bound (lt + 7) 8 ltac:(lia)). lia.
Qed.

(* the caller, up to the call *)
Lemma before_ok sses args vararg respc tgt before after s : sized args -> (sses <= 8)%nat -> good s ->
  compile_call sses args vararg respc tgt = Some (before, after) -> let s1 := exec before s in
  exists used R S0 loads z, split_args 0 args (first_reg respc) 0 = Some (R, S0) /\ load_args args (argpc_of R) (first_reg respc) 0 = Some (loads, z) /\
    after = (if used =? 0 then [] else [Add used]) ++ load_caller_saved_registers sses /\
    used mod 16 = 0 /\ total S0 <= used /\ good s1 /\
    m_rsp s1 = m_rsp s - 16 * Z.of_nat sses - used /\ m_rbp s1 = m_rbp s /\ m_rip s1 = m_rip s /\ (forall a, m_rsp s <= a -> m_mem s1 a = m_mem s a) /\
    (forall k r, nth_error (firstn sses temp_sse_reg) k = Some r -> read (m_mem s1) (m_rsp s - 16 * (Z.of_nat k + 1)) 8 = firstn 8 (m_reg s r)) /\
    (forall A i t B, S0 = A ++ (i, t) :: B -> forall k, 0 <= k < lsize t -> m_mem s1 (m_rsp s1 + total A + k) = obj i k) /\
    (forall r i o w, In (Load r i o w) loads -> m_reg s1 r = ext r (bytes_of i o w)) /\
    (is_memory respc = true -> m_reg s1 DI = ext DI (bytes_of tgt 0 8)) /\
    (forall r, ~ In r ([AX; R11] ++ param_int_reg ++ param_sse_reg) -> m_reg s1 r = m_reg s r) /\
    (vararg = true -> m_reg s1 AX = ext AX (le_bytes 4 (Z.of_nat z)) /\ (z <= 8)%nat).
Proof.
  intros SA SS G EC s1. unfold compile_call in EC. apply obnd_some in EC. destruct EC as ([ops used] & EP & EC). injection EC as <- <-.
  unfold s1 in *. clear s1. rewrite !exec_app.
  assert (forall r, In r (firstn sses temp_sse_reg) -> rsize r = 16%nat) as R16 by (intros r X; apply in_firstn in X; cbn in X; intuition (subst; reflexivity)).
  assert (length (firstn sses temp_sse_reg) = sses) as LS by (rewrite firstn_length; cbn; lia).
  destruct (save_exec (firstn sses temp_sse_reg) R16 s G) as (A1 & A2 & A3 & A4 & A5 & A6). fold (store_caller_saved_registers sses) in *.
  rewrite LS in A1. set (sa := exec (store_caller_saved_registers sses) s) in *.
  assert (good sa) as GA by (intro r; rewrite A3; apply G).
  destruct (caller_ok _ _ _ _ _ sa SA EP) as (R & S0 & loads & z & B1 & B2 & B3 & B4 & B5 & B6 & B7 & B8 & B9 & B10 & B11 & B12).
  set (sb := exec ops sa) in *. assert (good sb) as GB by (apply good_exec; [eapply nopop_caller; exact EP|exact GA]).
  set (sc := exec (if is_memory respc then [Load DI tgt 0 8] else []) sb) in *.
  assert (m_rsp sc = m_rsp sb /\ m_rbp sc = m_rbp sb /\ m_mem sc = m_mem sb /\ m_rip sc = m_rip sb /\ good sc) as (C1 & C2 & C3 & C3' & GC).
  { unfold sc. destruct (is_memory respc); [|cbn; auto]. repeat split; auto. apply good_exec; [repeat constructor|exact GB]. }
  assert (forall r, r <> R11 -> (is_memory respc = true -> r <> DI) -> m_reg sc r = m_reg sb r) as C4.
  { intros r N11 ND. unfold sc. destruct (is_memory respc); [|reflexivity]. cbn. rewrite !setr_other; try reflexivity; [congruence|]. intro X. apply ND; congruence. }
  assert (is_memory respc = true -> m_reg sc DI = ext DI (bytes_of tgt 0 8)) as C5.
  { intro M. unfold sc. rewrite M. cbn [CallModel.exec fold_left step with_reg m_reg]. first [apply setr_same | rewrite setr_other by discriminate; apply setr_same]. }
  destruct (sized_stack _ _ _ _ _ _ SA B1) as [FS' _]. pose proof (total_nonneg _ FS') as TN.
  exists used, R, S0, loads, z. split; [exact B1|]. split; [exact B2|]. split; [reflexivity|]. split; [exact B3|]. split; [exact B4|]. split; [exact GC|].
  split; [lia|]. split; [congruence|]. split; [congruence|].
  split; [intros a A; rewrite C3, B8 by lia; apply A5, A|].
  split.
  { intros k r K. rewrite C3, <- (A6 k r K). apply read_ext. intros j J. apply B8. assert (k < sses)%nat by (rewrite <- LS; apply nth_error_Some; congruence). lia. }
  split; [intros A i t B E k K; rewrite C3, C1; apply (B9 _ _ _ _ E k K)|].
  split.
  { intros r i o w I. rewrite <- (B10 _ _ _ _ I).
    assert (In r (param_int_reg ++ param_sse_reg) /\ (is_memory respc = true -> r <> DI)) as [RIN RND].
    { destruct (load_facts _ _ _ _ _ _ B2) as (LL & EQL & _ & INL). rewrite EQL in I. apply in_map_iff in I. destruct I as (x & Q3 & Q4). specialize (INL _ Q4).
      destruct x as [[[r1 i1] o1] w1]. cbn [loadop] in Q3. assert (r1 = r) as -> by congruence. cbn [ireg_of fst] in INL. split.
      - apply in_or_app. destruct INL as [Q|Q]; [left|right]; eapply in_skipn; exact Q.
      - intros M ->. unfold first_reg in INL. rewrite M in INL. cbn in INL. intuition discriminate. }
    apply C4; [intros ->; cbn in RIN; intuition discriminate|exact RND]. }
  split; [exact C5|]. split.
  - intros r N. rewrite C4; [rewrite B11 by exact N; rewrite A3; reflexivity|intros ->; apply N; cbn; auto|intros _ ->; apply N; cbn; auto].
  - intro V. destruct (B12 V) as [X Y]. split; [|exact Y]. rewrite <- X. apply C4; [discriminate|intros _; discriminate].
Qed.

Theorem call_arguments sses args params extra vararg respc tgt before after locals f s ret :
  sized args -> locals_sized locals -> args = params ++ extra -> (sses <= 8)%nat -> good s -> m_rsp s mod 16 = 0 -> length ret = 8%nat ->
  compile_call sses args vararg respc tgt = Some (before, after) -> enter respc vararg params locals = Some f ->
  let s1 := exec before s in let s2 := exec (f_ops f) (call ret s1) in
  m_rsp s1 mod 16 = 0 /\
  (forall i t k, nth_error params i = Some t -> 0 <= k < lsize t -> exists off, nth_error (f_offs f) i = Some off /\ m_mem s2 (m_rbp s2 + off + k) = obj i k) /\
  (is_memory respc = true -> forall k, 0 <= k < 8 -> m_mem s2 (m_rbp s2 + f_ret f + k) = obj tgt k) /\
  (forall a, m_rsp s <= a -> m_mem s2 a = m_mem s a).
Proof.
  intros SA SL -> SS G AL LR EC EE s1 s2.
  assert (sized params) as SP by (apply Forall_app in SA; tauto).
  destruct (enter_ok _ _ _ _ _ SP SL EE) as (R & S0 & st0 & st2 & st3 & sub & stores & EN).
  destruct (before_ok _ _ _ _ _ _ _ s SA SS G EC) as (used & R' & S' & loads & z & B1 & B2 & _ & B3 & B4 & GB & B5 & B6 & B7 & B8 & _ & B9 & B10 & B10' & B11 & B12).
  fold s1 in B5, B6, B7, B8, B9, B10, B10', B11, B12, GB.
  assert (good (call ret s1)) as GD by exact GB.
  destruct (enter_exec _ _ _ _ _ _ _ _ _ _ _ _ (call ret s1) SP EN GD) as (D1 & D2 & D3 & D4 & D5 & D6 & D7 & L & EL & D8).
  destruct (enter_more _ _ _ _ _ _ _ _ _ _ _ _ (call ret s1) SP EN GD) as (DM & _).
  fold s2 in D1, D2, D3, D4, D5, D6, D7, D8, DM.
  cbn [call push8 m_rsp m_rbp m_reg m_mem m_rip] in D1, D3, D5.
  assert (m_rbp s2 = m_rsp s1 - 16) as BP by lia. clearbody s2.
  destruct EN as [(E1a & E1b) E2 E3 E4 E5 E6 E7 (E8a & E8b) (E9a & E9b & E9c) (E10a & E10b) E11 E12 E13 E14 _ _].
  destruct (split_app _ _ _ _ _ _ _ B1) as (R1 & S1 & R2 & S2 & F1 & F2 & F3). rewrite E3 in F1. assert (R1 = R /\ S1 = S0) as [-> ->] by (split; congruence). clear F1.
  assert (m_rsp s1 mod 16 = 0) as ALC.
  { rewrite B5. apply Z.mod_divide in AL; [|lia]. apply Z.mod_divide in B3; [|lia]. apply Z.mod_divide; [lia|]. apply Z.divide_sub_r; [|exact B3]. apply Z.divide_sub_r; [exact AL|exists (Z.of_nat sses); lia]. }
  destruct (sized_stack _ _ _ _ _ _ SA B1) as [FS' _]. pose proof (total_nonneg _ FS') as TN.
  assert (forall a, m_rsp s1 <= a -> m_mem s2 a = m_mem s1 a) as UP.
  { intros a A. rewrite D5 by lia. rewrite write_other by lia. reflexivity. }
  split; [exact ALC|]. split; [|split].
  - intros i t k NI K. destruct (split_index _ _ _ _ _ _ E3) as (X1 & X2 & X3). destruct (X3 _ _ NI) as [[pc IN]|IN]; cbn [Nat.add] in IN.
    + (* in registers *)
      destruct (X1 _ _ _ IN) as (_ & _ & CL). assert (0 < lsize t) as PT by lia.
      rewrite F2 in B2. unfold argpc_of in B2 at 1. rewrite map_app in B2. fold (argpc_of R) (argpc_of R2) in B2.
      assert (In (pc, i) (argpc_of R)) as INA by (apply in_map_iff; exists (pc, (i, t)); auto).
      destruct (agree (params ++ extra) params (f_offs f) (argpc_of R) (argpc_of R2) _ _ _ _ _ (fun i t H => eq_trans (nth_error_app1 _ _ (proj1 (nth_error_Some params i) ltac:(congruence))) H) B2 E12 pc i INA)
        as (t' & off & rw & P1 & P2 & P3 & P4 & P5).
      rewrite NI in P1. assert (t' = t) as -> by congruence. exists off. split; [exact P2|].
      destruct (eightbyte_of _ _ K) as (K1 & K2 & K3).
      assert (exists r w, In (r, Z.to_nat (k / 8), w) rw) as (r & w & INR).
      { assert (In (Z.to_nat (k / 8)) (map (fun x : reg * nat * Z => snd (fst x)) rw)) as Q by (rewrite P3; apply in_seq; unfold eightbytes; lia).
        apply in_map_iff in Q. destruct Q as ([[r j] w] & Q1 & Q2). cbn in Q1. subst j. eauto. }
      destruct (P5 _ _ _ INR) as [PL PS]. rewrite Z2Nat.id in PL, PS by lia.
      destruct (width_ok t pc _ w PT CL (P4 _ _ _ INR)) as [W1 W2]; [rewrite Z2Nat.id by lia; lia|]. rewrite Z2Nat.id in W2 by lia.
      rewrite EL in PS. apply in_map_iff in PS. destruct PS as ([[r' o'] w'] & Q1 & Q2). cbn [storeop] in Q1. assert (r' = r /\ o' = off + 8 * (k / 8) /\ w' = w) as (-> & -> & ->) by (repeat split; congruence).
      specialize (D8 _ _ _ (k mod 8) Q2 ltac:(lia)). replace (m_rbp s2 + off + k) with (m_rbp s2 + (off + 8 * (k / 8)) + k mod 8) by lia. rewrite D8. cbn [call push8 m_reg].
      rewrite (B10 _ _ _ _ PL). rewrite nth_ext_bytes; [f_equal; lia| |lia].
      assert (8 <= Z.of_nat (rsize r)) by (destruct r; cbn; lia). lia.
    + (* on the stack *)
      destruct (in_split _ _ IN) as (A & B & ES). exists (16 + total A). split; [apply (asc_at 16 S0 (f_offs f) A i t B E6 ES)|].
      assert (S' = A ++ (i, t) :: (B ++ S2)) as ES' by (rewrite F3, ES, <- app_assoc; reflexivity).
      assert (0 <= total A) as TA. { apply total_nonneg. rewrite ES' in FS'. apply Forall_app in FS'. tauto. }
      rewrite UP by lia. replace (m_rbp s2 + (16 + total A) + k) with (m_rsp s1 + total A + k) by lia. apply (B9 _ _ _ _ ES' k K).
  - intros M k K. rewrite (DM M k K). cbn [call push8 m_reg]. rewrite (B10' M). rewrite nth_ext_bytes; [reflexivity|cbn; lia|lia].
  - intros a A. rewrite UP by lia. apply B8, A.
Qed.

(* --- returning --- *)
Lemma exec_pops base (v : reg -> list Z) l : NoDup l -> forall s,
  m_rsp s = base - 8 * Z.of_nat (length l) -> (forall k r, nth_error l k = Some r -> read (m_mem s) (base - 8 * (Z.of_nat k + 1)) 8 = v r) ->
  let s' := exec (map Pop (rev l)) s in
  m_rsp s' = base /\ m_rbp s' = m_rbp s /\ m_mem s' = m_mem s /\ m_rip s' = m_rip s /\
  (forall r, ~ In r l -> m_reg s' r = m_reg s r) /\ (forall r, In r l -> m_reg s' r = v r).
Proof.
  induction l as [|r l IH] using rev_ind; intros ND s SP MM; cbn zeta.
  - cbn in *. repeat split; auto; try lia; try (intros r []).
  - rewrite rev_app_distr. cbn [rev app map]. unfold CallModel.exec. cbn [fold_left]. set (s1 := step obj ext junk s (Pop r)).
    change (fold_left (step obj ext junk) (map Pop (rev l)) s1) with (exec (map Pop (rev l)) s1).
    rewrite app_length in SP. cbn [length] in SP.
    assert (~ In r l /\ NoDup l) as [N1 N2].
    { apply NoDup_remove in ND. rewrite app_nil_r in ND. tauto. }
    destruct (IH N2 s1) as (A1 & A2 & A3 & A4 & A5 & A6).
    { change (m_rsp s1) with (m_rsp s + 8). lia. }
    { intros k x E. apply (MM k x). rewrite nth_error_app1; [exact E|]. apply nth_error_Some. congruence. }
    split; [exact A1|]. split; [exact A2|]. split; [exact A3|]. split; [exact A4|]. split.
    + intros x X. rewrite A5 by (intro Q; apply X; apply in_or_app; left; exact Q). unfold s1. cbn [step m_reg]. apply setr_other. intros ->. apply X. apply in_or_app. right. left. reflexivity.
    + intros x X. apply in_app_or in X. destruct X as [X|[<-|[]]]; [apply A6, X|]. rewrite A5 by exact N1. unfold s1. cbn [step m_reg]. rewrite setr_same.
      rewrite <- (MM (length l) r); [f_equal; lia|]. rewrite nth_error_app2, Nat.sub_diag by lia. reflexivity.
Qed.
Lemma nodup_firstn {A} (l : list A) : NoDup l -> forall n, NoDup (firstn n l).
Proof.
  induction 1 as [|x l N D IH]; intros [|n]; try constructor; auto. intro Q. apply N. eapply in_firstn; exact Q.
Qed.
Definition reg_dec (a b : reg) : {a = b} + {a <> b}.
Proof. decide equality. apply Nat.eq_dec. Defined.
Lemma nodup_temp_int : NoDup temp_int_reg.
Proof. repeat constructor; cbn; intuition discriminate. Qed.
Lemma nodup_temp_sse : NoDup temp_sse_reg.
Proof. repeat constructor; cbn; intuition discriminate. Qed.

(* the state sb is the one in which the body, which began in s2, returns *)
Theorem call_return sses args params extra vararg respc tgt before after locals f s ret sb :
  sized args -> locals_sized locals -> args = params ++ extra -> (sses <= 8)%nat -> good s -> length ret = 8%nat -> 0 <= m_rbp s < 2 ^ 64 ->
  compile_call sses args vararg respc tgt = Some (before, after) -> enter respc vararg params locals = Some f ->
  (vararg = false \/ f_saved f = 0%nat) ->
  let s1 := exec before s in let s2 := exec (f_ops f) (call ret s1) in
  (forall r, length (m_reg sb r) = rsize r) -> m_rbp sb = m_rbp s2 ->
  (forall a, m_rbp s2 - 8 * Z.of_nat (f_saved f) <= a < m_rbp s2 + 16 \/ m_rsp s - 16 * Z.of_nat sses <= a < m_rsp s -> m_mem sb a = m_mem s2 a) ->
  (forall r, In r temp_int_reg -> ~ In r (firstn (f_saved f) temp_int_reg) -> m_reg sb r = m_reg s2 r) ->
  let s3 := exec (epilogue (f_saved f)) sb in let s4 := exec after s3 in
  m_rip s3 = ret /\ m_rsp s3 = m_rsp s1 /\ m_rsp s4 = m_rsp s /\ m_rbp s4 = m_rbp s /\ m_mem s4 = m_mem sb /\
  (forall r, In r temp_int_reg -> m_reg s4 r = m_reg s r) /\
  (forall r, In r (firstn sses temp_sse_reg) -> firstn 8 (m_reg s4 r) = firstn 8 (m_reg s r)) /\
  (forall r, In r [AX; DX; XMM 0; XMM 1] -> m_reg s4 r = m_reg sb r).
Proof.
  intros SA SL -> SS G LR RBP EC EE VA s1 s2 GB HB HM HR s3 s4.
  assert (sized params) as SP by (apply Forall_app in SA; tauto).
  destruct (enter_ok _ _ _ _ _ SP SL EE) as (R & S0 & st0 & st2 & st3 & sub & stores & EN).
  destruct (before_ok _ _ _ _ _ _ _ s SA SS G EC) as (used & R' & S' & loads & z & B1 & _ & B0 & B3 & B4 & GB1 & B5 & B6 & B7 & B8 & B8' & _ & _ & _ & B11 & _).
  fold s1 in B5, B6, B7, B8, B8', B11, GB1.
  assert (good (call ret s1)) as GD by exact GB1.
  destruct (enter_exec _ _ _ _ _ _ _ _ _ _ _ _ (call ret s1) SP EN GD) as (D1 & D2 & D3 & D4 & D5 & D6 & D7 & _).
  fold s2 in D1, D2, D3, D4, D5, D6, D7.
  destruct EN as [(E1a & E1b) _ _ _ _ _ _ _ _ _ _ _ _ _ _ _]. rewrite E1a in *. set (n := nsaved locals) in *.
  cbn [call push8 m_rsp m_rbp m_reg m_mem m_rip] in D1, D3, D5, D6, D7.
  assert (m_rbp s2 = m_rsp s1 - 16) as BP by lia. clearbody s2.
  destruct (sized_stack _ _ _ _ _ _ SA B1) as [FS' _]. pose proof (total_nonneg _ FS') as TN.
  assert (length (firstn n temp_int_reg) = n) as LN by (rewrite firstn_length; cbn; lia).
  assert (length (firstn sses temp_sse_reg) = sses) as LS by (rewrite firstn_length; cbn; lia).
  (* the pops *)
  set (pops := match n with O => [] | _ => LeaSp (- Z.of_nat n * 8) :: map Pop (rev (firstn n temp_int_reg)) end).
  assert (exists sp, exec pops sb = sp /\ m_rbp sp = m_rbp sb /\ m_mem sp = m_mem sb /\ (forall r, In r temp_int_reg -> m_reg sp r = m_reg s r) /\ (forall r, ~ In r temp_int_reg -> m_reg sp r = m_reg sb r))
    as (sp & EP & P1 & P2 & P3 & P4).
  { eexists. split; [reflexivity|].
    assert (forall r, In r temp_int_reg -> m_reg s1 r = m_reg s r) as KS.
    { intros r I. apply B11. intro Q. cbn in I, Q. intuition (subst; discriminate). }
    destruct n as [|n'] eqn:EN'.
    - unfold pops. cbn. repeat split; auto. intros r I. rewrite HR by (cbn; tauto). rewrite D3. apply KS, I.
    - unfold pops. set (l := firstn (S n') temp_int_reg) in *. set (sl := step obj ext junk sb (LeaSp (- Z.of_nat (S n') * 8))).
      change (exec (LeaSp (- Z.of_nat (S n') * 8) :: map Pop (rev l)) sb) with (exec (map Pop (rev l)) sl).
      destruct (exec_pops (m_rbp sb) (m_reg s1) l) with (s := sl) as (Q1 & Q2 & Q3 & Q4 & Q5 & Q6).
      + apply nodup_firstn, nodup_temp_int.
      + change (m_rsp sl) with (m_rbp sb + - Z.of_nat (S n') * 8). rewrite LN. lia.
      + intros k r K. change (m_mem sl) with (m_mem sb). rewrite HB, <- (D7 VA k r K). apply read_ext. intros j J. apply HM. left.
        assert (k < S n')%nat by (rewrite <- LN; apply nth_error_Some; congruence). lia.
      + split; [exact Q2|]. split; [exact Q3|]. split.
        * intros r I. destruct (in_dec reg_dec r l) as [X|X].
          -- rewrite Q6 by exact X. apply KS, I.
          -- rewrite Q5 by exact X. change (m_reg sl r) with (m_reg sb r). rewrite HR by assumption. rewrite D3. apply KS, I.
        * intros r I. apply Q5. intro X. apply I. eapply in_firstn; exact X. }
  assert (s3 = mkMach (m_rbp sb + 16) (m_rbp s) (m_reg sp) (m_mem sb) ret) as E3.
  { unfold s3. rewrite E1a. fold n. unfold epilogue. rewrite exec_app. fold pops. rewrite EP. cbn [CallModel.exec fold_left step m_rsp m_rbp m_reg m_mem m_rip]. rewrite P1, P2.
    assert (read (m_mem sb) (m_rbp sb) 8 = le_bytes 8 (m_rbp s)) as ->.
    { rewrite HB. rewrite <- B6, <- D6. apply read_ext. intros j J. apply HM. left. lia. }
    assert (read (m_mem sb) (m_rbp sb + 8) 8 = ret) as ->.
    { rewrite HB. transitivity (read (write (m_mem s1) (m_rsp s1 - 8) ret) (m_rbp s2 + 8) 8).
      - apply read_ext. intros j J. rewrite HM by (left; lia). apply D5. lia.
      - replace (m_rbp s2 + 8) with (m_rsp s1 - 8) by lia. rewrite <- LR. apply read_write. }
    rewrite le_val_bytes, Z.mod_small by (change (256 ^ Z.of_nat 8) with (2 ^ 64); lia). f_equal. lia. }
  assert (m_rip s3 = ret /\ m_rsp s3 = m_rsp s1) as [R1 R2]. { rewrite E3. cbn. split; [reflexivity|lia]. }
  split; [exact R1|]. split; [exact R2|].
  (* the caller again *)
  unfold s4. rewrite B0, exec_app.
  assert (exec (if used =? 0 then [] else [Add used]) s3 = mkMach (m_rsp s3 + used) (m_rbp s) (m_reg sp) (m_mem sb) ret) as ->.
  { rewrite E3. destruct (Z.eqb_spec used 0) as [->|]; cbn; [f_equal; lia|reflexivity]. }
  set (sr := mkMach (m_rsp s3 + used) (m_rbp s) (m_reg sp) (m_mem sb) ret).
  destruct (restore_exec (m_rsp s) (fun r => firstn 8 (m_reg s r)) (firstn sses temp_sse_reg)) with (s := sr) as (T1 & T2 & T3 & T4 & T5 & T6).
  { apply nodup_firstn, nodup_temp_sse. }
  { intros r I. apply in_firstn in I. assert (rsize r = 16%nat) as X by (cbn in I; intuition (subst; reflexivity)). split; [exact X|]. rewrite firstn_length, G, X. reflexivity. }
  { rewrite LS. cbn [sr m_rsp]. unfold sr. cbn [m_rsp]. lia. }
  { intros k r K. rewrite <- (B8' k r K). apply read_ext. intros j J. assert (k < sses)%nat by (rewrite <- LS; apply nth_error_Some; congruence).
    unfold sr. cbn [m_mem]. rewrite HM by (right; lia). rewrite D5 by lia. apply write_other. lia. }
  fold (load_caller_saved_registers sses) in T1, T2, T3, T4, T5, T6.
  split; [exact T1|]. split; [exact T2|]. split; [exact T3|]. split; [|split].
  - intros r I. rewrite T5; [apply P3, I|]. intro Q. apply in_firstn in Q. cbn in I, Q. intuition (subst; discriminate).
  - exact T6.
  - intros r I. rewrite T5; [apply P4|]; [|intro Q; apply in_firstn in Q]; cbn in *; intuition (subst; discriminate).
Qed.

Theorem call_alignment sses args params extra vararg respc tgt before after locals f s ret :
  sized args -> locals_sized locals -> args = params ++ extra -> (sses <= 8)%nat -> good s -> m_rsp s mod 16 = 0 ->
  compile_call sses args vararg respc tgt = Some (before, after) -> enter respc vararg params locals = Some f ->
  let s1 := exec before s in let s2 := exec (f_ops f) (call ret s1) in
  m_rsp s1 mod 16 = 0 /\ m_rbp s2 mod 16 = 0 /\ m_rsp s2 = m_rbp s2 - f_size f /\ m_rsp s2 mod 16 = 0.
Proof.
  intros SA SL -> SS G AL EC EE s1 s2.
  assert (sized params) as SP by (apply Forall_app in SA; tauto).
  destruct (enter_ok _ _ _ _ _ SP SL EE) as (R & S0 & st0 & st2 & st3 & sub & stores & EN).
  destruct (before_ok _ _ _ _ _ _ _ s SA SS G EC) as (used & R' & S' & loads & z & B1 & B2 & _ & B3 & B4 & GB & B5 & _).
  fold s1 in B5, GB.
  assert (good (call ret s1)) as GD by exact GB.
  destruct (enter_exec _ _ _ _ _ _ _ _ _ _ _ _ (call ret s1) SP EN GD) as (D1 & D2 & _). fold s2 in D1, D2. cbn [call push8 m_rsp] in D1.
  pose proof (en_size _ _ _ _ _ _ _ _ _ _ _ _ EN) as [_ E10b]. clearbody s2. clear - AL B3 B5 D1 D2 E10b.
  apply Z.mod_divide in AL; [|lia]. apply Z.mod_divide in B3; [|lia]. apply Z.mod_divide in E10b; [|lia]. destruct AL as [x X], B3 as [y Y], E10b as [z' W].
  split; [apply Z.mod_divide; [lia|]; exists (x - Z.of_nat sses - y); lia|].
  split; [apply Z.mod_divide; [lia|]; exists (x - Z.of_nat sses - y - 1); lia|]. split; [exact D2|].
  apply Z.mod_divide; [lia|]. exists (x - Z.of_nat sses - y - 1 - z'). lia.
Qed.
End Exec.
