From Coq Require Import List Arith ZArith Lia Bool.
From Verif Require Import Util HashModel HashSpec.
Import ListNotations.

Section Proofs.
Context {K V : Type}.
Variable keq : K -> K -> bool.
Hypothesis keq_ok : forall a b, keq a b = true <-> a = b.
Variable h : K -> Z.
Variable k0 : K.

Notation entry := (@entry K V).
Notation table := (@table K V).
Notation find := (@hash_find_entry K V keq).
Notation mtch := (@hash_match_entry K V keq).

Lemma keq_refl a : keq a a = true. Proof. apply keq_ok; reflexivity. Qed.
Lemma keq_neq a b : a <> b -> keq a b = false.
Proof. intro H. destruct (keq a b) eqn:E; [apply keq_ok in E; contradiction|easy]. Qed.

Definition mat (es : list entry) (k : K) (hv : Z) (i : nat) : bool :=
  match nth_error es i with Some e => mtch e k hv | None => false end.

Definition order (cap i : nat) : list nat := i :: seq (S i) (cap - S i) ++ seq 0 i.

Lemma order_In cap i j : i < cap -> (In j (order cap i) <-> j < cap).
Proof.
  intro Hi. unfold order. simpl. rewrite in_app_iff, !in_seq. lia.
Qed.

Lemma scan_first es k hv j n : j + n <= length es ->
  scan keq es k hv j n = first_idx (mat es k hv) (seq j n).
Proof.
  revert j; induction n as [|n IH]; intros j H; simpl; [easy|].
  unfold mat at 1. destruct (nth_error es j) as [e|] eqn:E.
  - destruct (mtch e k hv); [easy|]. apply IH; lia.
  - apply nth_error_None in E; lia.
Qed.

Lemma start_lt k hv : start_index (2 ^ k) hv < 2 ^ k.
Proof.
  unfold start_index.
  assert (Hp : (Z.of_nat (2 ^ k) = 2 ^ Z.of_nat k)%Z) by (rewrite Nat2Z.inj_pow; reflexivity).
  rewrite Hp. replace (2 ^ Z.of_nat k - 1)%Z with (Z.ones (Z.of_nat k)).
  2:{ rewrite Z.ones_equiv. lia. }
  rewrite Z.land_ones by lia.
  assert (0 <= hv mod 2 ^ Z.of_nat k < 2 ^ Z.of_nat k)%Z.
  { apply Z.mod_pos_bound. apply Z.pow_pos_nonneg; lia. }
  apply Nat2Z.inj_lt. rewrite Z2Nat.id by lia. lia.
Qed.

Lemma find_first es cap k hv : length es = cap -> start_index cap hv < cap ->
  find cap es k hv =
  match first_idx (mat es k hv) (order cap (start_index cap hv)) with
  | Some j => Ok j | None => AssertFail end.
Proof.
  intros Hl Hs. unfold hash_find_entry.
  destruct (Nat.eqb_spec cap 0) as [->|Hc]; [lia|].
  set (i := start_index cap hv) in *. unfold order. simpl.
  unfold mat at 1. destruct (nth_error es i) as [e|] eqn:E.
  2:{ apply nth_error_None in E; lia. }
  destruct (mtch e k hv); [easy|].
  rewrite first_idx_app. rewrite !scan_first by lia.
  destruct (first_idx _ (seq (S i) _)); [easy|].
  destruct (first_idx _ (seq 0 i)); easy.
Qed.

Lemma first_idx_weaken {A} (f g : A -> bool) l p :
  (forall x, g x = true -> f x = true) -> first_idx f l = Some p -> g p = true ->
  first_idx g l = Some p.
Proof.
  intros Hw Hf Hg. apply first_idx_Some in Hf as (a & b & -> & Hp & Ha).
  apply first_idx_Some. exists a, b. repeat split; auto.
  eapply Forall_impl; [|exact Ha]. intros x Hx. destruct (g x) eqn:E; auto.
  apply Hw in E; congruence.
Qed.

(* live slots, free slots *)
Definition live (e : entry) : bool :=
  match e_value e with Some _ => negb (e_deleted e) | None => false end.
Definition used (e : entry) : bool :=
  e_deleted e || match e_value e with Some _ => true | None => false end.

Definition Live (es : list entry) (k : K) (v : V) : Prop :=
  exists e, In e es /\ e_deleted e = false /\ e_key e = k /\ e_value e = Some v.

Definition WF (cap : nat) (es : list entry) : Prop :=
  length es = cap /\ (exists n, cap = 2 ^ n) /\
  (forall p e, nth_error es p = Some e -> e_deleted e = true -> e_value e = None) /\
  (forall p e v, nth_error es p = Some e -> e_deleted e = false -> e_value e = Some v ->
     e_hash e = h (e_key e) /\ find cap es (e_key e) (h (e_key e)) = Ok p).

Lemma WF_start cap es hv : WF cap es -> start_index cap hv < cap.
Proof. intros (_ & (n & ->) & _). apply start_lt. Qed.

Lemma WF_find cap es k : WF cap es ->
  find cap es k (h k) =
  match first_idx (mat es k (h k)) (order cap (start_index cap (h k))) with
  | Some j => Ok j | None => AssertFail end.
Proof. intro W. apply find_first; [apply W|eapply WF_start; eauto]. Qed.

(* the probe never runs off while a free slot exists *)
Lemma find_total cap es k : WF cap es -> countb used es < cap ->
  exists j e, find cap es k (h k) = Ok j /\ nth_error es j = Some e /\ mtch e k (h k) = true.
Proof.
  intros W Hu. rewrite (WF_find _ _ _ W).
  destruct (first_idx _ _) as [j|] eqn:E.
  - apply first_idx_In in E as [_ Hm]. unfold mat in Hm.
    destruct (nth_error es j) as [e|] eqn:Ej; [|discriminate]. exists j, e; auto.
  - exfalso. destruct W as (Hl & Hp & W).
    assert (Hs := WF_start _ _ (h k) (conj Hl (conj Hp W))).
    destruct (countb_lt_ex used es) as (i & e & Hi & He); [lia|].
    assert (Hi' : i < cap) by (rewrite <- Hl; apply nth_error_Some; congruence).
    pose proof (proj1 (first_idx_None _ _) E i) as Hn.
    rewrite order_In in Hn by exact Hs. specialize (Hn Hi').
    unfold mat in Hn. rewrite Hi in Hn. unfold hash_match_entry in Hn.
    unfold used in He. destruct (e_deleted e), (e_value e); discriminate.
Qed.

Lemma mtch_live e k v : e_deleted e = false -> e_value e = Some v ->
  mtch e k (h k) = true -> e_hash e = h k /\ e_key e = k.
Proof.
  intros Hd Hv. unfold hash_match_entry. rewrite Hd, Hv. intro H.
  apply andb_prop in H as [H1 H2]. apply Z.eqb_eq in H1. apply keq_ok in H2. auto.
Qed.

Lemma WF_live_mat cap es k v : WF cap es -> Live es k v ->
  exists p e, find cap es k (h k) = Ok p /\ nth_error es p = Some e /\ e_deleted e = false /\
    e_key e = k /\ e_value e = Some v /\ e_hash e = h k.
Proof.
  intros (Hl & Hp & Hd & Hv) (e & Hin & He & Hk & Hval).
  apply In_nth_error in Hin as (p & Hp').
  destruct (Hv p e v Hp' He Hval) as [Hh Hf]. rewrite Hk in *.
  exists p, e; auto 10.
Qed.

(* outcome of a look-up *)
Lemma find_result cap es k : WF cap es -> countb used es < cap ->
  exists j e, find cap es k (h k) = Ok j /\ nth_error es j = Some e /\ e_deleted e = false /\
    match e_value e with
    | Some v => Live es k v /\ e_key e = k /\ e_hash e = h k
    | None => forall v, ~ Live es k v
    end.
Proof.
  intros W Hu. destruct (find_total cap es k W Hu) as (j & e & Hf & He & Hm).
  exists j, e. assert (Hd : e_deleted e = false).
  { unfold hash_match_entry in Hm. destruct (e_deleted e); congruence. }
  repeat split; auto. destruct (e_value e) as [v|] eqn:Hv.
  - destruct (mtch_live e k v Hd Hv Hm) as [Hh Hk]. repeat split; auto.
    exists e; repeat split; auto. eapply nth_error_In; eauto.
  - intros v HL. destruct (WF_live_mat _ _ _ _ W HL) as (p & e' & Hf' & He' & _ & _ & Hv' & _).
    rewrite Hf in Hf'. injection Hf' as <-. rewrite He in He'. injection He' as <-. congruence.
Qed.

Lemma mat_upd_other es q e k hv i : q <> i -> mat (upd es q e) k hv i = mat es k hv i.
Proof. intro H. unfold mat. rewrite nth_error_upd_other; auto. Qed.

(* Live after an update *)
Lemma In_upd_iff (es : list entry) q e0 e1 (P : entry -> Prop) :
  nth_error es q = Some e0 ->
  ((exists x, In x (upd es q e1) /\ P x) <->
   P e1 \/ exists i x, i <> q /\ nth_error es i = Some x /\ P x).
Proof.
  intro Hq. assert (Hql : q < length es) by (apply nth_error_Some; congruence).
  split.
  - intros (x & Hx & HP). apply In_nth_error in Hx as (i & Hi).
    destruct (Nat.eq_dec i q) as [->|Hn].
    + rewrite nth_error_upd_same in Hi by exact Hql. injection Hi as <-; auto.
    + rewrite nth_error_upd_other in Hi by auto. right; eauto.
  - intros [HP|(i & x & Hn & Hi & HP)].
    + exists e1. split; auto. apply (nth_error_In _ q). apply nth_error_upd_same; auto.
    + exists x; split; auto. apply (nth_error_In _ i). rewrite nth_error_upd_other; auto.
Qed.

Lemma Live_upd es q e0 e1 k v : nth_error es q = Some e0 ->
  (Live (upd es q e1) k v <->
   (e_deleted e1 = false /\ e_key e1 = k /\ e_value e1 = Some v) \/
   exists i x, i <> q /\ nth_error es i = Some x /\
     (e_deleted x = false /\ e_key x = k /\ e_value x = Some v)).
Proof. intro H. exact (In_upd_iff es q e0 e1 (fun x => e_deleted x = false /\ e_key x = k /\ e_value x = Some v) H). Qed.

(* Filling the free slot found for k. *)
Lemma insert_free cap es k v : WF cap es -> countb used es < cap -> (forall v', ~ Live es k v') ->
  exists q e, find cap es k (h k) = Ok q /\ nth_error es q = Some e /\ e_deleted e = false /\
    e_value e = None /\
    let es' := upd es q (mk_entry (h k) false k (Some v)) in
    WF cap es' /\ countb used es' = S (countb used es) /\
    (forall k' v', Live es' k' v' <-> Live es k' v' \/ (k' = k /\ v' = v)).
Proof.
  intros W Hu Hnl. destruct (find_result cap es k W Hu) as (q & e & Hf & He & Hd & Hv).
  destruct (e_value e) as [v0|] eqn:Hval; [exfalso; apply (Hnl v0); apply Hv|].
  exists q, e. do 4 (split; [auto|]). intro es'.
  assert (Hql : q < length es) by (apply nth_error_Some; congruence).
  assert (Hstart : forall hv, start_index cap hv < cap) by (intro; eapply WF_start; eauto).
  destruct W as (Hl & Hpow & Hdel & Hliv).
  assert (Hl' : length es' = cap) by (unfold es'; rewrite upd_length; exact Hl).
  assert (Hfree : forall k' hv, mat es k' hv q = true).
  { intros k' hv. unfold mat. rewrite He. unfold hash_match_entry. rewrite Hd, Hval. easy. }
  assert (Hw : forall k' hv x, mat es' k' hv x = true -> mat es k' hv x = true).
  { intros k' hv x Hx. destruct (Nat.eq_dec q x) as [<-|Hn]; [apply Hfree|].
    unfold es' in Hx. rewrite mat_upd_other in Hx by exact Hn. exact Hx. }
  split; [|split].
  - split; [exact Hl'|split; [exact Hpow|split]].
    + intros p e' Hp Hde. destruct (Nat.eq_dec q p) as [<-|Hn].
      * unfold es' in Hp. rewrite nth_error_upd_same in Hp by exact Hql.
        injection Hp as <-. discriminate.
      * unfold es' in Hp. rewrite nth_error_upd_other in Hp by exact Hn. eauto.
    + intros p e' v' Hp Hde Hve. rewrite find_first by auto.
      destruct (Nat.eq_dec q p) as [<-|Hn].
      * unfold es' in Hp. rewrite nth_error_upd_same in Hp by exact Hql.
        injection Hp as <-. cbn [e_key e_hash e_value e_deleted] in *. split; [easy|].
        rewrite find_first in Hf by auto.
        destruct (first_idx (mat es k (h k)) _) as [j|] eqn:Ej; [|discriminate].
        injection Hf as ->.
        rewrite (first_idx_weaken _ (mat es' k (h k)) _ _ (Hw k (h k)) Ej); [easy|].
        unfold mat, es'. rewrite nth_error_upd_same by exact Hql.
        unfold hash_match_entry; simpl. now rewrite Z.eqb_refl, keq_refl.
      * unfold es' in Hp. rewrite nth_error_upd_other in Hp by exact Hn.
        destruct (Hliv p e' v' Hp Hde Hve) as [Hh Hfp]. split; [exact Hh|].
        rewrite find_first in Hfp by auto.
        destruct (first_idx (mat es (e_key e') (h (e_key e'))) _) as [j|] eqn:Ej; [|discriminate].
        injection Hfp as ->.
        rewrite (first_idx_weaken _ (mat es' (e_key e') (h (e_key e'))) _ _ (Hw _ _) Ej); [easy|].
        unfold es'. rewrite mat_upd_other by exact Hn.
        apply first_idx_In in Ej. apply Ej.
  - pose proof (countb_upd used es q (mk_entry (h k) false k (Some v)) e He) as Hc.
    unfold es'. unfold used at 2 4 in Hc. rewrite Hd, Hval in Hc. simpl in Hc. lia.
  - intros k' v'. unfold es'. rewrite (Live_upd es q e _ k' v' He).
    simpl. split.
    + intros [(_ & -> & [= ->])|(i & x & Hn & Hi & Hx)]; [auto|].
      left. exists x. split; [eapply nth_error_In; eauto|exact Hx].
    + intros [(x & Hin & Hx)|[-> ->]]; [|auto].
      right. apply In_nth_error in Hin as (i & Hi). exists i, x. repeat split; try tauto.
      intros ->. rewrite He in Hi. injection Hi as <-. destruct Hx as (_ & _ & Hx). congruence.
Qed.

Lemma remove_live cap es k q e v : WF cap es -> find cap es k (h k) = Ok q ->
  nth_error es q = Some e -> e_deleted e = false -> e_value e = Some v -> e_key e = k ->
  let es' := upd es q (mk_entry 0 true (e_key e) None) in
    WF cap es' /\ countb used es' = countb used es /\
    (forall k' v', Live es' k' v' <-> Live es k' v' /\ k' <> k).
Proof.
  intros W Hf He Hd Hv Hk es'.
  assert (Hql : q < length es) by (apply nth_error_Some; congruence).
  assert (Hstart : forall hv, start_index cap hv < cap) by (intro; eapply WF_start; eauto).
  pose proof W as (Hl & Hpow & Hdel & Hliv).
  assert (Hl' : length es' = cap) by (unfold es'; rewrite upd_length; exact Hl).
  assert (Hnq : forall k' hv, mat es' k' hv q = false).
  { intros. unfold mat, es'. rewrite nth_error_upd_same by exact Hql. easy. }
  assert (Hw : forall k' hv x, mat es' k' hv x = true -> mat es k' hv x = true).
  { intros k' hv x Hx. destruct (Nat.eq_dec q x) as [<-|Hn]; [rewrite Hnq in Hx; discriminate|].
    unfold es' in Hx. rewrite mat_upd_other in Hx by exact Hn. exact Hx. }
  split; [|split].
  - split; [exact Hl'|split; [exact Hpow|split]].
    + intros p e' Hp Hde. destruct (Nat.eq_dec q p) as [<-|Hn].
      * unfold es' in Hp. rewrite nth_error_upd_same in Hp by exact Hql.
        injection Hp as <-. easy.
      * unfold es' in Hp. rewrite nth_error_upd_other in Hp by exact Hn. eauto.
    + intros p e' v' Hp Hde Hve. destruct (Nat.eq_dec q p) as [<-|Hn].
      * unfold es' in Hp. rewrite nth_error_upd_same in Hp by exact Hql.
        injection Hp as <-. discriminate.
      * unfold es' in Hp. rewrite nth_error_upd_other in Hp by exact Hn.
        destruct (Hliv p e' v' Hp Hde Hve) as [Hh Hfp]. split; [exact Hh|].
        rewrite find_first in Hfp |- * by auto.
        destruct (first_idx (mat es (e_key e') (h (e_key e'))) _) as [j|] eqn:Ej; [|discriminate].
        injection Hfp as ->.
        rewrite (first_idx_weaken _ (mat es' (e_key e') (h (e_key e'))) _ _ (Hw _ _) Ej); [easy|].
        unfold es'. rewrite mat_upd_other by exact Hn.
        apply first_idx_In in Ej. apply Ej.
  - pose proof (countb_upd used es q (mk_entry 0 true (e_key e) None) e He) as Hc.
    unfold es'. unfold used at 2 4 in Hc. rewrite Hd, Hv in Hc. simpl in Hc. lia.
  - intros k' v'. unfold es'. rewrite (Live_upd es q e _ k' v' He).
    simpl. split.
    + intros [(Hc & _)|(i & x & Hn & Hi & Hx1 & Hx2 & Hx3)]; [discriminate|].
      split; [exists x; repeat split; auto; eapply nth_error_In; eauto|].
      intro Ek. destruct (Hliv i x v' Hi Hx1 Hx3) as [_ Hfx]. rewrite Hx2, Ek in Hfx. congruence.
    + intros [(x & Hin & Hx) Hne]. right. apply In_nth_error in Hin as (i & Hi).
      exists i, x. repeat split; try tauto. intros ->. rewrite He in Hi. injection Hi as <-.
      destruct Hx as (_ & Hx & _). congruence.
Qed.

(* Rehashing *)
Lemma WF_empty n : WF (2 ^ n) (repeat (zero_entry k0) (2 ^ n)).
Proof.
  split; [apply repeat_length|split; [eauto|split]].
  - intros p e H. apply nth_error_repeat_inv in H as [-> _]. easy.
  - intros p e v H _ Hv. apply nth_error_repeat_inv in H as [-> _]. discriminate.
Qed.

Lemma Live_empty n k v : ~ Live (repeat (zero_entry k0) n) k v.
Proof.
  intros (e & Hin & _ & _ & Hv). apply repeat_spec in Hin as ->. discriminate.
Qed.

Lemma Live_cons e es k v : Live (e :: es) k v <->
  (e_deleted e = false /\ e_key e = k /\ e_value e = Some v) \/ Live es k v.
Proof.
  unfold Live; simpl. split.
  - intros (x & [<-|Hin] & Hx); eauto.
  - intros [Hx|(x & Hin & Hx)]; eauto.
Qed.

(* an entry array whose live keys are distinct and correctly hashed *)
Fixpoint distinct (old : list entry) : Prop :=
  match old with
  | [] => True
  | e :: rest =>
      (e_deleted e = false -> forall v, e_value e = Some v ->
         e_hash e = h (e_key e) /\ forall v', ~ Live rest (e_key e) v') /\ distinct rest
  end.

Lemma WF_distinct_aux cap es : WF cap es -> forall p, distinct (skipn p es).
Proof.
  intros (Hl & _ & _ & Hliv).
  assert (G : forall n p, n = length es - p -> distinct (skipn p es)).
  { induction n as [|n IH]; intros p Hn.
    - rewrite skipn_all2 by lia. easy.
    - destruct (nth_error es p) as [e|] eqn:Ep.
      2:{ apply nth_error_None in Ep. rewrite skipn_all2 by lia. easy. }
      assert (Hsk : skipn p es = e :: skipn (S p) es).
      { clear - Ep. revert p Ep. induction es as [|a es IH]; intros [|p] Ep; simpl in *; try discriminate.
        - injection Ep as ->; easy.
        - apply IH; exact Ep. }
      rewrite Hsk. cbn [distinct]. split; [|apply IH; lia].
      intros Hd v Hv. destruct (Hliv p e v Ep Hd Hv) as [Hh Hf]. split; [exact Hh|].
      intros v' (x & Hin & Hxd & Hxk & Hxv).
      apply In_nth_error in Hin as (i & Hi).
      assert (Hi' : nth_error es (S p + i) = Some x).
      { rewrite <- Hi. clear. generalize (S p). intro n. revert es; induction n as [|n IH]; intro es; [easy|].
        destruct es; simpl; [now destruct i|apply IH]. }
      destruct (Hliv _ x v' Hi' Hxd Hxv) as [_ Hfx]. rewrite Hxk, Hf in Hfx.
      injection Hfx as Hfx. lia. }
  intros p. eapply G; reflexivity.
Qed.

Lemma WF_distinct cap es : WF cap es -> distinct es.
Proof. intro W. exact (WF_distinct_aux cap es W 0). Qed.

Lemma rehash_ok cap : forall old es, WF cap es -> distinct old ->
  countb used es + countb used old < cap ->
  (forall k v v', Live old k v -> ~ Live es k v') ->
  exists es', rehash keq cap old es = Ok es' /\ WF cap es' /\
    countb used es' <= countb used es + countb used old /\
    (forall k v, Live es' k v <-> Live es k v \/ Live old k v).
Proof.
  induction old as [|a old IH]; intros es W Hd Hc Hdis; simpl in *.
  - exists es. split; [easy|]. split; [exact W|]. split; [lia|].
    intros k v. split; [auto|]. intros [HL|(x & [] & _)]; exact HL.
  - destruct Hd as [Ha Hd].
    destruct (e_value a) as [v|] eqn:Hv.
    + destruct (e_deleted a) eqn:Hde.
      * destruct (IH es W Hd) as (es' & H1 & H2 & H3 & H4).
        { lia. } { intros k w w' HL. eapply Hdis. rewrite Live_cons; eauto. }
        exists es'. split; [exact H1|]. split; [exact H2|]. split; [|intros k w; split].
        { lia. }
        { intro HL. apply H4 in HL as [HL|HL]; auto. right. apply Live_cons; auto. }
        { intros [HL|HL]; apply H4; auto. apply Live_cons in HL as [(Hx & _)|HL]; [congruence|auto]. }
      * destruct (Ha eq_refl v eq_refl) as [Hh Hnd]. rewrite Hh.
        assert (Hua : used a = true) by (unfold used; rewrite Hde, Hv; easy).
        rewrite Hua in Hc.
        destruct (insert_free cap es (e_key a) v W) as (q & e & Hf & He & Hed & Hev & W' & Hc' & HL').
        { lia. }
        { intros v'. eapply Hdis. apply Live_cons. left; eauto. }
        rewrite Hf. simpl.
        destruct (IH _ W' Hd) as (es' & H1 & H2 & H3 & H4).
        { lia. }
        { intros k w w' HL HLe. apply HL' in HLe as [HLe|[-> ->]].
          - eapply Hdis; [|exact HLe]. apply Live_cons; eauto.
          - eapply Hnd; eauto. }
        exists es'. split; [exact H1|]. split; [exact H2|]. split; [|intros k w; split].
        { rewrite Hua. lia. }
        { intro HL. apply H4 in HL as [HL|HL].
          - apply HL' in HL as [HL|[-> ->]]; auto. right. apply Live_cons; auto.
          - right. apply Live_cons; auto. }
        { intros [HL|HL]; apply H4.
          - left. apply HL'; auto.
          - apply Live_cons in HL as [(_ & Hx & Hy)|HL]; auto.
            left. apply HL'. right. split; congruence. }
    + destruct (IH es W Hd) as (es' & H1 & H2 & H3 & H4).
      { lia. } { intros k w w' HL. eapply Hdis. rewrite Live_cons; eauto. }
      exists es'. split; [exact H1|]. split; [exact H2|]. split; [|intros k w; split].
      { lia. }
      { intro HL. apply H4 in HL as [HL|HL]; auto. right. apply Live_cons; auto. }
      { intros [HL|HL]; apply H4; auto. apply Live_cons in HL as [(_ & _ & Hx)|HL]; [congruence|auto]. }
Qed.

(* The table invariant and its relation to the specification map. *)
Definition R (t : table) (m : K -> option V) : Prop :=
  (t = mk_table 0 0 [] \/
   (WF (t_capacity t) (t_entries t) /\ 16 <= t_capacity t /\ t_count t <= t_capacity t / 2 /\
    countb used (t_entries t) <= t_count t)) /\
  (forall k v, m k = Some v <-> Live (t_entries t) k v).

Lemma expand_ok t m : R t m -> hash_is_full t = true -> (Z.of_nat (t_count t) < 2 ^ 29)%Z ->
  exists t', hash_expand keq k0 t = Ok t' /\ R t' m /\ hash_is_full t' = false /\
    t_count t' = t_count t.
Proof.
  intros [[->|(W & H16 & Hc & Hu)] HL] Hfull Hlim; unfold hash_expand.
  - cbv [t_capacity t_count t_entries Nat.eqb]. simpl (INT_MAX <? Z.of_nat 16)%Z. cbn [rehash bind].
    eexists; split; [reflexivity|]. split; [|split; reflexivity].
    split.
    + right. cbn [t_capacity t_count t_entries]. split; [exact (WF_empty 4)|].
      split; [lia|]. split; [apply Nat.le_0_l|]. rewrite countb_repeat_false by reflexivity. apply Nat.le_0_l.
    + intros k v. rewrite HL. cbn [t_entries]. split.
      * intros (x & [] & _).
      * intro X. exfalso. revert X. apply (Live_empty 16).
  - destruct (Nat.eqb_spec (t_capacity t) 0) as [E|_]; [lia|].
    unfold hash_is_full in Hfull. apply Nat.leb_le in Hfull.
    assert (Hcap : t_capacity t <= 2 * t_count t).
    { destruct W as (_ & (n & Hn) & _). rewrite Hn in *. destruct n as [|n]; [simpl in *; lia|].
      rewrite Nat.pow_succ_r' in *. rewrite Nat.mul_comm, Nat.div_mul in Hfull by lia. lia. }
    destruct (Z.ltb_spec INT_MAX (Z.of_nat (t_capacity t * 2))) as [Ho|Ho].
    { unfold INT_MAX in Ho. lia. }
    destruct W as (Hl & (n & Hn) & W').
    assert (W : WF (t_capacity t) (t_entries t)) by (split; eauto).
    assert (Hn2 : t_capacity t * 2 = 2 ^ S n) by (rewrite Hn, Nat.pow_succ_r'; lia).
    rewrite Hn2.
    destruct (rehash_ok (2 ^ S n) (t_entries t) (repeat (zero_entry k0) (2 ^ S n)) (WF_empty (S n)))
      as (es' & H1 & H2 & H3 & H4).
    { eapply WF_distinct; eauto. }
    { rewrite countb_repeat_false by reflexivity. rewrite <- Hn2.
      pose proof (Nat.div_le_upper_bound (t_capacity t) 2 (t_capacity t)). lia. }
    { intros k v v' _. apply Live_empty. }
    rewrite H1. cbn [bind]. eexists; split; [reflexivity|].
    rewrite countb_repeat_false in H3 by reflexivity.
    assert (Hdiv : t_capacity t / 2 * 2 <= t_capacity t)
      by (pose proof (Nat.div_mod (t_capacity t) 2); lia).
    assert (Hdiv2 : 2 ^ S n / 2 = t_capacity t)
      by (rewrite <- Hn2, Nat.div_mul; lia).
    split; [split|split].
    + right. cbn [t_capacity t_count t_entries]. split; [exact H2|].
      rewrite Hdiv2. lia.
    + intros k v. rewrite HL. cbn [t_entries]. rewrite H4. split; [auto|].
      intros [X|X]; auto. exfalso; revert X; apply Live_empty.
    + unfold hash_is_full. cbn [t_capacity t_count]. apply Nat.leb_gt. rewrite Hdiv2. lia.
    + easy.
Qed.

Lemma R_ext t m m' : (forall k, m k = m' k) -> R t m -> R t m'.
Proof. intros E [H1 H2]. split; auto. intros k v. rewrite <- E. auto. Qed.

Lemma insert_ok t m k v : R t m -> (Z.of_nat (t_count t) < 2 ^ 29)%Z ->
  exists t' v', hash_insert keq h k0 t k v = Ok (t', v') /\
    t_count t' <= S (t_count t) /\
    match m k with
    | Some w => R t' m /\ v' = w
    | None => R t' (fm_set keq m k (Some v)) /\ v' = v
    end.
Proof.
  intros HR Hlim. unfold hash_insert.
  assert (G : exists t1, (if hash_is_full t
       then bind (hash_expand keq k0 t) (fun t' => if hash_is_full t' then AssertFail else Ok t')
       else Ok t) = Ok t1 /\ R t1 m /\ hash_is_full t1 = false /\ t_count t1 = t_count t).
  { destruct (hash_is_full t) eqn:Hf.
    - destruct (expand_ok t m HR Hf Hlim) as (t' & H1 & H2 & H3 & H4).
      rewrite H1. cbn [bind]. rewrite H3. eauto 6.
    - eauto 6. }
  destruct G as (t1 & -> & HR1 & Hnf & Hcnt). cbn [bind].
  unfold hash_is_full in Hnf. apply Nat.leb_gt in Hnf.
  destruct HR1 as [[->|(W & H16 & Hc & Hu)] HL]; [simpl in Hnf; lia|].
  destruct (Nat.eqb_spec (t_capacity t1) 0) as [E|_]; [lia|].
  assert (Hhalf : 2 * (t_capacity t1 / 2) <= t_capacity t1)
    by (pose proof (Nat.div_mod (t_capacity t1) 2); lia).
  destruct (Nat.leb_spec (t_capacity t1 - 1) (t_count t1)) as [E|_]; [lia|].
  destruct (find_result _ _ k W) as (j & e & Hf & He & Hd & Hv); [lia|].
  rewrite Hf. cbn [bind]. rewrite He, Hd.
  destruct (e_value e) as [w|] eqn:Hval.
  - destruct Hv as (HLw & Hk & Hh). rewrite Hh, Hk, Z.eqb_refl, keq_refl. cbn [andb].
    exists t1, w. split; [easy|]. split; [lia|].
    apply HL in HLw. rewrite HLw. split; [|easy]. split; [right; auto|exact HL].
  - destruct (insert_free _ _ k v W) as (q & e' & Hf' & He' & _ & _ & W' & Hc' & HL'); [lia|exact Hv|].
    rewrite Hf in Hf'. injection Hf' as <-.
    exists (mk_table (t_capacity t1) (S (t_count t1)) (upd (t_entries t1) j (mk_entry (h k) false k (Some v)))), v.
    split; [easy|]. split; [simpl; lia|].
    assert (Hm : m k = None).
    { destruct (m k) eqn:E; auto. apply HL in E. exfalso; eapply Hv; eauto. }
    rewrite Hm. split; [|easy]. split.
    + right. cbn [t_capacity t_count t_entries]. split; [exact W'|]. lia.
    + cbn [t_entries]. intros k' v'. rewrite HL'. unfold fm_set. destruct (keq k k') eqn:Ek.
      * apply keq_ok in Ek as <-. split.
        -- intros [= <-]; auto.
        -- intros [X|[_ ->]]; auto. exfalso; eapply Hv; eauto.
      * rewrite HL. split; [auto|]. intros [X|[-> _]]; auto. rewrite keq_refl in Ek; discriminate.
Qed.

Lemma lookup_ok t m k : R t m -> hash_lookup keq h t k = Ok (m k).
Proof.
  intros [[->|(W & H16 & Hc & Hu)] HL]; unfold hash_lookup.
  - simpl. destruct (m k) eqn:E; auto. apply HL in E as (x & [] & _).
  - destruct (Nat.eqb_spec (t_capacity t) 0) as [E|_]; [lia|].
    assert (Hhalf : 2 * (t_capacity t / 2) <= t_capacity t)
      by (pose proof (Nat.div_mod (t_capacity t) 2); lia).
    destruct (find_result _ _ k W) as (j & e & Hf & He & Hd & Hv); [lia|].
    rewrite Hf. cbn [bind]. rewrite He. f_equal.
    destruct (e_value e) as [w|].
    + symmetry. apply HL. apply Hv.
    + destruct (m k) eqn:E; auto. apply HL in E. exfalso; eapply Hv; eauto.
Qed.

Lemma remove_ok t m k : R t m ->
  exists t', hash_remove keq h t k = Ok t' /\ t_count t' = t_count t /\ R t' (fm_set keq m k None).
Proof.
  intros [[->|(W & H16 & Hc & Hu)] HL]; unfold hash_remove.
  - simpl. eexists; split; [reflexivity|]. split; [easy|]. split; [auto|].
    intros k' v'. unfold fm_set. destruct (keq k k') eqn:E; [|apply HL].
    split; [discriminate|]. intros (x & [] & _).
  - destruct (Nat.eqb_spec (t_capacity t) 0) as [E|_]; [lia|].
    assert (Hhalf : 2 * (t_capacity t / 2) <= t_capacity t)
      by (pose proof (Nat.div_mod (t_capacity t) 2); lia).
    destruct (find_result _ _ k W) as (j & e & Hf & He & Hd & Hv); [lia|].
    rewrite Hf. cbn [bind]. rewrite He.
    destruct (e_value e) as [w|] eqn:Hval.
    + destruct Hv as (HLw & Hk & Hh).
      destruct (remove_live _ _ k j e w W Hf He Hd Hval Hk) as (W' & Hc' & HL').
      eexists; split; [reflexivity|]. split; [easy|]. split.
      * right. cbn [t_capacity t_count t_entries]. split; [exact W'|]. lia.
      * cbn [t_entries]. intros k' v'. rewrite HL'. unfold fm_set.
        destruct (keq k k') eqn:Ek.
        -- apply keq_ok in Ek as <-. split; [discriminate|tauto].
        -- rewrite HL. split; [|tauto]. intro X; split; auto. intros ->.
           rewrite keq_refl in Ek; discriminate.
    + exists t. split; [easy|]. split; [easy|]. split; [right; auto|].
      intros k' v'. unfold fm_set. destruct (keq k k') eqn:Ek; [|apply HL].
      apply keq_ok in Ek as <-. split; [discriminate|]. intro X; exfalso; eapply Hv; eauto.
Qed.

Lemma clear_ok t m : R t m -> R (hash_clear k0 t) (fm_empty).
Proof.
  intros [[->|(W & H16 & Hc & Hu)] HL]; unfold hash_clear.
  - split; [left; easy|]. intros k v. split; [discriminate|]. intros (x & [] & _).
  - split.
    + right. cbn [t_capacity t_count t_entries].
      destruct W as (_ & (n & Hn) & _). rewrite Hn in *.
      split; [apply WF_empty|]. split; [lia|]. split; [lia|].
      rewrite countb_repeat_false by reflexivity. lia.
    + cbn [t_entries]. intros k v. split; [discriminate|].
      intro X; exfalso; revert X; apply Live_empty.
Qed.

Lemma step_ok t m o : R t m ->
  (Z.of_nat (t_count t) + inserts [o] <= 2 ^ 29)%Z ->
  exists t' b, step keq h k0 t o = Ok (t', b) /\
    R t' (fst (spec_step keq m o)) /\ b = snd (spec_step keq m o) /\
    (Z.of_nat (t_count t') <= Z.of_nat (t_count t) + inserts [o])%Z.
Proof.
  intros HR Hlim. destruct o as [k v|k|k|]; cbn [step spec_step inserts] in *.
  - destruct (insert_ok t m k v HR) as (t' & v' & -> & Hcnt & Hm); [lia|].
    cbn [bind]. do 2 eexists; split; [reflexivity|].
    destruct (m k) as [w|]; destruct Hm as [Hm ->]; cbn [fst snd]; (split; [exact Hm|split; [easy|lia]]).
  - rewrite (lookup_ok t m k HR). cbn [bind]. do 2 eexists; split; [reflexivity|].
    cbn [fst snd]. split; [exact HR|split; [easy|lia]].
  - destruct (remove_ok t m k HR) as (t' & -> & Hcnt & HR'). cbn [bind].
    do 2 eexists; split; [reflexivity|]. cbn [fst snd]. split; [exact HR'|split; [easy|lia]].
  - do 2 eexists; split; [reflexivity|]. cbn [fst snd].
    split; [eapply clear_ok; eauto|]. split; [easy|]. simpl. lia.
Qed.

Lemma inserts_nonneg (ops : list (@op K V)) : (0 <= inserts ops)%Z.
Proof. induction ops as [|o ops IH]; cbn [inserts]; [lia|]. destruct o; lia. Qed.

Lemma inserts_cons (o : @op K V) ops : inserts (o :: ops) = (inserts [o] + inserts ops)%Z.
Proof. destruct o; cbn [inserts]; lia. Qed.

Lemma run_ok ops : forall t m, R t m ->
  (Z.of_nat (t_count t) + inserts ops <= 2 ^ 29)%Z ->
  exists t', run keq h k0 t ops = Ok (t', snd (spec_run keq m ops)) /\
    R t' (fst (spec_run keq m ops)).
Proof.
  induction ops as [|o ops IH]; intros t m HR Hlim.
  - exists t. auto.
  - rewrite inserts_cons in Hlim. pose proof (inserts_nonneg ops).
    destruct (step_ok t m o HR) as (t' & b & Hs & HR' & Hb & Hcnt); [lia|].
    cbn [run spec_run]. rewrite Hs. cbn [bind].
    destruct (IH t' _ HR') as (t'' & Hr & HR''); [lia|].
    rewrite Hr. cbn [bind]. destruct (spec_step keq m o) as [m1 b1] eqn:E1. cbn [fst snd] in *.
    destruct (spec_run keq m1 ops) as [m2 bs] eqn:E2. cbn [fst snd] in *.
    subst b. eauto.
Qed.

Lemma hash_table_refines_map (ops : list (@op K V)) :
  (inserts ops <= 2 ^ 29)%Z ->
  exists t', run keq h k0 empty_table ops = Ok (t', snd (spec_run keq fm_empty ops)).
Proof.
  intro H. destruct (run_ok ops empty_table fm_empty) as (t' & Hr & _).
  - split; [left; easy|]. intros k v. split; [discriminate|]. intros (x & [] & _).
  - cbn. exact H.
  - eauto.
Qed.
End Proofs.
