(* Proofs about where arguments are passed (C47). *)
From Coq Require Import List ZArith Bool Lia.
From Verif Require Import Util Bytes TypeModel LayoutModel LayoutSpec LayoutProofs AbiModel AbiSpec AbiProofs CallModel CallProofs SysvSpec.
Import ListNotations.
Open Scope Z_scope.

(* no eightbytes after the last one *)
Definition no_tail (n : Z) (pc : param_class) : Prop := forall j, (Z.to_nat n <= j)%nat -> nth j pc NO_CLASS <> INTEGER /\ nth j pc NO_CLASS <> SSE.
Lemma contribs_tail L s j : 0 < s -> (forall k o, In (k, o) L -> 0 < scalar_size k /\ 0 <= o /\ o + scalar_size k <= s) -> (s + 7) / 8 <= j -> contribs j L = [].
Proof.
  intros P H J. destruct (contribs j L) as [|x r] eqn:E; [reflexivity|]. exfalso.
  assert (In x (contribs j L)) as IX by (rewrite E; left; reflexivity). apply in_contribs in IX. destruct IX as ([k o] & IL & IX).
  destruct (H _ _ IL) as (A & B & C). assert (o / 8 = j \/ (k = T_LDOUBLE /\ o / 8 + 1 = j)) as D.
  { unfold contrib in IX. cbn [fst snd] in IX. destruct k; destruct (Z.eqb_spec (o / 8) j); auto; try destruct IX.
    right. split; [reflexivity|]. destruct (Z.eqb_spec (o / 8 + 1) j); [assumption|destruct IX]. }
  pose proof (Z.div_mod (s + 7) 8 ltac:(lia)). pose proof (Z.mod_pos_bound (s + 7) 8 ltac:(lia)).
  pose proof (Z.div_mod o 8 ltac:(lia)). pose proof (Z.mod_pos_bound o 8 ltac:(lia)).
  destruct D as [D|[-> D]]; [lia|]. cbn in C. lia.
Qed.
Lemma classify_tail c t pc : complete c -> (forall n e, c <> CArray n e) -> (aggregate c -> forall o, ~ Leaf c 0 T_BOOL o) ->
  elab c = Done t -> classify t = Some pc -> no_tail (eightbytes t) pc /\ pc <> [].
Proof.
  intros H NA NB E EC. destruct (elab_ok _ H) as (t' & E' & (G1 & _ & _ & _ & G5 & _) & _). rewrite E in E'. injection E' as <-.
  assert (eightbytes t = (csize c + 7) / 8) as EB by (unfold eightbytes; rewrite G1; reflexivity).
  assert (forall a b, no_tail 1 [a; NO_CLASS; NO_CLASS; NO_CLASS] /\ no_tail 2 [a; b; NO_CLASS; NO_CLASS]) as T1.
  { intros a b. split; intros [|[|[|[|[|j]]]]] J; cbn in J |- *; try lia; split; discriminate. }
  assert (forall n a, 0 < n -> no_tail n [a; NO_CLASS; NO_CLASS; NO_CLASS]) as T0.
  { intros n a N [|[|[|[|[|j]]]]] J; cbn; try (split; discriminate). lia. }
  assert (0 < eightbytes t) as EP. { rewrite EB. pose proof (Z.div_mod (csize c + 7) 8 ltac:(lia)). pose proof (Z.mod_pos_bound (csize c + 7) 8 ltac:(lia)). lia. }
  assert (aggregate c \/ exists k, c = CScalar k) as [A|[k ->]] by (destruct c; eauto; [exfalso; eapply NA; reflexivity|left; exact Logic.I|left; exact Logic.I]).
  2: { cbn in E. injection E as <-. cbn in H. unfold classify in EC. destruct k; cbn in H; try lia; cbn in EC; injection EC as <-; (split; [|discriminate]); try (apply T0, EP). apply (proj2 (T1 X87 X87UP)). }
  destruct (members_unaligned c t H A E) as (u & f & s & ms & b & ET & EF & HU & HA).
  assert (classify t = if (eightbytes t <=? 4) && negb f then
      obnd (has_unaligned_fields ms) (fun u =>
        if u then Some [MEMORY; NO_CLASS; NO_CLASS; NO_CLASS]
        else obnd (flatten [NO_CLASS; NO_CLASS; NO_CLASS; NO_CLASS] t 0) (fun pc => Some (merge pc (eightbytes t))))
      else Some [MEMORY; NO_CLASS; NO_CLASS; NO_CLASS]) as CE by (rewrite ET; reflexivity).
  rewrite CE, EF, HU in EC. cbn [negb] in EC. rewrite andb_true_r in EC. destruct (Z.leb_spec (eightbytes t) 4) as [LE|GT].
  2: { injection EC as <-. split; [apply T0, EP|discriminate]. }
  cbn [obnd] in EC. destruct b; [injection EC as <-; split; [apply T0, EP|discriminate]|].
  assert (csize c <= 32) as S32. { rewrite EB in LE. pose proof (Z.div_mod (csize c + 7) 8 ltac:(lia)). pose proof (Z.mod_pos_bound (csize c + 7) 8 ltac:(lia)). lia. }
  destruct (leaves_ok c H t E) as (L & R & I & B).
  assert (forall k o, Leaf c 0 k o <-> In (k, o) L) as I0 by (intros k o; rewrite I, Z.sub_0_r; reflexivity).
  assert (forall k o, In (k, o) L -> k <> T_BOOL /\ 0 < scalar_size k /\ 0 <= o /\ o + scalar_size k <= csize c) as HL.
  { intros k o X. destruct (B _ _ X) as (B1 & B2 & B3 & _). split; [|auto]. intros ->. apply (NB A o), I0, X. }
  destruct (run_classes L) with (pc := [NO_CLASS; NO_CLASS; NO_CLASS; NO_CLASS]) as (pc0 & RP & LP & CP); [|reflexivity|].
  { apply Forall_forall. intros [k o] X. destruct (HL _ _ X) as (X1 & X2 & X3 & X4). unfold leaf_ok. cbn [fst snd]. repeat split; auto; lia. }
  assert (flatten [NO_CLASS; NO_CLASS; NO_CLASS; NO_CLASS] t 0 = Some pc0) as FE by (rewrite R; exact RP).
  rewrite FE in EC. cbn [obnd] in EC. injection EC as <-. split.
  2: { unfold merge. destruct (scan _ _) as [m s']. destruct (m || _); destruct pc0; try discriminate LP; discriminate. }
  intros j J.
  assert (nth j (merge pc0 (eightbytes t)) NO_CLASS = nth j pc0 NO_CLASS) as ->.
  { unfold merge. destruct (scan _ _) as [m s']. destruct (m || _); [|reflexivity]. rewrite nth_upd by (rewrite LP; lia). destruct (Nat.eqb_spec 0 j); [lia|reflexivity]. }
  assert (nth j pc0 NO_CLASS = NO_CLASS) as ->; [|split; discriminate].
  destruct (le_lt_dec 4 j) as [J4|J4]; [apply nth_overflow; lia|].
  replace j with (Z.to_nat (Z.of_nat j)) by lia. rewrite CP by lia. rewrite (contribs_tail L (csize c)); [|lia| |lia].
  - cbn [fold_left]. destruct j as [|[|[|[|j]]]]; cbn; try reflexivity; lia.
  - intros k o X. destruct (HL _ _ X). tauto.
Qed.

(* --- the registers of one argument --- *)
Definition reg3 (x : reg * nat * Z) : reg := fst (fst x).
Lemma raw_assign t pc n : forall I X i rw, raw t pc I X i n = Some rw ->
  assign (firstn n (skipn i pc)) I X = Some (map reg3 rw, skipn (cnt INTEGER pc i n) I, skipn (cnt SSE pc i n) X).
Proof.
  induction n as [|n IH]; intros I X i rw E; cbn [raw] in E.
  - injection E as <-. reflexivity.
  - destruct (slice_width t pc i) as [w|] eqn:W.
    2: { destruct (nth i pc NO_CLASS); try (destruct X; discriminate); destruct I; discriminate. }
    destruct (slice_cls _ _ _ _ W) as [C _].
    assert (i < length pc)%nat as LT. { destruct (Nat.ltb_spec i (length pc)) as [Q|Q]; [exact Q|]. rewrite nth_overflow in C by exact Q. destruct C; discriminate. }
    assert (nth i pc NO_CLASS <> NO_CLASS) as NN by (destruct C; congruence). pose proof (cnt_step pc i n NN) as CS. rewrite (CS INTEGER), (CS SSE).
    rewrite (skipn_nth pc i LT). cbn [firstn]. destruct C as [C|C]; rewrite C in *; cbn [cls_eqb Nat.add assign].
    + destruct I as [|r I]; [discriminate|]. destruct (raw t pc I X (S i) n) as [l'|] eqn:R; [|discriminate]. cbn in E. injection E as <-.
      rewrite (IH _ _ _ _ R). reflexivity.
    + destruct X as [|r X]; [discriminate|]. destruct (raw t pc I X (S i) n) as [l'|] eqn:R; [|discriminate]. cbn in E. injection E as <-.
      rewrite (IH _ _ _ _ R). reflexivity.
Qed.
Lemma assign_count l : forall I X x, assign l I X = Some x -> (count_cls INTEGER l <= length I /\ count_cls SSE l <= length X)%nat.
Proof.
  unfold count_cls. induction l as [|c l IH]; intros I X x E; cbn [assign] in E; [cbn; lia|].
  destruct c; try discriminate.
  - destruct I as [|r I]; [discriminate|]. destruct (assign l I X) as [y|] eqn:Q; [|discriminate]. specialize (IH _ _ _ Q). cbn in *. lia.
  - destruct X as [|r X]; [discriminate|]. destruct (assign l I X) as [y|] eqn:Q; [|discriminate]. specialize (IH _ _ _ Q). cbn in *. lia.
Qed.
Lemma count_tail c n pc : no_tail (Z.of_nat n) pc -> c = INTEGER \/ c = SSE -> cnt c pc 0 n = count_cls c pc.
Proof.
  unfold no_tail, cnt, count_cls. rewrite Nat2Z.id. cbn [skipn]. revert n. induction pc as [|x pc IH]; intros n T C; [destruct n; reflexivity|].
  destruct n as [|n].
  - cbn [firstn countb]. specialize (IH O ltac:(intros j J; apply (T (S j)); lia) C). cbn [firstn countb] in IH. destruct (T O ltac:(lia)) as [T1 T2]. cbn in T1, T2.
    destruct C as [-> | ->]; destruct x; cbn; try congruence; cbn in IH; lia.
  - cbn [firstn countb]. rewrite (IH n); [reflexivity| |exact C]. intros j J. apply (T (S j)). lia.
Qed.

(* --- all arguments --- *)
Fixpoint gen (mk : nat -> option (ltype * (reg -> nat -> Z -> op))) (argpc : list (param_class * nat)) (ints sses : nat) : option (list op) :=
  match argpc with
  | [] => Some []
  | (pc, i) :: r =>
    obnd (mk i) (fun x =>
    obnd (raw (fst x) pc (skipn ints param_int_reg) (skipn sses param_sse_reg) 0 (Z.to_nat (eightbytes (fst x)))) (fun rw =>
    obnd (gen mk r (ints + count_cls INTEGER pc) (sses + count_cls SSE pc)) (fun y => Some (map (app3 (snd x)) rw ++ y))))
  end.
Definition mk_load (args : list ltype) (i : nat) : option (ltype * (reg -> nat -> Z -> op)) :=
  option_map (fun t => (t, fun r j w => Load r i (8 * Z.of_nat j) w)) (nth_error args i).
Definition mk_store (params : list ltype) (offs : list Z) (i : nat) : option (ltype * (reg -> nat -> Z -> op)) :=
  obnd (nth_error params i) (fun t => obnd (nth_error offs i) (fun off => Some (t, fun r j w => Store r (off + 8 * Z.of_nat j) w))).
Lemma load_gen args argpc : forall ints sses ops z, load_args args argpc ints sses = Some (ops, z) -> gen (mk_load args) argpc ints sses = Some ops.
Proof.
  induction argpc as [|[pc i] argpc IH]; intros ints sses ops z E; cbn [load_args gen] in *; [injection E as <- <-; reflexivity|].
  apply obnd_some in E. destruct E as (t & ET & E). apply obnd_some in E. destruct E as (l & EM & E). apply obnd_some in E. destruct E as ([ops' z'] & EL & E).
  cbn [fst snd] in E. injection E as <- <-. unfold mk_load at 1. rewrite ET. cbn [option_map obnd fst snd]. rewrite moves_raw in EM.
  destruct (raw t pc _ _ 0 _) as [rw|]; [|discriminate]. cbn [option_map] in EM. injection EM as <-. cbn [obnd]. rewrite (IH _ _ _ _ EL). reflexivity.
Qed.
Lemma store_gen params offs argpc : forall ints sses ops, store_params params offs argpc ints sses = Some ops -> gen (mk_store params offs) argpc ints sses = Some ops.
Proof.
  induction argpc as [|[pc i] argpc IH]; intros ints sses ops E; cbn [store_params gen] in *; [injection E as <-; reflexivity|].
  apply obnd_some in E. destruct E as (t & ET & E). apply obnd_some in E. destruct E as (off & EO & E). apply obnd_some in E. destruct E as (l & EM & E). apply obnd_some in E. destruct E as (ops' & EL & E).
  injection E as <-. unfold mk_store at 1. rewrite ET, EO. cbn [option_map obnd fst snd]. rewrite moves_raw in EM.
  destruct (raw t pc _ _ 0 _) as [rw|]; [|discriminate]. cbn [option_map] in EM. injection EM as <-. cbn [obnd]. rewrite (IH _ _ _ EL). reflexivity.
Qed.

Definition classed (t : ltype) (x : list cls * Z) : Prop :=
  exists pc, classify t = Some pc /\ fst x = classes (eightbytes t) pc /\ snd x = lsize t /\ no_tail (eightbytes t) pc /\ pc <> [] /\ 0 < lsize t.
Lemma skip_len {A} n (l : list A) : length (skipn n l) = (length l - n)%nat.
Proof. apply skipn_length. Qed.
Lemma eb_pos t : 0 < lsize t -> 0 < eightbytes t.
Proof. intro H. unfold eightbytes. pose proof (Z.div_mod (lsize t + 7) 8 ltac:(lia)). pose proof (Z.mod_pos_bound (lsize t + 7) 8 ltac:(lia)). lia. Qed.

(* one argument *)
Lemma assign_none t x pc ints sses : classed t x -> classify t = Some pc -> alloc_register_params pc ints sses = None -> (ints <= 6)%nat -> (sses <= 8)%nat ->
  assign (fst x) (skipn ints integer_registers) (skipn sses vector_registers) = None.
Proof.
  intros (pc' & C & F & _ & T & NE & P) C' A I6 S8. rewrite C in C'. injection C' as ->. rewrite F. clear F. pose proof (eb_pos t P) as EP.
  destruct (assign (classes (eightbytes t) pc) (skipn ints integer_registers) (skipn sses vector_registers)) as [y|] eqn:E; [|reflexivity]. exfalso.
  assert (exists m, Z.to_nat (eightbytes t) = S m) as (m & EM) by (exists (pred (Z.to_nat (eightbytes t))); lia).
  assert (nth 0 pc NO_CLASS = INTEGER \/ nth 0 pc NO_CLASS = SSE \/ pc = []) as D.
  { destruct pc as [|c pc]; [auto|]. cbn [nth]. unfold classes in E. rewrite EM in E. destruct c; cbn in E; try discriminate; auto. }
  assert (classes (eightbytes t) pc = firstn (Z.to_nat (eightbytes t)) pc) as CE.
  { unfold classes. destruct pc as [|c pc]; [reflexivity|]. cbn in D. destruct c; try reflexivity. destruct D as [D|[D|D]]; discriminate. }
  rewrite CE in E. destruct (assign_count _ _ _ _ E) as [Q1 Q2]. rewrite !skip_len in Q1, Q2. cbn [length integer_registers vector_registers] in Q1, Q2.
  replace (eightbytes t) with (Z.of_nat (Z.to_nat (eightbytes t))) in T by lia.
  pose proof (count_tail INTEGER _ _ T ltac:(auto)) as K1. pose proof (count_tail SSE _ _ T ltac:(auto)) as K2.
  unfold cnt in K1, K2. cbn [skipn] in K1, K2. change (count_cls INTEGER (firstn (Z.to_nat (eightbytes t)) pc) = count_cls INTEGER pc) in K1. change (count_cls SSE (firstn (Z.to_nat (eightbytes t)) pc) = count_cls SSE pc) in K2.
  unfold alloc_register_params in A.
  destruct D as [D|[D|D]].
  - rewrite D in A. rewrite (proj2 (Nat.leb_le _ _)), (proj2 (Nat.leb_le _ _)) in A by lia. discriminate.
  - rewrite D in A. rewrite (proj2 (Nat.leb_le _ _)), (proj2 (Nat.leb_le _ _)) in A by lia. discriminate.
  - congruence.
Qed.
Lemma skipn_ss {A} a b (l : list A) : skipn a (skipn b l) = skipn (b + a) l.
Proof. revert l; induction b as [|b IH]; intro l; [reflexivity|]. destruct l as [|x l]; [destruct a; reflexivity|]. cbn. apply IH. Qed.
Lemma assign_some t x pc ints sses i' s' rw : classed t x -> classify t = Some pc -> alloc_register_params pc ints sses = Some (i', s') ->
  raw t pc (skipn ints param_int_reg) (skipn sses param_sse_reg) 0 (Z.to_nat (eightbytes t)) = Some rw ->
  assign (fst x) (skipn ints integer_registers) (skipn sses vector_registers) = Some (map reg3 rw, skipn i' integer_registers, skipn s' vector_registers) /\
  i' = (ints + count_cls INTEGER pc)%nat /\ s' = (sses + count_cls SSE pc)%nat /\ (i' <= 6)%nat /\ (s' <= 8)%nat.
Proof.
  intros (pc' & C & F & _ & T & NE & P) C' A R. rewrite C in C'. injection C' as ->. rewrite F. clear F. pose proof (eb_pos t P) as EP.
  pose proof (raw_assign _ _ _ _ _ _ _ R) as RA. cbn [skipn] in RA.
  replace (eightbytes t) with (Z.of_nat (Z.to_nat (eightbytes t))) in T by lia.
  rewrite (count_tail INTEGER _ _ T), (count_tail SSE _ _ T) in RA by auto. rewrite !skipn_ss in RA.
  unfold alloc_register_params in A. destruct pc as [|c pc]; [congruence|]. cbn [nth] in A.
  assert (c = INTEGER \/ c = SSE) as D by (destruct c; try discriminate; auto).
  assert (classes (eightbytes t) (c :: pc) = firstn (Z.to_nat (eightbytes t)) (c :: pc)) as -> by (destruct D as [-> | ->]; reflexivity).
  assert ((if (ints + count_cls INTEGER (c :: pc) <=? 6)%nat && (sses + count_cls SSE (c :: pc) <=? 8)%nat then Some ((ints + count_cls INTEGER (c :: pc))%nat, (sses + count_cls SSE (c :: pc))%nat) else None) = Some (i', s')) as A'
    by (destruct D as [-> | ->]; exact A). clear A.
  destruct (Nat.leb_spec (ints + count_cls INTEGER (c :: pc)) 6) as [L1|]; [|discriminate].
  destruct (Nat.leb_spec (sses + count_cls SSE (c :: pc)) 8) as [L2|]; [|discriminate]. injection A' as <- <-. split; [exact RA|auto].
Qed.

Definition found (mk : nat -> option (ltype * (reg -> nat -> Z -> op))) (ops : list op) (S0 : list (nat * ltype)) (o : Z) (i : nat) (t : ltype) (w : location) : Prop :=
  match w with
  | Registers rs => exists pc f rw, mk i = Some (t, f) /\ classify t = Some pc /\ rs = map reg3 rw /\
      map (fun x : reg * nat * Z => snd (fst x)) rw = seq 0 (Z.to_nat (eightbytes t)) /\
      forall r j w, In (r, j, w) rw -> slice_width t pc j = Some w /\ In (f r j w) ops
  | Stack o' => exists A B, S0 = A ++ (i, t) :: B /\ o' = o + total A
  end.
Lemma locate_split mk ts xs : Forall2 classed ts xs -> forall i ints sses R S0 ops o, (ints <= 6)%nat -> (sses <= 8)%nat ->
  split_args i ts ints sses = Some (R, S0) -> gen mk (argpc_of R) ints sses = Some ops ->
  (forall k t, nth_error ts k = Some t -> exists f, mk (i + k)%nat = Some (t, f)) ->
  forall k w, nth_error (locate xs (skipn ints integer_registers) (skipn sses vector_registers) o) k = Some w ->
  exists t, nth_error ts k = Some t /\ found mk ops S0 o (i + k) t w.
Proof.
  induction 1 as [|t x ts xs H F IH]; intros i ints sses R S0 ops o I6 S8 ES EG HM k w E; [destruct k; discriminate|].
  cbn [split_args] in ES. apply obnd_some in ES. destruct ES as (pc & C & ES). destruct x as [l n]. cbn [locate] in E.
  assert (forall k t, nth_error ts k = Some t -> exists f, mk (S i + k)%nat = Some (t, f)) as HM'.
  { intros k' t' N. replace (S i + k')%nat with (i + S k')%nat by lia. apply HM, N. }
  destruct (alloc_register_params pc ints sses) as [[i' s']|] eqn:AL; apply obnd_some in ES; destruct ES as ([R' S'] & ES & X); cbn [fst snd] in X; injection X as <- <-.
  - cbn [argpc_of map gen fst snd] in EG. fold (argpc_of R') in EG. destruct (HM O t eq_refl) as (f & MK). rewrite Nat.add_0_r in MK. rewrite MK in EG.
    cbn [obnd fst snd] in EG. apply obnd_some in EG. destruct EG as (rw & ER & EG). apply obnd_some in EG. destruct EG as (ops' & EG & EO). injection EO as <-.
    destruct (assign_some _ _ _ _ _ _ _ _ H C AL ER) as (AS & E1 & E2 & L1 & L2). cbn [fst] in AS. rewrite AS in E. rewrite <- E1, <- E2 in EG.
    destruct k as [|k]; cbn [nth_error] in E.
    + injection E as <-. exists t. split; [reflexivity|]. rewrite Nat.add_0_r. exists pc, f, rw. split; [exact MK|]. split; [exact C|]. split; [reflexivity|].
      destruct (raw_facts _ _ _ _ _ _ _ ER) as (A1 & A2 & _). split; [exact A1|]. intros r j w0 Q. split; [eapply A2, Q|]. apply in_or_app. left. apply (in_map (app3 f) _ _ Q).
    + destruct (IH _ _ _ _ _ _ _ L1 L2 ES EG HM' k w E) as (t' & N & FD). exists t'. split; [exact N|].
      replace (i + S k)%nat with (S i + k)%nat by lia. destruct w as [rs|o']; cbn [found] in *; [|exact FD].
      destruct FD as (pc' & f' & rw' & Q1 & Q2 & Q3 & Q4 & Q5). exists pc', f', rw'. repeat (split; [assumption|]). intros r j w0 Q. destruct (Q5 _ _ _ Q) as [Q6 Q7]. split; [exact Q6|]. apply in_or_app. right. exact Q7.
  - rewrite (assign_none _ _ _ _ _ H C AL I6 S8 : assign l _ _ = None) in E.
    destruct H as (pc' & _ & _ & N & _). cbn [snd] in N.
    destruct k as [|k]; cbn [nth_error] in E.
    + injection E as <-. exists t. split; [reflexivity|]. rewrite Nat.add_0_r. exists [], S'. cbn. split; [reflexivity|lia].
    + destruct (IH _ _ _ _ _ _ _ I6 S8 ES EG HM' k w E) as (t' & NT & FD). exists t'. split; [exact NT|].
      replace (i + S k)%nat with (S i + k)%nat by lia. destruct w as [rs|o']; cbn [found] in *; [exact FD|].
      destruct FD as (A & B & -> & ->). exists ((i, t) :: A), B. split; [reflexivity|]. cbn [total fold_right snd]. fold (total A). unfold eightbytes. rewrite N. lia.
Qed.
Lemma locate_length xs : forall I X o, length (locate xs I X o) = length xs.
Proof. induction xs as [|[l n] xs IH]; intros I X o; [reflexivity|]. cbn [locate]. destruct (assign l I X) as [[[? ?] ?]|]; cbn [length]; rewrite IH; reflexivity. Qed.

(* the number of vector registers *)
Lemma raw_vectors t pc n : forall I X i rw, raw t pc I X i n = Some rw -> Forall (fun r => is_vector r = false) I -> Forall (fun r => is_vector r = true) X ->
  length (filter is_vector (map reg3 rw)) = cnt SSE pc i n.
Proof.
  induction n as [|n IH]; intros I X i rw E FI FX; cbn [raw] in E; [injection E as <-; reflexivity|].
  destruct (slice_width t pc i) as [w|] eqn:W.
  2: { destruct (nth i pc NO_CLASS); try (destruct X; discriminate); destruct I; discriminate. }
  destruct (slice_cls _ _ _ _ W) as [C _]. assert (nth i pc NO_CLASS <> NO_CLASS) as NN by (destruct C; congruence). rewrite (cnt_step pc i n NN SSE).
  destruct C as [C|C]; rewrite C in *; cbn [cls_eqb Nat.add].
  + destruct I as [|r I]; [discriminate|]. destruct (raw t pc I X (S i) n) as [l'|] eqn:R; [|discriminate]. cbn in E. injection E as <-.
    inversion FI as [|? ? F1 F2]; subst. cbn [map reg3 fst filter]. rewrite F1. apply (IH _ _ _ _ R F2 FX).
  + destruct X as [|r X]; [discriminate|]. destruct (raw t pc I X (S i) n) as [l'|] eqn:R; [|discriminate]. cbn in E. injection E as <-.
    inversion FX as [|? ? F1 F2]; subst. cbn [map reg3 fst filter]. rewrite F1. cbn [length]. f_equal. apply (IH _ _ _ _ R FI F2).
Qed.
Lemma forall_skipn {A} (P : A -> Prop) n l : Forall P l -> Forall P (skipn n l).
Proof. revert l; induction n as [|n IH]; intros l F; [exact F|]. destruct F; [constructor|]. cbn. apply IH. assumption. Qed.
Lemma locate_vectors args ts xs : Forall2 classed ts xs -> forall i ints sses R S0 ops z o, (ints <= 6)%nat -> (sses <= 8)%nat ->
  split_args i ts ints sses = Some (R, S0) -> load_args args (argpc_of R) ints sses = Some (ops, z) ->
  (forall k t, nth_error ts k = Some t -> nth_error args (i + k) = Some t) ->
  z = (sses + length (vectors (locate xs (skipn ints integer_registers) (skipn sses vector_registers) o)))%nat.
Proof.
  unfold vectors.
  induction 1 as [|t x ts xs H F IH]; intros i ints sses R S0 ops z o I6 S8 ES EG HM.
  - cbn in ES. injection ES as <- <-. cbn in EG. injection EG as <- <-. cbn. lia.
  - cbn [split_args] in ES. apply obnd_some in ES. destruct ES as (pc & C & ES). destruct x as [l n]. cbn [locate].
    assert (forall k t, nth_error ts k = Some t -> nth_error args (S i + k) = Some t) as HM'.
    { intros k' t' N. replace (S i + k')%nat with (i + S k')%nat by lia. apply HM, N. }
    destruct (alloc_register_params pc ints sses) as [[i' s']|] eqn:AL; apply obnd_some in ES; destruct ES as ([R' S'] & ES & X); cbn [fst snd] in X; injection X as <- <-.
    + cbn [argpc_of map load_args fst snd] in EG. fold (argpc_of R') in EG. pose proof (HM O t eq_refl) as MK. rewrite Nat.add_0_r in MK. rewrite MK in EG.
      cbn [obnd fst snd] in EG. apply obnd_some in EG. destruct EG as (l0 & EM & EG). apply obnd_some in EG. destruct EG as ([ops' z'] & EG & EO). cbn [fst snd] in EO. injection EO as <- <-.
      rewrite moves_raw in EM. destruct (raw t pc _ _ 0 _) as [rw|] eqn:ER; [|discriminate].
      destruct (assign_some _ _ _ _ _ _ _ _ H C AL ER) as (AS & E1 & E2 & L1 & L2). cbn [fst] in AS. rewrite AS. rewrite <- E1, <- E2 in EG.
      cbn [flat_map]. rewrite filter_app, app_length. rewrite (raw_vectors _ _ _ _ _ _ _ ER).
      * destruct H as (pc' & C' & _ & _ & T & _ & P). rewrite C in C'. injection C' as <-. pose proof (eb_pos t P).
        replace (eightbytes t) with (Z.of_nat (Z.to_nat (eightbytes t))) in T by lia. rewrite (count_tail SSE _ _ T) by auto.
        rewrite (IH _ _ _ _ _ _ _ o L1 L2 ES EG HM'). lia.
      * apply forall_skipn. repeat constructor.
      * apply forall_skipn. repeat constructor.
    + rewrite (assign_none _ _ _ _ _ H C AL I6 S8 : assign l _ _ = None). cbn [flat_map app]. apply (IH _ _ _ _ _ _ _ _ I6 S8 ES EG HM').
Qed.

(* --- the caller and the callee --- *)
Definition loads_fill (ext : reg -> list Z -> list Z) : Prop :=
  forall r l, length (ext r l) = rsize r /\ ((length l <= rsize r)%nat -> firstn (length l) (ext r l) = l).
Section Conform.
Variables (obj : nat -> Z -> Z) (ext : reg -> list Z -> list Z) (junk : reg -> list Z).
Hypotheses (HE : loads_fill ext) (HJ : forall r, length (junk r) = rsize r).

Lemma classed_sized ts xs : Forall2 classed ts xs -> sized ts.
Proof. induction 1 as [|t x ts xs (pc & _ & _ & _ & _ & _ & P) F IH]; constructor; auto. Qed.
Lemma in_registers t pc (rw : list (reg * nat * Z)) k : 0 < lsize t -> classify t = Some pc ->
  map (fun x : reg * nat * Z => snd (fst x)) rw = seq 0 (Z.to_nat (eightbytes t)) -> 0 <= k < lsize t ->
  (forall r j w, In (r, j, w) rw -> slice_width t pc j = Some w) ->
  exists r w, nth_error (map reg3 rw) (Z.to_nat (k / 8)) = Some r /\ In (r, Z.to_nat (k / 8), w) rw /\ 0 <= k mod 8 < w /\ 0 < w <= 8.
Proof.
  intros P CL P3 K WD. destruct (eightbyte_of _ _ K) as (K1 & K2 & K3).
  destruct (nth_error rw (Z.to_nat (k / 8))) as [[[r j] w]|] eqn:N.
  2: { apply nth_error_None in N. assert (length rw = Z.to_nat (eightbytes t)) as LN by (rewrite <- (map_length (fun x : reg * nat * Z => snd (fst x)) rw), P3, seq_length; reflexivity). unfold eightbytes in LN. lia. }
  assert (j = Z.to_nat (k / 8)) as ->.
  { pose proof (map_nth_error (fun x : reg * nat * Z => snd (fst x)) _ _ N) as Q. rewrite P3 in Q. cbn [fst snd] in Q.
    rewrite (nth_error_nth' _ O) in Q by (rewrite seq_length; unfold eightbytes; lia). rewrite seq_nth in Q by (unfold eightbytes; lia). injection Q as Q. lia. }
  exists r, w. split; [rewrite (map_nth_error reg3 _ _ N); reflexivity|]. pose proof (nth_error_In _ _ N) as IN. split; [exact IN|].
  destruct (width_ok t pc _ w P CL (WD _ _ _ IN)) as [W1 W2]; [rewrite Z2Nat.id by lia; lia|]. rewrite Z2Nat.id in W2 by lia. lia.
Qed.
Lemma first_regs respc : skipn (first_reg respc) integer_registers = if is_memory respc then tl integer_registers else integer_registers.
Proof. unfold first_reg. destruct (is_memory respc); reflexivity. Qed.

Lemma caller_conforms sses ts xs vararg respc tgt before after s :
  Forall2 classed ts xs -> (sses <= 8)%nat -> (forall r, length (m_reg s r) = rsize r) ->
  compile_call sses ts vararg respc tgt = Some (before, after) ->
  let s1 := exec obj ext junk before s in
  let L := locate xs (if is_memory respc then tl integer_registers else integer_registers) vector_registers 0 in
  (forall i t w k, nth_error L i = Some w -> nth_error ts i = Some t -> 0 <= k < lsize t -> byte_at s1 (m_rsp s1) w k = Some (obj i k)) /\
  (is_memory respc = true -> forall k, 0 <= k < 8 -> nth (Z.to_nat k) (m_reg s1 DI) 0 = obj tgt k) /\
  (vararg = true -> nth 0 (m_reg s1 AX) 0 = Z.of_nat (length (vectors L)) /\ (length (vectors L) <= 8)%nat).
Proof.
  intros FC S8 G EC s1 L. pose proof (classed_sized _ _ FC) as SZ.
  destruct (before_ok obj ext junk HE HJ _ _ _ _ _ _ _ s SZ S8 G EC) as (used & R & S0 & loads & z & B1 & B2 & _ & B3 & B4 & GB & B5 & B6 & B7 & B8 & _ & B9 & B10 & B10' & B11 & B12).
  fold s1 in B5, B6, B7, B8, B9, B10, B10', B11, B12, GB.
  assert (first_reg respc <= 6)%nat as F6 by (unfold first_reg; destruct (is_memory respc); lia).
  split; [|split].
  - intros i t w k NW NT K. unfold L in NW. rewrite <- first_regs in NW.
    destruct (locate_split (mk_load ts) ts xs FC O _ 0 R S0 loads 0 F6 ltac:(lia) B1 (load_gen _ _ _ _ _ _ B2)) with (k := i) (w := w) as (t' & N' & FD).
    { intros k' t' N. unfold mk_load. cbn [Nat.add]. rewrite N. cbn. eauto. }
    { exact NW. }
    rewrite NT in N'. injection N' as <-. cbn [Nat.add] in FD. destruct w as [rs|o]; cbn [found byte_at] in *.
    + destruct FD as (pc & f & rw & MK & CL & -> & P3 & P4). destruct (in_registers t pc rw k ltac:(lia) CL P3 K) as (r & w & Q1 & Q2 & Q3 & Q4).
      { intros r j w Q. apply (P4 _ _ _ Q). }
      rewrite Q1. cbn [option_map]. f_equal. destruct (P4 _ _ _ Q2) as [_ IL]. unfold mk_load in MK. rewrite NT in MK. cbn [option_map] in MK. assert (f = fun r j w => Load r i (8 * Z.of_nat j) w) as -> by congruence.
      destruct (eightbyte_of _ _ K) as (K1 & K2 & K3). rewrite Z2Nat.id in IL by lia. rewrite (B10 _ _ _ _ IL). rewrite (nth_ext_bytes obj ext HE); [f_equal; lia| |lia].
      assert (8 <= Z.of_nat (rsize r)) by (destruct r; cbn; lia). lia.
    + destruct FD as (A & B & ES & ->). rewrite Z.add_0_l. f_equal. apply (B9 A i t B ES k K).
  - intros M k K. rewrite (B10' M). rewrite (nth_ext_bytes obj ext HE); [reflexivity|cbn; lia|lia].
  - intro V. destruct (B12 V) as [X Y]. unfold L. rewrite <- first_regs.
    pose proof (locate_vectors ts ts xs FC O _ 0 R S0 loads z 0 F6 ltac:(lia) B1 B2 ltac:(auto)) as Q. cbn [Nat.add skipn] in Q. rewrite <- Q. split; [|exact Y].
    rewrite X. destruct (HE AX (le_bytes 4 (Z.of_nat z))) as [_ Q2]. specialize (Q2 ltac:(cbn; lia)).
    change (length (le_bytes 4 (Z.of_nat z))) with 4%nat in Q2. 
    assert (nth 0 (ext AX (le_bytes 4 (Z.of_nat z))) 0 = nth 0 (firstn 4 (ext AX (le_bytes 4 (Z.of_nat z)))) 0) as -> by (destruct (ext AX (le_bytes 4 (Z.of_nat z))); reflexivity).
    rewrite Q2. cbn. apply Z.mod_small. lia.
Qed.

Lemma callee_conforms ts xs vararg respc locals f s :
  Forall2 classed ts xs -> locals_sized locals -> (forall r, length (m_reg s r) = rsize r) -> enter respc vararg ts locals = Some f ->
  let s2 := exec obj ext junk (f_ops f) s in
  let L := locate xs (if is_memory respc then tl integer_registers else integer_registers) vector_registers 0 in
  (forall i t w k, nth_error L i = Some w -> nth_error ts i = Some t -> 0 <= k < lsize t ->
     exists off, nth_error (f_offs f) i = Some off /\ byte_at s (m_rsp s + 8) w k = Some (m_mem s2 (m_rbp s2 + off + k))) /\
  (is_memory respc = true -> forall k, 0 <= k < 8 -> m_mem s2 (m_rbp s2 + f_ret f + k) = nth (Z.to_nat k) (m_reg s DI) 0).
Proof.
  intros FC SL G EE s2 L. pose proof (classed_sized _ _ FC) as SP.
  destruct (enter_ok _ _ _ _ _ SP SL EE) as (R & S0 & st0 & st2 & st3 & sub & stores & EN).
  destruct (enter_exec obj ext junk _ _ _ _ _ _ _ _ _ _ _ _ s SP EN G) as (D1 & D2 & D3 & D4 & D5 & D6 & D7 & LL & EL & D8).
  destruct (enter_more obj ext junk _ _ _ _ _ _ _ _ _ _ _ _ s SP EN G) as (DM & _).
  fold s2 in D1, D2, D3, D4, D5, D6, D7, D8, DM. split; [|exact DM].
  destruct EN as [(E1a & E1b) E2 E3 E4 E5 E6 E7 (E8a & E8b) (E9a & E9b & E9c) (E10a & E10b) E11 E12 E13 E14 _ _].
  assert (first_reg respc <= 6)%nat as F6 by (unfold first_reg; destruct (is_memory respc); lia).
  intros i t w k NW NT K. unfold L in NW. rewrite <- first_regs in NW.
  destruct (locate_split (mk_store ts (f_offs f)) ts xs FC O _ 0 R S0 stores 0 F6 ltac:(lia) E3 (store_gen _ _ _ _ _ _ E12)) with (k := i) (w := w) as (t' & N' & FD).
  { intros k' t' N. unfold mk_store. cbn [Nat.add]. rewrite N. cbn [obnd]. destruct (nth_error (f_offs f) k') as [o|] eqn:NO; [cbn; eauto|].
    apply nth_error_None in NO. assert (k' < length ts)%nat by (apply nth_error_Some; congruence). lia. }
  { exact NW. }
  rewrite NT in N'. injection N' as <-. cbn [Nat.add] in FD. destruct w as [rs|o]; cbn [found byte_at] in *.
  - destruct FD as (pc & g & rw & MK & CL & -> & P3 & P4). destruct (in_registers t pc rw k ltac:(lia) CL P3 K) as (r & w & Q1 & Q2 & Q3 & Q4).
    { intros r j w Q. apply (P4 _ _ _ Q). }
    rewrite Q1. cbn [option_map]. destruct (P4 _ _ _ Q2) as [_ IL]. unfold mk_store in MK. rewrite NT in MK. cbn [obnd] in MK.
    destruct (nth_error (f_offs f) i) as [off|]; [|discriminate]. cbn [obnd] in MK. assert (g = fun r j w => Store r (off + 8 * Z.of_nat j) w) as -> by congruence.
    exists off. split; [reflexivity|]. f_equal. destruct (eightbyte_of _ _ K) as (K1 & K2 & K3). rewrite Z2Nat.id in IL by lia.
    rewrite EL in IL. apply in_map_iff in IL. destruct IL as ([[r' o'] w'] & Q5 & Q6). cbn [storeop] in Q5. assert (r' = r /\ o' = off + 8 * (k / 8) /\ w' = w) as (-> & -> & ->) by (repeat split; congruence).
    specialize (D8 _ _ _ (k mod 8) Q6 Q3). replace (m_rbp s2 + off + k) with (m_rbp s2 + (off + 8 * (k / 8)) + k mod 8) by lia. symmetry. exact D8.
  - destruct FD as (A & B & ES & ->). exists (16 + total A). split; [apply (asc_at 16 S0 (f_offs f) A i t B E6 ES)|]. f_equal.
    assert (0 <= total A) as TA. { apply total_nonneg. destruct (sized_stack _ _ _ _ _ _ SP E3) as [FS _]. rewrite ES in FS. apply Forall_app in FS. tauto. }
    replace (m_rbp s2 + (16 + total A) + k) with (m_rsp s + 8 + (0 + total A) + k) by lia. symmetry. apply D5. lia.
Qed.
End Conform.

(* --- types of the language --- *)
Lemma passable_classed c t : passable c -> elab c = Done t -> exists pc, classify t = Some pc /\ Abi c (classes ((csize c + 7) / 8) pc) /\
  lsize t = csize c /\ classed t (classes ((csize c + 7) / 8) pc, csize c).
Proof.
  intros (H & NA & NB & SA) E. destruct (classify_ok c H NA NB SA) as (t' & pc & E' & C & A). rewrite E in E'. injection E' as <-. exists pc. split; [exact C|]. split; [exact A|].
  destruct (elab_ok _ H) as (t' & E' & (G1 & _ & _ & _ & G5 & _) & _). rewrite E in E'. injection E' as <-. split; [exact G1|].
  destruct (classify_tail c t pc H NA NB E C) as [T NE]. exists pc. split; [exact C|]. unfold eightbytes. rewrite G1. cbn [fst snd].
  split; [reflexivity|]. split; [reflexivity|]. unfold eightbytes in T. rewrite G1 in T. split; [exact T|]. split; [exact NE|lia].
Qed.
Lemma passable_all cs ts : Forall passable cs -> Forall2 (fun c t => elab c = Done t) cs ts ->
  exists ls, Forall2 Abi cs ls /\ Forall2 classed ts (List.combine ls (map csize cs)) /\ Forall2 (fun c t => lsize t = csize c) cs ts.
Proof.
  intros P F. induction F as [|c t cs ts E F IH]; [exists []; repeat constructor|].
  inversion P as [|? ? P1 P2]; subst. destruct (IH P2) as (ls & A & B & D). destruct (passable_classed c t P1 E) as (pc & _ & X & Y & Z).
  exists (classes ((csize c + 7) / 8) pc :: ls). cbn [List.combine map]. repeat split; constructor; auto.
Qed.
Lemma result_memory c pc : result_class c pc -> exists l, AbiResult c l /\ match l with [MEMORY] => tl integer_registers | _ => integer_registers end =
  if is_memory pc then tl integer_registers else integer_registers.
Proof.
  destruct c as [c|]; cbn [result_class AbiResult].
  - intros (P & t & E & C). destruct (passable_classed c t P E) as (pc' & C' & A & L & CC). rewrite C in C'. injection C' as <-. exists (classes ((csize c + 7) / 8) pc). split; [exact A|].
    destruct CC as (pc' & C' & _ & _ & _ & NE & PS). rewrite C in C'. injection C' as <-. pose proof (eb_pos t PS) as EP. unfold eightbytes in EP. rewrite L in EP.
    assert (exists m, Z.to_nat ((csize c + 7) / 8) = S m) as (m & EM) by (exists (pred (Z.to_nat ((csize c + 7) / 8))); lia).
    unfold classes, is_memory. rewrite EM. destruct pc as [|x pc]; [congruence|]. destruct x; cbn [firstn nth cls_eqb]; reflexivity.
  - intro E. injection E as <-. exists []. split; reflexivity.
Qed.
Lemma forall2_nth {A B} (P : A -> B -> Prop) l l' i a : Forall2 P l l' -> nth_error l i = Some a -> exists b, nth_error l' i = Some b /\ P a b.
Proof. intro F. revert i. induction F as [|x y l l' E F IH]; intros [|i] X; cbn in *; try discriminate; [injection X as <-; eauto|apply IH, X]. Qed.
