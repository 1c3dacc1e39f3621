(* The passes that change statements, and the analysis, keep what a function does. *)
From Coq Require Import List ZArith Bool Lia Arith.
From Verif Require Import Util Bytes OptModel OptSpec OptLive OptProofs.
Import ListNotations.
Open Scope Z_scope.

Lemma map_split {A B} (f : A -> B) pre x o1 o2 : map f (pre ++ x) = o1 ++ o2 -> length o1 = length pre -> o1 = map f pre /\ o2 = map f x.
Proof.
  revert o1. induction pre as [|a pre IH]; intros [|o o1] H HL; try discriminate; [split; [reflexivity|symmetry; exact H]|].
  cbn [map app] in H. injection H as <- H. cbn [length] in HL. destruct (IH o1 H ltac:(lia)) as [-> ->]. split; reflexivity.
Qed.

Lemma skipn_past {A} (a : list A) x r k : k = length a -> skipn (S k) (a ++ x :: r) = r.
Proof. intros ->. induction a as [|y a IH]; [reflexivity|exact IH]. Qed.

Lemma skipn_S_skipn {A} i (l : list A) : skipn 1 (skipn i l) = skipn (S i) l.
Proof. revert l. induction i as [|i IH]; intros [|x l]; try reflexivity. exact (IH l). Qed.

Section Pass.
Context {W : Type}.
Variable tab : sym -> symbol.
Variable M : machine W.
Notation conf := (@conf W).

Lemma event_trans a b c : same_event M a b -> same_event M b c -> same_event M a c.
Proof.
  intros (A1 & A2 & A3 & A4) (B1 & B2 & B3 & B4). split; [congruence|]. split; [congruence|]. split.
  - intros x Hx. rewrite (A3 x Hx). apply B3, Hx.
  - intros Hg x. rewrite (A4 Hg x). apply B4. rewrite <- A2. exact Hg.
Qed.
Lemma trace_trans : forall a b c, same_trace M a b -> same_trace M b c -> same_trace M a c.
Proof. intros a b c H. revert c. induction H; intros c H'; inversion H'; subst; constructor; [eapply event_trans; eassumption|apply IHForall2; assumption]. Qed.
Lemma behaviour_trans a b c : same_behaviour M a b -> same_behaviour M b c -> same_behaviour M a c.
Proof.
  destruct a, b; cbn [same_behaviour]; try contradiction; auto; destruct c; cbn [same_behaviour]; try contradiction; auto.
  - apply trace_trans.
  - intros (-> & -> & H1 & H2) (-> & -> & H3 & H4). repeat split; [|eapply trace_trans; eassumption]. intros x Hx. rewrite (H1 x Hx). apply H3, Hx.
  - apply trace_trans.
Qed.
Lemma behaviour_refl a : same_behaviour M a a.
Proof. destruct a; cbn [same_behaviour]; try exact Logic.I; try apply trace_refl. repeat split. apply trace_refl. Qed.

Definition refines (d d' : def) : Prop := forall w m k, exists k2, (k <= k2)%nat /\ same_behaviour M (execute tab M k2 d w m) (execute tab M k d' w m).
Lemma refines_refl d : refines d d. Proof. intros w m k. exists k. split; [lia|apply behaviour_refl]. Qed.
Lemma refines_trans a b c : refines a b -> refines b c -> refines a c.
Proof.
  intros H H' w m k. destruct (H' w m k) as (k2 & L2 & B2). destruct (H w m k2) as (k3 & L3 & B3). exists k3. split; [lia|eapply behaviour_trans; eassumption].
Qed.

(* --- the same code with other annotations --- *)
Lemma step_strip s s' c : strip s = strip s' -> step tab M s c = step tab M s' c.
Proof. intros H. unfold strip, with_out in H. injection H as H1 H2 H3. unfold step. rewrite H1, H2, H3. reflexivity. Qed.
Lemma steps_strip l l' c : map strip l = map strip l' -> steps tab M l c = steps tab M l' c.
Proof.
  revert l' c. induction l as [|s l IH]; intros [|s' l'] c H; try discriminate; [reflexivity|]. cbn [map] in H.
  assert (H1 : strip s = strip s') by congruence. assert (H2 : map strip l = map strip l') by congruence.
  cbn [steps]. rewrite (step_strip s s' c H1). destruct (step tab M s' c); cbn [bind]; [apply IH, H2|reflexivity|reflexivity].
Qed.
Lemma leave_meta b b' c : meta b b' -> leave tab M b c = leave tab M b' c.
Proof. intros [H1 H2 H3 H4]. unfold leave. rewrite H1, H2, H3, H4. reflexivity. Qed.
Definition same_code (d d' : def) : Prop :=
  d_body d = d_body d' /\ forall n, match nth_error (d_nodes d) n with
  | Some b => exists b', nth_error (d_nodes d') n = Some b' /\ meta b b' /\ map strip (body d b) = map strip (body d' b')
  | None => nth_error (d_nodes d') n = None end.
Lemma same_code_refl d : same_code d d.
Proof. split; [reflexivity|]. intros n. destruct (nth_error (d_nodes d) n) as [b|] eqn:E; [|reflexivity]. exists b. repeat split. Qed.
Lemma same_code_trans a b c : same_code a b -> same_code b c -> same_code a c.
Proof.
  intros [H1 H2] [K1 K2]. split; [congruence|]. intros n. specialize (H2 n). specialize (K2 n). destruct (nth_error (d_nodes a) n) as [x|].
  - destruct H2 as (y & E & Hm & HB). rewrite E in K2. destruct K2 as (z & F & Km & KB). exists z. repeat split; try congruence; eapply meta_trans; eassumption.
  - rewrite H2 in K2. exact K2.
Qed.
Lemma same_code_enter d d' n c : same_code d d' -> enter tab M d n c = enter tab M d' n c.
Proof.
  intros [_ H]. specialize (H n). unfold enter. destruct (nth_error (d_nodes d) n) as [b|]; [|rewrite H; reflexivity].
  destruct H as (b' & -> & Hm & HB). rewrite (steps_strip _ _ c HB). destruct (steps tab M (body d' b') c); cbn [bind]; [apply leave_meta, Hm|reflexivity|reflexivity].
Qed.
Lemma same_code_run d d' k : same_code d d' -> forall n c, run tab M k d n c = run tab M k d' n c.
Proof.
  intros H. induction k as [|k IH]; intros n c; [reflexivity|]. cbn [run]. rewrite (same_code_enter d d' n c H).
  destruct (enter tab M d' n c) as [[x|v] c'|t|]; [apply IH|reflexivity|reflexivity|reflexivity].
Qed.
Lemma same_code_refines d d' : same_code d d' -> refines d d'.
Proof.
  intros H w m k. exists k. split; [lia|]. unfold execute. rewrite (same_code_run d d' k H). destruct H as [-> _]. apply behaviour_refl.
Qed.
Lemma same_code_closed d d' bl : same_code d d' -> closed d bl -> closed d' bl.
Proof.
  intros [_ H] HC n b' Hn HN. specialize (H n). destruct (nth_error (d_nodes d) n) as [b|] eqn:E; [|congruence].
  destruct H as (b0 & E0 & [_ J0 J1 _] & _). rewrite E0 in HN. injection HN as ->. rewrite <- J0, <- J1. apply (HC n b Hn E).
Qed.

(* --- simulation with live objects --- *)
Variable symbols : list sym.
Hypothesis Hlaw : lawful tab M.
Hypothesis Hlen : (length symbols < 64)%nat.
Notation like := (like M symbols). Notation alike := (alike M symbols). Notation sound := (sound tab symbols). Notation use := (use tab symbols).
Definition same_exit (inn : nat -> Z) (bl : list nat) (r r' : result (nat + option (list Z))) : Prop :=
  match r, r' with
  | Goes (inl x) c, Goes (inl x') c' => x = x' /\ In x bl /\ like (inn x) c c'
  | Goes (inr v) c, Goes (inr v') c' => v = v' /\ like 0 c c'
  | Stops t, Stops t' => same_trace M t t'
  | Fails, _ => True
  | _, _ => False
  end.
Lemma simulate d d' inn bl : d_body d = d_body d' -> In (d_body d) bl ->
  (forall n c c', In n bl -> like (inn n) c c' -> same_exit inn bl (enter tab M d n c) (enter tab M d' n c')) -> refines d d'.
Proof.
  intros HB HI HE w m k. exists k. split; [lia|]. unfold execute. rewrite <- HB.
  assert (HG : forall k n c c', In n bl -> like (inn n) c c' -> same_behaviour M (run tab M k d n c) (run tab M k d' n c')).
  { clear k. induction k as [|k IH]; intros n c c' Hn HL; [cbn [run same_behaviour]; apply HL|]. cbn [run]. specialize (HE n c c' Hn HL).
    destruct (enter tab M d n c) as [[x|v] c1|t|], (enter tab M d' n c') as [[x'|v'] c1'|t'|]; cbn [same_exit same_behaviour] in *; try contradiction; auto.
    - destruct HE as (<- & Hx & HE). apply IH; assumption.
    - destruct HE as (<- & H1 & H2 & H3 & H4 & H5). repeat split; auto. eapply agree_outside; eassumption. }
  apply HG; [exact HI|]. apply like_refl.
Qed.

Definition ends (d : def) (b : block) (L : Z) : Prop :=
  (uses_expr b = true -> sub (use (b_expr b)) L) /\ (forall x, b_jump0 b = Some x -> sub (ins d x) L) /\
  (forall x y, b_jump0 b = Some x -> b_jump1 b = Some y -> sub (ins d y) L).
Definition good_at (d : def) (n : nat) (outs : list Z) : Prop :=
  forall b, nth_error (d_nodes d) n = Some b -> exists L, sound (ins d n) (body d b) outs L /\ ends d b L.
Definition good (d : def) (bl : list nat) (outs : nat -> list Z) : Prop := forall n, In n bl -> good_at d n (outs n).
Definition real (d : def) (n : nat) : list Z := match nth_error (d_nodes d) n with Some b => map st_out (body d b) | None => [] end.

Lemma leave_agree d bl n b L c c' : closed d bl -> In n bl -> nth_error (d_nodes d) n = Some b -> ends d b L -> like L c c' ->
  same_exit (ins d) bl (leave tab M b c) (leave tab M b c').
Proof.
  intros HC Hn HN (E1 & E2 & E3) HL. destruct (HC n b Hn HN) as [C1 C2].
  unfold leave. unfold uses_expr in E1. destruct (b_jump0 b) as [x|] eqn:J0.
  - destruct (b_jump1 b) as [y|] eqn:J1.
    + assert (HU : sub (use (b_expr b)) L) by (apply E1; apply orb_true_r).
      pose proof (eval_agree tab M symbols Hlaw Hlen _ _ _ _ HU HL) as HE.
      destruct (eval tab M (b_expr b) c) as [v c1|t|], (eval tab M (b_expr b) c') as [v' c1'|t'|]; cbn [OptLive.alike bind same_exit] in *; try contradiction; auto.
      destruct HE as [<- HE]. destruct (truth M (e_type (b_expr b)) v).
      * split; [reflexivity|]. split; [eapply C2; reflexivity|]. eapply like_sub; [exact Hlen|eapply E3; reflexivity|exact HE].
      * split; [reflexivity|]. split; [eapply C1; reflexivity|]. eapply like_sub; [exact Hlen|eapply E2; reflexivity|exact HE].
    + pose proof HL as (_ & H2 & _). rewrite <- H2. destruct (c_ps c); [|exact Logic.I]. cbn [same_exit].
      split; [reflexivity|]. split; [eapply C1; reflexivity|]. eapply like_sub; [exact Hlen|eapply E2; reflexivity|exact HL].
  - destruct (b_ret b) eqn:HR.
    + assert (HU : sub (use (b_expr b)) L) by (apply E1; reflexivity).
      pose proof (eval_agree tab M symbols Hlaw Hlen _ _ _ _ HU HL) as HE.
      destruct (eval tab M (b_expr b) c) as [v c1|t|], (eval tab M (b_expr b) c') as [v' c1'|t'|]; cbn [OptLive.alike bind same_exit] in *; try contradiction; auto.
      destruct HE as [<- HE]. split; [reflexivity|]. eapply like_sub; [exact Hlen|apply sub_0|exact HE].
    + pose proof HL as (_ & H2 & _). rewrite <- H2. destruct (c_ps c); [|exact Logic.I]. cbn [same_exit]. split; [reflexivity|]. eapply like_sub; [exact Hlen|apply sub_0|exact HL].
Qed.
Lemma exit_bind d bl L (r r' : result unit) b b' n : closed d bl -> In n bl -> nth_error (d_nodes d) n = Some b -> ends d b L -> meta b b' ->
  alike L r r' -> same_exit (ins d) bl (bind r (fun _ c => leave tab M b c)) (bind r' (fun _ c => leave tab M b' c)).
Proof.
  intros HC Hn HN HE Hm HA. destruct r as [[] c|t|], r' as [[] c'|t'|]; cbn [OptLive.alike bind same_exit] in *; try contradiction; auto.
  destruct HA as [_ HA]. rewrite <- (leave_meta b b' c' Hm). eapply leave_agree; eassumption.
Qed.

(* one node is changed *)
Lemma patch_refines d d' n l l' bl outs : decent tab (d_stmts d) -> closed d bl -> good d bl outs -> In (d_body d) bl -> patch d d' n l l' ->
  (forall L c c', sound (ins d n) l (outs n) L -> like (ins d n) c c' -> alike L (steps tab M l c) (steps tab M l' c')) -> refines d d'.
Proof.
  intros [DW _ DP] HC HG HB [P1 P2 P3 P4] HS. apply (simulate d d' (ins d) bl P1 HB). intros j c c' Hj HL. unfold enter.
  destruct (nth_error (d_nodes d) j) as [b|] eqn:EN; [|exact Logic.I]. destruct (HG j Hj b EN) as (L & HSd & HEn).
  destruct (Nat.eq_dec j n) as [->|Hne].
  - destruct P2 as (b0 & b' & E & E' & Hm & _ & HB1 & HB2). rewrite EN in E. injection E as <-. rewrite E'. rewrite HB1, HB2 in *.
    apply (exit_bind d bl L _ _ b b' n HC Hj EN HEn Hm). apply HS; assumption.
  - specialize (P3 j Hne). rewrite EN in P3. destruct P3 as (b' & E' & Hm & _ & HBB). rewrite E', <- HBB.
    apply (exit_bind d bl L _ _ b b' j HC Hj EN HEn Hm). eapply steps_agree; try eassumption.
    + apply Forall_forall. intros s Hs. rewrite Forall_forall in DW. apply DW. eapply in_body, Hs.
    + apply Forall_forall. intros s Hs. rewrite Forall_forall in DP. apply DP. eapply in_body, Hs.
Qed.
Lemma patch_ins d d' n l l' : patch d d' n l l' -> forall j, ins d' j = ins d j.
Proof.
  intros [_ P2 P3 _] j. unfold ins. destruct (Nat.eq_dec j n) as [->|Hj].
  - destruct P2 as (b & b' & -> & -> & _ & -> & _). reflexivity.
  - specialize (P3 j Hj). destruct (nth_error (d_nodes d) j) as [b|]; [destruct P3 as (b' & -> & _ & -> & _); reflexivity|rewrite P3; reflexivity].
Qed.
Lemma ends_patch d d' n l l' b b' L : patch d d' n l l' -> meta b b' -> ends d b L -> ends d' b' L.
Proof.
  intros HP [M1 M2 M3 M4] (E1 & E2 & E3). unfold ends. unfold uses_expr in *. rewrite <- M1, <- M2, <- M3, <- M4.
  split; [exact E1|]. split; intros; rewrite (patch_ins _ _ _ _ _ HP); eauto.
Qed.
Lemma patch_closed d d' n l l' bl : patch d d' n l l' -> closed d bl -> closed d' bl.
Proof.
  intros [_ P2 P3 _] HC j b' Hj HN. destruct (Nat.eq_dec j n) as [->|Hne].
  - destruct P2 as (b & b0 & E & E' & [_ J0 J1 _] & _). rewrite E' in HN. injection HN as ->. rewrite <- J0, <- J1. apply (HC n b Hj E).
  - specialize (P3 j Hne). destruct (nth_error (d_nodes d) j) as [b|] eqn:E; [|congruence]. destruct P3 as (b0 & E' & [_ J0 J1 _] & _).
    rewrite E' in HN. injection HN as ->. rewrite <- J0, <- J1. apply (HC j b Hj E).
Qed.
Lemma patch_good d d' n l l' bl outs o' : patch d d' n l l' -> good d bl outs ->
  (forall L, sound (ins d n) l (outs n) L -> sound (ins d n) l' o' L) -> good d' bl (fun j => if Nat.eqb j n then o' else outs j).
Proof.
  intros HP HG HS j Hj b' HN. rewrite (patch_ins _ _ _ _ _ HP). pose proof HP as [_ P2 P3 _]. destruct (Nat.eqb_spec j n) as [->|Hne].
  - destruct P2 as (b & b0 & E & E' & Hm & _ & HB1 & HB2). rewrite E' in HN. injection HN as ->. destruct (HG n Hj b E) as (L & H1 & H2). exists L.
    rewrite HB2. rewrite HB1 in H1. split; [apply HS, H1|eapply ends_patch; eassumption].
  - specialize (P3 j Hne). destruct (nth_error (d_nodes d) j) as [b|] eqn:E; [|congruence]. destruct P3 as (b0 & E' & Hm & _ & HBB). rewrite E' in HN. injection HN as ->.
    destruct (HG j Hj b E) as (L & H1 & H2). exists L. rewrite <- HBB. split; [exact H1|eapply ends_patch; eassumption].
Qed.
Lemma patch_real d d' n l l' : patch d d' n l l' -> (forall j, j <> n -> real d' j = real d j) /\ real d' n = map st_out l' /\ real d n = map st_out l.
Proof.
  intros [_ P2 P3 _]. split; [intros j Hj|].
  - specialize (P3 j Hj). unfold real. destruct (nth_error (d_nodes d) j) as [b|]; [destruct P3 as (b' & -> & _ & _ & ->); reflexivity|rewrite P3; reflexivity].
  - destruct P2 as (b & b' & E & E' & _ & _ & H1 & H2). unfold real. rewrite E, E', H1, H2. split; reflexivity.
Qed.
Lemma good_ext d bl o o' : (forall j, In j bl -> o j = o' j) -> good d bl o -> good d bl o'.
Proof. intros H HG j Hj. rewrite <- (H j Hj). apply HG, Hj. Qed.

(* the state that the passes keep *)
Record kept (d : def) (bl : list nat) : Prop := mkKept { ke_sep : separate d; ke_decent : decent tab (d_stmts d); ke_closed : closed d bl; ke_in : In (d_body d) bl }.

Lemma alike_ctx pre mid mid' post o1 L1 L2 L (Lin : Z) o2 c c' : Forall (whole tab) (pre ++ mid ++ post) -> Forall plain_param (pre ++ mid ++ post) ->
  sound Lin pre o1 L1 -> sound L2 post o2 L -> (forall c c', like L1 c c' -> alike L2 (steps tab M mid c) (steps tab M mid' c')) -> like Lin c c' ->
  alike L (steps tab M (pre ++ mid ++ post) c) (steps tab M (pre ++ mid' ++ post) c').
Proof.
  intros HW HP H1 H2 HM HL. rewrite !Forall_app in HW, HP. destruct HW as (W1 & _ & W2), HP as (P1 & _ & P2).
  rewrite !steps_app. eapply alike_bind; [eapply steps_agree; try eassumption|]. intros _ c1 c1' HL1. rewrite !steps_app.
  eapply alike_bind; [apply HM, HL1|]. intros _ c2 c2' HL2. eapply steps_agree; eassumption.
Qed.

(* --- dead stores --- *)
Lemma live_after_false x s : is_live_after tab symbols x s = false -> exists i, index symbols x = Some i /\ Z.testbit (st_out s) (Z.of_nat i) = false.
Proof. unfold is_live_after. destruct (is_object _); [|discriminate]. destruct (index symbols x) as [i|]; [|discriminate]. intros H. exists i. split; [reflexivity|exact H]. Qed.
Lemma is_dead_dead s : is_dead tab symbols s = true -> dead tab symbols s (st_out s).
Proof.
  unfold is_dead. intros H. apply andb_true_iff in H as [H H3]. apply andb_true_iff in H as [H1 H2].
  split; [unfold is_assign in H1; destruct (st_st s); try discriminate; reflexivity|]. split; [destruct (v_kind (st_t s)); try discriminate; reflexivity|].
  destruct (v_sym (st_t s)) as [x|]; [|discriminate]. apply andb_true_iff in H3 as [H3 H4]. apply negb_true_iff in H3. destruct (live_after_false x s H3) as (i & HI & HT).
  exists x, i. repeat split; assumption.
Qed.
Lemma covers_erase l k : covers l (erase l k).
Proof. apply covers_in. intros s Hs. exists s. repeat split. eapply in_erase, Hs. Qed.
Lemma covers_refl l : covers l l. Proof. apply covers_in. intros s Hs. exists s. auto. Qed.
Lemma covers_trans a b c : covers a b -> covers b c -> covers a c.
Proof.
  intros H H' s Hs. destruct (H' s Hs) as [H1 H2]. split; intros E.
  - destruct (H1 E) as (t & Ht & Et & Eq). destruct (H t Ht) as [H3 _]. destruct (H3 Et) as (u & Hu & Eu & Eq2). exists u. repeat split; congruence.
  - destruct (H2 E) as (t & Ht & Et & Eq). destruct (H t Ht) as [_ H3]. destruct (H3 Et) as (u & Hu & Eu & Eq2). exists u. repeat split; congruence.
Qed.
Lemma kept_patch d d' n l l' bl : patch d d' n l l' -> covers (d_stmts d) (d_stmts d') -> kept d bl -> kept d' bl.
Proof.
  intros HP HC [K1 K2 K3 K4]. constructor; [apply HP|eapply decent_covers; eassumption|eapply patch_closed; eassumption|].
  destruct HP as [P _ _ _]. rewrite <- P. exact K4.
Qed.
Lemma nth_stmt d b i s : separate d -> In b (d_nodes d) -> (i < b_count b)%nat -> nth_error (d_stmts d) (b_head b + i) = Some s -> nth_error (body d b) i = Some s.
Proof. intros _ _ Hi H. rewrite nth_body, (proj2 (Nat.ltb_lt _ _) Hi). exact H. Qed.

Lemma erase_dead d n b i s bl : kept d bl -> good d bl (real d) -> In n bl -> nth_error (d_nodes d) n = Some b -> (i < b_count b)%nat ->
  nth_error (d_stmts d) (b_head b + i) = Some s -> is_dead tab symbols s = true -> has_side_effects (st_expr s) = false ->
  let d' := statement_array_erase d (b_head b + i) in refines d d' /\ kept d' bl /\ good d' bl (real d').
Proof.
  intros HK HG Hn HN Hi HS HD HE d'. pose proof HK as [K1 K2 K3 K4]. pose proof (patch_erase d n b i K1 HN Hi) as HP. fold d' in HP.
  pose proof (nth_stmt d b i s K1 (nth_error_In _ _ HN) Hi HS) as HB. destruct (split_at _ _ _ HB) as (pre & post & EB & EL).
  rewrite EB in HP. rewrite <- EL, erase_app in HP. pose proof (is_dead_dead s HD) as HDd.
  assert (HSub : forall L, sound (ins d n) (pre ++ s :: post) (real d n) L -> exists o1 L1 o2, sound (ins d n) pre o1 L1 /\ o1 = map st_out pre /\
     sub (before_of tab symbols (st_out s) s) L1 /\ sound (st_out s) post o2 L /\ o2 = map st_out post).
  { intros L H. destruct (sound_app tab symbols pre _ _ _ _ H) as (o1 & o2 & L1 & E & EL1 & H1 & H2).
    destruct (patch_real _ _ _ _ _ HP) as (_ & _ & ER). rewrite ER in E. pose proof (map_split _ _ _ _ _ E EL1) as E1.
    destruct E1 as [-> ->]. cbn [map OptLive.sound] in H2. destruct H2 as [H2 H3]. exists (map st_out pre), L1, (map st_out post). repeat split; assumption. }
  split; [|split].
  - eapply patch_refines; try eassumption. intros L c c' H HL. destruct (HSub L H) as (o1 & L1 & o2 & H1 & _ & H2 & H3 & _).
    change (pre ++ s :: post) with (pre ++ [s] ++ post). change (pre ++ post) with (pre ++ [] ++ post).
    assert (HF : Forall (whole tab) (pre ++ [s] ++ post) /\ Forall plain_param (pre ++ [s] ++ post)).
    { change (pre ++ [s] ++ post) with (pre ++ s :: post). rewrite <- EB. destruct K2 as [D1 _ D3]. rewrite !Forall_forall in *. split; intros t Ht; [apply D1|apply D3]; eapply in_body, Ht. }
    eapply alike_ctx; [apply HF|apply HF|exact H1|exact H3| |exact HL]. intros c1 c1' HL1. cbn [steps].
    pose proof (dead_erase tab M symbols Hlen s (st_out s) L1 c1 c1' HDd HE H2 HL1) as HX.
    destruct (step tab M s c1) as [[] c2|t|]; cbn [bind]; exact HX.
  - eapply kept_patch; [exact HP|apply covers_erase|exact HK].
  - eapply good_ext; [|eapply (patch_good _ _ _ _ _ _ _ (map st_out (pre ++ post)) HP HG)].
    + intros j _. cbn beta. destruct (patch_real _ _ _ _ _ HP) as (R1 & R2 & _). destruct (Nat.eqb_spec j n) as [->|Hne]; [symmetry; exact R2|symmetry; apply R1, Hne].
    + intros L H. destruct (HSub L H) as (o1 & L1 & o2 & H1 & -> & H2 & H3 & ->). rewrite map_app. eapply sound_join; [exact H1|]. eapply sound_sub; [|exact H3].
      apply sub_lor in H2 as [H2 _]. eapply sub_trans; [|exact H2]. eapply dead_defs; eassumption.
Qed.

Lemma sound_at d d' n l' pre s post L : patch d d' n (pre ++ s :: post) l' -> sound (ins d n) (pre ++ s :: post) (real d n) L ->
  exists L1, sound (ins d n) pre (map st_out pre) L1 /\ sub (before_of tab symbols (st_out s) s) L1 /\ sound (st_out s) post (map st_out post) L.
Proof.
  intros HP H. destruct (sound_app tab symbols pre _ _ _ _ H) as (o1 & o2 & L1 & E & EL1 & H1 & H2).
  destruct (patch_real _ _ _ _ _ HP) as (_ & _ & ER). rewrite ER in E. destruct (map_split _ _ _ _ _ E EL1) as [-> ->].
  cbn [map OptLive.sound] in H2. destruct H2 as [H2 H3]. exists L1. repeat split; assumption.
Qed.
Lemma body_decent d b l : decent tab (d_stmts d) -> body d b = l -> Forall (whole tab) l /\ Forall plain_param l.
Proof. intros [D1 _ D3] <-. rewrite !Forall_forall in *. split; intros t Ht; [apply D1|apply D3]; eapply in_body, Ht. Qed.

Lemma expr_dead d n b i s bl : kept d bl -> good d bl (real d) -> In n bl -> nth_error (d_nodes d) n = Some b -> (i < b_count b)%nat ->
  nth_error (d_stmts d) (b_head b + i) = Some s -> is_dead tab symbols s = true ->
  let d' := set_stmts d (upd (d_stmts d) (b_head b + i) (to_expr s)) in refines d d' /\ kept d' bl /\ good d' bl (real d').
Proof.
  intros HK HG Hn HN Hi HS HD d'. pose proof HK as [K1 K2 K3 K4]. pose proof (patch_upd d n b i (to_expr s) K1 HN Hi) as HP. fold d' in HP.
  pose proof (nth_stmt d b i s K1 (nth_error_In _ _ HN) Hi HS) as HB. destruct (split_at _ _ _ HB) as (pre & post & EB & EL).
  rewrite EB in HP. rewrite <- EL, upd_app in HP. pose proof (is_dead_dead s HD) as HDd.
  split; [|split].
  - eapply patch_refines; try eassumption. intros L c c' H HL. destruct (sound_at _ _ _ _ _ _ _ _ HP H) as (L1 & H1 & H2 & H3).
    change (pre ++ s :: post) with (pre ++ [s] ++ post). change (pre ++ to_expr s :: post) with (pre ++ [to_expr s] ++ post).
    destruct (body_decent d b (pre ++ [s] ++ post) K2 EB) as [HF1 HF2].
    eapply alike_ctx; [exact HF1|exact HF2|exact H1|exact H3| |exact HL]. intros c1 c1' HL1. cbn [steps].
    pose proof (dead_to_expr tab M symbols Hlaw Hlen s (st_out s) L1 c1 c1' HDd H2 HL1) as HX.
    destruct (step tab M s c1) as [[] c2|t|], (step tab M (to_expr s) c1') as [[] c2'|t'|]; cbn [bind OptLive.alike] in *; auto.
  - eapply kept_patch; [exact HP| |exact HK]. intros t Ht. cbn [set_stmts d_stmts] in Ht. apply in_upd in Ht as [->|Ht]; [split; discriminate|].
    split; intros E; exists t; repeat split; assumption.
  - eapply good_ext; [|eapply (patch_good _ _ _ _ _ _ _ (map st_out (pre ++ to_expr s :: post)) HP HG)].
    + intros j _. cbn beta. destruct (patch_real _ _ _ _ _ HP) as (R1 & R2 & _). destruct (Nat.eqb_spec j n) as [->|Hne]; [symmetry; exact R2|symmetry; apply R1, Hne].
    + intros L H. destruct (sound_at _ _ _ _ _ _ _ _ HP H) as (L1 & H1 & H2 & H3). rewrite map_app. eapply sound_join; [exact H1|]. cbn [map OptLive.sound].
      split; [|exact H3]. apply sub_lor in H2 as [H2 H2']. apply sub_lor. split.
      * cbn [OptModel.defs to_expr st_st]. change (defs tab symbols (to_expr s)) with 0. rewrite ldiff_0. cbn [st_out to_expr]. eapply sub_trans; [|exact H2]. eapply dead_defs; eassumption.
      * apply uses_expr_sub in H2'. exact H2'.
Qed.

Lemma dead_loop_ok fuel : forall d n i c bl, kept d bl -> good d bl (real d) -> In n bl ->
  let d' := fst (dead_loop tab symbols fuel d n i c) in refines d d' /\ kept d' bl /\ good d' bl (real d').
Proof.
  induction fuel as [|fuel IH]; intros d n i c bl HK HG Hn; cbn [dead_loop].
  { split; [apply refines_refl|split; assumption]. }
  assert (HR : refines d d /\ kept d bl /\ good d bl (real d)) by (split; [apply refines_refl|split; assumption]).
  destruct (nth_error (d_nodes d) n) as [b|] eqn:HN; [|exact HR]. destruct (i <? b_count b)%nat eqn:EI; [|exact HR]. apply Nat.ltb_lt in EI.
  destruct (nth_error (d_stmts d) (b_head b + i)) as [s|] eqn:HS; [|exact HR]. destruct (is_dead tab symbols s) eqn:HD; [|apply IH; assumption].
  destruct (has_side_effects (st_expr s)) eqn:HE.
  - destruct (expr_dead d n b i s bl HK HG Hn HN EI HS HD) as (R & K & G). destruct (IH _ n (S i) (S c) bl K G Hn) as (R' & K' & G').
    split; [eapply refines_trans; eassumption|split; assumption].
  - destruct (erase_dead d n b i s bl HK HG Hn HN EI HS HD HE) as (R & K & G). destruct (IH _ n i (S c) bl K G Hn) as (R' & K' & G').
    split; [eapply refines_trans; eassumption|split; assumption].
Qed.
Lemma fold_pair {X} (f : X -> nat -> X * nat) bl : forall x c, exists c', fold_left (fun acc n => let (d', c) := f (fst acc) n in (d', snd acc + c)%nat) bl (x, c) =
   (fold_left (fun a n => fst (f a n)) bl x, c').
Proof.
  induction bl as [|n bl IH]; intros x c; cbn [fold_left]; [exists c; reflexivity|]. cbn [fst snd]. destruct (f x n) as [x' c1]. apply IH.
Qed.
Lemma traverse_fst f d bl : fst (traverse f d bl) = fold_left (fun a n => fst (f a n)) bl d.
Proof. unfold traverse. destruct (fold_pair f bl d 0) as [c' ->]. reflexivity. Qed.
Lemma dead_ok d bl : kept d bl -> good d bl (real d) ->
  let d' := fst (traverse (dead_store_elimination tab symbols) d bl) in refines d d' /\ kept d' bl /\ good d' bl (real d').
Proof.
  intros HK HG d'. unfold d'. rewrite traverse_fst.
  assert (HI : forall q, incl q bl -> forall d, kept d bl -> good d bl (real d) -> let d' := fold_left (fun a n => fst (dead_store_elimination tab symbols a n)) q d in
    refines d d' /\ kept d' bl /\ good d' bl (real d')).
  { clear - Hlaw Hlen. induction q as [|n q IH]; intros HI d HK HG; cbn [fold_left]; [split; [apply refines_refl|split; assumption]|].
    assert (HN : In n bl) by (apply HI; left; reflexivity).
    assert (HR : let d' := fst (dead_store_elimination tab symbols d n) in refines d d' /\ kept d' bl /\ good d' bl (real d')).
    { unfold dead_store_elimination. destruct (nth_error (d_nodes d) n) as [b|]; [apply dead_loop_ok; assumption|]. split; [apply refines_refl|split; assumption]. }
    destruct HR as (R & K & G). destruct (IH ltac:(intros x Hx; apply HI; right; exact Hx) _ K G) as (R' & K' & G'). split; [eapply refines_trans; eassumption|split; assumption]. }
  apply HI; [apply incl_refl|assumption|assumption].
Qed.

(* --- merged assignments --- *)
Lemma can_merge_merges s1 s2 : can_merge tab symbols s1 s2 = true -> merges tab symbols s1 s2 (st_out s2).
Proof.
  unfold can_merge. intros H. apply andb_true_iff in H as [H H7]. apply andb_true_iff in H as [H H6]. apply andb_true_iff in H as [H H5]. apply andb_true_iff in H as [H H4].
  apply andb_true_iff in H as [H H3]. apply andb_true_iff in H as [H1 H2].
  unfold is_assign in H1, H2. destruct (st_st s1) eqn:A1; try discriminate. destruct (st_st s2) eqn:A2; try discriminate.
  unfold is_identity in H3. destruct (e_op (st_expr s2)) eqn:EO; try discriminate. apply type_equal_eq in H3, H5.
  unfold var_equal in H4. apply andb_true_iff in H4 as [H4 V6]. apply andb_true_iff in H4 as [H4 V5]. apply andb_true_iff in H4 as [H4 V4]. apply andb_true_iff in H4 as [H4 V3]. apply andb_true_iff in H4 as [V1 V2].
  apply type_equal_eq in V1. apply Z.eqb_eq in V4, V6. destruct (v_kind (st_t s1)) eqn:K1; try discriminate. destruct (v_kind (e_l (st_expr s2))) eqn:K2; try discriminate.
  destruct (v_sym (st_t s1)) as [x|] eqn:X1; [|discriminate]. cbn [sym_eqb] in V2. destruct (v_sym (e_l (st_expr s2))) as [y|] eqn:X2; [|discriminate]. apply Nat.eqb_eq in V2. subst y.
  apply andb_true_iff in H7 as [H7 L]. apply andb_true_iff in H7 as [N Wd]. apply Z.eqb_eq in Wd. apply negb_true_iff in L. destruct (live_after_false x s2 L) as (i & HI & HT).
  unfold merges. rewrite X1. repeat split; try assumption; try congruence. exists x, i. repeat split; assumption.
Qed.
Lemma merges_other l s1 s2 o : no_self l -> In s1 l -> In s2 l -> merges tab symbols s1 s2 o -> other s1 s2.
Proof.
  intros HN I1 I2 (HA1 & HA2 & _ & _ & _ & _ & _ & _ & _ & HTT & HK1 & _) (HK2 & x & HX1 & HX2). exact (HN s1 s2 x I1 I2 HA1 HA2 HK1 HX1 HK2 HX2 HTT).
Qed.

(* from statement i on the outputs are those of the statements *)
Definition fresh (outs r : list Z) (i : nat) : Prop := skipn i outs = skipn i r.
Lemma merge_one d n b i s1 s2 bl outs : kept d bl -> good d bl outs -> In n bl -> nth_error (d_nodes d) n = Some b -> (S i < b_count b)%nat ->
  nth_error (d_stmts d) (b_head b + i) = Some s1 -> nth_error (d_stmts d) (b_head b + S i) = Some s2 -> fresh (outs n) (real d n) (S i) ->
  can_merge tab symbols s1 s2 = true ->
  let s1' := mkStmt (st_st s1) (st_out s1) (st_t s2) (st_expr s1) in
  let d' := statement_array_erase (set_stmts d (upd (d_stmts d) (b_head b + S i - 1) s1')) (b_head b + S i) in
  refines d d' /\ kept d' bl /\ (forall j, j <> n -> real d' j = real d j) /\
  exists outs', good d' bl outs' /\ fresh (outs' n) (real d' n) (S i) /\ (forall j, j <> n -> outs' j = outs j).
Proof.
  intros HK HG Hn HN Hi HS1 HS2 HF HM s1' d'. pose proof HK as [K1 K2 K3 K4].
  pose proof (nth_stmt d b i s1 K1 (nth_error_In _ _ HN) ltac:(lia) HS1) as HB1. pose proof (nth_stmt d b (S i) s2 K1 (nth_error_In _ _ HN) Hi HS2) as HB2.
  destruct (split_at _ _ _ HB1) as (pre & post1 & EB & EL).
  assert (exists post, post1 = s2 :: post) as [post ->].
  { rewrite EB, nth_error_app2 in HB2 by lia. replace (S i - length pre)%nat with 1%nat in HB2 by lia. cbn in HB2. destruct post1 as [|y post]; [discriminate|]. injection HB2 as ->. exists post. reflexivity. }
  assert (HP : patch d d' n (pre ++ s1 :: s2 :: post) (pre ++ s1' :: post)).
  { unfold d'. replace (b_head b + S i - 1)%nat with (b_head b + i)%nat by lia.
    pose proof (patch_upd d n b i s1' K1 HN ltac:(lia)) as P1. set (d1 := set_stmts d (upd (d_stmts d) (b_head b + i) s1')) in *.
    assert (HN1 : nth_error (d_nodes d1) n = Some b) by exact HN.
    pose proof (patch_erase d1 n b (S i) (pa_separate _ _ _ _ _ P1) HN1 Hi) as P2. rewrite EB, <- EL, upd_app in P1.
    assert (EB1 : body d1 b = pre ++ s1' :: s2 :: post). { destruct P1 as [_ (b0 & b1 & E0 & E1 & _ & _ & _ & E2) _ _]. rewrite HN1 in E1. injection E1 as <-. exact E2. }
    rewrite EB1 in P2. eapply patch_trans; [exact P1|]. change (pre ++ s1' :: s2 :: post) with (pre ++ [s1'] ++ s2 :: post) in *. rewrite app_assoc in P2.
    replace (S i) with (length (pre ++ [s1'])) in P2 by (rewrite app_length; cbn; lia). rewrite erase_app in P2. rewrite <- !app_assoc in P2. rewrite app_length in P2. cbn [length] in P2.
    replace (length pre + 1)%nat with (S i) in P2 by lia. exact P2. }
  pose proof (can_merge_merges s1 s2 HM) as HMM.
  assert (I1 : In s1 (d_stmts d)) by (eapply nth_error_In, HS1). assert (I2 : In s2 (d_stmts d)) by (eapply nth_error_In, HS2).
  pose proof (merges_other _ s1 s2 _ (de_self _ _ K2) I1 I2 HMM) as HO.
  assert (HSub : forall L, sound (ins d n) (pre ++ s1 :: s2 :: post) (outs n) L -> exists op o1 L1, outs n = op ++ o1 :: st_out s2 :: map st_out post /\ length op = length pre /\
     sound (ins d n) pre op L1 /\ sub (before_of tab symbols o1 s1) L1 /\ sub (before_of tab symbols (st_out s2) s2) o1 /\ sound (st_out s2) post (map st_out post) L).
  { intros L H. destruct (sound_app tab symbols pre _ _ _ _ H) as (op & o2 & L1 & E & EL1 & H1 & H2).
    destruct o2 as [|o1 [|oo o2]]; cbn [OptLive.sound] in H2; [contradiction|destruct H2; contradiction|]. destruct H2 as (H2 & H3 & H4).
    destruct (patch_real _ _ _ _ _ HP) as (_ & _ & ER). unfold fresh in HF. rewrite ER, E in HF.
    rewrite map_app in HF. cbn [map] in HF. rewrite !skipn_past in HF by (rewrite ?map_length; lia). injection HF as -> ->.
    exists op, o1, L1. repeat split; assumption. }
  split; [|split; [|split]].
  - eapply patch_refines; try eassumption. intros L c c' H HL. destruct (HSub L H) as (op & o1 & L1 & _ & _ & H1 & H2 & H3 & H4).
    change (pre ++ s1 :: s2 :: post) with (pre ++ [s1; s2] ++ post). change (pre ++ s1' :: post) with (pre ++ [s1'] ++ post).
    destruct (body_decent d b (pre ++ [s1; s2] ++ post) K2 EB) as [HF1 HF2].
    eapply alike_ctx; [exact HF1|exact HF2|exact H1|exact H4| |exact HL]. intros c1 c1' HL1.
    destruct K2 as [D1 _ _]. rewrite Forall_forall in D1.
    pose proof (merge_step tab M symbols Hlaw Hlen s1 s2 o1 (st_out s2) L1 c1 c1' (D1 s1 I1) (D1 s2 I2) HMM HO H2 H3 HL1) as HX.
    unfold merged in HX. fold s1' in HX. cbn [steps] in *.
    destruct (bind (step tab M s1 c1) _) as [[] c2|t|], (step tab M s1' c1') as [[] c2'|t'|]; cbn [bind OptLive.alike] in *; auto.
  - eapply kept_patch; [exact HP| |exact HK]. eapply covers_trans; [|apply covers_erase]. intros t Ht. cbn [set_stmts d_stmts] in Ht. apply in_upd in Ht as [->|Ht].
    + destruct HMM as (A1 & A2 & _). split; intros E; [exists s2; repeat split; assumption|]. cbn [st_st s1'] in E. congruence.
    + split; intros E; exists t; repeat split; assumption.
  - apply (patch_real _ _ _ _ _ HP).
  - assert (HLn : exists L, sound (ins d n) (pre ++ s1 :: s2 :: post) (outs n) L). { destruct (HG n Hn b HN) as (L & HSd & _). rewrite EB in HSd. exists L. exact HSd. }
    destruct HLn as [L0 HL0]. destruct (HSub L0 HL0) as (op & o1 & L1 & EO & ELp & _).
    exists (fun j => if Nat.eqb j n then op ++ st_out s2 :: map st_out post else outs j). split; [|split].
    + apply (patch_good _ _ _ _ _ _ _ (op ++ st_out s2 :: map st_out post) HP HG). intros L H. destruct (HSub L H) as (op' & o1' & L1' & EO' & ELp' & H1 & H2 & H3 & H4).
      assert (op' = op). { rewrite EO in EO'. apply (f_equal (firstn (length op))) in EO'. rewrite firstn_app, firstn_all, Nat.sub_diag in EO'. cbn [firstn] in EO'. rewrite app_nil_r in EO'.
        rewrite ELp, <- ELp', firstn_app, firstn_all, Nat.sub_diag in EO'. cbn [firstn] in EO'. rewrite app_nil_r in EO'. symmetry. exact EO'. } subst op'.
      eapply sound_join; [exact H1|]. cbn [OptLive.sound]. split; [|exact H4].
      (* what is live before the merged statement *)
      apply sub_lor in H2 as [H2 H2u]. apply sub_lor in H3 as [H3 H3u].
      destruct HMM as (A1 & A2 & _ & _ & _ & _ & _ & _ & _ & _ & HK1 & _ & x & ix & HX & HNx & HIx & HTx).
      assert (HDx : dead tab symbols s1 (st_out s2)) by (split; [exact A1|]; split; [exact HK1|]; exists x, ix; repeat split; assumption).
      apply sub_lor. split.
      * intros j Hj Hb. assert (Hd : defs tab symbols s1' = defs tab symbols s2) by (unfold defs, s1'; cbn [st_st st_t]; rewrite A1, A2; reflexivity). rewrite Hd in Hb.
        apply H2; [exact Hj|]. rewrite Z.ldiff_spec, (H3 j Hj Hb). cbn [andb]. rewrite Z.ldiff_spec in Hb. apply andb_true_iff in Hb as [Hb _].
        pose proof (dead_defs tab symbols Hlen s1 (st_out s2) HDx j Hj Hb) as Hc. rewrite Z.ldiff_spec, Hb in Hc. exact Hc.
      * assert (HU : uses tab symbols s1' = Z.lor (use (st_expr s1)) (target_bit tab symbols (st_t s2)) \/ (uses tab symbols s1' = use (st_expr s1))).
        { unfold uses, target_bit, s1'. cbn [st_st st_t st_expr]. rewrite A1. destruct (v_kind (st_t s2)), (v_sym (st_t s2)); auto. }
        pose proof (uses_expr_sub tab symbols s1 _ H2u) as HUE.
        destruct HU as [-> | ->]; [|exact HUE]. apply sub_lor. split; [exact HUE|].
        pose proof (uses_target tab symbols s2 _ A2 H3u) as HT2. intros j Hj Hb. apply H2; [exact Hj|]. rewrite Z.ldiff_spec, (HT2 j Hj Hb). cbn [andb]. apply negb_true_iff.
        unfold defs. rewrite A1. unfold set_def_bit. rewrite HK1, HX. destruct (is_scalar (s_type (tab x))); [|apply Z.bits_0].
        destruct (Z.testbit (bit symbols x) (Z.of_nat j)) eqn:E; [|reflexivity]. exfalso. unfold target_bit in Hb. destruct (v_kind (st_t s2)) eqn:EK; try (rewrite Z.bits_0 in Hb; discriminate).
        destruct (v_sym (st_t s2)) as [p|] eqn:EP; [|rewrite Z.bits_0 in Hb; discriminate]. unfold set_use_bit, with_kind in Hb. cbn [v_kind v_sym] in Hb. rewrite EP in Hb.
        destruct (is_object (s_type (tab p))); [|rewrite Z.bits_0 in Hb; discriminate]. apply bit_only in E; [|exact Hlen]. apply bit_only in Hb; [|exact Hlen]. pose proof (index_from_inj _ _ _ _ _ E Hb) as ->.
        apply HO. split; [exact EK|]. exists p. split; [exact HX|exact EP].
    + rewrite Nat.eqb_refl. destruct (patch_real _ _ _ _ _ HP) as (_ & R2 & _). unfold fresh. rewrite R2, map_app. cbn [map].
      rewrite !skipn_past by (rewrite ?map_length; lia). reflexivity.
    + intros j Hj. destruct (Nat.eqb_spec j n); [contradiction|reflexivity].
Qed.

Lemma merge_loop_ok fuel : forall d n i s1 c bl outs, kept d bl -> good d bl outs -> In n bl -> fresh (outs n) (real d n) (S i) ->
  (forall b, nth_error (d_nodes d) n = Some b -> (i < b_count b)%nat -> nth_error (d_stmts d) (b_head b + i) = Some s1) ->
  let d' := fst (merge_loop tab symbols fuel d n (S i) s1 c) in
  refines d d' /\ kept d' bl /\ (forall j, j <> n -> real d' j = real d j) /\ exists outs', good d' bl outs' /\ forall j, j <> n -> outs' j = outs j.
Proof.
  induction fuel as [|fuel IH]; intros d n i s1 c bl outs HK HG Hn HF HS1; cbn [merge_loop].
  { split; [apply refines_refl|]. split; [exact HK|]. split; [reflexivity|]. exists outs. split; [exact HG|reflexivity]. }
  assert (HR : refines d d /\ kept d bl /\ (forall j, j <> n -> real d j = real d j) /\ exists outs', good d bl outs' /\ forall j, j <> n -> outs' j = outs j).
  { split; [apply refines_refl|]. split; [exact HK|]. split; [reflexivity|]. exists outs. split; [exact HG|reflexivity]. }
  destruct (nth_error (d_nodes d) n) as [b|] eqn:HN; [|exact HR]. destruct (S i <? b_count b)%nat eqn:EI; [|exact HR]. apply Nat.ltb_lt in EI.
  destruct (nth_error (d_stmts d) (b_head b + S i)) as [s2|] eqn:HS2; [|exact HR]. specialize (HS1 b eq_refl ltac:(lia)).
  destruct (can_merge tab symbols s1 s2) eqn:HM.
  - destruct (merge_one d n b i s1 s2 bl outs HK HG Hn HN EI HS1 HS2 HF HM) as (R & K & HJ & outs' & G & F & HO).
    set (s1' := mkStmt (st_st s1) (st_out s1) (st_t s2) (st_expr s1)) in *.
    set (d1 := statement_array_erase (set_stmts d (upd (d_stmts d) (b_head b + S i - 1) s1')) (b_head b + S i)) in *.
    assert (HS1' : forall b1, nth_error (d_nodes d1) n = Some b1 -> (i < b_count b1)%nat -> nth_error (d_stmts d1) (b_head b1 + i) = Some s1').
    { intros b1 HN1 _. unfold d1 in HN1. cbn [statement_array_erase d_nodes set_stmts] in HN1. rewrite nth_error_map, HN in HN1. cbn [option_map] in HN1. injection HN1 as <-.
      assert (HB : (b_head b + b_count b <= length (d_stmts d))%nat) by (apply (proj1 (ke_sep _ _ HK)); eapply nth_error_In, HN).
      assert (EH : b_head (shift_block (b_head b + S i) b) = b_head b).
      { unfold shift_block. destruct (_ <? _)%nat; [reflexivity|]. destruct (_ && _); [reflexivity|]. destruct (Nat.ltb_spec (b_head b + S i) (b_head b)); [lia|reflexivity]. }
      rewrite EH. unfold d1. cbn [statement_array_erase d_stmts set_stmts]. rewrite nth_erase by (rewrite upd_length; lia).
      destruct (Nat.ltb_spec (b_head b + i) (b_head b + S i)); [|lia]. replace (b_head b + S i - 1)%nat with (b_head b + i)%nat by lia. apply nth_error_upd_same. lia. }
    destruct (IH d1 n i s1' (S c) bl outs' K G Hn F HS1') as (R' & K' & HJ' & outs2 & G' & HO').
    split; [eapply refines_trans; eassumption|]. split; [exact K'|]. split; [intros j Hj; rewrite (HJ' j Hj); apply HJ, Hj|].
    exists outs2. split; [exact G'|]. intros j Hj. rewrite (HO' j Hj). apply HO, Hj.
  - apply IH; try assumption.
    + unfold fresh in *. rewrite <- (skipn_S_skipn (S i) (outs n)), <- (skipn_S_skipn (S i) (real d n)), HF. reflexivity.
    + intros b0 E0 _. rewrite HN in E0. injection E0 as <-. exact HS2.
Qed.
Lemma merge_ok d bl : NoDup bl -> kept d bl -> good d bl (real d) -> let d' := fst (traverse (merge_chained_assignment tab symbols) d bl) in refines d d' /\ kept d' bl /\ exists outs, good d' bl outs.
Proof.
  intros HND HK HG d'. unfold d'. rewrite traverse_fst.
  assert (HI : forall q, NoDup q -> incl q bl -> forall d outs, kept d bl -> good d bl outs -> (forall j, In j q -> outs j = real d j) ->
    let d' := fold_left (fun a n => fst (merge_chained_assignment tab symbols a n)) q d in refines d d' /\ kept d' bl /\ exists outs, good d' bl outs).
  { clear - Hlaw Hlen. induction q as [|n q IH]; intros HN HI d outs HK HG HO; cbn [fold_left]; [split; [apply refines_refl|split; [assumption|exists outs; exact HG]]|].
    assert (Hn : In n bl) by (apply HI; left; reflexivity). inversion HN as [|? ? Hnin HNq]; subst.
    assert (HR : let d' := fst (merge_chained_assignment tab symbols d n) in refines d d' /\ kept d' bl /\ (forall j, j <> n -> real d' j = real d j) /\
       exists outs', good d' bl outs' /\ forall j, j <> n -> outs' j = outs j).
    { assert (HR0 : refines d d /\ kept d bl /\ (forall j, j <> n -> real d j = real d j) /\ exists outs', good d bl outs' /\ forall j, j <> n -> outs' j = outs j).
      { split; [apply refines_refl|]. split; [exact HK|]. split; [reflexivity|]. exists outs. split; [exact HG|reflexivity]. }
      unfold merge_chained_assignment. destruct (nth_error (d_nodes d) n) as [b|] eqn:EN; [|exact HR0]. destruct (b_count b <=? 1)%nat; [exact HR0|].
      destruct (nth_error (d_stmts d) (b_head b)) as [s1|] eqn:ES; [|exact HR0]. apply merge_loop_ok; try assumption.
      - unfold fresh. rewrite (HO n ltac:(left; reflexivity)). reflexivity.
      - intros b0 E0 _. rewrite EN in E0. injection E0 as <-. rewrite Nat.add_0_r. exact ES. }
    destruct HR as (R & K & HJ & outs' & G & HO'). destruct (IH HNq ltac:(intros x Hx; apply HI; right; exact Hx) _ outs' K G) as (R' & K' & G').
    - intros j Hj. assert (j <> n) by (intros ->; contradiction). rewrite (HO' j H), (HJ j H). apply HO. right. exact Hj.
    - split; [eapply refines_trans; eassumption|split; assumption]. }
  apply (HI bl HND (incl_refl bl) d (real d) HK HG). reflexivity.
Qed.

(* --- the analysis --- *)
Lemma annotate_strip l : forall out l' i, annotate tab symbols l out = (l', i) -> map strip l' = map strip l /\ length l' = length l /\ sound i l' (map st_out l') out.
Proof.
  induction l as [|s l IH]; intros out l' i H; cbn [annotate] in H.
  - injection H as <- <-. repeat split. apply sub_refl.
  - destruct (annotate tab symbols l out) as [r o] eqn:E. injection H as <- <-. destruct (IH out r o E) as (H1 & H2 & H3). cbn [map length OptLive.sound]. split; [|split; [congruence|]].
    + rewrite H1. reflexivity.
    + split; [|exact H3]. rewrite before_out. apply sub_refl.
Qed.
Definition last_out (d : def) (b : block) : Z :=
  let out := match b_jump0 b with Some _ => Z.lor (live_in d (b_jump0 b)) (match b_jump1 b with Some _ => live_in d (b_jump1 b) | None => 0 end) | None => 0 end in
  if uses_expr b then Z.lor out (use (b_expr b)) else out.
Lemma last_ends d b : ends d b (last_out d b).
Proof.
  unfold ends, last_out. split; [intros ->; apply sub_lor_r|].
  assert (HS : forall L, sub L (let out := L in if uses_expr b then Z.lor out (use (b_expr b)) else out)) by (intros L; cbn zeta; destruct (uses_expr b); [apply sub_lor_l|apply sub_refl]).
  cbn zeta in *. split.
  - intros x E. rewrite E. eapply sub_trans; [|apply HS]. apply sub_lor_l.
  - intros x y E E'. rewrite E, E'. eapply sub_trans; [|apply HS]. apply sub_lor_r.
Qed.
Lemma analysis_spec d n : separate d -> forall d' ch, live_variable_analysis tab symbols d n = (d', ch) ->
  same_code d d' /\ separate d' /\ covers (d_stmts d) (d_stmts d') /\
  (ch = false -> (forall j, ins d' j = ins d j) /\ good_at d' n (real d' n) /\ forall j, j <> n -> good_at d j (real d j) -> good_at d' j (real d' j)).
Proof.
  intros HS d' ch. unfold live_variable_analysis. destruct (nth_error (d_nodes d) n) as [b|] eqn:HN.
  2: { intros H. injection H as <- <-. split; [apply same_code_refl|]. split; [exact HS|]. split; [apply covers_refl|]. intros _. split; [reflexivity|]. split; [|auto].
       intros b HN'. congruence. }
  fold (last_out d b). cbn zeta. fold (last_out d b). destruct (annotate tab symbols (body d b) (last_out d b)) as [l i] eqn:EA. intros H.
  pose proof (f_equal fst H) as H1. pose proof (f_equal snd H) as H2. cbn [fst snd] in H1, H2. clear H.
  destruct (annotate_strip _ _ _ _ EA) as (A1 & A2 & A3). pose proof (body_length d b HS (nth_error_In _ _ HN)) as BL. pose proof HS as [HS1 HS2].
  pose proof (HS1 b (nth_error_In _ _ HN)) as HB. assert (HLn : (n < length (d_nodes d))%nat) by (apply nth_error_Some; congruence).
  set (b' := mkBlock (b_head b) (b_count b) (b_expr b) (b_jump0 b) (b_jump1 b) (b_ret b) i
     (match b_jump0 b with Some _ => Z.lor (live_in d (b_jump0 b)) (match b_jump1 b with Some _ => live_in d (b_jump1 b) | None => 0 end) | None => 0 end)) in *.
  assert (EN : d_nodes d' = upd (d_nodes d) n b') by (rewrite <- H1; reflexivity). assert (ES : d_stmts d' = splice (d_stmts d) (b_head b) l) by (rewrite <- H1; reflexivity).
  assert (ED : d_body d' = d_body d) by (rewrite <- H1; reflexivity). clear H1.
  assert (EB : body d' b' = l).
  { apply list_ext. intros q. rewrite nth_body, ES, nth_splice by lia. cbn [b_count b_head b']. destruct (Nat.ltb_spec q (b_count b)).
    - destruct (Nat.ltb_spec (b_head b + q) (b_head b)); [lia|]. destruct (Nat.ltb_spec (b_head b + q) (b_head b + length l)); [f_equal; lia|lia].
    - symmetry. apply nth_error_None. lia. }
  assert (EO : forall j a, j <> n -> nth_error (d_nodes d) j = Some a -> body d' a = body d a).
  { intros j a Hj Ha. apply list_ext. intros q. rewrite !nth_body, ES, nth_splice by lia. destruct (Nat.ltb_spec q (b_count a)) as [Hq|]; [|reflexivity].
    destruct (Nat.ltb_spec (b_head a + q) (b_head b)); [reflexivity|]. destruct (Nat.ltb_spec (b_head a + q) (b_head b + length l)); [|reflexivity].
    exfalso. pose proof (HS2 j n a b Ha HN Hj ltac:(lia) ltac:(lia)). lia. }
  assert (HIN : b_in b' = i) by reflexivity.
  assert (HM : meta b b') by (constructor; reflexivity).
  assert (HNs : forall j, j <> n -> nth_error (d_nodes d') j = nth_error (d_nodes d) j) by (intros j Hj; rewrite EN; apply nth_error_upd_other; congruence).
  assert (HNn : nth_error (d_nodes d') n = Some b') by (rewrite EN; apply nth_error_upd_same; exact HLn).
  split; [|split; [|split]].
  - split; [congruence|]. intros j. destruct (Nat.eq_dec j n) as [->|Hj].
    + rewrite HN. exists b'. split; [exact HNn|]. split; [exact HM|]. rewrite EB. symmetry. exact A1.
    + rewrite (HNs j Hj). destruct (nth_error (d_nodes d) j) as [a|] eqn:Ea; [|reflexivity]. exists a. split; [reflexivity|]. split; [apply meta_refl|]. rewrite (EO j a Hj Ea). reflexivity.
  - split.
    + intros a Ha. rewrite ES, length_splice by lia. apply In_nth_error in Ha as [j Ha]. destruct (Nat.eq_dec j n) as [->|Hj]; [rewrite HNn in Ha; injection Ha as <-; exact HB|].
      rewrite (HNs j Hj) in Ha. apply HS1. eapply nth_error_In, Ha.
    + intros p q a1 a2 P Q Hpq C1 C2. destruct (Nat.eq_dec p n) as [->|Hp], (Nat.eq_dec q n) as [->|Hq]; try contradiction.
      * rewrite HNn in P. injection P as <-. rewrite (HNs q Hq) in Q. apply (HS2 n q b a2 HN Q Hpq C1 C2).
      * rewrite HNn in Q. injection Q as <-. rewrite (HNs p Hp) in P. apply (HS2 p n a1 b P HN Hpq C1 C2).
      * rewrite (HNs p Hp) in P. rewrite (HNs q Hq) in Q. apply (HS2 p q a1 a2 P Q Hpq C1 C2).
  - apply covers_in. intros s' Hs'. rewrite ES in Hs'. unfold splice in Hs'. apply in_app_or in Hs' as [Hs'|Hs']; [|apply in_app_or in Hs' as [Hs'|Hs']].
    + exists s'. repeat split. rewrite <- (firstn_skipn (b_head b) (d_stmts d)). apply in_or_app. left. exact Hs'.
    + assert (Hi' : In (strip s') (map strip (body d b))) by (rewrite <- A1; apply in_map; exact Hs'). apply in_map_iff in Hi' as (s & E & Hs). exists s.
      unfold strip, with_out in E. injection E as E1 E2 E3. repeat split; try assumption. eapply in_body, Hs.
    + exists s'. repeat split. rewrite <- (firstn_skipn (b_head b + length l) (d_stmts d)). apply in_or_app. right. exact Hs'.
  - intros Hch. rewrite Hch in H2. apply negb_false_iff in H2. apply Z.eqb_eq in H2.
    assert (HI : forall j, ins d' j = ins d j).
    { intros j. unfold ins. destruct (Nat.eq_dec j n) as [->|Hj]; [rewrite HNn, HN; cbn [b_in b']; symmetry; exact H2|rewrite (HNs j Hj); reflexivity]. }
    assert (HE : forall x L, ends d x L -> ends d' x L) by (intros x L (E1 & E2 & E3); split; [exact E1|split; intros; rewrite HI; eauto]).
    split; [exact HI|]. split.
    + intros b0 E0. rewrite HNn in E0. injection E0 as <-. exists (last_out d b). rewrite EB. unfold real. rewrite HNn, EB. unfold ins. rewrite HNn. cbn [b_in b'].
      split; [exact A3|]. apply HE. pose proof (last_ends d b) as HLE. unfold ends, uses_expr in *. exact HLE.
    + intros j Hj HG a Ha. rewrite (HNs j Hj) in Ha. destruct (HG a Ha) as (L & G1 & G2). exists L. rewrite HI. unfold real in *. rewrite (HNs j Hj). rewrite Ha in *. rewrite (EO j a Hj Ha).
      split; [exact G1|apply HE, G2].
Qed.
Lemma analyse_fold q : forall d c d' c', separate d -> fold_left (fun acc n => let (d', c) := analysis tab symbols (fst acc) n in (d', snd acc + c)%nat) q (d, c) = (d', c') ->
  same_code d d' /\ separate d' /\ covers (d_stmts d) (d_stmts d') /\ (c <= c')%nat /\
  (c' = c -> forall j, (In j q \/ good_at d j (real d j)) -> good_at d' j (real d' j)).
Proof.
  induction q as [|n q IH]; intros d c d' c' HS H; cbn [fold_left fst snd] in H.
  - injection H as <- <-. split; [apply same_code_refl|]. split; [exact HS|]. split; [apply covers_refl|]. split; [lia|]. intros _ j [[]|Hj]. exact Hj.
  - unfold analysis at 2 in H. destruct (live_variable_analysis tab symbols d n) as [d1 ch] eqn:E. destruct (analysis_spec d n HS d1 ch E) as (A1 & A2 & A3 & A4).
    cbn [fst snd] in H. destruct (IH d1 _ d' c' A2 H) as (B1 & B2 & B3 & B4 & B5).
    split; [eapply same_code_trans; eassumption|]. split; [exact B2|]. split; [eapply covers_trans; eassumption|]. split; [lia|]. intros Ec j Hj.
    destruct ch; [exfalso; lia|]. destruct (A4 eq_refl) as (C1 & C2 & C3). apply B5; [lia|]. destruct Hj as [[<-|Hj]|Hj]; [right; exact C2|left; exact Hj|].
    destruct (Nat.eq_dec j n) as [->|Hne]; [right; exact C2|right; apply C3; assumption].
Qed.
Lemma dataflow_ok fuel : forall d d' bl, kept d bl -> execute_iterative_dataflow tab symbols fuel d bl = Some d' -> refines d d' /\ kept d' bl /\ good d' bl (real d').
Proof.
  induction fuel as [|fuel IH]; intros d d' bl HK H; cbn [execute_iterative_dataflow] in H; [discriminate|].
  destruct (traverse (analysis tab symbols) d bl) as [d1 c] eqn:E. destruct HK as [K1 K2 K3 K4]. unfold traverse in E. destruct (analyse_fold bl d O d1 c K1 E) as (A1 & A2 & A3 & A4 & A5).
  assert (HK1 : kept d1 bl).
  { constructor; [exact A2|eapply decent_covers; eassumption|eapply same_code_closed; eassumption|]. destruct A1 as [<- _]. exact K4. }
  destruct c as [|c].
  - injection H as <-. split; [apply same_code_refines, A1|]. split; [exact HK1|]. intros j Hj. apply A5; [reflexivity|left; exact Hj].
  - destruct (IH d1 d' bl HK1 H) as (R & K & G). split; [|split; assumption]. eapply refines_trans; [apply same_code_refines, A1|exact R].
Qed.
Lemma loop_ok fuel : forall d d' bl, NoDup bl -> kept d bl -> optimize_loop tab symbols fuel d bl = Some d' -> refines d d' /\ kept d' bl.
Proof.
  induction fuel as [|fuel IH]; intros d d' bl HN HK H; [discriminate|]. cbn [optimize_loop] in H.
  destruct (execute_iterative_dataflow tab symbols (S fuel) d bl) as [d1|] eqn:E1; [|discriminate]. destruct (dataflow_ok _ _ _ _ HK E1) as (R1 & K1 & G1).
  destruct (traverse (dead_store_elimination tab symbols) d1 bl) as [d2 c1] eqn:E2. pose proof (dead_ok d1 bl K1 G1) as HD. rewrite E2 in HD. cbn [fst] in HD. destruct HD as (R2 & K2 & G2).
  destruct (traverse (merge_chained_assignment tab symbols) d2 bl) as [d3 c2] eqn:E3. pose proof (merge_ok d2 bl HN K2 G2) as HM. rewrite E3 in HM. cbn [fst] in HM. destruct HM as (R3 & K3 & _).
  assert (R : refines d d3) by (eapply refines_trans; [exact R1|]; eapply refines_trans; eassumption).
  destruct (c1 + c2)%nat; [injection H as <-; split; assumption|]. destruct (IH _ _ _ HN K3 H) as (R4 & K4). split; [eapply refines_trans; eassumption|exact K4].
Qed.
End Pass.
