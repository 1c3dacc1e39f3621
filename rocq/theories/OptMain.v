(* The whole optimizer: the list of blocks, jumps through empty blocks, and the passes. *)
From Coq Require Import List ZArith Bool Lia Arith.
From Verif Require Import Util Bytes OptModel OptSpec OptLive OptProofs OptPass.
Import ListNotations.
Open Scope Z_scope.

(* --- the list of blocks --- *)
Definition follows (d : def) (r : list nat) (n : nat) : Prop :=
  forall b, nth_error (d_nodes d) n = Some b -> (forall x, b_jump0 b = Some x -> In x r) /\ (forall x y, b_jump0 b = Some x -> b_jump1 b = Some y -> In y r).
Lemma follows_incl d r r' n : incl r r' -> follows d r n -> follows d r' n.
Proof. intros H F b HN. destruct (F b HN) as [F1 F2]. split; intros; apply H; eauto. Qed.
Lemma bounded_length (l : list nat) N : NoDup l -> (forall x, In x l -> (x < N)%nat) -> (length l <= N)%nat.
Proof. intros H HB. rewrite <- (seq_length N 0). apply NoDup_incl_length; [exact H|]. intros x Hx. apply in_seq. specialize (HB x Hx). lia. Qed.
Lemma serialize_spec d : linked d -> forall fuel seen n, NoDup seen -> (forall x, In x seen -> (x < length (d_nodes d))%nat) -> (length (d_nodes d) - length seen < fuel)%nat ->
  exists ext, serialize fuel d seen n = seen ++ ext /\ NoDup (seen ++ ext) /\ (forall x, In x (seen ++ ext) -> (x < length (d_nodes d))%nat) /\
    ((n < length (d_nodes d))%nat -> In n (seen ++ ext)) /\ forall x, In x ext -> follows d (seen ++ ext) x.
Proof.
  intros [_ HL]. induction fuel as [|fuel IH]; intros seen n HN HB HF; [lia|]. cbn [serialize].
  destruct (existsb (Nat.eqb n) seen) eqn:EX.
  { exists []. rewrite app_nil_r. split; [reflexivity|]. split; [exact HN|]. split; [exact HB|]. split; [|intros x []]. intros _. apply existsb_exists in EX as (y & Hy & E). apply Nat.eqb_eq in E. congruence. }
  destruct (nth_error (d_nodes d) n) as [b|] eqn:EN.
  2: { exists []. rewrite app_nil_r. split; [reflexivity|]. split; [exact HN|]. split; [exact HB|]. split; [|intros x []]. intros Hn. apply nth_error_None in EN. lia. }
  assert (Hn : (n < length (d_nodes d))%nat) by (apply nth_error_Some; congruence).
  assert (Hni : ~ In n seen). { intros Hi. assert (existsb (Nat.eqb n) seen = true) by (apply existsb_exists; exists n; split; [exact Hi|apply Nat.eqb_refl]). congruence. }
  assert (HN1 : NoDup (seen ++ [n])).
  { apply NoDup_rev in HN. rewrite <- (rev_involutive (seen ++ [n])). apply NoDup_rev. rewrite rev_app_distr. cbn [rev app]. constructor; [rewrite <- in_rev; exact Hni|exact HN]. }
  assert (HB1 : forall x, In x (seen ++ [n]) -> (x < length (d_nodes d))%nat) by (intros x Hx; apply in_app_or in Hx as [Hx|[<-|[]]]; auto).
  pose proof (bounded_length _ _ HN1 HB1) as HLe. rewrite app_length in HLe. cbn [length] in HLe.
  assert (HF1 : (length (d_nodes d) - length (seen ++ [n]) < fuel)%nat) by (rewrite app_length; cbn [length]; lia).
  cbn zeta. destruct (b_jump0 b) as [x|] eqn:J0.
  2: { exists [n]. split; [reflexivity|]. split; [exact HN1|]. split; [exact HB1|]. split; [intros _; apply in_or_app; right; left; reflexivity|].
       intros y [<-|[]] b0 E0. rewrite EN in E0. injection E0 as <-. split; intros; congruence. }
  assert (Hx : (x < length (d_nodes d))%nat) by (apply (HL b x (nth_error_In _ _ EN)); left; exact J0).
  destruct (IH (seen ++ [n]) x HN1 HB1 HF1) as (e1 & -> & N1 & B1 & I1 & F1). rewrite <- app_assoc in *. cbn [app] in *.
  destruct (b_jump1 b) as [y|] eqn:J1.
  2: { exists (n :: e1). split; [reflexivity|]. split; [exact N1|]. split; [exact B1|]. split; [intros _; apply in_or_app; right; left; reflexivity|].
       intros z [<-|Hz]; [|apply F1, Hz]. intros b0 E0. rewrite EN in E0. injection E0 as <-. split; [|congruence]. intros q E. assert (q = x) by congruence. subst q. apply I1, Hx. }
  assert (Hy : (y < length (d_nodes d))%nat) by (apply (HL b y (nth_error_In _ _ EN)); right; exact J1).
  assert (HF2 : (length (d_nodes d) - length (seen ++ n :: e1) < fuel)%nat) by (rewrite !app_length in *; cbn [length] in *; lia).
  destruct (IH (seen ++ n :: e1) y N1 B1 HF2) as (e2 & -> & N2 & B2 & I2 & F2).
  exists (n :: e1 ++ e2). assert (EQ : seen ++ n :: e1 ++ e2 = (seen ++ n :: e1) ++ e2) by (rewrite <- app_assoc; reflexivity). rewrite EQ.
  split; [reflexivity|]. split; [exact N2|]. split; [exact B2|]. split; [intros _; apply in_or_app; left; apply in_or_app; right; left; reflexivity|].
  intros z Hz. assert (HI : incl (seen ++ n :: e1) ((seen ++ n :: e1) ++ e2)) by (apply incl_appl, incl_refl). destruct Hz as [<-|Hz].
  - intros b0 E0. rewrite EN in E0. injection E0 as <-. split.
    + intros q E. assert (q = x) by congruence. subst q. apply HI, I1, Hx.
    + intros q1 q2 _ E. assert (q2 = y) by congruence. subst q2. apply I2, Hy.
  - apply in_app_or in Hz as [Hz|Hz]; [eapply follows_incl; [exact HI|apply F1, Hz]|apply F2, Hz].
Qed.
Lemma serialize_ok d : linked d -> NoDup (serialize_basic_blocks d) /\ closed d (serialize_basic_blocks d) /\ In (d_body d) (serialize_basic_blocks d).
Proof.
  intros HL. unfold serialize_basic_blocks. destruct (serialize_spec d HL (S (length (d_nodes d))) [] (d_body d)) as (e & E & N & B & I & F); [constructor|intros x []|cbn; lia|].
  rewrite E. cbn [app] in *. split; [exact N|]. split; [|apply I, HL]. intros n b Hn HN. apply (F n Hn b HN).
Qed.

Section Main.
Context {W : Type}.
Variable tab : sym -> symbol.
Variable M : machine W.
Notation refines := (refines tab M). Notation kept := (kept tab).

(* --- jumps through empty blocks --- *)
Lemma leave_redirect b i x m c : jump b i = Some x -> (i = true -> b_jump0 b <> None) ->
  leave tab M (set_jump b i m) c = leave tab M b c \/
  exists c1, leave tab M b c = Goes (inl x) c1 /\ leave tab M (set_jump b i m) c = Goes (inl m) c1 /\ c_ps c1 = [].
Proof.
  intros HJ H0. unfold leave, set_jump, jump in *. destruct i; cbn [b_jump0 b_jump1 b_ret b_expr].
  - rewrite HJ. destruct (b_jump0 b) as [y|]; [|contradiction (H0 eq_refl eq_refl)].
    destruct (eval tab M (b_expr b) c) as [v c1|t|] eqn:E; cbn [bind]; [|left; reflexivity|left; reflexivity]. destruct (truth M (e_type (b_expr b)) v); [|left; reflexivity].
    right. exists c1. repeat split. eapply eval_ps, E.
  - rewrite HJ. destruct (b_jump1 b) as [y|].
    + destruct (eval tab M (b_expr b) c) as [v c1|t|] eqn:E; cbn [bind]; [|left; reflexivity|left; reflexivity]. destruct (truth M (e_type (b_expr b)) v); [left; reflexivity|].
      right. exists c1. repeat split. eapply eval_ps, E.
    + destruct (c_ps c) eqn:E; [|left; reflexivity]. right. exists c. repeat split. exact E.
Qed.
Lemma empty_enter d x next m c : nth_error (d_nodes d) x = Some next -> empty_block next = Some m -> c_ps c = [] -> enter tab M d x c = Goes (inl m) c.
Proof.
  intros HN HE HP. unfold enter. rewrite HN. unfold empty_block in HE. destruct (b_count next) eqn:EC; [|discriminate]. destruct (b_jump0 next) as [m0|] eqn:J0; [|discriminate].
  destruct (b_jump1 next) eqn:J1; [discriminate|]. injection HE as ->. unfold body. rewrite EC. cbn [firstn steps bind]. unfold leave. rewrite J0, J1, HP. reflexivity.
Qed.
Lemma redirect_ok d bl n b i x next m : kept d bl -> In n bl -> nth_error (d_nodes d) n = Some b -> jump b i = Some x -> (i = true -> b_jump0 b <> None) ->
  nth_error (d_nodes d) x = Some next -> empty_block next = Some m ->
  let d' := set_nodes d (upd (d_nodes d) n (set_jump b i m)) in refines d d' /\ kept d' bl.
Proof.
  intros [K1 K2 K3 K4] Hn HN HJ H0 HX HE d'.
  assert (HLn : (n < length (d_nodes d))%nat) by (apply nth_error_Some; congruence).
  assert (HNn : nth_error (d_nodes d') n = Some (set_jump b i m)) by (apply nth_error_upd_same; exact HLn).
  assert (HNo : forall j, j <> n -> nth_error (d_nodes d') j = nth_error (d_nodes d) j) by (intros j Hj; apply nth_error_upd_other; congruence).
  split.
  - assert (HR : forall k j c, exists k2, (k <= k2)%nat /\ same_behaviour M (run tab M k2 d j c) (run tab M k d' j c)).
    { induction k as [|k IH]; intros j c; [exists O; split; [lia|apply behaviour_refl]|].
      assert (HEn : enter tab M d' j c = enter tab M d j c \/ exists c1, enter tab M d j c = Goes (inl x) c1 /\ enter tab M d' j c = Goes (inl m) c1 /\ c_ps c1 = []).
      { unfold enter. destruct (Nat.eq_dec j n) as [->|Hj]; [|left; rewrite (HNo j Hj); reflexivity]. rewrite HNn, HN.
        assert (EB : body d' (set_jump b i m) = body d b) by (unfold body, set_jump; destruct i; reflexivity). rewrite EB.
        destruct (steps tab M (body d b) c) as [[] c1|t|]; cbn [bind]; [|left; reflexivity|left; reflexivity]. apply leave_redirect; assumption. }
      destruct HEn as [HEn|(c1 & E1 & E2 & EP)].
      - destruct (enter tab M d j c) as [[y|v] c1|t|] eqn:EE.
        + destruct (IH y c1) as (k2 & L2 & B2). exists (S k2). split; [lia|]. cbn [run]. rewrite HEn, EE. exact B2.
        + exists (S k). split; [lia|]. cbn [run]. rewrite HEn, EE. apply behaviour_refl.
        + exists (S k). split; [lia|]. cbn [run]. rewrite HEn, EE. apply behaviour_refl.
        + exists (S k). split; [lia|]. cbn [run]. rewrite HEn, EE. apply behaviour_refl.
      - destruct (IH m c1) as (k2 & L2 & B2). exists (S (S k2)). split; [lia|]. cbn [run]. rewrite E1, E2. rewrite (empty_enter d x next m c1 HX HE EP). exact B2. }
    intros w mm k. unfold execute. apply HR.
  - constructor.
    + destruct K1 as [S1 S2]. split.
      * intros a Ha. cbn [d' set_nodes d_nodes d_stmts] in *. apply in_upd in Ha as [->|Ha]; [|apply S1, Ha]. unfold set_jump. destruct i; cbn [b_head b_count]; apply (S1 b (nth_error_In _ _ HN)).
      * intros p q a1 a2 P Q Hpq. destruct (Nat.eq_dec p n) as [->|Hp], (Nat.eq_dec q n) as [->|Hq]; try contradiction.
        -- rewrite HNn in P. injection P as <-. rewrite (HNo q Hq) in Q. pose proof (S2 n q b a2 HN Q Hpq). unfold set_jump. destruct i; exact H.
        -- rewrite HNn in Q. injection Q as <-. rewrite (HNo p Hp) in P. pose proof (S2 p n a1 b P HN Hpq). unfold set_jump. destruct i; exact H.
        -- rewrite (HNo p Hp) in P. rewrite (HNo q Hq) in Q. apply (S2 p q a1 a2 P Q Hpq).
    + exact K2.
    + destruct (K3 n b Hn HN) as [C1 C2].
      assert (Hx : In x bl). { unfold jump in HJ. destruct i; [|apply C1, HJ]. destruct (b_jump0 b) as [y|] eqn:J0; [|contradiction (H0 eq_refl eq_refl)]. eapply C2; [reflexivity|exact HJ]. }
      assert (Hm : In m bl). { unfold empty_block in HE. destruct (b_count next); [|discriminate]. destruct (b_jump0 next) as [m0|] eqn:J0; [|discriminate]. destruct (b_jump1 next); [discriminate|].
        injection HE as ->. apply (proj1 (K3 x next Hx HX) m J0). }
      intros j a Hj Ha. destruct (Nat.eq_dec j n) as [->|Hne].
      * rewrite HNn in Ha. injection Ha as <-. unfold set_jump. destruct i; cbn [b_jump0 b_jump1].
        -- split; [exact C1|]. intros y z _ Ez. injection Ez as <-. exact Hm.
        -- split; [intros y Ey; injection Ey as <-; exact Hm|]. intros y z _ Ez. unfold jump in HJ. eapply C2; eassumption.
      * rewrite (HNo j Hne) in Ha. apply (K3 j a Hj Ha).
    + exact K4.
Qed.
Definition has_jump (d : def) (n : nat) : Prop := forall b, nth_error (d_nodes d) n = Some b -> b_jump0 b <> None.
Lemma skip_jump_ok fuel : forall d d' bl n i, kept d bl -> In n bl -> (i = true -> has_jump d n) -> skip_jump fuel d n i = Some d' ->
  refines d d' /\ kept d' bl /\ (has_jump d n -> has_jump d' n).
Proof.
  induction fuel as [|fuel IH]; intros d d' bl n i HK Hn H0 H; cbn [skip_jump] in H; [discriminate|].
  assert (HR : refines d d /\ kept d bl /\ (has_jump d n -> has_jump d n)) by (split; [apply refines_refl|split; auto]).
  destruct (nth_error (d_nodes d) n) as [b|] eqn:HN; [|injection H as <-; exact HR]. destruct (jump b i) as [x|] eqn:HJ; [|injection H as <-; exact HR].
  destruct (nth_error (d_nodes d) x) as [next|] eqn:HX; [|injection H as <-; exact HR]. destruct (empty_block next) as [m|] eqn:HE; [|injection H as <-; exact HR].
  assert (H0' : i = true -> b_jump0 b <> None) by (intros E; apply (H0 E b HN)).
  destruct (redirect_ok d bl n b i x next m HK Hn HN HJ H0' HX HE) as (R & K).
  assert (HH : has_jump d n -> has_jump (set_nodes d (upd (d_nodes d) n (set_jump b i m))) n).
  { intros Hh a Ha. cbn [set_nodes d_nodes] in Ha. rewrite nth_error_upd_same in Ha by (apply nth_error_Some; congruence). injection Ha as <-. unfold set_jump. destruct i; cbn [b_jump0]; [apply (Hh b HN)|discriminate]. }
  destruct (IH _ d' bl n i K Hn (fun E => HH (H0 E)) H) as (R' & K' & HH'). split; [eapply refines_trans; eassumption|]. split; [exact K'|auto].
Qed.
Lemma skip_block_ok fuel d d' bl n : kept d bl -> In n bl -> skip_empty_blocks fuel d n = Some d' -> refines d d' /\ kept d' bl.
Proof.
  intros HK Hn H. unfold skip_empty_blocks in H. destruct (nth_error (d_nodes d) n) as [b|] eqn:HN; [|injection H as <-; split; [apply refines_refl|exact HK]].
  destruct (b_jump0 b) as [x|] eqn:J0; [|injection H as <-; split; [apply refines_refl|exact HK]].
  destruct (skip_jump fuel d n false) as [d1|] eqn:E1; [|discriminate]. assert (H0 : has_jump d n) by (intros b0 E; congruence).
  destruct (skip_jump_ok fuel d d1 bl n false HK Hn ltac:(discriminate) E1) as (R1 & K1 & J1). destruct (skip_jump_ok fuel d1 d' bl n true K1 Hn (fun _ => J1 H0) H) as (R2 & K2 & _).
  split; [eapply refines_trans; eassumption|exact K2].
Qed.
Lemma skip_all_none fuel q : fold_left (fun acc n => match acc with Some d => skip_empty_blocks fuel d n | None => None end) q None = None.
Proof. induction q as [|n q IH]; [reflexivity|exact IH]. Qed.
Lemma skip_all_ok fuel d d' bl : kept d bl -> skip_all fuel d bl = Some d' -> refines d d' /\ kept d' bl.
Proof.
  intros HK H. unfold skip_all in H.
  assert (HG : forall q, incl q bl -> forall d, kept d bl -> fold_left (fun acc n => match acc with Some d => skip_empty_blocks fuel d n | None => None end) q (Some d) = Some d' ->
    refines d d' /\ kept d' bl).
  { clear. induction q as [|n q IH]; intros HI d HK H; cbn [fold_left] in H; [injection H as <-; split; [apply refines_refl|exact HK]|].
    destruct (skip_empty_blocks fuel d n) as [d1|] eqn:E; [|rewrite skip_all_none in H; discriminate].
    destruct (skip_block_ok fuel d d1 bl n HK ltac:(apply HI; left; reflexivity) E) as (R & K). destruct (IH ltac:(intros x Hx; apply HI; right; exact Hx) d1 K H) as (R' & K').
    split; [eapply refines_trans; eassumption|exact K']. }
  apply (HG bl (incl_refl bl) d HK H).
Qed.

(* --- the start of the analysis --- *)
Definition alike_nodes (l l' : list block) : Prop := length l = length l' /\
  forall j b, nth_error l j = Some b -> exists b', nth_error l' j = Some b' /\ meta b b' /\ b_head b = b_head b' /\ b_count b = b_count b'.
Lemma clear_nodes bl : forall l, alike_nodes l (fold_left (fun l n => match nth_error l n with Some b => upd l n (clear_block b) | None => l end) bl l).
Proof.
  assert (HT : forall a b c, alike_nodes a b -> alike_nodes b c -> alike_nodes a c).
  { intros a b c [L1 H1] [L2 H2]. split; [congruence|]. intros j x Hx. destruct (H1 j x Hx) as (y & Hy & M1 & E1 & E2). destruct (H2 j y Hy) as (z & Hz & M2 & E3 & E4).
    exists z. split; [exact Hz|]. split; [eapply meta_trans; eassumption|]. split; congruence. }
  assert (H1 : forall l, alike_nodes l l). { intros l. split; [reflexivity|]. intros j b Hb. exists b. split; [exact Hb|]. split; [apply meta_refl|]. split; reflexivity. }
  induction bl as [|n bl IH]; intros l; cbn [fold_left]; [apply H1|]. eapply HT; [|apply IH]. destruct (nth_error l n) as [b|] eqn:E; [|apply H1].
  split; [symmetry; apply upd_length|]. intros j a Ha. destruct (Nat.eq_dec j n) as [->|Hj].
  - rewrite nth_error_upd_same by (apply nth_error_Some; congruence). rewrite E in Ha. injection Ha as <-. exists (clear_block b). split; [reflexivity|]. split; [constructor; reflexivity|]. split; reflexivity.
  - rewrite nth_error_upd_other by congruence. exists a. split; [exact Ha|]. split; [apply meta_refl|]. split; reflexivity.
Qed.
Lemma initialize_ok d bl : kept d bl -> refines d (initialize_dataflow d bl) /\ kept (initialize_dataflow d bl) bl.
Proof.
  intros [K1 K2 K3 K4]. destruct (clear_nodes bl (d_nodes d)) as [HLn HNo]. set (d' := initialize_dataflow d bl).
  assert (HB : forall b b', b_head b = b_head b' -> b_count b = b_count b' -> map strip (body d b) = map strip (body d' b')).
  { intros b b' E1 E2. unfold body, d', initialize_dataflow. cbn [d_stmts]. rewrite E1, E2. rewrite skipn_map, firstn_map, map_map. apply map_ext. intros s. reflexivity. }
  assert (HC : same_code d d').
  { split; [reflexivity|]. intros n. destruct (nth_error (d_nodes d) n) as [b|] eqn:E.
    - destruct (HNo n b E) as (b' & E' & Hm & E1 & E2). exists b'. split; [exact E'|]. split; [exact Hm|apply HB; assumption].
    - apply nth_error_None in E. apply nth_error_None. cbn [d' initialize_dataflow d_nodes]. rewrite <- HLn. exact E. }
  split; [apply same_code_refines, HC|]. constructor.
  - destruct K1 as [S1 S2]. assert (HI : forall j a', nth_error (d_nodes d') j = Some a' -> exists a, nth_error (d_nodes d) j = Some a /\ b_head a = b_head a' /\ b_count a = b_count a').
    { intros j a' Ha. destruct (nth_error (d_nodes d) j) as [a|] eqn:E.
      - destruct (HNo j a E) as (b' & E' & _ & E1 & E2). cbn [d' initialize_dataflow d_nodes] in Ha. rewrite E' in Ha. injection Ha as <-. exists a. repeat split; assumption.
      - exfalso. apply nth_error_None in E. assert (nth_error (d_nodes d') j = None) by (apply nth_error_None; cbn [d' initialize_dataflow d_nodes]; rewrite <- HLn; exact E). congruence. }
    split.
    + intros a' Ha. apply In_nth_error in Ha as [j Ha]. destruct (HI j a' Ha) as (a & E & <- & <-). cbn [d' initialize_dataflow d_stmts]. rewrite map_length. apply S1. eapply nth_error_In, E.
    + intros p q a1 a2 P Q. destruct (HI p a1 P) as (x1 & E1 & <- & <-). destruct (HI q a2 Q) as (x2 & E2 & <- & <-). apply S2; assumption.
  - eapply decent_covers; [|exact K2]. apply covers_in. intros s' Hs. cbn [d' initialize_dataflow d_stmts] in Hs. apply in_map_iff in Hs as (s & <- & Hs). exists s. repeat split. exact Hs.
  - eapply same_code_closed; eassumption.
  - exact K4.
Qed.

Theorem optimize_ok fuel d d' : lawful tab M -> fit tab d -> optimize tab fuel d = Some d' -> refines d d'.
Proof.
  intros HLaw [F1 F2 F3 F4 F5] H. unfold optimize in H. cbn zeta in H. destruct (serialize_ok d F2) as (HN & HC & HI). set (bl := serialize_basic_blocks d) in *.
  assert (HK : kept d bl) by (constructor; [exact F1|constructor; assumption|exact HC|exact HI]).
  destruct (skip_all fuel d bl) as [d1|] eqn:ES; [|discriminate]. destruct (skip_all_ok fuel d d1 bl HK ES) as (R1 & K1).
  destruct (length (fold_left (enumerate_used_symbols tab d1) bl []) <? 64)%nat eqn:EL; [|injection H as <-; exact R1]. apply Nat.ltb_lt in EL.
  destruct (initialize_ok d1 bl K1) as (R2 & K2). destruct (loop_ok tab M _ HLaw EL fuel _ _ bl HN K2 H) as (R3 & _).
  eapply refines_trans; [exact R1|]. eapply refines_trans; eassumption.
Qed.

(* a run that has ended stays so *)
Lemma run_more d k : forall n c k2 v w m t, run tab M k d n c = Returned v w m t -> (k <= k2)%nat -> run tab M k2 d n c = Returned v w m t.
Proof.
  induction k as [|k IH]; intros n c k2 v w m t H Hk; [discriminate|]. destruct k2 as [|k2]; [lia|]. cbn [run] in *.
  destruct (enter tab M d n c) as [[x|u] c1|q|]; [eapply IH; [exact H|lia]|exact H|exact H|exact H].
Qed.
Lemma run_more_stop d k : forall n c k2 t, run tab M k d n c = Stopped t -> (k <= k2)%nat -> run tab M k2 d n c = Stopped t.
Proof.
  induction k as [|k IH]; intros n c k2 t H Hk; [discriminate|]. destruct k2 as [|k2]; [lia|]. cbn [run] in *.
  destruct (enter tab M d n c) as [[x|u] c1|q|]; [eapply IH; [exact H|lia]|discriminate|exact H|discriminate].
Qed.
Lemma refines_returned d d' : refines d d' -> forall w m k v w1 m1 t, execute tab M k d w m = Returned v w1 m1 t ->
  exists m1' t', execute tab M k d' w m = Returned v w1 m1' t' /\ same_outside M m1 m1' /\ same_trace M t t'.
Proof.
  intros H w m k v w1 m1 t HE. destruct (H w m k) as (k2 & Hk & HB). unfold execute in *. rewrite (run_more d k _ _ k2 _ _ _ _ HE Hk) in HB.
  destruct (run tab M k d' (d_body d') _) as [|v' w' m' t'| |]; cbn [same_behaviour] in HB; try contradiction. destruct HB as (<- & <- & H1 & H2). exists m', t'. repeat split; assumption.
Qed.
Lemma refines_stopped d d' : refines d d' -> forall w m k t, execute tab M k d w m = Stopped t ->
  exists t', execute tab M k d' w m = Stopped t' /\ same_trace M t t'.
Proof.
  intros H w m k t HE. destruct (H w m k) as (k2 & Hk & HB). unfold execute in *. rewrite (run_more_stop d k _ _ k2 _ HE Hk) in HB.
  destruct (run tab M k d' (d_body d') _) as [| |t'|]; cbn [same_behaviour] in HB; try contradiction. exists t'. split; [reflexivity|exact HB].
Qed.
Lemma refines_running d d' : refines d d' -> forall w m, (forall k, exists t, execute tab M k d w m = Running t) -> forall k, exists k2 t t', (k <= k2)%nat /\
  execute tab M k d' w m = Running t' /\ execute tab M k2 d w m = Running t /\ same_trace M t t'.
Proof.
  intros H w m HR k. destruct (H w m k) as (k2 & Hk & HB). destruct (HR k2) as [t E]. rewrite E in HB.
  destruct (execute tab M k d' w m) as [t'| | |]; cbn [same_behaviour] in HB; try contradiction. exists k2, t, t'. repeat split; assumption.
Qed.
End Main.
