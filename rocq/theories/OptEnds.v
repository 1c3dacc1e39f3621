(* The optimizer comes to an end, unless empty blocks lead in a circle. *)
From Coq Require Import List ZArith Bool Lia Arith.
From Verif Require Import Util Bytes OptModel OptSpec OptLive OptProofs OptPass OptMain.
Import ListNotations.
Open Scope Z_scope.

(* --- sets of 64 --- *)
Definition bounded (z : Z) : Prop := forall i, 64 <= i -> Z.testbit z i = false.
Definition card (z : Z) : nat := length (filter (fun i => Z.testbit z (Z.of_nat i)) (seq 0 64)).
Lemma bounded_0 : bounded 0. Proof. intros i _. apply Z.bits_0. Qed.
Lemma bounded_lor a b : bounded a -> bounded b -> bounded (Z.lor a b).
Proof. intros H H' i Hi. rewrite Z.lor_spec, H, H' by exact Hi. reflexivity. Qed.
Lemma bounded_ldiff a b : bounded a -> bounded (Z.ldiff a b).
Proof. intros H i Hi. rewrite Z.ldiff_spec, H by exact Hi. reflexivity. Qed.
Lemma bounded_all : bounded ALL.
Proof. intros i Hi. unfold ALL. apply Z.ones_spec_high. lia. Qed.
Lemma sub_eq a b : bounded a -> bounded b -> sub a b -> sub b a -> a = b.
Proof.
  intros Ba Bb H H'. apply Z.bits_inj'. intros i Hi. destruct (Z.leb_spec 64 i); [rewrite Ba, Bb by assumption; reflexivity|].
  assert (E : Z.testbit a (Z.of_nat (Z.to_nat i)) = true <-> Z.testbit b (Z.of_nat (Z.to_nat i)) = true) by (split; intros; [apply H|apply H']; try assumption; lia).
  rewrite Z2Nat.id in E by exact Hi. destruct (Z.testbit a i), (Z.testbit b i); try reflexivity; [symmetry; apply E; reflexivity|apply E; reflexivity].
Qed.
Lemma filter_le {A} (f g : A -> bool) l : (forall x, In x l -> f x = true -> g x = true) -> (length (filter f l) <= length (filter g l))%nat.
Proof.
  induction l as [|x l IH]; intros H; [cbn; lia|]. cbn [filter]. specialize (IH ltac:(intros; apply H; [right|]; assumption)).
  destruct (f x) eqn:E; [rewrite (H x ltac:(left; reflexivity) E); cbn; lia|]. destruct (g x); cbn; lia.
Qed.
Lemma filter_lt {A} (f g : A -> bool) l : (forall x, In x l -> f x = true -> g x = true) -> (exists x, In x l /\ f x = false /\ g x = true) -> (length (filter f l) < length (filter g l))%nat.
Proof.
  induction l as [|x l IH]; intros H (y & Hy & E1 & E2); [destruct Hy|]. cbn [filter]. assert (HL := filter_le f g l ltac:(intros; apply H; [right|]; assumption)).
  destruct Hy as [->|Hy]; [rewrite E1, E2; cbn; lia|]. specialize (IH ltac:(intros; apply H; [right|]; assumption) ltac:(exists y; auto)).
  destruct (f x) eqn:E; [rewrite (H x ltac:(left; reflexivity) E); cbn; lia|]. destruct (g x); cbn; lia.
Qed.
Lemma filter_len {A} (f : A -> bool) l : (length (filter f l) <= length l)%nat.
Proof. induction l as [|x l IH]; cbn; [lia|]. destruct (f x); cbn; lia. Qed.
Lemma card_64 a : (card a <= 64)%nat.
Proof. unfold card. eapply Nat.le_trans; [apply filter_len|rewrite seq_length; lia]. Qed.
Lemma card_sub a b : sub a b -> (card a <= card b)%nat.
Proof. intros H. apply filter_le. intros i Hi. apply in_seq in Hi. apply H. lia. Qed.
Lemma card_lt a b : bounded a -> bounded b -> sub a b -> a <> b -> (card a < card b)%nat.
Proof.
  intros Ba Bb H Hne. apply filter_lt; [intros i Hi; apply in_seq in Hi; apply H; lia|].
  destruct (existsb (fun i => negb (Z.testbit a (Z.of_nat i)) && Z.testbit b (Z.of_nat i)) (seq 0 64)) eqn:E.
  - apply existsb_exists in E as (i & Hi & E). apply andb_true_iff in E as [E1 E2]. apply negb_true_iff in E1. exists i. repeat split; assumption.
  - exfalso. apply Hne. apply sub_eq; try assumption. intros i Hi Hb. destruct (Z.testbit a (Z.of_nat i)) eqn:Ea; [reflexivity|]. exfalso.
    assert (existsb (fun i => negb (Z.testbit a (Z.of_nat i)) && Z.testbit b (Z.of_nat i)) (seq 0 64) = true); [|congruence].
    apply existsb_exists. exists i. split; [apply in_seq; lia|]. rewrite Ea, Hb. reflexivity.
Qed.

(* --- the analysis of a block, as a function of what is live at the start of the others --- *)
Section Ends.
Variable tab : sym -> symbol.
Variable symbols : list sym.
Hypothesis Hlen : (length symbols < 64)%nat.
Notation annotate := (annotate tab symbols). Notation before_of := (before_of tab symbols).
Notation last_out := (last_out tab symbols).

Definition next (d : def) (n : nat) : Z := match nth_error (d_nodes d) n with Some b => snd (annotate (body d b) (last_out d b)) | None => 0 end.
Lemma annotate_snd s l out : snd (annotate (s :: l) out) = before_of (snd (annotate l out)) s.
Proof. cbn [OptModel.annotate]. destruct (annotate l out) as [r o]. cbn [snd]. reflexivity. Qed.
Lemma annotate_least l : forall Lin outs Lend out, sound tab symbols Lin l outs Lend -> sub out Lend -> sub (snd (annotate l out)) Lin.
Proof.
  induction l as [|s l IH]; intros Lin outs Lend out H HS; destruct outs as [|o outs]; cbn [OptLive.sound] in H; try contradiction.
  - cbn. eapply sub_trans; eassumption.
  - destruct H as [H1 H2]. rewrite annotate_snd. eapply sub_trans; [|exact H1]. specialize (IH o outs Lend out H2 HS). unfold OptLive.before_of. apply sub_lor. split; [|apply sub_lor_r].
    intros i Hi Hb. rewrite Z.lor_spec. rewrite Z.ldiff_spec in *. apply andb_true_iff in Hb as [Hb Hc]. rewrite (IH i Hi Hb), Hc. reflexivity.
Qed.
Lemma annotate_mono l : forall a b, sub a b -> sub (snd (annotate l a)) (snd (annotate l b)).
Proof.
  induction l as [|s l IH]; intros a b H; [exact H|]. rewrite !annotate_snd. specialize (IH a b H). unfold OptLive.before_of. apply sub_lor. split; [|apply sub_lor_r].
  intros i Hi Hb. rewrite Z.lor_spec. rewrite Z.ldiff_spec in *. apply andb_true_iff in Hb as [Hb Hc]. rewrite (IH i Hi Hb), Hc. reflexivity.
Qed.
Lemma annotate_same l : forall l' out, map strip l = map strip l' -> snd (annotate l out) = snd (annotate l' out).
Proof.
  induction l as [|s l IH]; intros [|s' l'] out H; try discriminate; [reflexivity|]. cbn [map] in H. rewrite !annotate_snd. assert (E1 : strip s = strip s') by congruence. assert (E2 : map strip l = map strip l') by congruence.
  rewrite (IH l' out E2). destruct s as [a1 a2 a3 a4], s' as [b1 b2 b3 b4]. cbn in E1. injection E1 as -> -> ->. reflexivity.
Qed.
Lemma bounded_bit s : bounded (bit symbols s).
Proof.
  unfold bit. destruct (index symbols s) as [i|] eqn:E; [|apply bounded_0]. intros j Hj. assert (Hi : (i < 64)%nat).
  { assert (HI : forall l k i, index_from k l s = Some i -> (i < k + length l)%nat).
    { clear. induction l as [|x l IH]; intros k i H; [discriminate|]. cbn [index_from] in H. destruct (Nat.eqb x s); [injection H as <-; cbn; lia|]. specialize (IH (S k) i H). cbn [length]. lia. }
    specialize (HI symbols O i E). lia. }
  rewrite Z.shiftl_1_l. apply Z.pow2_bits_false. lia.
Qed.
Lemma bounded_use_bit v : bounded (set_use_bit tab symbols v).
Proof.
  unfold set_use_bit. destruct (v_kind v); [destruct (v_sym v); [|apply bounded_0]; destruct (is_object _); [apply bounded_bit|apply bounded_0]..|apply bounded_all|destruct (v_sym v); [apply bounded_bit|apply bounded_0]].
Qed.
Lemma bounded_use e : bounded (use tab symbols e).
Proof. unfold use. apply bounded_lor; [destruct (binary e); [apply bounded_use_bit|apply bounded_0]|apply bounded_use_bit]. Qed.
Lemma bounded_uses s : bounded (uses tab symbols s).
Proof.
  unfold uses. destruct (st_st s); try apply bounded_use.
  - destruct (is_or_has_pointer _); [apply bounded_lor; [apply bounded_use|apply bounded_all]|apply bounded_use].
  - destruct (v_kind (st_t s)); try apply bounded_use. destruct (v_sym (st_t s)); [apply bounded_lor; [apply bounded_use|apply bounded_use_bit]|apply bounded_use].
Qed.
Lemma bounded_annotate l out : bounded out -> bounded (snd (annotate l out)).
Proof. intros H. induction l as [|s l IH]; [exact H|]. rewrite annotate_snd. unfold OptLive.before_of. apply bounded_lor; [apply bounded_ldiff, IH|apply bounded_uses]. Qed.

(* the analysis goes one way: up (true) or down *)
Variable up : bool.
Definition le (a b : Z) : Prop := if up then sub a b else sub b a.
Definition left_over (a : Z) : nat := if up then (64 - card a)%nat else card a.
Lemma le_refl a : le a a. Proof. unfold le. destruct up; apply sub_refl. Qed.
Lemma le_trans a b c : le a b -> le b c -> le a c. Proof. unfold le. destruct up; intros; eapply sub_trans; eassumption. Qed.
Lemma left_le a b : le a b -> (left_over b <= left_over a)%nat.
Proof. unfold le, left_over. destruct up; intros H; apply card_sub in H; lia. Qed.
Lemma left_lt a b : bounded a -> bounded b -> le a b -> a <> b -> (left_over b < left_over a)%nat.
Proof.
  unfold le, left_over. destruct up; intros Ba Bb H Hne; [apply card_lt in H; try assumption; pose proof (card_64 b); lia|]. apply card_lt; try assumption. congruence.
Qed.
Lemma le_lor a b c d : le a b -> le c d -> le (Z.lor a c) (Z.lor b d).
Proof.
  unfold le. destruct up; intros H H'; apply sub_lor; split.
  - eapply sub_trans; [exact H|apply sub_lor_l]. - eapply sub_trans; [exact H'|apply sub_lor_r]. - eapply sub_trans; [exact H|apply sub_lor_l]. - eapply sub_trans; [exact H'|apply sub_lor_r].
Qed.
Lemma le_annotate l a b : le a b -> le (snd (annotate l a)) (snd (annotate l b)).
Proof. unfold le. destruct up; apply annotate_mono. Qed.

Definition going (d : def) (bl : list nat) : Prop := forall n, In n bl -> le (ins d n) (next d n) /\ bounded (ins d n).
Definition todo (d : def) (bl : list nat) : nat := list_sum (map (fun n => left_over (ins d n)) bl).
Lemma live_ins d x : live_in d (Some x) = ins d x. Proof. reflexivity. Qed.
Lemma next_mono d d' bl n : closed d bl -> same_code d d' -> In n bl -> (forall j, In j bl -> le (ins d j) (ins d' j)) -> le (next d n) (next d' n).
Proof.
  intros HC [_ HS] Hn HI. unfold next. specialize (HS n). destruct (nth_error (d_nodes d) n) as [b|] eqn:HN; [|rewrite HS; apply le_refl].
  destruct HS as (b' & HN' & HM & HB). rewrite HN'. rewrite <- (annotate_same _ _ _ HB). apply le_annotate. destruct (HC n b Hn HN) as [C1 C2].
  destruct HM as [M1 M2 M3 M4]. unfold OptPass.last_out, uses_expr. rewrite <- M1, <- M2, <- M3, <- M4. clear - HI C1 C2.
  assert (HO : le (match b_jump0 b with Some _ => Z.lor (live_in d (b_jump0 b)) (match b_jump1 b with Some _ => live_in d (b_jump1 b) | None => 0 end) | None => 0 end)
    (match b_jump0 b with Some _ => Z.lor (live_in d' (b_jump0 b)) (match b_jump1 b with Some _ => live_in d' (b_jump1 b) | None => 0 end) | None => 0 end)).
  { destruct (b_jump0 b) as [x|]; [|apply le_refl]. apply le_lor; [rewrite !live_ins; apply HI, C1; reflexivity|]. destruct (b_jump1 b) as [y|]; [|apply le_refl]. rewrite !live_ins. apply HI. eapply C2; reflexivity. }
  cbn zeta. destruct (b_ret b || _); [apply le_lor; [exact HO|apply le_refl]|exact HO].
Qed.
Lemma next_bounded d bl n : closed d bl -> In n bl -> (forall j, In j bl -> bounded (ins d j)) -> bounded (next d n).
Proof.
  intros HC Hn HI. unfold next. destruct (nth_error (d_nodes d) n) as [b|] eqn:HN; [|apply bounded_0]. apply bounded_annotate. destruct (HC n b Hn HN) as [C1 C2].
  assert (HO : bounded (match b_jump0 b with Some _ => Z.lor (live_in d (b_jump0 b)) (match b_jump1 b with Some _ => live_in d (b_jump1 b) | None => 0 end) | None => 0 end)).
  { destruct (b_jump0 b) as [x|]; [|apply bounded_0]. apply bounded_lor; [rewrite live_ins; apply HI, C1; reflexivity|]. destruct (b_jump1 b) as [y|]; [|apply bounded_0]. rewrite live_ins. apply HI. eapply C2; reflexivity. }
  unfold OptPass.last_out. cbn zeta. destruct (uses_expr b); [apply bounded_lor; [exact HO|apply bounded_use]|exact HO].
Qed.
Lemma analysis_ins d n d' ch : live_variable_analysis tab symbols d n = (d', ch) -> (forall j, ins d' j = if Nat.eqb j n then next d n else ins d j) /\ (ch = true -> ins d n <> next d n).
Proof.
  unfold live_variable_analysis, next. destruct (nth_error (d_nodes d) n) as [b|] eqn:HN.
  2: { intros H. injection H as <- <-. split; [|discriminate]. intros j. destruct (Nat.eqb_spec j n) as [->|]; [unfold ins; rewrite HN; reflexivity|reflexivity]. }
  fold (last_out d b). cbn zeta. fold (last_out d b). destruct (annotate (body d b) (last_out d b)) as [l i] eqn:EA. intros H.
  pose proof (f_equal fst H) as H1. pose proof (f_equal snd H) as H2. cbn [fst snd] in H1, H2. clear H. cbn [snd]. split.
  - intros j. rewrite <- H1. unfold ins. cbn [d_nodes]. destruct (Nat.eqb_spec j n) as [->|Hj].
    + rewrite nth_error_upd_same by (apply nth_error_Some; congruence). reflexivity.
    + rewrite nth_error_upd_other by congruence. reflexivity.
  - intros ->. apply negb_true_iff in H2. apply Z.eqb_neq in H2. unfold ins. rewrite HN. exact H2.
Qed.
Lemma sum_le {A} (f g : A -> nat) l : (forall x, In x l -> f x <= g x)%nat -> (list_sum (map f l) <= list_sum (map g l))%nat.
Proof. induction l as [|x l IH]; intros H; cbn; [lia|]. pose proof (H x ltac:(left; reflexivity)). specialize (IH ltac:(intros; apply H; right; assumption)). unfold list_sum in IH. lia. Qed.
Lemma sum_lt {A} (f g : A -> nat) l : (forall x, In x l -> f x <= g x)%nat -> (exists x, In x l /\ f x < g x)%nat -> (list_sum (map f l) < list_sum (map g l))%nat.
Proof.
  induction l as [|x l IH]; intros H (y & Hy & E); [destruct Hy|]. pose proof (H x ltac:(left; reflexivity)). pose proof (sum_le f g l ltac:(intros; apply H; right; assumption)) as HL. cbn [map list_sum fold_right].
  unfold list_sum in *. destruct Hy as [->|Hy]; [cbn; lia|]. specialize (IH ltac:(intros; apply H; right; assumption) ltac:(exists y; auto)). cbn. lia.
Qed.
Lemma analysis_going d bl n d' c : closed d bl -> separate d -> going d bl -> In n bl -> analysis tab symbols d n = (d', c) ->
  closed d' bl /\ separate d' /\ going d' bl /\ (todo d' bl + c <= todo d bl)%nat.
Proof.
  intros HC HS HG Hn H. unfold analysis in H. destruct (live_variable_analysis tab symbols d n) as [d1 ch] eqn:E. injection H as <- <-.
  destruct (analysis_spec tab symbols Hlen d n HS d1 ch E) as (A1 & A2 & _). destruct (analysis_ins d n d1 ch E) as (I1 & I2).
  assert (HC' : closed d1 bl) by (eapply same_code_closed; eassumption).
  assert (HL : forall j, In j bl -> le (ins d j) (ins d1 j)). { intros j Hj. rewrite I1. destruct (Nat.eqb_spec j n) as [->|]; [apply HG, Hn|apply le_refl]. }
  assert (HB : forall j, In j bl -> bounded (ins d1 j)). { intros j Hj. rewrite I1. destruct (Nat.eqb_spec j n) as [->|]; [|apply HG, Hj]. eapply next_bounded; try eassumption. intros q Hq. apply HG, Hq. }
  split; [exact HC'|]. split; [exact A2|]. split.
  - intros j Hj. split; [|apply HB, Hj]. pose proof (next_mono d d1 bl j HC A1 Hj HL) as HM. rewrite I1. destruct (Nat.eqb_spec j n) as [->|]; [exact HM|]. eapply le_trans; [apply HG, Hj|exact HM].
  - assert (HM : forall x, In x bl -> (left_over (ins d1 x) <= left_over (ins d x))%nat) by (intros; apply left_le, HL; assumption).
    unfold todo. destruct ch; [|pose proof (sum_le _ _ bl HM); lia].
    assert (HX : (list_sum (map (fun n => left_over (ins d1 n)) bl) < list_sum (map (fun n => left_over (ins d n)) bl))%nat); [|lia].
    apply sum_lt; [exact HM|]. exists n. split; [exact Hn|]. apply left_lt; [apply HG, Hn|apply HB, Hn|apply HL, Hn|]. rewrite I1, Nat.eqb_refl. apply I2. reflexivity.
Qed.
Lemma fold_going bl q : incl q bl -> forall d c d' c', closed d bl -> separate d -> going d bl ->
  fold_left (fun acc n => let (d', c) := analysis tab symbols (fst acc) n in (d', snd acc + c)%nat) q (d, c) = (d', c') ->
  closed d' bl /\ separate d' /\ going d' bl /\ (todo d' bl + c' <= todo d bl + c)%nat.
Proof.
  induction q as [|n q IH]; intros HI d c d' c' HC HS HG H; cbn [fold_left fst snd] in H; [injection H as <- <-; split; [exact HC|split; [exact HS|split; [exact HG|lia]]]|].
  destruct (analysis tab symbols d n) as [d1 c1] eqn:E. destruct (analysis_going d bl n d1 c1 HC HS HG ltac:(apply HI; left; reflexivity) E) as (C1 & S1 & G1 & T1).
  destruct (IH ltac:(intros x Hx; apply HI; right; exact Hx) d1 _ d' c' C1 S1 G1 H) as (C2 & S2 & G2 & T2). split; [exact C2|]. split; [exact S2|]. split; [exact G2|]. lia.
Qed.
Lemma dataflow_ends bl fuel : forall d, closed d bl -> separate d -> going d bl -> (todo d bl < fuel)%nat ->
  exists d', execute_iterative_dataflow tab symbols fuel d bl = Some d' /\ forall n, In n bl -> bounded (ins d' n).
Proof.
  induction fuel as [|fuel IH]; intros d HC HS HG HF; [lia|]. cbn [execute_iterative_dataflow]. destruct (traverse (analysis tab symbols) d bl) as [d1 c] eqn:E. unfold traverse in E.
  destruct (fold_going bl bl (incl_refl bl) d O d1 c HC HS HG E) as (C1 & S1 & G1 & T1). destruct c as [|c]; [exists d1; split; [reflexivity|intros n Hn; apply G1, Hn]|]. apply IH; try assumption. lia.
Qed.
Lemma todo_most d bl : (todo d bl <= 64 * length bl)%nat.
Proof.
  unfold todo. induction bl as [|n bl IH]; [cbn; lia|]. cbn [map list_sum fold_right length]. unfold list_sum in IH. assert (left_over (ins d n) <= 64)%nat by (unfold left_over; destruct up; [lia|apply card_64]). cbn. lia.
Qed.
End Ends.

(* --- every change makes the function smaller --- *)
Definition weight (s : stmt) : nat := if is_assign s then 2 else 1.
Definition bulk (l : list stmt) : nat := list_sum (map weight l).
Lemma sum_app l l' : list_sum (l ++ l') = (list_sum l + list_sum l')%nat.
Proof. unfold list_sum. induction l as [|x l IH]; cbn; [reflexivity|]. rewrite IH. lia. Qed.
Lemma bulk_erase l i s : nth_error l i = Some s -> (bulk (erase l i) + weight s = bulk l)%nat.
Proof.
  intros H. unfold erase, bulk. apply nth_error_split in H as (p & q & -> & <-). rewrite firstn_app, firstn_all, Nat.sub_diag. cbn [firstn]. rewrite app_nil_r.
  replace (skipn (S (length p)) (p ++ s :: q)) with q. 2: { rewrite skipn_app. rewrite skipn_all2 by lia. replace (S (length p) - length p)%nat with 1%nat by lia. reflexivity. }
  rewrite !map_app, !sum_app. cbn [map]. change (list_sum (weight s :: map weight q)) with (weight s + list_sum (map weight q))%nat. lia.
Qed.
Lemma bulk_upd l i s s' : nth_error l i = Some s -> (bulk (upd l i s') + weight s = bulk l + weight s')%nat.
Proof.
  unfold bulk. revert i. induction l as [|x l IH]; intros [|i] H; cbn in H; try discriminate.
  - injection H as ->. cbn [upd map]. unfold list_sum. cbn. lia.
  - specialize (IH i H). cbn [upd map]. unfold list_sum in *. cbn. lia.
Qed.
Lemma weight_bounds s : (1 <= weight s <= 2)%nat. Proof. unfold weight. destruct (is_assign s); lia. Qed.
Lemma bulk_upd_most l i s' : (bulk (upd l i s') <= bulk l + 1)%nat.
Proof.
  destruct (nth_error l i) as [s|] eqn:E.
  - pose proof (bulk_upd l i s s' E). pose proof (weight_bounds s). pose proof (weight_bounds s'). lia.
  - assert (HU : upd l i s' = l); [|rewrite HU; lia]. apply nth_error_None in E. revert i E. induction l as [|x l IH]; intros [|i] E; cbn in *; try reflexivity; [lia|]. f_equal. apply IH. lia.
Qed.
Lemma bulk_most l : (bulk l <= 2 * length l)%nat.
Proof. unfold bulk. induction l as [|s l IH]; [cbn; lia|]. pose proof (weight_bounds s). unfold list_sum in *. cbn in *. lia. Qed.
Lemma shift_in i b : b_in (shift_block i b) = b_in b.
Proof. unfold shift_block. destruct (_ <? _)%nat; [reflexivity|]. destruct (_ && _); [reflexivity|]. destruct (_ <? _)%nat; reflexivity. Qed.
Lemma erase_ins d i n : ins (statement_array_erase d i) n = ins d n.
Proof. unfold ins, statement_array_erase. cbn [d_nodes]. rewrite nth_error_map. destruct (nth_error (d_nodes d) n); [apply shift_in|reflexivity]. Qed.

Lemma skipn_skipn' {A} (l : list A) : forall i j, skipn j (skipn i l) = skipn (i + j) l.
Proof. induction l as [|x l IH]; intros [|i] j; cbn [skipn Nat.add]; try reflexivity; [apply skipn_nil|apply IH]. Qed.
Section Loop.
Variable tab : sym -> symbol.
Variable symbols : list sym.
Lemma dead_loop_smaller fuel : forall d n i c, let r := dead_loop tab symbols fuel d n i c in
  (bulk (d_stmts (fst r)) + snd r <= bulk (d_stmts d) + c)%nat /\ forall j, ins (fst r) j = ins d j.
Proof.
  induction fuel as [|fuel IH]; intros d n i c; cbn [dead_loop]; [cbn; split; [lia|reflexivity]|].
  destruct (nth_error (d_nodes d) n) as [b|]; [|cbn; split; [lia|reflexivity]]. destruct (i <? b_count b)%nat; [|cbn; split; [lia|reflexivity]].
  destruct (nth_error (d_stmts d) (b_head b + i)) as [s|] eqn:HS; [|cbn; split; [lia|reflexivity]]. destruct (is_dead tab symbols s) eqn:HD; [|apply IH].
  assert (HA : weight s = 2%nat). { unfold is_dead in HD. apply andb_true_iff in HD as [HD _]. apply andb_true_iff in HD as [HD _]. unfold weight. rewrite HD. reflexivity. }
  destruct (has_side_effects (st_expr s)).
  - destruct (IH (set_stmts d (upd (d_stmts d) (b_head b + i) (to_expr s))) n (S i) (S c)) as (H1 & H2). cbn zeta in *. cbn [set_stmts d_stmts] in H1. pose proof (bulk_upd _ _ s (to_expr s) HS).
    assert (weight (to_expr s) = 1%nat) by reflexivity. split; [lia|]. exact H2.
  - destruct (IH (statement_array_erase d (b_head b + i)) n i (S c)) as (H1 & H2). cbn zeta in *. cbn [statement_array_erase d_stmts] in H1. pose proof (bulk_erase _ _ s HS).
    split; [lia|]. intros j. rewrite H2. apply erase_ins.
Qed.
Lemma merge_loop_smaller fuel : forall d n i s1 c, (0 < i)%nat -> let r := merge_loop tab symbols fuel d n i s1 c in
  (bulk (d_stmts (fst r)) + snd r <= bulk (d_stmts d) + c)%nat /\ forall j, ins (fst r) j = ins d j.
Proof.
  induction fuel as [|fuel IH]; intros d n i s1 c Hi; cbn [merge_loop]; [cbn; split; [lia|reflexivity]|].
  destruct (nth_error (d_nodes d) n) as [b|]; [|cbn; split; [lia|reflexivity]]. destruct (i <? b_count b)%nat; [|cbn; split; [lia|reflexivity]].
  destruct (nth_error (d_stmts d) (b_head b + i)) as [s2|] eqn:HS; [|cbn; split; [lia|reflexivity]]. destruct (can_merge tab symbols s1 s2) eqn:HM; [|apply IH; lia].
  set (s1' := mkStmt (st_st s1) (st_out s1) (st_t s2) (st_expr s1)).
  assert (HA : weight s2 = 2%nat). { unfold can_merge in HM. repeat (apply andb_true_iff in HM as [HM ?]). unfold weight. rewrite H4. reflexivity. }
  destruct (IH (statement_array_erase (set_stmts d (upd (d_stmts d) (b_head b + i - 1) s1')) (b_head b + i)) n i s1' (S c) Hi) as (H1 & H2). cbn zeta in *. cbn [statement_array_erase set_stmts d_stmts] in H1.
  assert (HS' : nth_error (upd (d_stmts d) (b_head b + i - 1) s1') (b_head b + i) = Some s2) by (rewrite nth_error_upd_other by lia; exact HS).
  pose proof (bulk_erase _ _ s2 HS'). pose proof (bulk_upd_most (d_stmts d) (b_head b + i - 1) s1'). split; [lia|]. intros j. rewrite H2, erase_ins. reflexivity.
Qed.
Lemma fold_smaller (f : def -> nat -> def * nat) : (forall d n, (bulk (d_stmts (fst (f d n))) + snd (f d n) <= bulk (d_stmts d))%nat /\ forall j, ins (fst (f d n)) j = ins d j) ->
  forall bl d d' c, traverse f d bl = (d', c) -> (bulk (d_stmts d') + c <= bulk (d_stmts d))%nat /\ forall j, ins d' j = ins d j.
Proof.
  intros H bl d d' c. unfold traverse. assert (HG : forall q d c0 d' c', fold_left (fun acc n => let (d', c) := f (fst acc) n in (d', snd acc + c)%nat) q (d, c0) = (d', c') ->
    (bulk (d_stmts d') + c' <= bulk (d_stmts d) + c0)%nat /\ forall j, ins d' j = ins d j).
  { clear - H. induction q as [|n q IH]; intros d c0 d' c' E; cbn [fold_left fst snd] in E; [injection E as <- <-; split; [lia|reflexivity]|].
    destruct (H d n) as (H1 & H2). destruct (f d n) as [d1 c1]. cbn [fst snd] in *. destruct (IH d1 _ d' c' E) as (H3 & H4). split; [lia|]. intros j. rewrite H4. apply H2. }
  intros E. destruct (HG bl d O d' c E) as (H1 & H2). split; [lia|exact H2].
Qed.
Lemma dead_smaller bl d d' c : traverse (dead_store_elimination tab symbols) d bl = (d', c) -> (bulk (d_stmts d') + c <= bulk (d_stmts d))%nat /\ forall j, ins d' j = ins d j.
Proof.
  apply fold_smaller. clear. intros d n. unfold dead_store_elimination. destruct (nth_error (d_nodes d) n) as [b|]; [|cbn; split; [lia|reflexivity]].
  destruct (dead_loop_smaller (b_count b) d n 0 0) as (H1 & H2). split; [lia|exact H2].
Qed.
Lemma merge_smaller bl d d' c : traverse (merge_chained_assignment tab symbols) d bl = (d', c) -> (bulk (d_stmts d') + c <= bulk (d_stmts d))%nat /\ forall j, ins d' j = ins d j.
Proof.
  apply fold_smaller. clear. intros d n. unfold merge_chained_assignment. destruct (nth_error (d_nodes d) n) as [b|]; [|cbn; split; [lia|reflexivity]].
  destruct (b_count b <=? 1)%nat; [cbn; split; [lia|reflexivity]|]. destruct (nth_error (d_stmts d) (b_head b)) as [s|]; [|cbn; split; [lia|reflexivity]].
  destruct (merge_loop_smaller (b_count b) d n 1 s 0 ltac:(lia)) as (H1 & H2). split; [lia|exact H2].
Qed.
Lemma good_going d bl outs : good tab symbols d bl outs -> (forall n, In n bl -> bounded (ins d n)) -> going tab symbols false d bl.
Proof.
  intros HG HB n Hn. split; [|apply HB, Hn]. unfold le, next. destruct (nth_error (d_nodes d) n) as [b|] eqn:HN; [|apply sub_0].
  destruct (HG n Hn b HN) as (L & HS & E1 & E2 & E3). eapply annotate_least; [exact HS|]. unfold last_out. cbn zeta.
  assert (HO : sub (match b_jump0 b with Some _ => Z.lor (live_in d (b_jump0 b)) (match b_jump1 b with Some _ => live_in d (b_jump1 b) | None => 0 end) | None => 0 end) L).
  { destruct (b_jump0 b) as [x|]; [|apply sub_0]. apply sub_lor. split; [apply E2; reflexivity|]. destruct (b_jump1 b) as [y|]; [|apply sub_0]. eapply E3; reflexivity. }
  destruct (uses_expr b); [apply sub_lor; split; [exact HO|apply E1; reflexivity]|exact HO].
Qed.
Hypothesis Hlen : (length symbols < 64)%nat.
Context {W : Type}.
Variable M : machine W.
Hypothesis Hlaw : lawful tab M.
Lemma dataflow_bulk fuel : forall d d' bl, separate d -> execute_iterative_dataflow tab symbols fuel d bl = Some d' -> bulk (d_stmts d') = bulk (d_stmts d).
Proof.
  assert (HA : forall d n, separate d -> bulk (d_stmts (fst (live_variable_analysis tab symbols d n))) = bulk (d_stmts d)).
  { intros d n HS. unfold live_variable_analysis. destruct (nth_error (d_nodes d) n) as [b|] eqn:HN; [|reflexivity]. cbn zeta.
    destruct (annotate tab symbols (body d b) _) as [l i] eqn:EA. cbn [fst d_stmts]. apply annotate_strip in EA. destruct EA as (A1 & A2 & _).
    pose proof (body_length d b HS (nth_error_In _ _ HN)) as BL. unfold splice, bulk. rewrite !map_app, !sum_app.
    assert (EW : map weight l = map weight (body d b)).
    { assert (EM : forall l, map weight l = map weight (map strip l)) by (intros; rewrite map_map; apply map_ext; reflexivity). rewrite (EM l), A1, <- EM. reflexivity. }
    assert (E1 : list_sum (map weight (d_stmts d)) = (list_sum (map weight (firstn (b_head b) (d_stmts d))) + list_sum (map weight (skipn (b_head b) (d_stmts d))))%nat)
      by (rewrite <- sum_app, <- map_app, firstn_skipn; reflexivity).
    assert (E2 : list_sum (map weight (skipn (b_head b) (d_stmts d))) = (list_sum (map weight (body d b)) + list_sum (map weight (skipn (b_head b + b_count b) (d_stmts d))))%nat)
      by (unfold body; rewrite <- skipn_skipn', <- sum_app, <- map_app, firstn_skipn; reflexivity).
    rewrite EW, A2, BL, E1, E2. reflexivity. }
  induction fuel as [|fuel IH]; intros d d' bl HS H; [discriminate|]. cbn [execute_iterative_dataflow] in H. destruct (traverse (analysis tab symbols) d bl) as [d1 c] eqn:E. unfold traverse in E.
  assert (HG : forall q d c0 d' c', separate d -> fold_left (fun acc n => let (d', c) := analysis tab symbols (fst acc) n in (d', snd acc + c)%nat) q (d, c0) = (d', c') -> separate d' /\ bulk (d_stmts d') = bulk (d_stmts d)).
  { clear - HA Hlen. induction q as [|n q IH]; intros d c0 d' c' HS E; cbn [fold_left fst snd] in E; [injection E as <- <-; split; [exact HS|reflexivity]|].
    unfold analysis at 2 in E. pose proof (HA d n HS) as HB. destruct (live_variable_analysis tab symbols d n) as [d1 ch] eqn:EL. cbn [fst snd] in *.
    destruct (analysis_spec tab symbols Hlen d n HS d1 ch EL) as (_ & A2 & _). destruct (IH d1 _ d' c' A2 E) as (S' & B'). split; [exact S'|congruence]. }
  destruct (HG bl d O d1 c HS E) as (S1 & B1). destruct c; [injection H as <-; exact B1|]. rewrite (IH d1 d' bl S1 H). exact B1.
Qed.
Lemma loop_ends bl : NoDup bl -> forall fuel up d, kept tab d bl -> going tab symbols up d bl -> (64 * length bl + bulk (d_stmts d) < fuel)%nat ->
  exists d', optimize_loop tab symbols fuel d bl = Some d'.
Proof.
  intros HND. induction fuel as [|fuel IH]; intros up d HK HG HF; [lia|]. cbn [optimize_loop]. pose proof HK as [K1 _ K3 _].
  destruct (dataflow_ends tab symbols Hlen up bl (S fuel) d K3 K1 HG ltac:(pose proof (todo_most symbols Hlen up d bl); lia)) as (d1 & E1 & HB). rewrite E1.
  destruct (dataflow_ok tab M symbols Hlen _ _ _ _ HK E1) as (_ & K1' & G1). pose proof (dataflow_bulk _ _ _ _ K1 E1) as B1.
  destruct (traverse (dead_store_elimination tab symbols) d1 bl) as [d2 c1] eqn:E2. pose proof (dead_ok tab M symbols Hlaw Hlen d1 bl K1' G1) as HD. rewrite E2 in HD. cbn [fst] in HD. destruct HD as (_ & K2 & G2).
  destruct (dead_smaller bl d1 d2 c1 E2) as (B2 & I2).
  destruct (traverse (merge_chained_assignment tab symbols) d2 bl) as [d3 c2] eqn:E3. pose proof (merge_ok tab M symbols Hlaw Hlen d2 bl HND K2 G2) as HM. rewrite E3 in HM. cbn [fst] in HM. destruct HM as (_ & K3' & outs & G3).
  destruct (merge_smaller bl d2 d3 c2 E3) as (B3 & I3).
  destruct (c1 + c2)%nat eqn:EC; [eexists; reflexivity|]. apply (IH false d3 K3').
  - eapply good_going; [exact G3|]. intros q Hq. rewrite I3, I2. apply HB, Hq.
  - lia.
Qed.
End Loop.

(* --- empty blocks --- *)
Definition ranked (rank : nat -> nat) (d : def) : Prop := forall n b m, nth_error (d_nodes d) n = Some b -> empty_block b = Some m -> (rank m < rank n)%nat.
Lemma skip_jump_ends rank fuel : forall d n i, ranked rank d -> (0 < fuel)%nat -> (forall b x, nth_error (d_nodes d) n = Some b -> jump b i = Some x -> rank x < fuel)%nat ->
  exists d', skip_jump fuel d n i = Some d' /\ ranked rank d' /\ d_stmts d' = d_stmts d /\ length (d_nodes d') = length (d_nodes d).
Proof.
  induction fuel as [|fuel IH]; intros d n i HR H0 HF; [lia|]. cbn [skip_jump].
  assert (HE : exists d', Some d = Some d' /\ ranked rank d' /\ d_stmts d' = d_stmts d /\ length (d_nodes d') = length (d_nodes d)) by (exists d; auto).
  destruct (nth_error (d_nodes d) n) as [b|] eqn:HN; [|exact HE]. destruct (jump b i) as [x|] eqn:HJ; [|exact HE]. destruct (nth_error (d_nodes d) x) as [next|] eqn:HX; [|exact HE].
  destruct (empty_block next) as [m|] eqn:HM; [|exact HE]. pose proof (HR x next m HX HM) as Hm. pose proof (HF b x eq_refl HJ) as Hx.
  assert (HL : (n < length (d_nodes d))%nat) by (apply nth_error_Some; congruence).
  destruct (IH (set_nodes d (upd (d_nodes d) n (set_jump b i m))) n i) as (d' & E & R & S & L).
  - intros j a q Ha Hq. cbn [set_nodes d_nodes] in Ha. destruct (Nat.eq_dec j n) as [->|Hj]; [|rewrite nth_error_upd_other in Ha by congruence; exact (HR j a q Ha Hq)].
    rewrite nth_error_upd_same in Ha by exact HL. injection Ha as <-. unfold set_jump, empty_block, jump in *. destruct i; cbn [b_count b_jump0 b_jump1] in Hq.
    + destruct (b_count b); [|discriminate]. destruct (b_jump0 b); discriminate.
    + destruct (b_count b) eqn:EC; [|discriminate]. destruct (b_jump1 b) eqn:E1; [discriminate|]. injection Hq as <-.
      assert (HXn : (rank x < rank n)%nat). { apply (HR n b x HN). unfold empty_block. rewrite EC, HJ, E1. reflexivity. } lia.
  - lia.
  - intros b0 y E0 E1. cbn [set_nodes d_nodes] in E0. rewrite nth_error_upd_same in E0 by exact HL. injection E0 as <-. unfold set_jump, jump in E1. destruct i; cbn [b_jump0 b_jump1] in E1; injection E1 as <-; lia.
  - exists d'. split; [exact E|]. split; [exact R|]. split; [exact S|]. rewrite L. apply upd_length.
Qed.
Lemma skip_all_ends rank fuel bl : (forall n, rank n < fuel)%nat -> forall d, ranked rank d ->
  exists d', skip_all fuel d bl = Some d' /\ d_stmts d' = d_stmts d /\ length (d_nodes d') = length (d_nodes d).
Proof.
  intros HF. unfold skip_all. induction bl as [|n bl IH]; intros d HR; cbn [fold_left]; [exists d; auto|].
  assert (H0 : (0 < fuel)%nat) by (specialize (HF O); lia).
  assert (HE : exists d', skip_empty_blocks fuel d n = Some d' /\ ranked rank d' /\ d_stmts d' = d_stmts d /\ length (d_nodes d') = length (d_nodes d)).
  { unfold skip_empty_blocks. destruct (nth_error (d_nodes d) n) as [b|]; [|exists d; auto]. destruct (b_jump0 b); [|exists d; auto].
    destruct (skip_jump_ends rank fuel d n false HR H0 ltac:(intros; apply HF)) as (d1 & -> & R1 & S1 & L1). destruct (skip_jump_ends rank fuel d1 n true R1 H0 ltac:(intros; apply HF)) as (d2 & -> & R2 & S2 & L2).
    exists d2. split; [reflexivity|]. split; [exact R2|]. split; congruence. }
  destruct HE as (d1 & -> & R1 & S1 & L1). destruct (IH d1 R1) as (d' & E & S' & L'). exists d'. split; [exact E|]. split; congruence.
Qed.

(* a machine on which every call is undefined *)
Definition dull (tab : sym -> symbol) : machine unit :=
  mkMachine unit (fun _ => 0) (fun _ => None) (fun _ _ _ => []) (fun _ => []) (fun _ => 0) (fun _ _ v => v) (fun _ _ _ => None) (fun _ _ _ _ _ _ => None) (fun _ _ => true)
    (fun _ _ _ v => v) [] (fun _ _ _ => None) (fun _ _ _ _ _ => Undefined).
Lemma dull_lawful tab : lawful tab (dull tab).
Proof. constructor; [discriminate|reflexivity|reflexivity|intros; exact Logic.I]. Qed.
Lemma initialize_ins d bl n : In n bl -> ins (initialize_dataflow d bl) n = 0.
Proof.
  unfold initialize_dataflow. cbn [d_nodes]. unfold ins. cbn [d_nodes].
  assert (HG : forall bl l n, (In n bl \/ match nth_error l n with Some b => b_in b = 0 | None => True end) ->
    match nth_error (fold_left (fun l n => match nth_error l n with Some b => upd l n (clear_block b) | None => l end) bl l) n with Some b => b_in b = 0 | None => True end).
  { clear. induction bl as [|m bl IH]; intros l n H; cbn [fold_left]; [destruct H as [[]|H]; exact H|]. apply IH. destruct H as [[->|H]|H]; [|left; exact H|].
    - right. destruct (nth_error l n) as [b|] eqn:E; [|rewrite E; exact Logic.I]. rewrite nth_error_upd_same by (apply nth_error_Some; congruence). reflexivity.
    - right. destruct (nth_error l m) as [b|] eqn:E; [|exact H]. destruct (Nat.eq_dec n m) as [->|Hne]; [rewrite nth_error_upd_same by (apply nth_error_Some; congruence); reflexivity|].
      rewrite nth_error_upd_other by congruence. exact H. }
  intros Hn. specialize (HG bl (d_nodes d) n (or_introl Hn)). destruct (nth_error _ n); [exact HG|reflexivity].
Qed.
Theorem optimize_ends tab d rank fuel : fit tab d -> ranked rank d -> (forall n, rank n < fuel)%nat -> (64 * length (d_nodes d) + 2 * length (d_stmts d) < fuel)%nat ->
  exists d', optimize tab fuel d = Some d'.
Proof.
  intros [F1 F2 F3 F4 F5] HR HF1 HF2. unfold optimize. cbn zeta. destruct (serialize_ok d F2) as (HN & HC & HI).
  assert (HLe : (length (serialize_basic_blocks d) <= length (d_nodes d))%nat).
  { unfold serialize_basic_blocks. destruct (serialize_spec d F2 (S (length (d_nodes d))) [] (d_body d)) as (e & E & N & B & _); [constructor|intros x []|cbn; lia|].
    rewrite E. cbn [app] in *. apply bounded_length; assumption. }
  set (bl := serialize_basic_blocks d) in *.
  assert (HK : kept tab d bl) by (constructor; [exact F1|constructor; assumption|exact HC|exact HI]).
  destruct (skip_all_ends rank fuel bl HF1 d HR) as (d1 & ES & S1 & L1). rewrite ES. destruct (skip_all_ok tab (dull tab) fuel d d1 bl HK ES) as (_ & K1).
  destruct (Nat.ltb_spec (length (fold_left (enumerate_used_symbols tab d1) bl [])) 64) as [EL|EL]; [|eexists; reflexivity].
  destruct (initialize_ok tab (dull tab) d1 bl K1) as (_ & K2).
  apply (loop_ends tab _ EL (dull tab) (dull_lawful tab) bl HN fuel true _ K2).
  - intros n Hn. rewrite (initialize_ins d1 bl n Hn). split; [apply sub_0|apply bounded_0].
  - cbn [initialize_dataflow d_stmts]. rewrite S1. pose proof (bulk_most (map (fun s => with_out s 0) (d_stmts d))) as HB. rewrite map_length in HB. lia.
Qed.
