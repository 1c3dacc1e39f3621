(* All declarations, objects and functions of a file, and flushing. *)
From Coq Require Import List ZArith Lia Bool.
From Verif Require Import Util Bytes ElfModel ElfSpec ElfProofs ElfSteps ElfJump ElfItems.
Import ListNotations.
Open Scope Z_scope.

Definition a_all (c : ctx) (file : option (list Z)) (l : list item) : abs := fold_left (a_item c) l (abs0 file).
Lemma a_all_snoc c file l t : a_all c file (l ++ [t]) = a_item c (a_all c file l) t.
Proof. unfold a_all. rewrite fold_left_app. reflexivity. Qed.
Lemma item_step c l a t : inv c l a -> item_wf t -> NoDup (ids_of t) -> zlen (str_base (a_str a)) < 2 ^ 31 ->
  stepped c l a (a_item c a t) t.
Proof. intros I W ND B. destruct t; [apply decl_step|apply data_step|apply fun_step]; auto. Qed.

Lemma str_len_snoc file l t : str_len file (l ++ [t]) = str_len file l + zlen (y_name (sym_of t)) + 1.
Proof.
  unfold str_len. rewrite fold_right_app. cbn [fold_right].
  assert (forall z, fold_right (fun t n => zlen (y_name (sym_of t)) + 1 + n) z l =
    fold_right (fun t n => zlen (y_name (sym_of t)) + 1 + n) 0 l + z) as E.
  { intro z. induction l as [|x r IH]; cbn [fold_right]; [lia|rewrite IH; lia]. }
  rewrite E. lia.
Qed.
Lemma str_len_app file l m : str_len file l <= str_len file (l ++ m).
Proof.
  induction m as [|t m IH] using rev_ind; [rewrite app_nil_r; lia|]. rewrite app_assoc, str_len_snoc. pose proof (zlen_nonneg (y_name (sym_of t))). lia.
Qed.
Lemma place_len_app c p l m : Forall item_wf m -> place_len c p l <= place_len c p (l ++ m).
Proof.
  induction m as [|t m IH] using rev_ind; intro F; [rewrite app_nil_r; lia|]. apply Forall_app in F. destruct F as [F1 F2].
  apply Forall_inv in F2. specialize (IH F1). rewrite app_assoc, place_len_snoc. unfold fill.
  pose proof (item_len_nonneg t F2). pose proof (align_up_ge (place_len c p (l ++ m)) (y_align (sym_of t)) ltac:(apply al_pos; auto)).
  destruct (place_eqb _ _); [destruct p; lia|lia].
Qed.

Lemma inv0 c file : inv c [] (abs0 file).
Proof.
  constructor; try reflexivity.
  - split; [reflexivity|]. split; [discriminate|]. unfold abs0, ent0. cbn [a_ent]. repeat (apply Forall_cons; [cbn; lia|]).
    apply Forall_app. split; [destruct file; repeat constructor; cbn; lia|]. repeat (apply Forall_cons; [cbn; lia|]). constructor.
  - split; [left; reflexivity|]. split; [reflexivity|left; reflexivity].
  - constructor.
Qed.

Definition pre_wf (l : list item) : Prop := Forall item_wf l /\ NoDup (flat_map ids_of l).
Lemma NoDup_l {A} (l m : list A) : NoDup (l ++ m) -> NoDup l.
Proof.
  induction l as [|x l IH]; intro H; [constructor|]. inversion H; subst. constructor; auto. intro X. apply H2. apply in_or_app. auto.
Qed.
Lemma NoDup_r {A} (l m : list A) : NoDup (l ++ m) -> NoDup m.
Proof. induction l as [|x l IH]; intro H; [exact H|]. inversion H; auto. Qed.
Lemma NoDup_disj {A} (l m : list A) x : NoDup (l ++ m) -> In x l -> In x m -> False.
Proof.
  induction l as [|y l IH]; intros H I J; [destruct I|]. inversion H; subst. destruct I as [->|I]; [apply H2, in_or_app; auto|auto].
Qed.
Lemma pre_wf_l l m : pre_wf (l ++ m) -> pre_wf l.
Proof. intros [F N]. rewrite flat_map_app in N. apply Forall_app in F. split; [apply F|eapply NoDup_l; eauto]. Qed.

Lemma all_inv c file l : pre_wf l -> str_len file l < 2 ^ 31 ->
  inv c l (a_all c file l) /\ zlen (str_base (a_str (a_all c file l))) = str_len file l /\
  (forall z, ~ In z (flat_map ids_of l) -> a_off (a_all c file l) z = 0).
Proof.
  induction l as [|t l IH] using rev_ind; intros W B.
  - split; [apply inv0|]. split; [|reflexivity]. unfold str_len. cbn [fold_right a_all fold_left abs0 a_str].
    destruct file as [f|]; [|reflexivity]. cbn [str0 str_base app]. rewrite zlen_cons, zlen_app, zlen_cons, zlen_nil. lia.
  - pose proof (str_len_app file l [t]). destruct (IH (pre_wf_l _ _ W) ltac:(lia)) as (I & SL & O).
    destruct W as [F N]. apply Forall_app in F. destruct F as [F F2]. apply Forall_inv in F2.
    rewrite flat_map_app in N. cbn [flat_map] in N. rewrite app_nil_r in N.
    rewrite a_all_snoc. pose proof (item_step c l _ t I F2 (NoDup_r _ _ N) ltac:(lia)) as S.
    split; [apply (s_inv _ _ _ _ _ S)|]. split.
    + rewrite (s_str _ _ _ _ _ S). rewrite str_len_snoc, <- SL.
      set (x := str_base (a_str (a_all c file l))) in *.
      assert (x <> []) as X by (subst x; destruct (a_str (a_all c file l)); discriminate).
      destruct x as [|x0 x]; [contradiction|]. cbn [str_base app]. rewrite !zlen_cons, !zlen_app, zlen_cons, zlen_nil. lia.
    + intros z NI. rewrite flat_map_app in NI. cbn [flat_map] in NI. rewrite app_nil_r in NI.
      rewrite (s_other _ _ _ _ _ S) by (intro; apply NI, in_or_app; auto). apply O. intro; apply NI, in_or_app; auto.
Qed.

Lemma run_all c s l m : run c s (l ++ m) = do s <- run c s l; run c s m.
Proof. revert s. induction l as [|o r IH]; intro s; cbn [app run]; [reflexivity|]. destruct (step c s o); cbn [bind]; auto. Qed.
Lemma item_R c l a s t : R a s -> inv c l a -> item_wf t -> NoDup (ids_of t) -> zlen (str_base (a_str a)) < 2 ^ 31 ->
  (forall z, In z (ids_of t) -> a_off a z = 0) ->
  place_len c PText (l ++ [t]) < 2 ^ 31 -> place_len c PData (l ++ [t]) < 2 ^ 31 ->
  exists s', run c s (ops_of_item t) = Ok s' /\ R (a_item c a t) s'.
Proof.
  intros HR I W ND B O BT BD. destruct t as [y|y ds|y b].
  - destruct W as [W _]. destruct (symbol_R c a s y HR (i_loc _ _ _ I) W (O _ (or_introl eq_refl))) as (s1 & E & R1).
    exists s1. cbn [ops_of_item run step]. rewrite E. split; [reflexivity|exact R1].
  - pose proof (data_step c l a y ds I W B) as S. pose proof (i_dat _ _ _ (s_inv _ _ _ _ _ S)) as D.
    destruct W as [W _]. destruct (symbol_R c a s y HR (i_loc _ _ _ I) W (O _ (or_introl eq_refl))) as (s1 & E & R1).
    cbn [ops_of_item run step]. rewrite E. cbn [bind]. apply data_R; [exact R1|].
    cbn [a_item] in D. unfold a_data in D. cbn [w_dat a_dat] in D. rewrite zlen_app, flat_dat_len in D. lia.
  - apply fun_R; auto; [apply (i_loc _ _ _ I)|apply (i_pend _ _ _ I)|].
    rewrite place_len_snoc in BT. rewrite (i_txt _ _ _ I). unfold fill in BT. cbn [sym_of] in BT.
    destruct W as (_ & WF & WK & _). unfold place_of in BT. rewrite WF, WK in BT. exact BT.
Qed.
Lemma all_R c file l : pre_wf l -> str_len file l < 2 ^ 31 -> place_len c PText l < 2 ^ 31 -> place_len c PData l < 2 ^ 31 ->
  exists s0 s, elf_init start file = Ok s0 /\ run c s0 (ops_of l) = Ok s /\ R (a_all c file l) s.
Proof.
  induction l as [|t l IH] using rev_ind; intros W B BT BD.
  - destruct (init_R file) as (s & E & HR). exists s, s. auto.
  - pose proof (str_len_app file l [t]).
    assert (Forall item_wf [t]) as FT by (destruct W as [F _]; apply Forall_app in F; apply F).
    pose proof (place_len_app c PText l [t] FT). pose proof (place_len_app c PData l [t] FT).
    destruct (IH (pre_wf_l _ _ W) ltac:(lia) ltac:(lia) ltac:(lia)) as (s0 & s & E0 & E & HR).
    destruct (all_inv c file l (pre_wf_l _ _ W) ltac:(lia)) as (I & SL & O).
    destruct W as [_ N]. rewrite flat_map_app in N. cbn [flat_map] in N. rewrite app_nil_r in N.
    destruct (item_R c l _ s t HR I (Forall_inv FT) (NoDup_r _ _ N) ltac:(lia)) as (s' & E' & HR').
    + intros z Z. apply O. intro X. exact (NoDup_disj _ _ _ N X Z).
    + exact BT.
    + exact BD.
    + exists s0, s'. split; [exact E0|]. split.
      * unfold ops_of. rewrite flat_map_app. cbn [flat_map]. rewrite app_nil_r, run_all. unfold ops_of in E. rewrite E. exact E'.
      * rewrite a_all_snoc. exact HR'.
Qed.

(* lists only grow *)
Definition grows {A} (x y : list A) : Prop := exists z, y = x ++ z.
Lemma grows_refl {A} (x : list A) : grows x x. Proof. exists []. rewrite app_nil_r. reflexivity. Qed.
Lemma grows_trans {A} (x y z : list A) : grows x y -> grows y z -> grows x z.
Proof. intros [u ->] [v ->]. exists (u ++ v). rewrite app_assoc. reflexivity. Qed.
Lemma grows_eq {A} (x y z : list A) : y = x ++ z -> grows x y. Proof. exists z. assumption. Qed.
Record mono (a b : abs) : Prop := {
  m_str : grows (str_base (a_str a)) (str_base (a_str b)); m_ent : grows (a_ent a) (a_ent b);
  m_glob : grows (a_glob a) (a_glob b); m_rod : grows (a_rod a) (a_rod b); m_dat : grows (a_dat a) (a_dat b);
  m_txt : grows (a_txt a) (a_txt b) }.
Lemma mono_refl a : mono a a. Proof. constructor; apply grows_refl. Qed.
Lemma mono_trans a b c : mono a b -> mono b c -> mono a c.
Proof. intros [] []. constructor; eapply grows_trans; eassumption. Qed.
Lemma str_base_app x y : x <> [] -> str_base (x ++ y) = x ++ y. Proof. destruct x; [contradiction|reflexivity]. Qed.
Lemma str_base_ne x : str_base x <> []. Proof. destruct x; discriminate. Qed.
Lemma stepped_mono c l a a' t : stepped c l a a' t -> mono a a'.
Proof.
  intro S. constructor.
  - rewrite (s_str _ _ _ _ _ S), str_base_app by apply str_base_ne. eapply grows_eq. reflexivity.
  - rewrite (s_ent _ _ _ _ _ S). eapply grows_eq. reflexivity.
  - rewrite (s_glob _ _ _ _ _ S). eapply grows_eq. reflexivity.
  - pose proof (s_adds _ _ _ _ _ S) as A. unfold adds in A. destruct (place_of _ _); try (destruct A as (-> & _); apply grows_refl).
    destruct A as (_ & _ & _ & ->). eapply grows_eq. reflexivity.
  - pose proof (s_adds _ _ _ _ _ S) as A. unfold adds in A.
    destruct (place_of _ _); try (destruct A as (_ & -> & _); apply grows_refl); try (destruct A as (-> & _); apply grows_refl).
    destruct A as (_ & _ & _ & ->). eapply grows_eq. reflexivity.
  - pose proof (s_adds _ _ _ _ _ S) as A. unfold adds in A.
    destruct (place_of _ _); try (destruct A as (_ & _ & -> & _); apply grows_refl); try (destruct A as (_ & -> & _); apply grows_refl).
    destruct A as (_ & _ & _ & K & -> & _). eapply grows_eq. reflexivity.
Qed.
Lemma all_step c file l t : pre_wf (l ++ [t]) -> str_len file l < 2 ^ 31 ->
  stepped c l (a_all c file l) (a_all c file (l ++ [t])) t.
Proof.
  intros W B. destruct (all_inv c file l (pre_wf_l _ _ W) B) as (I & SL & _). rewrite a_all_snoc.
  destruct W as [F N]. apply Forall_app in F. rewrite flat_map_app in N. cbn [flat_map] in N. rewrite app_nil_r in N.
  apply item_step; auto; [apply (Forall_inv (proj2 F))|eapply NoDup_r; eauto|lia].
Qed.
Lemma all_mono c file l m : pre_wf (l ++ m) -> str_len file (l ++ m) < 2 ^ 31 -> mono (a_all c file l) (a_all c file (l ++ m)).
Proof.
  induction m as [|t m IH] using rev_ind; intros W B; [rewrite app_nil_r; apply mono_refl|].
  rewrite app_assoc in *. pose proof (str_len_app file (l ++ m) [t]).
  eapply mono_trans; [apply IH; [eapply pre_wf_l; eauto|lia]|]. eapply stepped_mono. apply all_step; [exact W|lia].
Qed.

Lemma text_relocs_snoc c l t : forall b, text_relocs c b (l ++ [t]) = text_relocs c b l ++ code_rels (value_of c (b ++ l) t) (body_of t).
Proof.
  induction l as [|x r IH]; intro b; cbn [app text_relocs]; [rewrite !app_nil_r; reflexivity|].
  rewrite IH, <- !app_assoc. reflexivity.
Qed.
Lemma data_relocs_snoc c l t : forall b, data_relocs c b (l ++ [t]) = data_relocs c b l ++ dat_rels (value_of c (b ++ l) t) (data_of t).
Proof.
  induction l as [|x r IH]; intro b; cbn [app data_relocs]; [rewrite !app_nil_r; reflexivity|].
  rewrite IH, <- !app_assoc. reflexivity.
Qed.
Lemma all_rels c file l : pre_wf l -> str_len file l < 2 ^ 31 ->
  a_rt (a_all c file l) = map mkrel (text_relocs c [] l) /\ a_rd (a_all c file l) = map mkrel (data_relocs c [] l).
Proof.
  induction l as [|t l IH] using rev_ind; intros W B; [split; reflexivity|]. pose proof (str_len_app file l [t]).
  pose proof (all_step c file l t W ltac:(lia)) as S. destruct (IH (pre_wf_l _ _ W) ltac:(lia)) as [IT ID].
  rewrite (s_rt _ _ _ _ _ S), (s_rd _ _ _ _ _ S), IT, ID, text_relocs_snoc, data_relocs_snoc, !map_app. auto.
Qed.
(* entries *)
Lemma all_counts c file l : pre_wf l -> str_len file l < 2 ^ 31 ->
  zlen (a_ent (a_all c file l)) + zlen (a_glob (a_all c file l)) = zlen (ent0 file) + zlen l.
Proof.
  induction l as [|t l IH] using rev_ind; intros W B.
  - cbn [a_all fold_left abs0 a_ent a_glob]. rewrite !zlen_nil. reflexivity.
  - pose proof (str_len_app file l [t]). pose proof (all_step c file l t W ltac:(lia)) as S.
    specialize (IH (pre_wf_l _ _ W) ltac:(lia)). rewrite (s_ent _ _ _ _ _ S), (s_glob _ _ _ _ _ S), !zlen_app, zlen_cons, zlen_nil.
    destruct (is_intern _); unfold zlen in *; cbn [length]; lia.
Qed.
Lemma all_off c file l m t : pre_wf (l ++ t :: m) -> str_len file (l ++ t :: m) < 2 ^ 31 -> is_intern (y_link (sym_of t)) = true ->
  a_off (a_all c file (l ++ t :: m)) (y_id (sym_of t)) = zlen (a_ent (a_all c file l)).
Proof.
  induction m as [|x m IH] using rev_ind; intros W B LI.
  - pose proof (str_len_app file l [t]). pose proof (all_step c file l t W ltac:(lia)) as S.
    rewrite (s_off _ _ _ _ _ S), LI. reflexivity.
  - replace (l ++ t :: m ++ [x]) with ((l ++ t :: m) ++ [x]) in * by (rewrite <- app_assoc; reflexivity).
    pose proof (str_len_app file (l ++ t :: m) [x]). pose proof (all_step c file _ x W ltac:(lia)) as S.
    rewrite (s_other _ _ _ _ _ S); [apply IH; auto; [eapply pre_wf_l; eauto|lia]|].
    destruct W as [_ N]. rewrite flat_map_app in N. cbn [flat_map] in N. rewrite app_nil_r in N.
    intro X. apply (NoDup_disj _ _ (y_id (sym_of t)) N); [|exact X].
    rewrite flat_map_app. apply in_or_app. right. cbn [flat_map ids_of app]. left. reflexivity.
Qed.
