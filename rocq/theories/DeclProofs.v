(* Declarators: what the types built on the heap denote, and how that survives what is done to the heap. *)
From Coq Require Import List Bool Arith ZArith Lia.
From Verif Require Import Util DeclModel DeclSpec.
Import ListNotations.
Open Scope Z_scope.

(* ---- The heap ---- *)
Lemma node_at_app : forall h h2 k, (k <= length h)%nat -> node_at (h ++ h2) k = node_at h k.
Proof.
  intros h h2 [|k] Hk; cbn; auto. apply nth_error_app1. lia.
Qed.
Lemma node_at_new : forall h n, node_at (h ++ [n]) (S (length h)) = Some n.
Proof. intros h n. cbn. rewrite nth_error_app2 by lia. now rewrite Nat.sub_diag. Qed.
Lemma node_at_dom : forall h k n, node_at h k = Some n -> (0 < k <= length h)%nat.
Proof.
  intros h [|k] n H; cbn in H; [discriminate|]. assert (nth_error h k <> None) by congruence.
  apply nth_error_Some in H0. lia.
Qed.
Lemma put_length : forall h r n, length (put h r n) = length h.
Proof. intros h [|r] n; cbn; auto. apply upd_length. Qed.
Lemma put_same : forall h r n n0, node_at h r = Some n0 -> node_at (put h r n) r = Some n.
Proof.
  intros h [|r] n n0 H; cbn in *; [discriminate|]. apply nth_error_upd_same.
  apply nth_error_Some. congruence.
Qed.
Lemma put_other : forall h r k n, k <> r -> node_at (put h r n) k = node_at h k.
Proof.
  intros h [|r] [|k] n H; cbn; auto. apply nth_error_upd_other. lia.
Qed.

Section Den.
  Variable tag : tags.

  (* Like denotes, of which it says in addition that all numbers looked at satisfy P. *)
  Inductive den (P : nat -> Prop) (h : heap) : typ -> ty -> Prop :=
  | d_basic : forall k u c v, basic k = true -> den P h (mkT k u c v false false false false false 0) (TBasic k u c v)
  | d_tag : forall k r c v n z, tag r = Some (k, z) -> node_at h r = Some n -> nkind n = k -> nsize n = z ->
      k = STRUCT \/ k = UNION -> P r -> den P h (mkT k false c v false false false false false r) (TTag k r c v)
  | d_ptr : forall T T' t, is_pointer T = true -> (tp T = false -> pc T = false /\ pv T = false /\ pr T = false) ->
      type_deref h T = Ok T' -> (tp T = false -> P (ref T)) -> den P h T' t ->
      den P h T (TPtr (mkq (is_const T) (is_volatile T) (is_restrict T)) t)
  | d_arr : forall r n l t, node_at h r = Some n -> nkind n = ARRAY ->
      nsize n = match l with Some z => z | None => 0 end -> incomplete n = match l with Some _ => false | None => true end -> P r ->
      den P h (nnext n) t -> den P h (plain ARRAY false r) (TArr unqualified l t)
  | d_fun : forall r n ps k t, node_at h r = Some n -> nkind n = FUNCTION ->
      incomplete n = match k with Unknown => true | Proto _ => false end ->
      vararg n = match k with Proto true => true | _ => false end -> P r ->
      dens P h (members n) ps -> den P h (nnext n) t -> den P h (plain FUNCTION false r) (TFun ps k t)
  | d_pending : den P h (plain PLACEHOLDER false 0) TPending
  with dens (P : nat -> Prop) (h : heap) : list member -> list (name * ty) -> Prop :=
  | d_none : dens P h [] []
  | d_one : forall m ms x t ps, mname m = x -> den P h (mtype m) t -> dens P h ms ps -> dens P h (m :: ms) ((x, t) :: ps).
  Scheme den_mind := Minimality for den Sort Prop with dens_mind := Minimality for dens Sort Prop.

  Definition agrees (P : nat -> Prop) (h h' : heap) : Prop := forall r n, P r -> node_at h r = Some n -> node_at h' r = Some n.

  Lemma deref_agrees : forall (P : nat -> Prop) h h' T T', agrees P h h' -> (tp T = false -> P (ref T)) ->
    type_deref h T = Ok T' -> type_deref h' T = Ok T'.
  Proof.
    intros P h h' T T' Ha HP H. unfold type_deref in *. destruct (negb (is_pointer T)); [discriminate|].
    destruct (tp T); auto. unfold type_handle, handle in *. destruct (node_at h (ref T)) as [n|] eqn:E; [|discriminate].
    now rewrite (Ha _ _ (HP eq_refl) E).
  Qed.

  Lemma den_mono : forall (P Q : nat -> Prop) h h', agrees P h h' -> (forall r, P r -> Q r) ->
    (forall T t, den P h T t -> den Q h' T t) /\ (forall ms ps, dens P h ms ps -> dens Q h' ms ps).
  Proof.
    intros P Q h h' Ha HPQ.
    assert (A : forall T t, den P h T t -> den Q h' T t).
    { apply (den_mind P h (fun T t => den Q h' T t) (fun ms ps => dens Q h' ms ps)); intros.
      - now constructor.
      - econstructor; eauto.
      - econstructor; eauto. eapply deref_agrees; eauto.
      - econstructor; eauto.
      - eapply d_fun; eauto.
      - constructor.
      - constructor.
      - constructor; auto. }
    split; auto. intros ms ps H. induction H; constructor; auto.
  Qed.
  Lemma den_frame : forall (P Q : nat -> Prop) h h' T t, agrees P h h' -> (forall r, P r -> Q r) -> den P h T t -> den Q h' T t.
  Proof. intros. eapply (proj1 (den_mono P Q h h' H H0)); auto. Qed.
  Lemma dens_frame : forall (P Q : nat -> Prop) h h' ms ps, agrees P h h' -> (forall r, P r -> Q r) -> dens P h ms ps -> dens Q h' ms ps.
  Proof. intros. eapply (proj2 (den_mono P Q h h' H H0)); auto. Qed.
  Lemma agrees_refl : forall P h, agrees P h h.
  Proof. now unfold agrees. Qed.
  Lemma dens_app : forall P h a b p q, dens P h a p -> dens P h b q -> dens P h (a ++ b) (p ++ q).
  Proof. induction 1; cbn; auto. intros. constructor; auto. Qed.

  (* denotes and den *)
  Scheme denotes_mind := Minimality for denotes Sort Prop with denote_mind := Minimality for denote Sort Prop.
  Lemma denotes_den : forall h T t, denotes tag h T t -> den (fun r => (r <= length h)%nat) h T t.
  Proof.
    intros h. apply (denotes_mind tag h (fun T t => den (fun r => (r <= length h)%nat) h T t)
      (fun ms ps => dens (fun r => (r <= length h)%nat) h ms ps)); intros.
    - now constructor.
    - econstructor; eauto. apply node_at_dom in H0. lia.
    - econstructor; eauto. intros E. unfold type_deref in H1. rewrite H, E in H1. cbn in H1.
      unfold type_handle, handle in H1. destruct (node_at h (ref T)) eqn:E2; [|discriminate]. apply node_at_dom in E2. lia.
    - econstructor; eauto. apply node_at_dom in H. lia.
    - eapply d_fun; eauto. apply node_at_dom in H. lia.
    - constructor.
    - constructor.
    - now constructor.
  Qed.
  Lemma den_denotes : forall P h T t, den P h T t -> denotes tag h T t.
  Proof.
    intros P h. apply (den_mind P h (fun T t => denotes tag h T t) (fun ms ps => denote tag h ms ps)); intros.
    - now constructor.
    - econstructor; eauto.
    - econstructor; eauto.
    - econstructor; eauto.
    - eapply den_fun; eauto.
    - constructor.
    - constructor.
    - now constructor.
  Qed.

  Lemma den_canonical : forall P h T t, den P h T t -> tp T = false -> pc T = false /\ pv T = false /\ pr T = false.
  Proof. intros P h T t H; inversion H; subst; cbn; auto. Qed.
  Lemma den_restrict : forall P h T t, den P h T t -> restricted t = false -> tp T = true -> pr T = false.
  Proof.
    intros P h T t H Hr Htp; inversion H; subst; cbn in *; try discriminate. unfold is_restrict in Hr. now rewrite Htp in Hr.
  Qed.
  Lemma den_kind : forall P h T t, den P h T t ->
    is_void T = is_tvoid t /\ is_array T = is_arr t /\ is_function T = is_fun t.
  Proof.
    intros P h T t H; inversion H; subst; unfold is_void, is_array, is_function, type_of; cbn; auto.
    - destruct k; cbn in *; auto; discriminate.
    - match goal with H : _ = STRUCT \/ _ = UNION |- _ => destruct H as [E|E]; rewrite E; auto end.
    - unfold is_pointer, type_of in H0. destruct (tp T); cbn; auto. destruct (kind T); cbn in *; try discriminate; auto.
  Qed.

  (* ---- Sizes and completeness ---- *)
  Definition sizes_ok : Prop := forall r k z, tag r = Some (k, z) -> 0 <= z.
  Lemma size_nonneg : sizes_ok -> forall t, declarable tag t = true -> 0 <= size tag t.
  Proof.
    intros Hs t; induction t; cbn; intros H; try lia.
    - destruct k; lia.
    - destruct (tag r) as [[k' z]|] eqn:E; [|lia]. eapply Hs; eauto.
    - destruct n as [z|]; [|lia]. apply andb_prop in H as [H Hd]. apply andb_prop in H as [_ H].
      unfold element in H. apply andb_prop in H as [_ H]. apply andb_prop in H as [H _]. specialize (IHt Hd). nia.
  Qed.
  Lemma size_of_ok : sizes_ok -> forall P h T t, den P h T t -> declarable tag t = true ->
    exists n, forall m, (n <= m)%nat -> size_of m h T = Ok (size tag t).
  Proof.
    intros Hs P h. apply (den_mind P h (fun T t => declarable tag t = true -> exists n, forall m, (n <= m)%nat -> size_of m h T = Ok (size tag t))
      (fun _ _ => True)); intros; auto.
    - exists 1%nat. intros [|m] Hm; [lia|]. cbn. destruct k; cbn in *; try discriminate; auto.
    - exists 1%nat. intros [|m] Hm; [lia|]. cbn. rewrite H. unfold type_of, handle. cbn. rewrite H0.
      destruct H3 as [E|E]; rewrite E; cbn; congruence.
    - exists 1%nat. intros [|m] Hm; [lia|]. cbn. unfold is_pointer in H. destruct (type_of T); cbn in *; try discriminate. auto.
    - cbn in H6. apply andb_prop in H6 as [H6 Hd]. destruct (H5 Hd) as [m0 Hm0]. exists (S m0). intros [|m] Hm; [lia|].
      cbn. unfold handle. rewrite H. cbn. rewrite Hm0 by lia. cbn. rewrite H1. f_equal.
      pose proof (size_nonneg Hs t Hd) as Hn.
      unfold element in H6. apply andb_prop in H6 as [H6 Hl]. destruct l as [z|].
      + apply andb_prop in Hl as [Hz Hl]. apply Z.leb_le in Hz, Hl. unfold wrap64. apply Z.mod_small. nia.
      + unfold wrap64. now rewrite Z.mul_0_l.
    - exists 1%nat. intros [|m] Hm; [lia|]. reflexivity.
    - exists 1%nat. intros [|m] Hm; [lia|]. reflexivity.
  Qed.
  Lemma complete_ok : forall P h T t, den P h T t -> unsized t = false -> is_fun t = false -> is_complete h T = Ok true.
  Proof.
    intros P h T t H Hu Hf. inversion H; subst; cbn in *; try discriminate; unfold is_complete, type_of; cbn.
    - destruct k; cbn in *; auto; discriminate.
    - match goal with H : _ = STRUCT \/ _ = UNION |- _ => destruct H as [E|E]; rewrite E; auto end.
    - unfold is_pointer, type_of in H0. destruct (tp T); cbn; auto. destruct (kind T); cbn in *; try discriminate; auto.
    - unfold handle. rewrite H0. cbn. rewrite H3. destruct l; [auto|discriminate].
    - reflexivity.
  Qed.

  (* ---- Pointers ---- *)
  Definition quals_of (T : typ) : quals := mkq (is_const T) (is_volatile T) (is_restrict T).

  Lemma create_pointer_ok : forall P h B bt, den P h B bt -> restricted bt = false ->
    exists h' T, create_pointer h B = (h', T) /\ is_pointer T = true /\ type_deref h' T = Ok B /\ quals_of T = unqualified /\
      (tp T = false -> pc T = false /\ pv T = false /\ pr T = false) /\
      (tp T = false -> (length h < ref T <= length h')%nat) /\ (length h <= length h')%nat /\
      (forall k, (k <= length h)%nat -> node_at h' k = node_at h k).
  Proof.
    intros P h B bt Hd Hr. unfold create_pointer. destruct (tp B) eqn:E.
    - pose proof (den_restrict _ _ _ _ Hd Hr E) as Hpr.
      eexists _, _. split; [reflexivity|]. unfold type_create. cbn [fst snd].
      split; [reflexivity|]. split.
      + unfold type_deref. cbn - [node_at]. unfold type_handle, handle. cbn [ref plain]. rewrite node_at_new. cbn.
        unfold is_const, is_volatile, type_unqualified. rewrite E. destruct B; cbn in *. subst. reflexivity.
      + split; [reflexivity|]. split; [auto|]. split; [cbn; intros _; rewrite app_length; cbn; lia|].
        split; [rewrite app_length; cbn; lia|]. intros k Hk. now apply node_at_app.
    - pose proof (den_canonical _ _ _ _ Hd E) as (A1 & A2 & A3).
      eexists _, _. split; [reflexivity|]. destruct B; cbn in *; subst. repeat split; auto; try discriminate.
  Qed.

  Definition set_one (T : typ) (x : qual) : outcome typ :=
    match x with Qconst => Ok (set_const T) | Qvolatile => Ok (set_volatile T) | Qrestrict => set_restrict T end.
  Lemma set_one_ok : forall h T B x, is_pointer T = true -> type_deref h T = Ok B ->
    (tp T = false -> pc T = false /\ pv T = false /\ pr T = false) ->
    exists T', set_one T x = Ok T' /\ is_pointer T' = true /\ type_deref h T' = Ok B /\ quals_of T' = add_qual (quals_of T) x /\
      tp T' = tp T /\ ref T' = ref T /\ (tp T' = false -> pc T' = false /\ pv T' = false /\ pr T' = false).
  Proof.
    intros h T B x Hp Hd Hc. unfold set_one, set_const, set_volatile, set_restrict. rewrite Hp. cbn [negb].
    unfold type_deref in *. rewrite Hp in Hd. cbn [negb] in Hd. destruct T as [k u a b c p a' b' c' r]. cbn in *.
    destruct x, p; cbn in *; eexists; (split; [reflexivity|]); unfold is_pointer, type_of in *; cbn in *; repeat split; auto; try tauto;
      try (rewrite Hp; cbn; assumption).
  Qed.
  Lemma pointer_quals_ok : forall q h T B rest, is_pointer T = true -> type_deref h T = Ok B ->
    (tp T = false -> pc T = false /\ pv T = false /\ pr T = false) ->
    match rest with Kconst :: _ | Kvolatile :: _ | Krestrict :: _ => False | _ => True end ->
    exists T', pointer_quals T (map write_qual q ++ rest) = Ok (T', rest) /\ is_pointer T' = true /\ type_deref h T' = Ok B /\
      quals_of T' = fold_left add_qual q (quals_of T) /\
      tp T' = tp T /\ ref T' = ref T /\ (tp T' = false -> pc T' = false /\ pv T' = false /\ pr T' = false).
  Proof.
    induction q as [|x q IH]; intros h T B rest Hp Hd Hc Hr.
    - exists T. cbn. repeat split; auto; try (apply Hc; auto). destruct rest as [|[] ]; cbn; auto; contradiction.
    - destruct (set_one_ok h T B x Hp Hd Hc) as (T1 & E1 & Hp1 & Hd1 & Hq1 & Ht1 & Hr1 & Hc1).
      destruct (IH h T1 B rest Hp1 Hd1 Hc1 Hr) as (T2 & E2 & Hp2 & Hd2 & Hq2 & Ht2 & Hr2 & Hc2).
      exists T2. split.
      + destruct x; cbn in *.
        * injection E1 as E1. now rewrite E1.
        * injection E1 as E1. now rewrite E1.
        * rewrite E1. exact E2.
      + rewrite Hq1 in Hq2. repeat split; auto; try congruence; apply Hc2; auto.
  Qed.
  Lemma apply_qualifiers_ok : forall h T B T0, is_pointer T = true -> type_deref h T = Ok B -> quals_of T = unqualified ->
    (tp T = false -> pc T = false /\ pv T = false /\ pr T = false) ->
    exists T', apply_qualifiers T T0 = Ok T' /\ is_pointer T' = true /\ type_deref h T' = Ok B /\ quals_of T' = quals_of T0 /\
      tp T' = tp T /\ ref T' = ref T /\ (tp T' = false -> pc T' = false /\ pv T' = false /\ pr T' = false).
  Proof.
    intros h T B T0 Hp Hd Hq Hc. unfold apply_qualifiers.
    assert (A : exists T1, (if is_const T0 then set_const T else T) = T1 /\ is_pointer T1 = true /\ type_deref h T1 = Ok B /\
      quals_of T1 = mkq (is_const T0) false false /\ tp T1 = tp T /\ ref T1 = ref T /\
      (tp T1 = false -> pc T1 = false /\ pv T1 = false /\ pr T1 = false)).
    { destruct (is_const T0).
      - destruct (set_one_ok h T B Qconst Hp Hd Hc) as (T1 & E1 & H1 & H2 & H3 & H4). cbn in E1. injection E1 as <-.
        eexists; split; [reflexivity|]. rewrite H3, Hq. cbn. auto 20.
      - exists T. rewrite Hq. auto 20. }
    destruct A as (T1 & -> & Hp1 & Hd1 & Hq1 & Ht1 & Hr1 & Hc1).
    assert (A : exists T2, (if is_volatile T0 then set_volatile T1 else T1) = T2 /\ is_pointer T2 = true /\ type_deref h T2 = Ok B /\
      quals_of T2 = mkq (is_const T0) (is_volatile T0) false /\ tp T2 = tp T /\ ref T2 = ref T /\
      (tp T2 = false -> pc T2 = false /\ pv T2 = false /\ pr T2 = false)).
    { destruct (is_volatile T0).
      - destruct (set_one_ok h T1 B Qvolatile Hp1 Hd1 Hc1) as (T2 & E1 & H1 & H2 & H3 & H4 & H5 & H6). cbn in E1. injection E1 as <-.
        eexists; split; [reflexivity|]. rewrite H3, Hq1. repeat split; auto; try congruence; apply H6; auto.
      - exists T1. rewrite Hq1. auto 20. }
    destruct A as (T2 & -> & Hp2 & Hd2 & Hq2 & Ht2 & Hr2 & Hc2).
    destruct (is_restrict T0) eqn:E.
    - destruct (set_one_ok h T2 B Qrestrict Hp2 Hd2 Hc2) as (T3 & E1 & H1 & H2 & H3 & H4 & H5 & H6). cbn in E1.
      exists T3. rewrite H3, Hq2. unfold quals_of. rewrite E. repeat split; auto; try congruence; apply H6; auto.
    - exists T2. rewrite Hq2. unfold quals_of. rewrite E. repeat split; auto; apply Hc2; auto.
  Qed.
End Den.
