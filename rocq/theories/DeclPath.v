(* Declarators: the way from a type to the end it was built on, and replacing that end (type_patch_declarator). *)
From Coq Require Import List Bool Arith ZArith Lia.
From Verif Require Import Util DeclModel DeclSpec DeclProofs.
Import ListNotations.
Open Scope Z_scope.

Inductive frame := FPtr (q : quals) | FArr (q : quals) (n : option Z) | FFun (ps : list (name * ty)) (k : proto).
Fixpoint plug (C : list frame) (t : ty) : ty :=
  match C with
  | [] => t
  | FPtr q :: C => TPtr q (plug C t)
  | FArr q n :: C => TArr q n (plug C t)
  | FFun ps k :: C => TFun ps k (plug C t)
  end.
Lemma plug_app : forall C D t, plug (C ++ D) t = plug C (plug D t).
Proof. induction C as [|[] C IH]; cbn; intros; f_equal; auto. Qed.

Section Path.
  Variable tag : tags.

  (* From T one comes to B through the frames C; sp are the numbers of the functions and arrays on the way, everything else
     that is looked at satisfies P. *)
  Inductive path (P : nat -> Prop) (h : heap) (B : typ) : list nat -> typ -> list frame -> Prop :=
  | p_end : path P h B [] B []
  | p_ptr : forall sp T T' C q, is_pointer T = true -> (tp T = false -> pc T = false /\ pv T = false /\ pr T = false) ->
      type_deref h T = Ok T' -> (tp T = false -> P (ref T)) -> q = quals_of T -> path P h B sp T' C ->
      path P h B sp T (FPtr q :: C)
  | p_arr : forall sp r n l C, node_at h r = Some n -> nkind n = ARRAY ->
      nsize n = match l with Some z => z | None => 0 end -> incomplete n = match l with Some _ => false | None => true end ->
      path P h B sp (nnext n) C -> path P h B (r :: sp) (plain ARRAY false r) (FArr unqualified l :: C)
  | p_fun : forall sp r n ps k C, node_at h r = Some n -> nkind n = FUNCTION ->
      incomplete n = match k with Unknown => true | Proto _ => false end ->
      vararg n = match k with Proto true => true | _ => false end ->
      dens tag P h (members n) ps -> path P h B sp (nnext n) C -> path P h B (r :: sp) (plain FUNCTION false r) (FFun ps k :: C).

  Lemma path_frame : forall (P Q : nat -> Prop) h h' B sp T C, agrees P h h' -> (forall r, P r -> Q r) ->
    (forall r n, In r sp -> node_at h r = Some n -> node_at h' r = Some n) ->
    path P h B sp T C -> path Q h' B sp T C.
  Proof.
    intros P Q h h' B sp T C Ha HPQ Hsp H. induction H.
    - constructor.
    - econstructor; eauto. eapply deref_agrees; eauto.
    - econstructor; eauto; [apply Hsp; cbn; auto|]. apply IHpath. intros; apply Hsp; cbn; auto.
    - eapply p_fun; eauto; [apply Hsp; cbn; auto| |].
      + eapply dens_frame; eauto.
      + apply IHpath. intros; apply Hsp; cbn; auto.
  Qed.
  Lemma path_dom : forall P h B sp T C, path P h B sp T C -> forall r, In r sp -> exists n, node_at h r = Some n.
  Proof. induction 1; cbn; intros i Hi; eauto; try destruct Hi as [<-|Hi]; eauto; contradiction. Qed.
  Lemma path_app : forall P h B1 sp1 T C1, path P h B1 sp1 T C1 -> forall B sp2 C2, path P h B sp2 B1 C2 ->
    path P h B (sp1 ++ sp2) T (C1 ++ C2).
  Proof.
    induction 1; cbn; intros; auto.
    - econstructor; eauto.
    - econstructor; eauto.
    - eapply p_fun; eauto.
  Qed.
  Lemma path_den : forall P h B sp T C, path P h B sp T C -> forall (Q : nat -> Prop) bt, den tag Q h B bt ->
    (forall r, P r -> Q r) -> (forall r, In r sp -> Q r) -> den tag Q h T (plug C bt).
  Proof.
    induction 1; cbn; intros Q bt Hb HP Hsp; auto.
    - subst q. econstructor; eauto.
    - econstructor; eauto.
    - eapply d_fun; eauto. eapply dens_frame; [apply agrees_refl|exact HP|auto].
  Qed.

  (* declarable goes down and survives putting void at the end *)
  Lemma declarable_plug : forall C t, declarable tag (plug C t) = true -> declarable tag t = true.
  Proof.
    induction C as [|[] C IH]; cbn; intros t H; auto.
    - apply andb_prop in H as [_ H]. auto.
    - apply andb_prop in H as [_ H]. auto.
    - apply andb_prop in H as [_ H]. auto.
  Qed.

  Lemma patch_ok : forall P h sp T C, path P h void_type sp T C ->
    forall B sp1 X C1 Q bt, (forall r, In r (sp ++ sp1) -> ~ P r) -> NoDup (sp ++ sp1) -> (forall r, P r -> (r <= length h)%nat) ->
    path P h B sp1 X C1 -> den tag Q h B bt -> (forall r, Q r -> (r <= length h)%nat /\ ~ In r (sp ++ sp1)) ->
    declarable tag (plug C (plug C1 bt)) = true ->
    exists m0 h' T', (forall m, (m0 <= m)%nat -> patch m h T X = Ok (h', T')) /\ (length h <= length h')%nat /\
      (forall k, (k <= length h)%nat -> ~ In k sp -> node_at h' k = node_at h k) /\
      path (fun r => P r \/ (length h < r <= length h')%nat) h' B (sp ++ sp1) T' (C ++ C1).
  Proof.
    intros P h sp T C Hp. induction Hp; intros B sp1 X C1 Q bt HnP Hnd HPl HX Hb HQ Hd.
    - exists 1%nat, h, X. split.
      { intros [|m] Hm; [lia|]. reflexivity. }
      split; [lia|]. split; auto. cbn. eapply path_frame; [apply agrees_refl| |auto|exact HX]. auto.
    - cbn in Hd. apply andb_prop in Hd as [Hr Hd].
      destruct (IHHp B sp1 X C1 Q bt HnP Hnd HPl HX Hb HQ Hd) as (m0 & h1 & X1 & E1 & Hl1 & Hk1 & HX1).
      assert (Hden : den tag (fun r => (r <= length h1)%nat) h1 X1 (plug C (plug C1 bt))).
      { rewrite <- plug_app. eapply path_den; [exact HX1| | |].
        - eapply den_frame; [| |exact Hb].
          + intros r n Hr' Hn. destruct (HQ r Hr') as [A1 A2]. rewrite Hk1; auto. intros A3. apply A2. apply in_or_app; auto.
          + cbn. intros r Hr'. destruct (HQ r Hr'). lia.
        - cbn. intros r [A|A]; [specialize (HPl r A)|]; lia.
        - intros r A. destruct (path_dom _ _ _ _ _ _ HX1 r A) as [n A2]. apply node_at_dom in A2. lia. }
      destruct (create_pointer_ok tag _ _ _ _ Hden) as (h2 & T2 & E2 & Ht2 & Hd2 & Hq2 & Hc2 & Hf2 & Hl2 & Hk2).
      { now apply negb_true_iff. }
      destruct (apply_qualifiers_ok h2 T2 X1 T Ht2 Hd2 Hq2 Hc2) as (T3 & E3 & Ht3 & Hd3 & Hq3 & Htp3 & Hr3 & Hc3).
      exists (S m0), h2, T3. split.
      { intros [|m] Hm; [lia|]. cbn - [patch]. unfold is_void, is_pointer in *. 
        change (patch (S m) h T X) with
          (if is_void T then Ok (h, X)
           else if is_pointer T then
             let* next := type_next h T in
             let* (h, next) := patch m h next X in
             let (h, next) := create_pointer h next in
             let* next := apply_qualifiers next T in
             Ok (h, next)
           else if is_function T || is_array T then
             let* n := handle h (ref T) in
             let* (h, next) := patch m h (nnext n) X in
             let* n := handle h (ref T) in
             Ok (put h (ref T) (set_next n next), T)
           else Bad).
        unfold is_void, is_pointer, type_next. destruct (type_of T) eqn:ET; cbn in *; try discriminate.
        unfold is_pointer. rewrite ET. cbn. rewrite H1. cbn. rewrite E1 by lia. cbn. rewrite E2, E3. reflexivity. }
      split; [lia|]. split; [intros; rewrite Hk2 by lia; auto|].
      cbn. econstructor; [exact Ht3|exact Hc3|exact Hd3| |now rewrite Hq3|].
      + intros A. right. rewrite Hr3. rewrite Htp3 in A. specialize (Hf2 A). lia.
      + eapply path_frame; [| | |exact HX1].
        * intros r n [A|A] Hn; rewrite Hk2; auto; [specialize (HPl r A)|]; lia.
        * cbn. intros r [A|A]; auto. right; lia.
        * intros r n A Hn. rewrite Hk2; auto. apply node_at_dom in Hn. lia.
    - cbn in Hd. apply andb_prop in Hd as [_ Hd]. cbn in HnP, Hnd. apply NoDup_cons_iff in Hnd as [Hrn Hnd].
      destruct (IHHp B sp1 X C1 Q bt) as (m0 & h1 & X1 & E1 & Hl1 & Hk1 & HX1); auto.
      { intros r0 A. destruct (HQ r0 A) as [A1 A2]. split; auto. intros A3. apply A2. now right. }
      assert (Hr1 : node_at h1 r = Some n).
      { rewrite Hk1; auto; [apply node_at_dom in H; lia|]. intros A. apply Hrn. apply in_or_app; auto. }
      exists (S m0), (put h1 r (set_next n X1)), (plain ARRAY false r). split.
      { intros [|m] Hm; [lia|]. cbn. unfold handle. rewrite H. cbn. rewrite E1 by lia. cbn. unfold handle. rewrite Hr1. reflexivity. }
      split; [rewrite put_length; lia|]. split.
      { intros k0 Hk0 A. rewrite put_other; [apply Hk1; auto; intros A2; apply A; now right|]. intros ->. apply A. now left. }
      cbn. eapply p_arr.
      + eapply put_same; eauto.
      + auto.
      + auto.
      + auto.
      + cbn. rewrite put_length. eapply path_frame; [| | |exact HX1].
        * intros r0 n0 A Hn. rewrite put_other; auto. intros ->. destruct A as [A|A].
          -- exact (HnP r (or_introl eq_refl) A).
          -- apply node_at_dom in H. lia.
        * auto.
        * intros r0 n0 A Hn. rewrite put_other; auto. intros ->. now apply Hrn.
    - cbn in Hd. apply andb_prop in Hd as [_ Hd]. cbn in HnP, Hnd. apply NoDup_cons_iff in Hnd as [Hrn Hnd].
      destruct (IHHp B sp1 X C1 Q bt) as (m0 & h1 & X1 & E1 & Hl1 & Hk1 & HX1); auto.
      { intros r0 A. destruct (HQ r0 A) as [A1 A2]. split; auto. intros A3. apply A2. now right. }
      assert (Hr1 : node_at h1 r = Some n).
      { rewrite Hk1; auto; [apply node_at_dom in H; lia|]. intros A. apply Hrn. apply in_or_app; auto. }
      exists (S m0), (put h1 r (set_next n X1)), (plain FUNCTION false r). split.
      { intros [|m] Hm; [lia|]. cbn. unfold handle. rewrite H. cbn. rewrite E1 by lia. cbn. unfold handle. rewrite Hr1. reflexivity. }
      split; [rewrite put_length; lia|]. split.
      { intros k0 Hk0 A. rewrite put_other; [apply Hk1; auto; intros A2; apply A; now right|]. intros ->. apply A. now left. }
      cbn. eapply p_fun.
      + eapply put_same; eauto.
      + auto.
      + auto.
      + auto.
      + cbn. rewrite put_length. eapply dens_frame; [| |eassumption].
        * intros r0 n0 A Hn. rewrite put_other.
          -- rewrite Hk1; auto. intros A2. apply (HnP r0); auto. right. apply in_or_app; auto.
          -- intros ->. exact (HnP r (or_introl eq_refl) A).
        * auto.
      + cbn. rewrite put_length. eapply path_frame; [| | |exact HX1].
        * intros r0 n0 A Hn. rewrite put_other; auto. intros ->. destruct A as [A|A].
          -- exact (HnP r (or_introl eq_refl) A).
          -- apply node_at_dom in H. lia.
        * auto.
        * intros r0 n0 A Hn. rewrite put_other; auto. intros ->. now apply Hrn.
  Qed.
End Path.
