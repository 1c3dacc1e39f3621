(* Declarators: specifiers, pointers, arrays and lists of parameters are read to what they mean. *)
From Coq Require Import List Bool Arith ZArith Lia.
From Verif Require Import Util DeclModel DeclSpec DeclProofs DeclPath.
Import ListNotations.
Open Scope Z_scope.

Definition grows (h h' : heap) : Prop := (length h <= length h')%nat /\ forall k, (k <= length h)%nat -> node_at h' k = node_at h k.
Lemma grows_refl : forall h, grows h h.
Proof. split; auto. Qed.
Lemma grows_trans : forall a b c, grows a b -> grows b c -> grows a c.
Proof. intros a b c [H1 H2] [H3 H4]. split; [lia|]. intros k Hk. rewrite H4 by lia. auto. Qed.
Lemma grows_agrees : forall h h' (P : nat -> Prop), grows h h' -> (forall k, P k -> (k <= length h)%nat) -> agrees P h h'.
Proof. intros h h' P [H1 H2] HP r n Hr Hn. rewrite H2; auto. Qed.
Lemma grows_app : forall h l, grows h (h ++ l).
Proof. intros. split; [rewrite app_length; lia|]. intros. now apply node_at_app. Qed.

Section Parse.
  Variable tag : tags.
  Hypothesis Hsizes : sizes_ok tag.

  Definition Pof (P0 : nat -> Prop) (lo hi : nat) (sp : list nat) (k : nat) : Prop := (P0 k \/ (lo < k <= hi)%nat) /\ ~ In k sp.
  Definition built (P0 : nat -> Prop) (h : heap) (base : typ) (h' : heap) (T : typ) (C : list frame) : Prop :=
    grows h h' /\ exists sp, path tag (Pof P0 (length h) (length h') sp) h' base sp T C /\ NoDup sp /\
      forall k, In k sp -> (length h < k <= length h')%nat.
  Definition bounded (P0 : nat -> Prop) (h : heap) : Prop := forall k, P0 k -> (k <= length h)%nat.
  Definition or_new (P0 : nat -> Prop) (h h' : heap) (k : nat) : Prop := P0 k \/ (length h < k <= length h')%nat.

  Lemma built_refl : forall P0 h base, built P0 h base h base [].
  Proof. intros. split; [apply grows_refl|]. exists []. split; [constructor|]. split; [constructor|]. cbn; tauto. Qed.
  Lemma built_den : forall P0 h base h' T C bt, bounded P0 h -> built P0 h base h' T C -> den tag P0 h base bt ->
    den tag (or_new P0 h h') h' T (plug C bt).
  Proof.
    intros P0 h base h' T C bt Hb (Hg & sp & Hp & Hn & Hs) Hd. eapply path_den; [exact Hp| | |].
    - eapply den_frame; [eapply grows_agrees; eauto| |exact Hd]. unfold or_new; auto.
    - unfold Pof, or_new. tauto.
    - unfold or_new. auto.
  Qed.
  Lemma built_array : forall P0 h base h1 X C n l, bounded P0 h -> built P0 h base h1 X C -> nkind n = ARRAY -> nnext n = X ->
    nsize n = match l with Some z => z | None => 0 end -> incomplete n = match l with Some _ => false | None => true end ->
    built P0 h base (h1 ++ [n]) (plain ARRAY false (S (length h1))) (FArr unqualified l :: C).
  Proof.
    intros P0 h base h1 X C n l Hb (Hg & sp & Hp & Hnd & Hs) Hk Hx Hz Hi.
    split; [eapply grows_trans; [exact Hg|apply grows_app]|].
    exists (S (length h1) :: sp). split; [|split].
    - eapply p_arr; eauto; [apply node_at_new|]. rewrite Hx. eapply path_frame; [| | |exact Hp].
      + intros r m Hr Hm. rewrite node_at_app; auto. destruct Hr as [[A|A] _]; [apply Hb in A; destruct Hg|]; lia.
      + unfold Pof. cbn. intros r [A B]. rewrite app_length. cbn. split; [destruct A; auto; right; lia|].
        intros [A2|A2]; auto. destruct A as [A|A]; [apply Hb in A; destruct Hg|]; lia.
      + intros r m Hr Hm. rewrite node_at_app; auto. apply Hs in Hr. lia.
    - constructor; auto. intros A. apply Hs in A. lia.
    - rewrite app_length. cbn. intros k [A|A]; [destruct Hg; lia|]. apply Hs in A. lia.
  Qed.

  (* ---- What is in scope ---- *)
  Fixpoint envd (P0 : nat -> Prop) (h : heap) (e : env) (s : senv) : Prop :=
    match e, s with
    | [], [] => True
    | (x, Some T) :: e, (y, Some t) :: s => x = y /\ den tag P0 h T t /\ envd P0 h e s
    | (x, None) :: e, (y, None) :: s => x = y /\ envd P0 h e s
    | _, _ => False
    end.
  Definition tagsd (P0 : nat -> Prop) (h : heap) : Prop :=
    forall r k z, tag r = Some (k, z) ->
    (k = STRUCT \/ k = UNION) /\ P0 r /\ exists n, node_at h r = Some n /\ nkind n = k /\ nsize n = z.
  Lemma envd_frame : forall (P Q : nat -> Prop) h h' e s, agrees P h h' -> (forall k, P k -> Q k) -> envd P h e s -> envd Q h' e s.
  Proof.
    intros P Q h h' e. induction e as [|[x [T|]] e IH]; intros [|[y [t|]] s] Ha HP; cbn; auto.
    - intros (A & B & C). split; auto. split; [eapply den_frame; eauto|]. auto.
    - intros (A & B). auto.
  Qed.
  Lemma tagsd_frame : forall (P Q : nat -> Prop) h h', agrees P h h' -> (forall k, P k -> Q k) -> tagsd P h -> tagsd Q h'.
  Proof.
    intros P Q h h' Ha HP H r k z E. destruct (H r k z E) as (A & B & n & C & D). split; auto. split; auto. exists n. split; auto.
  Qed.
  Lemma envd_typedef : forall P h e s x, envd P h e s ->
    match get_typedef e x, typedef s x with
    | Some T, Some t => den tag P h T t
    | None, None => True
    | _, _ => False
    end.
  Proof.
    intros P h e. induction e as [|[y [T|]] e IH]; intros [|[y' [t|]] s] x; cbn; auto; try contradiction.
    - intros (<- & A & B). destruct (Nat.eqb x y); auto. now apply IH.
    - intros (<- & B). destruct (Nat.eqb x y); auto. now apply IH.
  Qed.
  Lemma envd_none : forall P h e s x, envd P h e s -> typedef s x = None -> get_typedef e x = None.
  Proof. intros P h e s x H E. pose proof (envd_typedef P h e s x H). rewrite E in H0. destruct (get_typedef e x); auto. contradiction. Qed.
  Lemma envd_some : forall P h e s x t, envd P h e s -> typedef s x = Some t -> exists T, get_typedef e x = Some T /\ den tag P h T t.
  Proof. intros P h e s x t H E. pose proof (envd_typedef P h e s x H). rewrite E in H0. destruct (get_typedef e x); [eauto|contradiction]. Qed.

  (* ---- Specifiers ---- *)
  Lemma qualify_none : forall t, qualify false false t = t.
  Proof. induction t as [| |[]| | |]; cbn; f_equal; auto. Qed.
  Lemma qualify_ok : forall P h T t c v, den tag P h T t -> settled t = true -> qualifiable t = true \/ (c = false /\ v = false) ->
    den tag P h (if v then set_volatile (if c then set_const T else T) else if c then set_const T else T) (qualify c v t).
  Proof.
    intros P h T t c v Hd Hset [Hq|[-> ->]]; [|now rewrite qualify_none].
    inversion Hd; subst; try discriminate.
    - destruct c, v; cbn; now constructor.
    - destruct c, v; cbn; econstructor; eauto.
    - assert (A : exists T1, (if c then set_const T else T) = T1 /\ is_pointer T1 = true /\ type_deref h T1 = Ok T' /\
        quals_of T1 = mkq (c || is_const T) (is_volatile T) (is_restrict T) /\ tp T1 = tp T /\ ref T1 = ref T /\
        (tp T1 = false -> pc T1 = false /\ pv T1 = false /\ pr T1 = false)).
      { destruct c; [|exists T; repeat split; auto; apply H0; auto].
        destruct (set_one_ok h T T' Qconst H H1 H0) as (T1 & E1 & A1 & A2 & A3 & A4 & A5 & A6). cbn in E1. injection E1 as <-.
        eexists; split; [reflexivity|]. rewrite A3. auto 20. }
      destruct A as (T1 & -> & A1 & A2 & A3 & A4 & A5 & A6).
      assert (A : exists T2, (if v then set_volatile T1 else T1) = T2 /\ is_pointer T2 = true /\ type_deref h T2 = Ok T' /\
        quals_of T2 = mkq (c || is_const T) (v || is_volatile T) (is_restrict T) /\ tp T2 = tp T /\ ref T2 = ref T /\
        (tp T2 = false -> pc T2 = false /\ pv T2 = false /\ pr T2 = false)).
      { destruct v; [|exists T1; repeat split; auto; apply A6; auto].
        destruct (set_one_ok h T1 T' Qvolatile A1 A2 A6) as (T2 & E1 & B1 & B2 & B3 & B4 & B5 & B6). cbn in E1. injection E1 as <-.
        eexists; split; [reflexivity|]. rewrite B3, A3. cbn. repeat split; auto; try congruence; apply B6; auto. }
      destruct A as (T2 & -> & B1 & B2 & B3 & B4 & B5 & B6).
      cbn. rewrite <- B3. unfold quals_of. econstructor; eauto. intros E. rewrite B5. apply H2. congruence.
  Qed.
  Definition noqual (ts : list tok) : bool := match ts with Kconst :: _ | Kvolatile :: _ | Krestrict :: _ => false | _ => true end.

  Lemma specifiers_before : forall e l has c v R,
    specifiers e has c v (map write_cv l ++ R) = specifiers e has (existsb (fun b => b) l || c) (existsb negb l || v) R.
  Proof.
    intros e l. induction l as [|[] l IH]; intros; cbn; auto.
    - rewrite IH. f_equal. now rewrite orb_true_r.
    - rewrite IH. f_equal. now rewrite orb_true_r.
  Qed.
  Lemma specifiers_done : forall e t c v R, noqual R = true ->
    specifiers e (Some t) c v R = ((if v then set_volatile (if c then set_const t else t) else if c then set_const t else t), R).
  Proof. intros e t c v [|[] R] H; cbn in *; try discriminate; reflexivity. Qed.
  Lemma existsb_or : forall A (f : A -> bool) a b, existsb f (a ++ b) = existsb f b || existsb f a.
  Proof. intros. rewrite existsb_app. apply orb_comm. Qed.
  Lemma specifiers_ok : forall P0 h e s sp R, envd P0 h e s -> tagsd P0 h -> good_specs tag s sp = true -> noqual R = true ->
    exists T, specifiers e None false false (write_specs sp ++ R) = (T, R) /\ den tag P0 h T (specified s sp) /\
      settled (specified s sp) = true.
  Proof.
    intros P0 h e s [b t a] R He Ht Hg HR. unfold write_specs, specified. cbn [before spec after] in *.
    rewrite <- app_assoc, specifiers_before, !orb_false_r. cbn [app]. unfold good_specs in Hg. cbn [spec before after] in Hg.
    rewrite !existsb_or.
    assert (S : forall T t c v, den tag P0 h T t -> settled t = true -> qualifiable t = true \/ (c = false /\ v = false) ->
      den tag P0 h (if v then set_volatile (if c then set_const T else T) else if c then set_const T else T) (qualify c v t) /\
      settled (qualify c v t) = true).
    { intros T t0 c v A1 A2 A3. split; [now apply qualify_ok|]. destruct A3 as [A3|[-> ->]]; [|now rewrite qualify_none].
      destruct t0; cbn in *; auto; discriminate. }
    destruct t as [k u|k r|x]; cbn [write_tspec specifiers].
    - eexists. split; [rewrite specifiers_before; now apply specifiers_done|].
      apply S; auto. constructor; auto.
    - eexists. split; [rewrite specifiers_before; now apply specifiers_done|].
      apply S; auto. destruct (tag r) as [[k' z]|] eqn:E; [|discriminate].
      destruct (Ht r k' z E) as (A & B & n & C & D & F).
      assert (k = k') as -> by (destruct k, k'; cbn in Hg; congruence). econstructor; eauto.
    - destruct (typedef s x) as [t|] eqn:E; [|discriminate]. apply andb_prop in Hg as [Hs Hg].
      destruct (envd_some _ _ _ _ _ _ He E) as (T & E2 & Hd). rewrite E2.
      eexists. split; [rewrite specifiers_before; now apply specifiers_done|].
      apply S; auto. apply orb_prop in Hg as [Hg|Hg]; auto. right.
      destruct b, a; cbn in Hg; try discriminate. auto.
  Qed.
  Lemma den_settled : forall P h T t, den tag P h T t -> settled t = true -> tk_eqb (kind T) PLACEHOLDER = false.
  Proof.
    intros P h. apply (den_mind tag P h (fun T t => settled t = true -> tk_eqb (kind T) PLACEHOLDER = false) (fun _ _ => True)); cbn; intros; auto.
    - destruct k; auto; discriminate.
    - destruct H3 as [E|E]; rewrite E; auto.
    - unfold type_deref in H1. rewrite H in H1. cbn in H1. destruct (tp T) eqn:E.
      + injection H1 as <-. specialize (H4 H5). unfold type_unqualified in H4. rewrite E in H4. exact H4.
      + unfold is_pointer, type_of in H. rewrite E in H. destruct (kind T); cbn in *; auto; discriminate.
  Qed.
  Lemma settled_plug : forall C t, settled (plug C t) = settled t.
  Proof. induction C as [|[] C IH]; cbn; auto. Qed.

  (* ---- Arrays ---- *)
  Definition aframe (b : brackets) : frame := FArr (all_quals (bquals b)) (bsize b).
  Lemma good_plain : forall b, good_brackets false b = true ->
    static1 b = false /\ static2 b = false /\ bquals b = [] /\ match bsize b with Some z => 0 <= z | None => True end.
  Proof.
    intros [s1 q s2 n] H. unfold good_brackets in H. cbn in *. apply andb_prop in H as [H H3]. apply andb_prop in H as [H _].
    apply andb_prop in H as [H H2]. apply andb_prop in H as [H H1]. destruct s1, s2, q; try discriminate. repeat split; auto.
    destruct n; auto. now apply Z.leb_le.
  Qed.
  Lemma array_length_plain : forall def b R, good_brackets false b = true ->
    exists q, array_length def false (tl (write_brackets b) ++ R) = Ok (q, bsize b, Krb :: R) /\ aframe b = FArr unqualified (bsize b).
  Proof.
    intros def b R H. destruct (good_plain b H) as (A & B & C & D). destruct b as [s1 q s2 n]. cbn in *. subst.
    unfold write_brackets, array_length. cbn. destruct n as [z|]; cbn.
    - rewrite andb_false_r. destruct (Z.ltb_spec z 0); [lia|]. eauto.
    - eauto.
  Qed.

  Lemma arrays_ok : forall bs, bs <> [] -> forall def h base bt P0 rest, bounded P0 h -> den tag P0 h base bt ->
    forallb (good_brackets false) bs = true -> declarable tag (plug (map aframe bs) bt) = true -> starts_bracket rest = false ->
    exists m0 h' T z, (forall m, (m0 <= m)%nat ->
      array_declarator m def h base false (concat (map write_brackets bs) ++ rest) = Ok (h', T, z, rest)) /\
      built P0 h base h' T (map aframe bs).
  Proof.
    induction bs as [|b bs IH]; [congruence|]. intros _ def h base bt P0 rest Hb Hd Hg Hdec Hr.
    cbn [forallb] in Hg. apply andb_prop in Hg as [Hg Hgs].
    destruct (array_length_plain def b (concat (map write_brackets bs) ++ rest) Hg) as (q & El & Ef).
    cbn [map] in *. rewrite Ef in *. cbn [plug declarable] in Hdec. apply andb_prop in Hdec as [Hel Hdec].
    apply andb_prop in Hel as [_ Hel].
    assert (A : exists m0 h1 T1, (forall m R', (m0 <= m)%nat -> R' = concat (map write_brackets bs) ++ rest ->
       (if starts_bracket R' then let* (h, base, _, ts) := array_declarator m def h base false R' in Ok (h, base, ts)
        else Ok (h, base, R')) = Ok (h1, T1, rest)) /\ built P0 h base h1 T1 (map aframe bs)).
    { destruct bs as [|b2 bs].
      - exists 0%nat, h, base. split; [|apply built_refl]. cbn. intros m R' _ ->. now rewrite Hr.
      - destruct (IH ltac:(discriminate) def h base bt P0 rest Hb Hd Hgs Hdec Hr) as (m0 & h1 & T1 & z & E & HB).
        exists m0, h1, T1. split; auto. intros m R' Hm ->.
        assert (G : starts_bracket (concat (map write_brackets (b2 :: bs)) ++ rest) = true) by reflexivity.
        rewrite G, (E m Hm). reflexivity. }
    destruct A as (m0 & h1 & T1 & E1 & HB).
    pose proof (built_den _ _ _ _ _ _ _ Hb HB Hd) as Hd1.
    unfold element in Hel. apply andb_prop in Hel as [Hel Hsz]. apply andb_prop in Hel as [Hu Hf].
    apply negb_true_iff in Hu, Hf.
    pose proof (complete_ok tag _ _ _ _ Hd1 Hu Hf) as Ec.
    destruct (size_of_ok tag Hsizes _ _ _ _ Hd1 Hdec) as (m1 & Es).
    pose proof (size_nonneg tag Hsizes _ Hdec) as Hn.
    assert (A : exists n, (forall m, (m1 <= m)%nat -> array_type m h1 T1 false q (bsize b) = Ok (h1 ++ [n], plain ARRAY false (S (length h1)))) /\
      nkind n = ARRAY /\ nnext n = T1 /\ nsize n = match bsize b with Some z => z | None => 0 end /\
      incomplete n = match bsize b with Some _ => false | None => true end).
    { unfold array_type. destruct (bsize b) as [z|].
      - apply andb_prop in Hsz as [Hz0 Hsz]. apply Z.leb_le in Hz0, Hsz.
        exists (mkN ARRAY false false false z false false [] T1). split; [|auto].
        intros m Hm. unfold create_array. rewrite Es by auto. cbn [bind].
          rewrite (proj2 (Z.ltb_ge _ _)); [reflexivity|]. unfold LONG_MAX, wrap64. rewrite Z.mod_small; [lia|]. nia.
      - exists (mkN ARRAY false false false 0 true false [] T1). split; [intros m _; reflexivity|]. auto. }
    destruct A as (n & En & A1 & A2 & A3 & A4).
    exists (S (Nat.max m0 m1)), (h1 ++ [n]), (plain ARRAY false (S (length h1))), (match bsize b with Some z => z | None => 0 end).
    split.
    { intros [|m] Hm; [lia|]. cbn [array_declarator concat map]. rewrite <- app_assoc.
      change (write_brackets b) with (Klb :: tl (write_brackets b)). cbn [app consume bind]. rewrite El. cbn [bind consume].
      rewrite (E1 m _ ltac:(lia) eq_refl). cbn [bind]. rewrite Ec. cbn [bind negb]. rewrite En by lia. reflexivity. }
    eapply built_array; eauto.
  Qed.

  (* The array that is a parameter *)
  Lemma array_quals_ok : forall l q R, noqual R = true ->
    exists q', array_quals q (map write_qual l ++ R) = (q', R) /\ qs q' = qs q /\
      mkq (qc q') (qv q') (qr q') = fold_left add_qual l (mkq (qc q) (qv q) (qr q)).
  Proof.
    induction l as [|x l IH]; intros q R HR.
    - exists q. cbn. split; auto. destruct R as [|[] R]; cbn in *; auto; discriminate.
    - cbn [map app fold_left].
      destruct x; cbn [write_qual array_quals add_qual];
        [destruct (IH (mkQ true (qv q) (qr q) (qs q)) R HR) as (q' & A & B & C)
        |destruct (IH (mkQ (qc q) true (qr q) (qs q)) R HR) as (q' & A & B & C)
        |destruct (IH (mkQ (qc q) (qv q) true (qs q)) R HR) as (q' & A & B & C)]; exists q'; auto.
  Qed.
  Lemma array_length_param : forall def b R, good_brackets def b = true ->
    exists q, array_length def true (tl (write_brackets b) ++ R) = Ok (q, bsize b, Krb :: R) /\
      mkq (qc q) (qv q) (qr q) = all_quals (bquals b).
  Proof.
    intros [|] b R H.
    2:{ destruct (good_plain b H) as (A & B & C & D). destruct b as [s1 q s2 n]. cbn in *. subst.
        unfold write_brackets, array_length. cbn. destruct n as [z|]; cbn.
        - destruct (Z.ltb_spec z 0); [lia|]. eexists; split; reflexivity.
        - eexists; split; reflexivity. }
    destruct b as [s1 l s2 n]. unfold good_brackets in H. cbn in H. apply andb_prop in H as [H Hn].
    unfold write_brackets. cbn [tl static1 static2 bquals bsize].
    set (tail := match n with Some z => [Knum z] | None => [] end).
    assert (Hq : noqual ((if s2 then [Kstatic] else []) ++ tail ++ Krb :: R) = true).
    { subst tail. destruct s2, n; reflexivity. }
    destruct (array_quals_ok l (mkQ false false false s1) _ Hq) as (q & Eq & Es & Eql). cbn in Es, Eql.
    assert (E : exists q', array_param_qualifiers (((if s1 then [Kstatic] else []) ++ map write_qual l ++ (if s2 then [Kstatic] else []) ++ tail ++ [Krb]) ++ R)
      = (q', tail ++ Krb :: R) /\ qs q' = s1 || s2 /\ mkq (qc q') (qv q') (qr q') = all_quals l).
    { unfold array_param_qualifiers. rewrite <- !app_assoc. cbn [app].
      destruct s1.
      - destruct s2; [discriminate|]. cbn [app]. cbn [app] in Eq. rewrite Eq, Es. cbn [qs]. exists q. repeat split; auto.
      - cbn [app]. assert (E0 : match map write_qual l ++ (if s2 then [Kstatic] else []) ++ tail ++ Krb :: R with
            Kstatic :: r => (true, r) | _ => (false, map write_qual l ++ (if s2 then [Kstatic] else []) ++ tail ++ Krb :: R) end
            = (match l with [] => s2 | _ => false end,
               match l with [] => tail ++ Krb :: R | _ => map write_qual l ++ (if s2 then [Kstatic] else []) ++ tail ++ Krb :: R end)).
        { destruct l as [|[] l]; cbn; auto. destruct s2; cbn; auto. subst tail; destruct n; reflexivity. }
        rewrite E0. destruct l as [|x l].
        + destruct s2; cbn [map app] in *.
          * exists (mkQ false false false true). replace (array_quals (mkQ false false false true) (tail ++ Krb :: R)) with (mkQ false false false true, tail ++ Krb :: R) by (subst tail; destruct n; reflexivity).
            auto.
          * exists q. rewrite Eq, Es. subst tail; destruct n; auto.
        + rewrite Eq, Es. destruct s2; cbn [app].
          * exists (mkQ (qc q) (qv q) (qr q) true). auto.
          * exists q. subst tail; destruct n; auto. }
    destruct E as (q' & E & Es' & Eq').
    exists q'. split; auto. unfold array_length.
    destruct (((if s1 then [Kstatic] else []) ++ map write_qual l ++ (if s2 then [Kstatic] else []) ++ tail ++ [Krb]) ++ R) as [|t0 ts0] eqn:ET.
    - subst tail. destruct s1, l as [|[] l], s2, n; discriminate.
    - assert (G : (if true && true then array_param_qualifiers (t0 :: ts0) else (mkQ false false false false, t0 :: ts0)) = (q', tail ++ Krb :: R)) by exact E.
      assert (F : (let (q, ts) := (q', tail ++ Krb :: R) in
        match ts with
        | Krb :: _ => if qs q then Stop else Ok (q, None, ts)
        | Knum z :: r => if z <? 0 then Stop else Ok (q, Some z, r)
        | _ => Stop
        end) = Ok (q', n, Krb :: R)).
      { subst tail. destruct n as [z|]; cbn.
        - apply Z.leb_le in Hn. destruct (Z.ltb_spec z 0); [lia|]. reflexivity.
        - rewrite Es'. destruct s1, s2; try discriminate. reflexivity. }
      rewrite G. destruct t0; try exact F. 
      (* nothing but a bracket *)
      assert (s1 = false /\ l = [] /\ s2 = false /\ n = None /\ ts0 = R) as (-> & -> & -> & -> & ->).
      { subst tail. destruct s1, l as [|[] l], s2, n; cbn in ET; try discriminate. injection ET as ->. auto. }
      cbn in *. rewrite E in G. 
      assert (q' = mkQ false false false false) as -> by (destruct q' as [a b c d]; cbn in *; congruence). reflexivity.
  Qed.

  Lemma inner_arrays : forall bs def h base bt P0 rest, bounded P0 h -> den tag P0 h base bt ->
    forallb (good_brackets false) bs = true -> declarable tag (plug (map aframe bs) bt) = true -> starts_bracket rest = false ->
    exists m0 h1 T1, (forall m R', (m0 <= m)%nat -> R' = concat (map write_brackets bs) ++ rest ->
       (if starts_bracket R' then let* (h, base, _, ts) := array_declarator m def h base false R' in Ok (h, base, ts)
        else Ok (h, base, R')) = Ok (h1, T1, rest)) /\ built P0 h base h1 T1 (map aframe bs).
  Proof.
    intros [|b2 bs] def h base bt P0 rest Hb Hd Hgs Hdec Hr.
    - exists 0%nat, h, base. split; [|apply built_refl]. cbn. intros m R' _ ->. now rewrite Hr.
    - destruct (arrays_ok (b2 :: bs) ltac:(discriminate) def h base bt P0 rest Hb Hd Hgs Hdec Hr) as (m0 & h1 & T1 & z & E & HB).
      exists m0, h1, T1. split; auto. intros m R' Hm ->.
      assert (G : starts_bracket (concat (map write_brackets (b2 :: bs)) ++ rest) = true) by reflexivity.
      rewrite G, (E m Hm). reflexivity.
  Qed.

  Lemma pointer_den : forall P h B bt T, den tag P h B bt -> is_pointer T = true -> type_deref h T = Ok B ->
    (tp T = false -> pc T = false /\ pv T = false /\ pr T = false) -> (tp T = false -> P (ref T)) ->
    den tag P h T (TPtr (quals_of T) bt).
  Proof. intros. unfold quals_of. econstructor; eauto. Qed.

  Lemma array_param_ok : forall b bs def h base bt P0 rest, bounded P0 h -> den tag P0 h base bt ->
    good_brackets def b = true -> forallb (good_brackets false) bs = true ->
    declarable_parameter tag (plug (aframe b :: map aframe bs) bt) = true -> starts_bracket rest = false ->
    exists m0 h' T z, (forall m, (m0 <= m)%nat ->
      array_declarator m def h base true (concat (map write_brackets (b :: bs)) ++ rest) = Ok (h', T, z, rest)) /\
      grows h h' /\ den tag (or_new P0 h h') h' T (TPtr (all_quals (bquals b)) (plug (map aframe bs) bt)).
  Proof.
    intros b bs def h base bt P0 rest Hb Hd Hg Hgs Hdec Hr. cbn [plug aframe declarable_parameter] in Hdec. unfold aframe in Hdec at 1. cbn [plug declarable_parameter] in Hdec.
    apply andb_prop in Hdec as [Hel Hdec]. apply andb_prop in Hel as [Hel Hres]. apply negb_true_iff in Hres.
    destruct (inner_arrays bs def h base bt P0 rest Hb Hd Hgs Hdec Hr) as (m0 & h1 & T1 & E1 & HB).
    destruct (array_length_param def b (concat (map write_brackets bs) ++ rest) Hg) as (q & El & Eq).
    pose proof (built_den _ _ _ _ _ _ _ Hb HB Hd) as Hd1.
    unfold element in Hel. apply andb_prop in Hel as [Hel _]. apply andb_prop in Hel as [Hu Hf]. apply negb_true_iff in Hu, Hf.
    pose proof (complete_ok tag _ _ _ _ Hd1 Hu Hf) as Ec.
    destruct (create_pointer_ok tag _ _ _ _ Hd1 Hres) as (h2 & T2 & E2 & A1 & A2 & A3 & A4 & A5 & A6 & A7).
    set (T0 := mkT VOID false false false false true (qc q) (qv q) (qr q) 0).
    destruct (apply_qualifiers_ok h2 T2 T1 T0 A1 A2 A3 A4) as (T3 & E3 & B1 & B2 & B3 & B4 & B5 & B6).
    destruct HB as (Hg1 & HB).
    assert (Hg2 : grows h h2) by (eapply grows_trans; [exact Hg1|]; split; auto).
    exists (S m0), h2, T3, (match bsize b with Some z => z | None => 0 end). split; [|split; auto].
    - intros [|m] Hm; [lia|]. cbn [array_declarator concat map]. rewrite <- app_assoc.
      change (write_brackets b) with (Klb :: tl (write_brackets b)). cbn [app consume bind]. rewrite El. cbn [bind consume].
      rewrite (E1 m _ ltac:(lia) eq_refl). cbn [bind]. rewrite Ec. cbn [bind negb]. unfold array_type. rewrite E2.
      unfold apply_qualifiers in E3. cbn [is_const is_volatile is_restrict tp pc pv pr T0] in E3.
      destruct (qr q); [rewrite E3|injection E3 as <-]; reflexivity.
    - replace (all_quals (bquals b)) with (quals_of T3).
      + apply pointer_den with (B := T1); auto.
        * eapply den_frame; [| |exact Hd1].
          -- intros r n A Hn. rewrite A7; auto. apply node_at_dom in Hn. lia.
          -- unfold or_new. intros r [A|A]; auto. right; lia.
        * intros A. rewrite B5. rewrite B4 in A. specialize (A5 A). right. destruct Hg1. lia.
      + rewrite B3. unfold quals_of, T0. cbn. exact Eq.
  Qed.
End Parse.
