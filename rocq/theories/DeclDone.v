(* Declarators: lists of parameters, and the whole. *)
From Coq Require Import List Bool Arith ZArith Lia.
From Verif Require Import Util DeclModel DeclSpec DeclProofs DeclPath DeclParse DeclMain.
Import ListNotations.
Open Scope Z_scope.

Section Done.
  Variable tag : tags.
  Hypothesis Hsizes : sizes_ok tag.
  Variable def : bool.

  Definition claim_plain (d : decl) : Prop :=
    forall e s h base bt P0 named rest, bounded P0 h -> envd tag P0 h e s -> tagsd tag P0 h -> den tag P0 h base bt ->
    good tag def false s d = true -> declarable tag (meaning s d bt) = true -> named = true \/ declares d = None ->
    ends_here rest = true ->
    exists m0 h' T z, (forall m, (m0 <= m)%nat ->
      parameter_declarator m def e h base named false (write d ++ rest) = Ok (h', T, declares d, z, rest)) /\
      built tag P0 h base h' T (frames s d).
  Definition claim_param (d : decl) : Prop :=
    forall e s h base bt P0 rest, bounded P0 h -> envd tag P0 h e s -> tagsd tag P0 h -> den tag P0 h base bt ->
    good tag def def s d = true -> declarable_parameter tag (meaning s d bt) = true -> ends_here rest = true ->
    exists m0 h' T z t', (forall m, (m0 <= m)%nat ->
      parameter_declarator m def e h base true true (write d ++ rest) = Ok (h', T, declares d, z, rest)) /\
      grows h h' /\ den tag (or_new P0 h h') h' T t' /\
      (t' = meaning s d bt \/ (is_arr (meaning s d bt) = true /\ t' = adjusted (meaning s d bt))).

  (* ---- Parameters ---- *)
  Definition spec_tok (s : senv) (t : tok) : bool :=
    match t with
    | Kconst | Kvolatile | Kbase _ _ | Ktag _ _ => true
    | Kid x => match typedef s x with Some _ => true | None => false end
    | _ => false
    end.
  Lemma first_spec : forall s sp R, good_specs tag s sp = true ->
    exists t R', write_specs sp ++ R = t :: R' /\ spec_tok s t = true.
  Proof.
    intros s [b t a] R H. unfold write_specs. cbn [before spec after]. destruct b as [|[] b]; cbn; eauto.
    destruct t as [k u|k r|x]; cbn; eauto. cbn in H. exists (Kid x), (map write_cv a ++ R). split; auto. cbn. destruct (typedef s x); auto.
  Qed.

  Lemma adjust_ok : forall (P : nat -> Prop) h T t' mt, den tag P h T t' -> (t' = mt \/ (is_arr mt = true /\ t' = adjusted mt)) ->
    (forall k, P k -> (k <= length h)%nat) -> declarable_parameter tag mt = true ->
    exists h2 T2, (if is_array T then let* next := type_next h T in Ok (create_pointer h next)
                   else if is_function T then Ok (create_pointer h T) else Ok (h, T)) = Ok (h2, T2) /\
      grows h h2 /\ den tag (or_new P h h2) h2 T2 (adjusted mt).
  Proof.
    intros P h T t' mt Hd Ht HP Hdec. destruct (den_kind tag _ _ _ _ Hd) as (_ & Ka & Kf). rewrite Ka, Kf.
    assert (Hsame : forall x, adjusted mt = x -> den tag P h T x ->
      exists h2 T2, Ok (h, T) = Ok (h2, T2) /\ grows h h2 /\ den tag (or_new P h h2) h2 T2 (adjusted mt)).
    { intros x Hx Hdx. exists h, T. split; auto. split; [apply grows_refl|]. rewrite Hx. eapply den_frame; [apply agrees_refl| |exact Hdx].
      unfold or_new; auto. }
    assert (Hnew : forall B x, adjusted mt = TPtr unqualified x -> den tag P h B x -> restricted x = false ->
      exists h2 T2, Ok (create_pointer h B) = Ok (h2, T2) /\ grows h h2 /\ den tag (or_new P h h2) h2 T2 (adjusted mt)).
    { intros B x Hx Hdx Hr. destruct (create_pointer_ok tag _ _ _ _ Hdx Hr) as (h2 & T2 & E2 & A1 & A2 & A3 & A4 & A5 & A6 & A7).
      exists h2, T2. rewrite E2. split; auto. split; [split; auto|]. rewrite Hx, <- A3. eapply pointer_den; eauto.
      - eapply den_frame; [| |exact Hdx]; [|unfold or_new; auto]. intros r n Hr' Hn. rewrite A7; auto.
      - intros A. right. now apply A5. }
    destruct Ht as [-> | [Ha ->]].
    - destruct mt; cbn [is_arr is_fun]; try (apply (Hsame _ eq_refl Hd)).
      + inversion Hd as [| | |r0 n0 l0 t0 N1 N2 N3 N4 N5 N6| |]; subst. unfold type_next. cbn. unfold handle. rewrite N1. cbn.
        apply (Hnew (nnext n0) mt); auto. cbn in Hdec. apply andb_prop in Hdec as [Hdec _]. apply andb_prop in Hdec as [_ Hdec].
        now apply negb_true_iff.
      + apply (Hnew T (TFun ps k mt)); auto.
    - destruct mt; try discriminate. cbn [adjusted is_arr is_fun]. apply (Hsame _ eq_refl Hd).
  Qed.

  Definition fstate (P0 : nat -> Prop) (r : nat) (base : typ) (h : heap) (ms : list member) (qs : list (name * ty)) (inc va : bool) : Prop :=
    exists n, node_at h r = Some n /\ nkind n = FUNCTION /\ nnext n = base /\ members n = ms /\ incomplete n = inc /\ vararg n = va /\
      dens tag (fun k => P0 k \/ (r < k <= length h)%nat) h ms qs.

  Lemma fresh_ok : forall x seen ms, fresh x seen = true -> (forall m, In m ms -> In (mname m) seen) ->
    existsb (fun m' => same_name x (mname m')) ms = false.
  Proof.
    intros x seen ms H Hs. destruct (existsb _ ms) eqn:E; auto. apply existsb_exists in E as (m & Hm & E).
    destruct x as [y|]; [|discriminate]. unfold same_name in E. destruct (mname m) as [z|] eqn:E2; [|discriminate].
    cbn in H. apply negb_true_iff in H. rewrite <- H. apply Hs in Hm. rewrite E2 in Hm. symmetry. apply existsb_exists.
    exists (Some z). auto.
  Qed.

  Lemma add_member_ok : forall P0 r base h ms qs inc x T z t seen, fstate P0 r base h ms qs inc false ->
    (forall k, P0 k -> (k < r)%nat) -> fresh x seen = true -> (forall m, In m ms -> In (mname m) seen) ->
    den tag (fun k => P0 k \/ (r < k <= length h)%nat) h T t ->
    exists h', add_member h (plain FUNCTION false r) (mkM x T z) = Ok h' /\ length h' = length h /\
      (forall k, k <> r -> node_at h' k = node_at h k) /\
      fstate P0 r base h' (ms ++ [mkM x T z]) (qs ++ [(x, t)]) (tk_eqb (kind T) PLACEHOLDER) false.
  Proof.
    intros P0 r base h ms qs inc x T z t seen (n & Hn & A1 & A2 & A3 & A4 & A5 & A6) HP Hf Hs Hd.
    unfold add_member, handle. cbn [ref plain]. rewrite Hn. cbn [bind mname]. rewrite A3, (fresh_ok _ _ _ Hf Hs).
    eexists. split; [reflexivity|]. split; [apply put_length|]. split; [intros; now apply put_other|].
    eexists. split; [eapply put_same; eauto|]. cbn. repeat split; auto.
    rewrite put_length. apply dens_app.
    - eapply dens_frame; [| |exact A6]; auto. intros k m [A|A] Hm; rewrite put_other; auto; [apply HP in A|]; lia.
    - constructor; [reflexivity| |constructor]. cbn. eapply den_frame; [| |exact Hd]; auto.
      intros k m [A|A] Hm; rewrite put_other; auto; [apply HP in A|]; lia.
  Qed.
  Lemma fstate_grows : forall (P0 : nat -> Prop) r base h h' ms qs inc va, (forall k, P0 k -> (k < r)%nat) -> (r <= length h)%nat -> grows h h' ->
    fstate P0 r base h ms qs inc va -> fstate P0 r base h' ms qs inc va.
  Proof.
    intros P0 r base h h' ms qs inc va HP Hr [Hg1 Hg2] (n & Hn & A1 & A2 & A3 & A4 & A5 & A6).
    exists n. rewrite Hg2 by auto. repeat split; auto. eapply dens_frame; [| |exact A6].
    - intros k m [A|A] Hm; rewrite Hg2; auto; [apply HP in A|]; lia.
    - cbn. intros k [A|A]; auto. right; lia.
  Qed.

  Definition param_tail (ps : list (specs * decl)) (va : bool) (rest : list tok) : list tok :=
    match ps with [] => [] | _ => Kcomma :: commas (map wparam ps) end ++ (if va then [Kcomma; Kdots] else []) ++ Krp :: rest.
  Lemma param_split : forall sp p ps (va : bool) rest,
    commas (map wparam ((sp, p) :: ps)) ++ (if va then [Kcomma; Kdots] else []) ++ Krp :: rest = (write_specs sp ++ (write p ++ param_tail ps va rest)).
  Proof.
    intros sp p [|p2 ps] va rest; unfold param_tail.
    - cbn [map commas app]. unfold wparam. cbn [fst snd]. now rewrite <- app_assoc.
    - change (commas (map wparam ((sp, p) :: p2 :: ps))) with (wparam (sp, p) ++ Kcomma :: commas (map wparam (p2 :: ps))).
      unfold wparam at 1. cbn [fst snd]. now rewrite <- !app_assoc.
  Qed.
  Lemma param_tail_ends : forall ps va rest, ends_here (param_tail ps va rest) = true.
  Proof. intros [|] [|] rest; reflexivity. Qed.

  Lemma parameters_unfold : forall f e h fn t ts s, spec_tok s t = true ->
    parameters (S f) def e h fn (t :: ts) =
    (let (base, ts) := specifiers e None false false (t :: ts) in
     let* (h, t, x, n, ts) := parameter_declarator f def e h base true true ts in
     if is_void t then
       let* fnode := handle h (ref fn) in
       if negb (Nat.eqb (length (members fnode)) 0) then Stop
       else let* h := type_seal h fn in Ok (h, ts)
     else
       let* (h, t) :=
         (if is_array t then let* next := type_next h t in Ok (create_pointer h next)
          else if is_function t then Ok (create_pointer h t)
          else Ok (h, t)) in
       let* h := add_member h fn (mkM x t n) in
       match ts with
       | Kcomma :: Kdots :: r => let* h := add_dots h fn in Ok (h, r)
       | Kcomma :: r => parameters f def (declared e x) h fn r
       | _ => Ok (h, ts)
       end).
  Proof. intros f e h fn t ts s H. destruct t; try discriminate; reflexivity. Qed.

  Lemma parameters_ok : forall ps, ps <> [] -> (forall sp p, In (sp, p) ps -> claim_param p) ->
    forall e s h seen ms qs inc rest (va : bool) (P0 : nat -> Prop) r base, envd tag P0 h e s -> tagsd tag P0 h -> (forall k, P0 k -> (k < r)%nat) ->
    (r <= length h)%nat -> fstate P0 r base h ms qs inc false -> (forall m, In m ms -> In (mname m) seen) ->
    goodps tag def s seen ps = true ->
    exists m0 h' ms', (forall m, (m0 <= m)%nat ->
      parameters m def e h (plain FUNCTION false r) (commas (map wparam ps) ++ (if va then [Kcomma; Kdots] else []) ++ Krp :: rest)
        = Ok (h', Krp :: rest)) /\
      (length h <= length h')%nat /\ (forall k, (k <= length h)%nat -> k <> r -> node_at h' k = node_at h k) /\
      fstate P0 r base h' ms' (qs ++ pmeaning s ps) false va.
  Proof.
    induction ps as [|[sp p] ps IH]; [congruence|]. intros _ Hcl e s h seen ms qs inc rest va P0 r base He Ht HP Hr Hf Hseen Hg.
    cbn [goodps] in Hg. apply andb_prop in Hg as [Hg Hgs]. apply andb_prop in Hg as [Hg Hfr]. apply andb_prop in Hg as [Hg Hnv].
    apply andb_prop in Hg as [Hg Hdec]. apply andb_prop in Hg as [Hgs0 Hgd]. apply negb_true_iff in Hnv.
    set (mt := meaning s p (specified s sp)) in *.
    assert (Hends : ends_here (param_tail ps va rest) = true) by apply param_tail_ends.
    destruct (specifiers_ok tag P0 h e s sp (write p ++ param_tail ps va rest) He Ht Hgs0) as (B & Esp & HB & Hset).
    { apply write_noqual. now apply ends_noqual. }
    assert (Hb0 : bounded P0 h) by (intros k Hk; apply HP in Hk; lia).
    destruct (Hcl sp p (or_introl eq_refl) e s h B (specified s sp) P0 (param_tail ps va rest) Hb0 He Ht HB Hgd Hdec Hends)
      as (m0 & h1 & T & z & t' & Ep & Hg1 & Hd1 & Ht').
    fold mt in Ht'.
    destruct (adjust_ok _ _ _ _ mt Hd1 Ht') as (h2 & T2 & Ea & Hg2 & Hd2); auto.
    { intros k [A|A]; [apply Hb0 in A; destruct Hg1|]; lia. }
    assert (Hg12 : grows h h2) by (eapply grows_trans; eauto).
    assert (Hf2 : fstate P0 r base h2 ms qs inc false) by (eapply fstate_grows; eauto).
    destruct (add_member_ok P0 r base h2 ms qs inc (declares p) T2 z (adjusted mt) seen Hf2 HP Hfr Hseen) as (h3 & Em & El3 & Hk3 & Hf3).
    { eapply den_frame; [apply agrees_refl| |exact Hd2]. intros k [[A|A]|A]; auto; right; destruct Hg1, Hg2; lia. }
    assert (Hset2 : settled (adjusted mt) = true).
    { subst mt. rewrite meaning_plug in *. rewrite <- (settled_plug (frames s p)) in Hset.
      destruct (plug (frames s p) (specified s sp)); auto. }
    rewrite (den_settled tag _ _ _ _ Hd2 Hset2) in Hf3.
    assert (Hv : is_void T = false).
    { destruct (den_kind tag _ _ _ _ Hd1) as (Kv & _). rewrite Kv. destruct Ht' as [-> | [A ->]]; auto. destruct mt; try discriminate; auto. }
    assert (Hsame3 : forall k, (k <= length h)%nat -> k <> r -> node_at h3 k = node_at h k).
    { intros k Hk Hkr. rewrite Hk3 by auto. destruct Hg12 as [_ A]. auto. }
    assert (Hl3 : (length h <= length h3)%nat) by (rewrite El3; destruct Hg12; lia).
    destruct (first_spec s sp (write p ++ param_tail ps va rest) Hgs0) as (t0 & R0 & E0 & Hs0).
    assert (Step : forall f, (m0 <= f)%nat ->
      parameters (S f) def e h (plain FUNCTION false r) (commas (map wparam ((sp, p) :: ps)) ++ (if va then [Kcomma; Kdots] else []) ++ Krp :: rest)
      = match param_tail ps va rest with
        | Kcomma :: Kdots :: r0 => let* h := add_dots h3 (plain FUNCTION false r) in Ok (h, r0)
        | Kcomma :: r0 => parameters f def (declared e (declares p)) h3 (plain FUNCTION false r) r0
        | _ => Ok (h3, param_tail ps va rest)
        end).
    { intros f Hm. rewrite param_split, E0, (parameters_unfold f e h _ t0 R0 s Hs0), <- E0, Esp, (Ep f Hm). cbn [bind].
      rewrite Hv, Ea. cbn [bind]. rewrite Em. cbn [bind]. reflexivity. }
    destruct ps as [|[sp2 p2] ps].
    - destruct va; unfold param_tail in Step; cbn [app] in Step.
      + destruct Hf3 as (n & Hn & A1 & A2 & A3 & A4 & A5 & A6).
        assert (Ed : add_dots h3 (plain FUNCTION false r) = Ok (put h3 r (mkN (nkind n) (nconst n) (nvolatile n) (nrestrict n) (nsize n) false true (members n) (nnext n)))).
        { unfold add_dots, handle. cbn [ref plain]. rewrite Hn. cbn [bind]. now rewrite A5, A4. }
        eexists (S m0), _, (ms ++ [mkM (declares p) T2 z]). split.
        { intros [|m] Hm; [lia|]. rewrite Step by lia. rewrite Ed. reflexivity. }
        split; [rewrite put_length; auto|]. split; [intros k Hk Hkr; rewrite put_other; auto|].
        eexists. split; [eapply put_same; eauto|]. cbn. repeat split; auto. rewrite put_length.
        eapply dens_frame; [| |exact A6]; auto. intros k m0' [A|A] Hm; rewrite put_other; auto; [apply HP in A|]; lia.
      + exists (S m0), h3, (ms ++ [mkM (declares p) T2 z]). split.
        { intros [|m] Hm; [lia|]. now rewrite Step by lia. }
        split; auto.
    - set (ps' := (sp2, p2) :: ps) in *.
      destruct (IH ltac:(discriminate) (fun a b Hab => Hcl a b (or_intror Hab)) (declared e (declares p)) (hide s (declares p)) h3
        (declares p :: seen) (ms ++ [mkM (declares p) T2 z]) (qs ++ [(declares p, adjusted mt)]) false rest va P0 r base)
        as (m1 & h' & ms' & E1 & B1 & B2 & B3); auto.
      + assert (A : envd tag P0 h3 e s).
        { eapply envd_frame; [| |exact He]; auto. intros k n Hk Hn. pose proof (HP k Hk). rewrite Hsame3; auto; lia. }
        destruct (declares p); cbn; auto.
      + eapply tagsd_frame; [| |exact Ht]; auto. intros k n Hk Hn. pose proof (HP k Hk). rewrite Hsame3; auto; lia.
      + lia.
      + intros m Hm. apply in_app_or in Hm as [Hm|[<-|[]]]; [right; auto|left; auto].
      + exists (S (Nat.max m0 m1)), h', ms'. split.
        { intros [|m] Hm; [lia|]. rewrite Step by lia. unfold param_tail. cbn [app].
          pose proof Hgs as Hgs2. cbn [goodps ps'] in Hgs2. 
          destruct (first_spec (hide s (declares p)) sp2 (write p2 ++ param_tail ps va rest)) as (t1 & R1 & E2 & Hs1).
          { unfold ps' in Hgs2. cbn [goodps] in Hgs2. repeat (apply andb_prop in Hgs2 as [Hgs2 _]). exact Hgs2. }
          specialize (E1 m ltac:(lia)). subst ps'. rewrite <- app_assoc in *. cbn [app] in *.
          rewrite (param_split sp2 p2 ps va rest), E2 in *. destruct t1; try discriminate; exact E1. }
        split; [lia|]. split; [intros k Hk Hkr; rewrite B2 by lia; auto|].
        cbn [pmeaning]. fold mt. rewrite <- app_assoc in B3. exact B3.
  Qed.

  Lemma identifiers_ok : forall xs, xs <> [] -> forall e s h seen ms qs inc rest (P0 : nat -> Prop) r base, envd tag P0 h e s ->
    (forall k, P0 k -> (k < r)%nat) -> (r <= length h)%nat -> fstate P0 r base h ms qs inc false ->
    (forall m, In m ms -> In (mname m) seen) -> (forall x, In x xs -> fresh (Some x) seen = true) ->
    forallb (fun x => match typedef s x with None => true | Some _ => false end) xs = true -> distinct xs = true ->
    exists h' ms', identifiers e h (plain FUNCTION false r) (commas (map (fun x => [Kid x]) xs) ++ Krp :: rest) = Ok (h', Krp :: rest) /\
      length h' = length h /\ (forall k, k <> r -> node_at h' k = node_at h k) /\
      fstate P0 r base h' ms' (qs ++ map (fun x => (Some x, TPending)) xs) true false.
  Proof.
    induction xs as [|x xs IH]; [congruence|]. intros _ e s h seen ms qs inc rest P0 r base He HP Hr Hf Hs Hfr Ht Hdi.
    cbn [forallb] in Ht. apply andb_prop in Ht as [Ht Hts]. cbn [distinct] in Hdi. apply andb_prop in Hdi as [Hx Hdi].
    destruct (typedef s x) eqn:Etx; [discriminate|].
    destruct (add_member_ok P0 r base h ms qs inc (Some x) (plain PLACEHOLDER false 0) 0 TPending seen Hf HP (Hfr x (or_introl eq_refl)) Hs)
      as (h1 & Em & El & Hk & Hf1).
    { constructor. }
    cbn [tk_eqb plain kind] in Hf1.
    assert (He1 : envd tag P0 h1 e s).
    { eapply envd_frame; [| |exact He]; auto. intros k n Hk' Hn. rewrite Hk; auto. apply HP in Hk'. lia. }
    destruct xs as [|y xs].
    - exists h1, (ms ++ [mkM (Some x) (plain PLACEHOLDER false 0) 0]). split; auto.
      cbn [map commas app identifiers]. rewrite (envd_none _ _ _ _ _ _ He Etx), Em. reflexivity.
    - destruct (IH ltac:(discriminate) e s h1 (Some x :: seen) (ms ++ [mkM (Some x) (plain PLACEHOLDER false 0) 0]) (qs ++ [(Some x, TPending)]) true rest P0 r base)
        as (h' & ms' & E & A1 & A2 & A3); auto.
      + lia.
      + intros m Hm. apply in_app_or in Hm as [Hm|[<-|[]]]; [right; auto|left; auto].
      + intros z Hz. specialize (Hfr z (or_intror Hz)). cbn in *. apply negb_true_iff in Hx. apply negb_true_iff.
        apply negb_true_iff in Hfr. rewrite Hfr, orb_false_r.
        destruct (Nat.eqb_spec z x); auto. subst z. exfalso.
        destruct Hz as [->|Hz]; [rewrite Nat.eqb_refl in Hx; discriminate|].
        apply orb_false_elim in Hx as [_ Hx]. assert (existsb (Nat.eqb x) xs = true); [|congruence].
        apply existsb_exists. exists x. split; auto. apply Nat.eqb_refl.
      + exists h', ms'. split.
        { change (commas (map (fun x => [Kid x]) (x :: y :: xs))) with (Kid x :: Kcomma :: commas (map (fun x => [Kid x]) (y :: xs))).
          cbn [app identifiers]. rewrite (envd_none _ _ _ _ _ _ He Etx), Em. exact E. }
        split; [lia|]. split; [intros k Hkr; rewrite A2; auto|]. rewrite <- app_assoc in A3. exact A3.
  Qed.

  Lemma function_built : forall (P0 : nat -> Prop) h base h' ms qs k,
    bounded P0 h -> (S (length h) <= length h')%nat ->
    (forall i, (i <= S (length h))%nat -> i <> S (length h) -> node_at h' i = node_at (h ++ [mkN FUNCTION false false false 0 true false [] base]) i) ->
    fstate P0 (S (length h)) base h' ms qs (match k with Unknown => true | Proto _ => false end) (match k with Proto true => true | _ => false end) ->
    built tag P0 h base h' (plain FUNCTION false (S (length h))) [FFun qs k].
  Proof.
    intros P0 h base h' ms qs k Hb Hl Hk (n & Hn & A1 & A2 & A3 & A4 & A5 & A6). split.
    - split; [lia|]. intros i Hi. rewrite Hk by lia. now apply node_at_app.
    - exists [S (length h)]. split; [|split].
      + eapply p_fun; eauto.
        * rewrite A3. eapply dens_frame; [apply agrees_refl| |exact A6]. unfold Pof. cbn.
          intros i [A|A]; (split; [|intros [B|[]]; subst i]); auto; try lia; [apply Hb in A; lia].
        * rewrite A2. constructor.
      + constructor; [intros []|constructor].
      + intros i [<-|[]]. lia.
  Qed.

  (* The second half of direct_declarator *)
  Definition suffix_of (f : nat) (e : env) (h : heap) (base : typ) (len : bool) (ts : list tok) : outcome (heap * typ * Z * list tok) :=
    match ts with
    | Klb :: _ => array_declarator f def h base len ts
    | Klp :: r =>
        let (h, fn) := create_function h base in
        if old_style e r then
          let* (h, ts) := identifiers e h fn r in
          let* ts := consume Krp ts in
          Ok (h, fn, 0, ts)
        else
          let* (h, ts) := parameters f def e h fn r in
          let* ts := consume Krp ts in
          Ok (h, fn, 0, ts)
    | _ => Ok (h, base, 0, ts)
    end.
  Lemma direct_unfold : forall f e h base named len ts,
    direct_declarator (S f) def e h base named len ts =
    (let* (h, head, x, ts) :=
       match ts with
       | Kid x :: r => if named then Ok (h, void_type, Some x, r) else Stop
       | _ =>
           if nested e ts then
             let* (h, head, x, _, ts) := parameter_declarator f def e h void_type named false (tl ts) in
             let* ts := consume Krp ts in
             Ok (h, head, x, ts)
           else Ok (h, void_type, None, ts)
       end in
     let len := len && is_void head in
     let* (h, t, n, ts) := suffix_of f e h base len ts in
     if is_void head then Ok (h, t, x, n, ts)
     else let* (h, t) := patch f h head t in Ok (h, t, x, n, ts)).
  Proof. reflexivity. Qed.

  Definition psize (x : suf) : list (specs * decl) := match x with XFun ps _ => ps | _ => [] end.
  Lemma function_suffix : forall x, fun_suf x = true -> (forall sp p, In (sp, p) (psize x) -> claim_param p) ->
    forall e s h base bt P0 q an rest len, bounded P0 h -> envd tag P0 h e s -> tagsd tag P0 h -> den tag P0 h base bt ->
    goodx tag def q an s x = true ->
    exists m0 h' T z, (forall f, (m0 <= f)%nat -> suffix_of f e h base len (wsuf x ++ rest) = Ok (h', T, z, rest)) /\
      built tag P0 h base h' T [sframe s x].
  Proof.
    intros x Hx Hcl e s h base bt P0 q an rest len Hb He Ht Hd Hg.
    set (r := S (length h)). set (n0 := mkN FUNCTION false false false 0 true false [] base).
    assert (HP : forall k, P0 k -> (k < r)%nat) by (intros k Hk; apply Hb in Hk; unfold r; lia).
    assert (Hf : fstate P0 r base (h ++ [n0]) [] [] true false).
    { exists n0. split; [apply node_at_new|]. repeat split; auto. constructor. }
    assert (Hr : (r <= length (h ++ [n0]))%nat) by (rewrite app_length; cbn; unfold r; lia).
    assert (Ha : agrees P0 h (h ++ [n0])) by (apply grows_agrees; [apply grows_app|auto]).
    assert (He0 : envd tag P0 (h ++ [n0]) e s) by (eapply envd_frame; eauto).
    assert (Ht0 : tagsd tag P0 (h ++ [n0])) by (eapply tagsd_frame; eauto).
    assert (Hlen : length (h ++ [n0]) = r) by (rewrite app_length; cbn; unfold r; lia).
    destruct x as [b|ps va| |xs]; [discriminate| | |]; cbn [wsuf sframe goodx] in *.
    - apply andb_prop in Hg as [Hne Hg]. assert (Hps : ps <> []) by (destruct ps; congruence).
      destruct (parameters_ok ps Hps Hcl e s (h ++ [n0]) [] [] [] true rest va P0 r base He0 Ht0 HP Hr Hf) as (m0 & h' & ms' & E & A1 & A2 & A3); auto.
      exists m0, h', (plain FUNCTION false r), 0. split.
      + intros f Hm. cbn [app]. rewrite <- !app_assoc. cbn [suffix_of]. unfold create_function, type_create. fold n0. fold r.
        replace (old_style e (commas (map wparam ps) ++ (if va then [Kcomma; Kdots] else []) ++ [Krp] ++ rest)) with false.
        * cbn [app]. rewrite (E f Hm). reflexivity.
        * destruct ps as [|[sp p] ps]; [congruence|]. cbn [goodps] in Hg.
          assert (Hsp : good_specs tag s sp = true) by (repeat (apply andb_prop in Hg as [Hg _]); exact Hg).
          destruct (first_spec s sp (write p ++ param_tail ps va rest) Hsp) as (t & R & E2 & Hs).
          cbn [app]. rewrite param_split, E2. destruct t; auto. cbn. cbn in Hs.
          destruct (typedef s x) eqn:E3; [|discriminate]. destruct (envd_some _ _ _ _ _ _ _ He E3) as (T & -> & _). reflexivity.
      + eapply (function_built P0 h base h' ms' (pmeaning s ps) (Proto va)); auto.
        * fold r. lia.
        * intros i Hi Hir. apply A2; auto. fold r in Hi. lia.
        * fold r. destruct va; exact A3.
    - set (h' := put (h ++ [n0]) r (mkN FUNCTION false false false 0 false false [] base)).
      exists 4%nat, h', (plain FUNCTION false r), 0. split.
      + intros f Hm. destruct f as [|[|[|[|f]]]]; try lia. cbn [app suffix_of]. unfold create_function, type_create. fold n0. fold r.
        cbn - [handle put node_at type_seal]. unfold handle, type_seal, handle. cbn [ref plain].
        unfold r at 1 2. rewrite node_at_new. cbn - [put node_at]. fold r. reflexivity.
      + eapply (function_built P0 h base h' [] [] (Proto false)); auto.
        * unfold h'. rewrite put_length, Hlen. auto.
        * intros i Hi Hir. unfold h'. rewrite put_other; auto.
        * eexists. split; [unfold h'; eapply put_same; unfold r; apply node_at_new|]. cbn. repeat split; auto. constructor.
    - apply andb_prop in Hg as [Hg Hdi]. apply andb_prop in Hg as [_ Hty]. destruct xs as [|x xs].
      + exists 1%nat, (h ++ [n0]), (plain FUNCTION false r), 0. split.
        * intros f Hm. destruct f as [|f]; try lia. reflexivity.
        * eapply (function_built P0 h base _ [] [] Unknown); auto.
      + destruct (identifiers_ok (x :: xs) ltac:(discriminate) e s (h ++ [n0]) [] [] [] true rest P0 r base He0 HP Hr Hf) as (h' & ms' & E & A1 & A2 & A3); auto.
        exists 0%nat, h', (plain FUNCTION false r), 0. split.
        * intros f _. cbn [app]. rewrite <- app_assoc. cbn [suffix_of]. unfold create_function, type_create. fold n0. fold r.
          replace (old_style e (commas (map (fun x0 => [Kid x0]) (x :: xs)) ++ [Krp] ++ rest)) with true.
          -- cbn [app]. cbn [app] in E. rewrite E. reflexivity.
          -- cbn [forallb] in Hty. apply andb_prop in Hty as [Hty _]. destruct (typedef s x) eqn:E3; [discriminate|].
             destruct xs; cbn; now rewrite (envd_none _ _ _ _ _ _ He E3).
        * eapply (function_built P0 h base h' ms' _ Unknown); auto; fold r; try lia.
  Qed.

  Lemma concat_arr : forall bs, concat (map wsuf (map XArr bs)) = concat (map write_brackets bs).
  Proof. intros. rewrite map_map. reflexivity. Qed.
  Lemma goods_arr : forall bs q an s, goods tag def q an s (map XArr bs) = true ->
    match bs with [] => True | b :: bs => good_brackets q b = true /\ forallb (good_brackets false) bs = true end.
  Proof.
    assert (S : forall bs an s, goods tag def false an s (map XArr bs) = true -> forallb (good_brackets false) bs = true).
    { induction bs; cbn; intros; auto. apply andb_prop in H as [H1 H2]. rewrite H1. cbn. eapply IHbs; eauto. }
    intros [|b bs] q an s H; auto. cbn in H. apply andb_prop in H as [H1 H2]. split; auto. eapply S; eauto.
  Qed.
  Lemma ends_suffix : forall f e h base len rest, ends_here rest = true -> suffix_of f e h base len rest = Ok (h, base, 0, rest).
  Proof. intros f e h base len [|[] rest] H; cbn in *; try discriminate; reflexivity. Qed.
  Lemma ends_bracket : forall rest, ends_here rest = true -> starts_bracket rest = false.
  Proof. intros [|[] rest] H; cbn in *; try discriminate; reflexivity. Qed.
  Lemma map_sframe_arr : forall s bs, map (sframe s) (map XArr bs) = map aframe bs.
  Proof. intros. now rewrite map_map. Qed.

  Lemma suffix_plain : forall l, (forall x sp p, In x l -> In (sp, p) (psize x) -> claim_param p) ->
    forall e s h base bt P0 an rest, bounded P0 h -> envd tag P0 h e s -> tagsd tag P0 h -> den tag P0 h base bt ->
    goods tag def false an s l = true -> declarable tag (plug (map (sframe s) l) bt) = true -> ends_here rest = true ->
    exists m0 h' T z, (forall f, (m0 <= f)%nat -> suffix_of f e h base false (concat (map wsuf l) ++ rest) = Ok (h', T, z, rest)) /\
      built tag P0 h base h' T (map (sframe s) l).
  Proof.
    intros l Hcl e s h base bt P0 an rest Hb He Ht Hd Hg Hdec Hr.
    destruct (shape tag l s bt Hdec) as [-> | [(bs & Hbs & ->) | (x & Hx & ->)]].
    - exists 0%nat, h, base, 0. split; [|apply built_refl]. intros f _. cbn [map concat app]. now apply ends_suffix.
    - rewrite concat_arr, map_sframe_arr in *. pose proof (goods_arr _ _ _ _ Hg) as Hgb.
      destruct (arrays_ok tag Hsizes bs Hbs def h base bt P0 rest Hb Hd) as (m0 & h' & T & z & E & HB); auto.
      { destruct bs as [|b bs]; auto. destruct Hgb as [A B]. cbn [forallb]. now rewrite A, B. }
      { now apply ends_bracket. }
      exists m0, h', T, z. split; auto. intros f Hm. destruct bs as [|b bs]; [congruence|]. exact (E f Hm).
    - cbn [goods] in Hg. apply andb_prop in Hg as [Hg _].
      destruct (function_suffix x Hx (fun sp p => Hcl x sp p (or_introl eq_refl)) e s h base bt P0 false an rest false Hb He Ht Hd Hg) as (m0 & h' & T & z & E & HB).
      exists m0, h', T, z. cbn [map concat]. rewrite app_nil_r. auto.
  Qed.
  Lemma suffix_param : forall l, (forall x sp p, In x l -> In (sp, p) (psize x) -> claim_param p) ->
    forall e s h base bt P0 an rest, bounded P0 h -> envd tag P0 h e s -> tagsd tag P0 h -> den tag P0 h base bt ->
    goods tag def def an s l = true -> declarable_parameter tag (plug (map (sframe s) l) bt) = true -> ends_here rest = true ->
    let mt := plug (map (sframe s) l) bt in
    exists m0 h' T z t', (forall f, (m0 <= f)%nat -> suffix_of f e h base true (concat (map wsuf l) ++ rest) = Ok (h', T, z, rest)) /\
      grows h h' /\ den tag (or_new P0 h h') h' T t' /\ (t' = mt \/ (is_arr mt = true /\ t' = adjusted mt)).
  Proof.
    intros l Hcl e s h base bt P0 an rest Hb He Ht Hd Hg Hdec Hr mt. subst mt.
    destruct (shape_param tag l s bt Hdec) as [-> | [(bs & Hbs & ->) | (x & Hx & ->)]].
    - exists 0%nat, h, base, 0, bt. split; [intros f _; cbn [map concat app]; now apply ends_suffix|]. split; [apply grows_refl|].
      split; auto. eapply den_frame; [apply agrees_refl| |exact Hd]. unfold or_new; auto.
    - rewrite concat_arr, map_sframe_arr in *. pose proof (goods_arr _ _ _ _ Hg) as Hgb. destruct bs as [|b bs]; [congruence|].
      destruct Hgb as [Hg1 Hg2].
      destruct (array_param_ok tag Hsizes b bs def h base bt P0 rest Hb Hd Hg1 Hg2 Hdec (ends_bracket _ Hr)) as (m0 & h' & T & z & E & Hgr & HT).
      exists m0, h', T, z. eexists. split; [intros f Hm; exact (E f Hm)|]. split; auto. split; [exact HT|]. right. split; reflexivity.
    - cbn [goods] in Hg. apply andb_prop in Hg as [Hg _].
      destruct (function_suffix x Hx (fun sp p => Hcl x sp p (or_introl eq_refl)) e s h base bt P0 def an rest true Hb He Ht Hd Hg) as (m0 & h' & T & z & E & HB).
      exists m0, h', T, z. eexists. cbn [map concat]. rewrite app_nil_r. split; auto. split; [exact (proj1 HB)|].
      split; [eapply built_den; eauto|]. auto.
  Qed.

  (* ---- Pointers ---- *)
  Lemma noqual_match : forall R, noqual R = true -> match R with Kconst :: _ | Kvolatile :: _ | Krestrict :: _ => False | _ => True end.
  Proof. intros [|[] R] H; auto; discriminate. Qed.
  Lemma star_ok : forall q h base bt P0 R, bounded P0 h -> den tag P0 h base bt -> declarable tag (TPtr (all_quals q) bt) = true -> noqual R = true ->
    exists h1 T1, (let (h, t) := create_pointer h base in let* (t, r) := pointer_quals t (map write_qual q ++ R) in Ok (h, t, r)) = Ok (h1, T1, R) /\
      built tag P0 h base h1 T1 [FPtr (all_quals q)] /\ den tag (or_new P0 h h1) h1 T1 (TPtr (all_quals q) bt) /\
      path tag (Pof P0 (length h) (length h1) []) h1 base [] T1 [FPtr (all_quals q)].
  Proof.
    intros q h base bt P0 R Hb Hd Hdec HR. cbn [declarable] in Hdec. apply andb_prop in Hdec as [Hres _]. apply negb_true_iff in Hres.
    destruct (create_pointer_ok tag _ _ _ _ Hd Hres) as (h1 & T & E & A1 & A2 & A3 & A4 & A5 & A6 & A7). rewrite E.
    destruct (pointer_quals_ok q h1 T base R A1 A2 A4 (noqual_match R HR)) as (T1 & E1 & B1 & B2 & B3 & B4 & B5 & B6).
    exists h1, T1. rewrite E1. split; auto. rewrite A3 in B3. fold (all_quals q) in B3.
    assert (Hp : path tag (Pof P0 (length h) (length h1) []) h1 base [] T1 [FPtr (all_quals q)]).
    { econstructor; eauto; [|constructor]. rewrite B4, B5. intros X. split; [right; auto|intros []]. }
    assert (Hbu : built tag P0 h base h1 T1 [FPtr (all_quals q)]).
    { split; [split; auto|]. exists []. split; auto. split; [constructor|]. intros k []. }
    split; auto. split; auto. exact (built_den tag _ _ _ _ _ _ _ Hb Hbu Hd).
  Qed.
  Lemma built_star : forall P0 h base h1 T1 q h2 T2 C, bounded P0 h -> grows h h1 ->
    path tag (Pof P0 (length h) (length h1) []) h1 base [] T1 [FPtr q] -> built tag (or_new P0 h h1) h1 T1 h2 T2 C ->
    built tag P0 h base h2 T2 (C ++ [FPtr q]).
  Proof.
    intros P0 h base h1 T1 q h2 T2 C Hb Hg1 Hp1 (Hg2 & sp & Hp2 & Hnd & Hs). split; [eapply grows_trans; eauto|].
    destruct Hg1 as [Hl1 Hk1], Hg2 as [Hl2 Hk2].
    exists sp. split; [|split; auto; intros k Hk; specialize (Hs k Hk); lia].
    rewrite <- (app_nil_r sp) at 2. eapply path_app.
    - eapply path_frame; [apply agrees_refl| | |exact Hp2]; auto. unfold Pof, or_new. intros r [A B]. split; auto. destruct A as [[A|A]|A]; auto; right; lia.
    - eapply path_frame; [| | |exact Hp1].
      + intros r n [A _] Hn. rewrite Hk2; auto. destruct A as [A|A]; [apply Hb in A|]; lia.
      + unfold Pof. intros r [A _]. split; [destruct A; auto; right; lia|]. intros B. apply Hs in B. destruct A as [A|A]; [apply Hb in A|]; lia.
      + intros r n [].
  Qed.

  (* ---- What comes before brackets and parameters ---- *)
  Definition head_of (f : nat) (e : env) (h : heap) (named : bool) (ts : list tok) : outcome (heap * typ * name * list tok) :=
    match ts with
    | Kid x :: r => if named then Ok (h, void_type, Some x, r) else Stop
    | _ =>
        if nested e ts then
          let* (h, head, x, _, ts) := parameter_declarator f def e h void_type named false (tl ts) in
          let* ts := consume Krp ts in
          Ok (h, head, x, ts)
        else Ok (h, void_type, None, ts)
    end.
  Lemma head_ok : forall c, core c = true -> (forall d, c = DParen d -> claim_plain d) ->
    forall p e s h P0 named R, bounded P0 h -> envd tag P0 h e s -> tagsd tag P0 h -> good tag def p s c = true ->
    declarable tag (plug (frames s c) tvoid) = true -> named = true \/ declares c = None ->
    (c = DName None -> nested e R = false /\ match R with Kid _ :: _ => False | _ => True end) ->
    exists m0 h1 head, (forall f, (m0 <= f)%nat -> head_of f e h named (write c ++ R) = Ok (h1, head, declares c, R)) /\
      built tag P0 h void_type h1 head (frames s c) /\ is_void head = bare c.
  Proof.
    intros c Hc Hcl p e s h P0 named R Hb He Ht Hg Hdec Hn HR.
    destruct c as [x|d| | | | |]; try discriminate.
    - exists 0%nat, h, void_type. split; [|split; [apply built_refl|reflexivity]].
      intros f _. destruct x as [x|]; cbn [write app declares].
      + destruct Hn as [-> |A]; [reflexivity|discriminate].
      + destruct (HR eq_refl) as [A B]. unfold head_of. rewrite A. destruct R as [|[] R]; auto; contradiction.
    - cbn [good] in Hg. apply andb_prop in Hg as [Ho Hg]. cbn [frames] in Hdec.
      assert (Hv : den tag P0 h void_type tvoid) by (apply d_basic; reflexivity).
      destruct (Hcl d eq_refl e s h void_type tvoid P0 named (Krp :: R) Hb He Ht Hv Hg) as (m0 & h1 & T & z & E & HB); auto.
      { now rewrite meaning_plug. }
      exists m0, h1, T. split; [|split].
      + intros f Hf. cbn [write app declares]. rewrite <- app_assoc. cbn [app].
        destruct (opens_nested tag P0 h d e s (Krp :: R) He Ho) as [_ Hne]. cbn [head_of]. rewrite Hne. cbn [tl]. rewrite (E f Hf). reflexivity.
      + exact HB.
      + pose proof (built_den tag _ _ _ _ _ _ _ Hb HB Hv) as HT. apply den_kind in HT as (A & _). rewrite A. cbn [bare].
        now apply frames_bare.
  Qed.

  Lemma built_widen : forall P0 h h1 base h2 T C, bounded P0 h -> grows h h1 -> built tag P0 h1 base h2 T C -> built tag P0 h base h2 T C.
  Proof.
    intros P0 h h1 base h2 T C Hb Hg1 (Hg2 & sp & Hp & Hn & Hs). split; [eapply grows_trans; eauto|].
    destruct Hg1 as [Hl _]. exists sp. split; [|split; auto; intros k Hk; specialize (Hs k Hk); lia].
    eapply path_frame; [apply agrees_refl| | |exact Hp]; auto. unfold Pof. intros r [A B]. split; auto. destruct A; auto. right; lia.
  Qed.
  Lemma NoDup_join : forall A (a b : list A), NoDup a -> NoDup b -> (forall x, In x a -> In x b -> False) -> NoDup (a ++ b).
  Proof.
    induction a as [|x a IH]; cbn; auto. intros b Ha Hb Hd. inversion Ha; subst. constructor; [|apply IH; auto; intros; eapply Hd; eauto].
    intros H. apply in_app_or in H as [H|H]; auto. eapply Hd; eauto.
  Qed.
  Lemma built_patch : forall P0 h h1 head C base bt h2 X C1, bounded P0 h -> built tag P0 h void_type h1 head C ->
    built tag P0 h1 base h2 X C1 -> den tag P0 h base bt -> declarable tag (plug (C ++ C1) bt) = true ->
    exists m0 h3 T, (forall f, (m0 <= f)%nat -> patch f h2 head X = Ok (h3, T)) /\ built tag P0 h base h3 T (C ++ C1).
  Proof.
    intros P0 h h1 head C base bt h2 X C1 Hb ([Hl1 Hk1] & sp & Hp & Hnd & Hs) ([Hl2 Hk2] & sp2 & Hp2 & Hnd2 & Hs2) Hd Hdec.
    set (P := Pof P0 (length h) (length h2) (sp ++ sp2)).
    assert (Hpa : path tag P h2 void_type sp head C).
    { eapply path_frame; [| | |exact Hp].
      - intros r n [A _] Hn. rewrite Hk2; auto. destruct A as [A|A]; [apply Hb in A|]; lia.
      - unfold P, Pof. intros r [A B]. split; [destruct A; auto; right; lia|]. intros H. apply in_app_or in H as [H|H]; auto.
        apply Hs2 in H. destruct A as [A|A]; [apply Hb in A|]; lia.
      - intros r n Hr Hn. rewrite Hk2; auto. apply Hs in Hr. lia. }
    assert (Hpb : path tag P h2 base sp2 X C1).
    { eapply path_frame; [apply agrees_refl| | |exact Hp2]; auto. unfold P, Pof. intros r [A B]. split; [destruct A; auto; right; lia|].
      intros H. apply in_app_or in H as [H|H]; auto. apply Hs in H. destruct A as [A|A]; [apply Hb in A|]; lia. }
    destruct (patch_ok tag P h2 sp head C Hpa base sp2 X C1 P0 bt) as (m0 & h3 & T & E & Hl3 & Hk3 & Hp3); auto.
    - unfold P, Pof. tauto.
    - apply NoDup_join; auto. intros x A B. apply Hs in A. apply Hs2 in B. lia.
    - intros r [[A|A] _]; [apply Hb in A|]; lia.
    - eapply den_frame; [| |exact Hd]; auto. intros r n A Hn. apply Hb in A. rewrite Hk2, Hk1; auto. lia.
    - intros r A. apply Hb in A. split; [lia|]. intros H. apply in_app_or in H as [H|H]; [apply Hs in H|apply Hs2 in H]; lia.
    - now rewrite <- plug_app.
    - exists m0, h3, T. split; auto. split.
      + split; [lia|]. intros k A. rewrite Hk3, Hk2, Hk1; auto; try lia. intros H. apply Hs in H. lia.
      + exists (sp ++ sp2). split; [|split].
        * eapply path_frame; [apply agrees_refl| | |exact Hp3]; auto. unfold P, Pof. intros r [[A B]|A].
          -- split; auto. destruct A; auto. right; lia.
          -- split; [right; lia|]. intros H. apply in_app_or in H as [H|H]; [apply Hs in H|apply Hs2 in H]; lia.
        * apply NoDup_join; auto. intros x A B. apply Hs in A. apply Hs2 in B. lia.
        * intros k H. apply in_app_or in H as [H|H]; [apply Hs in H|apply Hs2 in H]; lia.
  Qed.

  Lemma frames_quiet : forall d s, good tag def false s d = true -> Forall (fun f => match f with FArr q _ => quiet q = true | _ => True end) (frames s d).
  Proof.
    induction d; intros s0 H; cbn [frames good] in *.
    - constructor.
    - apply andb_prop in H as [_ H]. auto.
    - apply Forall_app; split; auto.
    - apply andb_prop in H as [H1 H2]. apply andb_prop in H1 as [_ H1]. cbn [andb] in H1. apply Forall_app; split; auto.
      destruct (good_plain b H1) as (_ & _ & A & _). constructor; auto. unfold aframe. rewrite A. reflexivity.
    - apply andb_prop in H as [H _]. apply andb_prop in H as [H _]. apply andb_prop in H as [_ H]. apply Forall_app; split; auto. now constructor.
    - apply andb_prop in H as [_ H]. apply Forall_app; split; auto. now constructor.
    - apply andb_prop in H as [H _]. apply andb_prop in H as [H _]. apply andb_prop in H as [H _]. apply andb_prop in H as [_ H]. apply Forall_app; split; auto. now constructor.
  Qed.

  (* After no name *)
  Lemma anon_tail : forall P0 h e s q l rest, envd tag P0 h e s -> goods tag def q true s l = true -> ends_here rest = true ->
    let R := concat (map wsuf l) ++ rest in nested e R = false /\ match R with Kid _ :: _ => False | _ => True end.
  Proof.
    intros P0 h e s q [|x l] rest He Hg Hr; cbn [map concat app].
    - destruct rest as [|[] rest]; cbn in *; try discriminate; auto.
    - cbn [goods] in Hg. apply andb_prop in Hg as [Hg _]. rewrite <- app_assoc. set (R := concat (map wsuf l) ++ rest). destruct x as [b|ps va| |xs]; cbn [wsuf goodx] in *.
      + split; [reflexivity|]. exact Logic.I.
      + cbn [app]. split; auto. rewrite <- app_assoc. apply andb_prop in Hg as [Hne Hg]. destruct ps as [|[sp p] ps]; [discriminate|]. cbn [goodps] in Hg.
        assert (Hsp : good_specs tag s sp = true) by (repeat (apply andb_prop in Hg as [Hg _]); exact Hg).
        rewrite <- app_assoc. cbn [app]. rewrite param_split. destruct (first_spec s sp (write p ++ param_tail ps va R) Hsp) as (t & R' & E2 & Hs).
        rewrite E2. destruct t; try discriminate; auto. cbn in Hs. cbn [nested].
        destruct (typedef s x) eqn:E3; [|discriminate]. destruct (envd_some _ _ _ _ _ _ _ He E3) as (T & -> & _). reflexivity.
      + split; reflexivity.
      + destruct xs; [|discriminate]. split; reflexivity.
  Qed.

  Lemma len_commas : forall l x, In x l -> (length x <= length (commas l))%nat.
  Proof.
    induction l as [|y l IH]; intros x []; subst.
    - destruct l; cbn [commas]; auto. rewrite app_length. lia.
    - destruct l as [|z l]; [contradiction|]. specialize (IH x H). cbn [commas] in *. rewrite app_length. cbn [length]. lia.
  Qed.
  Lemma len_psize : forall l x sp p, In x l -> In (sp, p) (psize x) -> (length (write p) < length (concat (map wsuf l)))%nat.
  Proof.
    induction l as [|y l IH]; intros x sp p [] Hp; subst.
    - cbn [map concat]. rewrite app_length. destruct x as [| ps va| |]; try contradiction. cbn [psize] in Hp.
      pose proof (len_commas (map wparam ps) (wparam (sp, p)) (in_map wparam _ _ Hp)) as A. unfold wparam at 1 in A. cbn [fst snd] in A.
      rewrite app_length in A. cbn [wsuf length]. rewrite !app_length. cbn [length]. lia.
    - cbn [map concat]. rewrite app_length. specialize (IH x sp p H Hp). lia.
  Qed.

  Lemma stars_none : forall d R, direct d = true -> forall p s, good tag def p s d = true -> forall f e h base named len, ends_here R = true ->
    parameter_declarator (S f) def e h base named len (write d ++ R) = direct_declarator f def e h base named len (write d ++ R).
  Proof.
    intros d R Hd p s Hg f e h base named len HR.
    destruct (split_direct tag def d p s Hg Hd) as (c & l & -> & Hc). rewrite write_apps, <- app_assoc.
    assert (A : forall ts, match ts with Kstar :: _ => False | _ => True end ->
      parameter_declarator (S f) def e h base named len ts = direct_declarator f def e h base named len ts).
    { intros ts Hts. destruct ts as [|[] ts]; try reflexivity. contradiction. }
    apply A. destruct c as [[x|]|d| | | | |]; try discriminate; cbn [write app]; auto.
    destruct l as [|x l]; cbn [map concat app]; [destruct R as [|[] R]; auto; discriminate|]. destruct x; exact Logic.I.
  Qed.

  Lemma claims : forall n d, (length (write d) < n)%nat -> claim_plain d /\ claim_param d.
  Proof.
    induction n as [|n IH]; intros d Hn; [lia|].
    destruct (direct d) eqn:Hdir.
    2:{ destruct d as [| |q d| | | |]; try discriminate. cbn [write] in Hn. cbn [length] in Hn. rewrite app_length in Hn.
        assert (Hm : (length (write d) < n)%nat) by lia. apply IH in Hm as [IHp IHq]. split.
        - intros e s h base bt P0 named rest Hb He Ht Hd Hg Hdec Hna Hr. cbn [good] in Hg. rewrite meaning_plug in Hdec. cbn [frames] in Hdec.
          rewrite plug_app in Hdec. cbn [plug] in Hdec.
          destruct (star_ok q h base bt P0 (write d ++ rest) Hb Hd (declarable_plug _ _ _ Hdec)) as (h1 & T1 & E1 & HB & HT & Hp).
          { apply write_noqual. now apply ends_noqual. }
          assert (Ha : agrees P0 h h1) by (eapply grows_agrees; [exact (proj1 HB)|exact Hb]).
          assert (Ho : forall k, P0 k -> or_new P0 h h1 k) by (unfold or_new; auto).
          assert (Hb1 : bounded (or_new P0 h h1) h1).
          { destruct HB as [[Hl _] _]. intros k [A|A]; [apply Hb in A|]; lia. }
          destruct (IHp e s h1 T1 (TPtr (all_quals q) bt) (or_new P0 h h1) named rest Hb1) as (m0 & h2 & T2 & z & E2 & HB2); auto.
          { eapply envd_frame; eauto. } { eapply tagsd_frame; eauto. } { now rewrite meaning_plug. }
          exists (S m0), h2, T2, z. split.
          + intros [|m] Hm; [lia|]. cbn [write app parameter_declarator declares]. rewrite <- app_assoc.
            destruct (create_pointer h base) as [h1' T1']. destruct (pointer_quals T1' _) as [[T3 R3]| | |]; try discriminate. cbn in E1. injection E1 as -> -> ->.
            apply E2. lia.
          + eapply built_star; eauto. exact (proj1 HB).
        - intros e s h base bt P0 rest Hb He Ht Hd Hg Hdec Hr. cbn [good] in Hg. pose proof Hdec as Hdec0. rewrite meaning_plug in Hdec. cbn [frames] in Hdec.
          rewrite plug_app in Hdec. cbn [plug] in Hdec.
          destruct (star_ok q h base bt P0 (write d ++ rest) Hb Hd) as (h1 & T1 & E1 & HB & HT & Hp).
          { eapply declarable_param_plug; eauto. }
          { apply write_noqual. now apply ends_noqual. }
          assert (Ha : agrees P0 h h1) by (eapply grows_agrees; [exact (proj1 HB)|exact Hb]).
          assert (Ho : forall k, P0 k -> or_new P0 h h1 k) by (unfold or_new; auto).
          assert (Hb1 : bounded (or_new P0 h h1) h1).
          { destruct HB as [[Hl _] _]. intros k [A|A]; [apply Hb in A|]; lia. }
          destruct (IHq e s h1 T1 (TPtr (all_quals q) bt) (or_new P0 h h1) rest Hb1) as (m0 & h2 & T2 & z & t' & E2 & Hg2 & HT2 & Ht'); auto.
          { eapply envd_frame; eauto. } { eapply tagsd_frame; eauto. }
          exists (S m0), h2, T2, z, t'. split; [|split; [|split]].
          + intros [|m] Hm; [lia|]. cbn [write app parameter_declarator declares]. rewrite <- app_assoc.
            destruct (create_pointer h base) as [h1' T1']. destruct (pointer_quals T1' _) as [[T3 R3]| | |]; try discriminate. cbn in E1. injection E1 as -> -> ->.
            apply E2. lia.
          + eapply grows_trans; [exact (proj1 HB)|exact Hg2].
          + eapply den_frame; [apply agrees_refl| |exact HT2]. destruct Hg2 as [Hl2 _]. destruct HB as [[Hl1 _] _]. unfold or_new. intros r [[A|A]|A]; auto; right; lia.
          + exact Ht'. }
    assert (Hcl : forall c l, d = apps c l -> core c = true -> (forall d', c = DParen d' -> claim_plain d') /\
      (forall x sp p, In x l -> In (sp, p) (psize x) -> claim_param p)).
    { intros c l -> Hc. rewrite write_apps, app_length in Hn. split.
      - intros d' ->. cbn [write length] in Hn. rewrite app_length in Hn. apply IH. lia.
      - intros x sp p A B. pose proof (len_psize l x sp p A B). apply IH. lia. }
    split.
    - intros e s h base bt P0 named rest Hb He Ht Hd Hg Hdec Hna Hr.
      destruct (split_direct tag def d false s Hg Hdir) as (c & l & Hdl & Hc). destruct (Hcl c l Hdl Hc) as [Hcp Hcs].
      pose proof (fun f h0 base0 => stars_none d rest Hdir false s Hg f e h0 base0 named false Hr) as Hst. subst d.
      destruct (good_apps tag def l false s c Hg) as [Hgc Hgl]. cbn [andb] in Hgl.
      rewrite meaning_plug, frames_apps in Hdec. rewrite declares_apps in *. rewrite plug_app in Hdec.
      destruct (head_ok c Hc Hcp false e s h P0 named (concat (map wsuf l) ++ rest) Hb He Ht Hgc) as (m0 & h1 & head & E1 & HB1 & Hv); auto.
      { eapply declarable_void; eauto. }
      { intros ->. eapply anon_tail; eauto. }
      assert (Ha : agrees P0 h h1) by (eapply grows_agrees; [exact (proj1 HB1)|exact Hb]).
      assert (Hb1 : bounded P0 h1) by (destruct HB1 as [[Hl _] _]; intros k A; apply Hb in A; lia).
      destruct (suffix_plain l Hcs e s h1 base bt P0 (anon c) rest Hb1) as (m1 & h2 & X & z & E2 & HB2); auto.
      { eapply envd_frame; eauto. } { eapply tagsd_frame; eauto. } { eapply den_frame; eauto. } { eapply declarable_plug; eauto. }
      rewrite frames_apps.
      destruct (bare c) eqn:Eb.
      + exists (S (S (m0 + m1))), h2, X, z. split.
        * intros [|[|f]] Hf; try lia. rewrite Hst, write_apps, <- app_assoc, direct_unfold. fold (head_of f e h named (write c ++ concat (map wsuf l) ++ rest)).
          rewrite E1 by lia. cbn [bind]. cbn [andb]. rewrite E2 by lia. cbn. rewrite Hv. reflexivity.
        * assert (Hf : frames s c = []) by now apply frames_bare. rewrite Hf. cbn [app]. eapply built_widen; eauto. exact (proj1 HB1).
      + destruct (built_patch P0 h h1 head (frames s c) base bt h2 X (map (sframe s) l)) as (m2 & h3 & T & E3 & HB3); auto.
        { now rewrite plug_app. }
        exists (S (S (m0 + m1 + m2))), h3, T, z. split; auto.
        intros [|[|f]] Hf; try lia. rewrite Hst, write_apps, <- app_assoc, direct_unfold. fold (head_of f e h named (write c ++ concat (map wsuf l) ++ rest)).
        rewrite E1 by lia. cbn [bind]. cbn [andb]. rewrite E2 by lia. cbn [bind]. rewrite Hv, E3 by lia. reflexivity.
    - intros e s h base bt P0 rest Hb He Ht Hd Hg Hdec Hr.
      destruct (split_direct tag def d def s Hg Hdir) as (c & l & Hdl & Hc). destruct (Hcl c l Hdl Hc) as [Hcp Hcs].
      pose proof (fun f h0 base0 => stars_none d rest Hdir def s Hg f e h0 base0 true true Hr) as Hst. subst d.
      destruct (good_apps tag def l def s c Hg) as [Hgc Hgl].
      rewrite meaning_plug, frames_apps in *. rewrite declares_apps in *. rewrite plug_app in *.
      assert (Hdc : bare c = false -> declarable tag (plug (frames s c) (plug (map (sframe s) l) bt)) = true).
      { intros Eb. destruct c as [|d'| | | | |]; try discriminate. cbn [frames good bare] in *. apply andb_prop in Hgc as [_ Hgd].
        pose proof (frames_quiet d' s Hgd) as Hq. assert (Hne : frames s d' <> []).
        { intros A. apply frames_bare in A. congruence. }
        apply declarable_void_param; auto. destruct (frames s d') as [|[] C]; auto. now inversion Hq. }
      destruct (head_ok c Hc Hcp def e s h P0 true (concat (map wsuf l) ++ rest) Hb He Ht Hgc) as (m0 & h1 & head & E1 & HB1 & Hv); auto.
      { destruct (bare c) eqn:Eb; [|eapply declarable_void; eauto]. assert (Hf : frames s c = []) by now apply frames_bare. rewrite Hf. reflexivity. }
      { intros ->. eapply anon_tail; eauto. }
      assert (Ha : agrees P0 h h1) by (eapply grows_agrees; [exact (proj1 HB1)|exact Hb]).
      assert (Hb1 : bounded P0 h1) by (destruct HB1 as [[Hl _] _]; intros k A; apply Hb in A; lia).
      assert (He1 : envd tag P0 h1 e s) by (eapply envd_frame; eauto).
      assert (Ht1 : tagsd tag P0 h1) by (eapply tagsd_frame; eauto).
      assert (Hd1 : den tag P0 h1 base bt) by (eapply den_frame; eauto).
      destruct (bare c) eqn:Eb.
      + assert (Hf : frames s c = []) by now apply frames_bare. rewrite Hf in *. cbn [plug] in *. rewrite andb_true_r in Hgl.
        destruct (suffix_param l Hcs e s h1 base bt P0 (anon c) rest Hb1) as (m1 & h2 & X & z & t' & E2 & Hg2 & HX & Ht'); auto.
        exists (S (S (m0 + m1))), h2, X, z, t'. split; [|split; [|split]]; auto.
        * intros [|[|f]] Hfu; try lia. rewrite Hst, write_apps, <- app_assoc, direct_unfold. fold (head_of f e h true (write c ++ concat (map wsuf l) ++ rest)).
          rewrite E1 by lia. cbn [bind]. rewrite Hv. cbn [andb]. rewrite E2 by lia. reflexivity.
        * eapply grows_trans; [exact (proj1 HB1)|exact Hg2].
        * eapply den_frame; [apply agrees_refl| |exact HX]. destruct HB1 as [[Hl1 _] _]. unfold or_new. intros r [A|A]; auto. right; lia.
      + rewrite andb_false_r in Hgl.
        destruct (suffix_plain l Hcs e s h1 base bt P0 (anon c) rest Hb1) as (m1 & h2 & X & z & E2 & HB2); auto.
        { eapply declarable_plug; eauto. }
        destruct (built_patch P0 h h1 head (frames s c) base bt h2 X (map (sframe s) l)) as (m2 & h3 & T & E3 & HB3); auto.
        { rewrite plug_app. auto. }
        exists (S (S (m0 + m1 + m2))), h3, T, z. eexists. split; [|split; [exact (proj1 HB3)|split; [eapply built_den; eauto|left; now rewrite plug_app]]].
        intros [|[|f]] Hf; try lia. rewrite Hst, write_apps, <- app_assoc, direct_unfold. fold (head_of f e h true (write c ++ concat (map wsuf l) ++ rest)).
        rewrite E1 by lia. cbn [bind]. rewrite Hv. cbn [andb]. rewrite E2 by lia. cbn [bind]. rewrite E3 by lia. reflexivity.
  Qed.
End Done.
