(* C53: the table stays tidy while declarators are read *)
From Coq Require Import List Bool Arith ZArith Lia.
From Verif Require Import Util DeclModel DeclSpec DeclProofs DeclProps CompatModel CompatSpec CompatProofs CompatMain.
Import ListNotations.
Open Scope Z_scope.

(* nodes stay, and stay what they are *)
Definition grows (h h' : heap) : Prop :=
  forall r n, node_at h r = Some n -> exists n', node_at h' r = Some n' /\ nkind n' = nkind n /\ (derived (nkind n) = false -> n' = n).

Lemma fits_tidy h T : fits h T -> tidy_typ h T.
Proof. unfold fits, tidy_typ. intros F K. now rewrite K in F. Qed.
Lemma fitting_tidy h : fitting h -> tidy h.
Proof.
  intros F r n N. specialize (F _ _ N). unfold fits_node, tidy_node in *. destruct (nkind n); try exact I.
  - destruct F as (A & B & C & D & E & G & H & I & J). apply fits_tidy in J. tauto.
  - destruct F as (A & B & C & D & E & G). apply fits_tidy in E. repeat split; auto; try (now apply E). apply Forall_impl with (2 := G). intro. apply fits_tidy.
  - destruct F as (A & B & C & D & E & G). apply fits_tidy in G. tauto.
Qed.
Lemma grows_refl h : grows h h. Proof. intros r n N. exists n. auto. Qed.
Lemma grows_trans h h' h'' : grows h h' -> grows h' h'' -> grows h h''.
Proof. intros A B r n N. destruct (A r n N) as (n' & N' & K & D). destruct (B r n' N') as (n'' & N'' & K' & D'). exists n''. split; [assumption|]. split; [congruence|]. intro X. rewrite D' by (rewrite K; assumption). auto. Qed.
Lemma fits_grows h h' T : grows h h' -> fits h T -> fits h' T.
Proof.
  intros G. unfold fits. destruct (kind T); auto.
  - intros (U & n & N & K). split; [assumption|]. destruct (G _ _ N) as (n' & N' & K' & _). exists n'. split; congruence.
  - intros (n & N & K). destruct (G _ _ N) as (n' & N' & K' & _). exists n'. split; congruence.
  - intros (n & N & K). destruct (G _ _ N) as (n' & N' & K' & _). exists n'. split; congruence.
Qed.
Lemma fits_node_grows h h' n : grows h h' -> fits_node h n -> fits_node h' n.
Proof.
  intros G. unfold fits_node. destruct (nkind n); auto.
  - intros (A & B & C & D & E & F & H & I & J). pose proof (fits_grows _ _ _ G J). tauto.
  - intros (A & B & C & D & E & F). repeat split; auto. now apply (fits_grows h). apply Forall_impl with (2 := F). intro. now apply fits_grows.
  - intros (A & B & C & D & E & F). pose proof (fits_grows _ _ _ G F). tauto.
Qed.
(* adding a node, changing a node *)
Lemma node_app h n r m : node_at h r = Some m -> node_at (h ++ [n]) r = Some m.
Proof. destruct r; cbn; [discriminate|]. intro N. rewrite nth_error_app1; [assumption|]. apply nth_error_Some. congruence. Qed.
Lemma node_new h n : node_at (h ++ [n]) (S (length h)) = Some n.
Proof. cbn. rewrite nth_error_app2, Nat.sub_diag by lia. reflexivity. Qed.
Lemma grows_app h n : grows h (h ++ [n]). Proof. intros r m N. exists m. split; [now apply node_app|auto]. Qed.
Lemma fitting_app h n : fitting h -> fits_node h n -> fitting (h ++ [n]).
Proof.
  intros F Fn r m N. apply fits_node_grows with (h := h); [apply grows_app|]. destruct r as [|r]; [discriminate|]. cbn in N.
  destruct (lt_dec r (length h)); [rewrite nth_error_app1 in N by assumption; now apply (F (S r))|]. rewrite nth_error_app2 in N by lia.
  destruct (r - length h)%nat as [|k]; [now injection N as <-|]. destruct k; discriminate N.
Qed.
Lemma grows_put h r n n' : node_at h r = Some n -> nkind n' = nkind n -> derived (nkind n) = true -> grows h (put h r n').
Proof.
  intros N K D k m M. destruct (Nat.eq_dec k r) as [->|X].
  - exists n'. rewrite (put_same _ _ _ _ N). rewrite N in M. injection M as <-. repeat split; auto. congruence.
  - exists m. rewrite put_other by assumption. auto.
Qed.
Lemma fitting_put h r n n' : fitting h -> node_at h r = Some n -> nkind n' = nkind n -> derived (nkind n) = true -> fits_node h n' -> fitting (put h r n').
Proof.
  intros F N K D Fn k m M. apply fits_node_grows with (h := h); [now apply grows_put with (n := n)|]. destruct (Nat.eq_dec k r) as [->|X].
  - rewrite (put_same _ _ _ _ N) in M. now injection M as <-.
  - rewrite put_other in M by assumption. now apply (F k).
Qed.

Definition good_step (h h' : heap) (T : typ) : Prop := fitting h' /\ grows h h' /\ fits h' T.
Lemma create_pointer_fits h T h' T' : create_pointer h T = (h', T') -> fitting h -> fits h T -> good_step h h' T'.
Proof.
  unfold create_pointer, type_create. intros E F Ft. destruct (tp T) eqn:P; injection E as <- <-.
  - split; [|split; [apply grows_app|]].
    + apply fitting_app; [assumption|]. unfold fits_node. cbn. unfold type_unqualified. rewrite P. repeat split; auto.
    + unfold fits. cbn [kind plain uns ref]. split; [reflexivity|]. rewrite node_new. eexists. split; reflexivity.
  - split; [assumption|]. split; [apply grows_refl|]. exact Ft.
Qed.
Lemma create_function_fits h T h' T' : create_function h T = (h', T') -> fitting h -> fits h T -> good_step h h' T' /\ is_function T' = true.
Proof.
  unfold create_function, type_create. intros E F Ft. injection E as <- <-. split; [|reflexivity]. split; [|split; [apply grows_app|]].
  - apply fitting_app; [assumption|]. unfold fits_node. cbn. repeat split; auto.
  - unfold fits. cbn [kind plain ref]. rewrite node_new. eexists. split; reflexivity.
Qed.
Lemma create_arr_fits h T z b : fitting h -> fits h T ->
  good_step h (h ++ [mkN ARRAY false false false z b false [] T]) (plain ARRAY false (S (length h))).
Proof.
  intros F Ft. split; [|split; [apply grows_app|]].
  - apply fitting_app; [assumption|]. unfold fits_node. cbn. repeat split; auto.
  - unfold fits. cbn [kind plain ref]. rewrite node_new. eexists. split; reflexivity.
Qed.
(* qualifiers *)
Definition like (T T' : typ) : Prop := kind T = kind T' /\ uns T = uns T' /\ ref T = ref T'.
Lemma fits_like h T T' : like T T' -> fits h T -> fits h T'.
Proof. intros (A & B & C). unfold fits. now rewrite A, B, C. Qed.
Lemma like_const T : like T (set_const T). Proof. unfold like, set_const. now destruct (tp T). Qed.
Lemma like_volatile T : like T (set_volatile T). Proof. unfold like, set_volatile. now destruct (tp T). Qed.
Lemma like_restrict T T' : set_restrict T = Ok T' -> like T T'.
Proof. unfold set_restrict. destruct (negb (is_pointer T)); [discriminate|]. intro E. injection E as <-. unfold like. now destruct (tp T). Qed.
Lemma like_trans T T' T'' : like T T' -> like T' T'' -> like T T''. Proof. unfold like. intuition congruence. Qed.
Lemma like_refl T : like T T. Proof. now unfold like. Qed.
Lemma like_apply T o T' : apply_qualifiers T o = Ok T' -> like T T'.
Proof.
  unfold apply_qualifiers. set (A := if is_const o then set_const T else T). assert (LA : like T A) by (unfold A; destruct (is_const o); [apply like_const|apply like_refl]).
  set (B := if is_volatile o then set_volatile A else A). assert (LB : like T B) by (apply like_trans with (1 := LA); unfold B; destruct (is_volatile o); [apply like_volatile|apply like_refl]).
  destruct (is_restrict o); intro E; [apply like_restrict in E; now apply like_trans with (1 := LB)|injection E as <-; assumption].
Qed.
Lemma fits_deref h T T' : fitting h -> fits h T -> type_deref h T = Ok T' -> fits h T'.
Proof.
  intros F Ft. unfold type_deref, is_pointer, type_of. destruct (tp T) eqn:P; cbn [tk_eqb negb].
  - intro E. injection E as <-. unfold type_unqualified. rewrite P. exact Ft.
  - destruct (tk_eqb (kind T) POINTER) eqn:K; [|discriminate]. apply tk_eqb_eq in K. unfold fits in Ft. rewrite K in Ft. destruct Ft as (_ & n & N & Nk).
    unfold type_handle, handle. rewrite N. cbn [bind negb]. rewrite Nk. specialize (F _ _ N). unfold fits_node in F. rewrite Nk in F. destruct F as (_ & _ & _ & _ & -> & _ & _ & _ & Fx). intro E. injection E as <-. exact Fx.
Qed.
Lemma fits_next h T T' : fitting h -> fits h T -> type_next h T = Ok T' -> fits h T'.
Proof.
  intros F Ft. unfold type_next. destruct (is_pointer T) eqn:P; [now apply fits_deref|]. destruct (is_function T || is_array T) eqn:K; [|discriminate]. unfold handle.
  unfold is_pointer, is_function, is_array, type_of in *. destruct (tp T); [discriminate|]. unfold fits in Ft. apply orb_true_iff in K as [K|K]; apply tk_eqb_eq in K; rewrite K in Ft; destruct Ft as (n & N & Nk); rewrite N; cbn [bind]; intro E; injection E as <-; specialize (F _ _ N); unfold fits_node in F; rewrite Nk in F; tauto.
Qed.
Ltac ok E x := match type of E with bind ?o _ = _ => let X := fresh "X" in destruct o as [x| | |] eqn:X; try discriminate E; cbn [bind] in E end.
Lemma patch_fits : forall f h head target h' T, patch f h head target = Ok (h', T) -> fitting h -> fits h head -> fits h target -> good_step h h' T.
Proof.
  induction f as [|f IH]; intros h head target h' T E F Fh Ft; [discriminate|]. cbn [patch] in E.
  destruct (is_void head). { injection E as <- <-. split; [assumption|]. split; [apply grows_refl|assumption]. }
  destruct (is_pointer head) eqn:P.
  - ok E x. ok E p. destruct p as [h1 y]. destruct (IH _ _ _ _ _ X0 F (fits_next _ _ _ F Fh X) Ft) as (A & B & C).
    destruct (create_pointer h1 y) as [h2 w] eqn:CP. destruct (create_pointer_fits _ _ _ _ CP A C) as (D & G & H).
    ok E v. injection E as <- <-. split; [assumption|]. split; [now apply grows_trans with h1|]. apply fits_like with (2 := H). now apply like_apply in X1.
  - destruct (is_function head || is_array head) eqn:K; [|discriminate]. ok E n. ok E p. destruct p as [h1 y]. ok E n1. injection E as <- <-.
    assert (Fn : fits h (nnext n)). { apply fits_next with (T := head); auto. unfold type_next. rewrite P, K, X. reflexivity. }
    destruct (IH _ _ _ _ _ X0 F Fn Ft) as (A & B & C). unfold handle in X1. destruct (node_at h1 (ref head)) as [m|] eqn:M; [|discriminate]. injection X1 as <-.
    pose proof (fits_grows _ _ _ B Fh) as Fh1.
    assert (Km : derived (nkind m) = true /\ nkind m <> POINTER).
    { unfold is_pointer, is_function, is_array, type_of, fits in *. destruct (tp head); [discriminate|]. apply orb_true_iff in K as [K|K]; apply tk_eqb_eq in K; rewrite K in Fh1; destruct Fh1 as (w & W & Wk); rewrite W in M; injection M as <-; rewrite Wk; split; congruence || reflexivity. }
    assert (Fm : fits_node h1 (set_next m y)). { specialize (A _ _ M). unfold fits_node in *. cbn [nkind set_next nsize nconst nvolatile nrestrict nnext members incomplete vararg]. destruct (nkind m); try exact I; destruct Km as [Km Kp]; try discriminate; try congruence; tauto. }
    assert (G : grows h1 (put h1 (ref head) (set_next m y))) by (apply grows_put with (n := m); auto; tauto).
    split; [apply fitting_put with (n := m); auto; tauto|]. split; [now apply grows_trans with h1|now apply (fits_grows h1)].
Qed.
Lemma array_type_fits f h base len q n h' T : array_type f h base len q n = Ok (h', T) -> fitting h -> fits h base -> good_step h h' T.
Proof.
  unfold array_type. intros E F Fb. destruct len.
  - destruct (create_pointer h base) as [h1 t] eqn:C. destruct (create_pointer_fits _ _ _ _ C F Fb) as (A & B & D). cbv zeta in E.
    set (t1 := if qc q then set_const t else t) in E. assert (L1 : like t t1) by (unfold t1; destruct (qc q); [apply like_const|apply like_refl]).
    set (t2 := if qv q then set_volatile t1 else t1) in E. assert (L2 : like t t2) by (apply like_trans with (1 := L1); unfold t2; destruct (qv q); [apply like_volatile|apply like_refl]).
    destruct (qr q); [ok E w; apply like_restrict in X|]; injection E as <- <-; split; auto; split; auto; apply fits_like with (2 := D); auto. now apply like_trans with (1 := L2).
  - destruct n as [z|].
    + unfold create_array in E. ok E s. destruct (LONG_MAX <? wrap64 (z * s)); [discriminate|]. injection E as <- <-. now apply create_arr_fits.
    + injection E as <- <-. now apply create_arr_fits.
Qed.
Lemma toks_cons t ts : toks_ok (t :: ts) -> toks_ok ts. Proof. unfold toks_ok. cbn. rewrite andb_true_iff. tauto. Qed.
Lemma consume_toks t ts ts' : consume t ts = Ok ts' -> toks_ok ts -> toks_ok ts'.
Proof. unfold consume. intros E K. destruct ts as [|[] r]; try discriminate; destruct t; try discriminate; injection E as <-; now apply toks_cons in K. Qed.
Lemma array_quals_toks ts : forall q q' ts', array_quals q ts = (q', ts') -> toks_ok ts -> toks_ok ts'.
Proof. induction ts as [|t ts IH]; intros q q' ts' E K; [injection E as <- <-; assumption|]. destruct t; cbn in E; try (injection E as <- <-; assumption); eapply IH; eauto. Qed.
Lemma array_param_toks ts q ts' : array_param_qualifiers ts = (q, ts') -> toks_ok ts -> toks_ok ts'.
Proof.
  unfold array_param_qualifiers. intros E K. set (p := match ts with Kstatic :: r => (true, r) | _ => (false, ts) end) in E.
  assert (Kp : toks_ok (snd p)) by (unfold p; destruct ts as [|[]]; cbn; auto). destruct p as [s ts1]. cbn in Kp.
  destruct (array_quals (mkQ false false false s) ts1) as [q1 ts2] eqn:A. pose proof (array_quals_toks _ _ _ _ A Kp) as K2.
  destruct (qs q1); [injection E as <- <-; assumption|]. destruct ts2 as [|[] ts2]; injection E as <- <-; auto.
Qed.
Lemma array_length_toks def len ts q n ts' : array_length def len ts = Ok (q, n, ts') -> toks_ok ts -> toks_ok ts'.
Proof.
  unfold array_length. intros E K.
  assert (G : forall ts, toks_ok ts -> (let (q0, ts0) := if def && len then array_param_qualifiers ts else (mkQ false false false false, ts) in
    match ts0 with Krb :: _ => if qs q0 then Stop else Ok (q0, None, ts0) | Knum z :: r => if z <? 0 then Stop else Ok (q0, Some z, r) | _ => Stop end) = Ok (q, n, ts') -> toks_ok ts').
  { clear ts E K. intros ts K E. destruct (if def && len then _ else _) as [q0 ts0] eqn:A.
    assert (K0 : toks_ok ts0) by (destruct (def && len); [now apply array_param_toks in A|injection A as <- <-; assumption]).
    destruct ts0 as [|[] ts0]; try discriminate; [destruct (qs q0)|destruct (z <? 0)]; try discriminate; injection E as <- <- <-; auto. }
  destruct ts as [|[] ts]; try (apply (G _ K); exact E). injection E as <- <- <-. assumption.
Qed.
Lemma array_declarator_fits : forall f def h base len ts h' T z ts', array_declarator f def h base len ts = Ok (h', T, z, ts') -> fitting h -> fits h base -> toks_ok ts ->
  good_step h h' T /\ toks_ok ts'.
Proof.
  induction f as [|f IH]; intros def h base len ts h' T z ts' E F Fb K; [discriminate|]. cbn [array_declarator] in E.
  ok E t1. pose proof (consume_toks _ _ _ X K) as K1. ok E p. destruct p as [[q n] t2]. pose proof (array_length_toks _ _ _ _ _ _ X0 K1) as K2.
  ok E t3. pose proof (consume_toks _ _ _ X1 K2) as K3. ok E p. destruct p as [[h1 b1] t4].
  assert (S1 : good_step h h1 b1 /\ toks_ok t4).
  { destruct (starts_bracket t3).
    - ok X2 w. destruct w as [[[h2 b2] z2] t5]. injection X2 as <- <- <-. eapply IH; eauto.
    - injection X2 as <- <- <-. split; [split; [assumption|split; [apply grows_refl|assumption]]|assumption]. }
  destruct S1 as ((F1 & G1 & Fb1) & K4). ok E c. destruct (negb c); [discriminate|]. ok E w. destruct w as [h2 t]. injection E as <- <- <- <-.
  destruct (array_type_fits _ _ _ _ _ _ _ _ X4 F1 Fb1) as (A & B & C). split; [|assumption]. split; [assumption|]. split; [now apply grows_trans with h1|assumption].
Qed.
Lemma change_fun h fn n n' : fitting h -> fits h fn -> is_function fn = true -> handle h (ref fn) = Ok n ->
  nkind n' = nkind n -> (nkind n = FUNCTION -> fits_node h n -> fits_node h n') -> fitting (put h (ref fn) n') /\ grows h (put h (ref fn) n').
Proof.
  intros F Ff K H Kn Fn. unfold handle in H. destruct (node_at h (ref fn)) as [m|] eqn:M; [|discriminate]. injection H as <-.
  assert (Km : nkind m = FUNCTION).
  { unfold is_function, type_of, fits in *. destruct (tp fn); [discriminate|]. apply tk_eqb_eq in K. rewrite K in Ff. destruct Ff as (w & W & Wk). congruence. }
  assert (D : derived (nkind m) = true) by now rewrite Km. split; [apply fitting_put with (n := m)|apply grows_put with (n := m)]; auto. apply Fn; [assumption|]. now apply (F (ref fn)).
Qed.
Lemma add_member_fits h fn m h' : add_member h fn m = Ok h' -> fitting h -> fits h fn -> is_function fn = true -> fits h (mtype m) -> fitting h' /\ grows h h'.
Proof.
  unfold add_member. intros E F Ff K Fm. ok E n. destruct (existsb _ _); [discriminate|]. injection E as <-. apply change_fun with (n := n); auto.
  intros Nk Fn. unfold fits_node in *. cbn [nkind nsize nconst nvolatile nrestrict nnext members]. rewrite Nk in *. destruct Fn as (A & B & C & D & G & H). repeat split; auto. apply Forall_app. auto.
Qed.
Lemma add_dots_fits h fn h' : add_dots h fn = Ok h' -> fitting h -> fits h fn -> is_function fn = true -> fitting h' /\ grows h h'.
Proof.
  unfold add_dots. intros E F Ff K. ok E n. destruct (vararg n || incomplete n); [discriminate|]. injection E as <-. apply change_fun with (n := n); auto.
  intros Nk Fn. unfold fits_node in *. cbn [nkind nsize nconst nvolatile nrestrict nnext members]. rewrite Nk in *. exact Fn.
Qed.
Lemma type_seal_fits h fn h' : type_seal h fn = Ok h' -> fitting h -> fits h fn -> is_function fn = true -> fitting h' /\ grows h h'.
Proof.
  unfold type_seal. intros E F Ff K. ok E n. injection E as <-. apply change_fun with (n := n); auto.
  intros Nk Fn. unfold fits_node in *. cbn [nkind nsize nconst nvolatile nrestrict nnext members]. rewrite Nk in *. exact Fn.
Qed.
Lemma identifiers_fits e fn (K : is_function fn = true) : forall n ts h h' ts', (length ts <= n)%nat -> identifiers e h fn ts = Ok (h', ts') -> fitting h -> fits h fn -> toks_ok ts -> fitting h' /\ grows h h' /\ toks_ok ts'.
Proof.
  induction n as [|n IH]; intros ts h h' ts' L E F Ff T; destruct ts as [|t r]; try discriminate; cbn in L; try lia. cbn [identifiers] in E. destruct t; try discriminate. destruct (get_typedef e x); [discriminate|]. ok E h1.
  destruct (add_member_fits _ _ _ _ X F Ff K I) as [A B]. apply toks_cons in T. 
  assert (D : forall r', Ok (h1, r) = Ok (h', r') -> fitting h' /\ grows h h' /\ toks_ok r') by (intros r' Q; injection Q as <- <-; auto).
  destruct r as [|t1 r1]; [now apply D|]. destruct t1; try (now apply D). destruct (IH r1 h1 h' ts') as (G & H & J); auto; [cbn in L; lia|now apply (fits_grows h)|]. split; auto. split; auto. now apply grows_trans with h1.
Qed.
Lemma env_grows h h' e : grows h h' -> env_fits h e -> env_fits h' e.
Proof. intros G. apply Forall_impl. intros [x [T|]]; cbn; auto. now apply fits_grows. Qed.
Lemma typedef_fits h e x T : env_fits h e -> get_typedef e x = Some T -> fits h T.
Proof. induction 1 as [|[y U] e H1 H IH]; cbn; [discriminate|]. destruct (Nat.eqb x y); [|assumption]. intros ->. exact H1. Qed.
Lemma specifiers_fits h e : env_fits h e -> forall ts has c v T ts', specifiers e has c v ts = (T, ts') -> toks_ok ts -> match has with Some U => fits h U | None => True end -> fits h T /\ toks_ok ts'.
Proof.
  intros Fe. induction ts as [|t ts IH]; intros has c v T ts' E K Fh.
  - cbn in E. injection E as <- <-. split; [|assumption]. destruct has as [U|], c, v; repeat (eapply fits_like; [apply like_volatile || apply like_const|]); auto; exact I.
  - assert (Done : ((if v then set_volatile (if c then set_const match has with Some t0 => t0 | None => plain INT false 0 end else match has with Some t0 => t0 | None => plain INT false 0 end)
                     else (if c then set_const match has with Some t0 => t0 | None => plain INT false 0 end else match has with Some t0 => t0 | None => plain INT false 0 end)), t :: ts) = (T, ts') -> fits h T /\ toks_ok ts').
    { intro E'. injection E' as <- <-. split; [|assumption]. destruct has as [U|], c, v; repeat (eapply fits_like; [apply like_volatile || apply like_const|]); auto; exact I. }
    pose proof (toks_cons _ _ K) as K'. unfold toks_ok in K. cbn in K. apply andb_true_iff in K as [Kt _].
    assert (Pl : forall k u r, negb (derived k) = true -> fits h (plain k u r)) by (intros k u r; destruct k; cbn; try discriminate; intros; exact I).
    destruct t; cbn [specifiers] in E; try (now apply Done); try (eapply IH; eauto; fail).
    + destruct has; [now apply Done|]. destruct (get_typedef e x) eqn:G; [|now apply Done]. eapply IH; eauto. cbn. eapply typedef_fits; eauto.
    + destruct has; [now apply Done|]. eapply IH; eauto. cbn. apply Pl, Kt.
    + destruct has; [now apply Done|]. eapply IH; eauto. cbn. apply Pl, Kt.
Qed.
Lemma pointer_quals_like ts : forall T T' ts', pointer_quals T ts = Ok (T', ts') -> toks_ok ts -> like T T' /\ toks_ok ts'.
Proof.
  induction ts as [|t ts IH]; intros T T' ts' E K; [injection E as <- <-; split; [apply like_refl|assumption]|]. pose proof (toks_cons _ _ K) as K'.
  destruct t; cbn in E; try (injection E as <- <-; split; [apply like_refl|assumption]).
  - destruct (IH _ _ _ E K'). split; [|assumption]. eapply like_trans; [apply like_const|eassumption].
  - destruct (IH _ _ _ E K'). split; [|assumption]. eapply like_trans; [apply like_volatile|eassumption].
  - ok E U. destruct (IH _ _ _ E K'). split; [|assumption]. eapply like_trans; [apply like_restrict; eassumption|eassumption].
Qed.
Lemma declared_fits h e x : env_fits h e -> env_fits h (declared e x).
Proof. intro F. destruct x; cbn; [|assumption]. now constructor. Qed.

Definition pd_at (f : nat) : Prop := forall def e h base named len ts h' T x z ts', parameter_declarator f def e h base named len ts = Ok (h', T, x, z, ts') ->
  fitting h -> fits h base -> env_fits h e -> toks_ok ts -> good_step h h' T /\ toks_ok ts'.
Definition dd_at (f : nat) : Prop := forall def e h base named len ts h' T x z ts', direct_declarator f def e h base named len ts = Ok (h', T, x, z, ts') ->
  fitting h -> fits h base -> env_fits h e -> toks_ok ts -> good_step h h' T /\ toks_ok ts'.
Definition pa_at (f : nat) : Prop := forall def e h fn ts h' ts', parameters f def e h fn ts = Ok (h', ts') ->
  fitting h -> fits h fn -> is_function fn = true -> env_fits h e -> toks_ok ts -> fitting h' /\ grows h h' /\ toks_ok ts'.
Lemma step_trans h h1 h2 T : grows h h1 -> good_step h1 h2 T -> good_step h h2 T.
Proof. intros G (A & B & C). split; [assumption|]. split; [now apply grows_trans with h1|assumption]. Qed.
Lemma step_refl h T : fitting h -> fits h T -> good_step h h T.
Proof. intros A B. split; [assumption|]. split; [apply grows_refl|assumption]. Qed.
Lemma declarators_fit f : pd_at f /\ dd_at f /\ pa_at f.
Proof.
  induction f as [|f (IHp & IHd & IHa)]; [split; [|split]; repeat intro; discriminate|]. split; [|split].
  - intros def e h base named len ts h' T x z ts' E F Fb Fe K. cbn [parameter_declarator] in E.
    assert (D : direct_declarator f def e h base named len ts = Ok (h', T, x, z, ts') -> good_step h h' T /\ toks_ok ts') by (intro D; eapply IHd; eauto).
    destruct ts as [|[] r]; try (now apply D). destruct (create_pointer h base) as [h1 t] eqn:C. destruct (create_pointer_fits _ _ _ _ C F Fb) as (A & B & Ft).
    ok E p. destruct p as [t1 r1]. destruct (pointer_quals_like _ _ _ _ X (toks_cons _ _ K)) as [L K1].
    destruct (IHp _ _ _ _ _ _ _ _ _ _ _ _ E A (fits_like _ _ _ L Ft) (env_grows _ _ _ B Fe) K1) as [S1 K2]. split; [now apply step_trans with h1|assumption].
  - intros def e h base named len ts h' T x z ts' E F Fb Fe K. cbn [direct_declarator] in E.
    ok E p. destruct p as [[[h1 head] y] ts1].
    assert (S1 : good_step h h1 head /\ toks_ok ts1).
    { assert (D : (if nested e ts then let* (h0, head0, x0, _, ts0) := parameter_declarator f def e h void_type named false (tl ts) in let* ts2 := consume Krp ts0 in Ok (h0, head0, x0, ts2) else Ok (h, void_type, None, ts)) = Ok (h1, head, y, ts1) -> good_step h h1 head /\ toks_ok ts1).
      { intro Q. destruct (nested e ts).
        - ok Q p. destruct p as [[[[h2 hd] x2] z2] ts2]. ok Q ts3. injection Q as <- <- <- <-. assert (Kt : toks_ok (tl ts)) by (destruct ts; [assumption|now apply toks_cons in K]).
          destruct (IHp _ _ _ _ _ _ _ _ _ _ _ _ X0 F I Fe Kt) as [A B]. split; [assumption|]. now apply consume_toks in X1.
        - injection Q as <- <- <- <-. split; [now apply step_refl|assumption]. }
      destruct ts as [|[] r]; try (now apply D). destruct named; [|discriminate]. injection X as <- <- <- <-. split; [now apply step_refl|now apply toks_cons in K]. }
    destruct S1 as [(F1 & G1 & Fh) K1]. cbv zeta in E. pose proof (fits_grows _ _ _ G1 Fb) as Fb1. pose proof (env_grows _ _ _ G1 Fe) as Fe1.
    ok E p. destruct p as [[[h2 t] n] ts2].
    assert (S2 : good_step h1 h2 t /\ toks_ok ts2).
    { destruct ts1 as [|t0 r]; [injection X0 as <- <- <- <-; split; [now apply step_refl|assumption]|].
      destruct t0; try (injection X0 as <- <- <- <-; split; [now apply step_refl|assumption]).
      - destruct (create_function h1 base) as [h3 fn] eqn:C. destruct (create_function_fits _ _ _ _ C F1 Fb1) as ((A & B & Ff) & Kf). pose proof (env_grows _ _ _ B Fe1) as Fe3. apply toks_cons in K1.
        destruct (old_style e r).
        + ok X0 p. destruct p as [h4 ts3]. ok X0 ts4. injection X0 as <- <- <- <-. destruct (identifiers_fits e fn Kf _ _ _ _ _ (le_n _) X1 A Ff K1) as (P & Q & R).
          split; [|now apply consume_toks in X2]. split; [assumption|]. split; [now apply grows_trans with h3|now apply (fits_grows h3)].
        + ok X0 p. destruct p as [h4 ts3]. ok X0 ts4. injection X0 as <- <- <- <-. destruct (IHa _ _ _ _ _ _ _ X1 A Ff Kf Fe3 K1) as (P & Q & R).
          split; [|now apply consume_toks in X2]. split; [assumption|]. split; [now apply grows_trans with h3|now apply (fits_grows h3)].
      - eapply array_declarator_fits; eauto. }
    destruct S2 as [(F2 & G2 & Ft) K2]. destruct (is_void head).
    + injection E as <- <- <- <- <-. split; [|assumption]. split; [assumption|]. split; [now apply grows_trans with h1|assumption].
    + ok E p. destruct p as [h3 t3]. injection E as <- <- <- <- <-. split; [|assumption]. apply step_trans with h2; [now apply grows_trans with h1|]. eapply patch_fits; eauto. now apply (fits_grows h1).
  - intros def e h fn ts h' ts' E F Ff Kf Fe K. cbn [parameters] in E.
    assert (D : (let (base, ts0) := specifiers e None false false ts in
          let* (h0, t, x, n, ts1) := parameter_declarator f def e h base true true ts0 in
          if is_void t then let* fnode := handle h0 (ref fn) in if negb (Nat.eqb (length (members fnode)) 0) then Stop else let* h2 := type_seal h0 fn in Ok (h2, ts1)
          else
            let* (h2, t0) := (if is_array t then let* next := type_next h0 t in Ok (create_pointer h0 next) else if is_function t then Ok (create_pointer h0 t) else Ok (h0, t)) in
            let* h3 := add_member h2 fn (mkM x t0 n) in
            match ts1 with Kcomma :: Kdots :: r => let* h4 := add_dots h3 fn in Ok (h4, r) | Kcomma :: r => parameters f def (declared e x) h3 fn r | _ => Ok (h3, ts1) end) = Ok (h', ts') -> fitting h' /\ grows h h' /\ toks_ok ts').
    { clear E. intro E. destruct (specifiers e None false false ts) as [base ts1] eqn:Sp. destruct (specifiers_fits h e Fe _ _ _ _ _ _ Sp K I) as [Fb K1].
      ok E p. destruct p as [[[[h1 t] x] n] ts2]. destruct (IHp _ _ _ _ _ _ _ _ _ _ _ _ X F Fb Fe K1) as [(F1 & G1 & Ft) K2]. pose proof (fits_grows _ _ _ G1 Ff) as Ff1. destruct (is_void t).
      - ok E fnode. destruct (negb _); [discriminate|]. ok E h2. injection E as <- <-. destruct (type_seal_fits _ _ _ X1 F1 Ff1 Kf) as [A B]. split; [assumption|]. split; [now apply grows_trans with h1|assumption].
      - ok E p. destruct p as [h2 t2]. assert (S2 : good_step h1 h2 t2).
        { destruct (is_array t).
          - ok X0 nx. injection X0 as X0. exact (create_pointer_fits _ _ _ _ X0 F1 (fits_next _ _ _ F1 Ft X1)).
          - destruct (is_function t); injection X0 as X0; [eapply create_pointer_fits; eauto|subst; now apply step_refl]. }
        destruct S2 as (F2 & G2 & Ft2). pose proof (fits_grows _ _ _ G2 Ff1) as Ff2. ok E h3. destruct (add_member_fits _ _ _ _ X1 F2 Ff2 Kf Ft2) as [F3 G3]. pose proof (fits_grows _ _ _ G3 Ff2) as Ff3.
        assert (G : grows h h3) by (apply grows_trans with h2; [now apply grows_trans with h1|assumption]).
        destruct ts2 as [|t3 r]; [injection E as <- <-; auto|]. destruct t3; try (injection E as <- <-; now auto). apply toks_cons in K2.
        assert (Rest : parameters f def (declared e x) h3 fn r = Ok (h', ts') -> fitting h' /\ grows h h' /\ toks_ok ts').
        { intro Q. destruct (IHa _ _ _ _ _ _ _ Q F3 Ff3 Kf (declared_fits _ _ _ (env_grows _ _ _ G Fe)) K2) as (A & B & C). split; [assumption|]. split; [now apply grows_trans with h3|assumption]. }
        destruct r as [|t4 r1]; [now apply Rest|]. destruct t4; try (now apply Rest). ok E h4. injection E as <- <-. destruct (add_dots_fits _ _ _ X2 F3 Ff3 Kf) as [A B]. apply toks_cons in K2. split; [assumption|]. split; [now apply grows_trans with h3|assumption]. }
    destruct ts as [|[] r]; try (now apply D). injection E as <- <-. split; [assumption|]. split; [apply grows_refl|assumption].
Qed.
Theorem declarator_fits f def e h base named ts h' T x ts' : declarator f def e h base named ts = Ok (h', T, x, ts') ->
  fitting h -> fits h base -> env_fits h e -> toks_ok ts -> fitting h' /\ grows h h' /\ fits h' T.
Proof.
  unfold declarator. intros E F Fb Fe K. ok E p. destruct p as [[[[h1 t] y] n] ts1]. injection E as <- <- <- <-. destruct (declarators_fit f) as (P & _ & _). exact (proj1 (P _ _ _ _ _ _ _ _ _ _ _ _ X F Fb Fe K)).
Qed.

Lemma tags_grow tag h h' : grows h h' -> tags_ok tag h -> tags_ok tag h'.
Proof.
  intros G T r k z E. destruct (T r k z E) as (K & Z & n & N & Nk & Ns). split; [assumption|]. split; [assumption|]. destruct (G _ _ N) as (n' & N' & _ & Q).
  rewrite Q in N' by (rewrite Nk; destruct K as [->| ->]; reflexivity). eauto.
Qed.
Lemma apart_grows tag h h' : grows h h' -> tags_ok tag h -> apart tag h -> apart tag h'.
Proof.
  intros G T A r r' n n' E E' Ne N N'. destruct (tag r) as [[k z]|] eqn:Er; [|congruence]. destruct (tag r') as [[k' z']|] eqn:Er'; [|congruence].
  destruct (T _ _ _ Er) as (K & _ & m & M & Mk & _), (T _ _ _ Er') as (K' & _ & m' & M' & Mk' & _).
  destruct (G _ _ M) as (w & W & _ & Q). rewrite Q in W by (rewrite Mk; destruct K as [->| ->]; reflexivity). destruct (G _ _ M') as (w' & W' & _ & Q'). rewrite Q' in W' by (rewrite Mk'; destruct K' as [->| ->]; reflexivity).
  rewrite N in W. rewrite N' in W'. injection W as ->. injection W' as ->. apply (A r r'); congruence.
Qed.
Lemma env_more tag h h' : (forall X t, denotes tag h X t -> denotes tag h' X t) -> forall e s, env_ok tag h e s -> env_ok tag h' e s.
Proof. intros M. induction e as [|[x [T|]] e IH]; intros [|[y [t|]] s]; cbn; try tauto; intuition auto. Qed.

Section Twice.
Variables (tag : tags) (def : bool) (e1 e2 : env) (s1 s2 : senv) (h : heap) (base1 base2 : typ) (bt1 bt2 : ty) (d1 d2 : decl) (rest1 rest2 : list tok).
Hypothesis E1 : env_ok tag h e1 s1. Hypothesis E2 : env_ok tag h e2 s2. Hypothesis Tg : tags_ok tag h.
Hypothesis D1 : denotes tag h base1 bt1. Hypothesis D2 : denotes tag h base2 bt2.
Hypothesis G1 : good tag def false s1 d1 = true. Hypothesis G2 : good tag def false s2 d2 = true.
Hypothesis C1 : declarable tag (meaning s1 d1 bt1) = true. Hypothesis C2 : declarable tag (meaning s2 d2 bt2) = true.
Hypothesis R1 : ends_here rest1 = true. Hypothesis R2 : ends_here rest2 = true.
Hypothesis Ap : apart tag h. Hypothesis Ft : fitting h. Hypothesis F1 : fits h base1. Hypothesis F2 : fits h base2.
Hypothesis Fe1 : env_fits h e1. Hypothesis Fe2 : env_fits h e2. Hypothesis K1 : toks_ok (write d1 ++ rest1). Hypothesis K2 : toks_ok (write d2 ++ rest2).
Lemma twice : exists n h1 T1 h2 T2,
  (forall m, (n <= m)%nat -> declarator m def e1 h base1 true (write d1 ++ rest1) = Ok (h1, T1, declares d1, rest1) /\
     declarator m def e2 h1 base2 true (write d2 ++ rest2) = Ok (h2, T2, declares d2, rest2)) /\
  denotes tag h2 T1 (meaning s1 d1 bt1) /\ denotes tag h2 T2 (meaning s2 d2 bt2) /\ tidy h2 /\ tidy_typ h2 T1 /\ tidy_typ h2 T2 /\ apart tag h2.
Proof.
  destruct (C48_type_partial tag def e1 s1 h base1 bt1 d1 true rest1 E1 Tg D1 G1 C1 (or_introl eq_refl) R1) as (n1 & h1 & T1 & Q1 & M1 & K).
  destruct (declarator_fits _ _ _ _ _ _ _ _ _ _ _ (Q1 n1 (le_n _)) Ft F1 Fe1 K1) as (A & B & C).
  destruct (C48_type_partial tag def e2 s2 h1 base2 bt2 d2 true rest2 (env_more _ _ _ K _ _ E2) (tags_grow _ _ _ B Tg) (K _ _ D2) G2 C2 (or_introl eq_refl) R2) as (n2 & h2 & T2 & Q2 & M2 & K').
  destruct (declarator_fits _ _ _ _ _ _ _ _ _ _ _ (Q2 n2 (le_n _)) A (fits_grows _ _ _ B F2) (env_grows _ _ _ B Fe2) K2) as (A2 & B2 & C2').
  exists (Nat.max n1 n2), h1, T1, h2, T2. split; [intros m L; split; [apply Q1|apply Q2]; lia|]. split; [now apply K'|]. split; [assumption|]. split; [now apply fitting_tidy|].
  split; [apply fits_tidy; now apply (fits_grows h1)|]. split; [now apply fits_tidy|]. apply apart_grows with (h := h); auto. now apply grows_trans with h1.
Qed.

Theorem twice_accepted : let t1 := meaning s1 d1 bt1 in let t2 := meaning s2 d2 bt2 in
  compatible t1 t2 = true -> regular t1 = true -> regular t2 = true ->
  exists n h1 T1 h2 T2, forall m, (n <= m)%nat ->
    declarator m def e1 h base1 true (write d1 ++ rest1) = Ok (h1, T1, declares d1, rest1) /\
    declarator m def e2 h1 base2 true (write d2 ++ rest2) = Ok (h2, T2, declares d2, rest2) /\
    exists h3 T r, sym_apply_type m h2 T1 T2 = Ok (h3, T) /\ denotes tag h3 T r /\ compatible r t1 = true /\ compatible r t2 = true /\ (knows t1 || knows t2 = true -> knows r = true).
Proof.
  intros t1 t2 C Rg1 Rg2. destruct twice as (n & h1 & T1 & h2 & T2 & Q & M1 & M2 & Ti & Ti1 & Ti2 & Aa).
  exists (Nat.max n (S (S (S (depth t1))))), h1, T1, h2, T2. intros m L. destruct (Q m ltac:(lia)) as [Q1 Q2]. split; [exact Q1|]. split; [exact Q2|].
  destruct (apply_accepts tag h2 Aa Ti m T1 t1 T2 t2 ltac:(lia) M1 M2 Ti1 Ti2 C Rg1 Rg2) as (h3 & T & r & Ap3 & (S1 & S2 & S3 & S4 & S5) & S6 & S7).
  exists h3, T, r. auto 10.
Qed.
Theorem twice_refused : let t1 := meaning s1 d1 bt1 in let t2 := meaning s2 d2 bt2 in
  formed t1 = true -> ~ taken t1 t2 ->
  exists n h1 T1 h2 T2, forall m, (n <= m)%nat ->
    declarator m def e1 h base1 true (write d1 ++ rest1) = Ok (h1, T1, declares d1, rest1) /\
    declarator m def e2 h1 base2 true (write d2 ++ rest2) = Ok (h2, T2, declares d2, rest2) /\
    sym_apply_type m h2 T1 T2 = Stop.
Proof.
  intros t1 t2 Fo Nt. destruct twice as (n & h1 & T1 & h2 & T2 & Q & M1 & M2 & Ti & Ti1 & Ti2 & Aa).
  exists (Nat.max n (S (S (S (depth t1))))), h1, T1, h2, T2. intros m L. destruct (Q m ltac:(lia)) as [Q1 Q2]. split; [exact Q1|]. split; [exact Q2|].
  destruct (apply_settles tag h2 Aa Ti m T1 t1 T2 t2 ltac:(lia) M1 M2 Ti1 Ti2 Fo) as [S|(X & _)]; [exact S|contradiction].
Qed.
End Twice.
