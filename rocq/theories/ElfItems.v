(* The effect of each declaration, object and function on the lists of ElfProofs. *)
From Coq Require Import List ZArith Lia Bool.
From Verif Require Import Util Bytes ElfModel ElfSpec ElfProofs ElfSteps ElfJump.
Import ListNotations.
Open Scope Z_scope.

Definition mkrel (r : Z * Z * Z * Z) : reloc := let '(y, t, o, a) := r in Reloc y t o a.
Definition a_datum (a : abs) (d : dat) : abs :=
  match d with
  | DBytes b => w_dat a (a_dat a ++ b)
  | DAddr y ad => w_dat (w_rd a (a_rd a ++ [Reloc y 1 (zlen (a_dat a)) ad])) (a_dat a ++ zeros 8)
  end.
Definition a_data (a : abs) (ds : list dat) : abs :=
  w_dat (w_rd a (a_rd a ++ map mkrel (dat_rels (zlen (a_dat a)) ds))) (a_dat a ++ flat_map dat_bytes ds).

Lemma dlens_cons d r : dlens (d :: r) = dlen d + dlens r. Proof. reflexivity. Qed.
Lemma dlens_nonneg ds : 0 <= dlens ds.
Proof. induction ds as [|d r IH]; [cbn; lia|]. rewrite dlens_cons. assert (0 <= dlen d) by (destruct d; cbn [dlen]; [apply zlen_nonneg|lia]). lia. Qed.
Lemma dat_bytes_len d : zlen (dat_bytes d) = dlen d. Proof. destruct d; reflexivity. Qed.
Lemma flat_dat_len ds : zlen (flat_map dat_bytes ds) = dlens ds.
Proof. induction ds as [|d r IH]; [reflexivity|]. cbn [flat_map]. rewrite zlen_app, IH, dat_bytes_len. reflexivity. Qed.
Lemma datum_R a s d : R a s -> zlen (a_dat a) + dlen d < 2 ^ 31 -> exists s', elf_data s d = Ok s' /\ R (a_datum a d) s'.
Proof.
  intros HR B. pose proof (zlen_nonneg (a_dat a)). destruct d as [b|y ad]; cbn [elf_data a_datum dlen] in *.
  - destruct (write_R a s 6 b HR ltac:(cbn; auto)) as (s1 & E & R1). change data with 6%nat. rewrite E. exists s1. split; [reflexivity|exact R1].
  - assert (exists s1, add_relocation s rela_data y 1 0 ad = Ok s1 /\ R (w_rd a (a_rd a ++ [Reloc y 1 (zlen (a_dat a)) ad])) s1) as (s1 & E1 & R1).
    { destruct HR as (cp & -> & C). eexists. split; [reflexivity|]. exists cp. split; [|exact C].
      unfold set_prel, conc, get, size_of_sec. cbn [secs nth s_hdr sh_info rela_data get]. change (Z.to_nat 6) with 6%nat.
      cbn [nth s_hdr sh_size]. rewrite Z.add_0_r, int32_small by lia. reflexivity. }
    rewrite E1. cbn [bind].
    destruct (write_R _ s1 6 (zeros 8) R1 ltac:(cbn; auto)) as (s2 & E2 & R2). change data with 6%nat. rewrite E2.
    exists s2. split; [reflexivity|exact R2].
Qed.
Lemma data_eq a d ds : a_data (a_datum a d) ds = a_data a (d :: ds).
Proof.
  destruct d as [b|y ad]; unfold a_data, a_datum; cbn [w_dat w_rd a_dat a_rd dat_rels flat_map dat_bytes app map mkrel dlen].
  - rewrite zlen_app, <- app_assoc. reflexivity.
  - rewrite zlen_app, <- !app_assoc. reflexivity.
Qed.
Lemma data_R c ds : forall a s, R a s -> zlen (a_dat a) + dlens ds < 2 ^ 31 ->
  exists s', run c s (map OData ds) = Ok s' /\ R (a_data a ds) s'.
Proof.
  induction ds as [|d r IH]; intros a s HR B.
  - exists s. split; [reflexivity|]. unfold a_data. cbn. rewrite !app_nil_r. destruct a. exact HR.
  - rewrite dlens_cons in B. pose proof (dlens_nonneg r). cbn [map run step].
    destruct (datum_R a s d HR ltac:(lia)) as (s1 & E1 & R1). rewrite E1. cbn [bind].
    destruct (IH _ s1 R1) as (s2 & E2 & R2).
    { assert (zlen (a_dat (a_datum a d)) = zlen (a_dat a) + dlen d) as -> by (destruct d; cbn [a_datum w_dat w_rd a_dat dlen]; rewrite zlen_app; reflexivity).
      lia. }
    exists s2. split; [exact E2|]. rewrite <- data_eq. exact R2.
Qed.

Definition a_item (c : ctx) (a : abs) (t : item) : abs :=
  match t with
  | TDecl y => a_symbol c a y
  | TData y ds => a_data (a_symbol c a y) ds
  | TFun y b => a_fun c a y b
  end.

Lemma align_up_padz n al : 0 <= n -> 0 < al -> n + padz n al = align_up n al.
Proof.
  intros N A. unfold padz, align_up. pose proof (Z.mod_pos_bound n al A). pose proof (Z.div_mod n al ltac:(lia)) as D.
  set (q := n / al) in *. set (r := n mod al) in *.
  destruct (Z.eqb_spec r 0).
  - replace (n + al - 1) with (q * al + (al - 1)) by lia. rewrite Z.div_add_l by lia. rewrite (Z.div_small (al - 1)) by lia. lia.
  - replace (n + al - 1) with ((q + 1) * al + (r - 1)) by lia. rewrite Z.div_add_l by lia. rewrite (Z.div_small (r - 1)) by lia. lia.
Qed.
Lemma padz_nonneg n al : 0 < al -> 0 <= padz n al.
Proof. intro A. unfold padz. pose proof (Z.mod_pos_bound n al A). destruct (n mod al =? 0); lia. Qed.
Lemma align_up_mod n al : al <> 0 -> align_up n al mod al = 0.
Proof. intro. apply Z.mod_mul. assumption. Qed.
Lemma align_up_ge n al : 0 < al -> n <= align_up n al.
Proof. intro A. unfold align_up. pose proof (Z.div_mod (n + al - 1) al ltac:(lia)). pose proof (Z.mod_pos_bound (n + al - 1) al A). lia. Qed.

(* the sizes, from the items so far *)
Record inv (c : ctx) (l : list item) (a : abs) : Prop := {
  i_bss : a_bss a = place_len c PBss l; i_rod : zlen (a_rod a) = place_len c PRodata l;
  i_dat : zlen (a_dat a) = place_len c PData l; i_txt : zlen (a_txt a) = place_len c PText l;
  i_loc : loc a; i_pend : a_pend a = []; i_rdb : a_rdb a = []; i_rtb : a_rtb a = [];
  i_al : In (a_bal a) [4; 8; 16] /\ a_ral a = 16 /\ In (a_dal a) [4; 8; 16];
  i_cov : Forall (fun t => let y := sym_of t in
      match place_of c y with PBss => y_align y <= a_bal a | PData => y_align y <= a_dal a | _ => True end) l }.
Definition entry (c : ctx) (l : list item) (a : abs) (t : item) : esym :=
  Esym (zlen (str_base (a_str a))) (16 * bind_of (sym_of t) + type_of c (sym_of t)) (shndx_of (place_of c (sym_of t)))
    (value_of c l t) (size_of_sym c t).
(* what an item adds to the contents of its section *)
Definition adds (p : place) (a a' : abs) (t : item) : Prop :=
  match p with
  | PRodata => a_dat a' = a_dat a /\ a_txt a' = a_txt a /\ a_bss a' = a_bss a /\
      a_rod a' = a_rod a ++ zeros (padz (zlen (a_rod a)) (y_align (sym_of t))) ++ y_raw (sym_of t)
  | PData => a_rod a' = a_rod a /\ a_txt a' = a_txt a /\ a_bss a' = a_bss a /\
      a_dat a' = a_dat a ++ zeros (padz (zlen (a_dat a)) (y_align (sym_of t))) ++ flat_map dat_bytes (data_of t)
  | PText => a_rod a' = a_rod a /\ a_dat a' = a_dat a /\ a_bss a' = a_bss a /\
      exists K, a_txt a' = a_txt a ++ fin_b K (zlen (a_txt a)) (body_of t) /\
        forall y b1 b2, body_of t = b1 ++ CLabel y :: b2 -> K (y_id y) = zlen (a_txt a) + code_len b1
  | PBss => a_rod a' = a_rod a /\ a_dat a' = a_dat a /\ a_txt a' = a_txt a /\
      a_bss a' = a_bss a + padz (a_bss a) (y_align (sym_of t)) + y_size (sym_of t)
  | _ => a_rod a' = a_rod a /\ a_dat a' = a_dat a /\ a_txt a' = a_txt a /\ a_bss a' = a_bss a
  end.
Record stepped (c : ctx) (l : list item) (a a' : abs) (t : item) : Prop := {
  s_str : a_str a' = str_base (a_str a) ++ y_name (sym_of t) ++ [0];
  s_ent : a_ent a' = a_ent a ++ if is_intern (y_link (sym_of t)) then [entry c l a t] else [];
  s_glob : a_glob a' = a_glob a ++ if is_intern (y_link (sym_of t)) then [] else [(y_id (sym_of t), entry c l a t)];
  s_adds : adds (place_of c (sym_of t)) a a' t;
  s_rt : a_rt a' = a_rt a ++ map mkrel (code_rels (value_of c l t) (body_of t));
  s_rd : a_rd a' = a_rd a ++ map mkrel (dat_rels (value_of c l t) (data_of t));
  s_other : forall z, ~ In z (ids_of t) -> a_off a' z = a_off a z;
  s_off : a_off a' (y_id (sym_of t)) = if is_intern (y_link (sym_of t)) then zlen (a_ent a) else a_off a (y_id (sym_of t));
  s_inv : inv c (l ++ [t]) a' }.

Definition v0 (c : ctx) (a : abs) (y : symb) : Z :=
  match place_of c y with
  | PText => zlen (a_txt a)
  | PData => zlen (a_dat a ++ zeros (padz (zlen (a_dat a)) (y_align y)))
  | PRodata => zlen (a_rod a ++ zeros (padz (zlen (a_rod a)) (y_align y)))
  | PBss => a_bss a + padz (a_bss a) (y_align y)
  | PCommon => y_align y
  | PUndef => 0
  end.
Definition e0 (c : ctx) (a : abs) (y : symb) : esym :=
  Esym (zlen (str_base (a_str a))) (16 * bind_of y + type_of c y) (shndx_of (place_of c y)) (v0 c a y)
    (match place_of c y with PText | PUndef => 0 | _ => y_size y end).
Definition pick (c : ctx) (y : symb) (p : place) {A} (u v : A) : A := if place_eqb (place_of c y) p then u else v.
Definition a_symbol' (c : ctx) (a : abs) (y : symb) : abs :=
  let i := is_intern (y_link y) in
  Abs (str_base (a_str a) ++ y_name y ++ [0])
    (a_ent a ++ if i then [e0 c a y] else []) (a_info a)
    (pick c y PBss (a_bss a + padz (a_bss a) (y_align y) + y_size y) (a_bss a))
    (pick c y PBss (Z.max (a_bal a) (y_align y)) (a_bal a))
    (pick c y PRodata ((a_rod a ++ zeros (padz (zlen (a_rod a)) (y_align y))) ++ firstn (Z.to_nat (y_size y)) (y_raw y)) (a_rod a))
    (pick c y PRodata (Z.max (a_ral a) (y_align y)) (a_ral a))
    (pick c y PData (a_dat a ++ zeros (padz (zlen (a_dat a)) (y_align y))) (a_dat a))
    (pick c y PData (Z.max (a_dal a) (y_align y)) (a_dal a))
    (a_rdb a) (a_txt a) (a_rtb a)
    (if i then upd_off (a_off a) (y_id y) (zlen (a_ent a)) else a_off a)
    (a_glob a ++ if i then [] else [(y_id y, e0 c a y)]) (a_rd a) (a_rt a) (a_pend a)
    (if y_fun y then if i then CStatic (zlen (a_ent a)) else CGlobal (length (a_glob a)) else a_cur a).
Lemma a_symbol_eq c a y : sym_wf y -> zlen (str_base (a_str a)) < 2 ^ 31 -> a_symbol c a y = a_symbol' c a y.
Proof.
  intros (WL & WK & _) B. unfold a_symbol, a_symbol', e0, v0, pick.
  pose proof (zlen_nonneg (str_base (a_str a))). rewrite int32_small by lia.
  generalize (zlen (str_base (a_str a))) as nm. intro nm.
  generalize (str_base (a_str a) ++ y_name y ++ [0]) as st. intro st.
  unfold a_place, a_assoc, bnd, in_bss, type_of, bind_of, place_of.
  destruct (y_kind y); try contradiction; destruct (y_link y); try contradiction; destruct (no_common c), (y_fun y);
    cbn -[zlen Z.max zeros padz firstn Z.to_nat Z.add]; rewrite ?app_nil_r; try reflexivity.
Qed.

Lemma place_len_snoc c p l t : place_len c p (l ++ [t]) = fill c p (place_len c p l) t.
Proof. unfold place_len. rewrite fold_left_app. reflexivity. Qed.
Lemma place_eqb_spec p q : reflect (p = q) (place_eqb p q).
Proof. destruct p, q; constructor; congruence. Qed.
Lemma item_len_nonneg t : item_wf t -> 0 <= item_len t.
Proof. intros ((_ & _ & _ & WS & _) & _). destruct t; cbn [item_len sym_of] in *; [exact WS|apply dlens_nonneg|apply code_len_nonneg]. Qed.
Lemma al_pos t : item_wf t -> 0 < y_align (sym_of t) <= 16.
Proof. intros ((_ & _ & WA & _) & _). cbn [In] in WA. lia. Qed.
Lemma place_len_nonneg c p l : Forall item_wf l -> 0 <= place_len c p l.
Proof.
  induction l as [|t l IH] using rev_ind; intro F; [cbn; lia|]. apply Forall_app in F. destruct F as [F1 F2].
  apply Forall_inv in F2. specialize (IH F1). rewrite place_len_snoc. unfold fill.
  pose proof (item_len_nonneg t F2). pose proof (align_up_ge (place_len c p l) (y_align (sym_of t)) ltac:(apply al_pos; auto)).
  destruct (place_eqb _ _); [|lia]. destruct p; lia.
Qed.
Lemma v0_value c l a t : inv c l a -> item_wf t -> v0 c a (sym_of t) = value_of c l t.
Proof.
  intros I W. pose proof (al_pos t W). unfold v0, value_of. destruct (place_of c (sym_of t)) eqn:P; auto.
  - apply (i_txt _ _ _ I).
  - rewrite zlen_app, zlen_zeros by (apply padz_nonneg; lia). rewrite align_up_padz; [|apply zlen_nonneg|lia].
    rewrite (i_dat _ _ _ I). reflexivity.
  - rewrite zlen_app, zlen_zeros by (apply padz_nonneg; lia). rewrite align_up_padz; [|apply zlen_nonneg|lia].
    rewrite (i_rod _ _ _ I). reflexivity.
  - unfold padz, align_up. rewrite (i_bss _ _ _ I). set (n := place_len c PBss l). set (al := y_align (sym_of t)) in *.
    pose proof (Z.mod_pos_bound n al ltac:(lia)). pose proof (Z.div_mod n al ltac:(lia)) as D.
    set (q := n / al) in *. set (r := n mod al) in *.
    destruct (Z.eqb_spec r 0).
    + replace (n + al - 1) with (q * al + (al - 1)) by lia. rewrite Z.div_add_l by lia. rewrite (Z.div_small (al - 1)) by lia. lia.
    + replace (n + al - 1) with ((q + 1) * al + (r - 1)) by lia. rewrite Z.div_add_l by lia. rewrite (Z.div_small (r - 1)) by lia. lia.
Qed.
Lemma max_in n al : In n [4; 8; 16] -> In al [1; 2; 4; 8; 16] -> In (Z.max n al) [4; 8; 16].
Proof. cbn [In]. intros H1 H2. lia. Qed.

(* the symbol alone *)
Lemma firstn_raw y : zlen (y_raw y) = y_size y -> firstn (Z.to_nat (y_size y)) (y_raw y) = y_raw y.
Proof. intros <-. rewrite to_nat_zlen. apply firstn_all. Qed.
Lemma loc_symbol' c a y : sym_wf y -> zlen (str_base (a_str a)) < 2 ^ 31 -> loc a -> loc (a_symbol' c a y).
Proof. intros W B L. rewrite <- a_symbol_eq by assumption. apply loc_symbol. exact L. Qed.

Lemma cov_snoc c l t b1 b2 d1 d2 :
  Forall (fun t => let y := sym_of t in match place_of c y with PBss => y_align y <= b1 | PData => y_align y <= d1 | _ => True end) l ->
  b1 <= b2 -> d1 <= d2 ->
  (let y := sym_of t in match place_of c y with PBss => y_align y <= b2 | PData => y_align y <= d2 | _ => True end) ->
  Forall (fun t => let y := sym_of t in match place_of c y with PBss => y_align y <= b2 | PData => y_align y <= d2 | _ => True end) (l ++ [t]).
Proof.
  intros F B D T. apply Forall_app. split; [|constructor; auto].
  eapply Forall_impl; [|exact F]. cbn. intros x. destruct (place_of c (sym_of x)); auto; lia.
Qed.

Lemma decl_step c l a y : inv c l a -> item_wf (TDecl y) -> zlen (str_base (a_str a)) < 2 ^ 31 ->
  stepped c l a (a_item c a (TDecl y)) (TDecl y).
Proof.
  intros I W B. pose proof (v0_value c l a _ I W) as V. pose proof (al_pos _ W) as AP.
  destruct W as [W WK]. cbn [sym_of] in *. cbn [a_item]. rewrite a_symbol_eq by assumption.
  pose proof (loc_symbol' c a y W B (i_loc _ _ _ I)) as L.
  destruct W as (WL & WL2 & WA & WS & WR & WN).
  assert (place_of c y <> PText /\ place_of c y <> PData) as [NT ND].
  { unfold place_of. destruct (y_fun y), (y_kind y), (y_link y), (no_common c); split; try discriminate; contradiction. }
  assert (place_of c y = PRodata -> zlen (y_raw y) = y_size y) as RW.
  { unfold place_of. destruct (y_fun y), (y_kind y), (y_link y), (no_common c); try discriminate; intros _; apply WR; auto. }
  assert (entry c l a (TDecl y) = e0 c a y) as EE.
  { unfold entry, e0, size_of_sym. cbn [sym_of]. rewrite V. destruct (place_of c y); try contradiction; reflexivity. }
  destruct I as [I1 I2 I3 I4 I5 I6 I7 I8 (I9 & I10 & I11) I12].
  constructor; unfold a_symbol'; cbn [a_str a_ent a_info a_bss a_bal a_rod a_ral a_dat a_dal a_rdb a_txt a_rtb a_off a_glob a_rd a_rt a_pend a_cur sym_of body_of data_of code_rels dat_rels map];
    rewrite ?EE, ?app_nil_r; auto.
  - unfold adds, pick. destruct (place_of c y) eqn:P; try contradiction; cbn [place_eqb sym_of a_rod a_dat a_txt a_bss]; repeat split; auto.
    rewrite firstn_raw by auto. rewrite app_assoc. reflexivity.
  - intros z N. cbn [ids_of sym_of body_of labels_of flat_map map] in N. unfold upd_off.
    destruct (is_intern (y_link y)); auto. destruct (Z.eqb_spec z (y_id y)); auto. exfalso. apply N. left. auto.
  - unfold upd_off. destruct (is_intern (y_link y)); auto. rewrite Z.eqb_refl. reflexivity.
  - unfold v0 in V. unfold value_of in V. cbn [sym_of] in V.
    constructor; cbn [a_str a_ent a_info a_bss a_bal a_rod a_ral a_dat a_dal a_rdb a_txt a_rtb a_off a_glob a_rd a_rt a_pend a_cur];
      rewrite ?place_len_snoc; unfold fill, pick; cbn [sym_of item_len].
    + destruct (place_of c y) eqn:P; cbn [place_eqb]; try contradiction; auto. rewrite V. reflexivity.
    + destruct (place_of c y) eqn:P; cbn [place_eqb]; try contradiction; auto. rewrite zlen_app, V, firstn_raw, RW by auto. reflexivity.
    + destruct (place_of c y) eqn:P; cbn [place_eqb]; try contradiction; auto.
    + destruct (place_of c y) eqn:P; cbn [place_eqb]; try contradiction; auto.
    + exact L.
    + exact I6.
    + exact I7.
    + exact I8.
    + split; [|split].
      * destruct (place_eqb (place_of c y) PBss); auto using max_in.
      * destruct (place_eqb (place_of c y) PRodata); auto. rewrite I10. lia.
      * destruct (place_eqb (place_of c y) PData); auto using max_in.
    + eapply cov_snoc; [exact I12| | |]; cbn [sym_of]; destruct (place_of c y); cbn [place_eqb]; try lia; auto.
Qed.

Lemma data_step c l a y ds : inv c l a -> item_wf (TData y ds) -> zlen (str_base (a_str a)) < 2 ^ 31 ->
  stepped c l a (a_item c a (TData y ds)) (TData y ds).
Proof.
  intros I W B. pose proof (v0_value c l a _ I W) as V. pose proof (al_pos _ W) as AP.
  destruct W as (W & WF & WK & WD). cbn [sym_of] in *. cbn [a_item]. rewrite a_symbol_eq by assumption.
  pose proof (loc_symbol' c a y W B (i_loc _ _ _ I)) as L.
  destruct W as (WL & WL2 & WA & WS & WR & WN).
  assert (place_of c y = PData) as P by (unfold place_of; rewrite WF, WK; reflexivity).
  assert (entry c l a (TData y ds) = e0 c a y) as EE.
  { unfold entry, e0, size_of_sym. cbn [sym_of]. rewrite V, P. reflexivity. }
  unfold v0 in V. rewrite P in V.
  destruct I as [I1 I2 I3 I4 I5 I6 I7 I8 (I9 & I10 & I11) I12].
  constructor; unfold a_data, a_symbol', pick; rewrite ?P; cbn [place_eqb w_dat w_rd a_str a_ent a_info a_bss a_bal a_rod a_ral a_dat a_dal a_rdb a_txt a_rtb a_off a_glob a_rd a_rt a_pend a_cur sym_of body_of data_of code_rels map];
    rewrite ?EE, ?app_nil_r; auto.
  - rewrite P. unfold adds. cbn [a_rod a_dat a_txt a_bss sym_of data_of]. repeat split; auto. rewrite <- app_assoc. reflexivity.
  - rewrite V. reflexivity.
  - intros z N. cbn [ids_of sym_of body_of labels_of flat_map map] in N. unfold upd_off.
    destruct (is_intern (y_link y)); auto. destruct (Z.eqb_spec z (y_id y)); auto. exfalso. apply N. left. auto.
  - unfold upd_off. destruct (is_intern (y_link y)); auto. rewrite Z.eqb_refl. reflexivity.
  - unfold value_of in V. cbn [sym_of] in V. rewrite P in V.
    constructor; cbn [w_dat w_rd a_str a_ent a_info a_bss a_bal a_rod a_ral a_dat a_dal a_rdb a_txt a_rtb a_off a_glob a_rd a_rt a_pend a_cur];
      rewrite ?place_len_snoc; unfold fill; cbn [sym_of item_len]; rewrite ?P; cbn [place_eqb]; auto.
    + rewrite zlen_app, V, flat_dat_len. reflexivity.
    + split; [|split]; auto. apply max_in; auto.
    + eapply cov_snoc; [exact I12| | |]; cbn [sym_of]; rewrite ?P; lia.
Qed.

Lemma inc_ent_last l e n : inc_ent (l ++ [e]) (length l) n = l ++ [add_size e n].
Proof.
  unfold inc_ent. rewrite nth_error_app2, Nat.sub_diag by lia. cbn [nth_error]. rewrite upd_app_r, Nat.sub_diag by lia. reflexivity.
Qed.
Lemma inc_glob_last l y e n : inc_glob (l ++ [(y, e)]) (length l) n = l ++ [(y, add_size e n)].
Proof.
  unfold inc_glob. rewrite nth_error_app2, Nat.sub_diag by lia. cbn [nth_error]. rewrite upd_app_r, Nat.sub_diag by lia. reflexivity.
Qed.
Lemma rel_p_eq ps : forall pos, rel_p pos ps = map mkrel (piece_rels pos ps).
Proof. induction ps as [|[b|l d|y t ad] r IH]; intro pos; cbn [rel_p piece_rels app map plen mkrel]; [reflexivity|..]; rewrite IH; reflexivity. Qed.
Lemma prels_nop ps pos : instr_wf ps -> is_nop ps = true -> piece_rels pos ps = [].
Proof. intros (_ & _ & N) E. rewrite (N E). reflexivity. Qed.
Lemma rel_b_eq b : forall pos, Forall cmd_wf b -> rel_b pos b = map mkrel (code_rels pos b).
Proof.
  induction b as [|[y|ps] r IH]; intros pos F; cbn [rel_b code_rels app map clen].
  - reflexivity.
  - inversion F; subst. rewrite Z.add_0_r. auto.
  - inversion F as [|? ? W F']; subst. rewrite map_app, <- IH by assumption. unfold ilen. destruct (is_nop ps) eqn:E.
    + rewrite prels_nop, Z.add_0_r by assumption. reflexivity.
    + rewrite rel_p_eq. reflexivity.
Qed.

Lemma fun_step c l a y b : inv c l a -> item_wf (TFun y b) -> NoDup (ids_of (TFun y b)) -> zlen (str_base (a_str a)) < 2 ^ 31 ->
  stepped c l a (a_item c a (TFun y b)) (TFun y b).
Proof.
  intros I W ND B. pose proof (v0_value c l a _ I W) as V. pose proof (al_pos _ W) as AP.
  destruct W as (W & WF & WK & WC & WE & WJ). cbn [sym_of] in *. cbn [a_item]. unfold a_fun. rewrite a_symbol_eq by assumption.
  pose proof (loc_symbol' c a y W B (i_loc _ _ _ I)) as L.
  destruct W as (WL & WL2 & WA & WS & WR & WN).
  assert (place_of c y = PText) as P by (unfold place_of; rewrite WF, WK; reflexivity).
  assert (entry c l a (TFun y b) = add_size (e0 c a y) (code_len b)) as EE.
  { unfold entry, e0, size_of_sym, add_size. cbn [sym_of st_name st_info st_shndx st_value st_size]. rewrite V, P. reflexivity. }
  cbn [ids_of sym_of body_of] in ND. assert (~ In (y_id y) (map y_id (labels_of b))) as NI by (inversion ND; assumption).
  assert (NoDup (map y_id (labels_of b))) as ND' by (inversion ND; assumption).
  unfold v0 in V. rewrite P in V.
  rewrite incr_eq. unfold incr_ents, incr_globs.
  change (a_txt (a_symbol' c a y)) with (a_txt a). set (p := zlen (a_txt a)) in *.
  set (K := off_b (a_off (a_symbol' c a y)) p b).
  destruct I as [I1 I2 I3 I4 I5 I6 I7 I8 (I9 & I10 & I11) I12].
  assert (forall z, ~ In z (map y_id (labels_of b)) -> K z = a_off (a_symbol' c a y) z) as KO by (intros; apply off_b_other; assumption).
  assert (forall x, w_ent (w_off (w_rt (w_txt (a_symbol' c a y) (a_txt a ++ fin_b K p b)) (a_rt (a_symbol' c a y) ++ rel_b p b)) K) x =
     w_off (w_rt (w_txt (w_ent (a_symbol' c a y) x) (a_txt a ++ fin_b K p b)) (a_rt (a_symbol' c a y) ++ rel_b p b)) K) as WE1 by reflexivity.
  assert (forall z b1 b2, b = b1 ++ CLabel z :: b2 -> K (y_id z) = p + code_len b1) as KA.
  { intros z b1 b2 E. unfold K. rewrite E. apply off_b_at. rewrite <- E. exact ND'. }
  clearbody K.
  assert (forall X, X = (match (if is_intern (y_link y) then CStatic (zlen (a_ent a)) else CGlobal (length (a_glob a))) with
      | CStatic i => inc_ent (a_ent a ++ if is_intern (y_link y) then [e0 c a y] else []) (Z.to_nat i) (code_len b)
      | _ => a_ent a ++ if is_intern (y_link y) then [e0 c a y] else [] end) ->
      X = a_ent a ++ if is_intern (y_link y) then [entry c l a (TFun y b)] else []) as SE.
  { intros X ->. rewrite EE. destruct (is_intern (y_link y)); [|reflexivity]. rewrite to_nat_zlen. apply inc_ent_last. }
  assert (forall X, X = (match (if is_intern (y_link y) then CStatic (zlen (a_ent a)) else CGlobal (length (a_glob a))) with
      | CGlobal i => inc_glob (a_glob a ++ if is_intern (y_link y) then [] else [(y_id y, e0 c a y)]) i (code_len b)
      | _ => a_glob a ++ if is_intern (y_link y) then [] else [(y_id y, e0 c a y)] end) ->
      X = a_glob a ++ if is_intern (y_link y) then [] else [(y_id y, entry c l a (TFun y b))]) as SG.
  { intros X ->. rewrite EE. destruct (is_intern (y_link y)); [reflexivity|]. apply inc_glob_last. }
  unfold a_symbol', pick in *. rewrite P in *. rewrite WF in *.
  cbn [place_eqb w_glob w_ent w_off w_rt w_txt a_str a_ent a_info a_bss a_bal a_rod a_ral a_dat a_dal a_rdb a_txt a_rtb a_off a_glob a_rd a_rt a_pend a_cur] in *.
  constructor; cbn [a_str a_ent a_info a_bss a_bal a_rod a_ral a_dat a_dal a_rdb a_txt a_rtb a_off a_glob a_rd a_rt a_pend a_cur sym_of body_of data_of dat_rels map];
    rewrite ?app_nil_r; auto.
  - rewrite P. unfold adds. cbn [a_rod a_dat a_txt a_bss sym_of body_of]. repeat split; auto. exists K. split; [reflexivity|].
    exact KA.
  - rewrite rel_b_eq by assumption. rewrite V. reflexivity.
  - intros z N. cbn [ids_of sym_of body_of In] in N. rewrite KO by tauto. unfold upd_off.
    destruct (is_intern (y_link y)); auto. destruct (Z.eqb_spec z (y_id y)); auto. exfalso. apply N. left. auto.
  - rewrite KO by exact NI. unfold upd_off. destruct (is_intern (y_link y)); auto. rewrite Z.eqb_refl. reflexivity.
  - unfold value_of in V. cbn [sym_of] in V. rewrite P in V.
    constructor; cbn [w_glob w_ent w_off w_rt w_txt a_str a_ent a_info a_bss a_bal a_rod a_ral a_dat a_dal a_rdb a_txt a_rtb a_off a_glob a_rd a_rt a_pend a_cur];
      rewrite ?place_len_snoc; unfold fill; cbn [sym_of item_len]; rewrite ?P; cbn [place_eqb]; auto.
    + rewrite zlen_app, fin_b_len. fold p. rewrite V. reflexivity.
    + destruct L as (L1 & L2 & L3). cbn [w_glob w_ent w_off w_rt w_txt a_ent a_info a_cur] in *.
      split; [exact L1|]. cbn [w_glob w_ent w_off w_rt w_txt a_ent a_cur]. rewrite (SE _ eq_refl). destruct I5 as (_ & IN & IF).
      destruct (is_intern (y_link y)) eqn:LI; [|rewrite app_nil_r; split; assumption]. split.
      * destruct (a_ent a); discriminate.
      * apply Forall_app. split; [exact IF|]. constructor; [|constructor]. rewrite EE. unfold add_size, e0. cbn [st_info].
        unfold bind_of, type_of. destruct (y_link y); try discriminate. rewrite WF. lia.
    + eapply cov_snoc; [exact I12| | |]; cbn [sym_of]; rewrite ?P; auto; lia.
Qed.
