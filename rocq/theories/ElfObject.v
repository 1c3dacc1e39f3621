(* The file written for a list of declarations, objects and functions. *)
From Coq Require Import List ZArith Lia Bool.
From Verif Require Import Util Bytes ElfModel ElfSpec ElfProofs ElfSteps ElfJump ElfItems ElfAll ElfFlush ElfRead ElfFinal.
Import ListNotations.
Open Scope Z_scope.

Lemma small_parts c file l : small c file l ->
  place_len c PText l < 2 ^ 31 /\ place_len c PData l < 2 ^ 31 /\ place_len c PRodata l < 2 ^ 31 /\
  place_len c PBss l < 2 ^ 31 /\ str_len file l + 22 < 2 ^ 31 /\
  Forall (fun t => y_size (sym_of t) < 2 ^ 31) l /\
  zlen (text_relocs c [] l) < 2 ^ 31 /\ zlen (data_relocs c [] l) < 2 ^ 31.
Proof. intros (A & B & C & D & E & F & G & H & _). auto 10. Qed.

Lemma align_up_nonneg n al : 0 <= n -> 0 < al -> 0 <= align_up n al.
Proof. intros. pose proof (align_up_ge n al). lia. Qed.
Lemma value_bound c l t p : Forall item_wf l -> item_wf t -> place_of c (sym_of t) = p ->
  0 <= value_of c l t /\
  match p with
  | PCommon => value_of c l t <= 16
  | PUndef => value_of c l t = 0
  | _ => value_of c l t + item_len t <= place_len c p (l ++ [t])
  end.
Proof.
  intros F W P. pose proof (item_len_nonneg t W). pose proof (al_pos t W).
  pose proof (fun q => place_len_nonneg c q l F) as NN. pose proof (fun q => align_up_nonneg (place_len c q l) (y_align (sym_of t)) (NN q) ltac:(lia)).
  unfold value_of. rewrite place_len_snoc. unfold fill. rewrite P. destruct p; cbn [place_eqb]; split; auto; try lia.
Qed.
Lemma entry_small c file l m t : wf (l ++ t :: m) -> small c file (l ++ t :: m) -> ent_small (entry c l (a_all c file l) t) /\
  st_info (entry c l (a_all c file l) t) = 16 * bind_of (sym_of t) + type_of c (sym_of t) /\ 0 <= type_of c (sym_of t) <= 2.
Proof.
  intros (W & ND & _) SM. destruct (small_parts _ _ _ SM) as (S1 & S2 & S3 & S4 & S5 & S6 & _).
  assert (0 <= type_of c (sym_of t) <= 2) as TB by (unfold type_of; destruct (y_fun _); [lia|destruct (place_of _ _); lia]).
  split; [|auto].
  apply Forall_app in W. destruct W as [W W2]. inversion W2 as [|? ? WT W3]; subst.
  pose proof (str_len_app file l (t :: m)).
  assert (pre_wf l) as PW by (eapply pre_wf_l; split; [|exact ND]; apply Forall_app; auto).
  destruct (all_inv c file l PW ltac:(lia)) as (_ & SL & _).
  pose proof (zlen_nonneg (str_base (a_str (a_all c file l)))).
  assert (0 <= bind_of (sym_of t) <= 1) as BB by (unfold bind_of; destruct (y_link _); lia).
  destruct (value_bound c l t _ W WT eq_refl) as (V0 & V1).
  pose proof (item_len_nonneg t WT) as IL.
  assert (forall p, place_len c p (l ++ [t]) <= place_len c p (l ++ t :: m)) as PL.
  { intro p. change (t :: m) with ([t] ++ m). rewrite app_assoc. apply place_len_app. exact W3. }
  assert (value_of c l t < 2 ^ 31 /\ (place_of c (sym_of t) = PText -> item_len t < 2 ^ 31)) as [V2 V3].
  { pose proof (PL PText). pose proof (PL PData). pose proof (PL PRodata). pose proof (PL PBss).
    destruct (place_of c (sym_of t)); split; try discriminate; lia. }
  assert (0 <= size_of_sym c t < 2 ^ 31) as SZ.
  { apply Forall_app in S6. destruct S6 as [_ S6]. apply Forall_inv in S6.
    destruct WT as ((_ & _ & _ & WS & _) & _). unfold size_of_sym.
    destruct (place_of c (sym_of t)); try lia. specialize (V3 eq_refl). lia. }
  assert (0 <= shndx_of (place_of c (sym_of t)) < 256 ^ 2) as SX by (destruct (place_of c (sym_of t)); cbn; lia).
  unfold ent_small, entry. cbn [st_name st_info st_shndx st_value st_size].
  change (256 ^ 4) with (2 ^ 32). change (256 ^ 8) with (2 ^ 64). change (2 ^ 32) with (2 * 2 ^ 31). change (2 ^ 64) with (2 ^ 33 * 2 ^ 31).
  assert (0 < 2 ^ 31) by lia. assert (1 < 2 ^ 33) by lia. repeat split; try apply SX; try lia; nia.
Qed.
Lemma entries_small c file l m : wf (l ++ m) -> small c file (l ++ m) ->
  Forall ent_small (a_ent (a_all c file l)) /\ Forall (fun p => ent_small (snd p) /\ gbind (snd p)) (a_glob (a_all c file l)).
Proof.
  revert m. induction l as [|t l IH] using rev_ind; intros m W SM.
  - cbn [a_all fold_left abs0 a_ent a_glob]. split; [|constructor]. unfold ent0.
    repeat (apply Forall_cons; [unfold ent_small; cbn; lia|]). apply Forall_app. split.
    + destruct file; repeat constructor; cbn; lia.
    + repeat (apply Forall_cons; [unfold ent_small; cbn; lia|]). constructor.
  - rewrite <- app_assoc in W, SM. cbn [app] in W, SM. destruct (IH _ W SM) as [I1 I2].
    destruct (entry_small c file l m t W SM) as (E1 & E2 & E3).
    assert (pre_wf (l ++ [t])) as PW.
    { apply pre_wf_l with m. rewrite <- app_assoc. destruct W as (W1 & W2 & _). split; assumption. }
    destruct (small_parts _ _ _ SM) as (_ & _ & _ & _ & S5 & _). pose proof (str_len_app file l (t :: m)).
    pose proof (all_step c file l t PW ltac:(lia)) as S.
    rewrite (s_ent _ _ _ _ _ S), (s_glob _ _ _ _ _ S).
    destruct (is_intern (y_link (sym_of t))) eqn:LI; rewrite ?app_nil_r; split; auto.
    + apply Forall_app. split; [exact I1|repeat constructor; apply E1].
    + apply Forall_app. split; [exact I2|]. constructor; [|constructor]. cbn [snd]. split; [exact E1|]. unfold gbind. rewrite E2.
      assert (bind_of (sym_of t) = 1) as ->. { unfold bind_of. destruct (y_link (sym_of t)); [reflexivity|discriminate|reflexivity]. }
      split; [lia|]. change (16 * 1) with (1 * 16). rewrite Z.div_add_l by lia. rewrite Z.div_small by lia. reflexivity.
Qed.

(* relocations have a type *)
Lemma piece_rels_ok ps : forall pos, Forall piece_wf ps -> Forall (fun r => let '(_, t, o, _) := r in In t [1; 2; 4; 9] /\ pos <= o < pos + plens ps) (piece_rels pos ps).
Proof.
  induction ps as [|p r IH]; intros pos F; [constructor|]. inversion F as [|? ? F1 F2]; subst. cbn [piece_rels]. apply Forall_app.
  rewrite plens_cons. assert (0 <= plen p) as NN by (destruct p; cbn [plen]; [apply zlen_nonneg|lia|lia]).
  pose proof (plens_nonneg r). split.
  - destruct p; constructor; [|constructor]. cbn [piece_wf plen] in *. cbn [In]. split; [intuition|lia].
  - eapply Forall_impl; [|apply (IH (pos + plen p) F2)]. intros [[[y t] o] a] [H1 H2]. split; [exact H1|lia].
Qed.
Lemma code_rels_ok b : forall pos, Forall cmd_wf b -> Forall (fun r => let '(_, t, o, _) := r in In t [1; 2; 4; 9] /\ pos <= o < pos + code_len b) (code_rels pos b).
Proof.
  induction b as [|x r IH]; intros pos F; [constructor|]. inversion F as [|? ? F1 F2]; subst. cbn [code_rels]. apply Forall_app.
  rewrite code_len_cons. pose proof (clen_nonneg x). pose proof (code_len_nonneg r). split.
  - destruct x as [y|ps]; [constructor|]. cbn [cmd_wf clen] in *. pose proof F1 as (P1 & _ & P3).
    destruct (is_nop ps) eqn:N; [rewrite (P3 eq_refl); constructor|]. unfold ilen. rewrite N.
    eapply Forall_impl; [|apply (piece_rels_ok ps pos P1)]. intros [[[y t] o] a] [H1 H2]. split; [exact H1|lia].
  - eapply Forall_impl; [|apply (IH (pos + clen x) F2)]. intros [[[y t] o] a] [H1 H2]. split; [exact H1|lia].
Qed.
Lemma dat_rels_ok ds : forall pos, Forall (fun r => let '(_, t, o, _) := r in In t [1; 2; 4; 9] /\ pos <= o < pos + dlens ds) (dat_rels pos ds).
Proof.
  induction ds as [|d r IH]; intros pos; [constructor|]. cbn [dat_rels]. apply Forall_app.
  rewrite dlens_cons. assert (0 <= dlen d) as NN by (destruct d; cbn [dlen]; [apply zlen_nonneg|lia]).
  pose proof (dlens_nonneg r). split.
  - destruct d; constructor; [|constructor]. cbn [dlen In] in *. split; [auto|lia].
  - eapply Forall_impl; [|apply (IH (pos + dlen d))]. intros [[[y t] o] a] [H1 H2]. split; [exact H1|lia].
Qed.
Definition rel_ok (n : Z) (r : Z * Z * Z * Z) : Prop := let '(_, t, o, _) := r in In t [1; 2; 4; 9] /\ 0 <= o < n.
Lemma rels_ok c l : Forall item_wf l ->
  Forall (rel_ok (place_len c PText l)) (text_relocs c [] l) /\ Forall (rel_ok (place_len c PData l)) (data_relocs c [] l).
Proof.
  induction l as [|t l IH] using rev_ind; intro F; [split; constructor|]. rewrite text_relocs_snoc, data_relocs_snoc. cbn [app].
  pose proof F as FF. apply Forall_app in FF. destruct FF as [F1 F2]. destruct (IH F1) as [I1 I2].
  pose proof (place_len_app c PText l [t] F2). pose proof (place_len_app c PData l [t] F2). apply Forall_inv in F2.
  destruct (value_bound c l t _ F1 F2 eq_refl) as [V0 V1].
  split; apply Forall_app; split.
  - eapply Forall_impl; [|exact I1]. intros [[[y k] o] a] [H1 H2]. split; [exact H1|lia].
  - destruct t as [y|y ds|y b]; try constructor. cbn [body_of]. destruct F2 as (_ & WF & WK & WC & _).
    assert (place_of c (sym_of (TFun y b)) = PText) as P by (unfold place_of; cbn [sym_of]; rewrite WF, WK; reflexivity).
    rewrite P in V1. cbn [item_len] in V1.
    eapply Forall_impl; [|apply (code_rels_ok b _ WC)]. intros [[[y' k] o] a] [H1 H2]. split; [exact H1|lia].
  - eapply Forall_impl; [|exact I2]. intros [[[y k] o] a] [H1 H2]. split; [exact H1|lia].
  - destruct t as [y|y ds|y b]; try constructor. cbn [data_of]. destruct F2 as (_ & WF & WK & WC).
    assert (place_of c (sym_of (TData y ds)) = PData) as P by (unfold place_of; cbn [sym_of]; rewrite WF, WK; reflexivity).
    rewrite P in V1. cbn [item_len] in V1.
    eapply Forall_impl; [|apply (dat_rels_ok ds)]. intros [[[y' k] o] a] [H1 H2]. split; [exact H1|lia].
Qed.
Lemma typed_rels n l : Forall (rel_ok n) l -> typed (map mkrel l).
Proof.
  intro F. unfold typed. apply Forall_map. eapply Forall_impl; [|exact F]. intros [[[y t] o] a] [H _]. cbn [mkrel r_type]. cbn [In] in H. lia.
Qed.

Definition a_fin (c : ctx) (file : option (list Z)) (l : list item) : abs := a_rel (a_fs c (a_all c file l)).
(* the fields that matter of what is finally written *)
Record fin_fields (c : ctx) (a f : abs) : Prop := {
  f_str : a_str f = (if pic c then str_base (a_str a) ++ n_got ++ [0] else a_str a);
  f_ent : a_ent f = a_ent a ++ map snd (a_glob a) ++ (if pic c then [Esym (zlen (str_base (a_str a))) 16 0 0 0] else []);
  f_info : a_info a = 0 -> a_ent a <> [] -> a_info f = match a_glob a with [] => if pic c then zlen (a_ent a) else 0 | _ => zlen (a_ent a) end;
  f_bss : a_bss f = a_bss a /\ a_bal f = a_bal a; f_rod : a_rod f = a_rod a /\ a_ral f = a_ral a;
  f_dat : a_dat f = a_dat a /\ a_dal f = a_dal a; f_txt : a_txt f = a_txt a;
  f_rdb : a_rdb f = flat_map (rb (goff (zlen (a_ent a)) (a_off a) (a_glob a))) (a_rd a);
  f_rtb : a_rtb f = flat_map (rb (goff (zlen (a_ent a)) (a_off a) (a_glob a))) (a_rt a) }.
Lemma fin_fields_ok c a : fin_fields c a (a_rel (a_fs c a)).
Proof.
  unfold a_rel, a_fs, a_got. destruct (pic c) eqn:P; constructor; rewrite ?P; try (split; reflexivity); try reflexivity.
  - cbn. rewrite <- app_assoc. reflexivity.
  - intros I0 NE. unfold a_fg, g_info. cbn -[zlen]. rewrite I0. destruct (a_glob a) as [|p r].
    + cbn [map]. rewrite app_nil_r. reflexivity.
    + cbn [Z.eqb]. assert (zlen (a_ent a) =? 0 = false) as ->; [|reflexivity].
      apply Z.eqb_neq. destruct (a_ent a); [contradiction|]. rewrite zlen_cons. pose proof (zlen_nonneg l). lia.
  - cbn. rewrite app_nil_r. reflexivity.
  - intros I0 NE. unfold a_fg, g_info. cbn -[zlen]. rewrite I0. destruct (a_glob a); reflexivity.
Qed.

Lemma len_str file l : zlen l < str_len file l.
Proof.
  induction l as [|t l IH] using rev_ind.
  - unfold str_len. cbn [fold_right]. destruct file as [f|]; [pose proof (zlen_nonneg f)|]; rewrite zlen_nil; lia.
  - rewrite str_len_snoc, zlen_app, zlen_cons, zlen_nil. pose proof (zlen_nonneg (y_name (sym_of t))). lia.
Qed.
Lemma ent0_len file : zlen (ent0 file) = match file with Some _ => 8 | None => 7 end.
Proof. destruct file; reflexivity. Qed.
Lemma str_base_len x : zlen x <= zlen (str_base x). Proof. destruct x; cbn [str_base]; [cbn; lia|lia]. Qed.
Definition fin_small (a : abs) : Prop :=
  zlen (a_str a) < 2 ^ 40 /\ zlen (a_ent a) < 2 ^ 34 /\ 0 <= a_info a < 2 ^ 32 /\ 0 <= a_bss a < 2 ^ 40 /\ zlen (a_rod a) < 2 ^ 40 /\
  zlen (a_dat a) < 2 ^ 40 /\ zlen (a_txt a) < 2 ^ 40 /\ zlen (a_rdb a) < 2 ^ 40 /\ zlen (a_rtb a) < 2 ^ 40 /\
  In (a_bal a) [4; 8; 16] /\ a_ral a = 16 /\ In (a_dal a) [4; 8; 16].
Definition secs_of (a : abs) : list sec := secs (conc a []).
Lemma secs_cons a : exists x r, secs_of a = null_sec :: x :: r /\ (forall cp, secs (conc a cp) = null_sec :: x :: r) /\ is_nobits x = false /\ zlen (x :: r) = 9.
Proof. eexists. eexists. split; [reflexivity|]. split; [reflexivity|]. split; reflexivity. Qed.
Lemma secs_ok a : fin_small a ->
  Forall sec_ok (tl (secs_of a)) /\ Forall (fun y => fields_small (s_hdr y)) (tl (secs_of a)) /\ tot (tl (secs_of a)) < 2 ^ 62.
Proof.
  intros (B1 & B2 & B3 & B4 & B5 & B6 & B7 & B8 & B9 & A1 & A2 & A3).
  pose proof (zlen_nonneg (a_str a)). pose proof (zlen_nonneg (a_ent a)). pose proof (zlen_nonneg (a_rod a)). pose proof (zlen_nonneg (a_dat a)).
  pose proof (zlen_nonneg (a_txt a)). pose proof (zlen_nonneg (a_rdb a)). pose proof (zlen_nonneg (a_rtb a)).
  pose proof (ents_len (a_ent a)) as EL.
  assert (0 < a_bal a <= 16) by (cbn [In] in A1; lia). assert (0 < a_dal a <= 16) by (cbn [In] in A3; lia).
  unfold secs_of, conc. cbn [secs tl].
  split; [|split].
  - repeat (apply Forall_cons; [split; [first [right; reflexivity|right; cbn [s_hdr sh_size s_buf]; lia|left; reflexivity]|cbn [s_hdr sh_align]; lia]|]). constructor.
  - assert (0 <= zlen names_tab < 1000) by (cbn; lia).
    repeat (apply Forall_cons; [unfold fields_small; cbn [s_hdr sh_name sh_type sh_flags sh_size sh_link sh_info sh_align sh_entsize sh_offset];
      change (256 ^ 4) with (2 ^ 32); change (256 ^ 8) with (2 ^ 64); lia|]). constructor.
  - unfold tot. cbn [fold_right s_buf]. assert (zlen names_tab < 1000) by (cbn; lia). rewrite EL. rewrite zlen_nil. lia.
Qed.
Lemma zlen_map {A B} (g : A -> B) l : zlen (map g l) = zlen l. Proof. unfold zlen. rewrite map_length. reflexivity. Qed.
Lemma wf_pre l : wf l -> pre_wf l. Proof. intros (A & B & _). split; assumption. Qed.
Lemma n_got_len : zlen (n_got ++ [0]) = 22. Proof. reflexivity. Qed.
Lemma fin_is_small c file l : wf l -> small c file l -> fin_small (a_fin c file l).
Proof.
  intros W SM. pose proof (fin_fields_ok c (a_all c file l)) as [F1 F2 F3 [F4 F4'] [F5 F5'] [F6 F6'] F7 F8 F9].
  destruct (small_parts _ _ _ SM) as (S1 & S2 & S3 & S4 & S5 & _ & S7 & S8).
  destruct (all_inv c file l (wf_pre _ W) ltac:(lia)) as (I & SL & _).
  pose proof (all_counts c file l (wf_pre _ W) ltac:(lia)) as CN. pose proof (len_str file l). rewrite ent0_len in CN.
  destruct (all_rels c file l (wf_pre _ W) ltac:(lia)) as [RT RD].
  pose proof (zlen_nonneg (a_ent (a_all c file l))). pose proof (zlen_nonneg (a_glob (a_all c file l))).
  pose proof (i_loc _ _ _ I) as (L1 & L2 & _). specialize (F3 L1 L2).
  assert (zlen (a_ent (a_all c file l)) < 2 ^ 32) as BE by (destruct file; lia).
  unfold a_fin, fin_small. rewrite F1, F2, F3, F4, F4', F5, F5', F6, F6', F7, F8, F9, !rbs_len, RT, RD.
  rewrite !zlen_map.
  rewrite (i_bss _ _ _ I), (i_rod _ _ _ I), (i_dat _ _ _ I), (i_txt _ _ _ I).
  pose proof (place_len_nonneg c PBss l (proj1 W)).
  destruct (i_al _ _ _ I) as (A1 & A2 & A3).
  split; [|split; [|split; [|split; [|split; [|split; [|split; [|split; [|split; [|auto]]]]]]]]]; try lia.
  - destruct (pic c); [rewrite zlen_app, n_got_len; lia|]. pose proof (str_base_len (a_str (a_all c file l))). lia.
  - rewrite !zlen_app. rewrite zlen_map.
    assert (zlen (if pic c then [Esym (zlen (str_base (a_str (a_all c file l)))) 16 0 0 0] else []) <= 1) by (destruct (pic c); cbn; lia).
    destruct file; lia.
  - destruct (a_glob (a_all c file l)); [destruct (pic c)|]; lia.
Qed.
Theorem object_ok c file l : wf l -> small c file l ->
  exists f s, object_file c start file (ops_of l) = Ok (f, s) /\ file_reads f (secs_of (a_fin c file l)).
Proof.
  intros W SM. pose proof (fin_is_small c file l W SM) as FS.
  destruct (small_parts _ _ _ SM) as (S1 & S2 & S3 & S4 & S5 & _).
  destruct (all_R c file l (wf_pre _ W) ltac:(lia) S1 S2) as (s0 & s1 & E0 & E1 & R1).
  destruct (all_inv c file l (wf_pre _ W) ltac:(lia)) as (I & SL & _).
  destruct (entries_small c file l [] ltac:(rewrite app_nil_r; exact W) ltac:(rewrite app_nil_r; exact SM)) as [_ EG].
  unfold object_file. rewrite E0. cbn [bind]. rewrite E1. cbn [bind]. unfold elf_flush.
  destruct (flush_symtab_R c _ s1 R1 (i_loc _ _ _ I)) as (s2 & E2 & R2).
  { apply Forall_map. eapply Forall_impl; [|exact EG]. intros p [_ H]. exact H. }
  { lia. }
  rewrite E2. cbn [bind]. destruct (all_rels c file l (wf_pre _ W) ltac:(lia)) as [RT RD]. destruct (rels_ok c l (proj1 W)) as [OT OD].
  assert (a_rdb (a_fs c (a_all c file l)) = a_rdb (a_all c file l) /\ a_rtb (a_fs c (a_all c file l)) = a_rtb (a_all c file l) /\
    a_rd (a_fs c (a_all c file l)) = a_rd (a_all c file l) /\ a_rt (a_fs c (a_all c file l)) = a_rt (a_all c file l)) as (Q1 & Q2 & Q3 & Q4)
    by (unfold a_fs, a_got; destruct (pic c); repeat split; reflexivity).
  destruct (flush_relocations_R _ s2 R2) as (s3 & E3 & R3).
  { rewrite Q1. apply (i_rdb _ _ _ I). }
  { rewrite Q2. apply (i_rtb _ _ _ I). }
  { rewrite Q3, RD. eapply typed_rels; eauto. }
  { rewrite Q4, RT. eapply typed_rels; eauto. }
  rewrite E3. cbn [bind]. apply (R_pend _ _ []) in R3.
  destruct R3 as (cp & -> & _). fold (a_fin c file l) in *. set (af := a_fin c file l) in *. clearbody af.
  destruct (secs_ok af FS) as (K1 & K2 & K3).
  destruct (secs_cons (w_pend af [])) as (x & r & EX & EC & NB & LX).
  assert (secs_of af = null_sec :: x :: r) as EX' by exact EX. rewrite EX' in *. cbn [tl] in *.
  assert (conc (w_pend af []) cp = Est (null_sec :: x :: r) cp 1 (a_off af) (a_glob af) [[]; []; []; []; []; []; []; a_rd af; []; a_rt af; []; []; []] [] (a_cur af)) as ->.
  { rewrite <- (EC cp). reflexivity. }
  destruct (file_ok x r cp (a_off af) (a_glob af) [[]; []; []; []; []; []; []; a_rd af; []; a_rt af; []; []; []] [] (a_cur af) K1 NB ltac:(lia) K2 K3)
    as (f & t & EF & (b & EW & EB) & RF).
  rewrite EF. cbn [bind secs tl shstrndx]. rewrite EW. cbn [bind]. eexists. eexists. split; [rewrite <- EB; reflexivity|exact RF].
Qed.
