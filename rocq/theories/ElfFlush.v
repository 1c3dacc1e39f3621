(* Flushing: the global symbols, the relocations, the layout of the file. *)
From Coq Require Import List ZArith Lia Bool.
From Verif Require Import Util Bytes ElfModel ElfSpec ElfProofs ElfSteps ElfJump ElfItems ElfAll.
Import ListNotations.
Open Scope Z_scope.

Fixpoint goff (k : Z) (o : Z -> Z) (g : list (Z * esym)) : Z -> Z :=
  match g with [] => o | (y, _) :: r => goff (k + 1) (upd_off o y k) r end.
Definition g_info (a : abs) (g : list (Z * esym)) : Z :=
  match g with [] => a_info a | _ => if a_info a =? 0 then zlen (a_ent a) else a_info a end.
Definition a_fg (a : abs) (g : list (Z * esym)) : abs :=
  w_off (w_info (w_ent a (a_ent a ++ map snd g)) (g_info a g)) (goff (zlen (a_ent a)) (a_off a) g).
Definition gbind (e : esym) : Prop := 0 <= st_info e < 256 /\ st_info e / 16 = 1.
Lemma R_off a s y k : R a s -> R (w_off a (upd_off (a_off a) y k)) (set_off s y k).
Proof. intros (cp & -> & C). exists cp. split; [reflexivity|exact C]. Qed.
Definition ends_g (l : list esym) : Prop := exists l' p, l = l' ++ [p] /\ gbind p.

Lemma fg_cons a y e r : a_ent a <> [] ->
  a_fg (w_off (w_info (w_ent a (a_ent a ++ [e])) (if a_info a =? 0 then zlen (a_ent a) else a_info a))
         (upd_off (a_off a) y (zlen (a_ent a)))) r = a_fg a ((y, e) :: r).
Proof.
  intro NE. unfold a_fg, g_info. cbn [w_off w_info w_ent a_ent a_info a_off goff map snd].
  rewrite <- app_assoc. cbn [app].
  assert (zlen (a_ent a ++ [e]) = zlen (a_ent a) + 1) as -> by (unfold zlen; rewrite app_length; cbn [length]; lia).
  assert (zlen (a_ent a) =? 0 = false) as Z0.
  { apply Z.eqb_neq. destruct (a_ent a); [contradiction|]. rewrite zlen_cons. pose proof (zlen_nonneg l). lia. }
  destruct r as [|p r]; [reflexivity|]. destruct (a_info a =? 0) eqn:E; [rewrite Z0|rewrite E]; reflexivity.
Qed.
Lemma flush_globals_R g : forall a s, R a s -> a_ent a <> [] -> Forall gbind (map snd g) ->
  (a_info a = 0 \/ ends_g (a_ent a)) ->
  exists s', flush_globals s g = Ok s' /\ R (a_fg a g) s'.
Proof.
  induction g as [|[y e] r IH]; intros a s HR NE F E.
  - exists s. split; [reflexivity|]. unfold a_fg, g_info. cbn [map goff]. rewrite app_nil_r. destruct a. exact HR.
  - cbn [map snd] in F. inversion F as [|? ? [F1 F2] F']; subst. cbn [flush_globals].
    destruct (add_sym_R a s e HR NE) as (s1 & E1 & R1).
    { rewrite F2. cbn [Z.eqb Pos.eqb andb]. intro Q. destruct E as [E|(l' & p & EL & P1 & P2)].
      - rewrite E in Q. discriminate.
      - exists l', p. rewrite F2. auto. }
    rewrite F2 in R1. cbn [Z.eqb Pos.eqb andb] in R1. change symtab with 3%nat. rewrite E1. cbn [bind].
    apply R_off with (y := y) (k := zlen (a_ent a)) in R1.
    destruct (IH _ _ R1) as (s2 & E2 & R2).
    + cbn [w_off w_info w_ent a_ent]. destruct (a_ent a); discriminate.
    + exact F'.
    + right. exists (a_ent a), e. split; [reflexivity|split; assumption].
    + exists s2. split; [exact E2|].
      cbn [w_info w_ent a_off] in R2. rewrite fg_cons in R2 by exact NE. exact R2.
Qed.

(* with the name of the global offset table *)
Definition a_got (c : ctx) (a : abs) : abs :=
  if pic c then
    w_info (w_ent (w_str a (str_base (a_str a) ++ n_got ++ [0])) (a_ent a ++ [Esym (zlen (str_base (a_str a))) 16 0 0 0]))
      (if a_info a =? 0 then zlen (a_ent a) else a_info a)
  else a.
Definition a_fs (c : ctx) (a : abs) : abs := w_glob (a_got c (a_fg a (a_glob a))) [].
Lemma R_glob a s : R a s -> R (w_glob a []) (set_globals s []).
Proof. intros (cp & -> & C). exists cp. split; [reflexivity|exact C]. Qed.
Lemma fg_ent a g : a_ent (a_fg a g) = a_ent a ++ map snd g. Proof. reflexivity. Qed.
Lemma fg_info a g : a_info (a_fg a g) = g_info a g. Proof. reflexivity. Qed.
Lemma fg_str a g : a_str (a_fg a g) = a_str a. Proof. reflexivity. Qed.
Lemma R_globals a s : R a s -> globals s = a_glob a. Proof. intros (cp & -> & _). reflexivity. Qed.
Lemma R_soff a s : R a s -> off s = a_off a. Proof. intros (cp & -> & _). reflexivity. Qed.
Lemma flush_symtab_R c a s : R a s -> loc a -> Forall gbind (map snd (a_glob a)) -> zlen (str_base (a_str a)) < 2 ^ 31 ->
  exists s', flush_symtab_globals c s = Ok s' /\ R (a_fs c a) s'.
Proof.
  intros HR (L1 & L2 & L3) G B. unfold flush_symtab_globals. rewrite (R_globals _ _ HR).
  destruct (flush_globals_R (a_glob a) a s HR L2 G (or_introl L1)) as (s1 & E1 & R1). rewrite E1. cbn [bind].
  unfold a_fs, a_got. destruct (pic c).
  - destruct (strtab_add_R _ _ n_got R1) as (s2 & E2 & R2). change strtab with 2%nat. rewrite E2. cbn [bind].
    rewrite fg_str in *. rewrite int32_small by (pose proof (zlen_nonneg (str_base (a_str a))); lia).
    destruct (add_sym_R _ s2 (Esym (zlen (str_base (a_str a))) 16 0 0 0) R2) as (s3 & E3 & R3).
    { cbn [w_str a_ent]. rewrite fg_ent. destruct (a_ent a); [contradiction|discriminate]. }
    { cbn [w_str a_ent a_info st_info]. rewrite fg_ent, fg_info. change (16 / 16 =? 1) with true. cbn [andb]. unfold g_info. rewrite L1.
      destruct (a_glob a) as [|p r] eqn:EG; [discriminate|]. intros _.
      destruct (@exists_last _ (p :: r) ltac:(discriminate)) as (r' & q & EQ). rewrite EQ. rewrite EQ, map_app in G.
      apply Forall_app in G. destruct G as [_ G]. apply Forall_inv in G. destruct G as [G1 G2].
      exists (a_ent a ++ map snd r'), (snd q). rewrite map_app, app_assoc. split; [reflexivity|]. split; [exact G1|exact G2]. }
    change symtab with 3%nat. rewrite E3. cbn [bind]. eexists. split; [reflexivity|].
    apply R_glob. cbn [st_info w_str a_info a_ent] in R3. change (16 / 16 =? 1) with true in R3. cbn [andb] in R3. exact R3.
  - cbn [bind]. eexists. split; [reflexivity|]. apply R_glob. exact R1.
Qed.

Definition rb (o : Z -> Z) (r : reloc) : list Z :=
  enc_rela (r_offset r) (o (r_symbol r) * 2 ^ 32 + r_type r)
    (if (r_type r =? 2) || (r_type r =? 4) || (r_type r =? 9) then r_addend r - 4 else r_addend r).
Lemma rb_len o r : zlen (rb o r) = 24. Proof. unfold rb, enc_rela. rewrite !zlen_app, !zlen_le. reflexivity. Qed.
Lemma rbs_len o l : zlen (flat_map (rb o) l) = 24 * zlen l.
Proof. induction l as [|r l IH]; [reflexivity|]. cbn [flat_map]. rewrite zlen_app, rb_len, zlen_cons, IH. lia. Qed.
Lemma rela_bytes_rb s l o : off s = o -> flat_map (rela_bytes s) l = flat_map (rb o) l.
Proof. intros <-. reflexivity. Qed.
Lemma flush_none s i : nth i (prel s) [] = [] -> flush_rela s i = Ok s.
Proof. unfold flush_rela. intros ->. reflexivity. Qed.

Definition typed (l : list reloc) : Prop := Forall (fun r => r_type r <> 0) l.
Lemma typed_all l : typed l -> forallb (fun r => negb (r_type r =? 0)) l = true.
Proof. intro F. apply forallb_forall. intros r I. unfold typed in F; rewrite Forall_forall in F. apply negb_true_iff, Z.eqb_neq. auto. Qed.
Lemma patch_all b x : length b = length x -> patch b 0 x = x.
Proof. intro E. unfold patch. cbn [Z.to_nat firstn app Nat.add]. rewrite <- E, skipn_all, app_nil_r. reflexivity. Qed.
Lemma zlen_len {A B} (a : list A) (b : list B) : zlen a = zlen b -> length a = length b. Proof. unfold zlen. lia. Qed.

Lemma flush7_R a s : R a s -> a_rdb a = [] -> typed (a_rd a) ->
  exists s', flush_rela s 7 = Ok s' /\ R (w_rd (w_rdb a (flat_map (rb (a_off a)) (a_rd a))) []) s'.
Proof.
  intros HR Z0 T. unfold flush_rela. assert (nth 7 (prel s) [] = a_rd a) as -> by (destruct HR as (cp & -> & _); reflexivity).
  destruct (a_rd a) as [|r0 r] eqn:ER.
  - exists s. split; [reflexivity|]. cbn [flat_map]. destruct HR as (cp & -> & C). exists cp. destruct a; cbn in Z0, ER; subst. split; [reflexivity|exact C].
  - rewrite <- ER in *. pose proof (zlen_nonneg (a_rd a)).
    destruct (write_R a s 7 (zeros (24 * zlen (a_rd a))) HR ltac:(cbn; auto 10)) as (s1 & E1 & R1). rewrite E1. cbn [bind].
    rewrite typed_all by exact T. cbn [assert bind]. cbn [a_sec]. rewrite Z0. change (24 * zlen (@nil Z)) with 0. rewrite Z.add_0_l.
    cbn [a_write] in R1. rewrite Z0 in R1. cbn [app] in R1.
    assert (s_buf (get s1 7) = zeros (24 * zlen (a_rd a))) as EB by (destruct R1 as (cp & -> & _); reflexivity).
    rewrite EB, zlen_zeros by lia. rewrite Z.leb_refl.
    rewrite (rela_bytes_rb s1 (a_rd a) (a_off a)) by (destruct R1 as (cp & -> & _); reflexivity).
    assert (length (zeros (24 * zlen (a_rd a))) = length (flat_map (rb (a_off a)) (a_rd a))) as LE
      by (apply zlen_len; rewrite zlen_zeros, rbs_len by lia; reflexivity).
    rewrite patch_all by exact LE. eexists. split; [reflexivity|].
    revert R1. generalize dependent (flat_map (rb (a_off a)) (a_rd a)). generalize (zeros (24 * zlen (a_rd a))). intros z d LE (cp & -> & C).
    exists cp. split.
    + unfold conc, set, set_prel. cbn -[zlen]. replace (zlen d) with (zlen z) by (unfold zlen; rewrite LE; reflexivity). reflexivity.
    + unfold caps_ok in *. cbn [w_rd w_rdb a_str a_ent a_rod a_dat a_rdb a_txt a_rtb] in *. unfold zlen in *. rewrite <- LE. exact C.
Qed.
Lemma flush9_R a s : R a s -> a_rtb a = [] -> typed (a_rt a) ->
  exists s', flush_rela s 9 = Ok s' /\ R (w_rt (w_rtb a (flat_map (rb (a_off a)) (a_rt a))) []) s'.
Proof.
  intros HR Z0 T. unfold flush_rela. assert (nth 9 (prel s) [] = a_rt a) as -> by (destruct HR as (cp & -> & _); reflexivity).
  destruct (a_rt a) as [|r0 r] eqn:ER.
  - exists s. split; [reflexivity|]. cbn [flat_map]. destruct HR as (cp & -> & C). exists cp. destruct a; cbn in Z0, ER; subst. split; [reflexivity|exact C].
  - rewrite <- ER in *. pose proof (zlen_nonneg (a_rt a)).
    destruct (write_R a s 9 (zeros (24 * zlen (a_rt a))) HR ltac:(cbn; auto 10)) as (s1 & E1 & R1). rewrite E1. cbn [bind].
    rewrite typed_all by exact T. cbn [assert bind]. cbn [a_sec]. rewrite Z0. change (24 * zlen (@nil Z)) with 0. rewrite Z.add_0_l.
    cbn [a_write] in R1. rewrite Z0 in R1. cbn [app] in R1.
    assert (s_buf (get s1 9) = zeros (24 * zlen (a_rt a))) as EB by (destruct R1 as (cp & -> & _); reflexivity).
    rewrite EB, zlen_zeros by lia. rewrite Z.leb_refl.
    rewrite (rela_bytes_rb s1 (a_rt a) (a_off a)) by (destruct R1 as (cp & -> & _); reflexivity).
    assert (length (zeros (24 * zlen (a_rt a))) = length (flat_map (rb (a_off a)) (a_rt a))) as LE
      by (apply zlen_len; rewrite zlen_zeros, rbs_len by lia; reflexivity).
    rewrite patch_all by exact LE. eexists. split; [reflexivity|].
    revert R1. generalize dependent (flat_map (rb (a_off a)) (a_rt a)). generalize (zeros (24 * zlen (a_rt a))). intros z d LE (cp & -> & C).
    exists cp. split.
    + unfold conc, set, set_prel. cbn -[zlen]. replace (zlen d) with (zlen z) by (unfold zlen; rewrite LE; reflexivity). reflexivity.
    + unfold caps_ok in *. cbn [w_rt w_rtb a_str a_ent a_rod a_dat a_rdb a_txt a_rtb] in *. unfold zlen in *. rewrite <- LE. exact C.
Qed.
Definition a_rel (a : abs) : abs :=
  w_rt (w_rtb (w_rd (w_rdb a (flat_map (rb (a_off a)) (a_rd a))) []) (flat_map (rb (a_off a)) (a_rt a))) [].
Lemma R_prel a s i : R a s -> In i [0; 1; 2; 3; 4; 5; 6; 8; 10; 11; 12]%nat -> flush_rela s i = Ok s.
Proof.
  intros (cp & -> & _) I. apply flush_none. cbn [conc prel]. cbn [In] in I. repeat destruct I as [<-|I]; try reflexivity. destruct I.
Qed.
Lemma flush_relocations_R a s : R a s -> a_rdb a = [] -> a_rtb a = [] -> typed (a_rd a) -> typed (a_rt a) ->
  exists s', flush_relocations s SHNUM_MAX 0 = Ok s' /\ R (a_rel a) s'.
Proof.
  intros HR D0 T0 TD TT. unfold SHNUM_MAX.
  destruct (flush7_R a s HR D0 TD) as (s1 & E1 & R1).
  destruct (flush9_R _ s1 R1 T0 TT) as (s2 & E2 & R2).
  cbn [flush_relocations].
  do 7 (rewrite (R_prel a s) by (auto; cbn; auto 20); cbn [bind]). rewrite E1. cbn [bind].
  rewrite (R_prel _ s1 8 R1) by (cbn; auto 20); cbn [bind]. rewrite E2. cbn [bind].
  do 3 (rewrite (R_prel _ s2 _ R2) by (cbn; auto 20); cbn [bind]).
  exists s2. split; [reflexivity|exact R2].
Qed.

(* --- The layout --- *)
Definition sec_ok (x : sec) : Prop := (is_nobits x = true \/ sh_size (s_hdr x) = zlen (s_buf x)) /\ 0 < sh_align (s_hdr x) <= 16.
Definition moved (x x' : sec) : Prop :=
  s_buf x' = s_buf x /\ exists o, s_hdr x' = with_offset (s_hdr x) o /\ (is_nobits x = true -> o = sh_offset (s_hdr x)).
(* in the file f, from position lo to the end *)
Fixpoint laid (f : list Z) (lo : Z) (l : list sec) : Prop :=
  match l with
  | [] => lo = zlen f
  | x :: r => if is_nobits x then laid f lo r else
      lo <= sh_offset (s_hdr x) /\ (exists u v, f = u ++ s_buf x ++ v /\ zlen u = sh_offset (s_hdr x)) /\
      laid f (sh_offset (s_hdr x) + zlen (s_buf x)) r
  end.
Lemma moved_nobits x : is_nobits x = true -> moved x x.
Proof. intro. split; [reflexivity|]. exists (sh_offset (s_hdr x)). split; [destruct (s_hdr x); reflexivity|auto]. Qed.
Lemma sub_all (b : list Z) : sub b 0 (zlen b) = b.
Proof. unfold sub. rewrite to_nat_zlen. cbn [Z.to_nat skipn]. apply firstn_all. Qed.
Definition tot (l : list sec) : Z := fold_right (fun x n => zlen (s_buf x) + 16 + n) 0 l.
Lemma tot_cons x r : tot (x :: r) = zlen (s_buf x) + 16 + tot r. Proof. reflexivity. Qed.
Lemma layout_some first l : forall e f, Forall sec_ok l -> zlen f = e ->
  exists t b, chain first (Some e) l = Ok t /\ write_sections (Some e) t = Ok b /\ Forall2 moved l t /\ laid (f ++ b) e t /\
    zlen b <= tot l.
Proof.
  induction l as [|x r IH]; intros e f F EF.
  - exists [], []. repeat split; [constructor| |reflexivity]. cbn [laid]. rewrite app_nil_r. auto.
  - inversion F as [|? ? [F1 F2] F']; subst. cbn [chain]. destruct (is_nobits x) eqn:N.
    + destruct (IH _ f F' eq_refl) as (t & b & E1 & E2 & E3 & E4 & E5). rewrite E1. cbn [bind]. exists (x :: t), b.
      cbn [write_sections laid]. rewrite N. repeat split; auto; [constructor; [apply moved_nobits; exact N|exact E3]|].
      rewrite tot_cons. pose proof (zlen_nonneg (s_buf x)). lia.
    + destruct F1 as [F1|F1]; [discriminate|].
      assert (exists p, 0 <= p < 16 /\ (if 1 <? sh_align (s_hdr x) then
          do _ <- assert (zlen f mod sh_align (s_hdr x) <? 16); Ok (zlen f + zlen f mod sh_align (s_hdr x)) else Ok (zlen f)) = Ok (zlen f + p))
        as (p & P & EP).
      { destruct (1 <? sh_align (s_hdr x)).
        - pose proof (Z.mod_pos_bound (zlen f) (sh_align (s_hdr x)) ltac:(lia)).
          exists (zlen f mod sh_align (s_hdr x)). split; [lia|]. destruct (Z.ltb_spec (zlen f mod sh_align (s_hdr x)) 16); [reflexivity|lia].
        - exists 0. split; [lia|]. rewrite Z.add_0_r. reflexivity. }
      cbv zeta. rewrite EP. cbn [bind].
      assert (zlen (f ++ zeros p ++ s_buf x) = zlen f + p + sh_size (s_hdr x)) as EL
        by (rewrite !zlen_app, zlen_zeros by lia; lia).
      destruct (IH _ _ F' EL) as (t & b & E1 & E2 & E3 & E4 & E5). rewrite E1. cbn [bind].
      exists (Sec (with_offset (s_hdr x) (zlen f + p)) (s_buf x) :: t), (zeros p ++ s_buf x ++ b).
      split; [reflexivity|]. cbn [write_sections laid].
      change (is_nobits (Sec (with_offset (s_hdr x) (zlen f + p)) (s_buf x))) with (is_nobits x). rewrite N.
      cbn [s_hdr s_buf with_offset sh_offset sh_size].
      destruct (Z.leb_spec (zlen f) (zlen f + p)); [|lia]. cbn [assert bind].
      replace (zlen f + p - zlen f) with p by lia. destruct (Z.leb_spec p 16); [|lia]. cbn [assert bind].
      rewrite F1 in E2 |- *. rewrite Z.leb_refl, sub_all.
      rewrite E2. cbn [bind]. repeat split.
      * constructor; [|exact E3]. split; [reflexivity|]. exists (zlen f + p). split; [reflexivity|rewrite N; discriminate].
      * lia.
      * exists (f ++ zeros p), b. rewrite <- !app_assoc. split; [reflexivity|]. rewrite zlen_app, zlen_zeros by lia. reflexivity.
      * rewrite F1 in E4. rewrite <- !app_assoc in E4. exact E4.
      * rewrite tot_cons, !zlen_app, zlen_zeros by lia. lia.
Qed.
Lemma layout x r h : Forall sec_ok (x :: r) -> is_nobits x = false ->
  exists t b, chain (zlen h) None (x :: r) = Ok t /\ write_sections None t = Ok b /\ Forall2 moved (x :: r) t /\ laid (h ++ b) (zlen h) t /\
    zlen b <= tot (x :: r).
Proof.
  intros F N. inversion F as [|? ? [F1 F2] F']; subst. destruct F1 as [F1|F1]; [congruence|].
  assert (zlen (h ++ s_buf x) = zlen h + sh_size (s_hdr x)) as EL by (rewrite zlen_app; lia).
  destruct (layout_some (zlen h) r _ _ F' EL) as (t & b & E1 & E2 & E3 & E4 & E5).
  exists (Sec (with_offset (s_hdr x) (zlen h)) (s_buf x) :: t), (s_buf x ++ b).
  cbn [chain write_sections laid]. rewrite N. cbn [bind]. rewrite E1. cbn [bind].
  change (is_nobits (Sec (with_offset (s_hdr x) (zlen h)) (s_buf x))) with (is_nobits x). rewrite N.
  cbn [s_hdr s_buf with_offset sh_offset sh_size bind]. rewrite F1 in E2 |- *. rewrite Z.leb_refl, sub_all, E2. cbn [bind app].
  repeat split.
  - constructor; [|exact E3]. split; [reflexivity|]. exists (zlen h). split; [reflexivity|rewrite N; discriminate].
  - lia.
  - exists h, b. auto.
  - rewrite F1 in E4. rewrite <- app_assoc in E4. exact E4.
  - rewrite tot_cons, zlen_app. lia.
Qed.
