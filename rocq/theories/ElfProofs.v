(* The object file writer, refined to plain lists. *)
From Coq Require Import List ZArith Lia Bool.
From Verif Require Import Util Bytes ElfModel ElfSpec.
Import ListNotations.
Open Scope Z_scope.

Lemma zlen_nonneg {A} (l : list A) : 0 <= zlen l. Proof. unfold zlen. lia. Qed.
Lemma zlen_app {A} (a b : list A) : zlen (a ++ b) = zlen a + zlen b.
Proof. unfold zlen. rewrite app_length. lia. Qed.
Lemma zlen_nil {A} : zlen (@nil A) = 0. Proof. reflexivity. Qed.
Lemma zlen_cons {A} (x : A) l : zlen (x :: l) = 1 + zlen l. Proof. unfold zlen. cbn [length]. lia. Qed.
Lemma zlen_zeros n : 0 <= n -> zlen (zeros n) = n.
Proof. intro H. unfold zlen, zeros. rewrite repeat_length. lia. Qed.
Lemma zlen_le n z : zlen (le_bytes n z) = Z.of_nat n.
Proof. unfold zlen. rewrite le_bytes_length. reflexivity. Qed.
Lemma to_nat_zlen {A} (l : list A) : Z.to_nat (zlen l) = length l.
Proof. unfold zlen. lia. Qed.

Lemma le_bytes_congr n a b : a mod 256 ^ Z.of_nat n = b mod 256 ^ Z.of_nat n -> le_bytes n a = le_bytes n b.
Proof.
  intro H. apply le_val_inj; try apply le_bytes_is_byte; rewrite ?le_bytes_length; auto. rewrite !le_val_bytes. exact H.
Qed.
Lemma le_bytes_add n a x : le_bytes n (le_val (le_bytes n a) + x) = le_bytes n (a + x).
Proof. apply le_bytes_congr. rewrite le_val_bytes. rewrite Zplus_mod_idemp_l. reflexivity. Qed.
Lemma int32_congr z : int32 z mod 2 ^ 32 = z mod 2 ^ 32.
Proof.
  unfold int32. rewrite <- (Zminus_mod_idemp_l _ (2^31)). rewrite Zmod_mod. rewrite Zminus_mod_idemp_l. f_equal. lia.
Qed.
Lemma int32_small z : - 2 ^ 31 <= z < 2 ^ 31 -> int32 z = z.
Proof. intro H. unfold int32. rewrite Z.mod_small by lia. lia. Qed.

Lemma sub_app a b c : sub (a ++ b ++ c) (zlen a) (zlen b) = b.
Proof.
  unfold sub. rewrite !to_nat_zlen. rewrite skipn_app, skipn_all, Nat.sub_diag. cbn [app skipn].
  rewrite firstn_app, firstn_all, Nat.sub_diag. cbn [firstn]. apply app_nil_r.
Qed.
Lemma patch_app a b c x : length x = length b -> patch (a ++ b ++ c) (zlen a) x = a ++ x ++ c.
Proof.
  intro H. unfold patch. rewrite to_nat_zlen, H. rewrite firstn_app, firstn_all, Nat.sub_diag. cbn [firstn].
  rewrite app_nil_r. f_equal. f_equal. rewrite skipn_app.
  rewrite skipn_all2 by lia. replace (length a + length b - length a)%nat with (length b) by lia.
  rewrite skipn_app, skipn_all, Nat.sub_diag. reflexivity.
Qed.

Record abs := Abs { a_str : list Z; a_ent : list esym; a_info : Z; a_bss : Z; a_bal : Z; a_rod : list Z; a_ral : Z; a_dat : list Z; a_dal : Z; a_rdb : list Z; a_txt : list Z; a_rtb : list Z; a_off : Z -> Z; a_glob : list (Z * esym); a_rd : list reloc; a_rt : list reloc; a_pend : list (Z * Z); a_cur : current }.
Definition w_str (a : abs) (x : list Z) : abs := Abs x (a_ent a) (a_info a) (a_bss a) (a_bal a) (a_rod a) (a_ral a) (a_dat a) (a_dal a) (a_rdb a) (a_txt a) (a_rtb a) (a_off a) (a_glob a) (a_rd a) (a_rt a) (a_pend a) (a_cur a).
Definition w_ent (a : abs) (x : list esym) : abs := Abs (a_str a) x (a_info a) (a_bss a) (a_bal a) (a_rod a) (a_ral a) (a_dat a) (a_dal a) (a_rdb a) (a_txt a) (a_rtb a) (a_off a) (a_glob a) (a_rd a) (a_rt a) (a_pend a) (a_cur a).
Definition w_info (a : abs) (x : Z) : abs := Abs (a_str a) (a_ent a) x (a_bss a) (a_bal a) (a_rod a) (a_ral a) (a_dat a) (a_dal a) (a_rdb a) (a_txt a) (a_rtb a) (a_off a) (a_glob a) (a_rd a) (a_rt a) (a_pend a) (a_cur a).
Definition w_bss (a : abs) (x : Z) : abs := Abs (a_str a) (a_ent a) (a_info a) x (a_bal a) (a_rod a) (a_ral a) (a_dat a) (a_dal a) (a_rdb a) (a_txt a) (a_rtb a) (a_off a) (a_glob a) (a_rd a) (a_rt a) (a_pend a) (a_cur a).
Definition w_bal (a : abs) (x : Z) : abs := Abs (a_str a) (a_ent a) (a_info a) (a_bss a) x (a_rod a) (a_ral a) (a_dat a) (a_dal a) (a_rdb a) (a_txt a) (a_rtb a) (a_off a) (a_glob a) (a_rd a) (a_rt a) (a_pend a) (a_cur a).
Definition w_rod (a : abs) (x : list Z) : abs := Abs (a_str a) (a_ent a) (a_info a) (a_bss a) (a_bal a) x (a_ral a) (a_dat a) (a_dal a) (a_rdb a) (a_txt a) (a_rtb a) (a_off a) (a_glob a) (a_rd a) (a_rt a) (a_pend a) (a_cur a).
Definition w_ral (a : abs) (x : Z) : abs := Abs (a_str a) (a_ent a) (a_info a) (a_bss a) (a_bal a) (a_rod a) x (a_dat a) (a_dal a) (a_rdb a) (a_txt a) (a_rtb a) (a_off a) (a_glob a) (a_rd a) (a_rt a) (a_pend a) (a_cur a).
Definition w_dat (a : abs) (x : list Z) : abs := Abs (a_str a) (a_ent a) (a_info a) (a_bss a) (a_bal a) (a_rod a) (a_ral a) x (a_dal a) (a_rdb a) (a_txt a) (a_rtb a) (a_off a) (a_glob a) (a_rd a) (a_rt a) (a_pend a) (a_cur a).
Definition w_dal (a : abs) (x : Z) : abs := Abs (a_str a) (a_ent a) (a_info a) (a_bss a) (a_bal a) (a_rod a) (a_ral a) (a_dat a) x (a_rdb a) (a_txt a) (a_rtb a) (a_off a) (a_glob a) (a_rd a) (a_rt a) (a_pend a) (a_cur a).
Definition w_rdb (a : abs) (x : list Z) : abs := Abs (a_str a) (a_ent a) (a_info a) (a_bss a) (a_bal a) (a_rod a) (a_ral a) (a_dat a) (a_dal a) x (a_txt a) (a_rtb a) (a_off a) (a_glob a) (a_rd a) (a_rt a) (a_pend a) (a_cur a).
Definition w_txt (a : abs) (x : list Z) : abs := Abs (a_str a) (a_ent a) (a_info a) (a_bss a) (a_bal a) (a_rod a) (a_ral a) (a_dat a) (a_dal a) (a_rdb a) x (a_rtb a) (a_off a) (a_glob a) (a_rd a) (a_rt a) (a_pend a) (a_cur a).
Definition w_rtb (a : abs) (x : list Z) : abs := Abs (a_str a) (a_ent a) (a_info a) (a_bss a) (a_bal a) (a_rod a) (a_ral a) (a_dat a) (a_dal a) (a_rdb a) (a_txt a) x (a_off a) (a_glob a) (a_rd a) (a_rt a) (a_pend a) (a_cur a).
Definition w_off (a : abs) (x : Z -> Z) : abs := Abs (a_str a) (a_ent a) (a_info a) (a_bss a) (a_bal a) (a_rod a) (a_ral a) (a_dat a) (a_dal a) (a_rdb a) (a_txt a) (a_rtb a) x (a_glob a) (a_rd a) (a_rt a) (a_pend a) (a_cur a).
Definition w_glob (a : abs) (x : list (Z * esym)) : abs := Abs (a_str a) (a_ent a) (a_info a) (a_bss a) (a_bal a) (a_rod a) (a_ral a) (a_dat a) (a_dal a) (a_rdb a) (a_txt a) (a_rtb a) (a_off a) x (a_rd a) (a_rt a) (a_pend a) (a_cur a).
Definition w_rd (a : abs) (x : list reloc) : abs := Abs (a_str a) (a_ent a) (a_info a) (a_bss a) (a_bal a) (a_rod a) (a_ral a) (a_dat a) (a_dal a) (a_rdb a) (a_txt a) (a_rtb a) (a_off a) (a_glob a) x (a_rt a) (a_pend a) (a_cur a).
Definition w_rt (a : abs) (x : list reloc) : abs := Abs (a_str a) (a_ent a) (a_info a) (a_bss a) (a_bal a) (a_rod a) (a_ral a) (a_dat a) (a_dal a) (a_rdb a) (a_txt a) (a_rtb a) (a_off a) (a_glob a) (a_rd a) x (a_pend a) (a_cur a).
Definition w_pend (a : abs) (x : list (Z * Z)) : abs := Abs (a_str a) (a_ent a) (a_info a) (a_bss a) (a_bal a) (a_rod a) (a_ral a) (a_dat a) (a_dal a) (a_rdb a) (a_txt a) (a_rtb a) (a_off a) (a_glob a) (a_rd a) (a_rt a) x (a_cur a).
Definition w_cur (a : abs) (x : current) : abs := Abs (a_str a) (a_ent a) (a_info a) (a_bss a) (a_bal a) (a_rod a) (a_ral a) (a_dat a) (a_dal a) (a_rdb a) (a_txt a) (a_rtb a) (a_off a) (a_glob a) (a_rd a) (a_rt a) (a_pend a) x.

Definition names_tab : list Z :=
  [0] ++ n_shstrtab ++ [0] ++ n_strtab ++ [0] ++ n_symtab ++ [0] ++ n_bss ++ [0] ++ n_rodata ++ [0] ++ n_data ++ [0]
  ++ n_rela_data ++ [0] ++ n_text ++ [0] ++ n_rela_text ++ [0].
Definition ents (l : list esym) : list Z := flat_map enc_sym l.
Definition conc (a : abs) (cp : list Z) : est :=
  Est [null_sec;
       Sec (Shdr 1 3 0 0 (zlen names_tab) 0 0 1 0) names_tab;
       Sec (Shdr 11 3 0 0 (zlen (a_str a)) 0 0 1 0) (a_str a);
       Sec (Shdr 19 2 0 0 (24 * zlen (a_ent a)) 2 (a_info a) 4 24) (ents (a_ent a));
       Sec (Shdr 27 8 3 0 (a_bss a) 0 0 (a_bal a) 0) [];
       Sec (Shdr 32 1 2 0 (zlen (a_rod a)) 0 0 (a_ral a) 0) (a_rod a);
       Sec (Shdr 40 1 3 0 (zlen (a_dat a)) 0 0 (a_dal a) 0) (a_dat a);
       Sec (Shdr 46 4 0 0 (zlen (a_rdb a)) 3 6 8 24) (a_rdb a);
       Sec (Shdr 57 1 6 0 (zlen (a_txt a)) 0 0 16 0) (a_txt a);
       Sec (Shdr 63 4 0 0 (zlen (a_rtb a)) 3 8 8 24) (a_rtb a)]
      cp 1 (a_off a) (a_glob a)
      [[]; []; []; []; []; []; []; a_rd a; []; a_rt a; []; []; []] (a_pend a) (a_cur a).
(* capacity c and size n of a section *)
Definition cap_ok (c n : Z) : Prop := (c = 0 /\ n = 0) \/ (0 < n <= c).
Definition caps_ok (a : abs) (cp : list Z) : Prop :=
  length cp = SHNUM_MAX /\
  cap_ok (nth 2 cp 0) (zlen (a_str a)) /\ cap_ok (nth 3 cp 0) (24 * zlen (a_ent a)) /\
  cap_ok (nth 5 cp 0) (zlen (a_rod a)) /\ cap_ok (nth 6 cp 0) (zlen (a_dat a)) /\
  cap_ok (nth 7 cp 0) (zlen (a_rdb a)) /\ cap_ok (nth 8 cp 0) (zlen (a_txt a)) /\
  cap_ok (nth 9 cp 0) (zlen (a_rtb a)).
Definition R (a : abs) (s : est) : Prop := exists cp, s = conc a cp /\ caps_ok a cp.

Lemma grow_ok c n k : cap_ok c n -> 0 < k -> exists c', grow c n k = Ok c' /\ n + k <= c'.
Proof.
  intros [[-> ->]|H] K; unfold grow.
  - destruct (Z.leb_spec 0 (0 + k)); [|lia]. change (0 =? 0) with true. cbn [assert bind]. exists (10 * k). split; [reflexivity|]. lia.
  - destruct (Z.leb_spec c (n + k)); [|eexists; split; [reflexivity|lia]].
    destruct (Z.eqb_spec c 0); [lia|]. destruct (Z.eqb_spec n 0); [lia|]. cbn [assert negb bind].
    eexists. split; [reflexivity|]. lia.
Qed.
Lemma nth_upd_eq (l : list Z) i x : (i < length l)%nat -> nth i (upd l i x) 0 = x.
Proof. revert i; induction l as [|y l IH]; intros [|i] H; cbn in *; try lia; auto. apply IH. lia. Qed.
Lemma nth_upd_ne (l : list Z) i j x : i <> j -> nth j (upd l i x) 0 = nth j l 0.
Proof. revert i j; induction l as [|y l IH]; intros [|i] [|j] H; cbn; auto; try lia. Qed.

(* what a write to section i does to the lists *)
Definition a_write (a : abs) (i : nat) (bs : list Z) : abs :=
  match i with
  | 2%nat => w_str a (a_str a ++ bs)
  | 5%nat => w_rod a (a_rod a ++ bs)
  | 6%nat => w_dat a (a_dat a ++ bs)
  | 7%nat => w_rdb a (a_rdb a ++ bs)
  | 8%nat => w_txt a (a_txt a ++ bs)
  | _ => w_rtb a (a_rtb a ++ bs)
  end.
Definition a_sec (a : abs) (i : nat) : list Z :=
  match i with
  | 2%nat => a_str a | 5%nat => a_rod a | 6%nat => a_dat a | 7%nat => a_rdb a | 8%nat => a_txt a | _ => a_rtb a
  end.
Ltac wcase :=
  match goal with |- exists s', section_write (conc ?a ?cp) ?i ?bs = _ /\ _ =>
    unfold section_write; cbn [assert writable bind Nat.ltb Nat.leb length secs conc get nth s_hdr sh_type andb];
    change (assert _) with (Ok tt); cbn [bind get secs conc nth s_hdr sh_size s_buf sh_type];
    match goal with |- context [negb (?x =? SHT_NOBITS)] => change (negb (x =? SHT_NOBITS)) with true end; cbn [andb];
    destruct (Z.ltb_spec 0 (zlen bs)) as [Hn|Hn];
    [ match goal with |- context [grow ?c ?n ?k] =>
        destruct (grow_ok c n k) as (c' & E & B); [assumption|exact Hn|]; rewrite E; cbn [bind];
        match goal with |- context [n + k <=? ?c] => destruct (Z.leb_spec (n + k) c) as [_|X]; [|lia] end end;
      eexists; split; [reflexivity|]; match goal with E : grow _ _ _ = Ok ?c |- _ => exists (upd cp i c) end; split;
      [ unfold conc, set, set_cap; cbn; rewrite ?zlen_app; reflexivity
      | unfold caps_ok; cbn; rewrite ?upd_length; split; [assumption|];
        repeat split; rewrite ?nth_upd_eq by (replace (length cp) with SHNUM_MAX by auto; unfold SHNUM_MAX; lia);
        rewrite ?nth_upd_ne by lia; auto; right; rewrite ?zlen_app; pose proof (zlen_nonneg bs); lia ]
    | assert (bs = []) as -> by (destruct bs; [reflexivity|unfold zlen in Hn; cbn in Hn; lia]);
      eexists; split; [reflexivity|]; exists cp; split;
      [ unfold conc, set; cbn; rewrite ?zlen_nil, ?Z.add_0_r, ?app_nil_r; reflexivity
      | unfold caps_ok; cbn; rewrite ?app_nil_r; repeat split; assumption ] ] end.
Lemma write_R a s i bs : R a s -> In i [2; 5; 6; 7; 8; 9]%nat ->
  exists s', section_write s i bs = Ok (s', zlen (a_sec a i)) /\ R (a_write a i bs) s'.
Proof.
  intros (cp & -> & L & C2 & C3 & C5 & C6 & C7 & C8 & C9) I.
  assert (forall P, cap_ok P (zlen (a_str a)) -> 0 <= zlen (a_str a)) as _ by (intros; apply zlen_nonneg).
  pose proof (zlen_nonneg (a_str a)). pose proof (zlen_nonneg (a_rod a)). pose proof (zlen_nonneg (a_dat a)).
  pose proof (zlen_nonneg (a_rdb a)). pose proof (zlen_nonneg (a_txt a)). pose proof (zlen_nonneg (a_rtb a)).
  cbn [In] in I. destruct I as [<-|[<-|[<-|[<-|[<-|[<-|[]]]]]]]; wcase.
Qed.

Lemma enc_sym_len e : zlen (enc_sym e) = 24.
Proof. unfold enc_sym. rewrite !zlen_app, !zlen_le. reflexivity. Qed.
Lemma ents_app a b : ents (a ++ b) = ents a ++ ents b.
Proof. apply flat_map_app. Qed.
Lemma ents_one e : ents [e] = enc_sym e. Proof. apply app_nil_r. Qed.
Lemma ents_len l : zlen (ents l) = 24 * zlen l.
Proof. induction l as [|e l IH]; [reflexivity|]. cbn [ents flat_map]. rewrite zlen_app, enc_sym_len, zlen_cons.
  fold (ents l). rewrite IH. lia. Qed.
Lemma write_sym_R a s e : R a s ->
  exists s', section_write s 3 (enc_sym e) = Ok (s', 24 * zlen (a_ent a)) /\ R (w_ent a (a_ent a ++ [e])) s'.
Proof.
  intros (cp & -> & L & C2 & C3 & C5 & C6 & C7 & C8 & C9).
  pose proof (enc_sym_len e) as EL. pose proof (zlen_nonneg (a_ent a)) as NN.
  unfold section_write. change (assert _) with (Ok tt). cbn [bind get secs conc nth s_hdr sh_size s_buf sh_type].
  change (negb (2 =? SHT_NOBITS)) with true. cbn [andb]. rewrite EL. change (0 <? 24) with true. cbn iota.
  destruct (grow_ok (nth 3 cp 0) (24 * zlen (a_ent a)) 24 C3 ltac:(lia)) as (c' & E & B).
  change (caps (conc a cp)) with cp. rewrite E. cbn [bind]. destruct (Z.leb_spec (24 * zlen (a_ent a) + 24) c') as [_|X]; [|lia].
  eexists. split; [reflexivity|]. exists (upd cp 3 c'). split.
  - unfold conc, set, set_cap, with_size.
    cbn [upd secs caps shstrndx off globals prel pend cur s_buf s_hdr sh_name sh_type sh_flags sh_offset sh_link sh_info
         sh_align sh_entsize w_ent a_str a_ent a_info a_bss a_bal a_rod a_ral a_dat a_dal a_rdb a_txt a_rtb a_off a_glob
         a_rd a_rt a_pend a_cur]. rewrite ents_app, ents_one, zlen_app.
    replace (24 * (zlen (a_ent a) + zlen [e])) with (24 * zlen (a_ent a) + 24) by (unfold zlen; cbn [length]; lia).
    reflexivity.
  - unfold caps_ok. cbn [a_str a_ent a_rod a_dat a_rdb a_txt a_rtb w_ent]. rewrite upd_length. split; [exact L|].
    rewrite nth_upd_eq by (rewrite L; unfold SHNUM_MAX; lia). rewrite !nth_upd_ne by lia.
    repeat split; auto. right. rewrite zlen_app. unfold zlen at 2 4. cbn [length]. lia.
Qed.

Lemma R_get3 a s : R a s -> get s 3 = Sec (Shdr 19 2 0 0 (24 * zlen (a_ent a)) 2 (a_info a) 4 24) (ents (a_ent a)).
Proof. intros (cp & -> & _). reflexivity. Qed.
Lemma R_info a s k : R a s ->
  R (w_info a k) (set s 3 (Sec (with_info (s_hdr (get s 3)) k) (s_buf (get s 3)))).
Proof. intros (cp & -> & C). exists cp. split; [reflexivity|exact C]. Qed.

Lemma sub_info l e r : 0 <= st_info e < 256 -> le_val (sub (ents (l ++ e :: r)) (24 * zlen l + 4) 1) = st_info e.
Proof.
  intro B. change (l ++ e :: r) with (l ++ [e] ++ r). rewrite !ents_app, ents_one. unfold enc_sym.
  set (x := ents l). assert (zlen x = 24 * zlen l) as X by apply ents_len.
  replace (24 * zlen l + 4) with (zlen (x ++ le_bytes 4 (st_name e))) by (rewrite zlen_app, zlen_le; lia).
  change 1 with (zlen (le_bytes 1 (st_info e))) at 1.
  rewrite <- !app_assoc. rewrite (app_assoc x). rewrite sub_app. rewrite le_val_bytes. change (256 ^ Z.of_nat 1) with 256.
  apply Z.mod_small. exact B.
Qed.

(* the binding of entry e is the one of the last entry of l *)
Definition same_bind (l : list esym) (e : esym) : Prop :=
  exists l' p, l = l' ++ [p] /\ 0 <= st_info p < 256 /\ st_info p / 16 = st_info e / 16.
Lemma add_sym_R a s e : R a s -> a_ent a <> [] ->
  ((st_info e / 16 =? 1) && (a_info a =? 0) = false -> same_bind (a_ent a) e) ->
  exists s', symtab_add s 3 e = Ok (s', zlen (a_ent a)) /\
    R (w_info (w_ent a (a_ent a ++ [e]))
         (if (st_info e / 16 =? 1) && (a_info a =? 0) then zlen (a_ent a) else a_info a)) s'.
Proof.
  intros HR NE SB. unfold symtab_add. change (assert (0 <? 3)%nat) with (Ok tt). cbn [bind].
  assert (0 < zlen (a_ent a)) as P by (destruct (a_ent a); [congruence|rewrite zlen_cons; pose proof (zlen_nonneg l); lia]).
  unfold size_of_sec. rewrite (R_get3 _ _ HR). cbn [s_hdr sh_size].
  replace (24 * zlen (a_ent a) / 24) with (zlen (a_ent a)) by (rewrite Z.mul_comm, Z.div_mul; lia).
  destruct (Z.eqb_spec (zlen (a_ent a)) 0) as [Z0|_]; [lia|]. cbn [bind].
  destruct (write_sym_R a s e HR) as (s1 & E1 & R1). rewrite E1. cbn [bind].
  pose proof (R_get3 _ _ R1) as G. cbn [a_ent w_ent a_info] in G. rewrite G. cbn [s_hdr sh_info s_buf].
  destruct ((st_info e / 16 =? 1) && (a_info a =? 0)) eqn:B.
  - eexists. split; [reflexivity|]. pose proof (R_info _ _ (zlen (a_ent a)) R1) as RI. rewrite G in RI. exact RI.
  - destruct (SB eq_refl) as (l' & p & EL & BP & EB).
    assert (le_val (sub (ents (a_ent a ++ [e])) (24 * (zlen (a_ent a) - 1) + 4) 1) = st_info p) as ->.
    { rewrite EL. rewrite <- app_assoc. cbn [app].
      replace (zlen (l' ++ [p]) - 1) with (zlen l') by (rewrite zlen_app, zlen_cons, zlen_nil; lia).
      apply sub_info. exact BP. }
    rewrite EB, Z.eqb_refl, orb_true_r. cbn [assert bind]. eexists. split; [reflexivity|].
    destruct R1 as (cp & ES & CP). exists cp. split; [exact ES|exact CP].
Qed.

(* the string table after a string is added, and its position *)
Definition str_base (b : list Z) : list Z := match b with [] => [0] | _ => b end.
Lemma strtab_add_R a s str : R a s ->
  exists s', strtab_add s 2 str = Ok (s', int32 (zlen (str_base (a_str a)))) /\
    R (w_str a (str_base (a_str a) ++ str ++ [0])) s'.
Proof.
  intros HR. unfold strtab_add.
  assert (exists s1, (if size_of_sec s 2 =? 0 then do (s0, _) <- section_write s 2 [0]; Ok s0 else Ok s) = Ok s1
      /\ R (w_str a (str_base (a_str a))) s1) as (s1 & E1 & R1).
  { assert (size_of_sec s 2 = zlen (a_str a)) as -> by (destruct HR as (cp & -> & _); reflexivity).
    destruct (a_str a) as [|c r] eqn:ES; cbn [str_base].
    - change (zlen (@nil Z) =? 0) with true. cbn iota.
      destruct (write_R a s 2 [0] HR ltac:(cbn; auto)) as (s1 & E1 & R1). rewrite E1. cbn [bind].
      exists s1. split; [reflexivity|]. cbn [a_write] in R1. rewrite ES in R1. exact R1.
    - destruct (Z.eqb_spec (zlen (c :: r)) 0) as [X|_]; [rewrite zlen_cons in X; pose proof (zlen_nonneg r); lia|].
      exists s. split; [reflexivity|]. rewrite <- ES. destruct a. exact HR. }
  assert (assert ((0 <? 2)%nat && (2 <? length (secs s))%nat && (sh_type (s_hdr (get s 2)) =? SHT_STRTAB)) = Ok tt) as ->.
  { destruct HR as (cp & -> & _). reflexivity. }
  cbn [bind]. rewrite E1. cbn [bind].
  destruct (write_R _ s1 2 (str ++ [0]) R1 ltac:(cbn; auto)) as (s2 & E2 & R2).
  assert (size_of_sec s1 2 = zlen (str_base (a_str a))) as -> by (destruct R1 as (cp & -> & _); reflexivity).
  rewrite E2. cbn [bind]. exists s2. split; [reflexivity|exact R2].
Qed.

(* bytes needed to bring n to a multiple of al *)
Definition padz (n al : Z) : Z := if n mod al =? 0 then 0 else al - n mod al.
Definition a_align (a : abs) (i : nat) (al : Z) : abs :=
  match i with
  | 4%nat => w_bss (w_bal a (Z.max (a_bal a) al)) (a_bss a + padz (a_bss a) al)
  | 5%nat => w_rod (w_ral a (Z.max (a_ral a) al)) (a_rod a ++ zeros (padz (zlen (a_rod a)) al))
  | _ => w_dat (w_dal a (Z.max (a_dal a) al)) (a_dat a ++ zeros (padz (zlen (a_dat a)) al))
  end.
Definition a_al (a : abs) (i : nat) : Z := match i with 4%nat => a_bal a | 5%nat => a_ral a | _ => a_dal a end.
Definition w_al (a : abs) (i : nat) (x : Z) : abs :=
  match i with 4%nat => w_bal a x | 5%nat => w_ral a x | _ => w_dal a x end.
Definition a_size (a : abs) (i : nat) : Z :=
  match i with 4%nat => a_bss a | 5%nat => zlen (a_rod a) | _ => zlen (a_dat a) end.
Lemma R_al a s i x : R a s -> In i [4; 5; 6]%nat ->
  sh_align (s_hdr (get s i)) = a_al a i /\ size_of_sec s i = a_size a i /\
  R (w_al a i x) (set s i (Sec (with_align (s_hdr (get s i)) x) (s_buf (get s i)))).
Proof.
  intros (cp & -> & C) I. cbn [In] in I.
  destruct I as [<-|[<-|[<-|[]]]]; repeat split; exists cp; split; try reflexivity; exact C.
Qed.
Lemma R_writable a s i : R a s -> In i [2; 3; 4; 5; 6; 7; 8; 9]%nat -> writable s i = true.
Proof.
  intros (cp & -> & C) I. cbn [In] in I. repeat destruct I as [<-|I]; try reflexivity. destruct I.
Qed.
Lemma bss_write_R a s n : R a s -> 0 <= n ->
  exists s' o, section_write s 4 (zeros n) = Ok (s', o) /\ R (w_bss a (a_bss a + n)) s'.
Proof.
  intros (cp & -> & C) N. unfold section_write. change (assert _) with (Ok tt).
  cbn [bind get secs conc nth s_hdr sh_size s_buf sh_type]. change (negb (8 =? SHT_NOBITS)) with false. cbn [andb].
  eexists. eexists. split; [reflexivity|]. exists cp. split; [|exact C]. unfold conc, set. cbn. rewrite zlen_zeros by lia. reflexivity.
Qed.
Lemma align_R a s i al : R a s -> In i [4; 5; 6]%nat -> 1 <= al <= 16 ->
  exists s', section_align s i al = Ok s' /\ R (a_align a i al) s'.
Proof.
  intros HR I B. unfold section_align.
  assert (In i [2; 3; 4; 5; 6; 7; 8; 9]%nat) as I' by (cbn in *; intuition).
  rewrite (R_writable _ _ _ HR I'). cbn [assert bind].
  destruct (R_al a s i al HR I) as (EA & ES & RA). rewrite EA.
  assert (exists s1, (if a_al a i <? al then do _ <- assert (al <=? 16); Ok (set s i (Sec (with_align (s_hdr (get s i)) al) (s_buf (get s i)))) else Ok s) = Ok s1
     /\ R (w_al a i (Z.max (a_al a i) al)) s1) as (s1 & E1 & R1).
  { destruct (Z.ltb_spec (a_al a i) al).
    - destruct (Z.leb_spec al 16); [|lia]. cbn [assert bind]. eexists. split; [reflexivity|]. rewrite Z.max_r by lia. exact RA.
    - exists s. split; [reflexivity|]. rewrite Z.max_l by lia. destruct a; cbn [In] in I;
      destruct I as [<-|[<-|[<-|[]]]]; exact HR. }
  rewrite E1. cbn [bind].
  destruct (R_al _ s1 i al R1 I) as (_ & ES1 & _).
  assert (a_size (w_al a i (Z.max (a_al a i) al)) i = a_size a i) as EZ
    by (cbn [In] in I; destruct I as [<-|[<-|[<-|[]]]]; reflexivity).
  rewrite ES1, EZ. pose proof (Z.mod_pos_bound (a_size a i) al ltac:(lia)) as MB.
  destruct (Z.eqb_spec (a_size a i mod al) 0) as [Z0|NZ]; cbn [negb].
  - exists s1. split; [reflexivity|].
    cbn [In] in I; destruct I as [<-|[<-|[<-|[]]]]; cbn [a_align a_size a_al w_al] in *; unfold padz; rewrite Z0;
      cbn [Z.eqb]; try change (zeros 0) with (@nil Z); rewrite ?app_nil_r, ?Z.add_0_r; destruct a; exact R1.
  - cbn [In] in I. destruct I as [<-|[<-|[<-|[]]]]; cbn [a_align a_size a_al w_al] in *; unfold padz;
    [ destruct (bss_write_R _ s1 (al - a_bss a mod al) R1 ltac:(lia)) as (s2 & o & E2 & R2)
    | destruct (write_R _ s1 5 (zeros (al - zlen (a_rod a) mod al)) R1 ltac:(cbn; auto)) as (s2 & E2 & R2)
    | destruct (write_R _ s1 6 (zeros (al - zlen (a_dat a) mod al)) R1 ltac:(cbn; auto)) as (s2 & E2 & R2) ];
    rewrite E2; cbn [bind]; exists s2; (split; [reflexivity|]);
    match goal with |- context [?x =? 0] => destruct (Z.eqb_spec x 0); [contradiction|] end; destruct a; exact R2.
Qed.

(* --- The start --- *)
Definition str0 (file : option (list Z)) : list Z := match file with None => [] | Some f => [0] ++ f ++ [0] end.
Definition ent0 (file : option (list Z)) : list esym :=
  [null_esym] ++ (match file with None => [] | Some _ => [Esym 1 4 65521 0 0] end) ++
  map (fun i => Esym 0 3 i 0 0) [4; 5; 6; 7; 8; 9].
Definition abs0 (file : option (list Z)) : abs :=
  Abs (str0 file) (ent0 file) 0 0 4 [] 16 [] 4 [] [] [] (fun _ => 0) [] [] [] [] CNone.

Definition mid (b : list Z) (n c : Z) : est :=
  Est [null_sec; Sec (Shdr 1 3 0 0 27 0 0 1 0) ([0] ++ n_shstrtab ++ [0] ++ n_strtab ++ [0] ++ n_symtab ++ [0]);
       Sec (Shdr 11 3 0 0 n 0 0 1 0) b; Sec (Shdr 19 2 0 0 0 2 0 4 24) []]
      ([0; 30; c] ++ repeat 0 10) 1 (fun _ => 0) [] (repeat [] SHNUM_MAX) [] CNone.
Lemma init_mid file : elf_init start file = do s <- init_file (mid [] 0 0) 2 3 file; init_sections s 1 3.
Proof.
  unfold elf_init.
  change (Est [] (caps start) (shstrndx start) (off start) (globals start) (prel start) (pend start) CNone) with start.
  assert (init_tables start = Ok (mid [] 0 0, 1%nat, 2%nat, 3%nat)) as -> by (vm_compute; reflexivity). reflexivity.
Qed.
Lemma init_R file : exists s, elf_init start file = Ok s /\ R (abs0 file) s.
Proof.
  rewrite init_mid. destruct file as [f|]; cbn [init_file].
  - assert (exists c, strtab_add (mid [] 0 0) 2 f = Ok (mid ([0] ++ f ++ [0]) (zlen ([0] ++ f ++ [0])) c, 1)
        /\ cap_ok c (zlen ([0] ++ f ++ [0]))) as (c & E & C).
    { unfold strtab_add. change (assert _) with (Ok tt). cbn [bind].
      change (size_of_sec (mid [] 0 0) 2 =? 0) with true. cbn iota.
      assert (section_write (mid [] 0 0) 2 [0] = Ok (mid [0] 1 10, 0)) as -> by (vm_compute; reflexivity).
      cbn [bind].
      match goal with |- context [int32 ?x] => change (int32 x) with 1 end.
      unfold section_write. change (assert _) with (Ok tt). cbn [bind].
      change (get (mid [0] 1 10) 2) with (Sec (Shdr 11 3 0 0 1 0 0 1 0) [0]). cbn [s_hdr s_buf sh_size sh_type].
      change (negb (3 =? SHT_NOBITS)) with true.
      assert (zlen (f ++ [0]) = zlen f + 1) as FL by (rewrite zlen_app; reflexivity).
      pose proof (zlen_nonneg f).
      destruct (Z.ltb_spec 0 (zlen (f ++ [0]))); [|lia]. cbn [andb].
      change (nth 2 (caps (mid [0] 1 10)) 0) with 10.
      destruct (grow_ok 10 1 (zlen (f ++ [0])) ltac:(right; lia) ltac:(lia)) as (c & E & B). rewrite E. cbn [bind].
      destruct (Z.leb_spec (1 + zlen (f ++ [0])) c); [|lia]. cbn [bind].
      exists c. split.
      - f_equal. f_equal. change ([0] ++ f ++ [0]) with (0 :: (f ++ [0])). rewrite zlen_cons. reflexivity.
      - right. change ([0] ++ f ++ [0]) with (0 :: (f ++ [0])). rewrite zlen_cons. lia. }
    rewrite E. cbn [bind]. clear E.
    revert C. unfold R, abs0, str0, conc. cbn [a_str a_ent a_info a_bss a_bal a_rod a_ral a_dat a_dal a_rdb a_txt a_rtb a_off a_glob a_rd a_rt a_pend a_cur].
    unfold caps_ok. cbn [a_str a_ent a_info a_bss a_bal a_rod a_ral a_dat a_dal a_rdb a_txt a_rtb a_off a_glob a_rd a_rt a_pend a_cur].
    set (b := [0] ++ f ++ [0]). generalize (zlen b) as n. clearbody b. intros n C.
    eexists. split; [vm_compute; reflexivity|].
    exists [0; 141; c; 240; 0; 0; 0; 0; 0; 0; 0; 0; 0]. split; [reflexivity|].
    cbn [nth]. split; [reflexivity|]. split; [exact C|]. split; [right; cbn; lia|]. repeat split; left; split; reflexivity.
  - eexists. split; [vm_compute; reflexivity|].
    exists [0; 141; 0; 240; 0; 0; 0; 0; 0; 0; 0; 0; 0]. split; [reflexivity|].
    split; [reflexivity|]. cbn [nth]. split; [left; split; reflexivity|]. split; [right; cbn; lia|].
    repeat split; left; split; reflexivity.
Qed.
