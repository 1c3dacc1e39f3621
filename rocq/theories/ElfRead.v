(* Reading the file back. *)
From Coq Require Import List ZArith Lia Bool.
From Verif Require Import Util Bytes ElfModel ElfSpec ElfProofs ElfSteps ElfJump ElfItems ElfAll ElfFlush.
Import ListNotations.
Open Scope Z_scope.

Lemma bytes_skip a b o n : zlen a <= o -> bytes_at (a ++ b) o n = bytes_at b (o - zlen a) n.
Proof.
  intro H. unfold bytes_at. f_equal. unfold zlen in *. rewrite skipn_app. rewrite skipn_all2 by lia. cbn [app].
  f_equal. lia.
Qed.
Lemma bytes_here a b n : zlen a = n -> bytes_at (a ++ b) 0 n = a.
Proof.
  intros <-. unfold bytes_at. rewrite to_nat_zlen. cbn [Z.to_nat skipn]. rewrite firstn_app, firstn_all, Nat.sub_diag. apply app_nil_r.
Qed.
Lemma bytes_mid a b c o n : zlen a = o -> zlen b = n -> bytes_at (a ++ b ++ c) o n = b.
Proof. intros <- H. rewrite bytes_skip, Z.sub_diag by lia. apply bytes_here. exact H. Qed.
Lemma num_skip a b o n : zlen a <= o -> num (a ++ b) o n = num b (o - zlen a) n.
Proof. intro H. unfold num. rewrite bytes_skip by exact H. reflexivity. Qed.
Lemma num_here k x b n : Z.of_nat k = n -> 0 <= x < 256 ^ n -> num (le_bytes k x ++ b) 0 n = x.
Proof. intros <- H. unfold num. rewrite bytes_here by apply zlen_le. rewrite le_val_bytes. apply Z.mod_small. exact H. Qed.
(* skip the fields before *)
Ltac skip := repeat (rewrite num_skip by (rewrite zlen_le; cbn; lia); rewrite zlen_le; cbn [Z.of_nat Pos.of_succ_nat Pos.succ];
                     match goal with |- num _ ?o _ = _ => let o' := eval vm_compute in o in change o with o' end).

Record hdr_reads (f : list Z) (i : Z) (h : shdr) : Prop := {
  h_name : sec_name f i = sh_name h; h_type : sec_type f i = sh_type h; h_flags : sec_flags f i = sh_flags h;
  h_offset : sec_offset f i = sh_offset h; h_size : sec_size f i = sh_size h; h_link : sec_link f i = sh_link h;
  h_info : sec_info f i = sh_info h; h_align : sec_align f i = sh_align h; h_entsize : sec_entsize f i = sh_entsize h }.
Definition hdr_small (h : shdr) : Prop :=
  0 <= sh_name h < 256 ^ 4 /\ 0 <= sh_type h < 256 ^ 4 /\ 0 <= sh_flags h < 256 ^ 8 /\ 0 <= sh_offset h < 256 ^ 8 /\
  0 <= sh_size h < 256 ^ 8 /\ 0 <= sh_link h < 256 ^ 4 /\ 0 <= sh_info h < 256 ^ 4 /\ 0 <= sh_align h < 256 ^ 8 /\
  0 <= sh_entsize h < 256 ^ 8.
Lemma hdr_read f i h u v : f = u ++ enc_shdr h ++ v -> zlen u = 64 + 64 * i -> e_shoff f = 64 -> e_shentsize f = 64 -> hdr_small h ->
  hdr_reads f i h.
Proof.
  intros EF EU E1 E2 (B1 & B2 & B3 & B4 & B5 & B6 & B7 & B8 & B9).
  assert (forall o n, 0 <= o -> sec_num f i o n = num (enc_shdr h ++ v) o n) as E.
  { intros o n O. unfold sec_num. rewrite E1, E2, EF. rewrite num_skip by lia. f_equal. lia. }
  constructor; [unfold sec_name|unfold sec_type|unfold sec_flags|unfold sec_offset|unfold sec_size|unfold sec_link|unfold sec_info|unfold sec_align|unfold sec_entsize];
    rewrite E by lia; unfold enc_shdr; rewrite <- !app_assoc; skip; apply num_here; solve [reflexivity|assumption].
Qed.
Lemma enc_shdr_len h : zlen (enc_shdr h) = 64. Proof. unfold enc_shdr. rewrite !zlen_app, !zlen_le. reflexivity. Qed.
Lemma hdrs_len l : zlen (flat_map (fun x => enc_shdr (s_hdr x)) l) = 64 * zlen l.
Proof. induction l as [|x l IH]; [reflexivity|]. cbn [flat_map]. rewrite zlen_app, enc_shdr_len, IH, zlen_cons. lia. Qed.
Lemma ehdr_len n k : zlen (enc_ehdr n k) = 64. Proof. unfold enc_ehdr. rewrite !zlen_app, !zlen_le. reflexivity. Qed.
Lemma ehdr_read n k v : 0 <= n < 256 ^ 2 -> 0 <= k < 256 ^ 2 -> let f := enc_ehdr n k ++ v in
  e_shoff f = 64 /\ e_shentsize f = 64 /\ e_shnum f = n /\ e_shstrndx f = k.
Proof.
  intros BN BK f. unfold e_shoff, e_shentsize, e_shnum, e_shstrndx, f, enc_ehdr. rewrite <- !app_assoc.
  set (m := [127; 69; 76; 70; 2; 1; 1; 0; 0; 0; 16; 0; 0; 0; 0; 0]). assert (zlen m = 16) as M by reflexivity. clearbody m.
  repeat split; (rewrite num_skip by (rewrite M; lia); rewrite M;
    match goal with |- num _ ?o _ = _ => let o' := eval vm_compute in o in change o with o' end;
    skip; apply num_here; [reflexivity|first [assumption|lia]]).
Qed.

(* entries of the symbol table *)
Definition ent_small (e : esym) : Prop :=
  0 <= st_name e < 256 ^ 4 /\ 0 <= st_info e < 256 /\ 0 <= st_shndx e < 256 ^ 2 /\ 0 <= st_value e < 256 ^ 8 /\ 0 <= st_size e < 256 ^ 8.
Record ent_reads (f : list Z) (t k : Z) (e : esym) : Prop := {
  r_name : sym_num f t k 0 4 = st_name e; r_stype : sym_type f t k = st_info e mod 16; r_bind : sym_bind f t k = st_info e / 16;
  r_shndx : sym_shndx f t k = st_shndx e; r_value : sym_value f t k = st_value e; r_size : sym_size f t k = st_size e }.
Lemma ent_read f t es k e : content f t = ents es -> nth_error es k = Some e -> ent_small e -> ent_reads f t (Z.of_nat k) e.
Proof.
  intros EC N (B1 & B2 & B3 & B4 & B5). apply nth_error_split in N. destruct N as (l1 & l2 & -> & <-).
  assert (forall o n, 0 <= o -> sym_num f t (Z.of_nat (length l1)) o n = num (enc_sym e ++ ents l2) o n) as E.
  { intros o n O. unfold sym_num. rewrite EC. change (l1 ++ e :: l2) with (l1 ++ [e] ++ l2). rewrite !ents_app, ents_one.
    rewrite num_skip by (rewrite ents_len; unfold zlen; lia). rewrite ents_len. f_equal. unfold zlen. lia. }
  assert (sym_num f t (Z.of_nat (length l1)) 4 1 = st_info e) as EI.
  { rewrite E by lia. unfold enc_sym. rewrite <- !app_assoc. skip. apply num_here; [reflexivity|assumption]. }
  constructor; [|unfold sym_type|unfold sym_bind|unfold sym_shndx|unfold sym_value|unfold sym_size]; rewrite ?EI; try reflexivity;
    rewrite E by lia; unfold enc_sym; rewrite <- !app_assoc; try (skip; apply num_here; solve [reflexivity|assumption]).
Qed.
(* relocations *)
Lemma le_bytes_split n m : forall z, le_bytes (n + m) z = le_bytes n z ++ le_bytes m (z / 256 ^ Z.of_nat n).
Proof.
  induction n as [|n IH]; intro z; cbn [Nat.add le_bytes app].
  - change (256 ^ Z.of_nat 0) with 1. rewrite Z.div_1_r. reflexivity.
  - f_equal. rewrite IH, pow256_S, Z.div_div by (try lia; apply pow256_pos). reflexivity.
Qed.
Lemma info_split s t : 0 <= t < 2 ^ 32 -> le_bytes 8 (s * 2 ^ 32 + t) = le_bytes 4 t ++ le_bytes 4 s.
Proof.
  intro B. change 8%nat with (4 + 4)%nat. rewrite le_bytes_split. change (256 ^ Z.of_nat 4) with (2 ^ 32). f_equal.
  - apply le_bytes_congr. change (256 ^ Z.of_nat 4) with (2 ^ 32). rewrite Z.add_comm, Z.mod_add by lia. reflexivity.
  - f_equal. rewrite Z.div_add_l by lia. rewrite Z.div_small by lia. lia.
Qed.
Lemma signed_mod n z : 0 < n -> - 2 ^ (n - 1) <= z < 2 ^ (n - 1) -> signed n (z mod 2 ^ n) = z.
Proof.
  intros N B. assert (2 ^ n = 2 * 2 ^ (n - 1)) as E by (rewrite <- Z.pow_succ_r by lia; f_equal; lia). unfold signed.
  destruct (Z.ltb_spec z 0) as [H|H].
  - replace (z mod 2 ^ n) with (z + 2 ^ n).
    + destruct (Z.ltb_spec (z + 2 ^ n) (2 ^ (n - 1))); lia.
    + apply Z.mod_unique with (-1); lia.
  - rewrite Z.mod_small by lia. destruct (Z.ltb_spec z (2 ^ (n - 1))); lia.
Qed.
Record rel_reads (f : list Z) (t j : Z) (o : Z -> Z) (r : reloc) : Prop := {
  l_offset : rel_offset f t j = r_offset r; l_type : rel_type f t j = r_type r; l_sym : rel_sym f t j = o (r_symbol r);
  l_addend : rel_addend f t j = (if (r_type r =? 2) || (r_type r =? 4) || (r_type r =? 9) then r_addend r - 4 else r_addend r) }.
Lemma rel_read f t o rs j r : content f t = flat_map (rb o) rs -> nth_error rs j = Some r ->
  0 <= r_offset r < 256 ^ 8 -> 0 <= r_type r < 2 ^ 32 -> 0 <= o (r_symbol r) < 256 ^ 4 -> in_int (r_addend r) ->
  rel_reads f t (Z.of_nat j) o r.
Proof.
  intros EC N B1 B2 B3 B4. apply nth_error_split in N. destruct N as (l1 & l2 & -> & <-).
  assert (forall k n, 0 <= k -> num (content f t) (24 * Z.of_nat (length l1) + k) n = num (rb o r ++ flat_map (rb o) l2) k n) as E.
  { intros k n O. rewrite EC, flat_map_app. cbn [flat_map].
    rewrite num_skip by (rewrite rbs_len; unfold zlen; lia). rewrite rbs_len. f_equal. unfold zlen. lia. }
  unfold rb, enc_rela in E. rewrite info_split in E by exact B2.
  constructor; [unfold rel_offset|unfold rel_type|unfold rel_sym|unfold rel_addend].
  - rewrite <- (Z.add_0_r (24 * _)). rewrite E by lia. rewrite <- !app_assoc. skip. apply num_here; [reflexivity|assumption].
  - rewrite E by lia. rewrite <- !app_assoc. skip. apply num_here; [reflexivity|exact B2].
  - rewrite E by lia. rewrite <- !app_assoc. skip. apply num_here; [reflexivity|assumption].
  - rewrite E by lia. rewrite <- !app_assoc.
    set (x := if _ : bool then _ else _).
    assert (- 2 ^ (64 - 1) <= x < 2 ^ (64 - 1)) as BX by (unfold in_int in B4; subst x; destruct (_ || _); cbn; lia).
    clearbody x. assert (num (le_bytes 8 (r_offset r) ++ le_bytes 4 (r_type r) ++ le_bytes 4 (o (r_symbol r)) ++ le_bytes 8 x ++ flat_map (fun r0 => enc_rela (r_offset r0) (o (r_symbol r0) * 2 ^ 32 + r_type r0) (if (r_type r0 =? 2) || (r_type r0 =? 4) || (r_type r0 =? 9) then r_addend r0 - 4 else r_addend r0)) l2) 16 8 = x mod 2 ^ 64) as EN.
    { skip. unfold num. rewrite bytes_here by apply zlen_le. rewrite le_val_bytes. reflexivity. }
    transitivity (signed 64 (x mod 2 ^ 64)); [f_equal; exact EN|]. apply signed_mod; [lia|exact BX].
Qed.
