From Coq Require Import List Arith ZArith Lia Bool.
From Verif Require Import Util Bytes StrtabModel.
From Verif Require HashModel HashSpec HashProofs.
Import ListNotations.
Open Scope Z_scope.
Ltac Zify.zify_post_hook ::= Z.div_mod_to_equations.

(* ---- handles of short strings ---- *)
Definition short_all (buf : list Z) : list Z :=
  buf ++ repeat 0 (15 - length buf) ++ [Z.of_nat (15 - length buf)].
Definition short_handle (buf : list Z) : String :=
  mk_String (le_val (firstn 8 (short_all buf))) (le_val (skipn 8 (short_all buf))).
Definition long_handle (p : Z) (buf : list Z) : String :=
  mk_String p (Z.of_nat (length buf) + 255 * 2 ^ 56).

Lemma short_all_length buf : (length buf <= 15)%nat -> length (short_all buf) = 16%nat.
Proof. intro H. unfold short_all. rewrite !app_length, repeat_length. cbn [length]. lia. Qed.

Lemma repeat0_bytes n : Forall is_byte (repeat 0 n).
Proof. induction n; simpl; constructor; auto. unfold is_byte; lia. Qed.

Lemma short_all_bytes buf : (length buf <= 15)%nat -> Forall is_byte buf -> Forall is_byte (short_all buf).
Proof.
  intros H Hb. unfold short_all. apply Forall_app; split; [exact Hb|].
  apply Forall_app; split; [apply repeat0_bytes|].
  constructor; [|constructor]. unfold is_byte. lia.
Qed.

Lemma Forall_firstn {A} (P : A -> Prop) n l : Forall P l -> Forall P (firstn n l).
Proof. intro H. revert n; induction H as [|x l Hx Hl IH]; intros [|n]; simpl; constructor; auto. Qed.
Lemma Forall_skipn {A} (P : A -> Prop) n l : Forall P l -> Forall P (skipn n l).
Proof. intro H. revert n; induction H as [|x l Hx Hl IH]; intros [|n]; simpl; auto. Qed.

Lemma short_words buf : (length buf <= 15)%nat -> Forall is_byte buf ->
  le_bytes 8 (w0 (short_handle buf)) ++ le_bytes 8 (w1 (short_handle buf)) = short_all buf.
Proof.
  intros H Hb. pose proof (short_all_length buf H) as Hl. pose proof (short_all_bytes buf H Hb) as Hby.
  unfold short_handle; cbn [w0 w1].
  replace 8%nat with (length (firstn 8 (short_all buf))) at 1 by (rewrite firstn_length; lia).
  rewrite le_bytes_val by (apply Forall_firstn; exact Hby).
  replace 8%nat with (length (skipn 8 (short_all buf))) at 2 by (rewrite skipn_length; lia).
  rewrite le_bytes_val by (apply Forall_skipn; exact Hby).
  apply firstn_skipn.
Qed.

Lemma short_w1 buf : (length buf <= 15)%nat -> Forall is_byte buf ->
  exists r, w1 (short_handle buf) = r + 2 ^ 56 * Z.of_nat (15 - length buf) /\ 0 <= r < 2 ^ 56.
Proof.
  intros H Hb. unfold short_handle; cbn [w1].
  set (pre := buf ++ repeat 0 (15 - length buf)).
  assert (Hpre : length pre = 15%nat) by (unfold pre; rewrite app_length, repeat_length; lia).
  assert (Hall : short_all buf = pre ++ [Z.of_nat (15 - length buf)])
    by (unfold short_all, pre; rewrite app_assoc; reflexivity).
  rewrite Hall, skipn_app, Hpre. change (8 - 15)%nat with 0%nat. rewrite skipn_O.
  rewrite le_val_app, skipn_length, Hpre. change (Z.of_nat (15 - 8)) with 7. change (256 ^ 7) with (2 ^ 56).
  exists (le_val (skipn 8 pre)). cbn [le_val]. split; [lia|].
  assert (Forall is_byte (skipn 8 pre)) as HF.
  { apply Forall_skipn. unfold pre. apply Forall_app; split; [exact Hb|apply repeat0_bytes]. }
  apply le_val_bound in HF. rewrite skipn_length, Hpre in HF. exact HF.
Qed.

Lemma short_cap buf : (length buf <= 15)%nat -> Forall is_byte buf ->
  cap_byte (short_handle buf) = Z.of_nat (15 - length buf).
Proof.
  intros H Hb. unfold cap_byte. destruct (short_w1 buf H Hb) as (r & -> & Hr).
  rewrite Z.mul_comm, Z.div_add by lia. rewrite Z.div_small by lia. lia.
Qed.

Lemma short_is_short buf : (length buf <= 15)%nat -> Forall is_byte buf ->
  IS_SHORT_STRING (short_handle buf) = true.
Proof. intros H Hb. unfold IS_SHORT_STRING. rewrite short_cap by auto. apply Z.ltb_lt. lia. Qed.

Lemma short_len buf : (length buf <= 15)%nat -> Forall is_byte buf ->
  str_len (short_handle buf) = Z.of_nat (length buf).
Proof. intros H Hb. unfold str_len. rewrite short_is_short, short_cap by auto. lia. Qed.

Lemma short_denotes hp buf : (length buf <= 15)%nat -> Forall is_byte buf ->
  str_bytes hp (short_handle buf) = Some buf.
Proof.
  intros H Hb. unfold str_bytes. rewrite short_is_short, short_len by auto.
  rewrite short_words by auto. rewrite Nat2Z.id. f_equal.
  unfold short_all. rewrite firstn_app, Nat.sub_diag, firstn_all. simpl. apply app_nil_r.
Qed.

Lemma long_cap p buf : Z.of_nat (length buf) <= 2147483647 -> cap_byte (long_handle p buf) = 255.
Proof. intro H. unfold cap_byte, long_handle; cbn [w1]. rewrite Z.div_add by lia. rewrite Z.div_small by lia. lia. Qed.

Lemma long_not_short p buf : Z.of_nat (length buf) <= 2147483647 -> IS_SHORT_STRING (long_handle p buf) = false.
Proof. intro H. unfold IS_SHORT_STRING. rewrite long_cap by auto. reflexivity. Qed.

Lemma long_len p buf : Z.of_nat (length buf) <= 2147483647 -> str_len (long_handle p buf) = Z.of_nat (length buf).
Proof.
  intro H. unfold str_len. rewrite long_not_short by auto. unfold long_handle, MAX_STRING_LEN; cbn [w1].
  replace (2 ^ 56 - 1) with (Z.ones 56) by reflexivity. rewrite Z.land_ones by lia.
  rewrite Z.mod_add by lia. apply Z.mod_small. lia.
Qed.

Lemma long_denotes hp p buf : Z.of_nat (length buf) <= 2147483647 ->
  hget hp p = Some (buf ++ [0]) -> str_bytes hp (long_handle p buf) = Some buf.
Proof.
  intros H Hp. unfold str_bytes. rewrite long_not_short, long_len by auto.
  unfold long_handle; cbn [w0]. rewrite Hp. cbn [option_map]. f_equal. rewrite Nat2Z.id.
  rewrite firstn_app, Nat.sub_diag, firstn_all. simpl. apply app_nil_r.
Qed.

(* ---- embedding into the generic probing proofs ---- *)
Section Emb.
Variable h : list Z -> Z.
Notation HE := (@HashModel.entry (list Z) Z).
Notation HFind := (@HashModel.hash_find_entry (list Z) Z list_eqb).
Notation WF := (@HashProofs.WF (list Z) Z list_eqb h).
Notation Live := (@HashProofs.Live (list Z) Z).
Notation used := (@HashProofs.used (list Z) Z).

Definition key_of (hp : heap) (p : Z) : list Z :=
  match hget hp p with Some b => removelast b | None => [] end.

Definition emb (hp : heap) (e : sentry) : HE :=
  HashModel.mk_entry (s_hash e) false
    (match s_value e with Some p => key_of hp p | None => [] end) (s_value e).

(* a stored entry owns a NUL-terminated copy of its string *)
Definition good (hp : heap) (e : sentry) : Prop :=
  match s_value e with
  | None => s_hash e = 0
  | Some p => exists b, hget hp p = Some (b ++ [0]) /\ s_length e = Z.of_nat (length b) /\ s_hash e = h b
  end.

Lemma emb_match hp e v : good hp e ->
  strtab_match_entry hp e v (Z.of_nat (length v)) (h v) =
  HashModel.hash_match_entry list_eqb (emb hp e) v (h v).
Proof.
  unfold good, strtab_match_entry, HashModel.hash_match_entry, emb.
  cbn [HashModel.e_deleted HashModel.e_value HashModel.e_hash HashModel.e_key].
  destruct (s_value e) as [p|]; [|easy]. intros (b & Hp & Hl & Hh).
  unfold memcmp_eq, key_of. rewrite Hp, Hl, removelast_last, Nat2Z.id.
  destruct (s_hash e =? h v); cbn [andb]; [|easy].
  destruct (Z.eqb_spec (Z.of_nat (length b)) (Z.of_nat (length v))) as [E|E]; cbn [andb].
  - apply Nat2Z.inj in E. rewrite <- E, firstn_app, Nat.sub_diag, firstn_all.
    simpl. rewrite app_nil_r. rewrite E, firstn_all. reflexivity.
  - symmetry. destruct (list_eqb b v) eqn:Eb; [|easy]. apply list_eqb_eq in Eb as ->. lia.
Qed.

Lemma emb_scan hp es v j n : Forall (good hp) es ->
  sscan hp es v (Z.of_nat (length v)) (h v) j n =
  HashModel.scan list_eqb (map (emb hp) es) v (h v) j n.
Proof.
  intro HG. revert j; induction n as [|n IH]; intro j; simpl; [easy|].
  rewrite nth_error_map. destruct (nth_error es j) as [e|] eqn:E; simpl; [|easy].
  rewrite emb_match.
  - destruct (HashModel.hash_match_entry _ _ _ _); [easy|apply IH].
  - apply nth_error_In in E. rewrite Forall_forall in HG. auto.
Qed.

Lemma emb_find hp cap es v : Forall (good hp) es ->
  strtab_find_entry hp cap es v (Z.of_nat (length v)) (h v) =
  match HFind cap (map (emb hp) es) v (h v) with
  | HashModel.Ok j => Ok j | _ => AssertFail end.
Proof.
  intro HG. unfold strtab_find_entry, HashModel.hash_find_entry, HashModel.start_index.
  destruct (Nat.eqb cap 0); [easy|]. rewrite nth_error_map.
  destruct (nth_error es _) as [e|] eqn:E; simpl; [|easy].
  rewrite emb_match by (apply nth_error_In in E; rewrite Forall_forall in HG; auto).
  destruct (HashModel.hash_match_entry _ _ _ _); [easy|].
  rewrite !emb_scan by exact HG.
  destruct (HashModel.scan _ _ _ _ (S _) _); [easy|].
  destruct (HashModel.scan _ _ _ _ 0 _); easy.
Qed.

Lemma map_upd {A B} (f : A -> B) l i x : map f (upd l i x) = upd (map f l) i (f x).
Proof. revert i; induction l as [|a l IH]; intros [|i]; simpl; auto. now rewrite IH. Qed.

Lemma Forall_upd {A} (P : A -> Prop) l i x : Forall P l -> P x -> Forall P (upd l i x).
Proof.
  intros H Hx. revert i; induction H as [|a l Ha Hl IH]; intros [|i]; simpl; constructor; auto.
Qed.

Lemma emb_rehash hp cap : forall old es es', Forall (good hp) old -> Forall (good hp) es ->
  HashModel.rehash list_eqb cap (map (emb hp) old) (map (emb hp) es) = HashModel.Ok es' ->
  exists es1, srehash hp cap old es = Ok es1 /\ Forall (good hp) es1 /\ es' = map (emb hp) es1.
Proof.
  induction old as [|a old IH]; intros es es' Ho He Hr; simpl in *.
  - injection Hr as <-. eauto.
  - inversion Ho as [|x l Ha Hold]; subst. pose proof Ha as Ha'. unfold good in Ha.
    destruct (s_value a) as [p|] eqn:Ev; [|eapply IH; eauto].
    destruct Ha as (b & Hp & Hl & Hh). rewrite Hp, Hl, Hh.
    assert (Hk : key_of hp p = b) by (unfold key_of; rewrite Hp; apply removelast_last).
    rewrite Hk, Hh in Hr.
    assert (Hfe : strtab_find_entry hp cap es (b ++ [0]) (Z.of_nat (length b)) (h b)
                  = strtab_find_entry hp cap es b (Z.of_nat (length b)) (h b)).
    { assert (Hm : forall e, strtab_match_entry hp e (b ++ [0]) (Z.of_nat (length b)) (h b)
                    = strtab_match_entry hp e b (Z.of_nat (length b)) (h b)).
      { intro e. unfold strtab_match_entry, memcmp_eq. rewrite Nat2Z.id.
        rewrite firstn_app, Nat.sub_diag. simpl. rewrite app_nil_r. reflexivity. }
      assert (Hs : forall n j, sscan hp es (b ++ [0]) (Z.of_nat (length b)) (h b) j n
                    = sscan hp es b (Z.of_nat (length b)) (h b) j n).
      { induction n as [|n IHn]; intro j; simpl; [easy|].
        destruct (nth_error es j) as [e|]; [|easy]. rewrite Hm, IHn. easy. }
      unfold strtab_find_entry. destruct (Nat.eqb cap 0); [easy|].
      destruct (nth_error es _) as [e|]; [|easy]. rewrite Hm, !Hs. easy. }
    rewrite Hfe, emb_find by exact He.
    destruct (HFind cap (map (emb hp) es) b (h b)) as [j| |] eqn:Ef; simpl in Hr; try discriminate.
    simpl. apply IH; auto.
    + apply Forall_upd; auto.
    + rewrite map_upd. unfold emb at 3. rewrite Ev, Hk, Hh. exact Hr.
Qed.

Lemma used_emb hp e : used (emb hp e) = match s_value e with Some _ => true | None => false end.
Proof. reflexivity. Qed.

(* Invariant of the string table. *)
Definition Inv (st : strtab) : Prop :=
  Forall (good (st_heap st)) (st_entries st) /\
  (forall p b, hget (st_heap st) p = Some b -> exists e, In e (st_entries st) /\ s_value e = Some p) /\
  ((st_capacity st = 0%nat /\ st_count st = 0%nat /\ st_entries st = [] /\ st_heap st = []) \/
   (WF (st_capacity st) (map (emb (st_heap st)) (st_entries st)) /\ (16 <= st_capacity st)%nat /\
    (st_count st <= st_capacity st / 2)%nat /\
    (countb used (map (emb (st_heap st)) (st_entries st)) <= st_count st)%nat)).

(* the string [b] is stored at address [p] *)
Definition Stored (st : strtab) (b : list Z) (p : Z) : Prop :=
  Live (map (emb (st_heap st)) (st_entries st)) b p.

Lemma Stored_heap st b p : Inv st -> Stored st b p -> hget (st_heap st) p = Some (b ++ [0]).
Proof.
  intros (HG & _) (e & Hin & _ & Hk & Hv). apply in_map_iff in Hin as (e' & <- & Hin).
  rewrite Forall_forall in HG. specialize (HG e' Hin). unfold good in HG.
  cbn in Hv. cbn in Hk. rewrite Hv in HG, Hk. destruct HG as (b' & Hp & _).
  unfold key_of in Hk. rewrite Hp, removelast_last in Hk. congruence.
Qed.

Lemma emb_szero hp : emb hp szero = HashModel.zero_entry [].
Proof. reflexivity. Qed.

Lemma map_repeat' {A B} (f : A -> B) x n : map f (repeat x n) = repeat (f x) n.
Proof. induction n; simpl; auto. now rewrite IHn. Qed.

Lemma two11 : N.to_nat 2048 = (2 ^ 11)%nat. Proof. vm_compute. reflexivity. Qed.

Lemma sexpand_ok st : Inv st -> strtab_is_full st = true -> Z.of_nat (st_count st) < 2 ^ 29 ->
  exists st', strtab_expand st = Ok st' /\ Inv st' /\ strtab_is_full st' = false /\
    st_count st' = st_count st /\ st_heap st' = st_heap st /\ (forall b p, Stored st' b p <-> Stored st b p).
Proof.
  intros (HG & HO & [(Hc & Hn & He & Hh)|(W & H16 & Hc & Hu)]) Hfull Hlim; unfold strtab_expand.
  - rewrite Hc, Hn, He, Hh. cbn [Nat.eqb]. rewrite two11.
    destruct (Z.ltb_spec 2147483647 (Z.of_nat (2 ^ 11))) as [X|X].
    { exfalso. rewrite Nat2Z.inj_pow in X. change (Z.of_nat 2 ^ Z.of_nat 11) with 2048 in X. lia. }
    cbn [srehash bind]. eexists; split; [reflexivity|].
    assert (Hd : (2 ^ 11 / 2)%nat = (2 ^ 10)%nat) by (rewrite Nat.pow_succ_r', Nat.mul_comm, Nat.div_mul; auto).
    assert (H10 : (16 <= 2 ^ 10)%nat) by (change 16%nat with (2 ^ 4)%nat; apply Nat.pow_le_mono_r; lia).
    split; [|split; [|split; [|split]]].
    + split; [|split].
      * cbn [st_heap st_entries]. apply Forall_forall. intros x Hx. apply repeat_spec in Hx as ->. easy.
      * cbn [st_heap]. discriminate.
      * right. cbn [st_capacity st_count st_entries st_heap]. rewrite map_repeat', emb_szero.
        split; [apply HashProofs.WF_empty|]. rewrite Hd.
        split; [rewrite Nat.pow_succ_r'; lia|]. split; [lia|].
        rewrite countb_repeat_false by reflexivity. lia.
    + unfold strtab_is_full. cbn [st_capacity st_count]. rewrite Hd. apply Nat.leb_gt. lia.
    + easy.
    + easy.
    + intros b p. unfold Stored. cbn [st_heap st_entries]. rewrite map_repeat', emb_szero, He, Hh.
      split; [intro X0; exfalso; revert X0; apply HashProofs.Live_empty|intros (x & [] & _)].
  - destruct (Nat.eqb_spec (st_capacity st) 0) as [E|_]; [lia|].
    unfold strtab_is_full in Hfull. apply Nat.leb_le in Hfull.
    assert (Hcap : (st_capacity st <= 2 * st_count st)%nat).
    { destruct W as (_ & (n & Hn) & _). rewrite Hn in *. destruct n as [|n]; [simpl in *; lia|].
      rewrite Nat.pow_succ_r' in *. rewrite Nat.mul_comm, Nat.div_mul in Hfull by lia. lia. }
    destruct (Z.ltb_spec 2147483647 (Z.of_nat (st_capacity st * 2))) as [Ho|Ho]; [lia|].
    pose proof W as (Hl & (n & Hn) & _).
    assert (Hn2 : (st_capacity st * 2 = 2 ^ S n)%nat) by (rewrite Hn, Nat.pow_succ_r'; lia).
    rewrite Hn2.
    assert (Hdiv : (st_capacity st / 2 * 2 <= st_capacity st)%nat)
      by (pose proof (Nat.div_mod (st_capacity st) 2); lia).
    destruct (HashProofs.rehash_ok list_eqb list_eqb_eq h (2 ^ S n)
                (map (emb (st_heap st)) (st_entries st))
                (repeat (HashModel.zero_entry []) (2 ^ S n)) (HashProofs.WF_empty list_eqb h [] (S n)))
      as (es' & H1 & H2 & H3 & H4).
    { eapply HashProofs.WF_distinct; eauto. }
    { rewrite countb_repeat_false by reflexivity. rewrite <- Hn2. lia. }
    { intros k v v' _. apply HashProofs.Live_empty. }
    rewrite <- (emb_szero (st_heap st)), <- map_repeat' in H1.
    destruct (emb_rehash (st_heap st) (2 ^ S n) (st_entries st) (repeat szero (2 ^ S n)) es')
      as (es1 & Hr & HG1 & ->); auto.
    { apply Forall_forall. intros x Hx. apply repeat_spec in Hx as ->. easy. }
    rewrite Hr. cbn [bind]. eexists; split; [reflexivity|].
    rewrite countb_repeat_false in H3 by reflexivity.
    assert (Hdiv2 : (2 ^ S n / 2 = st_capacity st)%nat) by (rewrite <- Hn2, Nat.div_mul; lia).
    assert (HS : forall b p, Live (map (emb (st_heap st)) es1) b p <-> Stored st b p).
    { intros b p. unfold Stored. rewrite H4. split; [|auto].
      intros [X|X]; auto. exfalso; revert X; apply HashProofs.Live_empty. }
    split; [|split; [|split; [|split]]].
    + split; [|split].
      * exact HG1.
      * cbn [st_heap st_entries]. intros p b Hp. destruct (HO p b Hp) as (e & Hin & Hv).
        assert (HL : Live (map (emb (st_heap st)) (st_entries st)) (key_of (st_heap st) p) p).
        { exists (emb (st_heap st) e). split; [apply in_map; exact Hin|]. cbn. rewrite Hv. auto. }
        apply HS in HL. destruct HL as (x & Hx & _ & _ & Hxv). apply in_map_iff in Hx as (e1 & <- & Hin1).
        exists e1. split; [exact Hin1|exact Hxv].
      * right. cbn [st_capacity st_count st_entries st_heap]. split; [exact H2|]. rewrite Hdiv2. lia.
    + unfold strtab_is_full. cbn [st_capacity st_count]. apply Nat.leb_gt. rewrite Hdiv2. lia.
    + easy.
    + easy.
    + exact HS.
Qed.

Lemma hget_other hp a b p : a <> p -> hget ((a, b) :: hp) p = hget hp p.
Proof. intro H. cbn [hget]. destruct (Z.eqb_spec a p); [contradiction|easy]. Qed.

(* adding a fresh block does not change what the old entries denote *)
Lemma emb_fresh hp a b es : Forall (good hp) es -> hget hp a = None ->
  map (emb ((a, b) :: hp)) es = map (emb hp) es /\ Forall (good ((a, b) :: hp)) es.
Proof.
  intros HG Ha. rewrite Forall_forall in HG. split.
  - apply map_ext_in. intros e He. specialize (HG e He). unfold good in HG. unfold emb.
    destruct (s_value e) as [p|]; [|easy]. destruct HG as (bb & Hp & _).
    unfold key_of. rewrite hget_other; [easy|]. intros ->. congruence.
  - apply Forall_forall. intros e He. specialize (HG e He). unfold good in *.
    destruct (s_value e) as [p|]; [|easy]. destruct HG as (bb & Hp & HH).
    exists bb. rewrite hget_other; [auto|]. intros ->. congruence.
Qed.

Lemma intern_short st buf a : (length buf <= 15)%nat -> str_intern h st buf a = Ok (st, short_handle buf).
Proof.
  intro H. unfold str_intern, SHORT_STRING_LEN. destruct (Nat.leb_spec (length buf) 15); [|lia].
  reflexivity.
Qed.

Lemma intern_long st buf a : Inv st -> (15 < length buf)%nat -> Z.of_nat (length buf) <= 2147483647 ->
  Z.of_nat (st_count st) < 2 ^ 29 -> hget (st_heap st) a = None ->
  exists st' p, str_intern h st buf a = Ok (st', long_handle p buf) /\ Inv st' /\ Stored st' buf p /\
    (st_count st' <= S (st_count st))%nat /\
    (forall b q, Stored st b q -> Stored st' b q) /\
    (forall q, hget (st_heap st) q <> None \/ q = a <-> (hget (st_heap st') q <> None \/ q = a)).
Proof.
  intros HI Hlen Hmax Hlim Hfresh. unfold str_intern, SHORT_STRING_LEN.
  destruct (Nat.leb_spec (length buf) 15) as [X|_]; [lia|].
  destruct (Z.ltb_spec MAX_STRING_LEN (Z.of_nat (length buf))) as [X|_].
  { unfold MAX_STRING_LEN in X. exfalso. change (2 ^ 56 - 1) with 72057594037927935 in X. lia. }
  destruct (Z.ltb_spec 2147483647 (Z.of_nat (length buf))) as [X|_]; [lia|].
  assert (G : exists t1, (if strtab_is_full st then strtab_expand st else Ok st) = Ok t1 /\
     Inv t1 /\ strtab_is_full t1 = false /\ st_count t1 = st_count st /\ st_heap t1 = st_heap st /\
     (forall b p, Stored t1 b p <-> Stored st b p)).
  { destruct (strtab_is_full st) eqn:Hf.
    - apply sexpand_ok; auto.
    - exists st. do 5 (split; [auto|]). tauto. }
  destruct G as (t1 & -> & HI1 & Hnf & Hcnt & Hhp & HS). cbn [bind]. rewrite Hnf.
  unfold strtab_is_full in Hnf. apply Nat.leb_gt in Hnf.
  pose proof HI1 as (HG & HO & [(Hc & Hn & _)|(W & H16 & Hc & Hu)]); [rewrite Hc, Hn in Hnf; simpl in Hnf; lia|].
  destruct (Nat.eqb_spec (st_capacity t1) 0) as [E|_]; [lia|].
  assert (Hhalf : (2 * (st_capacity t1 / 2) <= st_capacity t1)%nat)
    by (pose proof (Nat.div_mod (st_capacity t1) 2); lia).
  destruct (Nat.leb_spec (st_capacity t1 - 1) (st_count t1)) as [E|_]; [lia|].
  rewrite emb_find by exact HG.
  destruct (HashProofs.find_result list_eqb list_eqb_eq h _ _ buf W) as (j & e & Hf & He & Hd & Hv); [lia|].
  rewrite Hf. cbn [bind]. rewrite nth_error_map in He.
  destruct (nth_error (st_entries t1) j) as [se|] eqn:Ese; [|discriminate].
  cbn [option_map] in He. injection He as <-. cbn [emb HashModel.e_value] in Hv.
  destruct (s_value se) as [p|] eqn:Esv.
  - exists t1, p. split; [reflexivity|]. split; [exact HI1|].
    split; [apply Hv|]. split; [lia|]. split; [intros b q; apply HS|]. rewrite Hhp. tauto.
  - destruct (HashProofs.insert_free list_eqb list_eqb_eq h _ _ buf a W)
      as (q & e' & Hf' & He' & _ & _ & W' & Hc' & HL').
    { lia. } { exact Hv. }
    rewrite Hf in Hf'. injection Hf' as <-.
    rewrite <- Hhp in Hfresh.
    destruct (emb_fresh (st_heap t1) a (buf ++ [0]) (st_entries t1) HG Hfresh) as [Hem HG'].
    assert (Hnew : emb ((a, buf ++ [0]) :: st_heap t1) (mk_sentry (h buf) (Z.of_nat (length buf)) (Some a))
                   = HashModel.mk_entry (h buf) false buf (Some a)).
    { unfold emb, key_of. cbn [s_value s_hash hget]. rewrite Z.eqb_refl, removelast_last. reflexivity. }
    assert (Hmap : map (emb ((a, buf ++ [0]) :: st_heap t1))
                     (upd (st_entries t1) j (mk_sentry (h buf) (Z.of_nat (length buf)) (Some a)))
                   = upd (map (emb (st_heap t1)) (st_entries t1)) j
                         (HashModel.mk_entry (h buf) false buf (Some a))).
    { rewrite map_upd, Hem, Hnew. reflexivity. }
    do 2 eexists. split; [reflexivity|].
    assert (HS' : forall b r, Stored (mk_strtab (st_capacity t1) (S (st_count t1))
                 (upd (st_entries t1) j (mk_sentry (h buf) (Z.of_nat (length buf)) (Some a)))
                 ((a, buf ++ [0]) :: st_heap t1)) b r <-> Stored st b r \/ (b = buf /\ r = a)).
    { intros b r. unfold Stored at 1. cbn [st_heap st_entries]. rewrite Hmap, HL', <- HS. reflexivity. }
    split; [|split; [|split; [|split]]].
    + split; [|split].
      * cbn [st_heap st_entries]. apply Forall_upd; [exact HG'|].
        unfold good. cbn [s_value s_length s_hash]. exists buf. cbn [hget]. rewrite Z.eqb_refl. auto.
      * cbn [st_heap st_entries]. intros r b Hr.
        destruct (Z.eq_dec a r) as [<-|Hne].
        -- exists (mk_sentry (h buf) (Z.of_nat (length buf)) (Some a)). split; [|easy].
           apply (nth_error_In _ j). apply nth_error_upd_same. apply nth_error_Some. congruence.
        -- rewrite hget_other in Hr by exact Hne. destruct (HO r b Hr) as (x & Hx & Hxv).
           exists x. split; [|exact Hxv]. apply In_nth_error in Hx as (i & Hi).
           apply (nth_error_In _ i). rewrite nth_error_upd_other; [exact Hi|].
           intros ->. rewrite Ese in Hi. injection Hi as ->. congruence.
      * right. cbn [st_capacity st_count st_entries st_heap]. rewrite Hmap.
        split; [exact W'|]. lia.
    + apply HS'. auto.
    + cbn [st_count]. lia.
    + intros b r Hb. apply HS'. auto.
    + intro r. cbn [st_heap]. rewrite <- Hhp. cbn [hget]. destruct (Z.eqb_spec a r) as [->|Hne]; [|tauto].
      split; auto.
Qed.

(* injectivity of storage *)
Lemma Stored_fun st b p q : Inv st -> Stored st b p -> Stored st b q -> p = q.
Proof.
  intros (HG & HO & [(_ & _ & He & _)|(W & _)]) H1 H2.
  - unfold Stored in H1. rewrite He in H1. destruct H1 as (x & [] & _).
  - destruct (HashProofs.WF_live_mat list_eqb h _ _ _ _ W H1) as (i & e & Hf & Hn & _ & _ & Hv & _).
    destruct (HashProofs.WF_live_mat list_eqb h _ _ _ _ W H2) as (j & e' & Hf' & Hn' & _ & _ & Hv' & _).
    rewrite Hf in Hf'. injection Hf' as <-. rewrite Hn in Hn'. injection Hn' as <-. congruence.
Qed.

(* What a handle means in a state. *)
Definition Means (st : strtab) (buf : list Z) (s : String) : Prop :=
  ((length buf <= 15)%nat /\ s = short_handle buf) \/
  ((15 < length buf)%nat /\ exists p, s = long_handle p buf /\ Stored st buf p).

Definition ok_input (buf : list Z) : Prop := Forall is_byte buf /\ Z.of_nat (length buf) <= 2147483647.

Lemma intern_all_ok hist : forall st, Inv st ->
  Z.of_nat (st_count st) + Z.of_nat (length hist) <= 2 ^ 29 ->
  Forall (fun x => ok_input (fst x)) hist ->
  NoDup (map snd hist) -> (forall a, In a (map snd hist) -> hget (st_heap st) a = None) ->
  exists st' ss, intern_all h st hist = Ok (st', ss) /\ Inv st' /\
    (forall b p, Stored st b p -> Stored st' b p) /\
    Forall2 (fun x s => Means st' (fst x) s) hist ss.
Proof.
  induction hist as [|[b a] hist IH]; intros st HI Hlim Hin Hnd Hfr.
  - exists st, []. split; [easy|]. split; [exact HI|]. split; auto.
  - inversion Hin as [|x l Hb Hin']; subst. inversion Hnd as [|x l Hna Hnd']; subst.
    cbn [fst snd map length] in *.
    destruct (le_lt_dec (length b) 15) as [Hs|Hs].
    + cbn [intern_all]. rewrite intern_short by exact Hs. cbn [bind].
      destruct (IH st HI) as (st' & ss & Hr & HI' & Hmono & HF); auto.
      { lia. } { intros a' Ha'. apply Hfr. right; exact Ha'. }
      rewrite Hr. cbn [bind]. do 2 eexists; split; [reflexivity|].
      split; [exact HI'|]. split; [exact Hmono|]. constructor; [|exact HF].
      left. auto.
    + destruct Hb as [Hby Hmax].
      destruct (intern_long st b a HI Hs Hmax) as (st1 & p & Hst & HI1 & HSt & Hc & Hm1 & Hh).
      { lia. } { apply Hfr. left; easy. }
      cbn [intern_all]. rewrite Hst. cbn [bind].
      destruct (IH st1 HI1) as (st' & ss & Hr & HI' & Hmono & HF); auto.
      { lia. }
      { intros a' Ha'. destruct (hget (st_heap st1) a') eqn:E; [|easy]. exfalso.
        assert (hget (st_heap st) a' <> None \/ a' = a) as [X|X].
        { apply Hh. left. congruence. }
        - apply X. apply Hfr. right; exact Ha'.
        - subst a'. contradiction. }
      rewrite Hr. cbn [bind]. do 2 eexists; split; [reflexivity|].
      split; [exact HI'|]. split; [intros; auto|]. constructor; [|exact HF].
      right. split; [exact Hs|]. exists p. auto.
Qed.

Lemma Means_bytes st b s : Inv st -> ok_input b -> Means st b s ->
  str_bytes (st_heap st) s = Some b /\ str_len s = Z.of_nat (length b).
Proof.
  intros HI [Hby Hmax] [[Hl ->]|(Hl & p & -> & Hst)].
  - split; [apply short_denotes; auto|apply short_len; auto].
  - split; [|apply long_len; auto]. apply long_denotes; [auto|]. apply Stored_heap; auto.
Qed.

Lemma Means_eq st b1 s1 b2 s2 : Inv st -> ok_input b1 -> ok_input b2 ->
  Means st b1 s1 -> Means st b2 s2 -> (str_eq s1 s2 = true <-> b1 = b2).
Proof.
  intros HI H1 H2 M1 M2. split.
  - intro E. unfold str_eq in E. apply andb_prop in E as [E0 E1].
    apply Z.eqb_eq in E0. apply Z.eqb_eq in E1.
    assert (s1 = s2) as <- by (destruct s1, s2; cbn in *; congruence).
    destruct (Means_bytes st b1 s1 HI H1 M1) as [B1 _].
    destruct (Means_bytes st b2 s1 HI H2 M2) as [B2 _]. congruence.
  - intros <-. assert (s1 = s2) as <-.
    { destruct M1 as [[Hl1 ->]|(Hl1 & p & -> & Hst1)], M2 as [[Hl2 ->]|(Hl2 & q & -> & Hst2)]; try lia; auto.
      f_equal. eapply Stored_fun; eauto. }
    unfold str_eq. rewrite !Z.eqb_refl. reflexivity.
Qed.

Lemma Inv_empty : Inv empty_strtab.
Proof. split; [constructor|]. split; [discriminate|]. left; auto. Qed.

Lemma intern_correct hist :
  Z.of_nat (length hist) <= 2 ^ 29 ->
  Forall (fun x => ok_input (fst x)) hist ->
  NoDup (map snd hist) ->
  exists st ss, intern_all h empty_strtab hist = Ok (st, ss) /\ length ss = length hist /\
    (forall i b a s, nth_error hist i = Some (b, a) -> nth_error ss i = Some s ->
       str_bytes (st_heap st) s = Some b /\ str_len s = Z.of_nat (length b)) /\
    (forall i j b1 a1 b2 a2 s1 s2,
       nth_error hist i = Some (b1, a1) -> nth_error ss i = Some s1 ->
       nth_error hist j = Some (b2, a2) -> nth_error ss j = Some s2 ->
       (str_eq s1 s2 = true <-> b1 = b2)).
Proof.
  intros Hlim Hin Hnd.
  destruct (intern_all_ok hist empty_strtab Inv_empty) as (st & ss & Hr & HI & _ & HF); auto.
  exists st, ss. split; [exact Hr|].
  assert (Hlen : length ss = length hist) by (clear - HF; induction HF; simpl; auto).
  assert (Hget : forall i b a s, nth_error hist i = Some (b, a) -> nth_error ss i = Some s ->
                 Means st b s /\ ok_input b).
  { intros i b a s Hi Hs. split.
    - clear - HF Hi Hs. revert i Hi Hs; induction HF as [|x y l l' Hxy HF IH]; intros [|i] Hi Hs; simpl in *; try discriminate.
      + injection Hi as ->. injection Hs as ->. exact Hxy.
      + eapply IH; eauto.
    - apply nth_error_In in Hi. rewrite Forall_forall in Hin. apply (Hin _ Hi). }
  split; [exact Hlen|]. split.
  - intros i b a s Hi Hs. destruct (Hget _ _ _ _ Hi Hs). apply Means_bytes; auto.
  - intros i j b1 a1 b2 a2 s1 s2 Hi Hs Hj Hs2.
    destruct (Hget _ _ _ _ Hi Hs), (Hget _ _ _ _ Hj Hs2). eapply Means_eq; eauto.
Qed.
End Emb.
