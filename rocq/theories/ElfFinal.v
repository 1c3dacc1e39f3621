(* The whole file. *)
From Coq Require Import List ZArith Lia Bool.
From Verif Require Import Util Bytes ElfModel ElfSpec ElfProofs ElfSteps ElfJump ElfItems ElfAll ElfFlush ElfRead.
Import ListNotations.
Open Scope Z_scope.

Lemma laid_le f l : forall lo, laid f lo l -> lo <= zlen f.
Proof.
  induction l as [|x r IH]; intros lo H; cbn [laid] in H; [lia|]. destruct (is_nobits x); [auto|].
  destruct H as (H1 & _ & H3). apply IH in H3. pose proof (zlen_nonneg (s_buf x)). lia.
Qed.
Lemma laid_after f l : forall lo j y, laid f lo l -> nth_error l j = Some y -> is_nobits y = false -> lo <= sh_offset (s_hdr y).
Proof.
  induction l as [|x r IH]; intros lo [|j] y H N B; try discriminate; cbn [nth_error laid] in *.
  - injection N as ->. rewrite B in H. apply H.
  - destruct (is_nobits x); [eapply IH; eauto|]. destruct H as (H1 & _ & H3). pose proof (IH _ _ _ H3 N B). pose proof (zlen_nonneg (s_buf x)). lia.
Qed.
Lemma laid_nth f l : forall lo i x, laid f lo l -> nth_error l i = Some x -> is_nobits x = false ->
  lo <= sh_offset (s_hdr x) /\ (exists u v, f = u ++ s_buf x ++ v /\ zlen u = sh_offset (s_hdr x)) /\
  sh_offset (s_hdr x) + zlen (s_buf x) <= zlen f /\
  (forall j y, (i < j)%nat -> nth_error l j = Some y -> is_nobits y = false -> sh_offset (s_hdr x) + zlen (s_buf x) <= sh_offset (s_hdr y)).
Proof.
  induction l as [|z r IH]; intros lo i x H N B; [destruct i; discriminate|]. destruct i as [|i]; cbn [nth_error laid] in *.
  - injection N as ->. rewrite B in H. destruct H as (H1 & H2 & H3). split; [exact H1|]. split; [exact H2|].
    split; [eapply laid_le; eauto|]. intros [|j] y L N B'; [lia|]. eapply laid_after; eauto.
  - destruct (is_nobits z).
    + destruct (IH _ _ _ H N B) as (Q1 & Q2 & Q3 & Q4). repeat split; auto. intros [|j] y L N' B'; [lia|]. apply (Q4 j y); [lia|exact N'|exact B'].
    + destruct H as (H1 & _ & H3). destruct (IH _ _ _ H3 N B) as (Q1 & Q2 & Q3 & Q4). pose proof (zlen_nonneg (s_buf z)).
      split; [lia|]. repeat split; auto. intros [|j] y L N' B'; [lia|]. apply (Q4 j y); [lia|exact N'|exact B'].
Qed.

Record file_reads (f : list Z) (l : list sec) : Prop := {
  fr_hdr : e_shoff f = 64 /\ e_shentsize f = 64 /\ e_shnum f = zlen l /\ e_shstrndx f = 1;
  fr_sec : forall i x, nth_error l i = Some x -> exists o, hdr_reads f (Z.of_nat i) (with_offset (s_hdr x) o);
  fr_content : forall i x, (1 <= i)%nat -> nth_error l i = Some x -> is_nobits x = false -> content f (Z.of_nat i) = s_buf x;
  fr_layout : forall i x, (1 <= i)%nat -> nth_error l i = Some x -> is_nobits x = false ->
    64 + 64 * zlen l <= sec_offset f (Z.of_nat i) /\ sec_offset f (Z.of_nat i) + sec_size f (Z.of_nat i) <= zlen f;
  fr_disj : forall i x j y, (1 <= i)%nat -> (i < j)%nat -> nth_error l i = Some x -> nth_error l j = Some y ->
    is_nobits x = false -> is_nobits y = false ->
    sec_offset f (Z.of_nat i) + sec_size f (Z.of_nat i) <= sec_offset f (Z.of_nat j) }.
Definition fields_small (h : shdr) : Prop :=
  0 <= sh_name h < 256 ^ 4 /\ 0 <= sh_type h < 256 ^ 4 /\ 0 <= sh_flags h < 256 ^ 8 /\
  0 <= sh_size h < 256 ^ 8 /\ 0 <= sh_link h < 256 ^ 4 /\ 0 <= sh_info h < 256 ^ 4 /\ 0 <= sh_align h < 256 ^ 8 /\
  0 <= sh_entsize h < 256 ^ 8 /\ 0 <= sh_offset h < 256 ^ 8.

Lemma moved_bits x x' : moved x x' -> is_nobits x' = is_nobits x /\ s_buf x' = s_buf x /\ sh_size (s_hdr x') = sh_size (s_hdr x).
Proof. intros (E & o & EH & _). unfold is_nobits. rewrite EH. auto. Qed.
Lemma Forall2_nth {A B} (P : A -> B -> Prop) l m i y : Forall2 P l m -> nth_error m i = Some y -> exists x, nth_error l i = Some x /\ P x y.
Proof. intro F. revert i. induction F as [|a b l m H F IH]; intros [|i] N; try discriminate; cbn in *; [injection N as <-; eauto|auto]. Qed.
Lemma Forall2_nth' {A B} (P : A -> B -> Prop) l m i x : Forall2 P l m -> nth_error l i = Some x -> exists y, nth_error m i = Some y /\ P x y.
Proof. intro F. revert i. induction F as [|a b l m H F IH]; intros [|i] N; try discriminate; cbn in *; [injection N as <-; eauto|auto]. Qed.
(* the sections with contents x :: r after the null section *)
Lemma file_ok x r cp off g p pd cu : Forall sec_ok (x :: r) -> is_nobits x = false -> zlen (x :: r) < 100 ->
  Forall (fun y => fields_small (s_hdr y)) (x :: r) -> tot (x :: r) < 2 ^ 62 ->
  exists f t, chain_offsets (Est (null_sec :: x :: r) cp 1 off g p pd cu) = Ok (Est (null_sec :: t) cp 1 off g p pd cu) /\
    (exists b, write_sections None t = Ok b /\
       f = enc_ehdr (zlen (null_sec :: t)) 1 ++ flat_map (fun x => enc_shdr (s_hdr x)) (null_sec :: t) ++ b) /\
    file_reads f (null_sec :: x :: r).
Proof.
  intros F N L SM T. unfold chain_offsets. cbn [secs].
  set (n := zlen (null_sec :: x :: r)). assert (0 <= n < 200) as BN by (subst n; rewrite (zlen_cons null_sec); pose proof (zlen_nonneg (x :: r)); lia).
  assert (exists h0, zlen h0 = 64 + 64 * n) as (h0 & Z0) by (exists (zeros (64 + 64 * n)); apply zlen_zeros; lia).
  destruct (layout x r h0 F N) as (t & b & E1 & E2 & E3 & _ & E5). rewrite Z0 in E1. rewrite E1. cbn [bind].
  set (h := enc_ehdr (zlen (null_sec :: t)) 1 ++ flat_map (fun x => enc_shdr (s_hdr x)) (null_sec :: t)).
  assert (length t = length (x :: r)) as LT by (clear - E3; induction E3; cbn [length]; congruence).
  assert (zlen (null_sec :: t) = n) as LN by (subst n; unfold zlen; cbn [length] in *; lia).
  assert (zlen h = 64 + 64 * n) as ZH by (subst h; rewrite zlen_app, ehdr_len, hdrs_len, LN; reflexivity).
  destruct (layout x r h F N) as (t' & b' & E1' & E2' & _ & E4' & E5'). rewrite ZH, E1 in E1'. injection E1' as <-.
  rewrite E2 in E2'. injection E2' as <-. clear E5'. rename E4' into LA.
  exists (h ++ b), t. split; [reflexivity|]. split; [exists b; split; [exact E2|unfold h; rewrite <- app_assoc; reflexivity]|].
  assert (zlen (h ++ b) < 2 ^ 63) as BF by (rewrite zlen_app; lia).
  assert (e_shoff (h ++ b) = 64 /\ e_shentsize (h ++ b) = 64 /\ e_shnum (h ++ b) = n /\ e_shstrndx (h ++ b) = 1) as (H1 & H2 & H3 & H4).
  { unfold h. rewrite <- app_assoc, LN. apply ehdr_read; change (256 ^ 2) with 65536; lia. }
  assert (forall i y, nth_error t i = Some y -> hdr_small (s_hdr y)) as AL.
  { intros i y NT. destruct (Forall2_nth _ _ _ _ _ E3 NT) as (z & NZ & M).
    rewrite Forall_forall in SM. pose proof (SM z (nth_error_In _ _ NZ)) as (S1 & S2 & S3 & S4 & S5 & S6 & S7 & S8 & S9).
    assert (0 <= sh_offset (s_hdr y) < 256 ^ 8) as SO.
    { destruct (moved_bits _ _ M) as (MB & MS & _). destruct M as (_ & o & EH & EO). destruct (is_nobits z) eqn:NB.
      - rewrite EH, (EO eq_refl). exact S9.
      - destruct (laid_nth _ _ _ _ _ LA NT MB) as (Q1 & _ & Q3 & _). pose proof (zlen_nonneg (s_buf y)).
        assert (2 ^ 63 < 256 ^ 8) by reflexivity. lia. }
    destruct M as (_ & o & EH & _). unfold hdr_small. rewrite EH in SO |- *. cbn [with_offset sh_offset] in SO. cbn. repeat split; first [apply S1|apply S2|apply S3|apply S4|apply S5|apply S6|apply S7|apply S8|apply SO]. }
  assert (forall i y, nth_error (null_sec :: t) i = Some y -> hdr_reads (h ++ b) (Z.of_nat i) (s_hdr y)) as RD.
  { intros i y NT. destruct (nth_error_split _ _ NT) as (l1 & l2 & EL & LL).
    apply hdr_read with (u := enc_ehdr (zlen (null_sec :: t)) 1 ++ flat_map (fun x => enc_shdr (s_hdr x)) l1)
                        (v := flat_map (fun x => enc_shdr (s_hdr x)) l2 ++ b); auto.
    - unfold h. rewrite EL, flat_map_app. cbn [flat_map]. rewrite <- !app_assoc. reflexivity.
    - rewrite zlen_app, ehdr_len, hdrs_len. unfold zlen. rewrite LL. reflexivity.
    - destruct i as [|i]; [injection NT as <-; unfold hdr_small; cbn; lia|]. eapply AL. exact NT. }
  assert (forall i z, (1 <= i)%nat -> nth_error (null_sec :: x :: r) i = Some z -> is_nobits z = false ->
    exists y k, i = S k /\ nth_error t k = Some y /\ is_nobits y = false /\ s_buf y = s_buf z /\ sh_size (s_hdr y) = zlen (s_buf z) /\
      sec_offset (h ++ b) (Z.of_nat i) = sh_offset (s_hdr y) /\ sec_size (h ++ b) (Z.of_nat i) = zlen (s_buf z)) as GET.
  { intros [|k] z K NZ NB; [lia|]. cbn [nth_error] in NZ. change (nth_error (x :: r) k = Some z) in NZ.
    destruct (Forall2_nth' _ _ _ _ _ E3 NZ) as (y & NY & M). exists y, k. destruct (moved_bits _ _ M) as (MB & MS & MZ).
    assert (sh_size (s_hdr z) = zlen (s_buf z)) as SZ.
    { rewrite Forall_forall in F. destruct (F z (nth_error_In _ _ NZ)) as [[Q|Q] _]; [congruence|exact Q]. }
    pose proof (RD (S k) y NY) as RY. repeat split; auto; try congruence.
    - apply (h_offset _ _ _ RY).
    - rewrite (h_size _ _ _ RY). congruence. }
  constructor.
  - auto.
  - intros [|i] z NZ.
    + injection NZ as <-. exists 0. apply (RD 0%nat null_sec eq_refl).
    + cbn [nth_error] in NZ. change (nth_error (x :: r) i = Some z) in NZ. destruct (Forall2_nth' _ _ _ _ _ E3 NZ) as (y & NY & M).
      destruct M as (_ & o & EH & _). exists o. rewrite <- EH. apply RD. exact NY.
  - intros i z K NZ NB. destruct (GET i z K NZ NB) as (y & k & -> & NY & NB' & EB & EZ & EO & ES).
    destruct (laid_nth _ _ _ _ _ LA NY NB') as (_ & (u & v & EF & EU) & _). unfold content. rewrite EO, ES, EF, EB. apply bytes_mid; [exact EU|reflexivity].
  - intros i z K NZ NB. destruct (GET i z K NZ NB) as (y & k & -> & NY & NB' & EB & EZ & EO & ES).
    destruct (laid_nth _ _ _ _ _ LA NY NB') as (Q1 & _ & Q3 & _). rewrite EO, ES. fold n. rewrite <- EB. lia.
  - intros i z j w K KJ NZ NW NB NB2. destruct (GET i z K NZ NB) as (y & k & -> & NY & NB' & EB & EZ & EO & ES).
    destruct (GET j w ltac:(lia) NW NB2) as (y2 & k2 & -> & NY2 & NB2' & _ & _ & EO2 & _).
    destruct (laid_nth _ _ _ _ _ LA NY NB') as (_ & _ & _ & Q4). rewrite EO, ES, EO2, <- EB. apply (Q4 k2 y2); [lia|exact NY2|exact NB2'].
Qed.
