(* Proofs about the instruction encoder: the finitely many shapes of an instruction. *)
From Coq Require Import ZArith Lia Bool List.
From Verif Require Import Bytes EncModel EncSpec EncProofs.
Import ListNotations.
Open Scope Z_scope.

(* ------------------------------------------------------------------ *)
(* The encoder in three parts: what precedes the address, the address, the immediate *)

Definition imm_of (o : operands) : option immediate :=
  match o with OpImm m | ImmReg m _ | ImmMem m _ => Some m | _ => None end.

Definition short (m : immediate) (sx : bool) : bool :=
  match i_val m with IInt q => (i_width m =? 1) || (sx && in_byte_range q) | IAddr _ => false end.
Definition nbytes (m : immediate) (sx dw : bool) : res nat :=
  match i_val m with
  | IInt q =>
      if short m sx then Done 1%nat
      else if i_width m =? 2 then Done 2%nat
      else if (i_width m =? 4) || dw then do _ <- check ((i_width m =? 4) || in_32bit_range q); Done 4%nat
      else do _ <- check (i_width m =? 8); Done 8%nat
  | IAddr _ => Done 4%nat
  end.
Definition mark (m : immediate) (sx : nat) (c : list Z) : list Z :=
  if short m (negb (Nat.eqb sx 0)) && negb (Nat.eqb sx 0) then or_back (sx - 1) 2 c else c.
Definition imm_bytes (len : Z) (m : immediate) (nb : nat) (dw : bool) : res code :=
  match i_val m with
  | IInt q => Done (le_bytes nb q, [])
  | IAddr a =>
      match a_sym a with
      | None => Failed
      | Some y =>
          if dw then
            do _ <- match a_type a with ADDR_NORMAL => Done tt | _ => Failed end;
            Done (le_bytes 4 (a_disp a - 4), [Disp y len])
          else
            do k <- match a_type a with ADDR_NORMAL => Done PC32 | ADDR_PLT => Done PLT32 | ADDR_GLOBAL_OFFSET => Failed end;
            Done ([0; 0; 0; 0], [Rela k y len (a_disp a)])
      end
  end.

Lemma imm_split c m sx dw : encode_immediate c m sx dw =
  do nb <- nbytes m (negb (Nat.eqb sx 0)) dw;
  do (ib, f) <- imm_bytes (zlen c) m nb dw;
  Done (mark m sx c ++ ib, f).
Proof.
  unfold encode_immediate, nbytes, mark, short, imm_bytes. destruct (i_val m) as [q|a].
  - destruct ((i_width m =? 1) || negb (Nat.eqb sx 0) && in_byte_range q); cbn [bind andb].
    + destruct (Nat.eqb sx 0); reflexivity.
    + destruct (i_width m =? 2); [reflexivity|].
      destruct ((i_width m =? 4) || dw).
      * destruct (check ((i_width m =? 4) || in_32bit_range q)); reflexivity.
      * destruct (check (i_width m =? 8)); reflexivity.
  - cbn [bind andb]. destruct (a_sym a); [|reflexivity]. destruct dw.
    + destruct (a_type a); reflexivity.
    + destruct (a_type a); reflexivity.
Qed.

Definition rest := (list Z * option Z * nat * bool)%type.
Definition reg_part (x : res code) : res rest := do (b, _) <- x; Done (b, None, 0%nat, false).

Definition mr_head (c : list Z) (e : encoding) (w : Z) (d : bool) (mw : Z) (x b : bool) (r : Z) : res rest :=
  let rex := Z.lor (Z.lor (Z.lor (Z.lor REX (rexR r)) (Z.shiftl (b2z x) 1)) (b2z b)) (opt_w e w) in
  do _ <- check (impl1 e =? 0);
  let c := c ++ put_rex (isnt rex REX || (((r =? SI) || (r =? DI)) && (w =? 1))) rex ++ opcode e in
  let c := if opx e OPX_W then or_back 0 (b2z (isnt mw 1)) c else c in
  let c := if opx e OPX_D then or_back 0 (Z.shiftl (b2z d) 1) c else c in
  Done (c, Some (reg3 r), 0%nat, false).
Definition ir_head (c : list Z) (e : encoding) (w : Z) (m : immediate) (b : Z) : res rest :=
  let rex := Z.lor (Z.lor REX (rexW w)) (rexB b) in
  let c := c ++ put_rex (isnt rex REX || (((b =? SI) || (b =? DI)) && (w =? 1))) rex ++ opcode e in
  let w := if opx e OPX_W then (if opx e OPX_REG then Z.shiftl (b2z (isnt w 1)) 3 else b2z (isnt w 1)) else w in
  let c := if opx e OPX_W then or_back 0 w c else c in
  do (c, d) <-
    if opx e OPX_REG then
      do _ <- check (modrm e =? 0); do _ <- check (impl1 e =? 0); Done (or_back 0 (reg3 b) c, 1%nat)
    else if impl1 e =? 0 then Done (c ++ [Z.lor (Z.lor 192 (modrm e)) (reg3 b)], 2%nat)
    else Done (c, 0%nat);
  let d := if negb (opx e OPX_S) || (w =? 0) then 0%nat else d in
  do nb <- nbytes m (negb (Nat.eqb d 0)) (dword e);
  Done (mark m d c, None, nb, dword e).
Definition im_head (c : list Z) (e : encoding) (w : Z) (m : immediate) (x b : bool) : res rest :=
  let rex := Z.lor (Z.lor (Z.lor REX (rexW w)) (Z.shiftl (b2z x) 1)) (b2z b) in
  let c := c ++ put_rex (isnt rex REX) rex ++ opcode e in
  let c := if opx e OPX_W then or_back 0 (b2z (isnt w 1)) c else c in
  do nb <- nbytes m (opx e OPX_S) (dword e);
  Done (mark m (if opx e OPX_S then 1%nat else 0%nat) c, Some (Z.land (Z.shiftr (modrm e) 3) 7), nb, dword e).
Definition m_head (c : list Z) (e : encoding) (w : Z) (x b : bool) : res rest :=
  let rex := Z.lor (Z.lor (Z.lor REX (Z.shiftl (b2z x) 1)) (b2z b)) (opt_w e w) in
  let c := c ++ put_rex (isnt rex REX) rex ++ opcode e in
  let c := if opx e OPX_W then or_back 0 (b2z (isnt w 1)) c else c in
  Done (c, Some (Z.land (Z.shiftr (modrm e) 3) 7), 0%nat, false).
Definition i_head (c : list Z) (e : encoding) (w : Z) (m : immediate) (cc : Z) : res rest :=
  let rex := Z.lor REX (opt_w e w) in
  let c := c ++ put_rex (isnt rex REX) rex ++ opcode e in
  do c <- if opx e OPX_tttn then do _ <- check (opextra e =? OPX_tttn); Done (or_back 0 cc c) else Done c;
  do nb <- nbytes m true (dword e);
  Done (mark m 1 c, None, nb, dword e).

Definition addr_x (a : address) : bool := is_64_bit_reg (a_index a).
Definition addr_b (a : address) : bool := is_64_bit_reg (a_base a).
Definition parts (i : instruction) : res rest :=
  do e <- find_encoding (key_of i);
  let c := prefixes i e in
  let w := operand_size i in
  match n_args i with
  | NoOp _ => reg_part (encode_none c e w)
  | OpReg r => reg_part (encode_reg c e w (r_reg r) (n_cc i))
  | OpMem m => m_head c e w (addr_x (m_addr m)) (addr_b (m_addr m))
  | OpImm m => i_head c e w m (n_cc i)
  | RegReg s d =>
      if reverse e then reg_part (encode_reg_reg c e (r_width s) w (r_reg d) (r_reg s))
      else reg_part (encode_reg_reg c e (r_width s) w (r_reg s) (r_reg d))
  | MemReg m r => mr_head c e w true (m_width m) (addr_x (m_addr m)) (addr_b (m_addr m)) (r_reg r)
  | RegMem r m => mr_head c e w false (m_width m) (addr_x (m_addr m)) (addr_b (m_addr m)) (r_reg r)
  | ImmReg m r => ir_head c e w m (r_reg r)
  | ImmMem m d => im_head c e w m (addr_x (m_addr d)) (addr_b (m_addr d))
  end.

Definition assemble (i : instruction) (x : rest) : res code :=
  let '(h, mm, nb, dw) := x in
  do (ab, fa) <- match mm, address_of (n_args i) with
                 | Some rg, Some a => encode_address (zlen h) rg a (Z.of_nat nb)
                 | _, _ => Done ([], [])
                 end;
  do (ib, fi) <- match imm_of (n_args i) with
                 | Some m => imm_bytes (zlen (h ++ ab)) m nb dw | None => Done ([], [])
                 end;
  let b := h ++ ab ++ ib in if zlen b <=? 15 then Done (b, fa ++ fi) else Overflow.

Lemma reg_fixes : (forall c e w b f, encode_none c e w = Done (b, f) -> f = [])
  /\ (forall c e w r cc b f, encode_reg c e w r cc = Done (b, f) -> f = [])
  /\ (forall c e ws w r s b f, encode_reg_reg c e ws w r s = Done (b, f) -> f = []).
Proof.
  split; [|split].
  - intros c e w b f H. unfold encode_none in H. cbv zeta in H. congruence.
  - intros c e w r cc b f H. unfold encode_reg, bind, check in H. cbv zeta in H.
    repeat match type of H with context [if ?x then _ else _] => lazymatch type of x with bool => destruct x end; try discriminate end; congruence.
  - intros c e ws w r s b f H. unfold encode_reg_reg, bind, check in H. cbv zeta in H.
    destruct (impl1 e =? 0); [|discriminate]. destruct (impl0 e =? 0).
    + destruct (modrm e =? 0); [|discriminate]. congruence.
    + congruence.
Qed.

Lemma or_back_len n v c : c <> [] -> length (or_back n v c) = length c.
Proof.
  intro H. unfold or_back. rewrite app_length. cbn [length]. rewrite firstn_length, skipn_length.
  assert (length c <> 0)%nat by (destruct c; [congruence|discriminate]). lia.
Qed.
Lemma or_back_app c a v : c <> [] -> or_back (length a) v (c ++ a) = or_back 0 v c ++ a.
Proof.
  intro H. unfold or_back. rewrite app_length.
  assert (length c <> 0)%nat by (destruct c; [congruence|discriminate]).
  replace (length c + length a - 1 - length a)%nat with (length c - 1)%nat by lia.
  replace (length c - 1 - 0)%nat with (length c - 1)%nat by lia.
  rewrite <- app_assoc. rewrite firstn_app. replace (length c - 1 - length c)%nat with 0%nat by lia.
  rewrite firstn_O, app_nil_r. f_equal. cbn [app]. rewrite app_nth1 by lia. f_equal.
  rewrite skipn_app. replace (S (length c - 1) - length c)%nat with 0%nat by lia. reflexivity.
Qed.
Lemma mark_len m sx c : c <> [] -> length (mark m sx c) = length c.
Proof. intro H. unfold mark. destruct (_ && _); [apply or_back_len, H|reflexivity]. Qed.
Lemma mark_app m c a : c <> [] -> mark m (S (length a)) (c ++ a) = mark m 1 c ++ a.
Proof.
  intro H. unfold mark. cbn [Nat.eqb negb]. destruct (short m true && true); [|reflexivity].
  cbn [Nat.sub]. rewrite Nat.sub_0_r. apply or_back_app, H.
Qed.

Lemma find_from_In k : forall l e, find_from k l = Some e -> In e l.
Proof.
  induction l as [|x l IH]; intros e H; [discriminate|]. cbn [find_from] in H.
  destruct (match_instruction_encoding k x); [injection H as <-; left; reflexivity|].
  destruct (match l with e' :: _ => opc e' =? k_op k | [] => 0 =? k_op k end); [|discriminate].
  right. apply IH, H.
Qed.
Lemma skipn_In {A} (x : A) : forall n l, In x (skipn n l) -> In x l.
Proof. induction n as [|n IH]; intros l H; [exact H|]. destruct l; [exact H|]. right. apply IH, H. Qed.
Lemma opcodes_nonempty : forallb (fun e => match opcode e with [] => false | _ => true end) encodings = true.
Proof. vm_compute. reflexivity. Qed.
Lemma find_opcode k e : find_encoding k = Done e -> opcode e <> [].
Proof.
  unfold find_encoding. destruct (k_op k <? 0); [discriminate|]. destruct (entry (k_op k)); [|discriminate].
  unfold bind, check. destruct (_ || _); [|discriminate]. destruct (_ || _); [|discriminate].
  destruct (find_from k (skipn (Z.to_nat (k_op k)) encodings)) as [e'|] eqn:E; [|discriminate].
  intro H. assert (e' = e) by congruence. subst e'. apply find_from_In, skipn_In in E.
  pose proof (forallb_all _ _ opcodes_nonempty e E) as Hc. cbv beta in Hc. destruct (opcode e); [discriminate|congruence].
Qed.

Lemma nbytes_width m s dw nb : nbytes m s dw = Done nb -> imm_encoding_width m s dw = Z.of_nat nb.
Proof.
  unfold nbytes, imm_encoding_width, short, bind, check. destruct (i_val m) as [q|a]; [|intro H; assert (nb = 4%nat) by congruence; subst nb; reflexivity].
  destruct ((i_width m =? 1) || s && in_byte_range q); [intro H; assert (nb = 1%nat) by congruence; subst nb; reflexivity|].
  destruct (i_width m =? 2); [intro H; assert (nb = 2%nat) by congruence; subst nb; reflexivity|].
  destruct ((i_width m =? 4) || dw).
  - destruct ((i_width m =? 4) || in_32bit_range q); [|discriminate].
    intro H; assert (nb = 4%nat) by congruence; subst nb; reflexivity.
  - destruct (i_width m =? 8); [|discriminate]. intro H; assert (nb = 8%nat) by congruence; subst nb; reflexivity.
Qed.
Lemma imm_bytes_len len m nb dw ib f s dw' : nbytes m s dw' = Done nb -> imm_bytes len m nb dw = Done (ib, f) -> length ib = nb.
Proof.
  unfold imm_bytes, nbytes. destruct (i_val m) as [q|a].
  - intros _ H. assert (ib = le_bytes nb q) by congruence. subst ib. apply le_bytes_length.
  - intros H. assert (nb = 4%nat) by congruence. subst nb. destruct (a_sym a); [|discriminate]. destruct dw.
    + destruct (a_type a); cbn [bind]; try discriminate. intro K. assert (ib = le_bytes 4 (a_disp a - 4)) by congruence. subst ib. apply le_bytes_length.
    + destruct (a_type a); cbn [bind]; try discriminate; intro K; assert (ib = [0; 0; 0; 0]) by congruence; subst ib; reflexivity.
Qed.
Lemma nbytes_res m s dw : (exists nb, nbytes m s dw = Done nb) \/ nbytes m s dw = Failed.
Proof.
  unfold nbytes, bind, check. destruct (i_val m) as [q|a]; [|left; eexists; reflexivity].
  destruct (short m s); [left; eexists; reflexivity|].
  destruct (i_width m =? 2); [left; eexists; reflexivity|].
  destruct ((i_width m =? 4) || dw).
  - destruct ((i_width m =? 4) || in_32bit_range q); [left; eexists; reflexivity|right; reflexivity].
  - destruct (i_width m =? 8); [left; eexists; reflexivity|right; reflexivity].
Qed.
Lemma address_res len rg a k : (exists c, encode_address len rg a k = Done c) \/ encode_address len rg a k = Failed.
Proof.
  unfold encode_address, encode_modrm_sib_disp, bind, check. destruct (a_sym a).
  - destruct (a_type a); [left|left|right]; try reflexivity; eexists; reflexivity.
  - destruct (negb (a_base a =? 0) || (a_disp a =? 0)); [|right; reflexivity].
    match goal with |- context [if ?c then Done tt else Failed] => destruct c end; [left; eexists; reflexivity|right; reflexivity].
Qed.
Lemma imm_bytes_res len m nb dw : (exists c, imm_bytes len m nb dw = Done c) \/ imm_bytes len m nb dw = Failed.
Proof.
  unfold imm_bytes. destruct (i_val m); [left; eexists; reflexivity|]. destruct (a_sym a); [|right; reflexivity].
  destruct dw, (a_type a); cbn [bind]; try (left; eexists; reflexivity); right; reflexivity.
Qed.

Lemma fin_reg (x : res code) i : address_of (n_args i) = None -> imm_of (n_args i) = None ->
  (forall b f, x = Done (b, f) -> f = []) ->
  (do (b, f) <- x; if zlen b <=? 15 then Done (b, f) else Overflow) = do y <- reg_part x; assemble i y.
Proof.
  intros Ha Hm Hf. unfold reg_part. destruct x as [[b f]| | |]; try reflexivity. cbn [bind].
  unfold assemble. rewrite Hm. cbn [bind]. rewrite !app_nil_r. rewrite (Hf b f eq_refl). reflexivity.
Qed.

Lemma or_back_ne n v c : or_back n v c <> [].
Proof. unfold or_back. intro H. apply app_eq_nil in H as [_ H]. discriminate. Qed.
Lemma code_ne (p q o : list Z) : o <> [] -> p ++ q ++ o <> [].
Proof. intros H K. apply app_eq_nil in K as [_ K]. apply app_eq_nil in K as [_ K]. contradiction. Qed.
Lemma zlen_mark m sx c : c <> [] -> zlen (mark m sx c) = zlen c.
Proof. intro H. unfold zlen. rewrite (mark_len _ _ _ H). reflexivity. Qed.

Lemma encode_parts i : encode i = do x <- parts i; assemble i x.
Proof.
  unfold encode, parts. destruct (find_encoding (key_of i)) as [e| | |] eqn:Ee; try reflexivity. cbn [bind].
  pose proof (find_opcode _ _ Ee) as Ho.
  destruct reg_fixes as (F1 & F2 & F3).
  destruct (n_args i) as [w|m|r|m|s d|s d|s d|m d|m d] eqn:Ea.
  - apply fin_reg; [rewrite Ea; reflexivity..|]. intros b f. apply F1.
  - (* OpImm *)
    unfold encode_imm, i_head. cbv zeta.
    set (c1 := prefixes i e ++ _). assert (H1 : c1 <> []) by (apply code_ne, Ho).
    destruct (if opx e OPX_tttn then _ else _) as [c| | |] eqn:Ec; try reflexivity. cbn [bind].
    assert (Hc : c <> []).
    { destruct (opx e OPX_tttn); [|congruence]. unfold bind, check in Ec. destruct (opextra e =? OPX_tttn); [|discriminate].
      assert (Hx : c = or_back 0 (n_cc i) c1) by congruence. rewrite Hx. apply or_back_ne. }
    rewrite imm_split. cbn [Nat.eqb negb].
    destruct (nbytes m true (dword e)) as [nb| | |] eqn:En; try reflexivity. cbn [bind].
    unfold assemble. rewrite Ea. cbn [address_of imm_of bind]. rewrite app_nil_r, (zlen_mark _ _ _ Hc).
    destruct (imm_bytes (zlen c) m nb (dword e)) as [[ib f]| | |]; reflexivity.
  - apply fin_reg; [rewrite Ea; reflexivity..|]. intros b f. apply F2.
  - (* OpMem *)
    unfold encode_mem, m_head. cbv zeta. unfold rexX, rexB. fold (addr_x (m_addr m)) (addr_b (m_addr m)).
    set (c1 := if opx e OPX_W then _ else _). cbn [bind]. unfold assemble. rewrite Ea. cbn [address_of imm_of].
    change (Z.of_nat 0) with 0.
    destruct (encode_address _ _ _ _) as [[ab fa]| | |]; try reflexivity. cbn [bind]. rewrite !app_nil_r. reflexivity.
  - destruct (reverse e); apply fin_reg; try (rewrite Ea; reflexivity); intros b f; apply F3.
  - unfold encode_mem_reg, mr_head. cbv zeta. unfold rexX, rexB. fold (addr_x (m_addr d)) (addr_b (m_addr d)).
    destruct (check (impl1 e =? 0)); try reflexivity. cbn [bind].
    set (c1 := if opx e OPX_D then _ else _). unfold assemble. rewrite Ea. cbn [address_of imm_of].
    change (Z.of_nat 0) with 0.
    destruct (encode_address _ _ _ _) as [[ab fa]| | |]; try reflexivity. cbn [bind]. rewrite !app_nil_r. reflexivity.
  - unfold encode_mem_reg, mr_head. cbv zeta. unfold rexX, rexB. fold (addr_x (m_addr s)) (addr_b (m_addr s)).
    destruct (check (impl1 e =? 0)); try reflexivity. cbn [bind].
    set (c1 := if opx e OPX_D then _ else _). unfold assemble. rewrite Ea. cbn [address_of imm_of].
    change (Z.of_nat 0) with 0.
    destruct (encode_address _ _ _ _) as [[ab fa]| | |]; try reflexivity. cbn [bind]. rewrite !app_nil_r. reflexivity.
  - unfold encode_imm_reg, ir_head. cbv zeta.
    set (c1 := prefixes i e ++ _). assert (H1 : c1 <> []) by (apply code_ne, Ho).
    set (w' := if opx e OPX_W then _ else operand_size i).
    set (c2 := if opx e OPX_W then or_back 0 w' c1 else c1).
    assert (H2 : c2 <> []) by (unfold c2; destruct (opx e OPX_W); [apply or_back_ne|exact H1]).
    clearbody c2. clearbody w'.
    destruct (if opx e OPX_REG then _ else _) as [[c dd]| | |] eqn:Ec; try reflexivity. cbn [bind].
    assert (Hc : c <> []).
    { unfold bind, check in Ec. destruct (opx e OPX_REG).
      - destruct (modrm e =? 0); [|discriminate]. destruct (impl1 e =? 0); [|discriminate].
        assert (Hx : c = or_back 0 (reg3 (r_reg d)) c2) by congruence. rewrite Hx. apply or_back_ne.
      - destruct (impl1 e =? 0).
        + assert (Hx : c = c2 ++ [Z.lor (Z.lor 192 (modrm e)) (reg3 (r_reg d))]) by congruence. rewrite Hx.
          intro K. apply app_eq_nil in K as [_ K]. discriminate.
        + congruence. }
    set (sx := if negb (opx e OPX_S) || (w' =? 0) then 0%nat else dd).
    rewrite imm_split. destruct (nbytes m (negb (Nat.eqb sx 0)) (dword e)) as [nb| | |] eqn:En; try reflexivity. cbn [bind].
    unfold assemble. rewrite Ea. cbn [address_of imm_of bind]. rewrite app_nil_r, (zlen_mark _ _ _ Hc).
    destruct (imm_bytes (zlen c) m nb (dword e)) as [[ib f]| | |]; reflexivity.
  - unfold encode_imm_mem, im_head. cbv zeta. unfold rexX, rexB. fold (addr_x (m_addr d)) (addr_b (m_addr d)).
    set (c1 := prefixes i e ++ _). assert (H1 : c1 <> []) by (apply code_ne, Ho).
    set (c := if opx e OPX_W then or_back 0 (b2z (isnt (operand_size i) 1)) c1 else c1).
    assert (Hc : c <> []) by (unfold c; destruct (opx e OPX_W); [apply or_back_ne|exact H1]).
    set (s := opx e OPX_S).
    assert (Hs : forall a : list Z, negb (Nat.eqb (if s then S (length a) else 0%nat) 0) = s) by (intro; destruct s; reflexivity).
    assert (Hk : forall a : list Z, mark m (if s then S (length a) else 0%nat) (c ++ a) = mark m (if s then 1%nat else 0%nat) c ++ a).
    { intro a. destruct s; [apply mark_app, Hc|]. unfold mark. rewrite andb_false_r. reflexivity. }
    set (rg := Z.land (Z.shiftr (modrm e) 3) 7).
    destruct (nbytes_res m s (dword e)) as [[nb En]|En].
    + rewrite En. cbn [bind]. rewrite (nbytes_width _ _ _ _ En). unfold assemble. rewrite Ea. cbn [address_of imm_of bind].
      rewrite (zlen_mark _ _ _ Hc).
      destruct (encode_address (zlen c) rg (m_addr d) (Z.of_nat nb)) as [[ab fa]| | |]; try reflexivity. cbn [bind].
      rewrite imm_split, Hs, En, Hk. cbn [bind]. rewrite !zlen_app, (zlen_mark _ _ _ Hc), <- !zlen_app.
      destruct (imm_bytes (zlen (c ++ ab)) m nb (dword e)) as [[ib f]| | |] eqn:Ei; try reflexivity. cbn [bind].
      assert (Hl : zlen ib = Z.of_nat nb) by (unfold zlen; rewrite (imm_bytes_len _ _ _ _ _ _ _ _ En Ei); reflexivity).
      replace (zlen ((mark m (if s then 1%nat else 0%nat) c ++ ab) ++ ib) - zlen (c ++ ab) =? Z.of_nat nb) with true.
      2:{ symmetry. apply Z.eqb_eq. rewrite !zlen_app, (zlen_mark _ _ _ Hc). lia. }
      cbn [check bind]. rewrite <- !app_assoc. rewrite !zlen_app, (zlen_mark _ _ _ Hc). reflexivity.
    + rewrite En. cbn [bind].
      destruct (address_res (zlen c) rg (m_addr d) (imm_encoding_width m s (dword e))) as [[[ab fa] ->]| ->]; [|reflexivity].
      cbn [bind]. rewrite imm_split, Hs, En. reflexivity.
Qed.
