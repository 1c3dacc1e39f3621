(* Proofs about the instruction encoder: reading back what was written. *)
From Coq Require Import ZArith Lia Bool List.
From Verif Require Import Bytes EncModel EncSpec.
Import ListNotations.
Open Scope Z_scope.

(* ------------------------------------------------------------------ *)
(* Reading is insensitive to what follows *)

Lemma signed_mod n z : signed n (z mod 256 ^ Z.of_nat n) = signed n z.
Proof. unfold signed. rewrite Z.mod_mod; [easy|]. pose proof (pow256_pos n); lia. Qed.

Lemma take_bytes n z t : take n (le_bytes n z ++ t) = Some (signed n z, t).
Proof.
  unfold take. rewrite app_length, le_bytes_length.
  replace (Nat.leb n (n + length t)) with true by (symmetry; apply Nat.leb_le; lia).
  rewrite firstn_app, le_bytes_length, Nat.sub_diag, firstn_O, app_nil_r.
  rewrite (firstn_all2 (n := n)) by (rewrite le_bytes_length; lia).
  rewrite skipn_app, le_bytes_length, Nat.sub_diag.
  rewrite (skipn_all2 (n := n)) by (rewrite le_bytes_length; lia).
  rewrite le_val_bytes, signed_mod. reflexivity.
Qed.

Lemma take_exact n b t : length b = n -> take n (b ++ t) = Some (signed n (le_val b), t).
Proof.
  intro H. unfold take. rewrite app_length.
  replace (Nat.leb n (length b + length t)) with true by (symmetry; apply Nat.leb_le; lia).
  rewrite firstn_app, skipn_app. replace (n - length b)%nat with 0%nat by lia.
  rewrite firstn_O, app_nil_r, (firstn_all2 (n := n)), (skipn_all2 (n := n)) by lia. reflexivity.
Qed.

Lemma take_split n l v r : take n l = Some (v, r) ->
  exists b, length b = n /\ l = b ++ r /\ v = signed n (le_val b).
Proof.
  unfold take. destruct (Nat.leb n (length l)) eqn:E; [|discriminate].
  intros [= <- <-]. apply Nat.leb_le in E. exists (firstn n l).
  split; [apply firstn_length_le, E|]. split; [symmetry; apply firstn_skipn|reflexivity].
Qed.

Lemma take_stable n l v r t : take n l = Some (v, r) -> take n (l ++ t) = Some (v, r ++ t).
Proof.
  intro H. apply take_split in H as (b & Hb & -> & ->). rewrite <- app_assoc. apply take_exact, Hb.
Qed.

Lemma read_prefixes_stable t : forall l s rep p r,
  read_prefixes s rep l = Some (p, r) -> read_prefixes s rep (l ++ t) = Some (p, r ++ t).
Proof.
  induction l as [|b l IH]; intros s rep p r H; [discriminate|].
  cbn [read_prefixes app] in *.
  destruct (b =? 102); [apply IH, H|].
  destruct ((b =? 242) || (b =? 243)); [apply IH, H|].
  destruct (b / 16 =? 4); injection H as <- <-; reflexivity.
Qed.

Lemma read_head_stable t l p e o r :
  read_head l = Some (p, e, o, r) -> read_head (l ++ t) = Some (p, e, o, r ++ t).
Proof.
  unfold read_head. destruct (read_prefixes false 0 l) as [[q l1]|] eqn:E; [|discriminate].
  rewrite (read_prefixes_stable t _ _ _ _ _ E).
  unfold read_opcode. destruct l1 as [|b l1]; [discriminate|]. cbn [app].
  destruct (b =? 15).
  - destruct l1 as [|b' l1]; [discriminate|]. cbn [app]. intros [= <- <- <- <-]. reflexivity.
  - intros [= <- <- <- <-]. reflexivity.
Qed.

Lemma read_disp_stable t md l d r : read_disp md l = Some (d, r) -> read_disp md (l ++ t) = Some (d, r ++ t).
Proof.
  unfold read_disp. destruct (md =? 0); [intros [= <- <-]; reflexivity|].
  destruct (md =? 1); apply take_stable.
Qed.

Lemma read_modrm_stable t p l reg r l' :
  read_modrm p l = Some (reg, r, l') -> read_modrm p (l ++ t) = Some (reg, r, l' ++ t).
Proof.
  unfold read_modrm. destruct l as [|m l]; [discriminate|]. cbn [app].
  destruct (m / 64 =? 3); [intros [= <- <- <-]; reflexivity|].
  destruct (m mod 8 =? 4).
  - destruct l as [|s l]; [discriminate|]. cbn [app].
    destruct ((s mod 8 =? 5) && (m / 64 =? 0)).
    + destruct (take 4 l) as [[d l1]|] eqn:E; [|discriminate]. rewrite (take_stable _ _ _ _ t E).
      intros [= <- <- <-]. reflexivity.
    + destruct (read_disp (m / 64) l) as [[d l1]|] eqn:E; [|discriminate].
      rewrite (read_disp_stable t _ _ _ _ E). intros [= <- <- <-]. reflexivity.
  - destruct ((m mod 8 =? 5) && (m / 64 =? 0)).
    + destruct (take 4 l) as [[d l1]|] eqn:E; [|discriminate]. rewrite (take_stable _ _ _ _ t E).
      intros [= <- <- <-]. reflexivity.
    + destruct (read_disp (m / 64) l) as [[d l1]|] eqn:E; [|discriminate].
      rewrite (read_disp_stable t _ _ _ _ E). intros [= <- <- <-]. reflexivity.
Qed.

(* ------------------------------------------------------------------ *)
(* Templates: an instruction read with stand-ins for address and immediate *)

Definition subst_arg (pl : place) (v : Z) (a : arg) : arg :=
  match a with M _ w => M pl w | Imv _ => Imv v | Rel _ => Rel v | _ => a end.
Definition subst (pl : place) (v : Z) (d : ins) : ins := Ins (i_mn d) (map (subst_arg pl v) (i_args d)).

Fixpoint imms (ts : list pat) : list nat :=
  match ts with [] => [] | PN n :: ts => n :: imms ts | PD n :: ts => n :: imms ts | _ :: ts => imms ts end.
Definition imms_ok (ts : list pat) (nb : nat) : bool :=
  match imms ts with [] => Nat.eqb nb 0 | [n] => Nat.eqb n nb | _ => false end.

Definition same_rm (r r' : rm) (pl : place) : Prop :=
  match r with RmReg n => r' = RmReg n | RmMem _ => r' = RmMem pl end.

Lemma gpr_subst p n w pl v : subst_arg pl v (gpr p n w) = gpr p n w.
Proof. unfold gpr. destruct (p_rex p); [reflexivity|]. destruct ((w =? 1) && (4 <=? n) && (n <? 8)); reflexivity. Qed.

Lemma arg_none p o reg r r' pl v l t a x y : same_rm r r' pl ->
  arg_of p o reg r t x = Some (a, y) -> match t with PN _ | PD _ => False | _ => True end ->
  y = x /\ arg_of p o reg r' t l = Some (subst_arg pl v a, l).
Proof.
  intros Hs H Ht. destruct t; try contradiction; cbn [arg_of] in *; destruct r as [n'|q]; cbn in Hs; subst r'.
  all: try discriminate H.
  all: injection H as <- <-; split; [reflexivity|]; rewrite ?gpr_subst; reflexivity.
Qed.

Lemma args_none p o reg r r' pl v l : same_rm r r' pl -> forall ts a x y,
  imms ts = [] -> args_of p o reg r ts x = Some (a, y) ->
  y = x /\ args_of p o reg r' ts l = Some (map (subst_arg pl v) a, l).
Proof.
  intros Hs. induction ts as [|t ts IH]; intros a x y Hi H.
  - cbn in H |- *. injection H as <- <-. split; reflexivity.
  - cbn [args_of] in *. destruct (arg_of p o reg r t x) as [[a0 x0]|] eqn:E; [|discriminate].
    assert (Ht : match t with PN _ | PD _ => False | _ => True end) by (destruct t; try exact I; discriminate Hi).
    destruct (arg_none _ _ _ _ _ _ v l _ _ _ _ Hs E Ht) as [-> ->].
    assert (Hi' : imms ts = []) by (destruct t; try contradiction; exact Hi).
    destruct (args_of p o reg r ts x) as [[b z]|] eqn:E'; [|discriminate]. injection H as <- <-.
    destruct (IH _ _ _ Hi' E') as [-> ->]. split; reflexivity.
Qed.

Lemma args_some p o reg r r' pl b l nb : same_rm r r' pl -> length b = nb -> forall ts a x y,
  imms ts = [nb] -> args_of p o reg r ts x = Some (a, y) ->
  args_of p o reg r' ts (b ++ l) = Some (map (subst_arg pl (signed nb (le_val b))) a, l).
Proof.
  intros Hs Hb. induction ts as [|t ts IH]; intros a x y Hi H; [discriminate|].
  cbn [args_of] in *. destruct (arg_of p o reg r t x) as [[a0 x0]|] eqn:E; [|discriminate].
  destruct (args_of p o reg r ts x0) as [[c z]|] eqn:E'; [|discriminate]. injection H as <- <-.
  destruct t as [w|w| |w|w|w| | |n|n].
  1-8: destruct (arg_none _ _ _ _ _ _ (signed nb (le_val b)) (b ++ l) _ _ _ _ Hs E I) as [-> ->];
       rewrite (IH _ _ _ Hi E'); reflexivity.
  all: cbn [imms] in Hi; injection Hi as -> Hi; cbn [arg_of] in *; destruct (take nb x) as [[v0 x1]|]; [|discriminate];
       injection E as <- <-; rewrite (take_exact _ _ _ Hb);
       destruct (args_none _ _ _ _ _ _ (signed nb (le_val b)) l Hs _ _ _ _ Hi E') as [_ ->]; reflexivity.
Qed.

Lemma args_ok p o reg r r' pl b l nb ts a x y : same_rm r r' pl -> length b = nb ->
  imms_ok ts nb = true -> args_of p o reg r ts x = Some (a, y) ->
  args_of p o reg r' ts (b ++ l) = Some (map (subst_arg pl (signed nb (le_val b))) a, l).
Proof.
  intros Hs Hb Hi H. unfold imms_ok in Hi. destruct (imms ts) as [|n [|n' ns]] eqn:E; [| |discriminate].
  - apply Nat.eqb_eq in Hi. destruct b; [|cbn in Hb; lia]. cbn [app].
    apply (args_none _ _ _ _ _ _ _ _ Hs _ _ _ _ E H).
  - apply Nat.eqb_eq in Hi. subst n. exact (args_some _ _ _ _ _ _ _ _ _ Hs Hb _ _ _ _ E H).
Qed.

(* the register or memory operand that stands in: with mm = Some (rg, x, b) the bytes end before ModR/M *)
Definition read_mid (p : pre) (esc : bool) (o : Z) (l1 : list Z) (mm : option (Z * bool * bool)) (pl : place) : option (Z * rm) :=
  match mm with
  | None => match (if has_modrm esc o then read_modrm p l1 else Some (0, RmReg 0, l1)) with
            | Some (reg, RmReg n, []) => Some (reg, RmReg n) | _ => None end
  | Some (rg, x, b) =>
      match l1 with
      | [] => if has_modrm esc o && (rex_bit p 1 =? b2z x) && (rex_bit p 0 =? b2z b) && (0 <=? rg) && (rg <? 8)
              then Some (rg + 8 * rex_bit p 2, RmMem pl) else None
      | _ => None
      end
  end.
Definition form_of (p : pre) (esc : bool) (o reg : Z) (r : rm) : option (mnem * list pat) :=
  if esc then form2 p o
  else form1 p o (reg mod 8) match r with RmMem _ => true | _ => false end match r with RmMem _ => 0 | RmReg n => n mod 8 end.
Definition tmpl (h : list Z) (mm : option (Z * bool * bool)) (pl : place) (nb : nat) : option ins :=
  match read_head h with
  | None => None
  | Some (p, esc, o, l1) =>
      match read_mid p esc o l1 mm pl with
      | None => None
      | Some (reg, r) =>
          match form_of p esc o reg r with
          | None => None
          | Some (m, ts) =>
              if imms_ok ts nb then
                match args_of p o reg r ts (repeat 0 nb) with Some (a, _) => Some (Ins m a) | None => None end
              else None
          end
      end
  end.

Lemma tmpl_reg h pl nb d b t : tmpl h None pl nb = Some d -> length b = nb ->
  decode (h ++ b ++ t) = Some (subst pl (signed nb (le_val b)) d, t).
Proof.
  unfold tmpl, decode. destruct (read_head h) as [[[[p esc] o] l1]|] eqn:E; [|discriminate].
  rewrite (read_head_stable (b ++ t) _ _ _ _ _ E). cbn [read_mid].
  destruct (if has_modrm esc o then read_modrm p l1 else Some (0, RmReg 0, l1)) as [[[reg r] l2]|] eqn:E2; [|discriminate].
  destruct r as [n|q]; [|discriminate]. destruct l2; [|discriminate].
  destruct (form_of p esc o reg (RmReg n)) as [[m ts]|] eqn:E3; [|discriminate].
  destruct (imms_ok ts nb) eqn:E4; [|discriminate].
  destruct (args_of p o reg (RmReg n) ts (repeat 0 nb)) as [[a y]|] eqn:E5; [|discriminate].
  intros [= <-] Hb. unfold read_tail.
  assert (Hm : (if has_modrm esc o then read_modrm p (l1 ++ b ++ t) else Some (0, RmReg 0, l1 ++ b ++ t)) = Some (reg, RmReg n, b ++ t)).
  { destruct (has_modrm esc o).
    - apply (read_modrm_stable (b ++ t)) in E2. exact E2.
    - injection E2 as <- <- ->. reflexivity. }
  rewrite Hm. unfold form_of in E3. rewrite E3.
  rewrite (args_ok _ _ _ (RmReg n) (RmReg n) pl b t nb _ _ _ _ eq_refl Hb E4 E5). reflexivity.
Qed.

Lemma tmpl_mem h rg x b pl0 nb d ab pl ib t : tmpl h (Some (rg, x, b)) pl0 nb = Some d ->
  (forall p l, rex_bit p 1 = b2z x -> rex_bit p 0 = b2z b -> 0 <= rg < 8 ->
     read_modrm p (ab ++ l) = Some (rg + 8 * rex_bit p 2, RmMem pl, l)) ->
  length ib = nb ->
  decode (h ++ ab ++ ib ++ t) = Some (subst pl (signed nb (le_val ib)) d, t).
Proof.
  unfold tmpl, decode. destruct (read_head h) as [[[[p esc] o] l1]|] eqn:E; [|discriminate].
  rewrite (read_head_stable (ab ++ ib ++ t) _ _ _ _ _ E). cbn [read_mid].
  destruct l1; [|discriminate]. cbn [app].
  destruct (has_modrm esc o) eqn:E1; [|discriminate].
  destruct (rex_bit p 1 =? b2z x) eqn:Ex; [|discriminate].
  destruct (rex_bit p 0 =? b2z b) eqn:Eb; [|discriminate].
  destruct (0 <=? rg) eqn:E6; [|discriminate]. destruct (rg <? 8) eqn:E7; [|discriminate].
  cbn [andb]. cbv iota.
  destruct (form_of p esc o (rg + 8 * rex_bit p 2) (RmMem pl0)) as [[m ts]|] eqn:E3; [|discriminate].
  destruct (imms_ok ts nb) eqn:E4; [|discriminate].
  destruct (args_of p o (rg + 8 * rex_bit p 2) (RmMem pl0) ts (repeat 0 nb)) as [[a y]|] eqn:E5; [|discriminate].
  intros [= <-] Hm Hb. unfold read_tail. rewrite E1.
  apply Z.eqb_eq in Ex, Eb. apply Z.leb_le in E6. apply Z.ltb_lt in E7.
  rewrite (Hm p (ib ++ t) Ex Eb (conj E6 E7)).
  unfold form_of in E3. rewrite E3.
  rewrite (args_ok _ _ _ (RmMem pl0) (RmMem pl) pl ib t nb _ _ _ _ eq_refl Hb E4 E5). reflexivity.
Qed.

(* ------------------------------------------------------------------ *)
(* ModR/M, SIB and displacement *)

Lemma read_modrm_ext p p' l : rex_bit p 0 = rex_bit p' 0 -> rex_bit p 1 = rex_bit p' 1 -> rex_bit p 2 = rex_bit p' 2 ->
  read_modrm p l = read_modrm p' l.
Proof. intros H0 H1 H2. unfold read_modrm. rewrite H0, H1, H2. reflexivity. Qed.

(* the part before the displacement and the length of the displacement; dz: it is zero, br: it fits a byte *)
Definition msd (reg base index scale : Z) (dz br : bool) : list Z * nat :=
  let nobase := base =? 0 in
  let has_sib := negb (index =? 0) || nobase || (reg3 base =? reg3 SP) || (1 <? scale) in
  let has_disp := nobase || negb dz || (reg3 base =? reg3 BP) in
  let m := Z.lor (Z.shiftl (Z.land reg 7) 3) (if has_sib then 4 else reg3 base) in
  let m := if negb br then Z.lor m 128 else if has_disp && negb nobase then Z.lor m 64 else m in
  let sib :=
    if has_sib then
      [Z.lor (Z.lor (Z.shiftl (if index =? 0 then reg3 SP else reg3 index) 3)
                    (Z.shiftl (if scale =? 2 then 1 else if scale =? 4 then 2 else if scale =? 8 then 3 else 0) 6))
             (if nobase then 5 else reg3 base)]
    else [] in
  (m :: sib, if negb br || nobase then 4%nat else if has_disp then 1%nat else 0%nat).

Lemma encode_msd reg a b : encode_modrm_sib_disp reg a = Done b ->
  let q := msd reg (a_base a) (a_index a) (a_scale a) (a_disp a =? 0) (in_byte_range (a_disp a)) in
  b = fst q ++ le_bytes (snd q) (a_disp a)
  /\ (a_base a = 0 -> a_disp a = 0) /\ In (a_scale a) [0; 1; 2; 4; 8].
Proof.
  unfold encode_modrm_sib_disp, bind, check.
  destruct (negb (a_base a =? 0) || (a_disp a =? 0)) eqn:E; [|discriminate].
  destruct ((a_scale a =? 0) || (a_scale a =? 1) || (a_scale a =? 2) || (a_scale a =? 4) || (a_scale a =? 8)) eqn:E2; [|discriminate].
  intro H. assert (H' : forall x y : list Z, Done x = Done y -> x = y) by (intros; congruence).
  apply H' in H. subst b. split; [|split].
  - unfold msd. cbn [fst snd app]. f_equal. f_equal.
    destruct (negb (in_byte_range (a_disp a)) || (a_base a =? 0)); [reflexivity|].
    match goal with |- context [if ?c then 1%nat else _] => destruct c; reflexivity end.
  - intro Hb. rewrite Hb in E. apply Z.eqb_eq. exact E.
  - rewrite !orb_true_iff, !Z.eqb_eq in E2. cbn. intuition.
Qed.

(* what the part before the displacement says *)
Definition set_disp (d : Z) (p : place) : place := match p with At b x _ => At b x d | Rip _ => Rip d end.

Definition dispn (md : Z) : nat := if md =? 0 then 0%nat else if md =? 1 then 1%nat else 4%nat.
Definition parse_ms (p : pre) (m : Z) (sib : list Z) : option (Z * place * nat) :=
  let md := m / 64 in
  let reg := (m / 8) mod 8 + 8 * rex_bit p 2 in
  let low := m mod 8 in
  if md =? 3 then None
  else if low =? 4 then
    match sib with
    | [s] =>
        let ix := (s / 8) mod 8 + 8 * rex_bit p 1 in
        let index := if ix =? 4 then None else Some (ix, 2 ^ (s / 64)) in
        if (s mod 8 =? 5) && (md =? 0) then Some (reg, At None index 0, 4%nat)
        else Some (reg, At (Some (s mod 8 + 8 * rex_bit p 0)) index 0, dispn md)
    | _ => None
    end
  else
    match sib with
    | [] => if (low =? 5) && (md =? 0) then Some (reg, Rip 0, 4%nat)
            else Some (reg, At (Some (low + 8 * rex_bit p 0)) None 0, dispn md)
    | _ => None
    end.

Lemma read_disp_n md b t : length b = dispn md -> read_disp md (b ++ t) = Some (signed (dispn md) (le_val b), t).
Proof.
  unfold dispn, read_disp. destruct (md =? 0).
  - destruct b; [|discriminate]. reflexivity.
  - destruct (md =? 1); apply take_exact.
Qed.

Lemma parse_ms_ok p m sib reg pl n b t : parse_ms p m sib = Some (reg, pl, n) -> length b = n ->
  read_modrm p ((m :: sib) ++ b ++ t) = Some (reg, RmMem (set_disp (signed n (le_val b)) pl), t).
Proof.
  unfold parse_ms, read_modrm. cbn [app]. destruct (m / 64 =? 3); [discriminate|].
  destruct (m mod 8 =? 4).
  - destruct sib as [|s [|s' sib]]; try discriminate. cbn [app].
    destruct ((s mod 8 =? 5) && (m / 64 =? 0)).
    + intros [= <- <- <-] Hb. rewrite (take_exact 4 b t Hb). reflexivity.
    + intros [= <- <- <-] Hb. rewrite (read_disp_n _ _ t Hb). reflexivity.
  - destruct sib as [|s sib]; [|discriminate]. cbn [app].
    destruct ((m mod 8 =? 5) && (m / 64 =? 0)).
    + intros [= <- <- <-] Hb. rewrite (take_exact 4 b t Hb). reflexivity.
    + intros [= <- <- <-] Hb. rewrite (read_disp_n _ _ t Hb). reflexivity.
Qed.

Fixpoint zr (n : nat) (a : Z) : list Z := match n with 0%nat => [] | S m => a :: zr m (a + 1) end.
Lemma zr_In n : forall a z, a <= z < a + Z.of_nat n -> In z (zr n a).
Proof.
  induction n as [|n IH]; intros a z H; [lia|]. cbn [zr In].
  destruct (Z.eq_dec a z); [left; auto|right]. apply IH. lia.
Qed.
Lemma forallb_In {A} (f : A -> bool) l x : forallb f l = true -> In x l -> f x = true.
Proof. intros H Hi. exact (proj1 (forallb_forall f l) H x Hi). Qed.

Definition bytes_ok (l : list Z) : bool := forallb (fun b => (0 <=? b) && (b <? 256)) l.
Lemma bytes_ok_Forall l : bytes_ok l = true -> Forall is_byte l.
Proof.
  intro H. apply Forall_forall. intros x Hx. apply (forallb_In _ _ x H) in Hx.
  apply andb_prop in Hx as [H1 H2]. split; [apply Z.leb_le|apply Z.ltb_lt]; assumption.
Qed.

Definition place_of (base index scale : Z) : option place :=
  where_ (fun _ _ => 0) 0 (Addr ADDR_NORMAL None 0 base index scale).
Definition place_eqb (p q : place) : bool :=
  match p, q with
  | At b x d, At b' x' d' =>
      match b, b' with Some b, Some b' => b =? b' | None, None => true | _, _ => false end
      && match x, x' with Some (i, s), Some (i', s') => (i =? i') && (s =? s') | None, None => true | _, _ => false end
      && (d =? d')
  | Rip d, Rip d' => d =? d'
  | _, _ => false
  end.
Lemma place_eqb_eq p q : place_eqb p q = true -> p = q.
Proof.
  destruct p as [b x d|d], q as [b' x' d'|d']; cbn; try discriminate.
  - intro H. apply andb_prop in H as [H H3]. apply andb_prop in H as [H1 H2]. apply Z.eqb_eq in H3. subst d'. f_equal.
    + destruct b, b'; try discriminate; auto. apply Z.eqb_eq in H1. subst; auto.
    + destruct x as [[i s]|], x' as [[i' s']|]; try discriminate; auto. apply andb_prop in H2 as [H2 H4].
      apply Z.eqb_eq in H2, H4. subst; auto.
  - intro H. apply Z.eqb_eq in H. subst; auto.
Qed.

Definition canon (r x b : bool) : pre := Pre false 0 (Some (64 + 4 * b2z r + 2 * b2z x + b2z b)).
Definition msd_check (reg base index scale : Z) (r dz br : bool) : bool :=
  match place_of base index scale with
  | None => true
  | Some pl =>
      if (base =? 0) && negb (dz && br) then true else if dz && negb br then true else
      let p := canon r (is_64_bit_reg index) (is_64_bit_reg base) in
      let (h, n) := msd reg base index scale dz br in
      match h with
      | [] => false
      | m :: sib =>
          match parse_ms p m sib with
          | Some (reg', pl', n') =>
              (reg' =? reg + 8 * b2z r) && place_eqb pl' pl && Nat.eqb n n'
              && bytes_ok h && Nat.leb (length h) 2
              && Nat.leb n 4 && (if br then if Nat.eqb n 0 then dz else true else Nat.eqb n 4)
          | None => false
          end
      end
  end.
Definition bools := [true; false].
Lemma bools_In b : In b bools. Proof. destruct b; cbn; auto. Qed.
Lemma forallb_all {A} (f : A -> bool) l : forallb f l = true -> forall x, In x l -> f x = true.
Proof. intros H x Hi. exact (proj1 (forallb_forall f l) H x Hi). Qed.

Lemma msd_all_true : forallb (fun reg => forallb (fun base => forallb (fun index => forallb (fun scale =>
    forallb (fun r => forallb (fun dz => forallb (fun br => msd_check reg base index scale r dz br)
      bools) bools) bools) [0; 1; 2; 4; 8]) (zr 17 0)) (zr 17 0)) (zr 8 0) = true.
Proof. vm_compute. reflexivity. Qed.

Lemma msd_one reg base index scale r dz br : 0 <= reg < 8 -> 0 <= base < 17 -> 0 <= index < 17 -> In scale [0; 1; 2; 4; 8] ->
  msd_check reg base index scale r dz br = true.
Proof.
  intros H1 H2 H3 H4.
  refine (forallb_all _ _ (forallb_all _ _ (forallb_all _ _ (forallb_all _ _ (forallb_all _ _ (forallb_all _ _ (forallb_all _ _
    msd_all_true reg _) base _) index _) scale _) r _) dz _) br _); try apply bools_In; try apply zr_In; try assumption; cbn; lia.
Qed.

Lemma signed_small n z : (0 < n)%nat -> - 256 ^ Z.of_nat n <= 2 * z < 256 ^ Z.of_nat n -> signed n z = z.
Proof.
  intros Hn H. unfold signed. set (m := 256 ^ Z.of_nat n) in *.
  assert (0 < m) by (apply pow256_pos).
  destruct (Z.ltb_spec (2 * (z mod m)) m).
  - destruct (Z.neg_nonneg_cases z) as [Hz|Hz].
    + replace (z mod m) with (z + m) in * by (symmetry; replace z with (z + m + (-1) * m) by ring; rewrite Z.mod_add by lia; rewrite Z.mod_small; lia). lia.
    + apply Z.mod_small. lia.
  - destruct (Z.neg_nonneg_cases z) as [Hz|Hz].
    + replace (z mod m) with (z + m) in * by (symmetry; replace z with (z + m + (-1) * m) by ring; rewrite Z.mod_add by lia; rewrite Z.mod_small; lia). lia.
    + rewrite Z.mod_small in * by lia. lia.
Qed.

Lemma where_range loc e a pl : where_ loc e a = Some pl -> a_sym a = None ->
  0 <= a_base a < 17 /\ 0 <= a_index a < 17 /\ In (a_scale a) [0; 1; 2; 4; 8] /\ -2147483648 <= a_disp a <= 2147483647
  /\ exists pl0, place_of (a_base a) (a_index a) (a_scale a) = Some pl0 /\ pl = set_disp (a_disp a) pl0.
Proof.
  unfold place_of, where_. intros H Hs. rewrite Hs in H. cbn [a_sym a_base a_index a_scale a_disp].
  change (int32 0) with true. cbn [andb].
  unfold is_gp in *.
  destruct (Z.eqb_spec (a_base a) 0) as [Eb|Eb].
  - destruct (Z.eqb_spec (a_index a) 0) as [Ei|Ei].
    + destruct (int32 (a_disp a)) eqn:Ed; [|discriminate]. destruct (scale_ok (a_scale a)) eqn:Es; [|discriminate].
      injection H as <-. unfold int32, scale_ok in *. rewrite !orb_true_iff, !Z.eqb_eq in Es.
      split; [lia|]. split; [lia|]. split; [cbn; intuition|]. split; [lia|]. eexists; split; reflexivity.
    + destruct ((1 <=? a_index a) && (a_index a <=? 16)) eqn:Eg; [|discriminate].
      destruct (negb (a_index a =? SP)); [|discriminate]. cbn [andb] in *.
      destruct (int32 (a_disp a)) eqn:Ed; [|discriminate]. destruct (scale_ok (a_scale a)) eqn:Es; [|discriminate].
      injection H as <-. unfold int32, scale_ok in *. rewrite !orb_true_iff, !Z.eqb_eq in Es.
      split; [lia|]. split; [lia|]. split; [cbn; intuition|]. split; [lia|]. eexists; split; reflexivity.
  - destruct ((1 <=? a_base a) && (a_base a <=? 16)) eqn:Egb; [|discriminate].
    destruct (Z.eqb_spec (a_index a) 0) as [Ei|Ei].
    + destruct (int32 (a_disp a)) eqn:Ed; [|discriminate]. destruct (scale_ok (a_scale a)) eqn:Es; [|discriminate].
      injection H as <-. unfold int32, scale_ok in *. rewrite !orb_true_iff, !Z.eqb_eq in Es.
      split; [lia|]. split; [lia|]. split; [cbn; intuition|]. split; [lia|]. eexists; split; reflexivity.
    + destruct ((1 <=? a_index a) && (a_index a <=? 16)) eqn:Eg; [|discriminate].
      destruct (negb (a_index a =? SP)); [|discriminate]. cbn [andb] in *.
      destruct (int32 (a_disp a)) eqn:Ed; [|discriminate]. destruct (scale_ok (a_scale a)) eqn:Es; [|discriminate].
      injection H as <-. unfold int32, scale_ok in *. rewrite !orb_true_iff, !Z.eqb_eq in Es.
      split; [lia|]. split; [lia|]. split; [cbn; intuition|]. split; [lia|]. eexists; split; reflexivity.
Qed.

Lemma rex_bit_01 p n : rex_bit p n = 0 \/ rex_bit p n = 1.
Proof.
  unfold rex_bit, bit. destruct (p_rex p); [|left; reflexivity].
  pose proof (Z.mod_pos_bound (z / 2 ^ n) 2 ltac:(lia)). lia.
Qed.

Lemma canon_bits r x b : rex_bit (canon r x b) 0 = b2z b /\ rex_bit (canon r x b) 1 = b2z x /\ rex_bit (canon r x b) 2 = b2z r.
Proof. destruct r, x, b; vm_compute; auto. Qed.

Lemma msd_read reg base index scale pl dz br p b t h n : 0 <= reg < 8 -> 0 <= base < 17 -> 0 <= index < 17 -> In scale [0; 1; 2; 4; 8] ->
  place_of base index scale = Some pl -> (base = 0 -> dz && br = true) -> (dz = true -> br = true) ->
  rex_bit p 1 = b2z (is_64_bit_reg index) -> rex_bit p 0 = b2z (is_64_bit_reg base) ->
  msd reg base index scale dz br = (h, n) -> length b = n ->
  read_modrm p (h ++ b ++ t) = Some (reg + 8 * rex_bit p 2, RmMem (set_disp (signed n (le_val b)) pl), t).
Proof.
  intros Hr Hb Hi Hs Hp Hz1 Hz2 Hx Hbb Hm Hl.
  assert (Hc : exists r, rex_bit p 2 = b2z r).
  { destruct (rex_bit_01 p 2) as [->| ->]; [exists false|exists true]; reflexivity. }
  destruct Hc as [r Hrr].
  pose proof (msd_one reg base index scale r dz br Hr Hb Hi Hs) as HA.
  unfold msd_check in HA. rewrite Hp, Hm in HA.
  replace ((base =? 0) && negb (dz && br)) with false in HA.
  2:{ destruct (Z.eqb_spec base 0) as [E|E]; [rewrite (Hz1 E)|]; reflexivity. }
  replace (dz && negb br) with false in HA by (destruct dz; [rewrite (Hz2 eq_refl)|]; reflexivity).
  destruct h as [|m sib]; [discriminate|].
  destruct (canon_bits r (is_64_bit_reg index) (is_64_bit_reg base)) as (C0 & C1 & C2).
  destruct (parse_ms _ m sib) as [[[reg' pl'] n']|] eqn:E; [|discriminate].
  rewrite !andb_true_iff in HA. destruct HA as ((((((H1 & H2) & H3) & _) & _) & _) & _).
  apply Z.eqb_eq in H1. apply place_eqb_eq in H2. apply Nat.eqb_eq in H3. subst reg' pl' n'.
  rewrite (read_modrm_ext p (canon r (is_64_bit_reg index) (is_64_bit_reg base))) by congruence.
  rewrite (parse_ms_ok _ _ _ _ _ _ _ t E Hl), Hrr. reflexivity.
Qed.

Lemma msd_facts reg base index scale dz br h n : 0 <= reg < 8 -> 0 <= base < 17 -> 0 <= index < 17 -> In scale [0; 1; 2; 4; 8] ->
  (exists pl, place_of base index scale = Some pl) -> (base = 0 -> dz && br = true) -> (dz = true -> br = true) ->
  msd reg base index scale dz br = (h, n) ->
  Forall is_byte h /\ (length h <= 2)%nat /\ (n <= 4)%nat
  /\ (br = false -> n = 4%nat) /\ (n = 0%nat -> dz = true) /\ (n = 0 \/ n = 1 \/ n = 4)%nat.
Proof.
  intros Hr Hb Hi Hs [pl Hp] Hz1 Hz2 Hm.
  assert (Hn : (n = 0 \/ n = 1 \/ n = 4)%nat).
  { unfold msd in Hm. assert (H : forall a b c d : list Z * nat, a = b -> snd a = snd b) by (intros; congruence).
    apply (f_equal snd) in Hm. cbn [snd] in Hm. subst n.
    destruct (negb br || (base =? 0)); [auto|]. match goal with |- context [if ?c then _ else _] => destruct c; auto end. }
  pose proof (msd_one reg base index scale false dz br Hr Hb Hi Hs) as HA.
  unfold msd_check in HA. rewrite Hp, Hm in HA.
  replace ((base =? 0) && negb (dz && br)) with false in HA.
  2:{ destruct (Z.eqb_spec base 0) as [E|E]; [rewrite (Hz1 E)|]; reflexivity. }
  replace (dz && negb br) with false in HA by (destruct dz; [rewrite (Hz2 eq_refl)|]; reflexivity).
  destruct h as [|m sib]; [discriminate|].
  destruct (parse_ms _ m sib) as [[[reg' pl'] n']|] eqn:E; [|discriminate].
  rewrite !andb_true_iff in HA. destruct HA as ((((_ & H4) & H5) & H6) & H7).
  split; [apply bytes_ok_Forall, H4|]. split; [apply Nat.leb_le, H5|]. split; [apply Nat.leb_le, H6|].
  split; [|split; [|exact Hn]].
  - intros ->. apply Nat.eqb_eq, H7.
  - intros ->. destruct br; [exact H7|discriminate].
Qed.

Lemma put_at (h x b t : list Z) off v : off = zlen (h ++ x) -> length b = 4%nat ->
  put (h ++ x ++ b ++ t) off v = h ++ x ++ le_bytes 4 v ++ t.
Proof.
  intros -> Hb. unfold put, zlen. rewrite Nat2Z.id.
  rewrite (app_assoc h x (b ++ t)).
  rewrite firstn_app, Nat.sub_diag, firstn_O, app_nil_r, firstn_all.
  rewrite skipn_app. rewrite skipn_all2 by lia. cbn [app].
  replace (length (h ++ x) + 4 - length (h ++ x))%nat with 4%nat by lia.
  rewrite skipn_app, Hb, Nat.sub_diag. rewrite skipn_all2 by lia. cbn [app skipn]. rewrite <- app_assoc. reflexivity.
Qed.
Lemma get_at (h b t : list Z) off : off = zlen h -> length b = 4%nat -> get (h ++ b ++ t) off = le_val b.
Proof.
  intros -> Hb. unfold get, zlen. rewrite Nat2Z.id, skipn_app, skipn_all2, Nat.sub_diag by lia. cbn [app skipn].
  rewrite firstn_app, Hb, Nat.sub_diag, firstn_O, app_nil_r, firstn_all2 by lia. reflexivity.
Qed.

Lemma rip_byte rg : 0 <= rg < 8 -> is_byte (Z.lor (Z.shiftl (Z.land rg 7) 3) 5)
  /\ forall p l d, -2147483648 <= d <= 2147483647 ->
     read_modrm p (Z.lor (Z.shiftl (Z.land rg 7) 3) 5 :: le_bytes 4 d ++ l) = Some (rg + 8 * rex_bit p 2, RmMem (Rip d), l).
Proof.
  intro H. assert (Hc : In rg (zr 8 0)) by (apply zr_In; lia).
  split.
  - cbn in Hc. unfold is_byte. repeat destruct Hc as [<-|Hc]; try contradiction; vm_compute; split; congruence.
  - intros p l d Hd. unfold read_modrm.
    assert (E : (Z.lor (Z.shiftl (Z.land rg 7) 3) 5 / 64 =? 3) = false /\ (Z.lor (Z.shiftl (Z.land rg 7) 3) 5 mod 8 =? 4) = false
      /\ ((Z.lor (Z.shiftl (Z.land rg 7) 3) 5 mod 8 =? 5) && (Z.lor (Z.shiftl (Z.land rg 7) 3) 5 / 64 =? 0)) = true
      /\ (Z.lor (Z.shiftl (Z.land rg 7) 3) 5 / 8) mod 8 = rg).
    { cbn in Hc. repeat destruct Hc as [<-|Hc]; try contradiction; vm_compute; auto. }
    destruct E as (-> & -> & -> & ->). rewrite take_bytes.
    rewrite signed_small; [reflexivity|lia|]. change (256 ^ Z.of_nat 4) with 4294967296. lia.
Qed.

Lemma le_bytes1_small n z : le_val (le_bytes n z) mod 256 ^ Z.of_nat n = z mod 256 ^ Z.of_nat n.
Proof. rewrite le_val_bytes, Z.mod_mod; [reflexivity|]. pose proof (pow256_pos n); lia. Qed.
Lemma signed_le_val n z : signed n (le_val (le_bytes n z)) = signed n z.
Proof. rewrite le_val_bytes, signed_mod. reflexivity. Qed.

Lemma zlen_app {A} (a b : list A) : zlen (a ++ b) = zlen a + zlen b.
Proof. unfold zlen. rewrite app_length. lia. Qed.
Lemma zlen_nonneg {A} (a : list A) : 0 <= zlen a. Proof. unfold zlen; lia. Qed.

Lemma address_ok loc at_ h rg a ib ab f pl : 0 <= rg < 8 ->
  encode_address (zlen h) rg a (zlen ib) = Done (ab, f) ->
  where_ loc (at_ + zlen (h ++ ab ++ ib)) a = Some pl -> place_fits pl = true ->
  exists ab', length ab' = length ab /\ (length ab <= 6)%nat /\ Forall is_byte ab'
    /\ patch loc at_ (h ++ ab ++ ib, f) = h ++ ab' ++ ib
    /\ (forall p l, rex_bit p 1 = b2z (is_64_bit_reg (a_index a)) -> rex_bit p 0 = b2z (is_64_bit_reg (a_base a)) ->
          read_modrm p (ab' ++ l) = Some (rg + 8 * rex_bit p 2, RmMem pl, l)).
Proof.
  intros Hr He Hw Hf. unfold encode_address in He.
  destruct (a_sym a) as [y|] eqn:Es.
  - destruct (rip_byte rg Hr) as [Hb1 Hb2].
    assert (Hk : exists k, (match a_type a with ADDR_GLOBAL_OFFSET => Done GOTPCREL | ADDR_NORMAL => Done PC32 | ADDR_PLT => Failed end) = Done k
      /\ ab = Z.lor (Z.shiftl (Z.land rg 7) 3) 5 :: [0; 0; 0; 0] /\ f = [Rela k y (zlen h + 1) (a_disp a - zlen ib)]
      /\ pl = Rip (loc k y + a_disp a - (at_ + zlen (h ++ ab ++ ib)))).
    { unfold where_ in Hw. rewrite Es in Hw.
      destruct (((a_base a =? 0) || (a_base a =? IP)) && (a_index a =? 0)); [|discriminate].
      destruct (a_type a); cbn [bind] in He; try discriminate; [exists PC32|exists GOTPCREL].
      all: assert (HH : forall x y : code, Done x = Done y -> x = y) by (intros; congruence); apply HH in He.
      all: assert (ab = Z.lor (Z.shiftl (Z.land rg 7) 3) 5 :: [0; 0; 0; 0]) by congruence; assert (f = [Rela PC32 y (zlen h + 1) (a_disp a - zlen ib)] \/ f = [Rela GOTPCREL y (zlen h + 1) (a_disp a - zlen ib)]) by (first [left; congruence|right; congruence]).
      all: split; [reflexivity|]; split; [assumption|]; split; [congruence|congruence]. }
    destruct Hk as (k & _ & -> & -> & ->). cbn [place_fits] in Hf. unfold int32 in Hf.
    set (m := Z.lor (Z.shiftl (Z.land rg 7) 3) 5) in *.
    assert (Hlen : zlen (h ++ (m :: [0; 0; 0; 0]) ++ ib) = zlen h + 5 + zlen ib) by (rewrite !zlen_app; reflexivity || (unfold zlen; cbn [length]; lia)).
    rewrite Hlen in *.
    set (v := loc k y + a_disp a - (at_ + (zlen h + 5 + zlen ib))) in *.
    exists (m :: le_bytes 4 v). split; [reflexivity|]. split; [cbn [length]; lia|].
    split; [constructor; [exact Hb1|apply le_bytes_is_byte]|]. split.
    + unfold patch. cbn [fold_left fst snd patch1].
      replace (loc k y + (a_disp a - zlen ib - 4) - (at_ + (zlen h + 1))) with v by (unfold v; ring).
      change (h ++ (m :: [0; 0; 0; 0]) ++ ib) with (h ++ [m] ++ [0; 0; 0; 0] ++ ib).
      rewrite put_at; [reflexivity| |reflexivity]. rewrite zlen_app. reflexivity.
    + intros p l _ _. cbn [app]. apply Hb2. lia.
  - unfold bind in He. destruct (encode_modrm_sib_disp rg a) as [b| | |] eqn:Em; try discriminate.
    assert (HH : forall x y : code, Done x = Done y -> x = y) by (intros; congruence). apply HH in He.
    assert (ab = b) by congruence. assert (f = []) by congruence. subst ab f. clear He HH.
    apply encode_msd in Em as (Hb & Hb0 & Hsc). cbv zeta in Hb.
    destruct (where_range _ _ _ _ Hw Es) as (R1 & R2 & R3 & R4 & pl0 & Hp & ->).
    destruct (msd rg (a_base a) (a_index a) (a_scale a) (a_disp a =? 0) (in_byte_range (a_disp a))) as [hd n] eqn:Ems.
    cbn [fst snd] in Hb. subst b.
    assert (Z1 : a_base a = 0 -> (a_disp a =? 0) && in_byte_range (a_disp a) = true) by (intro E; rewrite (Hb0 E); reflexivity).
    assert (Z2 : (a_disp a =? 0) = true -> in_byte_range (a_disp a) = true) by (intro E; apply Z.eqb_eq in E; rewrite E; reflexivity).
    destruct (msd_facts _ _ _ _ _ _ _ _ Hr R1 R2 R3 (ex_intro _ _ Hp) Z1 Z2 Ems) as (F1 & F2 & F3 & F4 & F5 & F6).
    exists (hd ++ le_bytes n (a_disp a)). split; [reflexivity|].
    split; [rewrite app_length, le_bytes_length; lia|].
    split; [apply Forall_app; split; [exact F1|apply le_bytes_is_byte]|].
    split; [reflexivity|].
    intros p l Hx Hb. rewrite <- app_assoc.
    rewrite (msd_read _ _ _ _ _ _ _ _ (le_bytes n (a_disp a)) l _ _ Hr R1 R2 R3 Hp Z1 Z2 Hx Hb Ems (le_bytes_length _ _)).
    rewrite signed_le_val.
    replace (signed n (a_disp a)) with (a_disp a); [reflexivity|].
    destruct F6 as [->|[->| ->]].
    + specialize (F5 eq_refl). apply Z.eqb_eq in F5. rewrite F5. reflexivity.
    + destruct (in_byte_range (a_disp a)) eqn:Eb; [|specialize (F4 eq_refl); discriminate].
      unfold in_byte_range in Eb. symmetry. apply signed_small; [lia|]. change (256 ^ Z.of_nat 1) with 256. lia.
    + symmetry. apply signed_small; [lia|]. change (256 ^ Z.of_nat 4) with 4294967296. lia.
Qed.

Lemma encode_address_done loc e len rg a k pl : where_ loc e a = Some pl ->
  match a_sym a with None => (a_base a =? 0) && negb (a_disp a =? 0) | Some _ => false end = false ->
  exists ab f, encode_address len rg a k = Done (ab, f).
Proof.
  intros Hw Ht. unfold encode_address. destruct (a_sym a) as [y|] eqn:Es.
  - unfold where_ in Hw. rewrite Es in Hw.
    destruct (((a_base a =? 0) || (a_base a =? IP)) && (a_index a =? 0)); [|discriminate].
    destruct (a_type a); try discriminate; cbn [bind]; eexists _, _; reflexivity.
  - destruct (where_range _ _ _ _ Hw Es) as (_ & _ & R3 & _).
    unfold encode_modrm_sib_disp, bind, check.
    replace (negb (a_base a =? 0) || (a_disp a =? 0)) with true.
    2:{ destruct (a_base a =? 0), (a_disp a =? 0); try reflexivity; discriminate. }
    replace ((a_scale a =? 0) || (a_scale a =? 1) || (a_scale a =? 2) || (a_scale a =? 4) || (a_scale a =? 8)) with true.
    2:{ cbn in R3. repeat destruct R3 as [<-|R3]; try contradiction; reflexivity. }
    eexists _, _. reflexivity.
Qed.
