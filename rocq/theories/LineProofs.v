From Coq Require Import ZArith String List Bool Lia Arith.
From Verif Require Import TokenizeSpec LineModel LineSpec.
Import ListNotations.
Local Open Scope Z_scope.

Definition post (s : list Z) := phase2 (phase1 s).
Definition Good (q : list Z) : Prop := clear q /\ last (phase1 q) 0 <> 92 /\ ~ In 0 q.
Inductive step : list Z -> Prop :=
| step_end : step []
| step_splice : forall r, post (92 :: 10 :: r) = post r -> Good r -> step (92 :: 10 :: r)
| step_tri : forall c t r, read_trigraph c = t -> t <> 0 -> post (63 :: 63 :: c :: r) = t :: post r -> Good r ->
    step (63 :: 63 :: c :: r)
| step_char : forall a r, post (a :: r) = a :: post r -> (a = 92 -> hd 0 r <> 10) ->
    (forall c r', a = 63 -> r = 63 :: c :: r' -> read_trigraph c = 0) -> Good r -> a <> 0 ->
    (a = 63 -> hd 0 r = 63 -> hd 0 (post r) = 63) -> step (a :: r).

Lemma trigraph_ok : forall c, read_trigraph c = match trigraph c with Some t => t | None => 0 end.
Proof.
  intro c. unfold trigraph, read_trigraph, trigraphs. cbn.
  repeat match goal with |- context [?n =? c] => destruct (Z.eqb_spec n c); [subst; reflexivity|] end. cbn.
  destruct c as [|p|p]; try reflexivity. repeat (destruct p as [p|p|]; try reflexivity; try (exfalso; lia)).
Qed.
Lemma trigraph_pos : forall c t, trigraph c = Some t -> t <> 0 /\ t <> 10 /\ t <> 34 /\ t <> 39 /\ t <> 42 /\ t <> 47 /\ t <> 63 /\ c <> 10 /\ c <> 0 /\ c <> 42 /\ c <> 92 /\ (t = 92 -> c = 47).
Proof.
  intros c t. unfold trigraph, trigraphs. cbn.
  repeat match goal with |- context [?n =? c] => destruct (Z.eqb_spec n c); [subst; cbn; intro H; injection H as <-; repeat split; lia|] end.
  discriminate.
Qed.
Lemma tri_some : forall c t, read_trigraph c = t -> t <> 0 -> trigraph c = Some t.
Proof. intros c t H N. rewrite trigraph_ok in H. destruct (trigraph c); [now subst|congruence]. Qed.
Lemma tri_none : forall c, trigraph c = None -> read_trigraph c = 0.
Proof. intros c H. now rewrite trigraph_ok, H. Qed.

Lemma phase1_eq : forall a b c r, phase1 (a :: b :: c :: r) =
  match (if (a =? 63) && (b =? 63) then trigraph c else None) with Some t => t :: phase1 r | None => a :: phase1 (b :: c :: r) end.
Proof. reflexivity. Qed.
Lemma phase1_cases : forall q, q = [] \/
  (exists c t r, q = 63 :: 63 :: c :: r /\ trigraph c = Some t /\ phase1 q = t :: phase1 r) \/
  (exists a r, q = a :: r /\ phase1 q = a :: phase1 r /\ (forall c r', a = 63 -> r = 63 :: c :: r' -> trigraph c = None)).
Proof.
  intros [|a q]; auto. right. destruct q as [|b [|c r]].
  - right. exists a, []. repeat split. discriminate.
  - right. exists a, [b]. repeat split. discriminate.
  - rewrite phase1_eq. destruct (Z.eqb_spec a 63); cbn [andb]; [destruct (Z.eqb_spec b 63)|]; subst.
    + destruct (trigraph c) as [t|] eqn:E.
      * left. exists c, t, r. rewrite E. auto.
      * right. exists 63, (63 :: c :: r). rewrite ?E. split; [reflexivity|]. split; [reflexivity|]. intros c' r' _ H. now injection H as <- <-.
    + right. exists 63, (b :: c :: r). split; [reflexivity|]. split; [reflexivity|]. intros c' r' _ H. injection H as -> _ _. congruence.
    + right. exists a, (b :: c :: r). split; [reflexivity|]. split; [reflexivity|]. intros; congruence.
Qed.
Lemma phase1_newline : forall q, hd 0 (phase1 q) = 10 -> hd 0 q = 10.
Proof.
  intros q H. destruct (phase1_cases q) as [->|[(c & t & r & -> & T & E)|(a & r & -> & E & _)]]; auto.
  - rewrite E in H. cbn [hd] in H. apply trigraph_pos in T. tauto.
  - now rewrite E in H.
Qed.
Lemma last_cons : forall (a : Z) l d, last (a :: l) d = match l with [] => a | _ => last l d end.
Proof. intros a [|]; reflexivity. Qed.
Lemma last_tl : forall (a : Z) l, last (a :: l) 0 <> 92 -> last l 0 <> 92.
Proof. intros a [|b l] H; [discriminate|exact H]. Qed.
Lemma nts_tl : forall a r, clear (a :: r) -> clear r.
Proof. intros a r H. apply H. Qed.

Lemma phase2_cons : forall a s, (a = 92 -> hd 0 s <> 10) -> phase2 (a :: s) = a :: phase2 s.
Proof.
  intros a [|b s] H; [reflexivity|]. cbn [phase2]. destruct (Z.eqb_spec a 92); [destruct (Z.eqb_spec b 10)|]; cbn [andb]; try reflexivity.
  subst. cbn in H. now destruct (H eq_refl).
Qed.
Lemma steps : forall q, Good q -> step q.
Proof.
  intros q (N & L & Z0). destruct (phase1_cases q) as [->|[(c & t & r & -> & T & E)|(a & r & -> & E & NT)]].
  - apply step_end.
  - assert (TP := trigraph_pos _ _ T). assert (GR : Good r).
    { split; [exact (nts_tl _ _ (nts_tl _ _ (nts_tl _ _ N)))|]. split; [rewrite E in L; exact (last_tl _ _ L)|]. intro I. apply Z0. cbn. auto. }
    apply (step_tri c t r).
    + now rewrite trigraph_ok, T.
    + tauto.
    + unfold post. rewrite E. apply phase2_cons. intros ->. intro H. apply phase1_newline in H.
      assert (c = 47) by tauto. subst c. destruct r as [|x r]; [discriminate|]. cbn in H. subst x. destruct N as [N _]. eapply N. reflexivity.
    + exact GR.
  - assert (GR : Good r).
    { split; [exact (nts_tl _ _ N)|]. split; [rewrite E in L; exact (last_tl _ _ L)|]. intro I. apply Z0. cbn. auto. }
    assert (A0 : a <> 0) by (intros ->; apply Z0; cbn; auto).
    destruct (Z.eq_dec a 92) as [->|NA].
    + destruct r as [|b r]. { cbn in L. congruence. }
      destruct (Z.eq_dec b 10) as [->|NB].
      * assert (E2 : phase1 (10 :: r) = 10 :: phase1 r).
        { destruct (phase1_cases (10 :: r)) as [H|[(c & t & r' & H & _)|(a & r' & H & E2 & _)]]; try discriminate. injection H as <- <-. exact E2. }
        apply step_splice.
        -- unfold post. rewrite E, E2. reflexivity.
        -- destruct GR as (G1 & G2 & G3). rewrite E2 in G2. split; [exact (nts_tl _ _ G1)|]. split; [exact (last_tl _ _ G2)|].
           intro I. apply G3. cbn. auto.
      * apply step_char; auto.
        -- unfold post. rewrite E. apply phase2_cons. intros _ H. apply phase1_newline in H. auto.
        -- discriminate.
        -- discriminate.
    + apply step_char; auto.
      * unfold post. rewrite E. apply phase2_cons. congruence.
      * intros c r' A B. apply tri_none. eauto.
      * intros -> H. destruct (phase1_cases r) as [->|[(c & t & r' & -> & T & E')|(a & r' & -> & E' & NT')]].
        -- discriminate.
        -- exfalso. destruct N as [_ [N _]]. now apply (N (c :: r')).
        -- cbn in H. subst a. unfold post. rewrite E'. rewrite phase2_cons by discriminate. reflexivity.
Qed.

Lemma newlines_cons : forall a s, newlines (a :: s) = ((if Z.eqb a 10 then 1 else 0) + newlines s)%nat.
Proof. intros. unfold newlines. cbn [filter]. rewrite Z.eqb_sym. now destruct (a =? 10). Qed.
Lemma newlines_app : forall s t, newlines (s ++ t) = (newlines s + newlines t)%nat.
Proof. intros. unfold newlines. now rewrite filter_app, app_length. Qed.

(* block comments *)
Definition star_of (star : bool) (s : list Z) : list Z := if star then 42 :: s else s.
Lemma rc_plain : forall star c s l, (star = true -> c <> 47 /\ c <> 92) -> c <> 0 ->
  read_comment star (c :: s) l = read_comment (c =? 42) s (if c =? 10 then S l else l).
Proof.
  intros star c s l H N. cbn [read_comment]. destruct (Z.eqb_spec c 42) as [->|N42].
  - destruct star; [|reflexivity]. destruct s; reflexivity.
  - destruct (Z.eqb_spec c 0); [contradiction|]. destruct star.
    + destruct H as [H1 H2]; [reflexivity|]. destruct (Z.eqb_spec c 47); [contradiction|]. destruct (Z.eqb_spec c 92); [contradiction|].
      cbn [andb]. destruct s; destruct (c =? 10); reflexivity.
    + destruct (c =? 10); reflexivity.
Qed.
Lemma after_skip : forall star c s, c <> 47 \/ star = false -> after_comment (star_of star (c :: s)) = after_comment (star_of false (c :: s)).
Proof.
  intros [|] c s H; [|reflexivity]. cbn [star_of]. cbn [after_comment]. destruct H as [H|]; [|discriminate].
  destruct (Z.eqb_spec c 47); [contradiction|]. reflexivity.
Qed.
Lemma after_cons : forall c s, after_comment (c :: s) = after_comment (star_of (c =? 42) s).
Proof.
  intros c s. destruct (Z.eqb_spec c 42); [now subst|]. cbn [star_of]. destruct s as [|b s]; [reflexivity|].
  cbn [after_comment]. destruct (Z.eqb_spec c 42); [contradiction|]. reflexivity.
Qed.
Lemma comment_ok : forall n q star l r rest, (length q <= n)%nat -> Good q -> after_comment (star_of star (post q)) = Some rest ->
  exists u v, q = u ++ v /\ Good v /\ post v = rest /\ read_comment star (q ++ 10 :: r) l = Closed (v ++ 10 :: r) (l + newlines u).
Proof.
  induction n as [|n IH]; intros q star l r rest LE G A; destruct (steps q G) as [|q0 P G0|c t q0 T TN P G0|a q0 P N92 NT G0 N0 N63].
  1,2,3,4,5: cbn [length] in LE; try lia.
  - destruct star; discriminate A.
  - destruct star; discriminate A.
  - rewrite P in A. destruct star.
    + destruct (IH q0 true (S l) r rest) as (u & v & -> & GV & PV & R); [cbn in LE; lia|auto|auto|].
      exists (92 :: 10 :: u), v. split; [reflexivity|]. split; [auto|]. split; [auto|].
      rewrite !newlines_cons. cbn [app read_comment]. cbn [Z.eqb Pos.eqb andb]. rewrite R. f_equal. cbn. lia.
    + destruct (IH q0 false (S l) r rest) as (u & v & -> & GV & PV & R); [cbn in LE; lia|auto|auto|].
      exists (92 :: 10 :: u), v. split; [reflexivity|]. split; [auto|]. split; [auto|].
      rewrite !newlines_cons. cbn [app]. rewrite !rc_plain by (try discriminate; lia). cbn [Z.eqb Pos.eqb]. rewrite R. f_equal. cbn. lia.
  - rewrite P in A. assert (TS := tri_some _ _ T TN). apply trigraph_pos in TS.
    rewrite after_skip in A by tauto. cbn [star_of] in A. rewrite after_cons in A.
    replace (t =? 42) with false in A by (symmetry; apply Z.eqb_neq; tauto).
    destruct (IH q0 false l r rest) as (u & v & -> & GV & PV & R); [cbn in LE; lia|auto|auto|].
    exists (63 :: 63 :: c :: u), v. split; [reflexivity|]. split; [auto|]. split; [auto|].
    rewrite !newlines_cons. cbn [app]. rewrite (rc_plain star 63) by (try split; lia). cbn [Z.eqb Pos.eqb].
    rewrite (rc_plain false 63) by (try discriminate; lia). cbn [Z.eqb Pos.eqb]. rewrite rc_plain by (try discriminate; tauto).
    replace (c =? 42) with false by (symmetry; apply Z.eqb_neq; tauto). replace (c =? 10) with false by (symmetry; apply Z.eqb_neq; tauto). exact R.
  - rewrite P in A. destruct (Z.eq_dec a 47) as [->|N47]; [destruct star|].
    + cbn in A. injection A as <-. exists [47], q0. split; [reflexivity|]. split; [auto|]. split; [auto|].
      cbn. f_equal. lia.
    + cbn [star_of] in A. rewrite after_cons in A. cbn [star_of Z.eqb Pos.eqb] in A.
      destruct (IH q0 false l r rest) as (u & v & -> & GV & PV & R); [cbn in LE; lia|auto|auto|].
      exists (47 :: u), v. split; [reflexivity|]. split; [auto|]. split; [auto|].
      rewrite newlines_cons. cbn [app]. rewrite rc_plain by (try discriminate; lia). exact R.
    + rewrite after_skip in A by auto. cbn [star_of] in A. rewrite after_cons in A.
      destruct (IH q0 (a =? 42) (if a =? 10 then S l else l) r rest) as (u & v & -> & GV & PV & R); [cbn in LE; lia|auto|auto|].
      exists (a :: u), v. split; [reflexivity|]. split; [auto|]. split; [auto|].
      rewrite newlines_cons. cbn [app]. replace (l + ((if Z.eqb a 10 then 1 else 0) + newlines u))%nat with ((if Z.eqb a 10 then S l else l) + newlines u)%nat by (destruct (a =? 10); lia).
      rewrite <- R. destruct (Z.eq_dec a 92) as [->|N92'].
      * cbn [read_comment]. cbn [Z.eqb Pos.eqb]. destruct star; [|reflexivity].
        destruct u as [|x u]; [destruct v as [|x v]|]; cbn [app hd] in *.
        -- exfalso. destruct G as (_ & L & _). cbn in L. congruence.
        -- destruct (Z.eqb_spec x 10); [destruct (N92 eq_refl); auto|]. reflexivity.
        -- destruct (Z.eqb_spec x 10); [destruct (N92 eq_refl); auto|]. reflexivity.
      * apply rc_plain; auto.
Qed.

(* line comments *)
Lemma rlc_plain : forall c s l, c <> 92 -> c <> 0 -> c <> 10 -> read_line_comment (c :: s) l = read_line_comment s l.
Proof.
  intros c s l A B C. cbn [read_line_comment]. destruct (Z.eqb_spec c 92); [contradiction|]. destruct (Z.eqb_spec c 10); [contradiction|].
  destruct (Z.eqb_spec c 0); [contradiction|]. reflexivity.
Qed.
Lemma line_comment_ok : forall n q l r, (length q <= n)%nat -> Good q -> ~ In 10 (post q) ->
  read_line_comment (q ++ 10 :: r) l = Closed r (l + newlines q).
Proof.
  induction n as [|n IH]; intros q l r LE G A; destruct (steps q G) as [|q0 P G0|c t q0 T TN P G0|a q0 P N92 NT G0 N0 N63].
  1,2,3,4,5: cbn [length] in LE; try lia.
  - cbn. f_equal. lia.
  - cbn. f_equal. lia.
  - rewrite P in A. cbn [app read_line_comment]. cbn [Z.eqb Pos.eqb]. rewrite IH; [|cbn in LE; lia|auto|auto].
    rewrite !newlines_cons. f_equal. cbn. lia.
  - rewrite P in A. assert (TS := tri_some _ _ T TN). apply trigraph_pos in TS. cbn [app].
    rewrite (rlc_plain 63) by lia. rewrite (rlc_plain 63) by lia. rewrite rlc_plain by tauto.
    rewrite !newlines_cons. replace (c =? 10) with false by (symmetry; apply Z.eqb_neq; tauto).
    apply IH; [cbn in LE; lia|auto|]. intro H. apply A. cbn. auto.
  - rewrite P in A. assert (NN : a <> 10) by (intros ->; apply A; cbn; auto).
    assert (E : read_line_comment ((a :: q0) ++ 10 :: r) l = read_line_comment (q0 ++ 10 :: r) l).
    { destruct (Z.eq_dec a 92) as [->|N]; [|now apply rlc_plain].
      destruct q0 as [|x q0]. { exfalso. destruct G as (_ & L & _). cbn in L. congruence. }
      cbn [app read_line_comment]. cbn [Z.eqb Pos.eqb]. cbn [hd] in N92. destruct (Z.eqb_spec x 10); [destruct (N92 eq_refl); auto|]. reflexivity. }
    rewrite E, newlines_cons. replace (a =? 10) with false by (symmetry; apply Z.eqb_neq; tauto).
    apply IH; [cbn in LE; lia|auto|]. intro H. apply A. cbn. auto.
Qed.

(* literals *)
Lemma backslashes_even : forall c w, Nat.even (backslashes (c :: w)) = if c =? 92 then negb (Nat.even (backslashes w)) else true.
Proof.
  intros c w. cbn [backslashes]. destruct (c =? 92); [|reflexivity]. rewrite Nat.even_succ. now rewrite <- Nat.negb_even.
Qed.
Lemma rl_copy : forall cap q c s w l, c <> 0 -> c <> 10 -> (c = 63 -> forall d r, s = 63 :: d :: r -> read_trigraph d = 0) ->
  (c = 63 -> s <> [] /\ s <> [63]) ->
  (c = q -> Nat.even (backslashes w) = false) -> (length w < cap)%nat ->
  read_literal_loop cap q (c :: s) w l = read_literal_loop cap q s (c :: w) l.
Proof.
  intros cap q c s w l N0 N10 NT NE Q C. cbn [read_literal_loop]. replace (Nat.ltb (length w) cap) with true by (symmetry; now apply Nat.ltb_lt).
  destruct (Z.eqb_spec c 0); [contradiction|]. destruct (Z.eqb_spec c 10); [contradiction|]. destruct (Z.eqb_spec c 63) as [->|N63].
  - destruct (NE eq_refl) as [NE1 NE2]. destruct s as [|d [|e s]]; [congruence| |].
    + destruct (Z.eqb_spec d 63); [subst; congruence|reflexivity].
    + destruct (Z.eqb_spec d 63); [|reflexivity]. subst d. rewrite (NT eq_refl e s eq_refl). reflexivity.
  - destruct (Z.eqb_spec c q); [|reflexivity]. rewrite Q by auto. reflexivity.
Qed.
Lemma tail_not : forall q r, (q ++ 10 :: r : list Z) <> [] /\ q ++ 10 :: r <> [63].
Proof. intros q r. split; destruct q as [|? [|]]; discriminate. Qed.
Lemma tri_tail : forall q r d r', (forall c r', q = 63 :: c :: r' -> read_trigraph c = 0) -> q ++ 10 :: r = 63 :: d :: r' -> read_trigraph d = 0.
Proof.
  intros q r d r' H E. destruct q as [|x [|y q]]; cbn [app] in E.
  - discriminate.
  - injection E as _ <- _. reflexivity.
  - injection E as -> -> _. eauto.
Qed.
Lemma literal_ok : forall n qc q esc w l r b rest cap, qc = 34 \/ qc = 39 -> (length q <= n)%nat -> Good q -> w <> [] ->
  (length w + length q < cap)%nat -> Nat.even (backslashes w) = negb esc -> quoted qc esc (post q) b rest ->
  exists u v, q = u ++ v /\ Good v /\ post v = rest /\
    read_literal_loop cap qc (q ++ 10 :: r) w l = LitDone (v ++ 10 :: r) (rev b ++ w) (l + newlines u) /\ u <> [] /\ (length b <= length u)%nat.
Proof.
  induction n as [|n IH]; intros qc q esc w l r b rest cap QC LE G NW CAP EV A; destruct (steps q G) as [|q0 P G0|c t q0 T TN P G0|a q0 P N92 NT G0 N0 N63].
  1,2,3,4,5: cbn [length] in LE; try lia.
  - inversion A.
  - inversion A.
  - rewrite P in A. cbn [length] in CAP, LE.
    destruct (IH qc q0 esc w (S l) r b rest cap) as (u & v & -> & GV & PV & R & U & LU); auto; [lia|lia|].
    exists (92 :: 10 :: u), v. split; [reflexivity|]. split; [auto|]. split; [auto|]. split; [|split; [discriminate|cbn; lia]].
    rewrite !newlines_cons. cbn [app]. rewrite rl_copy; [|lia|lia|discriminate|discriminate|intros <-; destruct QC; discriminate|lia].
    cbn [read_literal_loop]. cbn [Z.eqb Pos.eqb]. rewrite R. f_equal. cbn. lia.
  - rewrite P in A. assert (TS := tri_some _ _ T TN). apply trigraph_pos in TS. cbn [length] in CAP, LE.
    assert (exists b' esc', b = t :: b' /\ quoted qc esc' (post q0) b' rest /\ negb esc' = Nat.even (backslashes (t :: w))) as (b' & esc' & -> & Q' & EV').
    { rewrite backslashes_even, EV. inversion A; subst.
      - exfalso. destruct QC as [QC|QC]; rewrite QC in TS; tauto.
      - eexists _, _. split; [reflexivity|]. split; [eassumption|]. match goal with H : _ <> 92 |- _ => apply Z.eqb_neq in H; rewrite H end. reflexivity.
      - eexists _, _. split; [reflexivity|]. split; [eassumption|]. match goal with H : 92 = _ |- _ => rewrite <- H | _ => idtac end. reflexivity.
      - eexists _, _. split; [reflexivity|]. split; [eassumption|]. now destruct (_ =? 92). }
    destruct (IH qc q0 esc' (t :: w) l r b' rest cap) as (u & v & -> & GV & PV & R & U & LU); auto; [lia|discriminate|cbn; lia|].
    exists (63 :: 63 :: c :: u), v. split; [reflexivity|]. split; [auto|]. split; [auto|]. split; [|split; [discriminate|cbn; lia]].
    rewrite !newlines_cons. replace (c =? 10) with false by (symmetry; apply Z.eqb_neq; tauto). cbn [app read_literal_loop]. cbn [Z.eqb Pos.eqb].
    rewrite T. destruct (Z.eqb_spec t 0); [contradiction|]. replace (Nat.ltb (length w) cap) with true by (symmetry; apply Nat.ltb_lt; lia).
    rewrite R. f_equal. cbn [rev]. now rewrite <- app_assoc.
  - rewrite P in A. cbn [length] in CAP, LE. destruct (Bool.bool_dec ((a =? qc) && negb esc) true) as [F|F].
    + apply andb_prop in F as [F1 F2]. apply Z.eqb_eq in F1. subst a. assert (b = [qc] /\ rest = post q0) as [-> ->].
      { destruct esc; [discriminate|]. inversion A; subst; auto; try congruence. destruct QC; discriminate. }
      exists [qc], q0. split; [reflexivity|]. split; [auto|]. split; [auto|]. split; [|split; [discriminate|cbn; lia]].
      cbn [app read_literal_loop]. rewrite EV, F2, Z.eqb_refl. replace (Nat.ltb (length w) cap) with true by (symmetry; apply Nat.ltb_lt; lia).
      destruct QC; subst qc; cbn; f_equal; lia.
    + assert (exists b' esc', b = a :: b' /\ quoted qc esc' (post q0) b' rest /\ negb esc' = Nat.even (backslashes (a :: w)) /\ a <> 10 /\ (a = qc -> Nat.even (backslashes w) = false)) as (b' & esc' & -> & Q' & EV' & N10 & QE).
      { rewrite backslashes_even, EV. inversion A; subst.
        - exfalso. apply F. now rewrite Z.eqb_refl.
        - eexists _, _. split; [reflexivity|]. split; [eassumption|]. match goal with H : _ <> 92 |- _ => apply Z.eqb_neq in H; rewrite H end. repeat split; auto. congruence.
        - eexists _, _. split; [reflexivity|]. split; [eassumption|]. repeat split; try lia.
        - eexists _, _. split; [reflexivity|]. split; [eassumption|]. repeat split; auto. now destruct (_ =? 92). }
      destruct (IH qc q0 esc' (a :: w) l r b' rest cap) as (u & v & -> & GV & PV & R & U & LU); auto; [lia|discriminate|cbn; lia|].
      exists (a :: u), v. split; [reflexivity|]. split; [auto|]. split; [auto|]. split; [|split; [discriminate|cbn; lia]].
      rewrite newlines_cons. replace (a =? 10) with false by (symmetry; apply Z.eqb_neq; tauto). rewrite <- !app_comm_cons.
      rewrite rl_copy; auto; [|intros E63 d r' E; eapply tri_tail; [|exact E]; intros; eapply NT; eauto|intro; apply tail_not|lia].
      rewrite R. f_equal. cbn [rev]. now rewrite <- app_assoc.
Qed.

(* the second loop *)
Lemma flush_ok : forall cap (pre x w : list Z), (length pre + length w <= cap)%nat -> flush cap (pre ++ x) (length pre) w = Some (rev pre ++ w).
Proof.
  intros. unfold flush. rewrite app_length. replace (Nat.leb (length w + length pre) cap) with true by (symmetry; apply Nat.leb_le; lia).
  replace (Nat.leb (length pre) (length pre + length x)) with true by (symmetry; apply Nat.leb_le; lia). cbn [andb].
  now rewrite firstn_app, firstn_all, Nat.sub_diag, firstn_O, app_nil_r.
Qed.
Lemma skip_pre : forall (pre x : list Z), skipn (length pre) (pre ++ x) = x.
Proof. intros. now rewrite skipn_app, skipn_all, Nat.sub_diag. Qed.
Lemma eqb_no : forall a b : Z, a <> b -> (a =? b) = false.
Proof. intros. now apply Z.eqb_neq. Qed.
Definition special (c : Z) : bool := (c =? 34) || (c =? 39) || (c =? 42) || (c =? 47) || (c =? 63) || (c =? 92).

Lemma rr_keep : forall f cap c x k pre w l, c <> 10 -> c <> 34 -> c <> 39 -> (hd 0 (rev pre ++ w) = 47 -> c <> 47 /\ c <> 42) ->
  (c = 92 -> hd 0 x <> 10) -> (c = 63 -> hd 0 x <> 63) -> x <> [] -> (length pre + length w <= cap)%nat ->
  exists pre' w', rev pre' ++ w' = c :: rev pre ++ w /\
    read_rest (S f) cap (c :: x) (S k) (pre ++ c :: x) (length pre) w l = read_rest f cap x k (pre' ++ x) (length pre') w' l.
Proof.
  intros f cap c x k pre w l N10 N34 N39 V N92 N63 NX CAP. cbn [read_rest]. rewrite (eqb_no c 10) by auto.
  fold (special c). destruct (special c) eqn:SP.
  - exists [c], (rev pre ++ w). split; [reflexivity|]. rewrite flush_ok by auto. rewrite skip_pre.
    rewrite (eqb_no c 34), (eqb_no c 39) by auto. cbn [orb].
    destruct (Z.eqb_spec (hd 0 (rev pre ++ w)) 47) as [H|H].
    + destruct (V H) as [V1 V2]. rewrite (eqb_no c 42), (eqb_no c 47) by auto. cbn [andb].
      destruct (Z.eqb_spec c 92); [|destruct (Z.eqb_spec c 63)]; [destruct x as [|d x]; [congruence|]..|reflexivity].
      * rewrite (eqb_no d 10) by (now apply N92). reflexivity.
      * rewrite (eqb_no d 63) by (now apply N63). reflexivity.
    + rewrite !andb_false_r. 
      destruct (Z.eqb_spec c 92); [|destruct (Z.eqb_spec c 63)]; [destruct x as [|d x]; [congruence|]..|reflexivity].
      * rewrite (eqb_no d 10) by (now apply N92). reflexivity.
      * rewrite (eqb_no d 63) by (now apply N63). reflexivity.
  - exists (pre ++ [c]), w. split; [now rewrite rev_app_distr|]. rewrite app_length, Nat.add_comm. cbn [length Nat.add]. now rewrite <- app_assoc.
Qed.
Definition ready (v q o : list Z) : Prop :=
  (hd 0 v <> 47 /\ exists t, phase3 false (post q) t /\ o = rev v ++ t) \/
  (exists v0 t, v = 47 :: v0 /\ phase3 false (47 :: post q) t /\ o = rev v0 ++ t).
(* Both cases again, when the next character is not one that ends what the slash begins. *)
Lemma ready_char : forall v q o a s, ready v q o -> post q = a :: s ->
  (hd 0 v = 47 -> a <> 47 /\ a <> 42) -> exists t, phase3 false (a :: s) t /\ o = rev v ++ t.
Proof.
  intros v q o a s [(H & t & P & ->)|(v0 & t & -> & P & ->)] E N.
  - rewrite E in P. eauto.
  - rewrite E in P. destruct (N eq_refl) as [N1 N2]. inversion P; subst; try lia; try congruence.
    match goal with H : phase3 false (a :: s) ?t0 |- _ => exists t0 end. split; [auto|]. cbn [rev]. now rewrite <- app_assoc.
Qed.
Lemma ready_next : forall v q0 t, phase3 false (post q0) t -> ready (hd 0 [] :: v) q0 (rev (hd 0 [] :: v) ++ t).
Proof. intros. left. split; [discriminate|eauto]. Qed.

Lemma app_cons_len : forall (u v : list Z) r, (length (u ++ v ++ r) - length (v ++ r) = length u)%nat.
Proof. intros. rewrite !app_length. lia. Qed.
Lemma quoted_last : forall q e s b r, quoted q e s b r -> exists b', b = b' ++ [q].
Proof.
  induction 1 as [| ? ? ? ? ? ? ? ? [b' ->] | ? ? ? ? [b' ->] | ? ? ? ? ? ? [b' ->]]; [exists []|exists (c :: b')|exists (92 :: b')|exists (c :: b')]; reflexivity.
Qed.
Lemma rest_ok : forall n q, (length q <= n)%nat -> Good q -> forall f cap pre w k l r o, ready (rev pre ++ w) q o ->
  (length q < f)%nat -> (length q < k)%nat -> (length pre + length w + length q < cap)%nat ->
  read_rest f cap (q ++ 10 :: r) k (pre ++ q ++ 10 :: r) (length pre) w l = Line o r (l + newlines q + 1).
Proof.
  induction n as [n IH] using lt_wf_ind. intros q LE G f cap pre w k l r o RD F K CAP.
  destruct f as [|f]; [lia|]. destruct k as [|k]; [lia|].
  assert (C : forall q1 w1 k1 l1 o1, (length q1 < n)%nat -> Good q1 -> ready w1 q1 o1 -> (length q1 < f)%nat -> (length q1 < k1)%nat ->
    (length w1 + length q1 < cap)%nat -> read_rest f cap (q1 ++ 10 :: r) k1 (q1 ++ 10 :: r) 0 w1 l1 = Line o1 r (l1 + newlines q1 + 1)).
  { intros q1 w1 k1 l1 o1 L1 G1 R1 F1 K1 C1. exact (IH (length q1) L1 q1 (le_n _) G1 f cap [] w1 k1 l1 r o1 R1 F1 K1 C1). }
  assert (NX : forall x, x ++ 10 :: r <> []) by (intros [|]; discriminate).
  destruct (steps q G) as [|q0 P G0|c t0 q0 T TN P G0|a q0 P N92 NT G0 N0 N63]; cbn [length] in LE, F, K, CAP.
  - cbn [app read_rest]. cbn [Z.eqb Pos.eqb]. unfold finish. rewrite flush_ok by lia.
    replace (Nat.ltb (length (rev pre ++ w)) cap) with true by (symmetry; apply Nat.ltb_lt; rewrite app_length, rev_length; lia).
    f_equal; [|cbn; lia]. destruct RD as [(_ & t & P3 & ->)|(v0 & t & E & P3 & ->)]; change (post []) with (@nil Z) in P3.
    + inversion P3. now rewrite app_nil_r.
    + rewrite E. inversion P3; subst; [|lia]. match goal with H : phase3 _ [] _ |- _ => inversion H end. reflexivity.
  - cbn [app read_rest]. cbn [Z.eqb Pos.eqb orb andb]. rewrite flush_ok by lia.
    replace (Datatypes.S k - _)%nat with (k - 1)%nat by (cbn [length]; lia).
    rewrite (C q0) with (o1 := o); auto; try lia.
    + f_equal. rewrite !newlines_cons. cbn. lia.
    + cbn [rev app]. unfold ready in *. now rewrite P in RD.
    + rewrite ?app_length, ?rev_length. cbn [length]. rewrite ?app_length, ?rev_length. lia.
  - assert (TS := tri_some _ _ T TN). apply trigraph_pos in TS.
    cbn [app read_rest]. cbn [Z.eqb Pos.eqb orb andb]. rewrite flush_ok by lia. rewrite T, (eqb_no t0 0) by auto.
    replace (Nat.ltb (length (rev pre ++ w)) cap) with true by (symmetry; apply Nat.ltb_lt; rewrite app_length, rev_length; lia).
    replace (Datatypes.S k - _)%nat with (k - 2)%nat by (cbn [length]; lia).
    rewrite (C q0) with (o1 := o); auto; try lia.
    + f_equal. rewrite !newlines_cons. rewrite (eqb_no c 10) by tauto. cbn. lia.
    + destruct (ready_char _ _ _ _ _ RD P) as (t & P3 & ->); [tauto|]. inversion P3; subst; try tauto; try lia.
      left. split; [cbn; tauto|]. eexists. split; [eassumption|]. cbn [rev app]. now rewrite <- app_assoc.
    + rewrite ?app_length, ?rev_length. cbn [length]. rewrite ?app_length, ?rev_length. lia.
  - assert (D : (hd 0 (rev pre ++ w) = 47 /\ a = 47) \/ (hd 0 (rev pre ++ w) = 47 /\ a = 42) \/ (hd 0 (rev pre ++ w) = 47 -> a <> 47 /\ a <> 42)) by lia.
    destruct D as [(HD & ->)|[(HD & ->)|HD]].
    + (* line comment *)
      destruct RD as [(X & _)|(v0 & t & E & P3 & ->)]; [contradiction|]. rewrite P in P3.
      inversion P3; subst; [cbn in *; destruct H3; auto; lia|destruct H1; discriminate|].
      cbn [app read_rest]. cbn [Z.eqb Pos.eqb orb andb]. rewrite flush_ok by lia. rewrite E. cbn [hd tl]. cbn [Z.eqb Pos.eqb].
      rewrite (line_comment_ok (length q0)); auto. rewrite newlines_cons, app_nil_r. cbn [Z.eqb Pos.eqb]. f_equal. lia.
    + (* comment *)
      destruct RD as [(X & _)|(v0 & t & E & P3 & ->)]; [contradiction|]. rewrite P in P3.
      inversion P3; subst; [cbn in *; destruct H3; auto; lia|destruct H1; discriminate|].
      destruct (comment_ok (length q0) q0 false l r r0) as (u & v & -> & GV & PV & RC); auto.
      cbn [app read_rest]. cbn [Z.eqb Pos.eqb orb andb]. rewrite flush_ok by lia. rewrite E. cbn [hd tl]. cbn [Z.eqb Pos.eqb].
      rewrite RC. cbn [length] in *. rewrite app_length in LE, F, K, CAP. rewrite <- app_assoc.
      replace (Datatypes.S k - _)%nat with (k - length u)%nat by (rewrite !app_length; lia).
      rewrite (C v) with (o1 := rev v0 ++ 32 :: t0); auto; try lia.
      * f_equal. rewrite newlines_cons, newlines_app. cbn. lia.
      * left. split; [cbn; lia|]. exists t0. split; [congruence|]. cbn [rev app]. now rewrite <- app_assoc.
      * assert (length (rev pre ++ w) = Datatypes.S (length v0)) by now rewrite E. rewrite app_length, rev_length in *. cbn [length]. lia.
    + destruct (ready_char _ _ _ _ _ RD P) as (t & P3 & ->); [exact HD|].
      destruct (Bool.bool_dec ((a =? 34) || (a =? 39)) true) as [QT|QT].
      * (* literal *)
        assert (QC : a = 34 \/ a = 39) by (apply orb_prop in QT; destruct QT as [QT|QT]; apply Z.eqb_eq in QT; auto).
        inversion P3; subst; try lia; try (destruct QC; discriminate).
        match goal with H : quoted _ _ _ _ _ |- _ =>
          destruct (literal_ok (length q0) a q0 false (a :: rev pre ++ w) l r b r0 cap) as (u & v & -> & GV & PV & RL & U & LU); auto end.
        -- discriminate.
        -- cbn [length]. rewrite app_length, rev_length. lia.
        -- rewrite backslashes_even. rewrite (eqb_no a 92) by (destruct QC; lia). reflexivity.
        -- rewrite <- app_comm_cons. cbn [read_rest]. rewrite (eqb_no a 10) by (destruct QC; lia). rewrite QT. cbn [orb].
           rewrite flush_ok by lia. unfold read_literal.
           replace (Nat.ltb (length (rev pre ++ w)) cap) with true by (symmetry; apply Nat.ltb_lt; rewrite app_length, rev_length; lia).
           rewrite RL. cbn [length] in *. rewrite app_length in LE, F, K, CAP. rewrite <- app_assoc.
           replace (Datatypes.S k - _)%nat with (k - length u)%nat by (rewrite !app_length; lia).
           rewrite (C v) with (o1 := rev (rev pre ++ w) ++ a :: b ++ t0); auto; try lia.
           ++ f_equal. rewrite newlines_cons, newlines_app. rewrite (eqb_no a 10) by (destruct QC; lia). cbn. lia.
           ++ left. split.
              ** match goal with H : quoted _ _ _ _ _ |- _ => destruct (quoted_last _ _ _ _ _ H) as [b' ->] end.
                 rewrite rev_app_distr. cbn. destruct QC; lia.
              ** exists t0. split; [congruence|]. rewrite (rev_app_distr (rev b)), (rev_involutive b). cbn [rev]. now rewrite <- !app_assoc.
           ++ cbn [length]. rewrite !app_length, !rev_length. cbn [length]. rewrite app_length, rev_length. lia.
      * apply not_true_is_false in QT. apply orb_false_iff in QT as [Q34 Q39]. apply Z.eqb_neq in Q34, Q39.
        assert (N10 : a <> 10) by (inversion P3; subst; lia).
        destruct (rr_keep f cap a (q0 ++ 10 :: r) k pre w l) as (pre' & w' & V & RR); auto.
        -- intros ->. destruct q0 as [|x q0]; [|cbn in *; auto]. exfalso. destruct G as (_ & L & _). cbn in L. congruence.
        -- intros -> H. destruct q0 as [|x q0]; [discriminate|]. cbn in H. subst x. specialize (N63 eq_refl eq_refl).
           inversion P3; subst; try lia.
        -- lia.
        -- rewrite <- !app_comm_cons. rewrite RR. rewrite (IH (length q0)) with (o := rev (rev pre ++ w) ++ t); auto; try lia.
           ++ rewrite newlines_cons, (eqb_no a 10) by auto. reflexivity.
           ++ rewrite V. destruct (Z.eq_dec a 47) as [->|NA].
              ** right. exists (rev pre ++ w), t. auto.
              ** left. split; [exact NA|]. inversion P3; subst; try lia. eexists. split; [eassumption|]. cbn [rev]. now rewrite <- app_assoc.
           ++ assert (LV : length (rev pre' ++ w') = length (a :: rev pre ++ w)) by now rewrite V.
              rewrite app_length in LV. cbn [length] in LV. rewrite app_length, !rev_length in LV. lia.
Qed.

(* the first loop *)
Lemma first_ok : forall q cap pre k r t, Good q -> phase3 false (post q) t -> hd 0 (rev pre) <> 47 ->
  (length q < k)%nat -> (length pre + length q < cap)%nat ->
  read_first cap (pre ++ q ++ 10 :: r) (q ++ 10 :: r) k (length pre) = Line (pre ++ t) r (newlines q + 1).
Proof.
  induction q as [|a q IH]; intros cap pre k r t G P H K CAP; destruct k as [|k]; try (cbn [length] in *; lia).
  - cbn [app read_first]. cbn [Z.eqb Pos.eqb]. unfold finish. rewrite flush_ok by (cbn in *; lia).
    rewrite app_nil_r, rev_involutive. replace (Nat.ltb (length (rev pre)) cap) with true by (symmetry; apply Nat.ltb_lt; rewrite rev_length; cbn in *; lia).
    change (post []) with (@nil Z) in P. inversion P. rewrite app_nil_r. reflexivity.
  - cbn [length] in *. destruct (special a && negb (a =? 42)) eqn:SP.
    + rewrite <- app_comm_cons. cbn [read_first]. replace ((a =? 34) || (a =? 39) || (a =? 47) || (a =? 63) || (a =? 92)) with true.
      2: { symmetry. unfold special in SP. destruct (a =? 34), (a =? 39), (a =? 47), (a =? 63), (a =? 92); try reflexivity. cbn in SP. now destruct (a =? 42). }
      rewrite (eqb_no a 10) by (intros ->; discriminate).
      change (a :: q ++ 10 :: r) with ((a :: q) ++ 10 :: r). rewrite (rest_ok (length (a :: q))) with (o := pre ++ t); auto.
      * left. rewrite app_nil_r. split; [auto|]. exists t. split; [auto|]. now rewrite rev_involutive.
      * rewrite app_length. cbn [length]. lia.
      * cbn [length]. lia.
    + assert (NS : a <> 34 /\ a <> 39 /\ a <> 47 /\ a <> 63 /\ a <> 92).
      { repeat split; intros ->; discriminate. }
      destruct NS as (N1 & N2 & N3 & N4 & N5). assert (ST := steps _ G). inversion ST as [|? PS GS|? ? ? ? ? PS GS|? ? PS ? ? GS ? ?]; subst; try lia.
      rewrite PS in P. inversion P; subst; try lia.
      rewrite <- app_comm_cons. cbn [read_first]. rewrite (eqb_no a 10), (eqb_no a 34), (eqb_no a 39), (eqb_no a 47), (eqb_no a 63), (eqb_no a 92) by auto. cbn [orb].
      replace (pre ++ a :: q ++ 10 :: r) with ((pre ++ [a]) ++ q ++ 10 :: r) by now rewrite <- app_assoc.
      replace (Datatypes.S (length pre)) with (length (pre ++ [a])) by (rewrite app_length; cbn; lia).
      rewrite IH with (t := t0); auto.
      * rewrite newlines_cons, (eqb_no a 10) by auto. now rewrite <- app_assoc.
      * rewrite rev_app_distr. exact N3.
      * lia.
      * rewrite app_length. cbn [length]. lia.
Qed.
Theorem read_line_ok : forall cap p r t len, clear p -> ~ In 0 p -> logical_line false p t -> (length p < len)%nat -> (length p < cap)%nat ->
  read_line cap (p ++ 10 :: r) len = Line t r (newlines p + 1).
Proof.
  intros cap p r t len C N [E P] L CAP. unfold read_line. apply (first_ok p cap [] len r t); auto; [now repeat split|discriminate].
Qed.
