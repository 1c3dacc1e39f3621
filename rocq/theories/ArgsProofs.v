(* Option matching. *)
From Coq Require Import ZArith List Bool Lia.
From Verif Require Import ArgsModel ArgsSpec.
Import ListNotations.
Local Open Scope Z_scope.

Lemma starts_iff : forall s arg, starts s arg = true <-> exists a, arg = s ++ a.
Proof.
  induction s as [|c s IH]; intros arg; simpl; [split; eauto|].
  destruct arg as [|d arg]; [split; [discriminate|intros (a & X); discriminate]|].
  rewrite andb_true_iff, IH, Z.eqb_eq. split.
  - intros [-> (a & ->)]. eauto.
  - intros (a & X). injection X as -> ->. eauto.
Qed.
Lemma starts_no : forall s arg, starts s arg = false -> forall a, arg <> s ++ a.
Proof. intros s arg H a ->. assert (starts s (s ++ a) = true) by (apply starts_iff; eauto). congruence. Qed.
Lemma skipn_app_len : forall (s a : list Z), skipn (length s) (s ++ a) = a.
Proof. intros. rewrite skipn_app, skipn_all, Nat.sub_diag. reflexivity. Qed.
Lemma skip_app : forall s R a, skip_common (s ++ R) (s ++ a) = skip_common R a.
Proof. induction s as [|c s IH]; intros; simpl; [reflexivity|]. rewrite Z.eqb_refl. apply IH. Qed.
Lemma skip_stop : forall s R arg, starts s arg = false -> exists c r a, In c s /\ skip_common (s ++ R) arg = (c :: r, a).
Proof.
  induction s as [|c s IH]; intros R arg H; simpl in H; [discriminate|]. destruct arg as [|d arg].
  - exists c, (s ++ R), []. split; [left; reflexivity|reflexivity].
  - simpl. destruct (c =? d) eqn:E; simpl in H.
    + destruct (IH R arg H) as (x & r & a & I & X). exists x, r, a. split; [right; exact I|exact X].
    + exists c, (s ++ R), (d :: arg). split; [left; reflexivity|reflexivity].
Qed.
Lemma until_app : forall stop a c r, (forall x, In x a -> ~ In x stop) -> In c stop -> until stop (a ++ c :: r) = Some (a, c :: r).
Proof.
  assert (EX : forall stop c, existsb (Z.eqb c) stop = true <-> In c stop).
  { intros stop c. rewrite existsb_exists. split; [intros (x & I & E); apply Z.eqb_eq in E; subst; exact I|]. intro I. exists c. split; [exact I|apply Z.eqb_refl]. }
  intros stop a c r. induction a as [|x a IH]; intros N I; simpl.
  - rewrite (proj2 (EX stop c) I). reflexivity.
  - destruct (existsb (Z.eqb x) stop) eqn:E; [apply EX in E; exfalso; apply (N x); [left; reflexivity|exact E]|].
    rewrite IH; [reflexivity| |exact I]. intros y Y. apply N. right. exact Y.
Qed.
Lemma plain_not : forall s x, plain s -> In x s -> ~ In x [91; 93; 123; 124; 125].
Proof. intros s x P I. unfold plain in P. rewrite Forall_forall in P. apply P. exact I. Qed.

Lemma alternatives_ok : forall l x R arg fuel, Forall plain (x :: l) -> (length (bars l) < fuel)%nat ->
  alternatives fuel (x ++ bars l ++ 125 :: R) arg =
  Some (match find (fun y => starts y arg) (x :: l) with Some y => Some (R, skipn (length y) arg) | None => None end).
Proof.
  induction l as [|y l IH]; intros x R arg fuel P L; (destruct fuel as [|n]; [lia|]); cbn [alternatives bars find app];
    inversion P as [|? ? P1 P2]; subst.
  - rewrite until_app; [|intros z Z I; apply (plain_not _ _ P1 Z); simpl in *; tauto|simpl; auto].
    destruct (starts x arg); [|reflexivity]. simpl. reflexivity.
  - replace (x ++ 124 :: (y ++ bars l) ++ 125 :: R) with (x ++ 124 :: y ++ bars l ++ 125 :: R) by (rewrite <- app_assoc; reflexivity).
    rewrite until_app; [|intros z Z I; apply (plain_not _ _ P1 Z); simpl in *; tauto|simpl; auto].
    destruct (starts x arg).
    + replace (124 :: y ++ bars l ++ 125 :: R) with ((124 :: y ++ bars l) ++ 125 :: R) by (simpl; rewrite <- app_assoc; reflexivity).
      rewrite until_app; [reflexivity| |left; reflexivity].
      assert (B : forall l, Forall plain l -> forall z, In z (bars l) -> z <> 125).
      { clear. induction l as [|y l IH]; intros P z Z; [contradiction|]. inversion P; subst. simpl in Z. destruct Z as [<-|Z]; [discriminate|].
        apply in_app_or in Z as [Z|Z]; [intros ->; apply (plain_not _ _ H1 Z); simpl; tauto|apply IH; assumption]. }
      intros z Z [<-|[]]. inversion P2; subst. destruct Z as [Z|Z]; [discriminate|].
      apply in_app_or in Z as [Z|Z]; [apply (plain_not _ _ H1 Z); simpl; tauto|apply (B l H2 _ Z); reflexivity].
    + cbn [Z.eqb Pos.eqb]. apply IH; [exact P2|]. cbn [bars length app] in L. rewrite app_length in L. lia.
Qed.

Lemma match_lit : forall s R arg fuel, plain s -> (0 < fuel)%nat ->
  match_rule fuel (s ++ R) arg = if starts s arg then match_rule fuel R (skipn (length s) arg) else Some false.
Proof.
  intros s R arg fuel P F. destruct fuel as [|n]; [lia|]. destruct (starts s arg) eqn:S.
  - apply starts_iff in S as (a & ->). rewrite skipn_app_len. cbn [match_rule]. rewrite skip_app. reflexivity.
  - cbn [match_rule]. destruct (skip_stop s R arg S) as (c & r & a & I & ->).
    pose proof (plain_not _ _ P I) as NI. simpl in NI.
    destruct (Z.eqb_spec c 91) as [->|]; [tauto|]. destruct (Z.eqb_spec c 123) as [->|]; [tauto|]. reflexivity.
Qed.
Lemma match_stop : forall c R arg n, hd 0 arg <> c -> c <> 0 -> match_rule (S n) (c :: R) arg =
  if c =? 91 then match until [93] R with
        | Some (a, _ :: rest) => if starts a arg then match_rule n rest (skipn (List.length a) arg) else match_rule n rest arg
        | _ => None
        end
      else if c =? 123 then
        match alternatives (S (List.length R)) R arg with
        | None => None
        | Some None => Some false
        | Some (Some (rule, arg)) => match_rule n rule arg
        end
      else Some false.
Proof.
  intros c R arg n H Z. cbn [match_rule]. replace (skip_common (c :: R) arg) with (c :: R, arg); [reflexivity|].
  destruct arg as [|d arg]; [reflexivity|]. simpl in *. destruct (Z.eqb_spec c d); [congruence|reflexivity].
Qed.

Lemma find_prefix : forall l (arg : list Z), (forall y z a, In y l -> In z l -> z = y ++ a -> z = y) -> forall y a, In y l -> arg = y ++ a ->
  find (fun y => starts y arg) l = Some y.
Proof.
  induction l as [|x l IH]; intros arg U y a I E; [contradiction|]. cbn [find]. destruct (starts x arg) eqn:S.
  - apply starts_iff in S as (b & S). f_equal.
    assert (X : (exists c, x = y ++ c) \/ (exists c, y = x ++ c)).
    { rewrite E in S. clear - S. revert x S. induction y as [|d y IH]; intros x S; [left; exists x; reflexivity|].
      destruct x as [|e x]; [right; exists (d :: y); reflexivity|]. simpl in S. injection S as -> S. destruct (IH x S) as [(c & ->)|(c & ->)]; [left|right]; exists c; reflexivity. }
    destruct X as [(c & X)|(c & X)].
    + apply (U y x c); [exact I|left; reflexivity|exact X].
    + symmetry. apply (U x y c); [left; reflexivity|exact I|exact X].
  - destruct I as [->|I]; [exfalso; apply (starts_no _ _ S a); exact E|]. eapply IH; [|exact I|exact E].
    intros. eapply U; try (right; eassumption); eassumption.
Qed.

Lemma match_ok : forall ps arg fuel, Forall plain_piece ps -> unambiguous ps -> no_bracket ps arg -> (length (spell ps) < fuel)%nat ->
  exists b, match_rule fuel (spell ps) arg = Some b /\ (b = true <-> means ps arg).
Proof.
  induction ps as [|p ps IH]; intros arg fuel P U B F; (destruct fuel as [|n]; [lia|]).
  - destruct arg as [|c arg]; [exists true; split; [reflexivity|split; [constructor|reflexivity]]|].
    exists false. split; [reflexivity|]. split; [discriminate|]. intro M. inversion M.
  - inversion P as [|? ? P1 P2]; subst. destruct p as [s|s|x l]; cbn [plain_piece unambiguous no_bracket spell] in *.
    + rewrite match_lit by (try exact P1; lia). destruct (starts s arg) eqn:S.
      * apply starts_iff in S as (a & ->). rewrite skipn_app_len. rewrite app_length in F.
        destruct (IH a (Datatypes.S n) P2 U (B a eq_refl) ltac:(lia)) as (b & -> & E). exists b. split; [reflexivity|]. rewrite E. split; intro M.
        -- constructor. exact M.
        -- inversion M as [|? ? ? M' E1 E2| | |]; subst. apply app_inv_head in E2. subst. exact M'.
      * exists false. split; [reflexivity|]. split; [discriminate|]. intro M. inversion M; subst. exfalso. apply (starts_no _ _ S a). reflexivity.
    + destruct B as (B1 & B2 & B3). destruct U as [U1 U2]. cbn [app]. rewrite match_stop by (try exact B1; lia). cbn [Z.eqb Pos.eqb].
      cbn [app length] in F. rewrite app_length in F. cbn [length] in F.
      rewrite until_app; [|intros z Z [<-|[]]; apply (plain_not _ _ P1 Z); simpl; tauto|left; reflexivity].
      destruct (starts s arg) eqn:S.
      * apply starts_iff in S as (a & ->). rewrite skipn_app_len.
        destruct (IH a n P2 U2 (B2 a eq_refl) ltac:(lia)) as (b & -> & E). exists b. split; [reflexivity|]. rewrite E. split; intro M.
        -- apply means_with. exact M.
        -- inversion M as [| |? ? ? M' E1 E2|? ? ? M' E1 E2|]; subst; [apply app_inv_head in E2; subst; exact M'|]. exfalso. eapply U1. exact M'.
      * destruct (IH arg n P2 U2 B3 ltac:(lia)) as (b & -> & E). exists b. split; [reflexivity|]. rewrite E. split; intro M.
        -- apply means_without. exact M.
        -- inversion M; subst; [|assumption]. exfalso. apply (starts_no _ _ S a). reflexivity.
    + destruct B as (B1 & B2). destruct U as [U1 U2]. cbn [app]. rewrite match_stop by (try exact B1; lia). cbn [Z.eqb Pos.eqb].
      cbn [app length] in F. rewrite !app_length in F. cbn [length] in F.
      rewrite alternatives_ok by (try exact P1; rewrite !app_length; cbn [length]; lia).
      destruct (find (fun y => starts y arg) (x :: l)) as [y|] eqn:FD.
      * apply find_some in FD as [I S]. apply starts_iff in S as (a & ->). rewrite skipn_app_len.
        destruct (IH a n P2 U2 (B2 y a I eq_refl) ltac:(lia)) as (b & -> & E). exists b. split; [reflexivity|]. rewrite E. split; intro M.
        -- apply means_alt; assumption.
        -- inversion M as [| | | |? ? z ? a' Iz M' EQ1 EQ2]; subst.
           assert (z = y) by (pose proof (find_prefix (x :: l) (y ++ a) U1 z a' Iz ltac:(congruence)) as Q1; pose proof (find_prefix (x :: l) (y ++ a) U1 y a I eq_refl) as Q2; congruence).
           subst z. apply app_inv_head in EQ2. subst. exact M'.
      * exists false. split; [reflexivity|]. split; [discriminate|]. intro M. inversion M as [| | | |? ? z ? a' Iz M' EQ1 EQ2]; subst.
        exfalso. assert (X : starts z (z ++ a') = false) by exact (find_none _ _ FD z Iz).
        apply (starts_no _ _ X a'). reflexivity.
Qed.

Lemma match_arg_ok : forall o arg next, well_formed o -> arg_ok o arg ->
  match match_arg (spelled o) arg next with
  | Value v n => takes o arg next v n /\ (forall w m, takes o arg next w m -> w = v /\ m = n)
  | Missing => lacks o arg next
  | NoMatch => ~ lacks o arg next /\ forall v n, ~ takes o arg next v n
  | Broken => False
  end.
Proof.
  intros o arg next W A.
  assert (LA : forall (s : list Z) c, last (s ++ [c]) 0 = c) by (intros; apply last_last).
  assert (RM : forall (s : list Z) c, removelast (s ++ [c]) = s) by (intros; apply removelast_last).
  assert (LEN : forall (s a : list Z), (Nat.eqb (length (s ++ a)) (length s) = true <-> a = [])).
  { intros s a. rewrite Nat.eqb_eq, app_length. destruct a; simpl; [split; [reflexivity|intros _; lia]|split; [lia|discriminate]]. }
  assert (NIL : forall (s a : list Z), s ++ a = s -> a = []) by (intros s a X; rewrite <- (app_nil_r s) in X at 2; apply app_inv_head in X; exact X).
  destruct o as [ps|s|s|s]; cbn [spelled well_formed arg_ok takes lacks] in *; unfold match_arg.
  - destruct W as (P & U & L). destruct (Z.eqb_spec (last (spell ps) 0) 58) as [E|]; [exfalso; apply L; rewrite E; simpl; tauto|].
    destruct (Z.eqb_spec (last (spell ps) 0) 60) as [E|]; [exfalso; apply L; rewrite E; simpl; tauto|].
    destruct (Z.eqb_spec (last (spell ps) 0) 61) as [E|]; [exfalso; apply L; rewrite E; simpl; tauto|]. cbn [orb].
    destruct (match_ok ps arg (S (length (spell ps))) P U A ltac:(lia)) as (b & -> & E). destruct b.
    + split; [split; [apply E; reflexivity|split; reflexivity]|]. intros w m (_ & -> & ->). split; reflexivity.
    + split; [tauto|]. intros v k (M & _). apply E in M. discriminate.
  - rewrite LA, RM. cbn [Z.eqb Pos.eqb]. destruct (starts s arg) eqn:S.
    + apply starts_iff in S as (a & ->). destruct (Nat.eqb (length (s ++ a)) (length s)) eqn:E.
      * apply LEN in E. subst a. rewrite app_nil_r. destruct next as [v|]; [|split; reflexivity]. split; [right; auto|].
        intros w m [(X & N & _)|(_ & X & ->)]; [symmetry in X; apply NIL in X; contradiction|]. injection X as ->. auto.
      * assert (NE : a <> []) by (intro X; rewrite (proj2 (LEN _ _) X) in E; discriminate E). rewrite skipn_app_len. split; [left; auto|].
        intros w m [(X & N & ->)|(X & _)]; [apply app_inv_head in X; auto|apply NIL in X; contradiction].
    + split; [intros [-> _]; apply (starts_no _ _ S []); rewrite app_nil_r; reflexivity|].
      intros v n [(-> & _)|(-> & _)]; [apply (starts_no _ _ S v); reflexivity|apply (starts_no _ _ S []); rewrite app_nil_r; reflexivity].
  - rewrite LA, RM. cbn [Z.eqb Pos.eqb orb]. destruct (starts s arg) eqn:S.
    + apply starts_iff in S as (a & ->). destruct (Nat.eqb (length (s ++ a)) (length s)) eqn:E.
      * apply LEN in E. subst a. apply app_nil_r.
      * assert (NE : a <> []) by (intro X; rewrite (proj2 (LEN _ _) X) in E; discriminate E). rewrite skipn_app_len. split; [auto|].
        intros w m (X & N & ->). apply app_inv_head in X. auto.
    + split; [intros ->; apply (starts_no _ _ S []); rewrite app_nil_r; reflexivity|].
      intros v n (-> & _). apply (starts_no _ _ S v). reflexivity.
  - rewrite LA. cbn [Z.eqb Pos.eqb orb]. destruct (starts (s ++ [61]) arg) eqn:S.
    + apply starts_iff in S as (a & ->). destruct (Nat.eqb (length ((s ++ [61]) ++ a)) (length (s ++ [61]))) eqn:E.
      * apply LEN in E. subst a. apply app_nil_r.
      * assert (NE : a <> []) by (intro X; rewrite (proj2 (LEN _ _) X) in E; discriminate E). rewrite skipn_app_len. split; [rewrite <- app_assoc; auto|].
        intros w m (X & N & ->). rewrite app_assoc in X. apply app_inv_head in X. auto.
    + split; [intros ->; apply (starts_no _ _ S []); rewrite app_nil_r; reflexivity|].
      intros v n (-> & _). apply (starts_no _ _ S v). rewrite <- app_assoc. reflexivity.
Qed.

Lemma first_ok : forall opts arg next, Forall well_formed opts -> Forall (fun o => arg_ok o arg) opts ->
  match first_match (map spelled opts) arg next with
  | Found r v n => exists before o after, opts = before ++ o :: after /\ r = spelled o /\ takes o arg next v n /\
      (forall w m, takes o arg next w m -> w = v /\ m = n) /\
      (forall b, In b before -> ~ lacks b arg next /\ forall w m, ~ takes b arg next w m)
  | NoValue => exists before o after, opts = before ++ o :: after /\ lacks o arg next /\
      (forall b, In b before -> ~ lacks b arg next /\ forall w m, ~ takes b arg next w m)
  | Nothing => forall b, In b opts -> ~ lacks b arg next /\ forall w m, ~ takes b arg next w m
  | Bad => False
  end.
Proof.
  induction opts as [|o opts IH]; intros arg next W A; simpl; [intros b []|]. inversion W as [|? ? W1 W2]; subst. inversion A as [|? ? A1 A2]; subst.
  pose proof (match_arg_ok o arg next W1 A1) as M. destruct (match_arg (spelled o) arg next) as [| |v n|].
  - specialize (IH arg next W2 A2). destruct (first_match (map spelled opts) arg next) as [|r v n| |].
    + intros b [<-|I]; [exact M|apply IH; exact I].
    + destruct IH as (be & o' & af & -> & R & T & D & B). exists (o :: be), o', af. split; [reflexivity|]. split; [exact R|]. split; [exact T|]. split; [exact D|].
      intros b [<-|I]; [exact M|apply B; exact I].
    + destruct IH as (be & o' & af & -> & T & B). exists (o :: be), o', af. split; [reflexivity|]. split; [exact T|].
      intros b [<-|I]; [exact M|apply B; exact I].
    + exact IH.
  - exists [], o, opts. split; [reflexivity|]. split; [exact M|]. intros b [].
  - destruct M as [M D]. exists [], o, opts. split; [reflexivity|]. split; [reflexivity|]. split; [exact M|]. split; [exact D|]. intros b [].
  - exact M.
Qed.

Lemma takes_count : forall o arg next v n, takes o arg next v n -> n = 1%nat \/ n = 2%nat.
Proof. intros [ps|s|s|s] arg next v n T; cbn in T; intuition. Qed.
(* The position of the option that takes an argument is determined. *)
Lemma first_unique : forall arg next l1 l2 o1 o2 r1 r2 v1 n1,
  l1 ++ o1 :: r1 = l2 ++ o2 :: r2 ->
  (forall b, In b l1 -> ~ lacks b arg next /\ forall w m, ~ takes b arg next w m) ->
  (forall b, In b l2 -> ~ lacks b arg next /\ forall w m, ~ takes b arg next w m) ->
  takes o1 arg next v1 n1 -> (exists v n, takes o2 arg next v n) \/ lacks o2 arg next -> o1 = o2.
Proof.
  intros arg next l1. induction l1 as [|x l1 IH]; intros l2 o1 o2 r1 r2 v1 n1 E N1 N2 T1 T2; destruct l2 as [|y l2]; simpl in E; injection E as E1 E2.
  - exact E1.
  - subst. exfalso. apply (proj2 (N2 y (or_introl eq_refl)) v1 n1). exact T1.
  - subst. exfalso. destruct (N1 o2 (or_introl eq_refl)) as [A B]. destruct T2 as [(v & n & T2)|T2]; [apply (B v n); exact T2|contradiction].
  - subst. eapply IH; [exact E2| | |exact T1|exact T2]; intros; [apply N1|apply N2]; right; assumption.
Qed.

Section Parse.
Variable opts : list option_rule.
Variable callback : list call -> call -> Z.
Definition succeed (past calls : list call) : Prop := forall pre c post, calls = pre ++ c :: post -> callback (past ++ pre) c = 0.
Lemma succeed_cons : forall past c calls, callback past c = 0 -> succeed (past ++ [c]) calls -> succeed past (c :: calls).
Proof.
  intros past c calls Z S pre c' post E. destruct pre as [|x pre]; simpl in E; injection E as E1 E2.
  - subst. rewrite app_nil_r. exact Z.
  - subst x. replace (past ++ c :: pre) with ((past ++ [c]) ++ pre) by (rewrite <- app_assoc; reflexivity). eapply S. exact E2.
Qed.
Lemma succeed_inv : forall past c calls, succeed past (c :: calls) -> callback past c = 0 /\ succeed (past ++ [c]) calls.
Proof.
  intros past c calls S. split.
  - rewrite <- (app_nil_r past). apply (S [] c calls). reflexivity.
  - intros pre c' post ->. rewrite <- app_assoc. apply (S (c :: pre) c' post). reflexivity.
Qed.
Lemma parse_ok : forall fuel args past, Forall well_formed opts -> (forall a, In a args -> hd 0 a = 45 -> Forall (fun o => arg_ok o a) opts) ->
  (length args < fuel)%nat ->
  parse_args (map spelled opts) callback fuel args past <> Stuck /\
  forall calls, (parse_args (map spelled opts) callback fuel args past = Done calls <->
                 exists new, calls = past ++ new /\ reads opts args new /\ succeed past new).
Proof.
  induction fuel as [|m IH]; intros args past W A F; [lia|]. destruct args as [|arg rest]; cbn [parse_args].
  - split; [discriminate|]. intros calls. split.
    + intro H. injection H as <-. exists []. rewrite app_nil_r. split; [reflexivity|]. split; [constructor|]. intros pre c post E. destruct pre; discriminate.
    + intros (new & -> & R & _). inversion R; subst. rewrite app_nil_r. reflexivity.
  - destruct (Z.eqb_spec (hd 0 arg) 45) as [D|D].
    + pose proof (first_ok opts arg (hd_error rest) W (A arg (or_introl eq_refl) D)) as FM.
      assert (STEP : forall new, reads opts (arg :: rest) new -> exists before o after v n calls', opts = before ++ o :: after /\
        (forall b, In b before -> ~ lacks b arg (hd_error rest) /\ forall w m, ~ takes b arg (hd_error rest) w m) /\
        takes o arg (hd_error rest) v n /\ reads opts (skipn n (arg :: rest)) calls' /\ new = (Some (spelled o), v) :: calls').
      { intros new R. inversion R; subst; [contradiction|]. eexists before, o, after, v, n, calls. repeat split; try assumption; apply H3; assumption. }
      destruct (first_match (map spelled opts) arg (hd_error rest)) as [|r v n| |]; [| | |contradiction].
      * split; [discriminate|]. intro calls. split; [discriminate|]. intros (new & _ & R & _).
        destruct (STEP new R) as (be & o & af & v & n & cs & E & B & T & _). exfalso. apply (proj2 (FM o ltac:(rewrite E; apply in_or_app; right; left; reflexivity)) v n). exact T.
      * destruct FM as (be & o & af & E & -> & T & DET & B).
        assert (N : n = 1%nat \/ n = 2%nat) by (eapply takes_count; exact T).
        assert (SK : skipn n (arg :: rest) = skipn (n - 1) rest) by (destruct N as [->| ->]; reflexivity).
        assert (LEN : (length (skipn (n - 1) rest) < m)%nat) by (rewrite skipn_length; simpl in F; lia).
        destruct (Z.eqb_spec (callback past (Some (spelled o), v)) 0) as [Z|Z].
        -- destruct (IH (skipn (n - 1) rest) (past ++ [(Some (spelled o), v)]) W) as [NS I].
           { intros a Ia. apply A. right. rewrite <- (firstn_skipn (n - 1) rest). apply in_or_app. right. exact Ia. }
           { exact LEN. }
           split; [exact NS|]. intro calls. rewrite I. split.
           ++ intros (new & -> & R & S). exists ((Some (spelled o), v) :: new). rewrite <- app_assoc. split; [reflexivity|].
              split; [eapply reads_option; try eassumption; rewrite SK; exact R|]. apply succeed_cons; assumption.
           ++ intros (new & -> & R & S). destruct (STEP new R) as (be2 & o2 & af2 & v2 & n2 & cs & E2 & B2 & T2 & R2 & ->).
              assert (o = o2) by (eapply (first_unique arg (hd_error rest) be be2 o o2 af af2); [congruence|exact B|exact B2|exact T|left; eauto]).
              subst o2. destruct (DET _ _ T2) as [-> ->]. exists cs. rewrite <- app_assoc. split; [reflexivity|]. apply succeed_inv in S as [_ S].
              split; [rewrite <- SK; exact R2|exact S].
        -- split; [discriminate|]. intro calls. split; [discriminate|]. intros (new & -> & R & S). exfalso.
           destruct (STEP new R) as (be2 & o2 & af2 & v2 & n2 & cs & E2 & B2 & T2 & R2 & ->).
           assert (o = o2) by (eapply (first_unique arg (hd_error rest) be be2 o o2 af af2); [congruence|exact B|exact B2|exact T|left; eauto]).
           subst o2. destruct (DET _ _ T2) as [-> ->]. apply succeed_inv in S as [S _]. contradiction.
      * destruct FM as (be & o & af & E & L & B). split; [discriminate|]. intro calls. split; [discriminate|]. intros (new & _ & R & _). exfalso.
        destruct (STEP new R) as (be2 & o2 & af2 & v2 & n2 & cs & E2 & B2 & T2 & R2 & _).
        assert (o2 = o) by (eapply (first_unique arg (hd_error rest) be2 be o2 o af2 af); [congruence|exact B2|exact B|exact T2|right; exact L]).
        subst o2. destruct o as [ps|s|s|s]; cbn [lacks takes] in *; try contradiction.
        -- destruct L as [-> NX]. destruct T2 as [(X & NE & _)|(_ & X & _)]; [|congruence].
           rewrite <- (app_nil_r s) in X at 1. apply app_inv_head in X. congruence.
        -- subst. destruct T2 as (X & NE & _). rewrite <- (app_nil_r s) in X at 1. apply app_inv_head in X. congruence.
        -- subst. destruct T2 as (X & NE & _). rewrite app_assoc in X. rewrite <- (app_nil_r (s ++ [61])) in X at 1. apply app_inv_head in X. congruence.
    + destruct (Z.eqb_spec (callback past (None, arg)) 0) as [Z|Z].
      * destruct (IH rest (past ++ [(None, arg)]) W) as [NS I]; [intros a Ia; apply A; right; exact Ia|simpl in F; lia|].
        split; [exact NS|]. intro calls. rewrite I. split.
        -- intros (new & -> & R & S). exists ((None, arg) :: new). rewrite <- app_assoc. split; [reflexivity|].
           split; [constructor; assumption|apply succeed_cons; assumption].
        -- intros (new & -> & R & S). inversion R; subst; [|contradiction]. exists calls. rewrite <- app_assoc. split; [reflexivity|].
           split; [assumption|]. apply succeed_inv in S as [_ S]. exact S.
      * split; [discriminate|]. intro calls. split; [discriminate|]. intros (new & -> & R & S). exfalso. inversion R; subst; [|contradiction].
        apply succeed_inv in S as [S _]. contradiction.
Qed.
End Parse.
