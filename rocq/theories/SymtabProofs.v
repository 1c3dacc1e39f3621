(* Proofs for C19-C21. *)
From Coq Require Import List ZArith Bool Lia.
From Verif Require Import Bytes SymtabModel SymtabSpec.
Import ListNotations.
Open Scope Z_scope.

Lemma eqb_refl : forall n, list_eqb n n = true.
Proof. intro. apply list_eqb_eq. reflexivity. Qed.

Section P.
Variable Ty : Type.
Variable is_function : Ty -> bool.
Variable type_equal : Ty -> Ty -> bool.
Variable apply_type : Ty -> Ty -> option Ty.
Notation exec := (exec Ty is_function type_equal apply_type).
Notation runs := (runs Ty is_function type_equal apply_type).
Notation ns := (ns Ty).
Notation sym_add := (sym_add Ty is_function type_equal apply_type).

Definition sum := fold_right Nat.add 0%nat.
(* The lookup after leaving k scopes. *)
Definition look (st : ns) (k : nat) (n : list Z) : option nat :=
  match assoc (skipn (sum (firstn k (counts _ st))) (visible _ st)) n with
  | Some s => Some s
  | None => assoc (globals _ st) n
  end.

Record inv (st : ns) (tr : list event) : Prop := {
  i_look : forall k n, (k <= length (counts _ st))%nat -> look st k n = seen k tr n;
  i_len : length (visible _ st) = sum (counts _ st);
  i_depth : forall n s, assoc (globals _ st) n = Some s -> exists x, nth_error (symbols _ st) s = Some x /\ s_depth _ x = 0;
  i_nonneg : forall s x, nth_error (symbols _ st) s = Some x -> 0 <= s_depth _ x;
  i_fun : forall n s, assoc (functions _ st) n = Some s -> exists x, nth_error (symbols _ st) s = Some x }.

Lemma look0 : forall st n, look st 0 n = sym_lookup _ st n.
Proof. reflexivity. Qed.
Lemma skipn_add : forall {A} (l : list A) a b, skipn a (skipn b l) = skipn (b + a) l.
Proof. intros A l a b. revert l. induction b; intro l; [reflexivity|]. destruct l; [rewrite !skipn_nil; reflexivity|]. simpl. apply IHb. Qed.

Lemma inv0 : inv (ns0 Ty) [].
Proof.
  constructor; simpl; try reflexivity; intros.
  - unfold look. simpl. destruct k; simpl in *; [reflexivity|lia].
  - discriminate.
  - destruct s; discriminate.
  - discriminate.
Qed.

Lemma inv_push : forall st tr, inv st tr -> inv (push_scope _ st) (EPush :: tr).
Proof.
  intros st tr [L N D G F]. constructor; auto.
  intros k n H. destruct k as [|k]; cbn [seen pred].
  - rewrite <- L by (simpl; lia). reflexivity.
  - rewrite <- L by (simpl in H; lia). reflexivity.
Qed.
Lemma inv_pop : forall st st' tr, inv st tr -> pop_scope _ st = Some st' -> inv st' (EPop :: tr).
Proof.
  intros st st' tr [L N D G F] H. unfold pop_scope in H. destruct (counts _ st) as [|c r] eqn:C; [discriminate|].
  inversion H; subst. clear H. constructor; auto; simpl.
  - intros k n K. rewrite <- L by (simpl; lia). unfold look. simpl. rewrite C, skipn_add. reflexivity.
  - rewrite skipn_length, N. simpl. lia.
Qed.

Lemma assoc_insert : forall l n s m, assoc l n = None -> assoc (insert l n s) m = if list_eqb n m then Some s else assoc l m.
Proof. intros l n s m H. unfold insert. rewrite H. reflexivity. Qed.
Lemma assoc_insert_in : forall l n s m t, assoc (insert l n s) m = Some t -> t = s \/ assoc l m = Some t.
Proof.
  intros l n s m t H. unfold insert in H. destruct (assoc l n); [auto|]. simpl in H.
  destruct (list_eqb n m); [left; congruence|auto].
Qed.

(* Making a symbol visible, with the symbols possibly changed. *)
Lemma inv_show : forall st tr n s,
  (forall k m, (k <= length (counts _ st))%nat -> look st k m = seen k tr m) ->
  length (visible _ st) = sum (counts _ st) ->
  (counts _ st = [] -> assoc (globals _ st) n = None) ->
  let st' := sym_make_visible _ st n s in
  (forall k m, (k <= length (counts _ st'))%nat -> look st' k m = seen k (EDecl n s :: tr) m) /\
  length (visible _ st') = sum (counts _ st').
Proof.
  intros st tr n s L N G. unfold sym_make_visible. destruct (counts _ st) as [|c r] eqn:C; simpl.
  - split.
    + intros k m K. destruct k; [|lia]. simpl.
      rewrite <- L by (simpl; lia). unfold look. simpl.
      assert (V : visible _ st = []) by (destruct (visible _ st); [reflexivity|simpl in N; lia]).
      rewrite V. simpl. rewrite assoc_insert by auto. reflexivity.
    + exact N.
  - split; [|simpl in N |- *; lia].
    intros k m K. destruct k as [|k]; cbn [seen].
    + rewrite <- L by (simpl; lia). unfold look. simpl. destruct (list_eqb n m); reflexivity.
    + rewrite <- L by (simpl in *; lia). unfold look. simpl. rewrite C. reflexivity.
Qed.

(* A declaration of what is already visible. *)
Lemma seen_again : forall st tr n s, (forall k m, (k <= length (counts _ st))%nat -> look st k m = seen k tr m) ->
  sym_lookup _ st n = Some s -> forall k m, (k <= length (counts _ st))%nat -> look st k m = seen k (EDecl n s :: tr) m.
Proof.
  intros st tr n s L S k m K. destruct k as [|k]; cbn [seen]; [|apply L; exact K].
  destruct (list_eqb n m) eqn:E; [|apply L; exact K]. apply list_eqb_eq in E. subst m. rewrite look0. exact S.
Qed.

Lemma nth_update : forall l i (f : symbol Ty -> symbol Ty) j,
  nth_error (update _ l i f) j = if Nat.eqb i j then option_map f (nth_error l j) else nth_error l j.
Proof.
  induction l as [|x l IH]; intros i f j; simpl.
  - destruct (Nat.eqb i j); destruct j; destruct i; reflexivity.
  - destruct i; destruct j; simpl; try reflexivity. apply IH.
Qed.
Lemma nth_app_some : forall {A} (l : list A) r i x, nth_error l i = Some x -> nth_error (l ++ r) i = Some x.
Proof. intros. rewrite nth_error_app1; [assumption|]. apply nth_error_Some. congruence. Qed.

Definition depth_of (label : bool) (st : ns) : Z := Z.of_nat (length (counts _ st)).

Lemma to_short_small : forall z, -32768 <= z < 32768 -> to_short z = z.
Proof. intros z H. unfold to_short. rewrite Z.mod_small by lia. lia. Qed.

Lemma inv_add : forall label st tr n t k l st' s, inv st tr -> Z.of_nat (length (counts _ st)) < 32768 ->
  sym_add label st n t k l = Some (st', s) -> inv st' (EDecl n s :: tr) /\ length (counts _ st') = length (counts _ st).
Proof.
  intros label st tr n t k l st' s [L N D G F] SM H. unfold SymtabModel.sym_add in H.
  destruct (current_scope_depth _ label st) as [depth|] eqn:CD; [|discriminate].
  assert (DP : 0 <= depth < 32768 /\ (counts _ st = [] -> depth = 0)).
  { unfold current_scope_depth in CD. destruct label.
    - destruct (counts _ st) as [|? [|? ?]]; try discriminate. inversion CD. split; [lia|discriminate].
    - inversion CD. split; [lia|]. intros ->. reflexivity. }
  destruct DP as [DP DP0]. cbv zeta in H.
  (* a new symbol *)
  assert (ALLOC : forall x stat fs, s_depth _ x = depth ->
     (counts _ st = [] -> assoc (globals _ st) n = None) ->
     (forall m i, assoc (fs (sym_make_visible _ (mk_ns _ (symbols _ st ++ [x]) (globals _ st) (counts _ st) (visible _ st) (functions _ st) stat) n (length (symbols _ st)))) m = Some i ->
         i = length (symbols _ st) \/ assoc (functions _ st) m = Some i) ->
     let st2 := sym_make_visible _ (mk_ns _ (symbols _ st ++ [x]) (globals _ st) (counts _ st) (visible _ st) (functions _ st) stat) n (length (symbols _ st)) in
     inv (mk_ns _ (symbols _ st2) (globals _ st2) (counts _ st2) (visible _ st2) (fs st2) (statics _ st2)) (EDecl n (length (symbols _ st)) :: tr)
     /\ length (counts _ st2) = length (counts _ st)).
  { intros x stat fs XD GN FS. cbv zeta.
    set (st1 := mk_ns _ (symbols _ st ++ [x]) (globals _ st) (counts _ st) (visible _ st) (functions _ st) stat) in *.
    destruct (inv_show st1 tr n (length (symbols _ st)) L N GN) as [L2 N2].
    assert (SY : symbols _ (sym_make_visible _ st1 n (length (symbols _ st))) = symbols _ st ++ [x]).
    { unfold sym_make_visible. destruct (counts _ st1); reflexivity. }
    assert (LAST : nth_error (symbols _ st ++ [x]) (length (symbols _ st)) = Some x).
    { rewrite nth_error_app2 by lia. rewrite Nat.sub_diag. reflexivity. }
    split.
    - constructor; cbn [SymtabModel.symbols SymtabModel.globals SymtabModel.counts SymtabModel.visible SymtabModel.functions].
      + exact L2.
      + exact N2.
      + intros m i A. rewrite SY. unfold sym_make_visible in A. destruct (counts _ st1) eqn:C1; cbn in A.
        * apply assoc_insert_in in A as [->|A].
          -- exists x. split; [exact LAST|]. rewrite XD. apply DP0. exact C1.
          -- destruct (D _ _ A) as (y & Y & Z0). exists y. split; [apply nth_app_some; exact Y|exact Z0].
        * destruct (D _ _ A) as (y & Y & Z0). exists y. split; [apply nth_app_some; exact Y|exact Z0].
      + intros i y Y. rewrite SY in Y. destruct (Nat.lt_ge_cases i (length (symbols _ st))) as [Lt|Ge].
        * rewrite nth_error_app1 in Y by exact Lt. eauto.
        * rewrite nth_error_app2 in Y by exact Ge. destruct (i - length (symbols _ st))%nat as [|j]; simpl in Y.
          -- inversion Y; subst. lia.
          -- destruct j; discriminate.
      + intros m i A. rewrite SY. apply FS in A as [->|A]; [eauto|].
        destruct (F _ _ A) as (y & Y). exists y. apply nth_app_some. exact Y.
    - unfold sym_make_visible. destruct (counts _ st1) eqn:C1; unfold st1 in C1; cbn in C1; rewrite C1; reflexivity. }
  set (x0 := mk_symbol Ty n t k l _ _ _) in H.
  assert (XD : s_depth _ x0 = depth) by (unfold x0; cbn; apply to_short_small; lia).
  set (stat := if linkage_eqb l LIntern && _ then _ else _) in H.
  set (fs := fun st2 : ns => if negb (symtype_eqb k STypedef) && is_function t then insert (functions _ st2) n (length (symbols _ st)) else functions _ st2).
  assert (FS : forall m i, assoc (fs (sym_make_visible _ (mk_ns _ (symbols _ st ++ [x0]) (globals _ st) (counts _ st) (visible _ st) (functions _ st) stat) n (length (symbols _ st)))) m = Some i ->
         i = length (symbols _ st) \/ assoc (functions _ st) m = Some i).
  { intros m i A. unfold fs in A.
    assert (FE : functions _ (sym_make_visible _ (mk_ns _ (symbols _ st ++ [x0]) (globals _ st) (counts _ st) (visible _ st) (functions _ st) stat) n (length (symbols _ st))) = functions _ st).
    { unfold sym_make_visible. cbn. destruct (counts _ st); reflexivity. }
    rewrite FE in A. destruct (negb _ && is_function t); [apply assoc_insert_in in A; exact A|auto]. }
  assert (HA : forall A : counts _ st = [] -> assoc (globals _ st) n = None,
     (let st2 := sym_make_visible _ (mk_ns _ (symbols _ st ++ [x0]) (globals _ st) (counts _ st) (visible _ st) (functions _ st) stat) n (length (symbols _ st)) in
      Some (mk_ns _ (symbols _ st2) (globals _ st2) (counts _ st2) (visible _ st2) (fs st2) (statics _ st2), length (symbols _ st))) = Some (st', s) ->
     inv st' (EDecl n s :: tr) /\ length (counts _ st') = length (counts _ st)).
  { intros A E. pose proof (ALLOC x0 stat fs XD A FS) as Q. cbv zeta in Q, E. injection E as E1 E2. rewrite <- E1, <- E2. exact Q. }
  destruct (sym_lookup _ st n) as [s0|] eqn:LK.
  - destruct (nth_error (symbols _ st) s0) as [x|] eqn:NX; [|discriminate].
    destruct (((depth =? 0) || linkage_eqb l LExtern) && (s_depth _ x =? 0)) eqn:RC.
    + destruct (redeclare _ _ _ depth x t k l) as [x'|] eqn:RD; [|discriminate]. injection H as H1 H2. rewrite <- H1. subst s0. clear H1. split; [|reflexivity].
      assert (XX : s_depth _ x' = s_depth _ x).
      { unfold redeclare in RD. destruct (match l with LNone => _ | _ => _ end) as [lk|]; [|discriminate].
        destruct k; try discriminate RD;
        repeat match type of RD with
               | context [match ?e with _ => _ end] => destruct e; try discriminate RD
               end; inversion RD; reflexivity. }
      constructor; cbn.
      * intros kk m K. apply (seen_again st tr n s L LK kk m K).
      * exact N.
      * intros m i A. destruct (D _ _ A) as (y & Y & Z0). rewrite nth_update. destruct (Nat.eqb_spec s i) as [->|NE].
        -- rewrite Y. exists x'. split; [reflexivity|]. rewrite XX. congruence.
        -- eauto.
      * intros i y Y. rewrite nth_update in Y. destruct (Nat.eqb_spec s i) as [->|NE]; [|eauto].
        rewrite NX in Y. injection Y as Y. rewrite <- Y, XX. eauto.
      * intros m i A. destruct (F _ _ A) as (y & Y). rewrite nth_update. destruct (Nat.eqb s i); [rewrite Y; simpl; eauto|eauto].
    + apply HA; [|exact H]. intro C0. rewrite (DP0 C0) in RC.
      unfold sym_lookup in LK. assert (V : visible _ st = []) by (rewrite C0 in N; destruct (visible _ st); [reflexivity|discriminate]).
      rewrite V in LK. simpl in LK. destruct (D _ _ LK) as (y & Y & Z0). rewrite NX in Y. injection Y as Y. subst y.
      rewrite Z0 in RC. discriminate RC.
  - assert (GN : counts _ st = [] -> assoc (globals _ st) n = None).
    { intros _. unfold sym_lookup in LK. destruct (assoc (visible _ st) n); [discriminate|exact LK]. }
    destruct (negb (symtype_eqb k STypedef) && is_function t) eqn:FN.
    + destruct (assoc (functions _ st) n) as [s1|] eqn:AF.
      * destruct (nth_error (symbols _ st) s1) as [x|] eqn:NX; [|discriminate].
        destruct (apply_type (s_type _ x) t) as [ty'|]; [|discriminate]. injection H as H1 H2. rewrite <- H1. subst s1. clear H1.
        set (f := fun x : symbol Ty => mk_symbol _ (s_name _ x) ty' (s_kind _ x) (s_link _ x) (s_n _ x) (if depth <? s_depth _ x then to_short depth else s_depth _ x) (s_ref _ x)) in *.
        set (st1 := set_symbols _ st (update _ (symbols _ st) s f)).
        destruct (inv_show st1 tr n s L N GN) as [L2 N2].
        assert (SY : symbols _ (sym_make_visible _ st1 n s) = update _ (symbols _ st) s f).
        { unfold sym_make_visible. destruct (counts _ st1); reflexivity. }
        assert (FD : forall y, 0 <= s_depth _ y -> 0 <= s_depth _ (f y)).
        { intros y Y. unfold f. cbn. destruct (depth <? s_depth _ y); [rewrite to_short_small; lia|exact Y]. }
        assert (FZ : forall y, depth = 0 \/ s_depth _ y = 0 -> 0 <= s_depth _ y -> s_depth _ (f y) = 0).
        { intros y [Y|Y] P; unfold f; cbn; destruct (Z.ltb_spec depth (s_depth _ y)); try lia. rewrite to_short_small by lia. lia. }
        split.
        { constructor.
          - exact L2.
          - exact N2.
          - intros m i A. rewrite SY, nth_update. unfold sym_make_visible in A.
            destruct (counts _ st1) as [|c r] eqn:C1; cbn in A.
            + apply assoc_insert_in in A as [->|A].
              * rewrite Nat.eqb_refl, NX. cbn [option_map]. exists (f x). split; [reflexivity|]. apply FZ; [left; apply DP0; exact C1|eauto].
              * destruct (D _ _ A) as (y & Y & Z0). destruct (Nat.eqb s i); [|eauto]. rewrite Y. cbn [option_map]. exists (f y). split; [reflexivity|].
                apply FZ; [auto|eauto].
            + destruct (D _ _ A) as (y & Y & Z0). destruct (Nat.eqb s i); [|eauto]. rewrite Y. cbn [option_map]. exists (f y). split; [reflexivity|].
              apply FZ; [auto|eauto].
          - intros i y Y. rewrite SY, nth_update in Y. destruct (Nat.eqb s i); [|eauto].
            destruct (nth_error (symbols _ st) i) eqn:NI; [|discriminate]. injection Y as Y. rewrite <- Y. apply FD. eauto.
          - intros m i A. rewrite SY, nth_update.
            assert (A' : assoc (functions _ st) m = Some i) by (unfold sym_make_visible in A; destruct (counts _ st1); exact A).
            destruct (F _ _ A') as (y & Y). destruct (Nat.eqb s i); [rewrite Y; cbn [option_map]; eauto|eauto]. }
        unfold sym_make_visible. destruct (counts _ st1) eqn:C1; unfold st1 in C1; cbn in C1; rewrite C1; reflexivity.
      * apply HA; [exact GN|]. exact H.
    + apply HA; [exact GN|]. exact H.
Qed.

Lemma max_depth_ge : forall (ops : list (sop Ty)) d, d <= max_depth d ops.
Proof. induction ops as [|[| | |] ops IH]; intro d; simpl; [lia|specialize (IH (d + 1))|specialize (IH (d - 1))|apply IH|apply IH]; lia. Qed.

Lemma runs_inv : forall label ops st tr st' tr', inv st tr -> max_depth (Z.of_nat (length (counts _ st))) ops < 32768 ->
  runs label st tr ops = Some (st', tr') -> inv st' tr'.
Proof.
  induction ops as [|o ops IH]; intros st tr st' tr' I M H; simpl in H.
  - inversion H; subst. exact I.
  - destruct (exec label st o) as [[st1 e]|] eqn:E; [|discriminate].
    pose proof (max_depth_ge (o :: ops) (Z.of_nat (length (counts _ st)))) as GE.
    destruct o as [| |n t k l|n s]; simpl in E, M.
    + inversion E; subst. apply (IH _ _ _ _ (inv_push _ _ I)) in H; [exact H|].
      simpl. rewrite Zpos_P_of_succ_nat. unfold Z.succ. lia.
    + destruct (pop_scope _ st) as [st2|] eqn:P; [|discriminate]. inversion E; subst.
      apply (IH _ _ _ _ (inv_pop _ _ _ I P)) in H; [exact H|].
      unfold pop_scope in P. destruct (counts _ st) as [|c r]; [discriminate|]. inversion P; subst.
      replace (Z.of_nat (length (c :: r)) - 1) with (Z.of_nat (length r)) in M by (cbn [length]; lia). cbn [SymtabModel.counts]. lia.
    + destruct (sym_add label st n t k l) as [[st2 s]|] eqn:A; [|discriminate]. inversion E; subst.
      apply (inv_add _ _ _ _ _ _ _ _ _ I) in A as [I2 LN]; [|cbn [max_depth] in GE; lia].
      apply (IH _ _ _ _ I2) in H; [exact H|]. rewrite LN. exact M.
    + destruct (counts _ st) as [|c r] eqn:C; [discriminate|]. inversion E; subst. destruct I as [L N D G F].
      destruct (inv_show st tr n s L N) as [L2 N2]; [rewrite C; discriminate|].
      apply (IH _ (EDecl n s :: tr)) in H; [exact H| |].
      * constructor; [exact L2|exact N2| | |]; unfold sym_make_visible; rewrite C; cbn; eauto.
      * unfold sym_make_visible. rewrite C. cbn [SymtabModel.counts]. simpl in *. exact M.
Qed.

Lemma lookup_seen : forall label ops st tr, max_depth 0 ops < 32768 -> runs label (ns0 Ty) [] ops = Some (st, tr) ->
  forall n, sym_lookup _ st n = seen 0 tr n.
Proof.
  intros label ops st tr M H n. apply runs_inv in H; [|apply inv0|exact M].
  rewrite <- look0. apply (i_look _ _ H). lia.
Qed.

Lemma runs_app : forall label a b st tr, runs label st tr (a ++ b) =
  match runs label st tr a with Some (st1, tr1) => runs label st1 tr1 b | None => None end.
Proof.
  induction a as [|o a IH]; intros b st tr; simpl; [reflexivity|].
  destruct (exec label st o) as [[st1 e]|]; [apply IH|reflexivity].
Qed.

Lemma block_seen : forall b, @block Ty b -> forall label st tr st' tr', runs label st tr b = Some (st', tr') ->
  forall k n, seen (S k) tr' n = seen (S k) tr n.
Proof.
  induction 1 as [|m t kk l r B IH|m s r B IH|b r B1 IH1 B2 IH2]; intros label st tr st' tr' H k n; simpl in H.
  - inversion H; subst. reflexivity.
  - destruct (sym_add label st m t kk l) as [[st1 s]|]; [|discriminate]. rewrite (IH _ _ _ _ _ H). reflexivity.
  - destruct (counts _ st); [discriminate|]. rewrite (IH _ _ _ _ _ H). reflexivity.
  - rewrite runs_app in H. destruct (runs label (push_scope _ st) (EPush :: tr) b) as [[st1 tr1]|] eqn:R1; [|discriminate].
    simpl in H. destruct (pop_scope _ st1) as [st2|]; [|discriminate].
    rewrite (IH2 _ _ _ _ _ H). cbn [seen]. rewrite (IH1 _ _ _ _ _ R1). reflexivity.
Qed.
End P.

(* ---- Names ---- *)
Lemma digits_digit : forall f z, 0 <= z -> Forall (fun c => 48 <= c <= 57) (digits f z).
Proof.
  induction f; intros z H; cbn [digits]; [constructor|]. destruct (Z.ltb_spec z 10).
  - constructor; [lia|constructor].
  - apply Forall_app. split; [apply IHf; apply Z.div_pos; lia|]. constructor; [|constructor].
    pose proof (Z.mod_pos_bound z 10 ltac:(lia)). lia.
Qed.
Fixpoint undigits (acc : Z) (l : list Z) : Z := match l with [] => acc | c :: r => undigits (10 * acc + (c - 48)) r end.
Lemma undigits_app : forall a b acc, undigits acc (a ++ b) = undigits (undigits acc a) b.
Proof. induction a; simpl; intros; auto. Qed.
Lemma digits_undo : forall f z, 0 <= z < 10 ^ Z.of_nat f -> undigits 0 (digits f z) = z.
Proof.
  induction f as [|f IH]; intros z H; [simpl in *; lia|].
  rewrite Nat2Z.inj_succ, Z.pow_succ_r in H by lia.
  cbn [digits]. destruct (Z.ltb_spec z 10); [cbn [undigits]; lia|].
  rewrite undigits_app, IH.
  - cbn [undigits]. pose proof (Z.div_mod z 10 ltac:(lia)). lia.
  - split; [apply Z.div_pos; lia|]. apply Z.div_lt_upper_bound; lia.
Qed.
Lemma digits_nonempty : forall f z, digits (S f) z <> [].
Proof. intros f z. simpl. destruct (z <? 10); [discriminate|]. destruct (digits f (z / 10)); discriminate. Qed.

Lemma strip_digits : forall a x d b y e, ~ (48 <= x <= 57) -> ~ (48 <= y <= 57) ->
  Forall (fun c => 48 <= c <= 57) d -> Forall (fun c => 48 <= c <= 57) e ->
  a ++ x :: d = b ++ y :: e -> a = b /\ x = y /\ d = e.
Proof.
  induction a as [|c a IH]; intros x d b y e X Y D E H.
  - destruct b as [|c b]; simpl in H.
    + inversion H. auto.
    + inversion H; subst. exfalso. rewrite Forall_forall in D. apply Y. apply D. apply in_or_app. right. left. reflexivity.
  - destruct b as [|c' b]; simpl in H.
    + inversion H; subst. exfalso. rewrite Forall_forall in E. apply X. apply E. apply in_or_app. right. left. reflexivity.
    + inversion H; subst. destruct (IH x d b y e X Y D E) as (-> & -> & ->); auto.
Qed.

(* The part before the number, without its last character. *)
Definition base_name (c : creation) : list Z :=
  match c with CTemporary => [46] | CUnnamed => [46] | CLabel => [46] | CConstant => [46] | CString => [46; 76] | CStatic n => n end.
Definition last_char (c : creation) : Z :=
  match c with CTemporary => 116 | CUnnamed => 117 | CLabel => 76 | CConstant => 67 | CString => 67 | CStatic _ => 46 end.
Definition wf_creation (c : creation) : Prop := match c with CStatic n => identifier n | _ => True end.

Lemma name_form : forall c n, wf_creation c -> 0 < n < 32768 ->
  sym_name (raw_name c) n = Some (base_name c ++ last_char c :: digits 6 n).
Proof.
  intros c n W H. unfold sym_name. rewrite (proj2 (Z.eqb_neq n 0)) by lia.
  assert (DN : decimal n = digits 6 n) by (unfold decimal; rewrite (proj2 (Z.ltb_ge n 0)) by lia; reflexivity).
  destruct c as [| | | | |s]; cbn [raw_name base_name last_char];
    try (rewrite DN; reflexivity).
  destruct W as (NE & ND & LE). rewrite (proj2 (Z.ltb_ge 100 _)) by lia. rewrite DN.
  destruct s as [|z s]; [contradiction|].
  assert (Z46 : z <> 46) by (intro; subst; apply ND; left; reflexivity).
  destruct z as [|p|p]; try reflexivity.
  do 6 (destruct p as [p|p|]; try reflexivity). congruence.
Qed.

Lemma last_nondigit : forall c, ~ (48 <= last_char c <= 57).
Proof. destruct c; simpl; lia. Qed.
Lemma parts_kind : forall c d, wf_creation c -> wf_creation d -> base_name c = base_name d -> last_char c = last_char d -> kind_no c = kind_no d.
Proof.
  intros c d C D B L. destruct c; destruct d; simpl in *; try reflexivity; try discriminate.
Qed.

Fixpoint created (counter : Z -> Z) (cs : list creation) : list (creation * Z) :=
  match cs with
  | [] => []
  | c :: r => let k := counter (kind_no c) + 1 in (c, k) :: created (fun j => if j =? kind_no c then k else counter j) r
  end.
Lemma create_created : forall cs counter, create counter cs = map (fun p => (raw_name (fst p), to_short (snd p))) (created counter cs).
Proof. induction cs as [|c cs IH]; intro counter; simpl; [reflexivity|]. rewrite IH. reflexivity. Qed.
Lemma created_range : forall cs counter c k, In (c, k) (created counter cs) ->
  counter (kind_no c) < k <= counter (kind_no c) + Z.of_nat (how_many (kind_no c) cs).
Proof.
  induction cs as [|d cs IH]; intros counter c k H; simpl in H; [contradiction|].
  destruct H as [H|H].
  - inversion H; subst. cbn [how_many]. rewrite Z.eqb_refl. lia.
  - apply IH in H. cbv beta zeta in H. cbn [how_many]. destruct (Z.eqb_spec (kind_no c) (kind_no d)) as [E|E].
    + rewrite <- E in *. rewrite Z.eqb_refl. lia.
    + destruct (Z.eqb_spec (kind_no d) (kind_no c)); [congruence|]. lia.
Qed.
Lemma created_unique : forall cs counter, NoDup (map (fun p => (kind_no (fst p), snd p)) (created counter cs)).
Proof.
  induction cs as [|c cs IH]; intro counter; simpl; constructor.
  - intro I. apply in_map_iff in I as ((d & k) & E & I). simpl in E. inversion E; subst.
    apply created_range in I. simpl in I. rewrite H0, Z.eqb_refl in I. lia.
  - apply IH.
Qed.
Lemma created_in : forall cs counter c k, In (c, k) (created counter cs) -> In c cs.
Proof.
  induction cs as [|d cs IH]; intros counter c k H; simpl in H; [contradiction|].
  destruct H as [H|H]; [inversion H; left; reflexivity|]. right. eapply IH. exact H.
Qed.

Definition the_name (p : creation * Z) : list Z := base_name (fst p) ++ last_char (fst p) :: digits 6 (snd p).
Lemma name_injective : forall c k d j, wf_creation c -> wf_creation d -> 0 < k < 32768 -> 0 < j < 32768 ->
  the_name (c, k) = the_name (d, j) -> kind_no c = kind_no d /\ k = j.
Proof.
  intros c k d j C D K J E. unfold the_name in E. simpl fst in E; simpl snd in E.
  apply strip_digits in E as (B & L & DG);
    [|apply last_nondigit|apply last_nondigit|apply digits_digit; lia|apply digits_digit; lia].
  split; [apply parts_kind; assumption|].
  assert (U : undigits 0 (digits 6 k) = undigits 0 (digits 6 j)) by congruence.
  rewrite !digits_undo in U by (change (10 ^ Z.of_nat 6) with 1000000; lia). exact U.
Qed.

Lemma NoDup_map_key : forall {A B C} (f : A -> B) (g : A -> C) l, (forall x y, In x l -> In y l -> f x = f y -> g x = g y) ->
  NoDup (map g l) -> NoDup (map f l).
Proof.
  intros A B C f g. induction l as [|x l IH]; intros H N; simpl; constructor.
  - intro I. apply in_map_iff in I as (y & E & I). simpl in N. inversion N as [|? ? NI N']; subst. apply NI.
    apply in_map_iff. exists y. split; [|exact I]. apply H; [right; exact I|left; reflexivity|exact E].
  - apply IH; [|inversion N; assumption]. intros; apply H; auto; right; assumption.
Qed.

Lemma names_distinct : forall cs, Forall wf_creation cs -> (forall k, Z.of_nat (how_many k cs) < 32768) ->
  exists names, map (fun p => sym_name (fst p) (snd p)) (create (fun _ => 0) cs) = map Some names /\
    NoDup names /\ forall n, identifier n -> ~ In n names.
Proof.
  intros cs W M. exists (map the_name (created (fun _ => 0) cs)).
  assert (R : forall c k, In (c, k) (created (fun _ => 0) cs) -> wf_creation c /\ 0 < k < 32768).
  { intros c k I. split.
    - apply created_in in I. rewrite Forall_forall in W. auto.
    - apply created_range in I. specialize (M (kind_no c)). lia. }
  split; [|split].
  - rewrite create_created, !map_map. apply map_ext_in. intros [c k] I. simpl. destruct (R _ _ I) as [WC K].
    rewrite to_short_small by lia. apply name_form; assumption.
  - apply NoDup_map_key with (g := fun p => (kind_no (fst p), snd p)); [|apply created_unique].
    intros [c k] [d j] I J E. destruct (R _ _ I), (R _ _ J). apply name_injective in E as [E1 E2]; auto. simpl. rewrite E1, E2. reflexivity.
  - intros n (NE & ND & _) I. apply in_map_iff in I as ([c k] & E & I). apply ND. rewrite <- E. unfold the_name. simpl.
    apply in_or_app. destruct c; simpl; auto.
Qed.

(* ---- Emission ---- *)
Lemma fill_concat : forall inp, let '(q, r) := fill inp in q ++ concat r = concat inp /\ (q = [] -> r = []) .
Proof.
  induction inp as [|[|d ds] inp IH]; simpl; auto.
  split; [reflexivity|discriminate].
Qed.
Definition pending (st : pstate) : list definition := queue st ++ concat (input st).
Definition normal (l : list definition) := filter (fun d => negb (def_inlined d)) l.
Definition inlined (l : list definition) := filter def_inlined l.

Lemma pop_inline_some : forall r l d l', pop_inline r l = Some (d, l') ->
  filter (fun d => r (def_id d)) l = d :: filter (fun d => r (def_id d)) l'.
Proof.
  induction l as [|x l IH]; simpl; intros d l' H; [discriminate|].
  destruct (r (def_id x)) eqn:R.
  - inversion H; subst. reflexivity.
  - destruct (pop_inline r l) as [[y l2]|]; [|discriminate]. inversion H; subst. simpl. rewrite R. apply IH. reflexivity.
Qed.
Lemma pop_inline_none : forall r l, pop_inline r l = None -> filter (fun d => r (def_id d)) l = [].
Proof.
  induction l as [|x l IH]; simpl; intro H; [reflexivity|].
  destruct (r (def_id x)); [discriminate|]. destruct (pop_inline r l) as [[? ?]|]; [discriminate|]. auto.
Qed.

Definition remaining (r : nat -> bool) (st : pstate) : list definition :=
  normal (pending st) ++ filter (fun d => r (def_id d)) (inlines st ++ inlined (pending st)).

Lemma parse_step : forall r fuel st, (length (pending st) < fuel)%nat ->
  exists st', (parse fuel r st = Some (None, st') /\ remaining r st = []) \/
  exists d, parse fuel r st = Some (Some d, st') /\ remaining r st = d :: remaining r st' /\ (length (pending st') <= length (pending st))%nat.
Proof.
  intros r. induction fuel as [|n IH]; intros st L; [lia|].
  cbn [parse].
  assert (Q : exists q inp, (match queue st with [] => fill (input st) | q => (q, input st) end) = (q, inp)
     /\ q ++ concat inp = pending st /\ (q = [] -> inp = [])).
  { unfold pending. destruct (queue st) as [|d q] eqn:E.
    - pose proof (fill_concat (input st)) as F. destruct (fill (input st)) as [q inp]. exists q, inp. tauto.
    - exists (d :: q), (input st). repeat split; discriminate. }
  destruct Q as (q & inp & -> & P & E). destruct q as [|d q].
  - specialize (E eq_refl). subst inp. simpl in P.
    unfold remaining. rewrite <- P. simpl. rewrite app_nil_r.
    destruct (pop_inline r (inlines st)) as [[d l']|] eqn:PI.
    + eexists. right. exists d. split; [reflexivity|]. split; [|simpl; lia].
      rewrite (pop_inline_some _ _ _ _ PI). unfold remaining, pending. simpl. rewrite app_nil_r. reflexivity.
    + eexists. left. split; [reflexivity|]. apply pop_inline_none. exact PI.
  - destruct (def_inlined d) eqn:DI.
    + destruct (IH (mk_pstate inp q (inlines st ++ [d]))) as (st' & H).
      { unfold pending in *. simpl in *. rewrite <- P in L. simpl in L. lia. }
      assert (RE : remaining r (mk_pstate inp q (inlines st ++ [d])) = remaining r st).
      { unfold remaining. rewrite <- P. unfold pending. simpl. rewrite DI. simpl. rewrite <- app_assoc. reflexivity. }
      exists st'. destruct H as [[H1 H2]|(x & H1 & H2 & H3)].
      * left. split; [exact H1|congruence].
      * right. exists x. split; [exact H1|]. split; [congruence|]. rewrite <- P. unfold pending in *. simpl in *. lia.
    + eexists. right. exists d. split; [reflexivity|]. split.
      * unfold remaining. rewrite <- P. unfold pending. simpl. rewrite DI. reflexivity.
      * rewrite <- P. unfold pending. simpl. lia.
Qed.

Lemma parse_all_ok : forall r k fuel st, length (remaining r st) = k -> (length (pending st) + k < fuel)%nat ->
  parse_all fuel r st = Some (remaining r st).
Proof.
  intros r. induction k as [|k IH]; intros fuel st K L; (destruct fuel as [|n]; [lia|]); cbn [parse_all].
  - destruct (parse_step r (S n) st) as (st' & [[-> ->]|(d & -> & R & _)]); [lia|reflexivity|]. rewrite R in K. discriminate.
  - destruct (parse_step r (S n) st) as (st' & [[_ R]|(d & -> & R & LE)]); [lia|rewrite R in K; discriminate|].
    rewrite R in K. simpl in K. rewrite (IH n st'); [rewrite R; reflexivity|lia|lia].
Qed.

Section Y.
Variable Ty : Type.
Lemma yield_ok : forall l fuel c, (length l <= fuel + c)%nat ->
  yield_from Ty fuel c l = filter (fun i => match nth_error l i with Some x => yields Ty x | None => false end) (seq c (length l - c)).
Proof.
  intro l. induction fuel as [|f IH]; intros c L; cbn [yield_from].
  - replace (length l - c)%nat with 0%nat by lia. reflexivity.
  - destruct (nth_error l c) as [x|] eqn:N.
    + assert (c < length l)%nat by (apply nth_error_Some; congruence).
      replace (length l - c)%nat with (S (length l - S c)) by lia. cbn [seq filter]. rewrite N.
      rewrite IH by lia. reflexivity.
    + apply nth_error_None in N. replace (length l - c)%nat with 0%nat by lia. reflexivity.
Qed.
End Y.

(* ---- Numbers of local statics ---- *)
Section S.
Variable Ty : Type.
Variable is_function : Ty -> bool.
Variable type_equal : Ty -> Ty -> bool.
Variable apply_type : Ty -> Ty -> option Ty.
Notation sym_add := (sym_add Ty is_function type_equal apply_type).
Notation runs := (runs Ty is_function type_equal apply_type).

Definition sinv (st : ns Ty) : Prop :=
  (forall i x, nth_error (symbols _ st) i = Some x -> 0 <= s_n _ x <= statics _ st) /\
  (forall i j x y, nth_error (symbols _ st) i = Some x -> nth_error (symbols _ st) j = Some y ->
     s_n _ x = s_n _ y -> s_n _ x <> 0 -> i = j).

Lemma make_visible_fields : forall st n s, symbols _ (sym_make_visible Ty st n s) = symbols _ st /\ statics _ (sym_make_visible Ty st n s) = statics _ st.
Proof. intros. unfold sym_make_visible. destruct (counts _ st); auto. Qed.
Lemma sinv_update : forall st s f st', sinv st -> (forall x, nth_error (symbols _ st) s = Some x -> s_n _ (f x) = s_n _ x) ->
  symbols _ st' = update _ (symbols _ st) s f -> statics _ st' = statics _ st -> sinv st'.
Proof.
  intros st s f st' [A B] F E1 E2.
  assert (N : forall i y, nth_error (symbols _ st') i = Some y -> exists x, nth_error (symbols _ st) i = Some x /\ s_n _ y = s_n _ x).
  { intros i y Y. rewrite E1, nth_update in Y. destruct (Nat.eqb_spec s i) as [->|]; [|eauto].
    destruct (nth_error (symbols _ st) i) as [x|] eqn:X; [|discriminate]. injection Y as Y. exists x. split; [reflexivity|]. rewrite <- Y. apply F. reflexivity. }
  split.
  - intros i y Y. apply N in Y as (x & X & ->). rewrite E2. eauto.
  - intros i j y z Y Z. apply N in Y as (x & X & ->). apply N in Z as (w & W & ->). eauto.
Qed.

Lemma sinv_add : forall label st n t k l st' s, 0 <= statics _ st -> sym_add label st n t k l = Some (st', s) ->
  statics _ st <= statics _ st' /\ (sinv st -> statics _ st' < 32768 -> sinv st').
Proof.
  intros label st n t k l st' s P H. unfold SymtabModel.sym_add in H.
  destruct (current_scope_depth _ label st) as [depth|]; [|discriminate]. cbv zeta in H.
  match type of H with context [Some (?a, length (symbols _ st))] => set (new := a) in H end.
  assert (NEW : statics _ st <= statics _ new /\ (sinv st -> statics _ new < 32768 -> sinv new)).
  { unfold new. cbn [symbols statics]. 
    match goal with |- context [sym_make_visible _ ?a n ?b] => destruct (make_visible_fields a n b) as [E1 E2] end.
    unfold sinv at 2. cbn [symbols statics]. rewrite E1, E2. cbn [symbols statics]. clear E1 E2 new H.
    set (ls := linkage_eqb l LIntern && _).
    split; [destruct ls; lia|]. intros [A B] M. split.
    - intros i x X. destruct (Nat.lt_ge_cases i (length (symbols _ st))) as [Lt|Ge].
      + rewrite nth_error_app1 in X by exact Lt. apply A in X. destruct ls; lia.
      + rewrite nth_error_app2 in X by exact Ge. destruct (i - length (symbols _ st))%nat as [|[|]]; try discriminate.
        injection X as X. rewrite <- X. cbn. destruct ls; [rewrite to_short_small; lia|lia].
    - assert (Q : forall i x j y, nth_error (symbols _ st ++ [mk_symbol Ty n t k l (if ls then to_short (statics Ty st + 1) else 0) (to_short depth) false]) i = Some x ->
         nth_error (symbols _ st ++ [mk_symbol Ty n t k l (if ls then to_short (statics Ty st + 1) else 0) (to_short depth) false]) j = Some y ->
         s_n _ x = s_n _ y -> s_n _ x <> 0 -> (i <= j)%nat).
      { intros i x j y X Y E Z0. destruct (Nat.lt_ge_cases j (length (symbols _ st))) as [Lt|Ge].
        - rewrite nth_error_app1 in Y by exact Lt. destruct (Nat.lt_ge_cases i (length (symbols _ st))) as [Lt2|Ge2].
          + rewrite nth_error_app1 in X by exact Lt2. rewrite (B i j x y); auto.
          + rewrite nth_error_app2 in X by exact Ge2. destruct (i - length (symbols _ st))%nat as [|[|]]; try discriminate.
            injection X as X. apply A in Y. rewrite <- X in E, Z0. cbn in E, Z0. destruct ls; [|lia]. rewrite to_short_small in E by lia. lia.
        - assert (i < length (symbols _ st ++ [mk_symbol Ty n t k l (if ls then to_short (statics Ty st + 1) else 0%Z) (to_short depth) false]))%nat by (apply nth_error_Some; congruence).
          rewrite app_length in H. simpl in H. lia. }
      intros i j x y X Y E Z0. apply Nat.le_antisymm; [eapply Q|eapply (Q j y i x)]; eauto; congruence. }
  assert (UPD : forall s1 f v, (forall x, nth_error (symbols _ st) s1 = Some x -> s_n _ (f x) = s_n _ x) ->
     symbols _ v = update _ (symbols _ st) s1 f -> statics _ v = statics _ st -> statics _ st <= statics _ v /\ (sinv st -> statics _ v < 32768 -> sinv v)).
  { intros s1 f v F E1 E2. split; [lia|]. intros I _. exact (sinv_update st s1 f v I F E1 E2). }
  assert (DONE : forall u, Some (new, u) = Some (st', s) -> statics _ st <= statics _ st' /\ (sinv st -> statics _ st' < 32768 -> sinv st')).
  { intros u E. injection E as E _. rewrite <- E. exact NEW. }
  destruct (sym_lookup _ st n) as [s0|].
  - destruct (nth_error (symbols _ st) s0) as [x|] eqn:NX; [|discriminate].
    destruct (((depth =? 0) || linkage_eqb l LExtern) && (s_depth _ x =? 0)); [|eapply DONE; exact H].
    destruct (redeclare _ _ _ depth x t k l) as [x'|] eqn:RD; [|discriminate]. injection H as H _. rewrite <- H.
    apply (UPD s0 (fun _ => x')); [|reflexivity|reflexivity]. intros y Y. assert (y = x) by congruence. subst y.
    unfold redeclare in RD. destruct (match l with LNone => _ | _ => _ end) as [lk|]; [|discriminate].
    destruct k; try discriminate RD;
      repeat match type of RD with
             | context [match ?e with _ => _ end] => destruct e; try discriminate RD
             end; inversion RD; reflexivity.
  - destruct (negb (symtype_eqb k STypedef) && is_function t); [|eapply DONE; exact H].
    destruct (assoc (functions _ st) n) as [s1|]; [|eapply DONE; exact H].
    destruct (nth_error (symbols _ st) s1) as [x|]; [|discriminate]. destruct (apply_type (s_type _ x) t) as [ty'|]; [|discriminate].
    injection H as H _. rewrite <- H.
    match goal with |- context [sym_make_visible _ ?a n ?b] => destruct (make_visible_fields a n b) as [E1 E2] end.
    eapply UPD; [|rewrite E1; reflexivity|rewrite E2; reflexivity]. reflexivity.
Qed.

Lemma sinv_runs : forall label ops st tr st' tr', 0 <= statics _ st -> runs label st tr ops = Some (st', tr') ->
  statics _ st <= statics _ st' /\ (sinv st -> statics _ st' < 32768 -> sinv st').
Proof.
  induction ops as [|o ops IH]; intros st tr st' tr' P H; simpl in H.
  - inversion H; subst. split; [lia|auto].
  - destruct o as [| |n t k l|n s]; simpl in H.
    + apply (IH (push_scope _ st)) in H; auto.
    + destruct (pop_scope _ st) as [st1|] eqn:PP; [|discriminate]. unfold pop_scope in PP. destruct (counts _ st); [discriminate|].
      inversion PP; subst. apply (IH _ (EPop :: tr)) in H; auto.
    + destruct (sym_add label st n t k l) as [[st1 s]|] eqn:A; [|discriminate].
      destruct (sinv_add _ _ _ _ _ _ _ _ P A) as [LE S1]. apply (IH st1) in H as [LE2 S2]; [|lia].
      split; [lia|]. intros I M. apply S2; [|exact M]. apply S1; [exact I|lia].
    + destruct (counts _ st) eqn:C; [discriminate|]. destruct (make_visible_fields st n s) as [E1 E2].
      apply (IH (sym_make_visible _ st n s)) in H as [LE2 S2]; [|rewrite E2; exact P]. rewrite E2 in LE2. split; [exact LE2|].
      intros [A B] M. apply S2; [|exact M]. unfold sinv. rewrite E1, E2. auto.
Qed.
Lemma statics_distinct : forall label ops st tr i j x y, runs label (ns0 Ty) [] ops = Some (st, tr) -> statics _ st < 32768 ->
  nth_error (symbols _ st) i = Some x -> nth_error (symbols _ st) j = Some y -> s_n _ x = s_n _ y -> s_n _ x <> 0 -> i = j.
Proof.
  intros label ops st tr i j x y H M. apply sinv_runs in H as [_ H]; [|simpl; lia].
  destruct H as [_ B]; [split; intros ? ?; [|intros ? ?]; intro X; destruct i0; discriminate X|exact M|]. apply B.
Qed.
End S.
