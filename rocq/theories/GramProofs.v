From Coq Require Import List ZArith Bool Lia Arith.
From Verif Require Import GramModel GramSpec.
Import ListNotations.

Scheme tree_ind2 := Induction for tree Sort Prop with trees_ind2 := Induction for trees Sort Prop.
Combined Scheme tree_mutind from tree_ind2, trees_ind2.

Section Proofs.
Variable class : nat -> cls.
Variable sig : tree -> option (nat * bool).
Notation step := (step class sig).
Notation parse := (parse class sig).

(* --- more fuel does not change the result --- *)
Definition le_res (a b : res) : Prop := a <> PFuel -> b = a.
Lemma bind_mono x y f g : le_res x y -> (forall e q, le_res (f e q) (g e q)) -> le_res (bind x f) (bind y g).
Proof. intros A B H. destruct x; cbn [bind] in *; try congruence; rewrite A by discriminate; cbn [bind]; [apply B; exact H|reflexivity]. Qed.
Lemma le_refl x : le_res x x. Proof. intros _. reflexivity. Qed.
Lemma type_name_mono ts f g : (forall e q, le_res (f e q) (g e q)) -> le_res (type_name class ts f) (type_name class ts g).
Proof.
  intros A. unfold type_name. destruct ts as [|t q]; [apply le_refl|]. destruct (starts_type class t); [|apply le_refl].
  destruct (count_stars q) as [n r]. destruct r as [|u r]; [apply le_refl|]. destruct u; try apply le_refl. destruct p; try apply le_refl. apply A.
Qed.
Lemma step_mono r r' : (forall g ts, le_res (r g ts) (r' g ts)) -> forall g ts, le_res (step r g ts) (step r' g ts).
Proof.
  intros M g ts. destruct g; cbn [GramModel.step].
  all: repeat first
    [ apply le_refl | apply M | apply bind_mono; [apply M|intros] | apply type_name_mono; intros
    | match goal with |- le_res (match ?x with _ => _ end) _ => destruct x end ].
Qed.
Lemma parse_mono f g ts : forall f', f <= f' -> le_res (parse f g ts) (parse f' g ts).
Proof.
  revert g ts. induction f; intros g ts f' L; [intros H; exfalso; apply H; reflexivity|]. destruct f'; [lia|]. cbn [GramModel.parse].
  apply step_mono. intros g' ts'. apply IHf. lia.
Qed.
(* g reads e from ts and leaves q *)
Definition runs (g : goal) (ts : list tok) (x : tree * list tok) : Prop := exists f, parse f g ts = POk (fst x) (snd x).
Lemma runs_fuel g ts x f : runs g ts x -> parse f g ts <> PFuel -> parse f g ts = POk (fst x) (snd x).
Proof.
  intros [f' H] N. destruct (Nat.le_ge_cases f f') as [L|L].
  - rewrite <- H. symmetry. exact (parse_mono f g ts f' L N).
  - rewrite <- H. apply (parse_mono f' g ts f L). congruence.
Qed.

(* --- rules --- *)
Lemma fuel_max {g ts x} : runs g ts x -> exists f, forall f', f <= f' -> parse f' g ts = POk (fst x) (snd x).
Proof. intros [f H]. exists f. intros f' L. rewrite <- H. apply (parse_mono f g ts f' L). congruence. Qed.
Ltac fuel1 H := let f := fresh "f" in destruct (fuel_max H) as [f ?]; exists (S f); cbn [GramModel.parse GramModel.step].
Ltac fuel2 H K := let f := fresh "f" in let f' := fresh "f" in destruct (fuel_max H) as [f ?]; destruct (fuel_max K) as [f' ?]; exists (S (f + f')); cbn [GramModel.parse GramModel.step].
Ltac fuel3 H K L := let f := fresh "f" in let f' := fresh "f" in let f'' := fresh "f" in destruct (fuel_max H) as [f ?]; destruct (fuel_max K) as [f' ?]; destruct (fuel_max L) as [f'' ?]; exists (S (f + f' + f'')); cbn [GramModel.parse GramModel.step].
Ltac use := repeat match goal with H : forall f', _ <= f' -> parse f' ?g ?ts = _ |- context [parse ?n ?g ?ts] => rewrite (H n) by lia; cbn [fst snd bind] end.

Lemma r_id x q : class x <> Unknown -> runs GPrimary (Id x :: q) (Leaf (Id x), q).
Proof. intros H. exists 1. cbn. destruct (class x); try congruence; reflexivity. Qed.
Lemma r_num z q : runs GPrimary (Num z :: q) (Leaf (Num z), q). Proof. exists 1. reflexivity. Qed.
Lemma r_str z q : runs GPrimary (Str z :: q) (Leaf (Str z), q). Proof. exists 1. reflexivity. Qed.
Lemma r_paren ts e q : runs GExpr ts (e, P RP :: q) -> runs GPrimary (P LP :: ts) (Paren e, q).
Proof. intros H. fuel1 H. use. reflexivity. Qed.

(* tokens that a postfix expression goes on with *)
Definition postfix_tok (t : tok) : bool := match t with P LB | P LP | P DOT | P ARROW | P INCR | P DECR => true | _ => false end.
Lemma r_post_stop e ts : hd_is postfix_tok ts = false -> runs (GPostfix e) ts (e, ts).
Proof. intros H. exists 1. cbn. destruct ts as [|t q]; [reflexivity|]. destruct t; try reflexivity. destruct p; try reflexivity; discriminate H. Qed.
Lemma r_index e ts b q x : runs GExpr ts (b, P RB :: q) -> runs (GPostfix (Index e b)) q x -> runs (GPostfix e) (P LB :: ts) x.
Proof. intros H K. fuel2 H K. use. reflexivity. Qed.
Lemma r_call e ts n va x : sig e = Some (n, va) -> runs (GArgs e TNil n va) ts x -> runs (GPostfix e) (P LP :: ts) x.
Proof. intros S H. fuel1 H. rewrite S. use. reflexivity. Qed.
Lemma r_member e y q x : runs (GPostfix (Member e y)) q x -> runs (GPostfix e) (P DOT :: Id y :: q) x.
Proof. intros H. fuel1 H. use. reflexivity. Qed.
Lemma r_via e y q x : runs (GPostfix (Via e y)) q x -> runs (GPostfix e) (P ARROW :: Id y :: q) x.
Proof. intros H. fuel1 H. use. reflexivity. Qed.
Lemma r_post o e q x : runs (GPostfix (Post o e)) q x -> runs (GPostfix e) (P (step_tok o) :: q) x.
Proof. intros H. fuel1 H. destruct o; cbn [step_tok]; use; reflexivity. Qed.
Definition is_rp (t : tok) : bool := match t with P RP => true | _ => false end.
Lemma r_arg_last f acc va ts a q x : hd_is is_rp ts = false -> runs GAssign ts (a, q) -> runs (GArgs f (snoc acc a) 0 va) q x -> runs (GArgs f acc 1 va) ts x.
Proof. intros N H K. fuel2 H K. destruct ts as [|t r]; [|destruct t as [| | | | | | |p|]; try destruct p; try discriminate N]; use; reflexivity. Qed.
Lemma r_arg f acc n va ts a q x : hd_is is_rp ts = false -> runs GAssign ts (a, P COMMA :: q) -> runs (GArgs f (snoc acc a) (S n) va) q x ->
  runs (GArgs f acc (S (S n)) va) ts x.
Proof. intros N H K. fuel2 H K. destruct ts as [|t r]; [|destruct t as [| | | | | | |p|]; try destruct p; try discriminate N]; use; reflexivity. Qed.
Lemma r_arg_more f acc ts a q x : runs GAssign ts (a, q) -> runs (GArgs f (snoc acc a) 0 true) q x -> runs (GArgs f acc 0 true) (P COMMA :: ts) x.
Proof. intros H K. fuel2 H K. use. reflexivity. Qed.
Lemma r_args_end f acc va q x : runs (GPostfix (Call f acc)) q x -> runs (GArgs f acc 0 va) (P RP :: q) x.
Proof. intros H. fuel1 H. use. reflexivity. Qed.

Lemma r_un o ts e q : runs GCast ts (e, q) -> runs GUnary (P (un_tok o) :: ts) (Un o e, q).
Proof. intros H. fuel1 H. destruct o; cbn [un_tok]; use; reflexivity. Qed.
Lemma r_pre o ts e q : runs GUnary ts (e, q) -> runs GUnary (P (step_tok o) :: ts) (Pre o e, q).
Proof. intros H. fuel1 H. destruct o; cbn [step_tok]; use; reflexivity. Qed.
Lemma r_size ts e q : paren_type class ts = None -> runs GUnary ts (e, q) -> runs GUnary (SIZEOF :: ts) (SizeE e, q).
Proof. intros N H. fuel1 H. rewrite N. use. reflexivity. Qed.
Lemma count_stars_repeat n q : hd_is (fun t => match t with P STAR => true | _ => false end) q = false -> count_stars (repeat (P STAR) n ++ q) = (n, q).
Proof.
  intros H. induction n as [|n IH]; cbn [repeat app count_stars]; [|rewrite IH; reflexivity].
  destruct q as [|t q]; [reflexivity|]. destruct t; try reflexivity. destruct p; try reflexivity; discriminate H.
Qed.
Lemma ok_starts t : tname_ok class t -> starts_type class (base t) = true.
Proof. unfold tname_ok, starts_type. destruct (base t); intros H; try contradiction; [rewrite H|]; reflexivity. Qed.
Lemma type_name_ok t q k : tname_ok class t -> type_name class (base t :: repeat (P STAR) (stars t) ++ P RP :: q) k = k t q.
Proof. intros H. unfold type_name. rewrite (ok_starts t H), count_stars_repeat by reflexivity. destruct t; reflexivity. Qed.
Lemma paren_ok t q : tname_ok class t ->
  paren_type class (tname_toks t ++ q) = Some (base t :: repeat (P STAR) (stars t) ++ P RP :: q).
Proof. intros H. unfold tname_toks, paren_type. cbn [app]. rewrite (ok_starts t H). rewrite <- app_assoc. reflexivity. Qed.
Lemma r_sizet t q : tname_ok class t -> runs GUnary (SIZEOF :: tname_toks t ++ q) (SizeT t, q).
Proof. intros H. exists 1. cbn [GramModel.parse GramModel.step]. rewrite paren_ok by exact H. rewrite type_name_ok by exact H. reflexivity. Qed.
Lemma r_alignt t q : tname_ok class t -> runs GUnary (ALIGNOF :: tname_toks t ++ q) (AlignT t, q).
Proof.
  intros H. exists 1. cbn [GramModel.parse GramModel.step]. unfold tname_toks. cbn [app]. rewrite <- app_assoc. cbn [app]. rewrite type_name_ok by exact H. reflexivity.
Qed.
Lemma r_cast t ts e q : tname_ok class t -> hd_is (fun t => match t with Init _ => true | _ => false end) ts = false -> runs GCast ts (e, q) ->
  runs GCast (tname_toks t ++ ts) (Cast t e, q).
Proof.
  intros H N K. fuel1 K. rewrite paren_ok, type_name_ok by exact H. destruct ts as [|u r]; [|destruct u; try discriminate N]; use; reflexivity.
Qed.
Lemma r_lit t i q x : tname_ok class t -> runs (GPostfix (Lit t i)) q x -> runs GCast (tname_toks t ++ Init i :: q) x.
Proof. intros H K. fuel1 K. rewrite paren_ok, type_name_ok by exact H. use. reflexivity. Qed.
Lemma r_unary ts x : paren_type class ts = None -> runs GUnary ts x -> runs GCast ts x.
Proof. intros N H. fuel1 H. rewrite N. use. reflexivity. Qed.
(* tokens with which a primary expression begins *)
Definition primary_tok (t : tok) : bool := match t with Id _ | Num _ | Str _ | P LP => true | _ => false end.
Lemma r_postfix ts e q x : hd_is primary_tok ts = true -> runs GPrimary ts (e, q) -> runs (GPostfix e) q x -> runs GUnary ts x.
Proof.
  intros N H K. fuel2 H K. destruct ts as [|t r]; [discriminate N|]. destruct t; try discriminate N; try (use; reflexivity).
  destruct p; try discriminate N. use. reflexivity.
Qed.

Lemma r_bin k ts e q x : runs (sub k) ts (e, q) -> runs (GLoop k e) q x -> runs (GBin k) ts x.
Proof. intros H K. fuel2 H K. use. reflexivity. Qed.
Lemma r_loop k o e ts b q x : level o = k -> k <= 10 -> runs (sub k) ts (b, q) -> runs (GLoop k (Bin o e b)) q x -> runs (GLoop k e) (P (bin_tok o) :: ts) x.
Proof.
  intros L B H K. fuel2 H K. assert (E : binop_at k (bin_tok o) = Some o) by (subst k; destruct o; cbn in B |- *; try reflexivity; lia).
  rewrite E. use. reflexivity.
Qed.
Lemma r_loop_stop k e ts : (forall p q, ts = P p :: q -> binop_at k p = None) -> runs (GLoop k e) ts (e, ts).
Proof. intros H. exists 1. cbn. destruct ts as [|t q]; [reflexivity|]. destruct t; try reflexivity. rewrite (H _ _ eq_refl). reflexivity. Qed.
Lemma r_and ts a q b q' : runs (GBin 10) ts (a, P AND2 :: q) -> runs GAnd q (b, q') -> runs GAnd ts (Bin LAnd a b, q').
Proof. intros H K. fuel2 H K. use. reflexivity. Qed.
Lemma r_and_stop ts a q : hd_is (fun t => match t with P AND2 => true | _ => false end) q = false -> runs (GBin 10) ts (a, q) -> runs GAnd ts (a, q).
Proof. intros N H. fuel1 H. use. destruct q as [|t r]; [reflexivity|]. destruct t; try reflexivity. destruct p; try reflexivity; discriminate N. Qed.
Lemma r_or ts a q b q' : runs GAnd ts (a, P OR2 :: q) -> runs GOr q (b, q') -> runs GOr ts (Bin LOr a b, q').
Proof. intros H K. fuel2 H K. use. reflexivity. Qed.
Lemma r_or_stop ts a q : hd_is (fun t => match t with P OR2 => true | _ => false end) q = false -> runs GAnd ts (a, q) -> runs GOr ts (a, q).
Proof. intros N H. fuel1 H. use. destruct q as [|t r]; [reflexivity|]. destruct t; try reflexivity. destruct p; try reflexivity; discriminate N. Qed.
Lemma r_cond ts a q b q' c q'' : runs GOr ts (a, P QUEST :: q) -> runs GExpr q (b, P COLON :: q') -> runs GCond q' (c, q'') -> runs GCond ts (Cond a b c, q'').
Proof. intros H K L. fuel3 H K L. use. reflexivity. Qed.
Lemma r_cond_stop ts a q : hd_is (fun t => match t with P QUEST => true | _ => false end) q = false -> runs GOr ts (a, q) -> runs GCond ts (a, q).
Proof. intros N H. fuel1 H. use. destruct q as [|t r]; [reflexivity|]. destruct t; try reflexivity. destruct p; try reflexivity; discriminate N. Qed.
Lemma r_assign o p ts a q b q' : assign_tok o = Some p -> runs GCond ts (a, P p :: q) -> runs GAssign q (b, q') -> runs GAssign ts (Assign o a b, q').
Proof.
  intros T H K. fuel2 H K. use. assert (E : assign_at p = Some o) by (destruct o as [o|]; [destruct o|]; cbn in T; try discriminate T; injection T as <-; reflexivity).
  rewrite E. use. reflexivity.
Qed.
Definition assign_p (t : tok) : bool := match t with P p => match assign_at p with Some _ => true | None => false end | _ => false end.
Lemma r_assign_stop ts a q : hd_is assign_p q = false -> runs GCond ts (a, q) -> runs GAssign ts (a, q).
Proof. intros N H. fuel1 H. use. destruct q as [|t r]; [reflexivity|]. destruct t; try reflexivity. cbn in N. destruct (assign_at p); [discriminate N|reflexivity]. Qed.
Lemma r_expr ts a q x : runs GAssign ts (a, q) -> runs (GSeq a) q x -> runs GExpr ts x.
Proof. intros H K. fuel2 H K. use. reflexivity. Qed.
Lemma r_seq a ts b q x : runs GAssign ts (b, q) -> runs (GSeq (Seq a b)) q x -> runs (GSeq a) (P COMMA :: ts) x.
Proof. intros H K. fuel2 H K. use. reflexivity. Qed.
Lemma r_seq_stop a q : hd_is (fun t => match t with P COMMA => true | _ => false end) q = false -> runs (GSeq a) q (a, q).
Proof. intros N. exists 1. cbn. destruct q as [|t r]; [reflexivity|]. destruct t; try reflexivity. destruct p; try reflexivity; discriminate N. Qed.

(* --- what may follow --- *)
(* the least level at which the token continues an expression *)
Definition tok_level (t : tok) : option nat :=
  match t with
  | Init _ => Some 0
  | P p =>
    match p with
    | LP | LB | DOT | ARROW | INCR | DECR => Some 0
    | STAR | SLASH | PERCENT => Some 3 | PLUS | MINUS => Some 4 | LSHIFT | RSHIFT => Some 5 | LT | GT | LEQ | GEQ => Some 6
    | EQ | NEQ => Some 7 | AMP => Some 8 | CARET => Some 9 | BAR => Some 10 | AND2 => Some 11 | OR2 => Some 12 | QUEST => Some 13
    | ASG | MUL_ASG | DIV_ASG | MOD_ASG | ADD_ASG | SUB_ASG | SHL_ASG | SHR_ASG | AND_ASG | XOR_ASG | OR_ASG => Some 14
    | COMMA => Some 15
    | _ => None
    end
  | _ => None
  end.
Definition cont (k : nat) (t : tok) : bool := match tok_level t with Some l => l <=? k | None => false end.
Definition stop (k : nat) (ts : list tok) : Prop := hd_is (cont k) ts = false.
Lemma stop_le k j ts : stop k ts -> j <= k -> stop j ts.
Proof.
  unfold stop. destruct ts as [|t q]; [reflexivity|]. cbn. unfold cont. destruct (tok_level t) as [l|]; [|reflexivity]. intros H L.
  apply Nat.leb_gt in H. apply Nat.leb_gt. lia.
Qed.
Lemma stop_hd k f ts : stop k ts -> (forall t, f t = true -> cont k t = true) -> hd_is f ts = false.
Proof. intros H A. destruct ts as [|t q]; [reflexivity|]. cbn in *. destruct (f t) eqn:E; [|reflexivity]. unfold stop in H. cbn in H. rewrite (A t E) in H. discriminate H. Qed.
Ltac hd := let t := fresh "t" in let H := fresh "H" in
  intros t H; destruct t as [| | | | | | |p|]; try discriminate H; try reflexivity; destruct p; try discriminate H; unfold cont; cbn [tok_level]; apply Nat.leb_le; lia.

Definition goal_of (k : nat) : goal := if k <=? 2 then GCast else if k <=? 10 then GBin k else match k with 11 => GAnd | 12 => GOr | 13 => GCond | 14 => GAssign | _ => GExpr end.
Definition Q (k : nat) (e : tree) : Prop := forall rest, stop k rest -> runs (goal_of k) (toks e ++ rest) (norm e, rest).
Definition Full (k : nat) (e : tree) : Prop :=
  match k with
  | 0 => forall rest x, runs (GPostfix (norm e)) rest x -> runs GCast (toks e ++ rest) x /\ (lit_first e = false -> runs GUnary (toks e ++ rest) x)
  | 1 => Q 1 e /\ (lit_first e = false -> forall rest, stop 1 rest -> runs GUnary (toks e ++ rest) (norm e, rest))
  | 2 => Q 2 e
  | 11 => (forall q z q', runs GAnd q (z, q') -> runs GAnd (toks e ++ P AND2 :: q) (graft LAnd (norm e) z, q')) /\ Q 11 e
  | 12 => (forall q z q', runs GOr q (z, q') -> runs GOr (toks e ++ P OR2 :: q) (graft LOr (norm e) z, q')) /\ Q 12 e
  | 13 | 14 => Q k e
  | 15 => forall rest x, stop 14 rest -> runs (GSeq (norm e)) rest x -> runs GExpr (toks e ++ rest) x
  | _ => forall rest x, stop (pred k) rest -> runs (GLoop k (norm e)) rest x -> runs (GBin k) (toks e ++ rest) x
  end.
Lemma loop_stop k e rest : 3 <= k <= 10 -> stop k rest -> runs (GLoop k e) rest (e, rest).
Proof.
  intros K H. apply r_loop_stop. intros p q E. subst rest. unfold stop, hd_is, cont in H. cbn [tok_level] in H.
  assert (C : k = 3 \/ k = 4 \/ k = 5 \/ k = 6 \/ k = 7 \/ k = 8 \/ k = 9 \/ k = 10) by lia.
  destruct C as [->|[->|[->|[->|[->|[->|[->| ->]]]]]]]; destruct p; try reflexivity; discriminate H.
Qed.
Lemma full_q k e : k <= 15 -> Full k e -> Q k e.
Proof.
  intros K F. destruct k as [|[|[|[|[|[|[|[|[|[|[|[|[|[|[|[|k]]]]]]]]]]]]]]]]; [..|lia];
    try exact F; try exact (proj1 F); try exact (proj2 F).
  1: { intros rest H. apply F. apply r_post_stop. apply (stop_hd 0); [exact H|hd]. }
  all: cbn [Full] in F; intros rest H; cbn [goal_of]; apply F; [apply (stop_le _ _ _ H); lia|];
    first [apply loop_stop; [lia|exact H] | apply r_seq_stop; apply (stop_hd 15); [exact H|hd]].
Qed.
Lemma graft_top o t z : exists x y, graft o t z = Bin o x y.
Proof. destruct t; try (eexists; eexists; reflexivity). destruct o, o0; eexists; eexists; reflexivity. Qed.
Lemma top_and e z s k : Derives class s k e -> k <= 10 -> graft LAnd (norm e) z = Bin LAnd (norm e) z.
Proof. destruct e; cbn [norm Derives]; try reflexivity. intros [L _] K. destruct o; cbn [level] in L; try lia; reflexivity. Qed.
Lemma top_or e z s k : Derives class s k e -> k <= 11 -> graft LOr (norm e) z = Bin LOr (norm e) z.
Proof.
  destruct e; cbn [norm Derives]; try reflexivity. intros [L _] K. destruct o; cbn [level] in L; try lia; try reflexivity.
  destruct (graft_top LAnd (norm e1) (norm e2)) as (x & y & ->). reflexivity.
Qed.
Lemma lift k e : Full k e -> Derives class true k e -> k < 15 -> Full (S k) e.
Proof.
  intros F D K. pose proof (full_q k e ltac:(lia) F) as A.
  destruct k as [|[|[|[|[|[|[|[|[|[|[|[|[|[|[|k]]]]]]]]]]]]]]]; [..|lia]; cbn [Full].
  - split; [|intros N]; intros rest H; apply F; auto; apply r_post_stop; apply (stop_hd 1); auto; hd.
  - intros rest H. apply A. apply (stop_le _ _ _ H). lia.
  - intros rest x H G. apply r_bin with (e := norm e) (q := rest); [|exact G]. exact (A rest H).
  - intros rest x H G. apply r_bin with (e := norm e) (q := rest); [|exact G]. exact (A rest H).
  - intros rest x H G. apply r_bin with (e := norm e) (q := rest); [|exact G]. exact (A rest H).
  - intros rest x H G. apply r_bin with (e := norm e) (q := rest); [|exact G]. exact (A rest H).
  - intros rest x H G. apply r_bin with (e := norm e) (q := rest); [|exact G]. exact (A rest H).
  - intros rest x H G. apply r_bin with (e := norm e) (q := rest); [|exact G]. exact (A rest H).
  - intros rest x H G. apply r_bin with (e := norm e) (q := rest); [|exact G]. exact (A rest H).
  - intros rest x H G. apply r_bin with (e := norm e) (q := rest); [|exact G]. exact (A rest H).
  - split.
    + intros q z q' G. rewrite (top_and _ _ _ _ D) by lia. eapply r_and; [|exact G]. apply A. reflexivity.
    + intros rest H. apply r_and_stop; [apply (stop_hd 11); [exact H|hd]|]. apply A. apply (stop_le _ _ _ H). lia.
  - split.
    + intros q z q' G. rewrite (top_or _ _ _ _ D) by lia. eapply r_or; [|exact G]. apply A. reflexivity.
    + intros rest H. apply r_or_stop; [apply (stop_hd 12); [exact H|hd]|]. apply A. apply (stop_le _ _ _ H). lia.
  - intros rest H. apply r_cond_stop; [apply (stop_hd 13); [exact H|hd]|]. apply A. apply (stop_le _ _ _ H). lia.
  - intros rest H. apply r_assign_stop; [apply (stop_hd 14); [exact H|hd]|]. apply A. apply (stop_le _ _ _ H). lia.
  - intros rest x H G. eapply r_expr; [|exact G]. apply A. exact H.
Qed.
Lemma derives_le s e : forall k j, Derives class s k e -> k <= j -> Derives class s j e.
Proof. destruct e; cbn [Derives]; intros k j H L; try exact H; repeat match goal with H : _ /\ _ |- _ => destruct H end; repeat split; auto; lia. Qed.
Lemma lifts e j : Derives class true j e -> Full j e -> forall k, j <= k -> k <= 15 -> Full k e.
Proof.
  intros D F k L K. induction L as [|k L IH]; [exact F|]. apply lift; [apply IH; lia| |lia]. exact (derives_le _ _ _ _ D L).
Qed.

(* --- first tokens --- *)
Definition opens (t : tok) : bool := starts_type class t || is_rp t || match t with Init _ => true | _ => false end.
Lemma first e : forall k, Derives class true k e -> exists t q, toks e = t :: q /\ opens t = false.
Proof.
  induction e; intros k H; cbn [Derives toks] in *; repeat match goal with H : _ /\ _ |- _ => destruct H end.
  all: try (eexists; eexists; split; [reflexivity|]; try reflexivity; try (destruct o; reflexivity)).
  1: { destruct t; try contradiction; try reflexivity. unfold opens, starts_type. rewrite H. reflexivity. }
  all: match goal with
       | IH : forall k, Derives class true k ?a -> _, H : Derives class true _ ?a |- context [toks ?a ++ _] =>
         destruct (IH _ H) as (u & q & E & O); rewrite E; eexists; eexists; split; [reflexivity|exact O]
       end.
Qed.
Lemma no_type e rest : Derives class true 1 e -> lit_first e = false -> paren_type class (toks e ++ rest) = None.
Proof.
  revert rest. induction e; intros rest H N; cbn [Derives toks lit_first] in *; try discriminate N; repeat match goal with H : _ /\ _ |- _ => destruct H end; try lia; try reflexivity.
  - destruct t; try contradiction; reflexivity.
  - destruct (first _ _ H) as (t & q & E & O). rewrite E. cbn. unfold opens in O. apply orb_false_iff in O. destruct O as [O _]. apply orb_false_iff in O. destruct O as [O _]. rewrite O. reflexivity.
  - rewrite <- app_assoc. apply IHe1; auto. exact (derives_le _ _ _ _ H ltac:(lia)).
  - rewrite <- app_assoc. apply IHe; auto. exact (derives_le _ _ _ _ H ltac:(lia)).
  - rewrite <- app_assoc. apply IHe; auto. exact (derives_le _ _ _ _ H ltac:(lia)).
  - rewrite <- app_assoc. apply IHe; auto. exact (derives_le _ _ _ _ H ltac:(lia)).
  - rewrite <- app_assoc. apply IHe; auto. exact (derives_le _ _ _ _ H ltac:(lia)).
  - destruct o; reflexivity.
  - destruct o; reflexivity.
  - destruct o; cbn [level] in *; lia.
Qed.

(* --- every expression of the grammar is read --- *)
Fixpoint tapp (a l : trees) : trees := match a with TNil => l | TCons e a => TCons e (tapp a l) end.
Lemma tapp_snoc a e l : tapp (snoc a e) l = tapp a (TCons e l).
Proof. induction a as [|x a IH]; cbn; [reflexivity|]. rewrite IH. reflexivity. Qed.
Lemma tapp_nil a : tapp a TNil = a.
Proof. induction a as [|x a IH]; cbn; [reflexivity|]. rewrite IH. reflexivity. Qed.
Lemma args_stop l rest : stop 14 (args_toks false l ++ P RP :: rest).
Proof. destruct l; reflexivity. Qed.
Lemma not_rp e rest : Derives class true 14 e -> hd_is is_rp (toks e ++ rest) = false.
Proof. intros D. destruct (first e 14 D) as (t & q & -> & O). cbn. unfold opens in O. apply orb_false_iff in O. destruct O as [O _]. apply orb_false_iff in O. apply O. Qed.
Lemma not_init e k rest : Derives class true k e -> hd_is (fun t => match t with Init _ => true | _ => false end) (toks e ++ rest) = false.
Proof. intros D. destruct (first e k D) as (t & q & -> & O). cbn. unfold opens in O. apply orb_false_iff in O. apply O. Qed.
Lemma and_and t u z : graft LAnd u z = Bin LAnd u z -> graft LAnd (graft LAnd t u) z = graft LAnd t (Bin LAnd u z).
Proof. intros H. induction t; cbn [graft]; try (rewrite H; reflexivity). destruct o; cbn [graft]; try (rewrite H; reflexivity). rewrite IHt2. reflexivity. Qed.
Lemma or_or t u z : graft LOr u z = Bin LOr u z -> graft LOr (graft LOr t u) z = graft LOr t (Bin LOr u z).
Proof. intros H. induction t; cbn [graft]; try (rewrite H; reflexivity). destruct o; cbn [graft]; try (rewrite H; reflexivity). rewrite IHt2. reflexivity. Qed.

(* each form at its own level *)
Definition own (e : tree) : nat :=
  match e with
  | Pre _ _ | SizeE _ | Un _ _ | SizeT _ | AlignT _ => 1
  | Cast _ _ => 2
  | Bin o _ _ => level o
  | Cond _ _ _ => 13 | Assign _ _ _ => 14 | Seq _ _ => 15
  | _ => 0
  end.
Lemma own_le s k e : Derives class s k e -> own e <= k.
Proof. destruct e; cbn [Derives own]; intros H; try lia; destruct H; lia. Qed.
Lemma own_derives s k e : Derives class s k e -> Derives class s (own e) e.
Proof. destruct e; cbn [Derives own]; intros H; try exact H; destruct H; split; auto. Qed.
Lemma unary_full e : (Derives class true 1 e -> forall rest, stop 1 rest -> runs GUnary (toks e ++ rest) (norm e, rest)) -> Derives class true 1 e -> lit_first e = false -> Full 1 e.
Proof. intros H D N. split; [|intros _; exact (H D)]. intros rest S. cbn [goal_of Nat.leb]. apply r_unary; [apply no_type; auto|apply H; auto]. Qed.
Lemma primary_full e : Derives class true 0 e -> lit_first e = false ->
  (forall rest, hd_is primary_tok (toks e ++ rest) = true /\ runs GPrimary (toks e ++ rest) (norm e, rest)) -> Full 0 e.
Proof.
  intros D N H rest x R. assert (G : runs GUnary (toks e ++ rest) x) by (destruct (H rest) as [A B]; exact (r_postfix _ _ _ _ A B R)).
  split; [|intros _; exact G]. apply r_unary; [|exact G]. apply no_type; auto. exact (derives_le _ _ _ _ D ltac:(lia)).
Qed.
Lemma full_max e k : Derives class true k e -> k <= 15 -> (Derives class true (own e) e -> Full (own e) e) -> Full k e.
Proof. intros D K H. pose proof (own_derives _ _ _ D) as O. exact (lifts e (own e) O (H O) k (own_le _ _ _ D) K). Qed.

Theorem complete :
  (forall e k, Derives class true k e -> plain sig e -> k <= 15 -> Full k e) /\
  (forall l, Derives_all class true l -> plains sig l -> forall f acc va rest x, runs (GPostfix (Call f (tapp acc (norms l)))) rest x ->
     ((va = true \/ l = TNil) -> runs (GArgs f acc 0 va) (args_toks false l ++ P RP :: rest) x) /\
     (forall n, 1 <= n <= count l -> (va = false -> count l = n) -> runs (GArgs f acc n va) (args_toks true l ++ P RP :: rest) x)).
Proof.
  apply tree_mutind.
  - (* Leaf *)
    intros t k D _ K. apply full_max; auto. intros O. apply primary_full; auto. intros rest. cbn [toks norm app]. cbn [Derives] in D.
    destruct t; try contradiction; (split; [reflexivity|]); [apply r_id; rewrite D; discriminate|apply r_num|apply r_str].
  - (* Paren *)
    intros a IH k D W K. apply full_max; auto. intros O. apply primary_full; auto. intros rest. cbn [toks norm]. cbn [app]. split; [reflexivity|].
    apply r_paren. rewrite <- app_assoc. cbn [Derives] in D. apply (full_q 15 a (le_n _) (IH 15 D W (le_n _))). reflexivity.
  - (* Lit *)
    intros t i k D _ K. apply full_max; auto. intros O rest x R. cbn [toks]. rewrite <- app_assoc. cbn [app norm] in *. split; [apply r_lit; auto|]. intros X. discriminate X.
  - (* Index *)
    intros a IHa b IHb k D [Wa Wb] K. apply full_max; auto. cbn [own]. intros O rest x R. cbn [Derives] in D. destruct D as [Da Db]. cbn [toks norm lit_first] in *.
    rewrite <- app_assoc. cbn [app]. rewrite <- app_assoc.
    apply (IHa 0 Da Wa ltac:(lia)). eapply r_index; [|exact R]. apply (full_q 15 b (le_n _) (IHb 15 Db Wb (le_n _))). reflexivity.
  - (* Call *)
    intros f IHf l IHl k D (Wf & Wl & n & va & S & C) K. apply full_max; auto. cbn [own]. intros O rest x R. cbn [Derives] in D. destruct D as [Df Dl].
    cbn [toks norm lit_first] in *. rewrite <- app_assoc. cbn [app]. rewrite <- app_assoc.
    apply (IHf 0 Df Wf ltac:(lia)). eapply r_call; [exact S|].
    destruct (IHl Dl Wl (norm f) TNil va rest x R) as [A0 A1]. destruct n as [|n].
    + assert (E : l = TNil) by (destruct va; [lia|]; destruct l; [reflexivity|discriminate C]). subst l. apply A0. auto.
    + apply A1; [destruct va; lia|]. intros ->. exact C.
  - intros a IH y k D W K. apply full_max; auto. cbn [own]. intros O rest x R. cbn [toks norm lit_first Derives] in *. rewrite <- app_assoc. cbn [app].
    apply (IH 0 D W ltac:(lia)). apply r_member. exact R.
  - intros a IH y k D W K. apply full_max; auto. cbn [own]. intros O rest x R. cbn [toks norm lit_first Derives] in *. rewrite <- app_assoc. cbn [app].
    apply (IH 0 D W ltac:(lia)). apply r_via. exact R.
  - intros o a IH k D W K. apply full_max; auto. cbn [own]. intros O rest x R. cbn [toks norm lit_first Derives] in *. rewrite <- app_assoc. cbn [app].
    apply (IH 0 D W ltac:(lia)). apply r_post. exact R.
  - (* Pre *)
    intros o a IH k D [N W] K. apply full_max; auto. intros O. apply unary_full; auto. intros _ rest S. cbn [toks norm app]. apply r_pre.
    cbn [Derives] in D. apply (IH 1 (proj2 D) W ltac:(lia)); auto.
  - (* Un *)
    intros o a IH k D W K. apply full_max; auto. intros O. apply unary_full; auto. intros _ rest S. cbn [toks norm app]. apply r_un.
    cbn [Derives] in D. apply (full_q 2 a ltac:(lia) (IH 2 (proj2 D) W ltac:(lia))). revert S. unfold stop. destruct rest as [|t r]; [reflexivity|].
    destruct t as [| | | | | | |p|]; try (intros X; exact X). destruct p; intros X; exact X.
  - (* SizeE *)
    intros a IH k D [N W] K. apply full_max; auto. intros O. apply unary_full; auto. intros _ rest S. cbn [toks norm app]. cbn [Derives] in D.
    apply r_size; [apply no_type; [exact (proj2 D)|exact N]|]. apply (IH 1 (proj2 D) W ltac:(lia)); auto.
  - intros t k D W K. apply full_max; auto. intros O. apply unary_full; auto. intros _ rest S. cbn [toks norm app]. apply r_sizet. exact (proj2 D).
  - intros t k D W K. apply full_max; auto. intros O. apply unary_full; auto. intros _ rest S. cbn [toks norm app]. apply r_alignt. exact (proj2 D).
  - (* Cast *)
    intros t a IH k D W K. apply full_max; auto. cbn [own]. intros O rest S. cbn [toks norm Derives] in *. destruct D as (_ & T & D). rewrite <- app_assoc.
    cbn [goal_of Nat.leb]. apply r_cast; [exact T|exact (not_init a 2 rest D)|]. apply (full_q 2 a ltac:(lia) (IH 2 D W ltac:(lia))). exact S.
  - (* Bin *)
    intros o a IHa b IHb k D [Wa Wb] K. apply full_max; auto. cbn [own]. intros _. cbn [Derives] in D. destruct D as (L & Da & Db).
    assert (KL : level o <= 15) by lia. pose proof (IHa _ Da Wa KL) as Fa. pose proof (IHb _ Db Wb ltac:(lia)) as Fb. pose proof (full_q (pred (level o)) b ltac:(lia) Fb) as Qb.
    assert (S1 : forall n r, n <= 10 -> level o = n -> stop (pred n) (P (bin_tok o) :: r)).
    { intros n r B E. subst n. unfold stop, hd_is, cont. destruct o; cbn in *; try reflexivity; lia. }
    destruct (le_lt_dec (level o) 10) as [B|B].
    + assert (E : norm (Bin o a b) = Bin o (norm a) (norm b)) by (destruct o; cbn in B; try lia; reflexivity).
      assert (B3 : 3 <= level o) by (destruct o; cbn; lia).
      assert (Fa' : forall rest x, stop (pred (level o)) rest -> runs (GLoop (level o) (norm a)) rest x -> runs (GBin (level o)) (toks a ++ rest) x)
        by (destruct o; cbn in B; try lia; exact Fa).
      assert (G : forall rest x, stop (pred (level o)) rest -> runs (GLoop (level o) (norm (Bin o a b))) rest x -> runs (GBin (level o)) (toks (Bin o a b) ++ rest) x).
      { intros rest x S R. rewrite E in R. cbn [toks]. rewrite <- app_assoc. apply Fa'; [apply S1; auto|]. eapply r_loop; [reflexivity|exact B| |exact R].
        replace (sub (level o)) with (goal_of (pred (level o))) by (destruct o; cbn in B; try lia; reflexivity). exact (Qb rest S). }
      destruct o; cbn in B; try lia; exact G.
    + destruct o; cbn in B; try lia; cbn [level pred] in *; destruct Fa as [Fa1 Fa2].
      * split.
        -- intros q z q' R. cbn [norm toks]. rewrite <- app_assoc. rewrite and_and by (apply (top_and b z true 10 Db); lia).
           apply Fa1. eapply r_and; [|exact R]. apply Qb. reflexivity.
        -- intros rest S. cbn [norm toks]. rewrite <- app_assoc. apply Fa1. apply r_and_stop; [apply (stop_hd 11); [exact S|hd]|].
           apply Qb. apply (stop_le _ _ _ S). lia.
      * split.
        -- intros q z q' R. cbn [norm toks]. rewrite <- app_assoc. rewrite or_or by (apply (top_or b z true 11 Db); lia).
           apply Fa1. eapply r_or; [|exact R]. apply Qb. reflexivity.
        -- intros rest S. cbn [norm toks]. rewrite <- app_assoc. apply Fa1. apply r_or_stop; [apply (stop_hd 12); [exact S|hd]|].
           apply Qb. apply (stop_le _ _ _ S). lia.
  - (* Cond *)
    intros a IHa b IHb c IHc k D (Wa & Wb & Wc) K. apply full_max; auto. cbn [own]. intros O rest S. cbn [Derives] in D. destruct D as (_ & Da & Db & Dc).
    cbn [toks norm goal_of Nat.leb]. rewrite <- app_assoc. cbn [app]. rewrite <- app_assoc. cbn [app]. eapply r_cond.
    + apply (full_q 12 a ltac:(lia) (IHa _ Da Wa ltac:(lia))). reflexivity.
    + apply (full_q 15 b ltac:(lia) (IHb _ Db Wb ltac:(lia))). reflexivity.
    + apply (full_q 13 c ltac:(lia) (IHc _ Dc Wc ltac:(lia))). exact S.
  - (* Assign *)
    intros o a IHa b IHb k D [Wa Wb] K. apply full_max; auto. cbn [own]. intros O rest S. cbn [Derives] in D. destruct D as (_ & T & Da & Db).
    destruct (assign_tok o) as [p|] eqn:E; [|congruence]. cbn [toks norm]. rewrite E. rewrite <- app_assoc. cbn [app]. cbn [goal_of Nat.leb].
    eapply r_assign; [exact E| |].
    + apply (full_q 13 a ltac:(lia) (IHa 13 (derives_le true a 1 13 Da ltac:(lia)) Wa ltac:(lia))).
      destruct o as [o|]; [destruct o|]; cbn in E; try discriminate E; injection E as <-; reflexivity.
    + apply (full_q 14 b ltac:(lia) (IHb _ Db Wb ltac:(lia))). exact S.
  - (* Seq *)
    intros a IHa b IHb k D [Wa Wb] K. apply full_max; auto. cbn [own]. intros O rest x S R. cbn [Derives] in D. destruct D as (_ & Da & Db).
    cbn [toks norm] in *. rewrite <- app_assoc. cbn [app]. apply (IHa 15 Da Wa ltac:(lia)); [reflexivity|]. eapply r_seq; [|exact R].
    apply (full_q 14 b ltac:(lia) (IHb _ Db Wb ltac:(lia))). exact S.
  - (* TNil *)
    intros _ _ f acc va rest x R. cbn [norms] in R. rewrite tapp_nil in R. split; [|intros n [L1 L2]; cbn in L2; lia]. intros _. cbn [args_toks app]. apply r_args_end. exact R.
  - (* TCons *)
    intros e IHe l IHl [De Dl] [We Wl] f acc va rest x R. cbn [norms] in R. rewrite <- tapp_snoc in R.
    pose proof (full_q 14 e ltac:(lia) (IHe _ De We ltac:(lia))) as Qe. destruct (IHl Dl Wl f (snoc acc (norm e)) va rest x R) as [A0 A1].
    split.
    + intros [->|E]; [|discriminate E]. cbn [args_toks app]. rewrite <- app_assoc. eapply r_arg_more; [apply Qe; apply args_stop|]. apply A0. auto.
    + intros n L C. cbn [args_toks count] in *. cbn [app]. rewrite <- app_assoc. destruct n as [|[|n]]; [lia| |].
      * eapply r_arg_last; [apply not_rp; exact De|apply Qe; apply args_stop|]. apply A0. destruct va; [auto|]. specialize (C eq_refl). right. destruct l; [reflexivity|discriminate C].
      * destruct l as [|e2 l]; [cbn in L; lia|]. cbn [args_toks app]. eapply r_arg; [apply not_rp; exact De|apply Qe; reflexivity|].
        specialize (A1 (S n) ltac:(lia) ltac:(intros V; specialize (C V); lia)). cbn [args_toks app] in A1. exact A1.
Qed.

(* --- what is read is an expression --- *)
Lemma count_stars_inv ts n q : count_stars ts = (n, q) -> ts = repeat (P STAR) n ++ q.
Proof.
  revert n q. induction ts as [|t ts IH]; intros n q H; [injection H as <- <-; reflexivity|].
  cbn [count_stars] in H. destruct t as [| | | | | | |p|]; try (injection H as <- <-; reflexivity). destruct p; try (injection H as <- <-; reflexivity).
  destruct (count_stars ts) as [m r]. injection H as <- <-. cbn [repeat app]. rewrite (IH m r eq_refl). reflexivity.
Qed.
Lemma type_name_inv ts k e q : type_name class ts k = POk e q -> exists t q', ts = base t :: repeat (P STAR) (stars t) ++ P RP :: q' /\ tname_ok class t /\ k t q' = POk e q.
Proof.
  unfold type_name. destruct ts as [|t ts]; [discriminate|]. destruct (starts_type class t) eqn:S; [|discriminate]. destruct (count_stars ts) as [n r] eqn:C.
  destruct r as [|u r]; [discriminate|]. destruct u; try discriminate. destruct p; try discriminate. intros H. exists (TN t n), r. cbn [base stars]. split; [|split].
  - rewrite (count_stars_inv _ _ _ C). reflexivity.
  - unfold tname_ok, starts_type in *. cbn [base]. destruct t; try discriminate S; [|exact I]. destruct (class x); try discriminate S; reflexivity.
  - exact H.
Qed.
Lemma paren_inv ts q : paren_type class ts = Some q -> ts = P LP :: q.
Proof.
  unfold paren_type. destruct ts as [|t ts]; [discriminate|]. destruct t; try discriminate. destruct p; try discriminate. destruct ts as [|u r]; [discriminate|].
  destruct (starts_type class u); [|discriminate]. intros H. injection H as <-. reflexivity.
Qed.
Lemma bind_inv x f e q : bind x f = POk e q -> exists e1 q1, x = POk e1 q1 /\ f e1 q1 = POk e q.
Proof. destruct x; cbn; try discriminate. intros H. eauto. Qed.
Lemma args_snoc l e first : args_toks first (snoc l e) = args_toks first l ++ (match l with TNil => if first then [] else [P COMMA] | _ => [P COMMA] end) ++ toks e.
Proof.
  revert first. induction l as [|a l IH]; intros first; cbn [snoc args_toks].
  - rewrite app_nil_r. reflexivity.
  - rewrite IH. rewrite <- !app_assoc. do 2 f_equal. destruct l; reflexivity.
Qed.
Lemma norms_snoc l e : norms (snoc l e) = snoc (norms l) (norm e).
Proof. induction l as [|a l IH]; cbn [snoc norms]; [reflexivity|]. rewrite IH. reflexivity. Qed.
Lemma derives_snoc l e : Derives_all class false l -> Derives class false 14 e -> Derives_all class false (snoc l e).
Proof. induction l as [|a l IH]; cbn [snoc Derives_all]; intros H D; [auto|]. destruct H. auto. Qed.
(* the other grouping of a chain *)
Fixpoint lgraft (o : binop) (a t : tree) : tree :=
  match t with
  | Bin p x y => match o, p with LAnd, LAnd | LOr, LOr => Bin p (lgraft o a x) y | _, _ => Bin o a t end
  | _ => Bin o a t
  end.
Lemma lgraft_toks o a t : toks (lgraft o a t) = toks a ++ P (bin_tok o) :: toks t.
Proof.
  induction t; try reflexivity. cbn [lgraft]. destruct o, o0; try reflexivity; cbn [toks]; rewrite IHt1, <- app_assoc; reflexivity.
Qed.
Lemma lgraft_and a t : Derives class false 10 a -> Derives class false 11 t -> Derives class false 11 (lgraft LAnd a t) /\ norm (lgraft LAnd a t) = Bin LAnd (norm a) (norm t).
Proof.
  intros A. assert (B : forall t, Derives class false 10 t -> Derives class false 11 (Bin LAnd a t) /\ norm (Bin LAnd a t) = Bin LAnd (norm a) (norm t)).
  { intros u U. split; [cbn [Derives level pred]; split; [lia|]; split; [exact (derives_le false a 10 11 A ltac:(lia))|exact U]|]. cbn [norm]. apply (top_and a _ false 10 A). lia. }
  induction t; intros T; cbn [lgraft]; try (apply B; cbn [Derives] in T |- *; repeat match goal with H : _ /\ _ |- _ => destruct H end; repeat split; auto; lia).
  destruct o; try (apply B; cbn [Derives level] in T |- *; repeat match goal with H : _ /\ _ |- _ => destruct H end; repeat split; auto; lia).
  - cbn [Derives level pred] in T. destruct T as (_ & T1 & T2). destruct (IHt1 T1) as [D N]. split; [cbn [Derives level pred]; auto|].
    cbn [norm]. rewrite N. reflexivity.
Qed.
Lemma lgraft_or a t : Derives class false 11 a -> Derives class false 12 t -> Derives class false 12 (lgraft LOr a t) /\ norm (lgraft LOr a t) = Bin LOr (norm a) (norm t).
Proof.
  intros A. assert (B : forall t, Derives class false 11 t -> Derives class false 12 (Bin LOr a t) /\ norm (Bin LOr a t) = Bin LOr (norm a) (norm t)).
  { intros u U. split; [cbn [Derives level pred]; split; [lia|]; split; [exact (derives_le false a 11 12 A ltac:(lia))|exact U]|]. cbn [norm]. apply (top_or a _ false 11 A). lia. }
  induction t; intros T; cbn [lgraft]; try (apply B; cbn [Derives] in T |- *; repeat match goal with H : _ /\ _ |- _ => destruct H end; repeat split; auto; lia).
  destruct o; try (apply B; cbn [Derives level] in T |- *; repeat match goal with H : _ /\ _ |- _ => destruct H end; repeat split; auto; lia).
  cbn [Derives level pred] in T. destruct T as (_ & T1 & T2). destruct (IHt1 T1) as [D N]. split; [cbn [Derives level pred]; auto|].
  cbn [norm]. rewrite N. reflexivity.
Qed.

Definition reads (k : nat) (ts : list tok) (e : tree) (q : list tok) : Prop := exists c, ts = toks c ++ q /\ norm c = e /\ Derives class false k c.
Definition Sound (g : goal) (ts : list tok) (e : tree) (q : list tok) : Prop :=
  match g with
  | GPrimary => reads 0 ts e q
  | GUnary => reads 1 ts e q
  | GCast => reads 2 ts e q
  | GBin k => 3 <= k <= 10 -> reads k ts e q
  | GAnd => reads 11 ts e q
  | GOr => reads 12 ts e q
  | GCond => reads 13 ts e q
  | GAssign => reads 14 ts e q
  | GExpr => reads 15 ts e q
  | GPostfix a => forall c, norm c = a -> Derives class false 0 c -> reads 0 (toks c ++ ts) e q
  | GLoop k a => 3 <= k <= 10 -> forall c, norm c = a -> Derives class false k c -> reads k (toks c ++ ts) e q
  | GSeq a => forall c, norm c = a -> Derives class false 15 c -> reads 15 (toks c ++ ts) e q
  | GArgs f acc n va =>
    forall c l, norm c = f -> norms l = acc -> (va = true -> n = 0 -> l <> TNil) -> Derives class false 0 c -> Derives_all class false l ->
    reads 0 (toks c ++ P LP :: args_toks true l ++ (match n, l with S _, TCons _ _ => [P COMMA] | _, _ => [] end) ++ ts) e q
  end.
Lemma reads_le k j ts e q : reads k ts e q -> k <= j -> reads j ts e q.
Proof. intros (c & A & B & D) L. exists c. split; [exact A|]. split; [exact B|]. exact (derives_le _ _ _ _ D L). Qed.
Ltac inv := repeat match goal with
  | H : bind _ _ = POk _ _ |- _ => let a := fresh "a" in let r := fresh "r" in let E := fresh "E" in apply bind_inv in H; destruct H as (a & r & E & H)
  | H : match ?x with _ => _ end = POk _ _ |- _ => destruct x eqn:?; try discriminate H; subst
  | H : POk _ _ = POk _ _ |- _ => injection H as <- <-
  end.
Theorem sound (named : forall e n, sig e = Some (n, true) -> n <> 0) f : forall g ts e q, parse f g ts = POk e q -> Sound g ts e q.
Proof.
  induction f as [|f IH]; intros g ts e q H; [discriminate H|]. cbn [GramModel.parse] in H. destruct g; cbn [GramModel.step] in H.
  - (* GPrimary *)
    inv.
    + exists (Leaf (Id x)). cbn. rewrite Heqc. repeat split; discriminate.
    + exists (Leaf (Id x)). cbn. rewrite Heqc. repeat split; discriminate.
    + exists (Leaf (Num z)). cbn. auto.
    + exists (Leaf (Str i)). cbn. auto.
    + apply IH in E. destruct E as (c & E & N & D). exists (Paren c). cbn [toks norm Derives]. rewrite E, N. cbn [app]. rewrite <- app_assoc. auto.
  - (* GPostfix *)
    intros c N D. inv.
    all: try (exists c; auto; fail).
    + specialize (IH _ _ _ _ H c TNil eq_refl eq_refl (fun V N0 => match named _ _ (eq_trans Heqo (f_equal (fun v => Some (n, v)) V)) N0 with end) D Logic.I). cbn [args_toks app] in IH. destruct n; exact IH.
    + apply IH in E. destruct E as (b & E & N & Db). specialize (IH _ _ _ _ H (Index c b)). cbn [norm toks Derives] in IH. rewrite N in IH.
      specialize (IH eq_refl (conj D Db)). rewrite E. rewrite <- app_assoc in IH. cbn [app] in IH. rewrite <- app_assoc in IH. exact IH.
    + specialize (IH _ _ _ _ H (Member c x) eq_refl D). cbn [toks] in IH. rewrite <- app_assoc in IH. exact IH.
    + specialize (IH _ _ _ _ H (Via c x) eq_refl D). cbn [toks] in IH. rewrite <- app_assoc in IH. exact IH.
    + specialize (IH _ _ _ _ H (Post Inc c) eq_refl D). cbn [toks] in IH. rewrite <- app_assoc in IH. exact IH.
    + specialize (IH _ _ _ _ H (Post Dec c) eq_refl D). cbn [toks] in IH. rewrite <- app_assoc in IH. exact IH.
  - (* GArgs *)
    intros c l N Nl V D Dl.
    assert (A : forall a r m, parse f GAssign ts = POk a r -> exists b, ts = toks b ++ r /\ norm b = a /\ Derives class false 14 b /\
        norms (snoc l b) = snoc acc a /\ Derives_all class false (snoc l b) /\
        args_toks true l ++ (match S m, l with S _, TCons _ _ => [P COMMA] | _, _ => [] end) ++ ts = args_toks true (snoc l b) ++ r).
    { intros a r m E. apply IH in E. destruct E as (b & E & Nb & Db). exists b. split; [exact E|]. split; [exact Nb|]. split; [exact Db|].
      split; [rewrite norms_snoc; congruence|]. split; [apply derives_snoc; auto|]. rewrite args_snoc, E. destruct l; cbn [app]; rewrite <- ?app_assoc; reflexivity. }
    destruct n as [|m].
    + destruct ts as [|t ts]; [discriminate H|]. destruct t as [| | | | | | |p|]; try discriminate H. destruct p; try discriminate H.
      * specialize (IH _ _ _ _ H (Call c l)). cbn [norm toks Derives] in IH. rewrite N, Nl in IH. specialize (IH eq_refl (conj D Dl)).
        rewrite <- app_assoc in IH. cbn [app] in IH. rewrite <- app_assoc in IH. exact IH.
      * destruct va; [|discriminate H]. apply bind_inv in H. destruct H as (a & r & E & H). pose proof (IH _ _ _ _ E) as (b & Eb & Nb & Db).
        specialize (IH _ _ _ _ H c (snoc l b) N). rewrite norms_snoc, Nl, Nb in IH.
        specialize (IH eq_refl ltac:(intros _ _ X; destruct l; discriminate X) D (derives_snoc _ _ Dl Db)).
        rewrite args_snoc in IH. rewrite Eb. cbn [app] in IH |- *. destruct l as [|a0 l0]; [exfalso; exact (V eq_refl eq_refl eq_refl)|].
        rewrite <- !app_assoc in IH. exact IH.
    + assert (H' : exists a r, parse f GAssign ts = POk a r /\
        match m, r with O, _ => parse f (GArgs f0 (snoc acc a) 0 va) r | S _, P COMMA :: r => parse f (GArgs f0 (snoc acc a) m va) r | _, _ => PErr end = POk e q).
      { destruct ts as [|t ts]; [apply bind_inv in H; exact H|].
        destruct t as [| | | | | | |p|]; try (apply bind_inv in H; exact H). destruct p; try discriminate H; apply bind_inv in H; exact H. }
      destruct H' as (a & r & E & G). destruct (A a r m E) as (b & Eb & Nb & Db & Ns & Ds & T).
      destruct m as [|m].
      * specialize (IH _ _ _ _ G c (snoc l b) N Ns ltac:(intros _ _ X; destruct l; discriminate X) D Ds). cbn [app] in IH. rewrite <- T in IH. exact IH.
      * destruct r as [|t r]; [discriminate G|]. destruct t as [| | | | | | |p|]; try discriminate G. destruct p; try discriminate G.
        specialize (IH _ _ _ _ G c (snoc l b) N Ns ltac:(intros _ X; discriminate X) D Ds). rewrite T.
        destruct (snoc l b) eqn:Z; [destruct l; discriminate Z|]. exact IH.
  - (* GUnary *)
    assert (PF : forall a r, parse f GPrimary ts = POk a r -> parse f (GPostfix a) r = POk e q -> reads 1 ts e q).
    { intros a r E G. pose proof (IH _ _ _ _ E) as (c & Ec & Nc & Dc). specialize (IH _ _ _ _ G c Nc Dc). rewrite <- Ec in IH. apply (reads_le 0); [exact IH|lia]. }
    assert (UN : forall o r a q', ts = P (un_tok o) :: r -> parse f GCast r = POk a q' -> reads 1 ts (Un o a) q').
    { intros o r a q' -> E. pose proof (IH _ _ _ _ E) as (c & Ec & Nc & Dc). exists (Un o c). cbn [toks norm Derives]. rewrite Ec, Nc. auto. }
    assert (PR : forall o r a q', ts = P (step_tok o) :: r -> parse f GUnary r = POk a q' -> reads 1 ts (Pre o a) q').
    { intros o r a q' -> E. pose proof (IH _ _ _ _ E) as (c & Ec & Nc & Dc). exists (Pre o c). cbn [toks norm Derives]. rewrite Ec, Nc. auto. }
    destruct ts as [|t ts]; [apply bind_inv in H; destruct H as (a & r & E & H); exact (PF _ _ E H)|].
    destruct t as [| | | | | | |p|]; try (apply bind_inv in H; destruct H as (a & r & E & H); exact (PF _ _ E H)).
    + destruct (paren_type class ts) as [r|] eqn:PT.
      * apply paren_inv in PT. apply type_name_inv in H. destruct H as (t & q' & E & T & X). injection X as <- <-. subst r ts. exists (SizeT t).
        cbn [toks norm Derives app]. unfold tname_toks. cbn [app]. rewrite <- app_assoc. auto.
      * apply bind_inv in H. destruct H as (a & r & E & H). injection H as <- <-. pose proof (IH _ _ _ _ E) as (c & Ec & Nc & Dc). exists (SizeE c).
        cbn [toks norm Derives]. rewrite Ec, Nc. auto.
    + destruct ts as [|t ts]; [discriminate H|]. destruct t as [| | | | | | |p|]; try discriminate H. destruct p; try discriminate H.
      apply type_name_inv in H. destruct H as (t & q' & E & T & X). injection X as <- <-. subst ts. exists (AlignT t).
      cbn [toks norm Derives app]. unfold tname_toks. cbn [app]. rewrite <- app_assoc. auto.
    + destruct p; try (apply bind_inv in H; destruct H as (a & r & E & H); exact (PF _ _ E H)); apply bind_inv in H; destruct H as (a & r & E & H); injection H as <- <-.
      * exact (PR Inc _ _ _ eq_refl E).
      * exact (PR Dec _ _ _ eq_refl E).
      * exact (UN Addr _ _ _ eq_refl E).
      * exact (UN Deref _ _ _ eq_refl E).
      * exact (UN Pos _ _ _ eq_refl E).
      * exact (UN Neg _ _ _ eq_refl E).
      * exact (UN Compl _ _ _ eq_refl E).
      * exact (UN Not _ _ _ eq_refl E).
  - (* GCast *)
    destruct (paren_type class ts) as [r|] eqn:PT.
    + apply paren_inv in PT. subst ts. apply type_name_inv in H. destruct H as (t & q' & E & T & X). subst r.
      assert (G : reads 2 (tname_toks t ++ q') e q).
      { assert (CA : (exists a r, parse f GCast q' = POk a r /\ POk (Cast t a) r = POk e q) \/ exists i r, q' = Init i :: r /\ parse f (GPostfix (Lit t i)) r = POk e q).
        { destruct q' as [|u r]; [left; apply bind_inv in X; exact X|]. destruct u; try (left; apply bind_inv in X; exact X). right. eauto. }
        destruct CA as [(a & r & E & Y)|(i & r & -> & Y)].
        - injection Y as <- <-. pose proof (IH _ _ _ _ E) as (c & Ec & Nc & Dc). exists (Cast t c). cbn [toks norm Derives]. rewrite Ec, Nc, <- app_assoc. auto.
        - specialize (IH _ _ _ _ Y (Lit t i) eq_refl T). cbn [toks] in IH. rewrite <- app_assoc in IH. apply (reads_le 0); [exact IH|lia]. }
      unfold tname_toks in G. cbn [app] in G. rewrite <- app_assoc in G. exact G.
    + apply (reads_le 1); [exact (IH _ _ _ _ H)|lia].
  - (* GBin *)
    apply bind_inv in H. destruct H as (a & r & E & H). intros K. pose proof (IH _ _ _ _ H K) as L.
    assert (R : reads k ts a r).
    { apply IH in E. unfold sub in E. destruct (Nat.leb_spec k 3); [apply (reads_le 2); [exact E|lia]|]. apply (reads_le (pred k)); [apply E; lia|lia]. }
    destruct R as (c & -> & N & D). exact (L c N D).
  - (* GLoop *)
    intros K c N D.
    assert (ST : POk e0 ts = POk e q -> reads k (toks c ++ ts) e q) by (intros X; injection X as <- <-; exists c; auto).
    destruct ts as [|t ts]; [exact (ST H)|]. destruct t as [| | | | | | |p|]; try exact (ST H). destruct (binop_at k p) as [o|] eqn:B; [|exact (ST H)].
    apply bind_inv in H. destruct H as (b & r & E & H).
    assert (BK : level o = k /\ bin_tok o = p).
    { assert (C : k = 3 \/ k = 4 \/ k = 5 \/ k = 6 \/ k = 7 \/ k = 8 \/ k = 9 \/ k = 10) by lia.
      destruct C as [->|[->|[->|[->|[->|[->|[->| ->]]]]]]]; destruct p; cbn in B; try discriminate B; injection B as <-; auto. }
    destruct BK as [BL BT].
    assert (R : reads (pred k) ts b r).
    { apply IH in E. unfold sub in E. destruct (Nat.leb_spec k 3); [replace (pred k) with 2 by lia; exact E|apply E; lia]. }
    destruct R as (d & -> & Nd & Dd). specialize (IH _ _ _ _ H K (Bin o c d)). cbn [norm toks Derives] in IH.
    assert (Z : match o with LAnd | LOr => graft o (norm c) (norm d) | _ => Bin o (norm c) (norm d) end = Bin o e0 b) by (rewrite N, Nd; destruct o; cbn in BL; try lia; reflexivity).
    specialize (IH Z). rewrite BL, BT in IH. specialize (IH (conj (le_n _) (conj D Dd))). rewrite <- app_assoc in IH. exact IH.
  - (* GAnd *)
    apply bind_inv in H. destruct H as (a & r & E & H). pose proof (IH _ _ _ _ E ltac:(lia)) as (c & Ec & Nc & Dc).
    assert (ST : POk a r = POk e q -> reads 11 ts e q) by (intros X; injection X as <- <-; exists c; split; [exact Ec|]; split; [exact Nc|]; exact (derives_le false c 10 11 Dc ltac:(lia))).
    destruct r as [|t r]; [exact (ST H)|]. destruct t as [| | | | | | |p|]; try exact (ST H). destruct p; try exact (ST H).
    apply bind_inv in H. destruct H as (b & r' & E' & H). injection H as <- <-. pose proof (IH _ _ _ _ E') as (d & Ed & Nd & Dd).
    destruct (lgraft_and c d Dc Dd) as [DD NN]. exists (lgraft LAnd c d). rewrite lgraft_toks, NN, Ec, Ed, Nc, Nd, <- app_assoc. auto.
  - (* GOr *)
    apply bind_inv in H. destruct H as (a & r & E & H). pose proof (IH _ _ _ _ E) as (c & Ec & Nc & Dc).
    assert (ST : POk a r = POk e q -> reads 12 ts e q) by (intros X; injection X as <- <-; exists c; split; [exact Ec|]; split; [exact Nc|]; exact (derives_le false c 11 12 Dc ltac:(lia))).
    destruct r as [|t r]; [exact (ST H)|]. destruct t as [| | | | | | |p|]; try exact (ST H). destruct p; try exact (ST H).
    apply bind_inv in H. destruct H as (b & r' & E' & H). injection H as <- <-. pose proof (IH _ _ _ _ E') as (d & Ed & Nd & Dd).
    destruct (lgraft_or c d Dc Dd) as [DD NN]. exists (lgraft LOr c d). rewrite lgraft_toks, NN, Ec, Ed, Nc, Nd, <- app_assoc. auto.
  - (* GCond *)
    apply bind_inv in H. destruct H as (a & r & E & H). pose proof (IH _ _ _ _ E) as (c & Ec & Nc & Dc).
    assert (ST : POk a r = POk e q -> reads 13 ts e q) by (intros X; injection X as <- <-; exists c; split; [exact Ec|]; split; [exact Nc|]; exact (derives_le false c 12 13 Dc ltac:(lia))).
    destruct r as [|t r]; [exact (ST H)|]. destruct t as [| | | | | | |p|]; try exact (ST H). destruct p; try exact (ST H).
    apply bind_inv in H. destruct H as (b & r' & E' & H). pose proof (IH _ _ _ _ E') as (d & Ed & Nd & Dd).
    destruct r' as [|t r']; [discriminate H|]. destruct t as [| | | | | | |p|]; try discriminate H. destruct p; try discriminate H.
    apply bind_inv in H. destruct H as (z & r'' & E'' & H). injection H as <- <-. pose proof (IH _ _ _ _ E'') as (w & Ew & Nw & Dw).
    exists (Cond c d w). cbn [toks norm Derives]. rewrite Nc, Nd, Nw, Ec, Ed, Ew. rewrite <- !app_assoc. cbn [app]. rewrite <- !app_assoc. cbn [app]. auto 10.
  - (* GAssign *)
    apply bind_inv in H. destruct H as (a & r & E & H). pose proof (IH _ _ _ _ E) as (c & Ec & Nc & Dc).
    assert (ST : POk a r = POk e q -> reads 14 ts e q) by (intros X; injection X as <- <-; exists c; split; [exact Ec|]; split; [exact Nc|]; exact (derives_le false c 13 14 Dc ltac:(lia))).
    destruct r as [|t r]; [exact (ST H)|]. destruct t as [| | | | | | |p|]; try exact (ST H). destruct (assign_at p) as [o|] eqn:AO; [|exact (ST H)].
    assert (AT : assign_tok o = Some p) by (destruct p; cbn in AO; try discriminate AO; injection AO as <-; reflexivity).
    apply bind_inv in H. destruct H as (b & r' & E' & H). injection H as <- <-. pose proof (IH _ _ _ _ E') as (d & Ed & Nd & Dd).
    exists (Assign o c d). cbn [toks norm Derives]. rewrite AT, Nc, Nd, Ec, Ed, <- !app_assoc. split; [reflexivity|]. split; [reflexivity|]. split; [lia|]. split; [discriminate|]. auto.
  - (* GExpr *)
    apply bind_inv in H. destruct H as (a & r & E & H). pose proof (IH _ _ _ _ E) as (c & -> & Nc & Dc). exact (IH _ _ _ _ H c Nc (derives_le false c 14 15 Dc ltac:(lia))).
  - (* GSeq *)
    intros c N D.
    assert (ST : POk e0 ts = POk e q -> reads 15 (toks c ++ ts) e q) by (intros X; injection X as <- <-; exists c; auto).
    destruct ts as [|t ts]; [exact (ST H)|]. destruct t as [| | | | | | |p|]; try exact (ST H). destruct p; try exact (ST H).
    apply bind_inv in H. destruct H as (b & r & E & H). pose proof (IH _ _ _ _ E) as (d & -> & Nd & Dd).
    specialize (IH _ _ _ _ H (Seq c d)). cbn [norm toks Derives] in IH. rewrite N, Nd in IH. specialize (IH eq_refl (conj (le_n _) (conj D Dd))).
    rewrite <- app_assoc in IH. exact IH.
Qed.

(* --- the parser ends --- *)
Definition in_loop (g : goal) : bool := match g with GPostfix _ | GLoop _ _ | GSeq _ => true | _ => false end.
Definition shorter (g : goal) (ts q : list tok) : Prop := if in_loop g then length q <= length ts else length q < length ts.
Lemma shrink f : forall g ts e q, parse f g ts = POk e q -> shorter g ts q.
Proof.
  induction f as [|f IH]; intros g ts e q H; [discriminate H|]. cbn [GramModel.parse] in H. unfold shorter.
  destruct g; cbn [GramModel.step] in H; cbn [in_loop];
  repeat match goal with
    | H : bind _ _ = POk _ _ |- _ => let a := fresh "a" in let r := fresh "r" in let E := fresh "E" in apply bind_inv in H; destruct H as (a & r & E & H)
    | H : type_name _ _ _ = POk _ _ |- _ => let t := fresh "t" in let r := fresh "r" in let E := fresh "E" in let T := fresh "T" in apply type_name_inv in H; destruct H as (t & r & E & T & H); subst
    | H : match ?x with _ => _ end = POk _ _ |- _ => destruct x eqn:?; try discriminate H; subst
    | H : POk _ _ = POk _ _ |- _ => injection H as <- <-
    end;
  repeat match goal with H : paren_type _ _ = Some _ |- _ => apply paren_inv in H; subst end;
  repeat match goal with H : parse f _ _ = POk _ _ |- _ => apply IH in H; unfold shorter in H; cbn [in_loop] in H end;
  unfold sub in *; repeat match goal with H : context [Nat.leb ?a ?b] |- _ => destruct (Nat.leb a b) end; cbn [in_loop length] in *; rewrite ?app_length in *; cbn [length] in *; try lia.
Qed.
Definition rank (g : goal) : nat :=
  match g with
  | GArgs _ _ _ _ => 31 | GExpr => 30 | GAssign => 29 | GCond => 28 | GOr => 27 | GAnd => 26 | GBin k => 10 + k | GCast => 7 | GUnary => 6 | GPrimary => 5
  | _ => 1
  end.
Definition small (g : goal) : Prop := match g with GBin k | GLoop k _ => k <= 10 | _ => True end.
Lemma bind_fuel x f : x <> PFuel -> (forall e q, x = POk e q -> f e q <> PFuel) -> bind x f <> PFuel.
Proof. intros A B. destruct x; cbn; [apply B; reflexivity|discriminate|congruence]. Qed.
Lemma type_name_fuel ts k : (forall t q, length q < length ts -> k t q <> PFuel) -> type_name class ts k <> PFuel.
Proof.
  intros H. unfold type_name. destruct ts as [|t ts]; [discriminate|]. destruct (starts_type class t); [|discriminate]. destruct (count_stars ts) as [n r] eqn:E.
  apply count_stars_inv in E. subst ts. destruct r as [|u r]; [discriminate|]. destruct u; try discriminate. destruct p; try discriminate. apply H.
  cbn [length]. rewrite app_length. cbn [length]. lia.
Qed.
Lemma ends f : forall g ts, small g -> 40 * length ts + rank g < f -> parse f g ts <> PFuel.
Proof.
  induction f as [|f IH]; intros g ts S L; [lia|]. cbn [GramModel.parse].
  assert (B : forall g' ts', small g' -> 40 * length ts' + rank g' < 40 * length ts + rank g -> parse f g' ts' <> PFuel) by (intros g' ts' S' L'; apply IH; [exact S'|lia]).
  assert (SH : forall g' ts' e q, parse f g' ts' = POk e q -> shorter g' ts' q) by (intros g' ts' e q; apply shrink).
  clear IH L.
  destruct g; cbn [GramModel.step rank small] in *;
  repeat first
    [ discriminate
    | apply bind_fuel; [|let X := fresh "X" in intros ? ? X; apply SH in X; unfold shorter in X; cbn [in_loop length] in X]
    | apply type_name_fuel; intros
    | match goal with
      | H : paren_type _ _ = Some _ |- _ => apply paren_inv in H; subst
      | |- (if Nat.leb _ _ then _ else _) <> _ => fail 1
      | |- match ?x with _ => _ end <> PFuel => destruct x eqn:?; subst; cbn [length] in *
      end
    | apply B; [try exact Logic.I; try lia|cbn [rank length] in *; try lia] ].
  all: unfold sub in *; try destruct (Nat.leb_spec k 3); cbn [small rank in_loop] in *; lia.
Qed.
Theorem expression_ends ts : expression class sig ts <> PFuel.
Proof. unfold expression. apply ends; [exact Logic.I|]. cbn [rank]. lia. Qed.
Theorem expression_complete e rest : Derives class true 15 e -> plain sig e -> hd_is continues rest = false -> expression class sig (toks e ++ rest) = POk (norm e) rest.
Proof.
  intros D W S. pose proof (proj1 complete e 15 D W (le_n _)) as F. apply (full_q 15 e (le_n _)) in F. unfold expression.
  refine (runs_fuel _ _ (norm e, rest) _ (F rest _) (expression_ends _)).
  unfold stop. destruct rest as [|t r]; [reflexivity|]. cbn in S |- *. destruct t; try reflexivity; try discriminate S. destruct p; try reflexivity; discriminate S.
Qed.
Theorem expression_sound ts e q : (forall a n, sig a = Some (n, true) -> n <> 0) -> expression class sig ts = POk e q ->
  exists c, ts = toks c ++ q /\ norm c = e /\ Derives class false 15 c.
Proof. intros N H. exact (sound N _ _ _ _ _ H). Qed.

End Proofs.

(* --- norm only regroups --- *)
Lemma graft_regroup t : forall z, (regroup (graft LAnd t z) (Bin LAnd t z)) /\ regroup (graft LOr t z) (Bin LOr t z).
Proof.
  apply (tree_ind2 (fun t => forall z, (regroup (graft LAnd t z) (Bin LAnd t z)) /\ regroup (graft LOr t z) (Bin LOr t z)) (fun _ => True));
    try (intros; split; apply RG_refl); try exact Logic.I; try (intros; exact Logic.I).
  intros o a _ b IB z. destruct (IB z) as [X Y]. destruct o; split; try apply RG_refl; cbn [graft].
  - refine (RG_trans _ _ _ (RG_bin _ _ _ _ _ (RG_refl _) X) (RG_sym _ _ (RG_and _ _ _))).
  - refine (RG_trans _ _ _ (RG_bin _ _ _ _ _ (RG_refl _) Y) (RG_sym _ _ (RG_or _ _ _))).
Qed.
Theorem norm_regroup : (forall e, regroup e (norm e)) /\ (forall l, regroups l (norms l)).
Proof.
  apply tree_mutind; intros; cbn [norm norms]; try (constructor; assumption).
  destruct o; try (constructor; assumption);
    (eapply RG_trans; [apply RG_bin; [exact H|exact H0]|]; apply RG_sym; apply graft_regroup).
Qed.
