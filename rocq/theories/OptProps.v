(* C24: with -O1 a function does what it did.  The conditions, and programs that do not meet them and go wrong. *)
From Coq Require Import List ZArith Bool Lia Arith.
From Verif Require Import Util Bytes OptModel OptSpec OptLive OptProofs OptPass OptMain OptEnds.
Import ListNotations.
Open Scope Z_scope.

(* Partial: only for functions that are fit, on machines that are lawful; see the refutations below for what happens
   otherwise. *)
Theorem C24_result_partial : forall (W : Type) tab (M : machine W) fuel d d', lawful tab M -> fit tab d -> optimize tab fuel d = Some d' ->
  forall w m k v w1 m1 t, execute tab M k d w m = Returned v w1 m1 t ->
  exists m1' t', execute tab M k d' w m = Returned v w1 m1' t' /\ same_outside M m1 m1' /\ same_trace M t t'.
Proof. intros W tab M fuel d d' HL HF HO. apply refines_returned. eapply optimize_ok; eassumption. Qed.
Theorem C24_exit_partial : forall (W : Type) tab (M : machine W) fuel d d', lawful tab M -> fit tab d -> optimize tab fuel d = Some d' ->
  forall w m k t, execute tab M k d w m = Stopped t -> exists t', execute tab M k d' w m = Stopped t' /\ same_trace M t t'.
Proof. intros W tab M fuel d d' HL HF HO. apply refines_stopped. eapply optimize_ok; eassumption. Qed.
(* A function that runs for ever still does, with the same calls. *)
Theorem C24_forever_partial : forall (W : Type) tab (M : machine W) fuel d d', lawful tab M -> fit tab d -> optimize tab fuel d = Some d' ->
  forall w m, (forall k, exists t, execute tab M k d w m = Running t) ->
  forall k, exists k2 t t', (k <= k2)%nat /\ execute tab M k d' w m = Running t' /\ execute tab M k2 d w m = Running t /\ same_trace M t t'.
Proof. intros W tab M fuel d d' HL HF HO. apply refines_running. eapply optimize_ok; eassumption. Qed.
(* Nothing is done that the function did not do. *)
Theorem C24_prefix_partial : forall (W : Type) tab (M : machine W) fuel d d', lawful tab M -> fit tab d -> optimize tab fuel d = Some d' ->
  forall w m k, exists k2, (k <= k2)%nat /\ same_behaviour M (execute tab M k2 d w m) (execute tab M k d' w m).
Proof. intros W tab M fuel d d' HL HF HO. eapply optimize_ok; eassumption. Qed.
(* It comes to an end, after no more iterations of any loop than this, if there is no circle of empty blocks: they can be
   numbered so that each leads to a lower one. *)
Theorem C24_ends_partial : forall tab d rank fuel, fit tab d ->
  (forall n b m, nth_error (d_nodes d) n = Some b -> b_count b = O -> b_jump0 b = Some m -> b_jump1 b = None -> (rank m < rank n)%nat) ->
  (forall n, rank n < fuel)%nat -> (64 * length (d_nodes d) + 2 * length (d_stmts d) < fuel)%nat ->
  exists d', optimize tab fuel d = Some d'.
Proof.
  intros tab d rank fuel HF HR. apply optimize_ends; [exact HF|]. intros n b m HN HE. unfold empty_block in HE. destruct (b_count b) eqn:EC; [|discriminate]. destruct (b_jump0 b) as [x|] eqn:E0; [|discriminate].
  destruct (b_jump1 b) eqn:E1; [discriminate|]. injection HE as <-. exact (HR n b x HN EC E0 E1).
Qed.
Print Assumptions C24_ends_partial.
Print Assumptions C24_result_partial.
Print Assumptions C24_exit_partial.
Print Assumptions C24_forever_partial.
Print Assumptions C24_prefix_partial.

(* --- a machine --- *)
Definition at_ (s : sym) : Z := 1024 * (Z.of_nat s + 1).
Arguments at_ s%nat.
Definition owner_of (tab : sym -> symbol) (n : nat) (a : Z) : option sym :=
  find (fun s => s_none (tab s) && (at_ s <=? a) && (a <? at_ s + tsize (s_type (tab s)))) (seq 0 n).
Definition small (tab : sym -> symbol) (n : nat) (f : Z -> ty -> list Z -> args -> mem -> outcome Z) : machine Z :=
  mkMachine Z at_ (owner_of tab n) (fun _ _ _ => []) (le_bytes 8) le_val
    (fun t t' v => if type_equal t t' then v else firstn (size t) (v ++ repeat 0 (size t)))
    (fun _ _ _ => None) (fun _ t _ a _ b => Some (le_bytes (size t) (le_val a + le_val b)))
    (fun _ v => negb (le_val v =? 0)) (fun _ _ _ b => b) [] (fun _ _ _ => None) f.
Lemma type_equal_refl : forall t, type_equal t t = true.
Proof.
  fix IH 1. intros [| i n | t | n t | i n ms |]; cbn [type_equal]; try reflexivity; rewrite ?Z.eqb_refl; [reflexivity|apply IH|apply IH|]. cbn [andb].
  revert ms. fix IHl 1. intros [|x ms]; [reflexivity|]. rewrite (IH x). cbn [andb]. apply IHl.
Qed.
Lemma small_lawful tab n f :
  (forall w t p ps m m', (gives_pointer ps -> forall x, m x = m' x) -> same_outside (small tab n f) m m' -> same_outcome m m' (f w t p ps m) (f w t p ps m')) ->
  lawful tab (small tab n f).
Proof.
  intros H. constructor.
  - intros a s E. cbn [small owner loc] in *. unfold owner_of in E. apply find_some in E as [_ E]. rewrite !andb_true_iff in E. destruct E as [[E1 E2] E3]. split; [exact E1|]. lia.
  - intros t v. cbn [small conv]. rewrite type_equal_refl. reflexivity.
  - reflexivity.
  - exact H.
Qed.

Definition int := TScalar 4 4.
Definition char := TScalar 1 1.
Definition direct (t : ty) (s : sym) : var := mkVar DIRECT 0 0 t 0 (Some s) [].
Definition addr (t : ty) (s : sym) : var := mkVar ADDRESS 0 0 (TPtr t) 0 (Some s) [].
Definition deref (t : ty) (s : sym) : var := mkVar DEREF 0 0 t 0 (Some s) [].
Definition imm (t : ty) (z : Z) : var := mkVar IMMEDIATE 0 0 t 0 None (le_bytes (size t) z).
Definition as_expr (v : var) : expr := mkExpr CAST (v_type v) v v.
Definition add (a b : var) : expr := mkExpr (BIN 0) (v_type a) a b.
Definition call_of (t : ty) (s : sym) : expr := mkExpr CALL t (direct TFun s) (direct TFun s).
Definition assign (v : var) (e : expr) : stmt := mkStmt IR_ASSIGN 0 v e.
Definition param (e : expr) : stmt := mkStmt IR_PARAM 0 (e_l e) e.
Definition no_expr : expr := as_expr (imm int 0).
Definition goes_to (head count n : nat) : block := mkBlock head count no_expr (Some n) None false 0 0.
Definition returns (head count : nat) (e : expr) : block := mkBlock head count e None None true 0 0.
Definition returned {W} (b : @behaviour W) : option (option (list Z)) := match b with Returned v _ _ _ => Some v | _ => None end.

Arguments direct t s%nat. Arguments addr t s%nat. Arguments deref t s%nat. Arguments call_of t s%nat. Arguments goes_to (head count n)%nat. Arguments returns (head count)%nat.
(* A function of the outside: returns the global int 2 and adds its argument to it. *)
Definition h_of (g : Z) (w : Z) (t : ty) (p : list Z) (ps : args) (m : mem) : outcome Z :=
  match ps with
  | [(_, v)] => Returns (w + 1) (write m g (le_bytes 4 (le_val v + le_val (bytes_at m g 4)))) (bytes_at m g 4)
  | _ => Undefined
  end.
(* 0: int x, 1: int t, 2: extern int g, 3: int h(int), 4: int y *)
Definition tab1 (s : sym) : symbol := match s with 2%nat => mkSym int false | 3%nat => mkSym TFun false | _ => mkSym int true end.
Definition M1 := small tab1 5 (h_of (at_ 2)).
(* x = 1; t = g + 2; x = t; y = h(x); ; return x; *)
Definition d1 : def := mkDef 0 [goes_to 0 5 1; goes_to 5 0 2; returns 5 0 (as_expr (direct int 0))]
  [assign (direct int 0) (as_expr (imm int 1)); assign (direct int 1) (add (direct int 2) (imm int 2)); assign (direct int 0) (as_expr (direct int 1));
   param (as_expr (direct int 0)); assign (direct int 4) (call_of int 3)].
Lemma M1_lawful : lawful tab1 M1.
Proof.
  apply small_lawful. intros w t p ps m m' _ HS. unfold h_of. destruct ps as [|[t1 v] [|q ps]]; try exact Logic.I.
  assert (E : bytes_at m (at_ 2) 4 = bytes_at m' (at_ 2) 4).
  { unfold bytes_at. apply map_ext_in. intros i Hi. apply in_seq in Hi. apply HS. assert (Hc : (i = 0 \/ i = 1 \/ i = 2 \/ i = 3)%nat) by lia.
    destruct Hc as [-> |[-> |[-> | ->]]]; reflexivity. }
  rewrite E. split; [reflexivity|]. split; [reflexivity|]. intros x Hx. unfold write. destruct ((at_ 2 <=? x) && _); [reflexivity|exact Hx].
Qed.
Ltac each := repeat (apply Forall_cons; [|]); [..|apply Forall_nil].
Definition apart (a b : block) : bool := (b_count a =? 0)%nat || (b_count b =? 0)%nat || (b_head a + b_count a <=? b_head b)%nat || (b_head b + b_count b <=? b_head a)%nat.
Definition separateb (d : def) : bool :=
  forallb (fun b => b_head b + b_count b <=? length (d_stmts d))%nat (d_nodes d) &&
  forallb (fun i => forallb (fun j => Nat.eqb i j || match nth_error (d_nodes d) i, nth_error (d_nodes d) j with Some a, Some b => apart a b | _, _ => true end)
    (seq 0 (length (d_nodes d)))) (seq 0 (length (d_nodes d))).
Lemma separateb_ok d : separateb d = true -> separate d.
Proof.
  unfold separateb. rewrite andb_true_iff, !forallb_forall. intros [H1 H2]. split; [intros b Hb; apply Nat.leb_le, H1, Hb|].
  intros i j a b Ha Hb Hij P Q. assert (Li : (i < length (d_nodes d))%nat) by (apply nth_error_Some; congruence). assert (Lj : (j < length (d_nodes d))%nat) by (apply nth_error_Some; congruence).
  assert (H := H2 i ltac:(apply in_seq; lia)). cbn beta in H. rewrite forallb_forall in H. assert (H' := H j ltac:(apply in_seq; lia)). cbn beta in H'. rewrite Ha, Hb in H'.
  unfold apart in H'. rewrite !orb_true_iff, !Nat.eqb_eq, !Nat.leb_le in H'. destruct H' as [E|[[[E|E]|E]|E]]; [contradiction|lia|lia|left; exact E|right; exact E].
Qed.
Definition linkedb (d : def) : bool :=
  let ok (j : option nat) := match j with Some x => (x <? length (d_nodes d))%nat | None => true end in
  (d_body d <? length (d_nodes d))%nat && forallb (fun b => ok (b_jump0 b) && ok (b_jump1 b)) (d_nodes d).
Lemma linkedb_ok d : linkedb d = true -> linked d.
Proof.
  unfold linkedb. cbn zeta. rewrite andb_true_iff, forallb_forall. intros [H1 H2]. split; [apply Nat.ltb_lt, H1|]. intros b x Hb Hx. specialize (H2 b Hb). rewrite andb_true_iff in H2. destruct H2 as [H2 H3].
  destruct Hx as [E|E]; [rewrite E in H2; apply Nat.ltb_lt, H2|rewrite E in H3; apply Nat.ltb_lt, H3].
Qed.
Ltac seps := apply separateb_ok; reflexivity.
Ltac links := apply linkedb_ok; reflexivity.
Ltac wholes := each; intros H1 H2 x H3 H4; try discriminate H1; try discriminate H2; injection H3 as <-; try discriminate H4; repeat split.
Ltac selves := intros s s' x Hs Hs' A1 A2 K1 S1 K2 S2; cbn [In d_stmts] in Hs, Hs'; repeat (destruct Hs as [<-|Hs]; [try discriminate A1; try discriminate K1|]); try contradiction;
  repeat (destruct Hs' as [<-|Hs']; [try discriminate A2; try discriminate K2; cbn in *; try congruence|]); try contradiction.
Ltac params := each; intros H; try discriminate H; reflexivity.
Lemma d1_fit : fit tab1 d1.
Proof. constructor; [seps|links|wholes|selves|params]. Qed.
Example C24_instance : exists d', optimize tab1 9 d1 = Some d' /\ map st_st (d_stmts d') = [IR_ASSIGN; IR_PARAM; IR_EXPR] /\ map b_jump0 (d_nodes d') = [Some 2; Some 2; None]%nat /\
  returned (execute tab1 M1 3 d1 7 (fun _ => 1)) = Some (Some [3; 1; 1; 1]) /\ returned (execute tab1 M1 3 d' 7 (fun _ => 1)) = Some (Some [3; 1; 1; 1]).
Proof.
  destruct (optimize tab1 9 d1) as [d'|] eqn:E; [|vm_compute in E; discriminate E]. exists d'. vm_compute in E. assert (E' : Some d' = Some d') by reflexivity.
  injection E as <-. split; [reflexivity|]. split; [reflexivity|]. split; [reflexivity|]. split; vm_compute; reflexivity.
Qed.
Example C24_ends_instance : exists d', optimize tab1 300 d1 = Some d'.
Proof.
  apply (C24_ends_partial tab1 d1 (fun n => 2 - n)%nat); [exact d1_fit| |intros n; lia|apply Nat.ltb_lt; reflexivity].
  intros [|[|[|[|n]]]] b m HN; cbn in HN; try discriminate; injection HN as <-; cbn; try discriminate. intros _ E _. injection E as <-. lia.
Qed.
Example C24_instance_used : forall d', optimize tab1 9 d1 = Some d' -> forall w m k, exists k2, (k <= k2)%nat /\ same_behaviour M1 (execute tab1 M1 k2 d1 w m) (execute tab1 M1 k d' w m).
Proof. intros d' H. eapply C24_prefix_partial; [exact M1_lawful|exact d1_fit|exact H]. Qed.

(* x = 1; h(g); and then never back *)
Definition M7 := small tab1 5 (fun _ _ _ _ _ => Never).
Definition d7 : def := mkDef 0 [returns 0 3 (as_expr (direct int 0))]
  [assign (direct int 0) (as_expr (imm int 1)); param (as_expr (direct int 2)); assign (direct int 0) (call_of int 3)].
Definition calls {W} (b : @behaviour W) : option (list (list Z * args)) := match b with Stopped t => Some (map (fun e => (ev_fun e, ev_args e)) t) | _ => None end.
Example C24_exit_instance : lawful tab1 M7 /\ fit tab1 d7 /\ exists d', optimize tab1 9 d7 = Some d' /\ length (d_stmts d') = 2%nat /\ calls (execute tab1 M7 1 d7 0 (fun _ => 1)) = Some [(le_bytes 8 (at_ 3), [(int, [1; 1; 1; 1])])] /\ calls (execute tab1 M7 1 d' 0 (fun _ => 1)) = calls (execute tab1 M7 1 d7 0 (fun _ => 1)).
Proof.
  split; [apply small_lawful; intros; exact Logic.I|]. split; [constructor; [seps|links|wholes|selves|params]|]. eexists. split; [vm_compute; reflexivity|]. split; [reflexivity|]. split; vm_compute; reflexivity.
Qed.
(* for (;;) { x = 1; y = h(g); } *)
Definition d8 : def := mkDef 0 [goes_to 0 3 0] [assign (direct int 0) (as_expr (imm int 1)); param (as_expr (direct int 2)); assign (direct int 4) (call_of int 3)].
Example C24_forever_instance : fit tab1 d8 /\ (exists d', optimize tab1 9 d8 = Some d' /\ map st_st (d_stmts d') = [IR_PARAM; IR_EXPR]) /\ forall w m k, exists t, execute tab1 M1 k d8 w m = Running t.
Proof.
  split; [constructor; [seps|links|wholes|selves|params]|]. split; [eexists; split; [vm_compute; reflexivity|reflexivity]|].
  assert (HE : forall w m tr, exists w' m' tr', enter tab1 M1 d8 0 (mkConf w m [] tr) = Goes (inl 0%nat) (mkConf w' m' [] tr')) by (intros; do 3 eexists; reflexivity).
  assert (HR : forall k w m tr, exists t, run tab1 M1 k d8 0 (mkConf w m [] tr) = Running t).
  { induction k as [|k IH]; intros w m tr; [eexists; reflexivity|]. cbn [run]. destruct (HE w m tr) as (w' & m' & tr' & ->). apply IH. }
  intros w m k. apply HR.
Qed.

(* --- what goes wrong --- *)
(* lawful, but a called function may look at all of memory *)
Record honest {W} (tab : sym -> symbol) (M : machine W) : Prop := mkHonest {
  hon_owner : forall a s, owner M a = Some s -> s_none (tab s) = true /\ loc M s <= a < loc M s + tsize (s_type (tab s));
  hon_conv : forall t v, conv M t t v = v;
  hon_va : forall l t m m', same_outside M m m' -> va_next M l t m = va_next M l t m';
  hon_call : forall w t f ps m m', (forall x, m x = m' x) -> same_outcome m m' (call M w t f ps m) (call M w t f ps m') }.
(* int *g; int f(void) { int x; g = &x; x = 5; return h(); } where h returns *g: the store of 5 is removed. *)
Definition tab2 (s : sym) : symbol := match s with 0%nat => mkSym int true | 1%nat => mkSym (TPtr int) false | _ => mkSym TFun false end.
Definition h2 (w : Z) (t : ty) (p : list Z) (ps : args) (m : mem) : outcome Z := Returns w m (bytes_at m (le_val (bytes_at m (at_ 1) 8)) 4).
Definition M2 := small tab2 3 h2.
Definition d2 : def := mkDef 0 [returns 0 2 (call_of int 2)] [assign (direct (TPtr int) 1) (as_expr (addr int 0)); assign (direct int 0) (as_expr (imm int 5))].
Theorem C24_escape_refuted : exists (tab : sym -> symbol) (M : machine Z) (d d' : def) m, honest tab M /\ fit tab d /\ optimize tab 9 d = Some d' /\
  returned (execute tab M 1 d 0 m) = Some (Some [5; 0; 0; 0]) /\ returned (execute tab M 1 d' 0 m) = Some (Some [1; 1; 1; 1]).
Proof.
  exists tab2, M2, d2. eexists. exists (fun _ => 1). split.
  { constructor.
    - intros a s E. cbn [M2 small owner loc] in *. unfold owner_of in E. apply find_some in E as [_ E]. rewrite !andb_true_iff in E. destruct E as [[E1 E2] E3]. split; [exact E1|]. lia.
    - intros t v. cbn [M2 small conv]. rewrite type_equal_refl. reflexivity.
    - reflexivity.
    - intros w t f ps m m' H. cbn [M2 small call]. unfold h2. assert (HB : forall a n, bytes_at m a n = bytes_at m' a n) by (intros; unfold bytes_at; apply map_ext; intros; apply H).
      rewrite !HB. split; [reflexivity|]. split; [reflexivity|]. intros x _. apply H. }
  split; [constructor; [seps|links|wholes|selves|params]|]. split; [vm_compute; reflexivity|]. split; vm_compute; reflexivity.
Qed.
Print Assumptions C24_escape_refuted.

(* int x; x = 0x01020304; then 0 is assigned to the char at the address of x; return x.  The first store is removed. *)
Definition tab3 (s : sym) : symbol := mkSym int true.
Definition M3 := small tab3 1 (fun _ _ _ _ _ => Undefined).
Definition d3 : def := mkDef 0 [returns 0 2 (as_expr (direct int 0))] [assign (direct int 0) (as_expr (imm int 16909060)); assign (direct char 0) (as_expr (imm char 0))].
Lemma M3_lawful : lawful tab3 M3.
Proof. apply small_lawful. intros; exact Logic.I. Qed.
Theorem C24_part_refuted : exists tab (M : machine Z) d d' m, lawful tab M /\ (separate d /\ linked d /\ no_self (d_stmts d) /\ Forall plain_param (d_stmts d)) /\ optimize tab 9 d = Some d' /\
  returned (execute tab M 1 d 0 m) = Some (Some [0; 3; 2; 1]) /\ returned (execute tab M 1 d' 0 m) = Some (Some [0; 1; 1; 1]).
Proof.
  exists tab3, M3, d3. eexists. exists (fun _ => 1). split; [exact M3_lawful|]. split; [split; [seps|split; [links|split; [selves|params]]]|].
  split; [vm_compute; reflexivity|]. split; vm_compute; reflexivity.
Qed.
Print Assumptions C24_part_refuted.

(* p = q; then p is assigned to the void pointer at p.  The result is one assignment, of q through p, which has no value. *)
Definition tab4 (s : sym) : symbol := mkSym (TPtr TVoid) (Nat.eqb s 0).
Definition M4 := small tab4 1 (fun _ _ _ _ _ => Undefined).
Definition vp := TPtr TVoid.
Definition d4 : def := mkDef 0 [mkBlock 0 2 no_expr None None false 0 0] [assign (direct vp 0) (as_expr (direct vp 1)); assign (deref vp 0) (as_expr (direct vp 0))].
(* q points at object 2; p happens to hold the address of object 3 *)
Definition m4 : mem := write (write (fun _ => 1) (at_ 1) (le_bytes 8 (at_ 2))) (at_ 0) (le_bytes 8 (at_ 3)).
Definition left_at {W} (b : @behaviour W) (a : Z) : option (list Z) := match b with Returned _ _ m _ => Some (bytes_at m a 8) | _ => None end.
Theorem C24_self_refuted : exists tab (M : machine Z) d d' m, lawful tab M /\ (separate d /\ linked d /\ Forall (whole tab) (d_stmts d) /\ Forall plain_param (d_stmts d)) /\ optimize tab 9 d = Some d' /\
  left_at (execute tab M 1 d 0 m) (at_ 2) = Some (le_bytes 8 (at_ 2)) /\ left_at (execute tab M 1 d' 0 m) (at_ 2) = Some (repeat 1 8) /\
  left_at (execute tab M 1 d 0 m) (at_ 3) = Some (repeat 1 8) /\ left_at (execute tab M 1 d' 0 m) (at_ 3) = Some (le_bytes 8 (at_ 2)).
Proof.
  exists tab4, M4, d4. eexists. exists m4. split; [apply small_lawful; intros; exact Logic.I|]. split; [split; [seps|split; [links|split; [wholes|params]]]|].
  split; [vm_compute; reflexivity|]. repeat split; vm_compute; reflexivity.
Qed.
Print Assumptions C24_self_refuted.

(* struct S { int *a[1]; } s; s.a[0] = &x; x = 5; return h(s); where h returns *s.a[0]: the store of 5 is removed. *)
Definition S5 := TAgg 1 8 [TArr 1 (TPtr int)].
Definition tab5 (s : sym) : symbol := match s with 0%nat => mkSym int true | 1%nat => mkSym S5 true | _ => mkSym TFun false end.
Definition h5 (w : Z) (t : ty) (p : list Z) (ps : args) (m : mem) : outcome Z :=
  match ps with [(t, v)] => if holds_pointer t then Returns w m (bytes_at m (le_val v) 4) else Undefined | _ => Undefined end.
Definition M5 := small tab5 3 h5.
Definition d5 : def := mkDef 0 [returns 0 3 (call_of int 2)]
  [assign (direct (TPtr int) 1) (as_expr (addr int 0)); assign (direct int 0) (as_expr (imm int 5)); param (as_expr (direct S5 1))].
Theorem C24_param_refuted : exists tab (M : machine Z) d d' m, lawful tab M /\ (separate d /\ linked d /\ Forall (whole tab) (d_stmts d) /\ no_self (d_stmts d)) /\ optimize tab 9 d = Some d' /\
  returned (execute tab M 1 d 0 m) = Some (Some [5; 0; 0; 0]) /\ returned (execute tab M 1 d' 0 m) = Some (Some [1; 1; 1; 1]).
Proof.
  exists tab5, M5, d5. eexists. exists (fun _ => 1). split.
  { apply small_lawful. intros w t p ps m m' H _. unfold h5. destruct ps as [|[t1 v] [|q ps]]; try exact Logic.I. destruct (holds_pointer t1) eqn:E; [|exact Logic.I].
    assert (HA : forall x, m x = m' x) by (apply H; exists (t1, v); split; [left; reflexivity|exact E]).
    assert (HB : forall a n, bytes_at m a n = bytes_at m' a n) by (intros; unfold bytes_at; apply map_ext; intros; apply HA).
    rewrite HB. split; [reflexivity|]. split; [reflexivity|]. intros x _. apply HA. }
  split; [split; [seps|split; [links|split; [wholes|selves]]]|]. split; [vm_compute; reflexivity|]. split; vm_compute; reflexivity.
Qed.
Print Assumptions C24_param_refuted.

(* for (;;) ; : the search for the block after the empty ones has no end. *)
Definition d6 : def := mkDef 0 [goes_to 0 0 1; goes_to 0 0 1] [].
Theorem C24_ends_refuted : exists tab d, fit tab d /\ (forall fuel, optimize tab fuel d = None) /\ forall (M : machine Z) k w m, execute tab M k d w m = Running [].
Proof.
  exists tab3, d6. split; [constructor; [seps|links|apply Forall_nil|intros s s' x []|apply Forall_nil]|]. split.
  - intros fuel. assert (H : skip_jump fuel d6 0 false = None) by (induction fuel as [|fuel IH]; [reflexivity|exact IH]).
    unfold optimize. assert (E : serialize_basic_blocks d6 = [0; 1]%nat) by reflexivity. rewrite E. unfold skip_all. cbn [fold_left].
    assert (H2 : skip_empty_blocks fuel d6 0 = None) by (change (match skip_jump fuel d6 0 false with Some d => skip_jump fuel d 0 true | None => None end = None); rewrite H; reflexivity).
    rewrite H2. reflexivity.
  - intros M k w m. unfold execute. assert (HA : forall k n, (n < 2)%nat -> run tab3 M k d6 n (mkConf w m [] []) = Running []).
    { clear k. induction k as [|k IH]; intros n Hn; [reflexivity|]. destruct n as [|[|n]]; [apply (IH 1%nat); lia|apply (IH 1%nat); lia|lia]. }
    apply HA. cbn. lia.
Qed.
Print Assumptions C24_ends_refuted.
