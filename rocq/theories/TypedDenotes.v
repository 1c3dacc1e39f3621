(* What has a meaning has a type: the two specifications agree. *)
From Coq Require Import List Bool Arith ZArith Lia.
From Verif Require Import PtrModel PtrSpec PtrProofs PtrMain TypedModel TypedSpec TypedProofs.
Import ListNotations.
Open Scope Z_scope.
Definition kind_of (r : result) : cty * bool := match r with At t _ => (t, true) | Val t _ => (t, false) end.
Section Coherent.
Variable G : tagged.
Variable w : world.
Hypothesis GO : tags_ok G.
Hypothesis WO : world_ok w.
Lemma arith_kind ok f a b r : arith ok f a b = Some r -> exists s sg s' sg' z, fst a = TInt s sg /\ fst b = TInt s' sg' /\ r = Val (common s sg s' sg') z.
Proof.
  destruct a as [[|s sg| | |] x], b as [[|s' sg'| | |] y]; try discriminate. cbn [arith]. destruct (ok _ _ _); [|discriminate]. intros H. exists s, sg, s', sg'.
  unfold common in *. destruct (negb _) in H |- *; [destruct (fitsb _ _) in H; [|discriminate H]|]; injection H as <-; eauto.
Qed.
Lemma step_kind t p n q : step G t p n = Some q -> complete G t = true.
Proof. unfold step, complete. destruct (0 <? width G t); [reflexivity|discriminate]. Qed.
Lemma relation_kind f a b r o : (o = Lt \/ o = Gt \/ o = Le \/ o = Ge \/ o = Eq \/ o = Ne) -> relation f a b = Some r -> exists z, r = Val int z /\ type_binary G o (fst a) (fst b) = Some int.
Proof.
  intros O. destruct a as [[|s sg|t| |] x], b as [[|s' sg'|t'| |] y]; try discriminate; cbn [relation fst].
  - unfold truth. intros H. injection H as <-. eexists. split; [reflexivity|]. destruct O as [->|[->|[->|[->|[->| ->]]]]]; reflexivity.
  - destruct (same_type t t') eqn:S; [|discriminate]. unfold truth. intros H. injection H as <-. eexists. split; [reflexivity|].
    destruct O as [->|[->|[->|[->|[->| ->]]]]]; cbn [type_binary]; unfold when, same; rewrite ?S; reflexivity.
Qed.
Lemma calculate_kind o a b r : calculate G o a b = Some r -> exists t z, r = Val t z /\ type_binary G o (fst a) (fst b) = Some t.
Proof.
  intros H.
  assert (AR : forall ok f, arith ok f a b = Some r -> match o with Add | Sub | Mul | Div | Mod | And | Or | Xor => True | _ => False end -> exists t z, r = Val t z /\ type_binary G o (fst a) (fst b) = Some t).
  { intros ok f A O. destruct (arith_kind _ _ _ _ _ A) as (s & sg & s' & sg' & z & -> & -> & ->). do 2 eexists. split; [reflexivity|]. destruct o; try contradiction; reflexivity. }
  assert (RE : forall f, relation f a b = Some r -> (o = Lt \/ o = Gt \/ o = Le \/ o = Ge \/ o = Eq \/ o = Ne) -> exists t z, r = Val t z /\ type_binary G o (fst a) (fst b) = Some t).
  { intros f R O. destruct (relation_kind f a b r o O R) as (z & E & B). eauto. }
  assert (SH : forall left, shifted left a b = Some r -> o = Shl \/ o = Shr -> exists t z, r = Val t z /\ type_binary G o (fst a) (fst b) = Some t).
  { intros lf S O. destruct a as [[|s sg| | |] x], b as [[|s' sg'| | |] y]; try discriminate S. cbn [shifted fst] in *. exists (at_least_int s sg). unfold at_least_int.
    set (t := if s <? 4 then int else TInt s sg) in *. assert (X : exists z, r = Val t z).
    { destruct (_ && _) in S; [|discriminate S]. destruct lf; [|injection S as <-; eauto]. assert (T : exists u su, t = TInt u su) by (unfold t; destruct (s <? 4); unfold int; eauto). destruct T as (u & su & T). rewrite T in *.
      destruct su; [destruct (_ && _) in S; [|discriminate S]|]; injection S as <-; eauto. }
    destruct X as [z ->]. exists z. split; [reflexivity|]. destruct O as [-> | ->]; reflexivity. }
  assert (EQU : forall f, equality f a b = Some r -> o = Eq \/ o = Ne -> exists t z, r = Val t z /\ type_binary G o (fst a) (fst b) = Some t).
  { intros f E O. destruct a as [[|s sg|t| |] x], b as [[|s' sg'|t'| |] y]; try discriminate E;
      try (cbn [equality] in E; unfold truth in E; injection E as <-; do 2 eexists; split; [reflexivity|destruct O as [-> | ->]; reflexivity]). }
  destruct o; cbn [calculate] in H; try (eapply AR; [exact H|exact I]); try (eapply SH; [exact H|tauto]); try (eapply RE; [exact H|tauto]); try (eapply EQU; [exact H|tauto]).
  - destruct a as [[|s sg|t| |] x], b as [[|s' sg'|t'| |] y]; try discriminate H.
    + eapply AR; [exact H|exact I].
    + cbn [plus] in H. destruct (step G t' y x) as [q|] eqn:S; [|discriminate H]. injection H as <-. do 2 eexists. split; [reflexivity|]. cbn [fst type_binary]. rewrite (step_kind _ _ _ _ S). reflexivity.
    + cbn [plus] in H. destruct (step G t x y) as [q|] eqn:S; [|discriminate H]. injection H as <-. do 2 eexists. split; [reflexivity|]. cbn [fst type_binary]. rewrite (step_kind _ _ _ _ S). reflexivity.
  - destruct a as [[|s sg|t| |] x], b as [[|s' sg'|t'| |] y]; try discriminate H.
    + eapply AR; [exact H|exact I].
    + cbn [minus] in H. destruct (step G t x (- y)) as [q|] eqn:S; [|discriminate H]. injection H as <-. do 2 eexists. split; [reflexivity|]. cbn [fst type_binary]. rewrite (step_kind _ _ _ _ S). reflexivity.
    + cbn [minus] in H. destruct (same_type t t') as [<-|] eqn:S; [|discriminate H]. cbn [andb] in H. destruct (0 <? width G t) eqn:C; [|discriminate H]. destruct (_ && _) in H; [|discriminate H]. injection H as <-.
      do 2 eexists. split; [reflexivity|]. cbn [fst type_binary]. unfold when, same, complete. rewrite S, C. reflexivity.
Qed.
Lemma value_kind r v : (forall t z, r = Val t z -> scalar t = true) -> value_of w r = Some v -> decayed (kind_of r) = Some (fst v).
Proof.
  intros S H. destruct r as [t a|t z].
  - destruct t; try discriminate H; cbn [value_of held option_map] in H; injection H as <-; reflexivity.
  - injection H as <-. specialize (S t z eq_refl). destruct t; try discriminate S; reflexivity.
Qed.
Theorem denotes_typed e : types_ok G e -> forall r, denotes G w e = Some r -> typed G e = Some (kind_of r).
Proof.
  assert (VAL : forall e v, types_ok G e -> (forall r, denotes G w e = Some r -> typed G e = Some (kind_of r)) -> into (denotes G w e) (value_of w) = Some v ->
    into (typed G e) decayed = Some (fst v) /\ (scalar (fst v) = true -> type_ok G (fst v))).
  { intros e' v Y IH H. apply into_some in H as (r & D & V). rewrite (IH r D). cbn [into]. destruct (compile_ok G w GO WO e' _ Y D) as [O _].
    split.
    - apply value_kind; [|exact V]. intros t z ->. destruct O as [_ F]. destruct t; try contradiction F; reflexivity.
    - intros _. destruct r as [t a|t z]; [|injection V as <-; apply O]. destruct O as [Yt _]. destruct t; try discriminate V; cbn [value_of held option_map] in V; injection V as <-; try exact Yt. apply Yt. }
  induction e as [x t0|t0 z|a IHa i IHi|a IHa|a IHa|a IHa m|a IHa m|o a IHa b IHb|o a IHa|t0 a IHa]; cbn [types_ok]; intros Y r D; cbn [denotes] in D; cbn [typed].
  - injection D as <-. reflexivity.
  - destruct t0; try discriminate D. destruct (fitsb _ _); [|discriminate D]. injection D as <-. reflexivity.
  - destruct Y as [Ya Yi]. apply into_some in D as (va & Va & D). apply into_some in D as (vi & Vi & D). apply into_some in D as (s & P & D). apply into_some in D as (v & Vs & D).
    destruct (VAL a va Ya (IHa Ya) Va) as [-> _]. destruct (VAL i vi Yi (IHi Yi) Vi) as [-> _]. cbn [into].
    destruct (calculate_kind Add va vi s P) as (t & z & -> & ->). cbn [into]. injection Vs as <-. unfold object in D. destruct t; try discriminate D. injection D as <-. reflexivity.
  - apply into_some in D as (va & Va & D). destruct (VAL a va Y (IHa Y) Va) as [-> _]. cbn [into]. destruct va as [t p]. destruct t; try discriminate D. injection D as <-. reflexivity.
  - destruct (denotes G w a) as [[t p|]|] eqn:E; try discriminate D. injection D as <-. rewrite (IHa Y _ eq_refl). reflexivity.
  - apply into_some in D as (q & E & D). rewrite (IHa Y _ E). destruct q as [t p|]; [|discriminate D]. destruct t as [| | | |j]; try discriminate D. cbn [part kind_of member_of] in *.
    destruct (find _ _) as [[x [y t]]|]; [|discriminate D]. destruct (_ <? _) in D; [|discriminate D]. injection D as <-. reflexivity.
  - apply into_some in D as (va & Va & D). destruct (VAL a va Y (IHa Y) Va) as [-> _]. cbn [into]. apply into_some in D as (q & O & D). destruct va as [t p]. destruct t as [| |u| |]; try discriminate O. injection O as <-. cbn [fst].
    destruct u as [| | | |j]; try discriminate D. cbn [part kind_of member_of] in *.
    destruct (find _ _) as [[x [y t]]|]; [|discriminate D]. destruct (_ <? _) in D; [|discriminate D]. injection D as <-. reflexivity.
  - destruct Y as [Ya Yb]. apply into_some in D as (va & Va & D). apply into_some in D as (vb & Vb & D).
    destruct (VAL a va Ya (IHa Ya) Va) as [-> _]. destruct (VAL b vb Yb (IHb Yb) Vb) as [-> _]. cbn [into]. destruct (calculate_kind o va vb r D) as (t & z & -> & ->). reflexivity.
  - apply into_some in D as (va & Va & D). destruct (VAL a va Y (IHa Y) Va) as [-> YT]. cbn [into].
    assert (AR : forall ok f, arith ok f (int, 0) va = Some r -> match o with LNot => False | _ => True end -> option_map temporary (type_unary o (fst va)) = Some (kind_of r)).
    { intros ok f A O. destruct (arith_kind _ _ _ _ _ A) as (s & sg & s' & sg' & z & E1 & E2 & ->). injection E1 as <- <-. rewrite E2 in *. rewrite (common_least G s' sg' (YT eq_refl)). destruct o; try contradiction; reflexivity. }
    destruct o; cbn [unary] in D; try (eapply AR; [exact D|exact I]).
    destruct va as [t p]. destruct t; try discriminate D; unfold truth in D; injection D as <-; reflexivity.
  - destruct Y as [Yt Ya]. apply into_some in D as (va & Va & D). destruct (VAL a va Ya (IHa Ya) Va) as [-> _]. cbn [into]. destruct (scalar t0); [|discriminate D]. injection D as <-. reflexivity.
Qed.
End Coherent.
