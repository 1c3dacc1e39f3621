From Coq Require Import ZArith Lia Bool List.
From Verif Require Import TypeModel TypeSpec.
Import ListNotations.
Open Scope Z_scope.

Lemma in_sub a b : (lo b <= lo a /\ hi a <= hi b) -> forall v, in_range a v -> in_range b v.
Proof. unfold in_range. intros; lia. Qed.
Lemma not_in_sub a b : lo a <= hi a -> (lo a < lo b \/ hi b < hi a) -> ~ (forall v, in_range a v -> in_range b v).
Proof.
  intros H0 [H|H] X.
  - specialize (X (lo a)). unfold in_range in X. lia.
  - specialize (X (hi a)). unfold in_range in X. lia.
Qed.

Definition prom (k : ikind) : ikind := match k with Bool_ | SChar | UChar | Short | UShort | Int => Int | k => k end.
Ltac rng := first [apply in_sub; vm_compute; split; discriminate
                 | apply not_in_sub; [vm_compute; discriminate|vm_compute; auto]].

Lemma prom_ok k : Promoted k (prom k).
Proof.
  unfold Promoted. destruct k; cbn [prom];
  first [ left; split; [vm_compute; discriminate|split; [rng|reflexivity]]
        | right; left; split; [vm_compute; discriminate|split; [rng|reflexivity]]
        | right; right; split; [vm_compute; reflexivity|reflexivity]].
Qed.

Lemma promote_denotes t k : denotes t (I k) -> denotes (promote_integer t) (I (prom k)).
Proof.
  intros [Hp H]. unfold promote_integer, size_of, type_of. rewrite Hp.
  destruct k; [rewrite H; repeat split|destruct H as [H Hu]; rewrite H; cbn..];
    (split; [assumption||reflexivity|]); try (split; reflexivity); try (split; [exact H|exact Hu]).
Qed.

Lemma common_int_ok t1 t2 k1 k2 :
  denotes t1 (I k1) -> denotes t2 (I k2) -> exists k, denotes (usual_arithmetic_conversion t1 t2) (I k) /\
  Common_int (prom k1) (prom k2) k.
Proof.
  intros H1 H2. unfold usual_arithmetic_conversion.
  assert (N : forall t k, denotes t (I k) -> is_long_double t = false /\ is_double t = false /\ is_float t = false).
  { intros t k [Hp H]. unfold is_long_double, is_double, is_float, type_of. rewrite Hp.
    destruct k; [|destruct H as [H _]..]; rewrite H; auto. }
  destruct (N _ _ H1) as (-> & -> & ->). destruct (N _ _ H2) as (-> & -> & ->). cbn [orb].
  pose proof (promote_denotes _ _ H1) as P1. pose proof (promote_denotes _ _ H2) as P2.
  revert P1 P2. generalize (promote_integer t1) as p1, (promote_integer t2) as p2. cbv zeta. intros p1 p2 P1 P2.
  assert (U : forall t k, denotes t (I k) -> denotes (type_unqualified t) (I k)).
  { intros t k [Hp H]. unfold type_unqualified. rewrite Hp. split; [reflexivity|]. destruct k; exact H. }
  assert (S : forall t k, k <> Bool_ -> denotes t (I k) -> size_of t = width k / 8 /\ is_unsigned t = negb (signed k)).
  { intros t k Hk [Hp H]. unfold size_of, is_unsigned, is_bool, type_of. rewrite Hp.
    destruct k; [congruence|..]; cbn [denotes] in H; destruct H as [H Hu]; rewrite H, Hu; split; reflexivity. }
  assert (B : forall k, prom k <> Bool_) by (intros []; discriminate).
  destruct (S _ _ (B k1) P1) as [-> U1]. destruct (S _ _ (B k2) P2) as [-> _]. rewrite U1.
  assert (Q : forall k, prom k = Int \/ prom k = UInt \/ prom k = Long \/ prom k = ULong) by (intros []; cbn; auto).
  destruct (Q k1) as [E1|[E1|[E1|E1]]]; rewrite E1 in *; destruct (Q k2) as [E2|[E2|[E2|E2]]]; rewrite E2 in *;

  (change (width Int / 8) with 4 || idtac); (change (width UInt / 8) with 4 || idtac);
  (change (width Long / 8) with 8 || idtac); (change (width ULong / 8) with 8 || idtac); cbn [Z.ltb Z.compare Pos.compare Pos.compare_cont signed negb];
  first [ exists Int; split; [apply U; assumption|] | exists UInt; split; [apply U; assumption|]
        | exists Long; split; [apply U; assumption|] | exists ULong; split; [apply U; assumption|] ];
  unfold Common_int;
  first
   [ left; split; reflexivity
   | right; left; split; [discriminate|split; [reflexivity|split; [vm_compute; reflexivity|reflexivity]]]
   | right; right; left; split; [discriminate|split; [reflexivity|split; [vm_compute; reflexivity|reflexivity]]]
   | right; right; right;
     first [ exists Int, UInt; split; [solve [auto]|split; [reflexivity|split; [reflexivity|left; split; [vm_compute; discriminate|reflexivity]]]]
           | exists Int, ULong; split; [solve [auto]|split; [reflexivity|split; [reflexivity|left; split; [vm_compute; discriminate|reflexivity]]]]
           | exists Long, ULong; split; [solve [auto]|split; [reflexivity|split; [reflexivity|left; split; [vm_compute; discriminate|reflexivity]]]]
           | exists Long, UInt; split; [solve [auto]|split; [reflexivity|split; [reflexivity|right; left; split; [vm_compute; reflexivity|split; [rng|reflexivity]]]]]] ].
Qed.

Lemma common_ok t1 t2 a1 a2 : denotes t1 a1 -> denotes t2 a2 ->
  exists c, denotes (usual_arithmetic_conversion t1 t2) c /\ Common a1 a2 c.
Proof.
  intros H1 H2.
  assert (F : forall t a, denotes t a ->
    (is_long_double t = match a with LongDouble => true | _ => false end) /\
    (is_double t = match a with Double => true | _ => false end) /\
    (is_float t = match a with Float => true | _ => false end)).
  { intros t a [Hp H]. unfold is_long_double, is_double, is_float, type_of. rewrite Hp.
    destruct a as [[]| | |]; [|destruct H as [H _]..]; rewrite H; auto. }
  destruct a1 as [k1| | |], a2 as [k2| | |].
  { destruct (common_int_ok t1 t2 k1 k2 H1 H2) as (k & HD & HC). exists (I k). split; [exact HD|].
    right; right; right. exists k1, k2, (prom k1), (prom k2), k. repeat split; auto using prom_ok. }
  all: destruct (F _ _ H1) as (L1 & D1 & F1); destruct (F _ _ H2) as (L2 & D2 & F2);
    unfold usual_arithmetic_conversion; rewrite L1, L2; cbn [orb]; try rewrite D1, D2; cbn [orb]; try rewrite F1, F2; cbn [orb];
    first [ exists LongDouble; split; [vm_compute; auto|]; left; split; auto; fail
          | exists Double; split; [vm_compute; auto|]; right; left; repeat split; auto; discriminate
          | exists Float; split; [vm_compute; auto|]; right; right; left; repeat split; auto; discriminate ].
Qed.

Lemma common_unqualified t1 t2 a1 a2 : denotes t1 a1 -> denotes t2 a2 -> unqualified (usual_arithmetic_conversion t1 t2).
Proof.
  intros H1 H2. destruct (common_ok _ _ _ _ H1 H2) as (c & [Hp _] & _). revert Hp.
  unfold usual_arithmetic_conversion.
  match goal with |- context [type_unqualified ?y] => generalize y end. intros x. unfold type_unqualified, unqualified.
  destruct (ty_pointer x) eqn:E; cbn; [discriminate|auto].
Qed.

(* the relation is a function *)
Lemma promoted_unique k p q : Promoted k p -> Promoted k q -> p = q.
Proof.
  unfold Promoted. intros [(A1 & A2 & ->)|[(A1 & A2 & ->)|(A1 & ->)]] [(B1 & B2 & ->)|[(B1 & B2 & ->)|(B1 & ->)]]; try reflexivity; try contradiction; lia.
Qed.

Lemma common_int_unique a b c d : Common_int a b c -> Common_int a b d -> c = d.
Proof.
  unfold Common_int. intros HA HB.
  destruct HA as [(A1 & ->)|[(A1 & A2 & A3 & ->)|[(A1 & A2 & A3 & ->)|(s & u & A1 & A2 & A3 & A4)]]];
  destruct HB as [(B1 & ->)|[(B1 & B2 & B3 & ->)|[(B1 & B2 & B3 & ->)|(s' & u' & B1 & B2 & B3 & B4)]]];
  try reflexivity; try congruence; try lia;
  try (exfalso; destruct A1 as [[-> ->]|[-> ->]]; congruence);
  try (exfalso; destruct B1 as [[-> ->]|[-> ->]]; congruence).
  assert (s = s' /\ u = u') as [<- <-].
  { destruct A1 as [[-> ->]|[-> ->]], B1 as [[-> ->]|[-> ->]]; auto; congruence. }
  destruct A4 as [(X1 & ->)|[(X1 & X2 & ->)|(X1 & X2 & ->)]], B4 as [(Y1 & ->)|[(Y1 & Y2 & ->)|(Y1 & Y2 & ->)]];
    try reflexivity; try contradiction; lia.
Qed.

Lemma common_unique a b c d : Common a b c -> Common a b d -> c = d.
Proof.
  unfold Common. intros HA HB.
  destruct HA as [(A1 & ->)|[(A1 & A2 & A3 & ->)|[(A1 & A2 & A3 & A4 & A5 & ->)|(i & j & p & q & k & -> & -> & P1 & P2 & C & ->)]]];
  destruct HB as [(B1 & ->)|[(B1 & B2 & B3 & ->)|[(B1 & B2 & B3 & B4 & B5 & ->)|(i' & j' & p' & q' & k' & E1 & E2 & Q1 & Q2 & C' & ->)]]];
  try reflexivity; try (intuition congruence).
  injection E1 as <-. injection E2 as <-. rewrite (promoted_unique _ _ _ P1 Q1), (promoted_unique _ _ _ P2 Q2) in C.
  rewrite (common_int_unique _ _ _ _ C C'). reflexivity.
Qed.

Lemma common_sym a b c : Common a b c -> Common b a c.
Proof.
  unfold Common. intros [(A1 & ->)|[(A1 & A2 & A3 & ->)|[(A1 & A2 & A3 & A4 & A5 & ->)|(i & j & p & q & k & -> & -> & P1 & P2 & C & ->)]]].
  - left; tauto. - right; left; tauto. - right; right; left; tauto.
  - right; right; right. exists j, i, q, p, k. repeat split; auto.
    unfold Common_int in *. destruct C as [(A1 & ->)|[(A1 & A2 & A3 & ->)|[(A1 & A2 & A3 & ->)|(s & u & A1 & A2 & A3 & A4)]]].
    + left; auto. + right; right; left; auto. + right; left; auto.
    + right; right; right. exists s, u. tauto.
Qed.

Lemma default_ok t a : denotes t a -> exists c, denotes (default_argument_promotion t) c /\ DefaultArg a c.
Proof.
  intros [Hp H]. unfold default_argument_promotion, is_float, is_integer, between, type_of. rewrite Hp.
  destruct a as [k| | |].
  - exists (I (prom k)). split; [|exists (prom k); split; [apply prom_ok|reflexivity]].
    pose proof (promote_denotes t k (conj Hp H)) as HD.
    destruct k; [|destruct H as [H Hu]..]; rewrite H; exact HD.
  - exists Double. destruct H as [-> _]. split; [repeat split|reflexivity].
  - exists Double. destruct H as [H H']. rewrite H. split; [split; auto|reflexivity].
  - exists LongDouble. destruct H as [H H']. rewrite H. split; [split; auto|reflexivity].
Qed.
