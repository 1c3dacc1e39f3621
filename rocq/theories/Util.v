(* Generic list helpers shared by the models.  No lacc code is modelled here. *)
From Coq Require Import List Arith ZArith Lia Bool.
Import ListNotations.

(* Functional array store: replace element [i] of [l] (no effect out of bounds). *)
Fixpoint upd {A} (l : list A) (i : nat) (x : A) : list A :=
  match l, i with
  | [], _ => []
  | _ :: t, O => x :: t
  | a :: t, S j => a :: upd t j x
  end.

Lemma upd_length {A} (l : list A) i x : length (upd l i x) = length l.
Proof. revert i; induction l as [|a l IH]; intros [|i]; simpl; auto. Qed.

Lemma nth_error_upd_same {A} (l : list A) i x :
  i < length l -> nth_error (upd l i x) i = Some x.
Proof. revert i; induction l as [|a l IH]; intros [|i] H; simpl in *; try lia; auto. apply IH; lia. Qed.

Lemma nth_error_upd_other {A} (l : list A) i j x :
  i <> j -> nth_error (upd l i x) j = nth_error l j.
Proof.
  revert i j; induction l as [|a l IH]; intros [|i] [|j] H; simpl; auto; try congruence.
Qed.

Lemma upd_out {A} (l : list A) i x : length l <= i -> upd l i x = l.
Proof. revert i; induction l as [|a l IH]; intros [|i] H; simpl in *; auto; try lia. f_equal; apply IH; lia. Qed.

Lemma upd_app_l {A} (l1 l2 : list A) i x :
  i < length l1 -> upd (l1 ++ l2) i x = upd l1 i x ++ l2.
Proof. revert i; induction l1 as [|a l1 IH]; intros [|i] H; simpl in *; try lia; auto. f_equal; apply IH; lia. Qed.

Lemma upd_app_r {A} (l1 l2 : list A) i x :
  length l1 <= i -> upd (l1 ++ l2) i x = l1 ++ upd l2 (i - length l1) x.
Proof. revert i; induction l1 as [|a l1 IH]; intros i H; simpl in *.
  - now rewrite Nat.sub_0_r.
  - destruct i as [|i]; [lia|]. simpl. f_equal. apply IH; lia. Qed.

(* Number of elements satisfying a predicate. *)
Fixpoint countb {A} (f : A -> bool) (l : list A) : nat :=
  match l with [] => 0 | a :: t => (if f a then 1 else 0) + countb f t end.

Lemma countb_le {A} (f : A -> bool) l : countb f l <= length l.
Proof. induction l as [|a l IH]; simpl; auto. destruct (f a); lia. Qed.

Lemma countb_lt_ex {A} (f : A -> bool) l :
  countb f l < length l -> exists i a, nth_error l i = Some a /\ f a = false.
Proof.
  induction l as [|a l IH]; simpl; intro H; [lia|].
  destruct (f a) eqn:E.
  - destruct IH as (i & b & Hi & Hb); [lia|]. exists (S i), b; auto.
  - exists 0, a; auto.
Qed.

Lemma countb_upd {A} (f : A -> bool) l i x a :
  nth_error l i = Some a ->
  countb f (upd l i x) + (if f a then 1 else 0) = countb f l + (if f x then 1 else 0).
Proof.
  revert i; induction l as [|b l IH]; intros [|i] H; simpl in *; try discriminate.
  - injection H as ->. destruct (f a), (f x); lia.
  - specialize (IH _ H). lia.
Qed.

Lemma countb_repeat_false {A} (f : A -> bool) x n : f x = false -> countb f (repeat x n) = 0.
Proof. intro H; induction n as [|n IH]; simpl; [easy|]. rewrite H; exact IH. Qed.

Lemma nth_error_repeat_inv {A} (x y : A) n i : nth_error (repeat x n) i = Some y -> y = x /\ i < n.
Proof.
  revert i; induction n as [|n IH]; intros [|i] H; simpl in *; try discriminate.
  - injection H as <-; split; [easy|lia].
  - apply IH in H; split; [tauto|lia].
Qed.

(* [find_index f l]: first index of [l] whose element satisfies [f]. *)
Fixpoint first_idx {A} (f : A -> bool) (ord : list A) : option A :=
  match ord with [] => None | i :: t => if f i then Some i else first_idx f t end.

Lemma first_idx_app {A} (f : A -> bool) l1 l2 :
  first_idx f (l1 ++ l2) = match first_idx f l1 with Some x => Some x | None => first_idx f l2 end.
Proof. induction l1 as [|a l1 IH]; simpl; [easy|]. destruct (f a); auto. Qed.

Lemma first_idx_Some {A} (f : A -> bool) l x :
  first_idx f l = Some x <-> exists p s, l = p ++ x :: s /\ f x = true /\ Forall (fun y => f y = false) p.
Proof.
  induction l as [|a l IH]; simpl.
  - split; [discriminate|]. intros (p & s & H & _); destruct p; discriminate.
  - destruct (f a) eqn:E; split.
    + intros [= <-]. exists [], l; auto.
    + intros (p & s & H & Hx & Hp). destruct p as [|b p]; injection H as -> ->; [easy|].
      inversion Hp; congruence.
    + intro H. apply IH in H as (p & s & -> & Hx & Hp). exists (a :: p), s; auto.
    + intros (p & s & H & Hx & Hp). destruct p as [|b p]; injection H as -> ->; [congruence|].
      apply IH. inversion Hp; subst. eauto.
Qed.

Lemma first_idx_None {A} (f : A -> bool) l :
  first_idx f l = None <-> forall x, In x l -> f x = false.
Proof.
  induction l as [|a l IH]; simpl.
  - split; [tauto|easy].
  - destruct (f a) eqn:E; split.
    + discriminate.
    + intro H. rewrite (H a) in E; auto; discriminate.
    + intros H x [<-|Hx]; auto. apply IH; auto.
    + intros H. apply IH; auto.
Qed.

Lemma first_idx_ext {A} (f g : A -> bool) l :
  (forall x, In x l -> f x = g x) -> first_idx f l = first_idx g l.
Proof.
  induction l as [|a l IH]; simpl; intro H; [easy|].
  rewrite (H a) by auto. destruct (g a); auto.
Qed.

Lemma first_idx_In {A} (f : A -> bool) l x : first_idx f l = Some x -> In x l /\ f x = true.
Proof. intro H. apply first_idx_Some in H as (p & s & -> & Hx & _). split; [|easy]. apply in_or_app; simpl; auto. Qed.
