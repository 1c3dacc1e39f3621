(* Depth first search over numbered nodes, for the passes that colour blocks black. *)
From Coq Require Import List Bool Arith Lia.
Import ListNotations.

Definition mem (b : nat) (l : list nat) : bool := existsb (Nat.eqb b) l.
Lemma mem_in : forall b l, mem b l = true <-> In b l.
Proof.
  intros. unfold mem. rewrite existsb_exists. split.
  - intros (x & I & E). apply Nat.eqb_eq in E. subst. exact I.
  - intro I. exists b. split; [exact I|apply Nat.eqb_refl].
Qed.
Lemma mem_not : forall b l, mem b l = false <-> ~ In b l.
Proof. intros. rewrite <- mem_in. destruct (mem b l); split; congruence. Qed.

Section Dfs.
Variable succs : nat -> list nat.

Fixpoint each (f : list nat -> nat -> option (list nat)) (black : list nat) (l : list nat) : option (list nat) :=
  match l with
  | [] => Some black
  | b :: r => match f black b with Some black' => each f black' r | None => None end
  end.
Fixpoint dfs (fuel : nat) (black : list nat) (b : nat) : option (list nat) :=
  match fuel with
  | O => None
  | S n => if mem b black then Some black else each (dfs n) (black ++ [b]) (succs b)
  end.

Inductive path : nat -> nat -> Prop :=
| path_here : forall b, path b b
| path_step : forall b c d, In c (succs b) -> path c d -> path b d.
Lemma path_trans : forall a b c, path a b -> path b c -> path a c.
Proof. induction 1; [auto|]. intro. eapply path_step; eauto. Qed.
Lemma path_last : forall a b c, path a b -> In c (succs b) -> path a c.
Proof. intros. eapply path_trans; [eassumption|]. eapply path_step; [eassumption|apply path_here]. Qed.

(* black' extends black with new nodes, reachable from a root, whose successors are in `ok`. *)
Definition extends (roots black black' : list nat) : Prop :=
  exists new, black' = black ++ new /\ (NoDup black -> NoDup black') /\
    (forall x, In x new -> (exists r, In r roots /\ path r x) /\ (forall y, In y (succs x) -> In y black')).

Lemma dfs_extends : forall fuel black b black', dfs fuel black b = Some black' -> extends [b] black black' /\ In b black'.
Proof.
  induction fuel as [|n IH]; intros black b black' H; [discriminate|]. cbn [dfs] in H.
  destruct (mem b black) eqn:M.
  - inversion H; subst. split; [|apply mem_in; exact M]. exists []. rewrite app_nil_r. split; [reflexivity|]. split; [auto|]. intros x [].
  - assert (E : forall l bl bl', each (dfs n) bl l = Some bl' -> extends l bl bl' /\ (forall x, In x l -> In x bl')).
    { clear H. induction l as [|c l IHl]; intros bl bl' H; simpl in H.
      - inversion H; subst. split; [|intros x []]. exists []. rewrite app_nil_r. split; [reflexivity|]. split; [auto|]. intros x [].
      - destruct (dfs n bl c) as [bl1|] eqn:D; [|discriminate]. apply IH in D as [(n1 & E1 & N1 & P1) I1]. apply IHl in H as [(n2 & E2 & N2 & P2) I2].
        split.
        + exists (n1 ++ n2). split; [rewrite E2, E1, app_assoc; reflexivity|]. split; [auto|].
          intros x X. apply in_app_or in X as [X|X].
          * destruct (P1 x X) as [(r & [R|[]] & P) S]. split; [exists r; subst; split; [left; reflexivity|exact P]|].
            intros y Y. rewrite E2. apply in_or_app. left. apply S. exact Y.
          * destruct (P2 x X) as [(r & R & P) S]. split; [exists r; split; [right; exact R|exact P]|exact S].
        + intros x [->|X]; [rewrite E2; apply in_or_app; left; exact I1|auto]. }
    apply E in H as [(new & EQ & N & P) I]. assert (IB : In b black') by (rewrite EQ; apply in_or_app; left; apply in_or_app; right; left; reflexivity).
    split; [|exact IB]. exists (b :: new). split; [rewrite EQ, <- app_assoc; reflexivity|]. split.
    + intro ND. apply N. apply NoDup_rev in ND. rewrite <- (rev_involutive (black ++ [b])). apply NoDup_rev. rewrite rev_app_distr. simpl.
      constructor; [rewrite <- in_rev; apply mem_not; exact M|exact ND].
    + intros x [<-|X].
      * split; [exists b; split; [left; reflexivity|apply path_here]|exact I].
      * destruct (P x X) as [(r & R & PT) S]. split; [|exact S]. exists b. split; [left; reflexivity|]. eapply path_step; eassumption.
Qed.

Lemma dfs_reachable : forall fuel b l, dfs fuel [] b = Some l -> NoDup l /\ forall x, In x l <-> path b x.
Proof.
  intros fuel b l H. apply dfs_extends in H as [(new & E & N & P) I]. simpl in E. subst new. split; [apply N; constructor|].
  intro x. split.
  - intro X. destruct (P x X) as [(r & [<-|[]] & PT) _]. exact PT.
  - intro PT. assert (C : forall y z, In y l -> In z (succs y) -> In z l) by (intros y z Y Z; apply (P y Y); exact Z).
    clear P N. revert I. induction PT as [b|b c d S PT IH]; intro I; [exact I|]. apply IH. eapply C; eassumption.
Qed.

(* Enough fuel: one more than the number of nodes below N that are not black. *)
Definition white (N : nat) (black : list nat) : nat := length (filter (fun x => negb (mem x black)) (seq 0 N)).
Lemma white_mono : forall N a b, (forall x, In x a -> In x b) -> white N b <= white N a.
Proof.
  intros N a b H. unfold white. generalize (seq 0 N). induction l as [|x l IH]; simpl; [lia|].
  destruct (mem x a) eqn:A, (mem x b) eqn:B; simpl; try lia. apply mem_in in A. apply mem_not in B. exfalso. auto.
Qed.
Lemma white_add : forall N black b, b < N -> mem b black = false -> white N (black ++ [b]) < white N black.
Proof.
  intros N black b L M. unfold white. assert (I : In b (seq 0 N)) by (apply in_seq; lia). revert I. generalize (seq 0 N).
  assert (LE : forall l, length (filter (fun x => negb (mem x (black ++ [b]))) l) <= length (filter (fun x => negb (mem x black)) l)).
  { induction l as [|x l IH]; simpl; [lia|]. assert (mem x black = true -> mem x (black ++ [b]) = true) by (rewrite !mem_in, in_app_iff; auto).
    destruct (mem x black); [rewrite H by reflexivity; simpl; lia|]. destruct (mem x (black ++ [b])); simpl; lia. }
  induction l as [|x l IH]; intro I; [contradiction|]. simpl. destruct I as [->|I].
  - rewrite M. replace (mem b (black ++ [b])) with true by (symmetry; apply mem_in, in_or_app; right; left; reflexivity). simpl. specialize (LE l). lia.
  - specialize (IH I). specialize (LE [x]). simpl in LE. destruct (mem x (black ++ [b])), (mem x black); simpl in *; lia.
Qed.
Lemma dfs_fuel : forall N, (forall b c, b < N -> In c (succs b) -> c < N) -> forall fuel black b, b < N -> white N black < fuel ->
  exists black', dfs fuel black b = Some black'.
Proof.
  intros N C. induction fuel as [|n IH]; intros black b B F; [lia|]. cbn [dfs].
  destruct (mem b black) eqn:M; [eauto|].
  assert (E : forall l bl, (forall x, In x l -> x < N) -> white N bl < n -> exists bl', each (dfs n) bl l = Some bl').
  { induction l as [|c l IHl]; intros bl L W; simpl; [eauto|].
    destruct (IH bl c) as (bl1 & D); [apply L; left; reflexivity|exact W|]. rewrite D.
    apply IHl; [intros; apply L; right; assumption|]. apply dfs_extends in D as [(new & -> & _) _].
    eapply Nat.le_lt_trans; [|exact W]. apply white_mono. intros x X. apply in_or_app. auto. }
  apply E; [intros; eapply C; eassumption|]. pose proof (white_add N black b B M). lia.
Qed.
Lemma white_nil : forall N, white N [] = N.
Proof. intro N. unfold white. simpl. rewrite <- (seq_length N 0) at 2. f_equal. induction (seq 0 N); simpl; congruence. Qed.
End Dfs.
