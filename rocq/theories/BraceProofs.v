From Coq Require Import List ZArith Bool Arith Lia.
From Verif Require Import BraceModel BraceSpec.
Import ListNotations.

Section Ind.
Variable P : ty -> Prop.
Variable HS : forall c s, P (TS c s).
Variable HA : forall n u, P u -> P (TA n u).
Variable HG : forall u id s ms, (forall m t, In (m, t) ms -> P t) -> P (TG u id s ms).
Fixpoint ty_ind2 (t : ty) : P t :=
  match t with
  | TS c s => HS c s
  | TA n u => HA n u (ty_ind2 u)
  | TG u id s ms =>
    HG u id s ms ((fix go (l : list (minfo * ty)) : forall m t, In (m, t) l -> P t :=
      match l with
      | [] => fun m t H => match H with end
      | (m0, t0) :: l => fun m t H =>
        match H with
        | or_introl e => match e in _ = y return P (snd y) with eq_refl => ty_ind2 t0 end
        | or_intror H => go l m t H
        end
      end) ms)
  end.
End Ind.

(* --- the first element, and how far a list goes without designators --- *)
Definition first (u : ty) (i : init) : option (given * path) :=
  match i with
  | IE e => match descend u e with Some r => Some ([(r, e)], r) | None => None end
  | IB _ _ => match object u i with Some o => Some (o, []) | None => None end
  end.
Definition stops (l : items) : bool := match l with ICons [] _ _ => false | _ => true end.
Fixpoint walk (t : ty) (next : option path) (l : items) : option (given * items * option path) :=
  match l with
  | ICons [] i l' =>
    match next with
    | None => Some ([], l, None)
    | Some q =>
      match type_at t q with
      | Some u =>
        match first u i with
        | Some (o, r) => match walk t (succ t (q ++ r)) l' with Some (o', l2, n) => Some (under q o ++ o', l2, n) | None => None end
        | None => None
        end
      | None => None
      end
    end
  | _ => Some ([], l, next)
  end.
Fixpoint wok (t : ty) (chosen : path) (next : option path) (l : items) : bool :=
  match l with
  | ICons [] i l' =>
    match next with
    | None => true
    | Some q =>
      match type_at t q with
      | Some u =>
        match first u i with
        | Some (_, r) =>
          fine false u i && match l' with INil => true | ICons d _ _ => leave false t chosen (q ++ r) d end && wok t chosen (succ t (q ++ r)) l'
        | None => true
        end
      | None => true
      end
    end
  | _ => true
  end.
Lemma under_nil q : under q [] = []. Proof. reflexivity. Qed.
Lemma under_app q a b : under q (a ++ b) = under q a ++ under q b. Proof. apply map_app. Qed.
Lemma under_under p q o : under p (under q o) = under (p ++ q) o.
Proof. unfold under. rewrite map_map. apply map_ext. intros x. cbn. rewrite app_assoc. reflexivity. Qed.
Lemma under_0 o : under [] o = o.
Proof. unfold under. rewrite <- (map_id o) at 2. apply map_ext. intros [a b]. reflexivity. Qed.
Lemma succ_nil t : succ t [] = None. Proof. reflexivity. Qed.
Lemma succ_cons t k u p : sub t k = Some u -> succ t (k :: p) = match succ u p with Some s => Some (k :: s) | None => succ t [k] end.
Proof. intros H. cbn [succ]. rewrite H. destruct (succ u p); reflexivity. Qed.

(* the list goes on in the same subobject, or after it *)
Definition lift (t : ty) (k : nat) (n : option path) : option path := match n with Some s => Some (k :: s) | None => succ t [k] end.
Lemma lift_succ t k u p : sub t k = Some u -> succ t (k :: p) = lift t k (succ u p).
Proof. intros H. rewrite (succ_cons _ _ _ _ H). reflexivity. Qed.
Lemma list_first t next d i l : list_ t next (ICons d i l) =
  match (match d with [] => next | _ => resolve t d end) with
  | Some q =>
    match type_at t q with
    | Some u =>
      match first u i with
      | Some (o, r) => match list_ t (succ t (q ++ r)) l with Some o' => Some (under q o ++ o') | None => None end
      | None => None
      end
    | None => None
    end
  | None => None
  end.
Proof.
  cbn [list_]. destruct (match d with [] => next | _ => resolve t d end) as [q|]; [|reflexivity]. destruct (type_at t q) as [u|]; [|reflexivity].
  destruct i as [e|l0 c].
  - cbn [first]. destruct (descend u e) as [r|]; [|reflexivity]. destruct (list_ t (succ t (q ++ r)) l); reflexivity.
  - unfold first. destruct (object u (IB l0 c)) as [o|]; [|reflexivity]. rewrite app_nil_r. reflexivity.
Qed.
Lemma walk_sub t k u : sub t k = Some u -> forall l n,
  walk t (lift t k n) l =
  match walk u n l with
  | Some (o, l2, n2) =>
    if stops l2 then Some (under [k] o, l2, lift t k n2)
    else match walk t (succ t [k]) l2 with Some (o', l3, n3) => Some (under [k] o ++ o', l3, n3) | None => None end
  | None => None
  end.
Proof.
  intros H. induction l as [|d i l IH]; intros n; [destruct n; reflexivity|].
  destruct d as [|x d]; [|destruct n; reflexivity].
  destruct n as [s|].
  2: { cbn [lift]. change (walk u None (ICons [] i l)) with (Some (@nil (path * elem), ICons [] i l, @None path)). cbn [stops].
       destruct (walk t (succ t [k]) (ICons [] i l)) as [[[o l2] n2]|]; reflexivity. }
  cbn [lift walk type_at]. rewrite H. destruct (type_at u s) as [v|]; [|reflexivity]. destruct (first v i) as [[o r]|]; [|reflexivity].
  cbn [app]. rewrite (lift_succ _ _ _ _ H). rewrite IH. destruct (walk u (succ u (s ++ r)) l) as [[[o' l2] n2]|]; [|reflexivity].
  destruct (stops l2).
  - rewrite under_app, under_under. reflexivity.
  - destruct (walk t (succ t [k]) l2) as [[[o2 l3] n3]|]; [|reflexivity]. rewrite under_app, under_under, <- app_assoc. reflexivity.
Qed.
Lemma walk_nonstop u : forall l n o l2 n2, walk u n l = Some (o, l2, n2) -> stops l2 = false -> n2 = None.
Proof.
  induction l as [|d i l IH]; intros n o l2 n2 H S; [injection H as <- <- <-; discriminate S|]. destruct d; [|injection H as <- <- <-; discriminate S].
  cbn [walk] in H. destruct n as [q|]; [|injection H as <- <- <-; reflexivity].
  destruct (type_at u q) as [v|]; [|discriminate]. destruct (first v i) as [[o1 r]|]; [|discriminate].
  destruct (walk u (succ u (q ++ r)) l) as [[[o2 l3] n3]|] eqn:W; [|discriminate]. injection H as <- <- <-. exact (IH _ _ _ _ W S).
Qed.
Lemma list_walk t : forall l n, stops l = false -> list_ t n l =
  match walk t n l with
  | Some (o, l2, n2) => match list_ t n2 l2 with Some o' => Some (o ++ o') | None => None end
  | None => None
  end.
Proof.
  induction l as [|d i l IH]; intros n S; [discriminate|]. destruct d; [|discriminate]. clear S.
  rewrite list_first. cbn [walk]. destruct n as [q|]; [|reflexivity]. destruct (type_at t q) as [v|]; [|reflexivity].
  destruct (first v i) as [[o1 r]|]; [|reflexivity]. destruct (stops l) eqn:S.
  - destruct l as [|[|x d] i2 l2]; try discriminate S; cbn [walk]; rewrite app_nil_r; reflexivity.
  - rewrite (IH _ eq_refl). destruct (walk t (succ t (q ++ r)) l) as [[[o2 l3] n3]|]; [|reflexivity].
    destruct (list_ t n3 l3); [rewrite app_assoc; reflexivity|reflexivity].
Qed.
(* with a designator what was next does not matter *)
Lemma list_designated t n m d i l : d <> [] -> list_ t n (ICons d i l) = list_ t m (ICons d i l).
Proof. intros H. rewrite !list_first. destruct d; [congruence|reflexivity]. Qed.
Lemma list_resolve t n d i l q : d <> [] -> resolve t d = Some q -> list_ t n (ICons d i l) = list_ t (Some q) (ICons [] i l).
Proof. intros H R. rewrite !list_first. destruct d; [congruence|]. rewrite R. reflexivity. Qed.

Definition here (chosen : path) (k : nat) : bool := match chosen with j :: _ => Nat.eqb j k | [] => false end.
Definition below (chosen : path) (k : nat) : path := if here chosen k then tl chosen else [].
Definition node_ok (t : ty) (k : nat) (h : bool) (d : list desig) : bool :=
  match t, d with
  | TG true _ _ _, [] | TG true _ _ _, DIndex _ :: _ => false
  | TG false _ _ _, [] => negb (at_end t k && h)
  | TG false _ _ _, DIndex _ :: _ => at_end t k && negb h
  | _, _ => true
  end.
Lemma leave_cons root t chosen k p d u : sub t k = Some u -> leave root t chosen (k :: p) d =
  leave false u (below chosen k) p d && (root || match d, succ u p with [], Some _ => true | _, _ => node_ok t k (here chosen k) d end).
Proof. intros H. cbn [leave]. rewrite H. reflexivity. Qed.
Definition hd_d (l : items) : option (list desig) := match l with ICons d _ _ => Some d | INil => None end.
Lemma wok_sub t k u chosen : sub t k = Some u -> forall l s o l2 n2,
  wok t chosen (Some (k :: s)) l = true -> stops l = false -> walk u (Some s) l = Some (o, l2, n2) ->
  wok u (below chosen k) (Some s) l = true
  /\ (forall d, hd_d l2 = Some d -> node_ok t k (here chosen k) d = true)
  /\ wok t chosen (lift t k n2) l2 = true.
Proof.
  intros H. induction l as [|d i l IH]; intros s o l2 n2 W S K; [discriminate S|]. destruct d; [clear S|discriminate S].
  cbn [wok walk type_at] in *. rewrite H in W. destruct (type_at u s) as [v|]; [|discriminate K]. destruct (first v i) as [[o1 r]|]; [|discriminate K].
  destruct (walk u (succ u (s ++ r)) l) as [[[o' l3] n3]|] eqn:K1; [|discriminate K]. injection K as <- <- <-.
  cbn [app] in W. apply andb_true_iff in W. destruct W as [W W3]. apply andb_true_iff in W. destruct W as [W1 W2]. rewrite W1.
  rewrite (lift_succ _ _ _ _ H) in W3.
  destruct l as [|d i2 l].
  - cbn [walk] in K1. injection K1 as <- <- <-. repeat split; try discriminate. 
  - rewrite (leave_cons _ _ _ _ _ _ _ H) in W2. apply andb_true_iff in W2. destruct W2 as [W2 W4]. rewrite W2. cbn [orb andb] in *.
    destruct d as [|x d].
    + destruct (succ u (s ++ r)) as [s'|] eqn:Q.
      * cbn [lift] in W3. exact (IH _ _ _ _ W3 eq_refl K1).
      * injection K1 as <- <- <-. repeat split; [intros d E; injection E as <-; exact W4|exact W3].
    + injection K1 as <- <- <-. repeat split. intros d' E. injection E as <-. destruct (succ u (s ++ r)); exact W4.
Qed.

Definition cond (t : ty) (chosen : path) (k c : nat) (d : list desig) : Prop :=
  match t, d with
  | TG true _ _ _, _ :: _ => forall q, resolve t d = Some q -> hd 0 q <> k
  | TG false _ _ _, _ :: _ => at_end t k = true -> here chosen k = true
  | TA n _, [] => succ t [k] <> None -> n = 0 \/ c < n
  | _, _ => True
  end.
Lemma fine_sub t k u chosen : sub t k = Some u -> forall l c s o l2 n2,
  fine_list t chosen c (Some (k :: s)) l = true -> stops l = false -> walk u (Some s) l = Some (o, l2, n2) ->
  wok u (below chosen k) (Some s) l = true
  /\ (forall d, hd_d l2 = Some d -> cond t chosen k (Nat.max c (S k)) d)
  /\ fine_list t chosen (Nat.max c (S k)) (lift t k n2) l2 = true.
Proof.
  intros H. induction l as [|d i l IH]; intros c s o l2 n2 W S K; [discriminate S|]. destruct d; [clear S|discriminate S].
  cbn [wok fine_list walk type_at] in *. rewrite H in W. destruct (type_at u s) as [v|]; [|discriminate K].
  assert (F : exists o1 r, first v i = Some (o1, r) /\ (match i with IE e => match descend v e with Some r => (k :: s) ++ r | None => k :: s end | IB _ _ => k :: s end) = k :: s ++ r).
  { destruct (first v i) as [[o1 r]|] eqn:F; [|discriminate K]. exists o1, r. split; [reflexivity|].
    unfold first in F. destruct i as [e|l0 c0].
    - destruct (descend v e); [|discriminate F]. injection F as _ <-. reflexivity.
    - destruct (object v (IB l0 c0)); [|discriminate F]. injection F as _ <-. rewrite app_nil_r. reflexivity. }
  destruct F as (o1 & r & F & E). rewrite F in *. rewrite E in W. clear E F. cbn [hd] in W.
  destruct (walk u (succ u (s ++ r)) l) as [[[o' l3] n3]|] eqn:K1; [|discriminate K]. injection K as <- <- <-.
  apply andb_true_iff in W. destruct W as [W W3]. apply andb_true_iff in W. destruct W as [W1 W2]. rewrite W1.
  rewrite (lift_succ _ _ _ _ H) in W3.
  destruct l as [|d i2 l].
  - cbn [walk] in K1. injection K1 as <- <- <-. repeat split; try discriminate.
  - unfold go_on in W2. rewrite (leave_cons _ _ _ _ _ _ _ H) in W2. apply andb_true_iff in W2. destruct W2 as [W2 W4]. rewrite (lift_succ _ _ _ _ H) in W4.
    rewrite orb_true_l, andb_true_r in W2. rewrite W2. cbn [andb hd] in *.
    destruct d as [|x d].
    + destruct (succ u (s ++ r)) as [s'|] eqn:Q.
      * cbn [lift] in W3. specialize (IH _ _ _ _ _ W3 eq_refl K1). replace (Nat.max (Nat.max c (S k)) (S k)) with (Nat.max c (S k)) in IH by lia. exact IH.
      * injection K1 as <- <- <-. repeat split; [|exact W3]. intros d E. injection E as <-. unfold cond. destruct t as [|n w|[]]; auto.
        intros N. cbn [lift succ] in W4, N. rewrite H in W4, N. destruct (sub (TA n w) (S k)); [|congruence].
        apply orb_true_iff in W4. destruct W4 as [W4|W4]; [left; apply Nat.eqb_eq; exact W4|right; apply Nat.ltb_lt; exact W4].
    + injection K1 as <- <- <-. repeat split; [|exact W3]. intros d' E. injection E as <-. unfold cond. destruct t as [|n w|[]]; auto.
      * intros q R. rewrite R in W4. apply negb_true_iff, Nat.eqb_neq in W4. exact W4.
      * intros A. rewrite A in W4. exact W4.
Qed.

(* --- tokens --- *)
Fixpoint isize (l : items) : nat := match l with INil => 0 | ICons _ _ l => S (isize l) end.
Definition opening (ts : list tok) : Prop := exists x q, ts = x :: q /\ match x with E _ | LB => True | _ => False end.
Lemma toks_opening i r : opening (toks i ++ r).
Proof. destruct i; cbn; eexists; eexists; split; try reflexivity; exact Logic.I. Qed.
Lemma isize_toks : forall l b, isize l <= length (items_toks b l).
Proof.
  induction l as [|d i l IH]; intros b; [cbn; lia|]. cbn [isize items_toks]. rewrite !app_length. specialize (IH false).
  destruct (toks_opening i []) as (x & q & T & _). rewrite app_nil_r in T. rewrite T. cbn [length]. lia.
Qed.
Lemma walk_size t : forall l n o l2 n2, walk t n l = Some (o, l2, n2) -> isize l2 <= isize l.
Proof.
  induction l as [|d i l IH]; intros n o l2 n2 H; [injection H as <- <- <-; lia|]. destruct d; [|injection H as <- <- <-; lia].
  cbn [walk] in H. destruct n as [q|]; [|injection H as <- <- <-; lia]. destruct (type_at t q); [|discriminate]. destruct (first _ i) as [[o1 r]|]; [|discriminate].
  destruct (walk t (succ t (q ++ r)) l) as [[[o' l3] n3]|] eqn:W; [|discriminate]. injection H as <- <- <-. apply IH in W. cbn. lia.
Qed.
Lemma walk_less t i l q o l2 n2 : walk t (Some q) (ICons [] i l) = Some (o, l2, n2) -> isize l2 <= isize l.
Proof.
  cbn [walk]. destruct (type_at t q); [|discriminate]. destruct (first _ i) as [[o1 r]|]; [|discriminate].
  destruct (walk t (succ t (q ++ r)) l) as [[[o' l3] n3]|] eqn:W; [|discriminate]. intros H. injection H as <- <- <-. exact (walk_size _ _ _ _ _ _ W).
Qed.
Definition closes (ts : list tok) : Prop := exists q, ts = RB :: q \/ ts = COMMA :: RB :: q.
Lemma skip_eq_d d r : skip_eq ((map dtok d ++ [EQ]) ++ r) = dtoks d ++ r.
Proof. destruct d as [|[]]; reflexivity. Qed.
Lemma next_nil cur tail : closes tail -> next_element cur tail = None.
Proof. intros (q & [->| ->]); reflexivity. Qed.
Lemma has_nil cur tail : closes tail -> has_next cur tail = None.
Proof. intros (q & [->| ->]); reflexivity. Qed.
Lemma next_open cur ts : opening ts -> next_element cur (COMMA :: ts) = Some ts.
Proof. intros (x & q & -> & H). destruct x; try contradiction; reflexivity. Qed.
Lemma has_open cur ts : opening ts -> has_next cur (COMMA :: ts) = Some false.
Proof. intros (x & q & -> & H). destruct x; try contradiction; reflexivity. Qed.

Lemma place_cons t p k q u : sub t k = Some u -> place t p (k :: q) = place u (place t p [k]) q.
Proof.
  intros H. destruct t as [|n v|un id s ms]; [discriminate| |]; cbn [place sub] in *.
  - destruct (_ || _); [injection H as <-; reflexivity|discriminate].
  - destruct (nth_error ms k) as [[m v]|]; [injection H as <-; reflexivity|discriminate].
Qed.
Lemma stored_under t p k u o : sub t k = Some u -> map (stored t p) (under [k] o) = map (stored u (place t p [k])) o.
Proof.
  intros H. unfold under. rewrite map_map. apply map_ext. intros [q e]. unfold stored. cbn [fst snd app]. rewrite (place_cons _ _ _ _ _ H). cbn [type_at]. rewrite H. reflexivity.
Qed.
Definition zeros (t : ty) (p : pos) : Prop := match t with TA _ _ => p_foff p = 0%Z /\ p_fw p = 0%Z | _ => True end.
(* f reads what begins with an element for (a part of) an object of type u without braces of its own *)
Definition Reads (u : ty) (f : reader) : Prop :=
  forall p, zeros u p -> forall d q i l o l2 n2 tail, resolve u d = Some q -> walk u (Some q) (ICons [] i l) = Some (o, l2, n2) ->
  wok u q (Some q) (ICons [] i l) = true -> closes tail ->
  f p (None, dtoks d ++ toks i ++ items_toks false l ++ tail) = Some (map (stored u p) o, (None, items_toks false l2 ++ tail))
  /\ (d = [] -> forall e, i = IE e -> f p (Some e, items_toks false l ++ tail) = Some (map (stored u p) o, (None, items_toks false l2 ++ tail))).

Definition low (chosen : path) (k : nat) : Prop := match chosen with j :: _ => j < k | [] => True end.
Lemma low_here chosen k : low chosen k -> here chosen k = false.
Proof. destruct chosen as [|j c]; [reflexivity|]. cbn. intros H. apply Nat.eqb_neq. lia. Qed.
Lemma low_below chosen k : low chosen k -> below chosen k = [].
Proof. intros H. unfold below. rewrite (low_here _ _ H). reflexivity. Qed.
Lemma low_S chosen k : low chosen k -> low chosen (S k).
Proof. destruct chosen; cbn; lia. Qed.

Lemma list_sub t k u (s : path) it l : sub t k = Some u -> list_ t (Some (k :: s)) (ICons [] it l) =
  match walk u (Some s) (ICons [] it l) with
  | Some (o1, l1, n1) => match list_ t (lift t k n1) l1 with Some o2 => Some (under [k] o1 ++ o2) | None => None end
  | None => None
  end.
Proof.
  intros U. rewrite (list_walk t (ICons [] it l) _ eq_refl). change (Some (k :: s)) with (lift t k (Some s)). rewrite (walk_sub _ _ _ U).
  destruct (walk u (Some s) (ICons [] it l)) as [[[o1 l1] n1]|] eqn:W; [|reflexivity]. destruct (stops l1) eqn:S1; [reflexivity|].
  rewrite (walk_nonstop _ _ _ _ _ _ W S1). cbn [lift]. rewrite (list_walk t l1 _ S1). destruct (walk t (succ t [k]) l1) as [[[o2 l2] n2]|]; [|reflexivity].
  destruct (list_ t n2 l2); [rewrite app_assoc; reflexivity|reflexivity].
Qed.
Lemma fine_resolve t chosen c n d it l q : d <> [] -> resolve t d = Some q -> fine_list t chosen c n (ICons d it l) = fine_list t q c (Some q) (ICons [] it l).
Proof. intros D R. cbn [fine_list]. destruct d; [congruence|]. rewrite R. reflexivity. Qed.

(* something is given *)
Scheme init_ind2 := Induction for init Sort Prop with items_ind2 := Induction for items Sort Prop.
Lemma held_some o : o <> [] -> held o <> [].
Proof. induction o as [|x o IH]; [congruence|]. intros _. cbn [held]. destruct o as [|y o]; [discriminate|]. destruct (forallb _ _); [discriminate|apply IH; discriminate]. Qed.
Lemma object_some : forall i t o, object t i = Some o -> o <> [].
Proof.
  apply (init_ind2 (fun i => forall t o, object t i = Some o -> o <> []) (fun l => l <> INil -> forall t n o, list_ t n l = Some o -> o <> [])).
  - intros e t o H. cbn in H. destruct (descend t e) as [[|]|]; try discriminate. injection H as <-. discriminate.
  - intros l IH c t o H. cbn [object] in H. destruct l as [|d i l]; [destruct t as [| |[]]; discriminate|]. specialize (IH ltac:(discriminate)).
    destruct (braced_string t (ICons d i l)) eqn:B.
    + destruct t as [| |[]]; [discriminate B| | |]; injection H as <-; discriminate.
    + destruct t as [|n u|[]].
      * destruct d; [|discriminate]. destruct i; [|discriminate]. destruct l; [|discriminate]. destruct (descend _ e); [|discriminate]. injection H as <-. discriminate.
      * exact (IH _ _ _ H).
      * destruct (list_ _ _ _) as [o'|] eqn:L; [|discriminate]. injection H as <-. apply held_some. exact (IH _ _ _ L).
      * exact (IH _ _ _ H).
  - congruence.
  - intros d i IH l _ _ t n o H. rewrite list_first in H. destruct (match d with [] => n | _ => resolve t d end) as [q|]; [|discriminate].
    destruct (type_at t q) as [u|]; [|discriminate]. destruct (first u i) as [[o1 r]|] eqn:F; [|discriminate]. destruct (list_ _ _ _); [|discriminate]. injection H as <-.
    assert (N : o1 <> []).
    { unfold first in F. destruct i as [e|lb cb]; [destruct (descend u e); [|discriminate]; injection F as <- _; discriminate|].
      destruct (object u (IB lb cb)) eqn:O; [|discriminate]. injection F as <- _. exact (IH _ _ O). }
    destruct o1; [congruence|discriminate].
Qed.
Lemma walk_some u s it l o l2 n2 : walk u (Some s) (ICons [] it l) = Some (o, l2, n2) -> o <> [].
Proof.
  cbn [walk]. destruct (type_at u s) as [v|]; [|discriminate]. destruct (first v it) as [[o1 r]|] eqn:F; [|discriminate].
  destruct (walk _ _ _) as [[[o' l3] n3]|]; [|discriminate]. intros H. injection H as <- <- <-.
  assert (N : o1 <> []).
  { unfold first in F. destruct it as [e|l0 c]; [destruct (descend v e); [|discriminate]; injection F as <- _; discriminate|].
    destruct (object v (IB l0 c)) eqn:O; [|discriminate]. injection F as <- _. exact (object_some _ _ _ O). }
  destruct o1; [congruence|discriminate].
Qed.
Lemma length_of_app a b : length_of (a ++ b) = Nat.max (length_of a) (length_of b).
Proof. unfold length_of. induction a as [|x m IH]; [reflexivity|]. cbn [app map fold_right]. rewrite IH. lia. Qed.
Lemma length_of_under k o : o <> [] -> length_of (under [k] o) = S k.
Proof.
  assert (B : forall x o, length_of (under [k] (x :: o)) = Nat.max (S k) (length_of (under [k] o))) by reflexivity.
  intros N. assert (A : forall o, length_of (under [k] o) <= S k).
  { clear N o. induction o as [|x o IH]; [apply Nat.le_0_l|]. rewrite B. lia. }
  destruct o as [|x o]; [congruence|]. specialize (A o). rewrite B. lia.
Qed.

(* --- arrays --- *)
Definition a_after (n : nat) (cur : bool) (count : nat) (width : Z) (f : reader) (p : pos) (i c : nat) (r : list asg * st) : option (list asg * st * nat) :=
  let '(o, (pend, ts)) := r in
  let i := S i in
  let c := if Nat.ltb c i then i else c in
  match has_next cur ts with
  | Some d =>
    if negb d && negb (Nat.eqb count 0) && Nat.leb count c then Some (o, (pend, ts), c)
    else match array_loop n cur count width f p i c (pend, tl ts) with Some (o', s, c) => Some (o ++ o', s, c) | None => None end
  | None => Some (o, (pend, ts), c)
  end.
Lemma loop_open n cur count width f p i c pend ts : (forall j q, ts <> At j :: q) -> array_loop (S n) cur count width f p i c (pend, ts) =
  match f (Pos (p_off p + Z.of_nat i * width) (p_foff p) (p_fw p)) (pend, ts) with Some r => a_after n cur count width f p i c r | None => None end.
Proof.
  intros H. cbn [array_loop fst snd]. destruct ts as [|[] ts]; try (destruct (f _ _) as [[o [pend' ts']]|]; reflexivity). exfalso. exact (H _ _ eq_refl).
Qed.
Lemma loop_at n cur count width f p i j c ts : array_loop (S n) cur count width f p i c (None, At j :: ts) =
  match f (Pos (p_off p + Z.of_nat j * width) (p_foff p) (p_fw p)) (None, skip_eq ts) with Some r => a_after n cur count width f p j c r | None => None end.
Proof. cbn [array_loop fst snd]. destruct (f _ _) as [[o [pend' ts']]|]; reflexivity. Qed.
Lemma not_at ts : opening ts -> forall j q, ts <> At j :: q.
Proof. intros (x & r & -> & H) j q E. injection E as -> _. contradiction. Qed.
Lemma sub_elem n el k u : sub (TA n el) k = Some u -> u = el.
Proof. cbn. destruct (_ || _); congruence. Qed.
Lemma sub_array n el k : n = 0 \/ k < n -> sub (TA n el) k = Some el.
Proof. intros [->|H]; [reflexivity|]. cbn [sub]. apply Nat.ltb_lt in H. rewrite H, orb_true_r. reflexivity. Qed.
Lemma array_end n el k u : sub (TA n el) k = Some u -> (n = 0 \/ S k < n) \/ (n <> 0 /\ n <= S k).
Proof. lia. Qed.
Lemma succ_array n el k u : sub (TA n el) k = Some u -> succ (TA n el) [k] = if negb (Nat.eqb n 0) && Nat.leb n (S k) then None else Some [S k].
Proof.
  intros H. cbn [succ]. rewrite H. cbn [sub]. destruct (Nat.eqb_spec n 0) as [->|N]; [reflexivity|]. cbn [orb negb andb].
  destruct (Nat.ltb_spec (S k) n), (Nat.leb_spec n (S k)); try lia; reflexivity.
Qed.

Section Array.
Variable n : nat.
Variable el : ty.
Variable f : reader.
Hypothesis F : Reads el f.
Variable p : pos.
Hypothesis Z0 : p_foff p = 0%Z /\ p_fw p = 0%Z.
Notation t := (TA n el).
Notation w := (size_of el).
Lemma elem_pos k : Pos (p_off p + Z.of_nat k * w) (p_foff p) (p_fw p) = place t p [k].
Proof. destruct Z0 as [-> ->]. reflexivity. Qed.
Lemma elem_zeros k : zeros el (place t p [k]).
Proof. destruct el; cbn; auto. Qed.
(* one element *)
Lemma one k d s it l o1 l1 n1 tail chosen :
  resolve el d = Some s -> walk el (Some s) (ICons [] it l) = Some (o1, l1, n1) -> wok el s (Some s) (ICons [] it l) = true -> closes tail -> sub t k = Some chosen ->
  f (Pos (p_off p + Z.of_nat k * w) (p_foff p) (p_fw p)) (None, dtoks d ++ toks it ++ items_toks false l ++ tail)
    = Some (map (stored t p) (under [k] o1), (None, items_toks false l1 ++ tail))
  /\ (d = [] -> forall e, it = IE e -> f (Pos (p_off p + Z.of_nat k * w) (p_foff p) (p_fw p)) (Some e, items_toks false l ++ tail)
    = Some (map (stored t p) (under [k] o1), (None, items_toks false l1 ++ tail))).
Proof.
  intros R W K C H. pose proof (sub_elem _ _ _ _ H) as ->. rewrite elem_pos. rewrite (stored_under t p k el o1 H). exact (F _ (elem_zeros k) _ _ _ _ _ _ _ _ R W K C).
Qed.
Lemma array_elided tail (C : closes tail) : forall rounds k c out chosen l1 n1 u o' l2 n2, sub t k = Some u -> isize l1 <= rounds ->
  (if stops l1 then o' = [] /\ l2 = l1 else walk t (succ t [k]) l1 = Some (o', l2, n2)) -> (stops l1 = false -> n1 = None) ->
  wok t chosen (lift t k n1) l1 = true -> low chosen (S k) -> c <= S k ->
  exists c', a_after rounds false n w f p k c (out, (None, items_toks false l1 ++ tail)) = Some (out ++ map (stored t p) o', (None, items_toks false l2 ++ tail), c').
Proof.
  induction rounds as [|rounds IH]; intros k c out chosen l1 n1 u o' l2 n2 U R W N K L Cc.
  - destruct l1; [|cbn in R; lia]. destruct W as [-> ->]. cbn [a_after items_toks app]. rewrite (has_nil _ _ C). cbn [map]. rewrite app_nil_r. eauto.
  - destruct (stops l1) eqn:S1.
    + destruct W as [-> ->]. cbn [a_after map]. rewrite app_nil_r. destruct l1 as [|[|x d] i l]; [| discriminate |].
      * cbn [items_toks app]. rewrite (has_nil _ _ C). eauto.
      * destruct x; cbn [items_toks dtoks map dtok app has_next]; eauto.
    + destruct l1 as [|[|x d] it l]; try discriminate S1. specialize (N eq_refl). subst n1. cbn [lift] in K.
      unfold a_after. cbn [items_toks dtoks app]. rewrite <- !app_assoc. rewrite (has_open _ _ (toks_opening _ _)). cbn [negb tl andb].
      replace (if Nat.ltb c (S k) then S k else c) with (S k) by (destruct (Nat.ltb_spec c (S k)); lia).
      rewrite (succ_array _ _ _ _ U) in W, K. destruct (negb (Nat.eqb n 0) && Nat.leb n (S k)) eqn:Q.
      * cbn [walk] in W. injection W as <- <- <-. cbn [map]. rewrite app_nil_r. eexists. cbn [items_toks dtoks app]. rewrite <- !app_assoc. reflexivity.
      * assert (U2 : sub t (S k) = Some el) by (apply sub_array; destruct (Nat.eqb_spec n 0); [left; assumption|right]; cbn in Q; apply Nat.leb_gt in Q; lia).
        change (Some [S k]) with (lift t (S k) (Some [])) in W. rewrite (walk_sub _ _ _ U2) in W.
        destruct (walk el (Some []) (ICons [] it l)) as [[[o1 l1] n1]|] eqn:W1; [|discriminate W].
        destruct (wok_sub _ _ _ _ U2 _ _ _ _ _ K eq_refl W1) as (K1 & _ & K3). rewrite (low_below _ _ L) in K1.
        rewrite (loop_open _ _ _ _ _ _ _ _ _ _ (not_at _ (toks_opening _ _))).
        pose proof (proj1 (one (S k) [] [] it l o1 l1 n1 tail el eq_refl W1 K1 C U2)) as E1. cbn [dtoks app] in E1. rewrite E1. clear E1.
        assert (W2 : exists o2, o' = under [S k] o1 ++ o2 /\ if stops l1 then o2 = [] /\ l2 = l1 else walk t (succ t [S k]) l1 = Some (o2, l2, n2)).
        { destruct (stops l1); [injection W as <- <- <-; exists []; rewrite app_nil_r; auto|].
          destruct (walk t (succ t [S k]) l1) as [[[o2 l3] n3]|]; [|discriminate W]. injection W as <- <- <-. eauto. }
        destruct W2 as (o2 & -> & W2).
        destruct (IH (S k) (S k) (map (stored t p) (under [S k] o1)) chosen l1 n1 el o2 l2 n2 U2) as (c' & E); auto.
        -- apply walk_less in W1. cbn in R. lia.
        -- intros S2. exact (walk_nonstop _ _ _ _ _ _ W1 S2).
        -- apply low_S. exact L.
        -- rewrite E. rewrite map_app. eauto.
Qed.
Lemma resolve_array x d q : resolve t (x :: d) = Some q -> exists j s, x = DIndex j /\ q = j :: s /\ sub t j = Some el /\ resolve el d = Some s.
Proof.
  cbn [resolve select sub]. destruct x as [y|j]; [discriminate|]. destruct (_ || _) eqn:B; [|discriminate]. rewrite B.
  destruct (resolve el d) as [s|]; [|discriminate]. intros H. injection H as <-. exists j, s. repeat split. cbn [sub]. rewrite B. reflexivity.
Qed.
Lemma array_root tail (C : closes tail) : forall rounds k c out chosen l1 n1 u o', sub t k = Some u -> isize l1 <= rounds ->
  list_ t (lift t k n1) l1 = Some o' -> (stops l1 = false -> n1 = None) ->
  fine_list t chosen (Nat.max c (S k)) (lift t k n1) l1 = true -> (forall d, hd_d l1 = Some d -> cond t chosen k (Nat.max c (S k)) d) -> low chosen (S k) ->
  a_after rounds true n w f p k c (out, (None, items_toks false l1 ++ tail)) = Some (out ++ map (stored t p) o', (None, tail), Nat.max (Nat.max c (S k)) (length_of o')).
Proof.
  induction rounds as [|rounds IH]; intros k c out chosen l1 n1 u o' U R W N K D L;
    assert (Cm : (if Nat.ltb c (S k) then S k else c) = Nat.max c (S k)) by (destruct (Nat.ltb_spec c (S k)); lia).
  - destruct l1; [|cbn in R; lia]. injection W as <-. cbn [a_after items_toks app]. rewrite (has_nil _ _ C). cbn [map]. rewrite app_nil_r.
    rewrite Cm. change (length_of []) with 0. rewrite Nat.max_0_r. reflexivity.
  - destruct l1 as [|d it l].
    { injection W as <-. cbn [a_after items_toks app]. rewrite (has_nil _ _ C). cbn [map]. rewrite app_nil_r.
      rewrite Cm. change (length_of []) with 0. rewrite Nat.max_0_r. reflexivity. }
    unfold a_after. rewrite Cm. cbn [items_toks]. specialize (D _ eq_refl). clear Cm.
    assert (G : forall j s ch o1 l1 n1 c', sub t j = Some el -> walk el (Some s) (ICons [] it l) = Some (o1, l1, n1) ->
      fine_list t ch c' (Some (j :: s)) (ICons [] it l) = true -> list_ t (Some (j :: s)) (ICons [] it l) = Some o' -> low ch (S j) ->
      match a_after rounds true n w f p j c' (map (stored t p) (under [j] o1), (None, items_toks false l1 ++ tail)) with
      | Some (o'', s'', c'') => Some (out ++ o'', s'', c'')
      | None => None
      end = Some (out ++ map (stored t p) o', (None, tail), Nat.max c' (length_of o'))).
    { clear k c chosen n1 U W N K D L. intros k s ch o1 l1 n1 c' U W1 K W L.
      destruct (fine_sub _ _ _ _ U _ _ _ _ _ _ K eq_refl W1) as (K1 & K2 & K3).
      rewrite (list_sub _ _ _ _ _ _ U), W1 in W. destruct (list_ t (lift t k n1) l1) as [o2|] eqn:W2; [|discriminate W]. injection W as <-.
      rewrite (IH k c' _ ch l1 n1 el o2 U); auto.
      - rewrite map_app, length_of_app, (length_of_under _ _ (walk_some _ _ _ _ _ _ _ W1)). rewrite Nat.max_assoc. reflexivity.
      - apply walk_less in W1. cbn in R. lia.
      - intros S2. exact (walk_nonstop _ _ _ _ _ _ W1 S2). }
    destruct d as [|x d].
    + specialize (N eq_refl). subst n1. cbn [lift] in *. cbn [dtoks app]. rewrite <- !app_assoc. rewrite (has_open _ _ (toks_opening _ _)). cbn [negb tl andb].
      assert (S1 : succ t [k] = Some [S k]).
      { rewrite list_first in W. pose proof (succ_array _ _ _ _ U) as S1. destruct (_ && _) in S1; [|exact S1]. rewrite S1 in W. discriminate W. }
      cbn [cond] in D. specialize (D ltac:(rewrite S1; discriminate)). rewrite S1 in *.
      replace (negb (Nat.eqb n 0) && Nat.leb n (Nat.max c (S k))) with false
        by (destruct D as [->|D]; [reflexivity|]; symmetry; apply andb_false_iff; right; apply Nat.leb_gt; exact D).
      assert (U2 : sub t (S k) = Some el) by (apply sub_array; lia).
      pose proof W as W0. rewrite (list_sub t (S k) el [] it l U2) in W0.
      destruct (walk el (Some []) (ICons [] it l)) as [[[o1 l1] n1]|] eqn:W1; [|discriminate W0]. clear W0.
      destruct (fine_sub _ _ _ _ U2 _ _ _ _ _ _ K eq_refl W1) as (K1 & _ & _). rewrite (low_below _ _ L) in K1.
      rewrite (loop_open _ _ _ _ _ _ _ _ _ _ (not_at _ (toks_opening _ _))).
      pose proof (proj1 (one (S k) [] [] it l o1 l1 n1 tail el eq_refl W1 K1 C U2)) as E1. cbn [dtoks app] in E1. rewrite E1. clear E1.
      apply (G (S k) [] chosen o1 l1 n1 (Nat.max c (S k)) U2 W1 K W). apply low_S. exact L.
    + destruct (resolve t (x :: d)) as [q|] eqn:Q; [|rewrite list_first, Q in W; discriminate W].
      destruct (resolve_array _ _ _ Q) as (j & s & -> & -> & U2 & Q2).
      assert (ND : DIndex j :: d <> []) by discriminate.
      rewrite (list_resolve _ _ _ _ _ _ ND Q) in W. rewrite (fine_resolve _ _ _ _ _ _ _ _ ND Q) in K.
      cbn [dtoks map dtok app has_next negb andb tl].
      pose proof W as W0. rewrite (list_sub t j el s it l U2) in W0.
      destruct (walk el (Some s) (ICons [] it l)) as [[[o1 l1] n2]|] eqn:W1; [|discriminate W0]. clear W0.
      destruct (fine_sub _ _ _ _ U2 _ _ _ _ _ _ K eq_refl W1) as (K1 & _ & _).
      replace (below (j :: s) j) with s in K1 by (unfold below, here; rewrite Nat.eqb_refl; reflexivity).
      rewrite loop_at. rewrite <- !app_assoc.
      rewrite (app_assoc (map dtok d)), skip_eq_d.
      rewrite (proj1 (one j d s it l o1 l1 n2 tail el Q2 W1 K1 C U2)).
      apply (G j s (j :: s) o1 l1 n2 (Nat.max c (S k)) U2 W1 K W). cbn. lia.
Qed.
End Array.

(* --- structs and unions --- *)
Section Members.
Variable un : bool.
Variable id : nat.
Variable sz : Z.
Variable ms : list (minfo * ty).
Hypothesis F : forall m t, In (m, t) ms -> Reads t (initialize_member t).
Hypothesis Z0 : forall m n t, In (m, TA n t) ms -> foff m = 0%Z /\ fw m = 0%Z.
Notation t := (TG un id sz ms).
Notation rs := (map (fun x => (fst x, initialize_member (snd x))) ms).
Variable p : pos.
Lemma sub_member k u : sub t k = Some u -> exists m, nth_error ms k = Some (m, u).
Proof. cbn [sub]. destruct (nth_error ms k) as [[m v]|]; [|discriminate]. intros H. injection H as <-. eauto. Qed.
Lemma member_sub k m u : nth_error ms k = Some (m, u) -> sub t k = Some u.
Proof. cbn [sub]. intros ->. reflexivity. Qed.
Lemma access_place k m u : nth_error ms k = Some (m, u) -> access_member p m = place t p [k].
Proof. intros H. cbn [place]. rewrite H. reflexivity. Qed.
Lemma one_member k m u d s it l o1 l1 n1 tail :
  nth_error ms k = Some (m, u) -> resolve u d = Some s -> walk u (Some s) (ICons [] it l) = Some (o1, l1, n1) -> wok u s (Some s) (ICons [] it l) = true -> closes tail ->
  initialize_member u (access_member p m) (None, dtoks d ++ toks it ++ items_toks false l ++ tail)
    = Some (map (stored t p) (under [k] o1), (None, items_toks false l1 ++ tail))
  /\ (d = [] -> forall e, it = IE e -> initialize_member u (access_member p m) (Some e, items_toks false l ++ tail)
    = Some (map (stored t p) (under [k] o1), (None, items_toks false l1 ++ tail))).
Proof.
  intros H R W K C. rewrite (stored_under t p k u o1 (member_sub _ _ _ H)). rewrite <- (access_place _ _ _ H).
  pose proof (nth_error_In _ _ H) as I. refine (F _ _ I _ _ _ _ _ _ _ _ _ _ R W K C).
  destruct u; cbn; auto. exact (Z0 _ _ _ I).
Qed.
Lemma find_member_of x : forall l j k, index_of x l = Some k -> exists m u, nth_error l k = Some (m, u) /\
  find_member x j (map (fun x => (fst x, initialize_member (snd x))) l) = Some (j + k, m, initialize_member u).
Proof.
  induction l as [|[m u] l IH]; intros j k H; [discriminate|]. cbn [index_of map find_member fst snd] in *. destruct (Nat.eqb x (name m)).
  - injection H as <-. exists m, u. rewrite Nat.add_0_r. auto.
  - destruct (index_of x l) as [k'|]; [|discriminate]. injection H as <-. destruct (IH (S j) k' eq_refl) as (m' & u' & A & B).
    exists m', u'. rewrite B. split; [exact A|]. rewrite <- Nat.add_succ_comm. reflexivity.
Qed.
Lemma resolve_member x d q : resolve t (x :: d) = Some q -> exists y k s m u, x = DName y /\ q = k :: s /\ nth_error ms k = Some (m, u)
  /\ find_member y 0 rs = Some (k, m, initialize_member u) /\ resolve u d = Some s.
Proof.
  cbn [resolve select]. destruct x as [y|]; [|discriminate]. destruct (index_of y ms) as [k|] eqn:X; [|discriminate].
  destruct (find_member_of y ms 0 k X) as (m & u & A & B). rewrite (member_sub _ _ _ A). destruct (resolve u d) as [s|] eqn:R; [|discriminate].
  intros H. injection H as <-. exists y, k, s, m, u. auto.
Qed.
End Members.

Section Struct.
Variable id : nat.
Variable sz : Z.
Variable ms : list (minfo * ty).
Hypothesis F : forall m t, In (m, t) ms -> Reads t (initialize_member t).
Hypothesis Z0 : forall m n t, In (m, TA n t) ms -> foff m = 0%Z /\ fw m = 0%Z.
Hypothesis AP : apart ms.
Notation t := (TG false id sz ms).
Notation rs := (map (fun x => (fst x, initialize_member (snd x))) ms).
Variable p : pos.
Lemma pick_next k m v m' u : nth_error ms k = Some (m, v) -> nth_error ms (S k) = Some (m', u) ->
  pick (Some m) (S k) (skipn (S k) rs) = Some (S k, m', initialize_member u).
Proof.
  assert (G : forall l, apart l -> forall k j, nth_error l k = Some (m, v) -> nth_error l (S k) = Some (m', u) ->
    pick (Some m) j (map (fun x => (fst x, initialize_member (snd x))) (skipn (S k) l)) = Some (j, m', initialize_member u)).
  2: { intros A B. rewrite skipn_map. apply G; assumption. }
  clear. induction l as [|[a ta] l IH]; intros AP k j A B; [destruct k; discriminate|].
  destruct k as [|k].
  - injection A as -> ->. destruct l as [|[b tb] l]; [discriminate|]. injection B as -> ->. cbn [apart] in AP. destruct AP as [N _].
    cbn [skipn map pick fst snd]. replace (Z.eqb (offset m) (offset m') && Z.eqb (foff m) (foff m')) with false; [reflexivity|].
    symmetry. apply andb_false_iff. destruct N; [left|right]; apply Z.eqb_neq; assumption.
  - cbn [nth_error] in A. change (nth_error l (S k) = Some (m', u)) in B. change (skipn (S (S k)) ((a, ta) :: l)) with (skipn (S k) l). apply IH; auto.
    cbn [apart] in AP. destruct l as [|[b tb] l]; [destruct k; discriminate|]. apply AP.
Qed.
Definition s_rest (n : nat) (cur : bool) (m : minfo) (i : nat) (out : list asg) (s : st) : res :=
  match next_element cur (snd s) with
  | Some q => more out (initialize_struct n cur rs p i (Some m) (fst s, q))
  | None => Some (out, s)
  end.
Lemma struct_open n cur i prev pend ts : (pend = None -> forall x q, ts <> Dot x :: q) -> initialize_struct (S n) cur rs p i prev (pend, ts) =
  match pick prev i (skipn i rs) with
  | Some (i, m, f) =>
    match f (access_member p m) (pend, ts) with
    | Some (o, s) => if Nat.leb (length rs) (S i) then Some (o, s) else s_rest n cur m (S i) o s
    | None => None
    end
  | None => None
  end.
Proof. intros H. cbn [initialize_struct]. destruct pend; [reflexivity|]. destruct ts as [|[] ts]; try reflexivity. exfalso. exact (H eq_refl _ _ eq_refl). Qed.
Lemma struct_dot n cur i prev x ts : initialize_struct (S n) cur rs p i prev (None, Dot x :: ts) =
  match find_member x 0 rs with
  | Some (i, m, f) => match f (access_member p m) (None, skip_eq ts) with Some (o, s) => s_rest n cur m (S i) o s | None => None end
  | None => None
  end.
Proof. reflexivity. Qed.
Lemma not_dot ts : opening ts -> forall x q, ts <> Dot x :: q.
Proof. intros (x & r & -> & H) j q E. injection E as -> _. contradiction. Qed.
Lemma succ_struct k m u : nth_error ms k = Some (m, u) -> succ t [k] = if Nat.leb (length rs) (S k) then None else Some [S k].
Proof.
  intros H. cbn [succ]. rewrite (member_sub _ _ _ _ _ _ _ H). rewrite map_length. cbn [sub].
  destruct (Nat.leb_spec (length ms) (S k)) as [L|L].
  - replace (nth_error ms (S k)) with (@None (minfo * ty)); [reflexivity|]. symmetry. apply nth_error_None. lia.
  - destruct (nth_error ms (S k)) as [[]|] eqn:E; [reflexivity|]. apply nth_error_None in E. lia.
Qed.
Lemma at_end_struct k : at_end t k = Nat.leb (length rs) (S k).
Proof.
  unfold at_end. cbn [sub]. rewrite map_length. destruct (nth_error ms (S k)) eqn:E; cbn [option_map].
  - symmetry. apply Nat.leb_gt. apply nth_error_Some. congruence.
  - symmetry. apply Nat.leb_le. apply nth_error_None. exact E.
Qed.
(* what is done when a member has been read: h is whether it was designated *)
Definition s_after (n : nat) (cur h : bool) (m : minfo) (k : nat) (out : list asg) (s : st) : res :=
  if negb h && Nat.leb (length rs) (S k) then Some (out, s) else s_rest n cur m (S k) out s.
Lemma struct_elided tail (C : closes tail) : forall rounds k m u out chosen l1 n1 o' l2 n2, nth_error ms k = Some (m, u) -> isize l1 <= rounds ->
  (if stops l1 then o' = [] /\ l2 = l1 else walk t (succ t [k]) l1 = Some (o', l2, n2)) -> (stops l1 = false -> n1 = None) ->
  wok t chosen (lift t k n1) l1 = true -> low chosen (S k) -> (forall d, hd_d l1 = Some d -> node_ok t k (here chosen k) d = true) ->
  s_after rounds false (here chosen k) m k out (None, items_toks false l1 ++ tail) = Some (out ++ map (stored t p) o', (None, items_toks false l2 ++ tail)).
Proof.
  induction rounds as [|rounds IH]; intros k m u out chosen l1 n1 o' l2 n2 U R W N K L D.
  - destruct l1; [|cbn in R; lia]. destruct W as [-> ->]. unfold s_after, s_rest. cbn [items_toks app snd fst map]. rewrite (next_nil _ _ C), app_nil_r.
    destruct (_ && _); reflexivity.
  - unfold s_after. destruct (stops l1) eqn:S1.
    + destruct W as [-> ->]. cbn [map]. rewrite app_nil_r. destruct (negb (here chosen k) && Nat.leb (length rs) (S k)) eqn:B; [reflexivity|].
      unfold s_rest. cbn [snd fst]. destruct l1 as [|[|x d] it l]; [|discriminate|].
      * cbn [items_toks app]. rewrite (next_nil _ _ C). reflexivity.
      * specialize (D _ eq_refl). destruct x as [y|j]; [reflexivity|]. cbn [node_ok] in D. rewrite at_end_struct, andb_comm, B in D. discriminate D.
    + destruct l1 as [|[|x d] it l]; try discriminate S1. specialize (N eq_refl). subst n1. cbn [lift] in K. specialize (D _ eq_refl). cbn [node_ok] in D.
      rewrite at_end_struct in D. rewrite (succ_struct _ _ _ U) in W, K. destruct (Nat.leb (length rs) (S k)) eqn:B.
      * cbn [walk] in W. injection W as <- <- <-. cbn [andb] in D. rewrite D. cbn [andb map]. rewrite app_nil_r. reflexivity.
      * rewrite andb_false_r. unfold s_rest. cbn [items_toks dtoks app snd fst]. rewrite <- !app_assoc. rewrite (next_open _ _ (toks_opening _ _)).
        destruct (nth_error ms (S k)) as [[m' u2]|] eqn:U2; [|apply nth_error_None in U2; rewrite map_length in B; apply Nat.leb_gt in B; lia].
        pose proof (member_sub false id sz ms _ _ _ U2) as U3.
        change (Some [S k]) with (lift t (S k) (Some [])) in W. rewrite (walk_sub _ _ _ U3) in W.
        destruct (walk u2 (Some []) (ICons [] it l)) as [[[o1 l1] n1]|] eqn:W1; [|discriminate W].
        destruct (wok_sub _ _ _ _ U3 _ _ _ _ _ K eq_refl W1) as (K1 & K2 & K3). rewrite (low_below _ _ L) in K1. rewrite (low_here _ _ L) in K2.
        rewrite (struct_open _ _ _ _ _ _ (fun _ => not_dot _ (toks_opening _ _))). rewrite (pick_next _ _ _ _ _ U U2).
        pose proof (proj1 (one_member false id sz ms F Z0 p (S k) m' u2 [] [] it l o1 l1 n1 tail U2 eq_refl W1 K1 C)) as E1. cbn [dtoks app] in E1. rewrite E1. clear E1.
        assert (W2 : exists o2, o' = under [S k] o1 ++ o2 /\ if stops l1 then o2 = [] /\ l2 = l1 else walk t (succ t [S k]) l1 = Some (o2, l2, n2)).
        { destruct (stops l1); [injection W as <- <- <-; exists []; rewrite app_nil_r; auto|].
          destruct (walk t (succ t [S k]) l1) as [[[o2 l3] n3]|]; [|discriminate W]. injection W as <- <- <-. eauto. }
        destruct W2 as (o2 & -> & W2).
        pose proof (IH (S k) m' u2 (map (stored t p) (under [S k] o1)) chosen l1 n1 o2 l2 n2 U2) as E. unfold s_after in E. rewrite (low_here _ _ L) in E. cbn [negb andb] in E.
        rewrite E; auto.
        -- cbn [more]. rewrite map_app. reflexivity.
        -- apply walk_less in W1. cbn in R. lia.
        -- intros S2. exact (walk_nonstop _ _ _ _ _ _ W1 S2).
        -- apply low_S. exact L.
Qed.
Lemma struct_root tail (C : closes tail) : forall rounds k m u c out chosen l1 n1 o', nth_error ms k = Some (m, u) -> isize l1 <= rounds ->
  list_ t (lift t k n1) l1 = Some o' -> (stops l1 = false -> n1 = None) ->
  fine_list t chosen (Nat.max c (S k)) (lift t k n1) l1 = true -> (forall d, hd_d l1 = Some d -> cond t chosen k (Nat.max c (S k)) d) -> low chosen (S k) ->
  s_after rounds true (here chosen k) m k out (None, items_toks false l1 ++ tail) = Some (out ++ map (stored t p) o', (None, tail)).
Proof.
  induction rounds as [|rounds IH]; intros k m u c out chosen l1 n1 o' U R W N K D L.
  - destruct l1; [|cbn in R; lia]. injection W as <-. unfold s_after, s_rest. cbn [items_toks app snd fst map]. rewrite (next_nil _ _ C), app_nil_r.
    destruct (_ && _); reflexivity.
  - destruct l1 as [|d it l].
    { injection W as <-. unfold s_after, s_rest. cbn [items_toks app snd fst map]. rewrite (next_nil _ _ C), app_nil_r. destruct (_ && _); reflexivity. }
    specialize (D _ eq_refl). unfold s_after at 1. cbn [items_toks].
    assert (G : forall j m' u' s ch o1 l1 n1 c', nth_error ms j = Some (m', u') -> walk u' (Some s) (ICons [] it l) = Some (o1, l1, n1) ->
      fine_list t ch c' (Some (j :: s)) (ICons [] it l) = true -> list_ t (Some (j :: s)) (ICons [] it l) = Some o' -> low ch (S j) ->
      more out (s_after rounds true (here ch j) m' j (map (stored t p) (under [j] o1)) (None, items_toks false l1 ++ tail))
      = Some (out ++ map (stored t p) o', (None, tail))).
    { clear k c chosen n1 U W N K D L. intros k m' u' s ch o1 l1 n1 c' U W1 K W L. pose proof (member_sub false id sz ms _ _ _ U) as U3.
      destruct (fine_sub _ _ _ _ U3 _ _ _ _ _ _ K eq_refl W1) as (K1 & K2 & K3).
      rewrite (list_sub _ _ _ _ _ _ U3), W1 in W. destruct (list_ t (lift t k n1) l1) as [o2|] eqn:W2; [|discriminate W]. injection W as <-.
      rewrite (IH k m' u' c' _ ch l1 n1 o2 U); auto.
      - cbn [more]. rewrite map_app. reflexivity.
      - apply walk_less in W1. cbn in R. lia.
      - intros S2. exact (walk_nonstop _ _ _ _ _ _ W1 S2). }
    destruct d as [|x d].
    + specialize (N eq_refl). subst n1. cbn [lift] in *. rewrite (succ_struct _ _ _ U) in *. destruct (Nat.leb (length rs) (S k)) eqn:B; [rewrite list_first in W; discriminate W|].
      rewrite andb_false_r. unfold s_rest. cbn [dtoks app snd fst]. rewrite <- !app_assoc. rewrite (next_open _ _ (toks_opening _ _)).
      destruct (nth_error ms (S k)) as [[m' u2]|] eqn:U2; [|apply nth_error_None in U2; rewrite map_length in B; apply Nat.leb_gt in B; lia].
      pose proof (member_sub false id sz ms _ _ _ U2) as U3.
      pose proof W as W0. rewrite (list_sub t (S k) u2 [] it l U3) in W0.
      destruct (walk u2 (Some []) (ICons [] it l)) as [[[o1 l1] n1]|] eqn:W1; [|discriminate W0]. clear W0.
      destruct (fine_sub _ _ _ _ U3 _ _ _ _ _ _ K eq_refl W1) as (K1 & _ & _). rewrite (low_below _ _ L) in K1.
      rewrite (struct_open _ _ _ _ _ _ (fun _ => not_dot _ (toks_opening _ _))). rewrite (pick_next _ _ _ _ _ U U2).
      pose proof (proj1 (one_member false id sz ms F Z0 p (S k) m' u2 [] [] it l o1 l1 n1 tail U2 eq_refl W1 K1 C)) as E1. cbn [dtoks app] in E1. rewrite E1. clear E1.
      pose proof (G (S k) m' u2 [] chosen o1 l1 n1 (Nat.max c (S k)) U2 W1 K W (low_S _ _ L)) as E. unfold s_after in E. rewrite (low_here _ _ L) in E. exact E.
    + destruct (resolve t (x :: d)) as [q|] eqn:Q; [|rewrite list_first, Q in W; discriminate W].
      destruct (resolve_member _ _ _ _ _ _ _ Q) as (y & j & s & m' & u2 & -> & -> & U2 & Fm & Q2). pose proof (member_sub false id sz ms _ _ _ U2) as U3.
      assert (ND : DName y :: d <> []) by discriminate.
      rewrite (list_resolve _ _ _ _ _ _ ND Q) in W. rewrite (fine_resolve _ _ _ _ _ _ _ _ ND Q) in K.
      cbn [cond] in D. rewrite at_end_struct in D.
      replace (negb (here chosen k) && Nat.leb (length rs) (S k)) with false.
      2: { destruct (Nat.leb (length rs) (S k)); [rewrite D by reflexivity; reflexivity|rewrite andb_false_r; reflexivity]. }
      unfold s_rest. cbn [dtoks map dtok app next_element snd fst].
      pose proof W as W0. rewrite (list_sub t j u2 s it l U3) in W0.
      destruct (walk u2 (Some s) (ICons [] it l)) as [[[o1 l1] n2]|] eqn:W1; [|discriminate W0]. clear W0.
      destruct (fine_sub _ _ _ _ U3 _ _ _ _ _ _ K eq_refl W1) as (K1 & _ & _).
      replace (below (j :: s) j) with s in K1 by (unfold below, here; rewrite Nat.eqb_refl; reflexivity).
      rewrite struct_dot, Fm. rewrite <- !app_assoc. rewrite (app_assoc (map dtok d)), skip_eq_d.
      rewrite (proj1 (one_member false id sz ms F Z0 p j m' u2 d s it l o1 l1 n2 tail U2 Q2 W1 K1 C)).
      pose proof (G j m' u2 s (j :: s) o1 l1 n2 (Nat.max c (S k)) U2 W1 K W ltac:(cbn; lia)) as E. unfold s_after in E. cbn [here] in E. rewrite Nat.eqb_refl in E. exact E.
Qed.
End Struct.

Section Union.
Variable id : nat.
Variable sz : Z.
Variable ms : list (minfo * ty).
Hypothesis F : forall m t, In (m, t) ms -> Reads t (initialize_member t).
Hypothesis Z0 : forall m n t, In (m, TA n t) ms -> foff m = 0%Z /\ fw m = 0%Z.
Notation t := (TG true id sz ms).
Notation rs := (map (fun x => (fst x, initialize_member (snd x))) ms).
Variable p : pos.
Definition u_after (n : nat) (cur : bool) (r : list asg * st) : res :=
  let '(o, (pend, q)) := r in
  match next_element cur q with Some q => initialize_union n cur rs p true o (pend, q) | None => Some (o, (pend, q)) end.
Lemma union_open n cur out pend ts : (forall x q, ts <> Dot x :: q) -> initialize_union (S n) cur rs p false out (pend, ts) =
  match rs with (m, f) :: _ => match f (access_member p m) (pend, ts) with Some r => u_after n cur r | None => None end | [] => None end.
Proof.
  intros H. unfold u_after. cbn [initialize_union fst snd]. destruct ts as [|[] ts]; try (destruct rs as [|[m f] l]; [reflexivity|]; destruct (f _ _) as [[o [pend' q]]|]; reflexivity).
  exfalso. exact (H _ _ eq_refl).
Qed.
Lemma union_dot n cur done out x ts : initialize_union (S n) cur rs p done out (None, Dot x :: ts) =
  match find_member x 0 rs with
  | Some (_, m, f) => match f (access_member p m) (None, skip_eq ts) with Some r => u_after n cur r | None => None end
  | None => None
  end.
Proof. cbn [initialize_union fst snd]. destruct (find_member x 0 rs) as [[[i m] f]|]; [|reflexivity]. destruct (f _ _) as [[o [pend' q]]|]; reflexivity. Qed.
Lemma union_elided tail k h l1 n out : closes tail -> (forall d, hd_d l1 = Some d -> node_ok t k h d = true) ->
  u_after n false (out, (None, items_toks false l1 ++ tail)) = Some (out, (None, items_toks false l1 ++ tail)).
Proof.
  intros C D. unfold u_after. destruct l1 as [|d it l]; [cbn [items_toks app]; rewrite (next_nil _ _ C); reflexivity|].
  specialize (D _ eq_refl). destruct d as [|[y|j] d]; [discriminate D| |discriminate D]. reflexivity.
Qed.
Lemma succ_union k : succ t [k] = None.
Proof. cbn [succ]. destruct (sub t k); reflexivity. Qed.
Lemma held_same k o : held (under [k] o) = under [k] o.
Proof.
  induction o as [|x o IH]; [reflexivity|]. cbn [under map held]. fold (under [k] o).
  replace (forallb _ (under [k] o)) with true; [rewrite IH; reflexivity|].
  symmetry. apply forallb_forall. intros y Y. unfold under in Y. apply in_map_iff in Y. destruct Y as (z & <- & _). unfold same_member. cbn. apply Nat.eqb_refl.
Qed.
Lemma held_drop k o y b : hd 0 (fst y) <> k -> held (under [k] o ++ y :: b) = held (y :: b).
Proof.
  intros N. induction o as [|x o IH]; [reflexivity|]. change (under [k] (x :: o) ++ y :: b) with (([k] ++ fst x, snd x) :: (under [k] o ++ y :: b)).
  cbn [held]. rewrite IH. replace (forallb _ (under [k] o ++ y :: b)) with false; [reflexivity|]. symmetry. rewrite forallb_app. apply andb_false_iff. right.
  cbn [forallb]. apply andb_false_iff. left. unfold same_member. cbn. apply Nat.eqb_neq. congruence.
Qed.
Lemma union_root tail (C : closes tail) : forall rounds k m u c out chosen l1 n1 o', nth_error ms k = Some (m, u) -> isize l1 <= rounds ->
  list_ t (lift t k n1) l1 = Some o' -> (stops l1 = false -> n1 = None) ->
  fine_list t chosen (Nat.max c (S k)) (lift t k n1) l1 = true -> (forall d, hd_d l1 = Some d -> cond t chosen k (Nat.max c (S k)) d) ->
  u_after rounds true (out, (None, items_toks false l1 ++ tail)) = Some (match o' with [] => out | _ => map (stored t p) (held o') end, (None, tail))
  /\ match o' with [] => True | y :: _ => hd 0 (fst y) <> k end.
Proof.
  induction rounds as [|rounds IH]; intros k m u c out chosen l1 n1 o' U R W N K D.
  - destruct l1; [|cbn in R; lia]. injection W as <-. unfold u_after. cbn [items_toks app]. rewrite (next_nil _ _ C). auto.
  - destruct l1 as [|d it l].
    { injection W as <-. unfold u_after. cbn [items_toks app]. rewrite (next_nil _ _ C). auto. }
    specialize (D _ eq_refl). unfold u_after. cbn [items_toks]. destruct d as [|x d].
    + specialize (N eq_refl). subst n1. cbn [lift] in W. rewrite succ_union in W. rewrite list_first in W. discriminate W.
    + destruct (resolve t (x :: d)) as [q|] eqn:Q; [|rewrite list_first, Q in W; discriminate W].
      destruct (resolve_member _ _ _ _ _ _ _ Q) as (y & j & s & m' & u2 & -> & -> & U2 & Fm & Q2). pose proof (member_sub true id sz ms _ _ _ U2) as U3.
      assert (ND : DName y :: d <> []) by discriminate.
      rewrite (list_resolve _ _ _ _ _ _ ND Q) in W. rewrite (fine_resolve _ _ _ _ _ _ _ _ ND Q) in K.
      cbn [cond] in D. specialize (D _ Q). cbn [hd] in D.
      cbn [dtoks map dtok app next_element snd fst].
      rewrite (list_sub t j u2 s it l U3) in W.
      destruct (walk u2 (Some s) (ICons [] it l)) as [[[o1 l1] n2]|] eqn:W1; [|discriminate W].
      destruct (list_ t (lift t j n2) l1) as [o2|] eqn:W2; [|discriminate W]. injection W as <-.
      destruct (fine_sub _ _ _ _ U3 _ _ _ _ _ _ K eq_refl W1) as (K1 & K2 & K3).
      replace (below (j :: s) j) with s in K1 by (unfold below, here; rewrite Nat.eqb_refl; reflexivity).
      rewrite union_dot, Fm. rewrite <- !app_assoc. rewrite (app_assoc (map dtok d)), skip_eq_d.
      rewrite (proj1 (one_member true id sz ms F Z0 p j m' u2 d s it l o1 l1 n2 tail U2 Q2 W1 K1 C)).
      destruct (IH j m' u2 (Nat.max c (S k)) (map (stored t p) (under [j] o1)) (j :: s) l1 n2 o2 U2) as [E H]; auto.
      * apply walk_less in W1. cbn in R. lia.
      * intros S2. exact (walk_nonstop _ _ _ _ _ _ W1 S2).
      * rewrite E. pose proof (walk_some _ _ _ _ _ _ _ W1) as NE. destruct o1 as [|x1 o1]; [congruence|]. split; [|exact D].
        change (under [j] (x1 :: o1) ++ o2) with (([j] ++ fst x1, snd x1) :: (under [j] o1 ++ o2)). 
        change (([j] ++ fst x1, snd x1) :: (under [j] o1 ++ o2)) with (under [j] (x1 :: o1) ++ o2) at 2.
        destruct o2 as [|y2 o2]; [rewrite app_nil_r, held_same; reflexivity|]. rewrite (held_drop _ _ _ _ H). reflexivity.
Qed.
End Union.

(* --- an object without braces of its own, and with --- *)
Lemma tail_not_at l tail : closes tail -> forall j q, items_toks false l ++ tail <> At j :: q.
Proof. intros (r & [->| ->]) j q; destruct l; cbn; discriminate. Qed.
Lemma tail_not_dot l tail : closes tail -> forall j q, items_toks false l ++ tail <> Dot j :: q.
Proof. intros (r & [->| ->]) j q; destruct l; cbn; discriminate. Qed.
Lemma size_tail l tail : isize l <= length (items_toks false l ++ tail).
Proof. rewrite app_length. pose proof (isize_toks l false). lia. Qed.
Lemma size_rounds l a b : isize l <= length (a ++ b ++ items_toks false l).
Proof. rewrite !app_length. pose proof (isize_toks l false). lia. Qed.
Definition bare_look (d : list desig) (it : init) : bool := match d, it with [], IE _ => true | _, _ => false end.
Lemma look_none d it r : bare_look d it = false -> look (None, dtoks d ++ toks it ++ r) = Some (None, dtoks d ++ toks it ++ r).
Proof. destruct d as [|[] d]; [|reflexivity..]. destruct it; [discriminate|reflexivity]. Qed.
Lemma look_e e r : look (None, E e :: r) = Some (Some e, r). Proof. reflexivity. Qed.
Lemma string_char el (e : elem) : is_string (Some e, ([] : list tok)) && match el with TS c _ => c | _ => false end = match kind_of e with KString => is_char el | _ => false end.
Proof. unfold is_string, is_char. cbn. destruct (kind_of e); reflexivity. Qed.

Lemma split_walk t k u s it l o l2 n2 : sub t k = Some u -> walk t (Some (k :: s)) (ICons [] it l) = Some (o, l2, n2) ->
  exists o1 l1 n1 o', walk u (Some s) (ICons [] it l) = Some (o1, l1, n1) /\ o = under [k] o1 ++ o' /\ (stops l1 = false -> n1 = None)
  /\ if stops l1 then o' = [] /\ l2 = l1 else walk t (succ t [k]) l1 = Some (o', l2, n2).
Proof.
  intros U W. change (Some (k :: s)) with (lift t k (Some s)) in W. rewrite (walk_sub _ _ _ U) in W.
  destruct (walk u (Some s) (ICons [] it l)) as [[[o1 l1] n1]|] eqn:W1; [|discriminate W]. exists o1, l1, n1.
  destruct (stops l1) eqn:S1.
  - injection W as <- <- <-. exists []. rewrite app_nil_r. repeat split; auto; discriminate.
  - destruct (walk t (succ t [k]) l1) as [[[o2 l3] n3]|] eqn:W2; [|discriminate W]. injection W as <- <- <-. exists o2. repeat split; auto. intros _. exact (walk_nonstop _ _ _ _ _ _ W1 S1).
Qed.
Lemma split_list t k u s it l o : sub t k = Some u -> list_ t (Some (k :: s)) (ICons [] it l) = Some o ->
  exists o1 l1 n1 o', walk u (Some s) (ICons [] it l) = Some (o1, l1, n1) /\ o = under [k] o1 ++ o' /\ (stops l1 = false -> n1 = None)
  /\ list_ t (lift t k n1) l1 = Some o'.
Proof.
  intros U W. rewrite (list_sub _ _ _ _ _ _ U) in W. destruct (walk u (Some s) (ICons [] it l)) as [[[o1 l1] n1]|] eqn:W1; [|discriminate W].
  destruct (list_ t (lift t k n1) l1) as [o2|] eqn:W2; [|discriminate W]. injection W as <-. exists o1, l1, n1, o2. repeat split; auto. intros S1. exact (walk_nonstop _ _ _ _ _ _ W1 S1).
Qed.
(* the first element of a list in braces *)
Lemma first_item t d it l o ch : list_ t (Some [0]) (ICons d it l) = Some o -> fine_list t ch 0 (Some [0]) (ICons d it l) = true -> ch = [] ->
  exists k s ch' u, sub t k = Some u /\ list_ t (Some (k :: s)) (ICons [] it l) = Some o /\ fine_list t ch' 0 (Some (k :: s)) (ICons [] it l) = true /\ low ch' (S k)
  /\ below ch' k = s /\ match d with [] => k = 0 /\ s = [] /\ ch' = [] | _ => resolve t d = Some (k :: s) /\ here ch' k = true end.
Proof.
  intros W K ->. destruct d as [|x d].
  - rewrite list_first in W. cbn [type_at] in W. destruct (sub t 0) as [u|] eqn:U; [|discriminate W]. exists 0, [], [], u.
    rewrite list_first. cbn [type_at]. rewrite U. repeat split; auto.
  - destruct (resolve t (x :: d)) as [q|] eqn:Q; [|rewrite list_first, Q in W; discriminate W].
    assert (ND : x :: d <> []) by discriminate.
    rewrite (list_resolve _ _ _ _ _ _ ND Q) in W. rewrite (fine_resolve _ _ _ _ _ _ _ _ ND Q) in K.
    cbn [resolve] in Q. destruct (select t x) as [k|]; [|discriminate Q]. destruct (sub t k) as [u|] eqn:U; [|discriminate Q].
    destruct (resolve u d) as [s|]; [|discriminate Q]. injection Q as <-. exists k, s, (k :: s), u. repeat split; auto; unfold below, here; rewrite ?Nat.eqb_refl; auto. cbn. lia.
Qed.
Definition sel_toks (d : list desig) : list tok := match d with [] => [] | _ :: d => dtoks d end.

Section Arrays.
Variable n : nat.
Variable el : ty.
Variable f : reader.
Hypothesis F : Reads el f.
Variable p : pos.
Hypothesis Z0 : p_foff p = 0%Z /\ p_fw p = 0%Z.
Notation t := (TA n el).
Notation w := (size_of el).
Variable tail : list tok.
Hypothesis C : closes tail.
Lemma run_loop rounds cur i c d it l k s o1 l1 n1 : sub t k = Some el -> walk el (Some s) (ICons [] it l) = Some (o1, l1, n1) -> wok el s (Some s) (ICons [] it l) = true ->
  match d with [] => i = k /\ s = [] | _ => resolve t d = Some (k :: s) end ->
  let r := a_after rounds cur n w f p k c (map (stored t p) (under [k] o1), (None, items_toks false l1 ++ tail)) in
  array_loop (S rounds) cur n w f p i c (None, dtoks d ++ toks it ++ items_toks false l ++ tail) = r
  /\ (d = [] -> forall e, it = IE e -> array_loop (S rounds) cur n w f p i c (Some e, items_toks false l ++ tail) = r).
Proof.
  intros U W K D. cbv zeta. destruct d as [|x d].
  - destruct D as [-> ->]. destruct (one n el f F p Z0 k [] [] it l o1 l1 n1 tail el eq_refl W K C U) as [A B]. cbn [dtoks app] in *. split.
    + rewrite (loop_open _ _ _ _ _ _ _ _ _ _ (not_at _ (toks_opening _ _))). rewrite A. reflexivity.
    + intros _ e E. rewrite (loop_open _ _ _ _ _ _ _ _ _ _ (tail_not_at _ _ C)). rewrite (B eq_refl _ E). reflexivity.
  - split; [|discriminate]. destruct (resolve_array _ _ _ _ _ D) as (j & s' & -> & E & _ & Q2). injection E as <- <-.
    cbn [dtoks map dtok app]. rewrite loop_at, skip_eq_d. rewrite (proj1 (one n el f F p Z0 k d s it l o1 l1 n1 tail el Q2 W K C U)). reflexivity.
Qed.
Lemma array_braced l comma o top : object t (IB l comma) = Some o -> fine top t (IB l comma) = true ->
  initialize_array true t n el f p (None, items_toks true l ++ tail) = Some (map (stored t p) o, (None, tail), length_of o).
Proof.
  intros O K. destruct l as [|d it l]; [discriminate O|]. cbn [items_toks]. rewrite <- !app_assoc. change ([] ++ ?x) with x. cbn [app].
  cbn [object fine] in O, K. destruct (braced_string t (ICons d it l)) as [e|] eqn:B.
  - injection O as <-. cbn [braced_string] in B. destruct d; [|discriminate B]. destruct it as [e'|]; [|discriminate B]. destruct l; [|discriminate B].
    destruct (kind_of e') eqn:Ke; try discriminate B. destruct (is_char el) eqn:Ch; [|discriminate B]. injection B as <-.
    unfold initialize_array. cbn [dtoks toks items_toks app look read_element]. unfold is_string. cbn [fst]. rewrite Ke.
    replace (match el with TS c _ => c | _ => false end) with true by (symmetry; exact Ch). reflexivity.
  - destruct (first_item _ _ _ _ _ _ O K eq_refl) as (k & s & ch & u & U & O1 & K1 & L & BL & D). pose proof (sub_elem _ _ _ _ U) as ->.
    destruct (split_list _ _ _ _ _ _ _ U O1) as (o1 & l1 & n1 & o' & W1 & -> & N & W2).
    destruct (fine_sub _ _ _ _ U _ _ _ _ _ _ K1 eq_refl W1) as (K2 & K3 & K4). rewrite BL in K2.
    assert (D' : match d with [] => 0 = k /\ s = [] | _ => resolve t d = Some (k :: s) end) by (destruct d; [destruct D as (-> & -> & _); auto|apply D]).
    assert (R : forall rounds, isize l <= rounds -> a_after rounds true n w f p k 0 (map (stored t p) (under [k] o1), (None, items_toks false l1 ++ tail))
      = Some (map (stored t p) (under [k] o1 ++ o'), (None, tail), length_of (under [k] o1 ++ o'))).
    { intros rounds R. rewrite (array_root n el f F p Z0 tail C rounds k 0 _ ch l1 n1 el o' U); auto.
      - rewrite map_app, length_of_app, (length_of_under _ _ (walk_some _ _ _ _ _ _ _ W1)). reflexivity.
      - apply walk_less in W1. lia. }
    unfold initialize_array. destruct (bare_look d it) eqn:BL'.
    + destruct d; [|discriminate BL']. destruct it as [e|]; [|discriminate BL']. cbn [dtoks toks app look read_element].
      replace (is_string _ && _) with false.
      * unfold rounds. cbn [snd]. rewrite (proj2 (run_loop (length (items_toks false l ++ tail)) true 0 0 [] (IE e) l k s o1 l1 n1 U W1 K2 D') eq_refl e eq_refl).
        apply R. apply size_tail.
      * symmetry. unfold is_string. cbn [fst]. destruct (kind_of e) eqn:Ke; try reflexivity. destruct el as [ch0 z| |] eqn:El; try reflexivity. destruct ch0; [|reflexivity].
        destruct D as (-> & -> & _). exfalso. rewrite list_first in O1. cbn [type_at] in O1. rewrite U in O1. cbn [first descend] in O1. rewrite Ke in O1. discriminate O1.
    + rewrite (look_none _ _ _ BL'). replace (is_string _) with false by reflexivity. cbn [andb]. unfold rounds. cbn [snd].
      rewrite (proj1 (run_loop (length (dtoks d ++ toks it ++ items_toks false l ++ tail)) true 0 0 d it l k s o1 l1 n1 U W1 K2 D')). apply R.
      rewrite !app_length. pose proof (isize_toks l false). lia.
Qed.
Lemma array_bare d q it l o l2 n2 : resolve t d = Some q -> walk t (Some q) (ICons [] it l) = Some (o, l2, n2) -> wok t q (Some q) (ICons [] it l) = true ->
  match d, it with [], IB _ _ => False | _, _ => True end ->
  no_count (initialize_array false t n el f p (None, dtoks d ++ toks it ++ items_toks false l ++ tail)) = Some (map (stored t p) o, (None, items_toks false l2 ++ tail))
  /\ (d = [] -> forall e, it = IE e -> no_count (initialize_array false t n el f p (Some e, items_toks false l ++ tail)) = Some (map (stored t p) o, (None, items_toks false l2 ++ tail))).
Proof.
  intros Q W K NB.
  (* a path into the array *)
  assert (A : forall k s, (match d with [] => k = 0 /\ s = [] | _ => q = k :: s end) -> sub t k = Some el -> walk t (Some (k :: s)) (ICons [] it l) = Some (o, l2, n2) ->
    wok t q (Some (k :: s)) (ICons [] it l) = true ->
    forall rounds, isize l <= rounds -> no_count (array_loop (S rounds) false n w f p 0 0 (None, dtoks d ++ toks it ++ items_toks false l ++ tail)) = Some (map (stored t p) o, (None, items_toks false l2 ++ tail))
    /\ (d = [] -> forall e, it = IE e -> no_count (array_loop (S rounds) false n w f p 0 0 (Some e, items_toks false l ++ tail)) = Some (map (stored t p) o, (None, items_toks false l2 ++ tail)))).
  { intros k s D U W' K' rounds R. destruct (split_walk _ _ _ _ _ _ _ _ _ U W') as (o1 & l1 & n1 & o' & W1 & -> & N & W2).
    destruct (wok_sub _ _ _ _ U _ _ _ _ _ K' eq_refl W1) as (K2 & _ & K4).
    assert (BL : below q k = s /\ low q (S k)).
    { destruct d as [|x d]; [destruct D as [-> ->]; cbn in Q; injection Q as <-; split; [reflexivity|exact Logic.I]|]. rewrite D. unfold below, here. rewrite Nat.eqb_refl. cbn. auto. }
    destruct BL as [BL L]. rewrite BL in K2.
    destruct (array_elided n el f F p Z0 tail C rounds k 0 (map (stored t p) (under [k] o1)) q l1 n1 el o' l2 n2 U) as (c' & E); auto.
    { apply walk_less in W1. lia. } { lia. }
    assert (D' : match d with [] => 0 = k /\ s = [] | _ => resolve t d = Some (k :: s) end) by (destruct d; [destruct D as (-> & ->); auto|rewrite Q, D; reflexivity]).
    destruct (run_loop rounds false 0 0 d it l k s o1 l1 n1 U W1 K2 D') as [R1 R2]. rewrite E in R1, R2. rewrite <- map_app in *. split.
    - rewrite R1. reflexivity.
    - intros D2 e E2. rewrite (R2 D2 e E2). reflexivity. }
  unfold initialize_array. destruct d as [|x d].
  - destruct it as [e|]; [|contradiction]. cbn in Q. injection Q as <-. 
    assert (S0 : forall X, is_string (Some e, X) && (match el with TS c _ => c | _ => false end) = match kind_of e with KString => is_char el | _ => false end)
      by (intros X; unfold is_string; cbn [fst]; destruct (kind_of e); reflexivity).
    assert (G : no_count (let s := (Some e, items_toks false l ++ tail) in if is_string s && match el with TS c _ => c | _ => false end
      then match assign_element p t s with Some (o, s) => Some (o, s, O) | None => None end else array_loop (rounds s) false n w f p 0 0 s)
      = Some (map (stored t p) o, (None, items_toks false l2 ++ tail))).
    { cbv zeta. rewrite S0. cbn [walk type_at first] in W. cbn [wok type_at first] in K. destruct (match kind_of e with KString => is_char el | _ => false end) eqn:Ke.
      - cbn [descend] in W. replace (match kind_of e with KString => if is_char el then Some [] else option_map (cons 0) (descend el e) | _ => option_map (cons 0) (descend el e) end) with (Some (@nil nat)) in W
          by (destruct (kind_of e); try discriminate Ke; rewrite Ke; reflexivity).
        cbn [app] in W. rewrite succ_nil in W. replace (walk t None l) with (Some (@nil (list nat * elem), l, match stops l with true => @None (list nat) | false => None end)) in W by (destruct l as [|[]]; reflexivity).
        injection W as <- <- _. reflexivity.
      - assert (De : descend t e = option_map (cons 0) (descend el e)) by (cbn [descend]; destruct (kind_of e); try reflexivity; rewrite Ke; reflexivity).
        destruct (descend el e) as [r|] eqn:Dl; [|cbn [option_map] in De; rewrite De in W; discriminate W]. cbn [option_map] in De. rewrite De in W, K. cbn [app] in W, K.
        assert (U : sub t 0 = Some el).
        { cbn [sub]. destruct n as [|n']; reflexivity. }
        refine (proj2 (A 0 [] (conj eq_refl eq_refl) U _ _ (length (items_toks false l ++ tail)) (size_tail _ _)) eq_refl e eq_refl).
        + cbn [walk type_at]. rewrite U. cbn [type_at first]. rewrite Dl. cbn [app]. exact W.
        + cbn [wok type_at]. rewrite U. cbn [type_at first]. rewrite Dl. cbn [app fine andb] in *. exact K. }
    split; [exact G|]. intros _ e' E. injection E as <-. exact G.
  - split; [|discriminate]. destruct (resolve_array _ _ _ _ _ Q) as (j & s & -> & -> & U & Q2).
    change (look (None, dtoks (DIndex j :: d) ++ toks it ++ items_toks false l ++ tail)) with (Some (@None elem, dtoks (DIndex j :: d) ++ toks it ++ items_toks false l ++ tail)).
    cbv iota. replace (is_string _) with false by reflexivity. cbn [andb].
    apply (A j s eq_refl U W K). unfold rounds. cbn [snd]. rewrite !app_length. pose proof (isize_toks l false). lia.
Qed.
End Arrays.

Lemma descend_contains id (e : elem) : kind_of e = KAgg id -> forall u, contains id u = false -> descend u e = None.
Proof.
  intros Ke. induction u as [c s|n u IH|un j s ms IH] using ty_ind2; intros H; cbn [descend contains] in *; rewrite ?Ke.
  - reflexivity.
  - rewrite (IH H). reflexivity.
  - apply orb_false_iff in H. destruct H as [H1 H2]. rewrite Nat.eqb_sym, H1. destruct ms as [|[m u] ms]; [reflexivity|]. cbn [existsb snd] in H2. apply orb_false_iff in H2. destruct H2 as [H2 _].
    rewrite (IH m u (or_introl eq_refl) H2). reflexivity.
Qed.

Section Aggregates.
Variable un : bool.
Variable id : nat.
Variable sz : Z.
Variable ms : list (minfo * ty).
Hypothesis F : forall m t, In (m, t) ms -> Reads t (initialize_member t).
Hypothesis Z0 : forall m n t, In (m, TA n t) ms -> foff m = 0%Z /\ fw m = 0%Z.
Hypothesis AP : un = false -> apart ms.
Hypothesis NC : existsb (fun x => contains id (snd x)) ms = false.
Notation t := (TG un id sz ms).
Notation rs := (map (fun x => (fst x, initialize_member (snd x))) ms).
Variable p : pos.
Variable tail : list tok.
Hypothesis C : closes tail.
Definition run (rounds : nat) (cur : bool) (s : st) : res :=
  if un then initialize_union rounds cur rs p false [] s else initialize_struct rounds cur rs p 0 None s.
Definition after (rounds : nat) (cur h : bool) (m : minfo) (k : nat) (out : list asg) (s : st) : res :=
  if un then u_after ms p rounds cur (out, s) else s_after ms p rounds cur h m k out s.
Lemma run_members rounds cur d it l k m u s o1 l1 n1 : nth_error ms k = Some (m, u) -> walk u (Some s) (ICons [] it l) = Some (o1, l1, n1) -> wok u s (Some s) (ICons [] it l) = true ->
  match d with [] => k = 0 /\ s = [] | _ => resolve t d = Some (k :: s) end ->
  let r := after rounds cur (match d with [] => false | _ => true end) m k (map (stored t p) (under [k] o1)) (None, items_toks false l1 ++ tail) in
  run (S rounds) cur (None, dtoks d ++ toks it ++ items_toks false l ++ tail) = r
  /\ (d = [] -> forall e, it = IE e -> run (S rounds) cur (Some e, items_toks false l ++ tail) = r).
Proof.
  intros U W K D. cbv zeta. unfold run, after. destruct d as [|x d].
  - destruct D as [-> ->]. destruct (one_member un id sz ms F Z0 p 0 m u [] [] it l o1 l1 n1 tail U eq_refl W K C) as [A B]. cbn [dtoks app] in *.
    destruct ms as [|[m0 u0] ms']; [discriminate U|]. cbn [nth_error] in U. injection U as -> ->.
    assert (R : un = true \/ un = false) by (destruct un; auto). destruct R as [->| ->]; cbv iota.
    + split; [|intros _ e E]; (rewrite union_open; [cbn [map fst snd]; rewrite ?A, ?(B eq_refl _ E); reflexivity|]).
      * apply not_dot. apply toks_opening.
      * apply tail_not_dot. exact C.
    + split; [|intros _ e E]; (rewrite struct_open; [cbn [map skipn pick fst snd]; rewrite ?A, ?(B eq_refl _ E); unfold s_after; cbn [negb andb map]; reflexivity|]).
      * intros _. apply not_dot. apply toks_opening.
      * discriminate.
  - split; [|discriminate]. destruct (resolve_member _ _ _ _ _ _ _ D) as (y & j & s' & m' & u' & -> & E & U2 & Fm & Q2). injection E as <- <-. rewrite U in U2. injection U2 as <- <-.
    cbn [dtoks map dtok app]. rewrite <- !app_assoc. pose proof (proj1 (one_member un id sz ms F Z0 p k m u d s it l o1 l1 n1 tail U Q2 W K C)) as A.
    assert (R : un = true \/ un = false) by (destruct un; auto). destruct R as [-> | ->]; cbv iota.
    + rewrite union_dot, Fm. rewrite (app_assoc (map dtok d)), skip_eq_d, A. reflexivity.
    + rewrite struct_dot, Fm. rewrite (app_assoc (map dtok d)), skip_eq_d, A. reflexivity.
Qed.
Lemma braced_none l : braced_string t l = None. Proof. reflexivity. Qed.
Lemma members_braced l comma o top : object t (IB l comma) = Some o -> fine top t (IB l comma) = true ->
  initialize_struct_or_union true t un id rs p (None, items_toks true l ++ tail) = Some (map (stored t p) o, (None, tail)).
Proof.
  intros O K. destruct l as [|d it l]; [discriminate O|]. cbn [items_toks]. rewrite <- !app_assoc. change ([] ++ ?x) with x. cbn [app].
  cbn [object fine] in O, K. rewrite braced_none in O, K.
  assert (O' : exists o0, list_ t (Some [0]) (ICons d it l) = Some o0 /\ o = if un then held o0 else o0).
  { assert (R : un = true \/ un = false) by (destruct un; auto). destruct R as [E|E]; rewrite E in *; [|eauto].
    destruct (list_ _ _ _) as [o0|]; [|discriminate O]. injection O as <-. eauto. }
  clear O. destruct O' as (o0 & O & Ho).
  destruct (first_item _ _ _ _ _ _ O K eq_refl) as (k & s & ch & u & U & O1 & K1 & L & BL & D). destruct (sub_member _ _ _ _ _ _ U) as [m Um].
  destruct (split_list _ _ _ _ _ _ _ U O1) as (o1 & l1 & n1 & o' & W1 & -> & N & W2).
  destruct (fine_sub _ _ _ _ U _ _ _ _ _ _ K1 eq_refl W1) as (K2 & K3 & K4). rewrite BL in K2.
  assert (D' : match d with [] => k = 0 /\ s = [] | _ => resolve t d = Some (k :: s) end) by (destruct d; [destruct D as (-> & -> & _); auto|apply D]).
  assert (Hh : here ch k = match d with [] => false | _ => true end) by (destruct d; [destruct D as (_ & _ & ->); reflexivity|apply D]).
  assert (R : forall rounds, isize l <= rounds -> after rounds true (match d with [] => false | _ => true end) m k (map (stored t p) (under [k] o1)) (None, items_toks false l1 ++ tail)
    = Some (map (stored t p) o, (None, tail))).
  { intros rounds R. assert (R' : isize l1 <= rounds) by (apply walk_less in W1; lia). unfold after. rewrite Ho. clear Ho.
    assert (X : un = true \/ un = false) by (destruct un; auto). destruct X as [E|E]; rewrite E in *; cbv iota.
    - destruct (union_root id sz ms F Z0 p tail C rounds k m u 0 (map (stored (TG true id sz ms) p) (under [k] o1)) ch l1 n1 o' Um) as [A B]; auto.
      refine (eq_trans A _). destruct o' as [|y o']; [rewrite app_nil_r, held_same; reflexivity|]. rewrite (held_drop _ _ _ _ B). reflexivity.
    - rewrite <- Hh. rewrite (struct_root id sz ms F Z0 (AP eq_refl) p tail C rounds k m u 0 _ ch l1 n1 o' Um); auto. rewrite map_app. reflexivity. }
  unfold initialize_struct_or_union. fold (run (rounds (None, dtoks d ++ toks it ++ items_toks false l ++ tail)) true). destruct (bare_look d it) eqn:BL'.
  - destruct d; [|discriminate BL']. destruct it as [e|]; [|discriminate BL']. cbn [dtoks toks app look read_element].
    replace (is_agg _ _) with false.
    + unfold rounds. cbn [snd]. refine (eq_trans (proj2 (run_members (length (items_toks false l ++ tail)) true [] (IE e) l k m u s o1 l1 n1 Um W1 K2 D') eq_refl e eq_refl) _).
      apply R. apply size_tail.
    + symmetry. unfold is_agg. cbn [fst]. destruct (kind_of e) as [| |j] eqn:Ke; try reflexivity. destruct (Nat.eqb_spec j id) as [->|]; [|reflexivity].
      exfalso. destruct D as (-> & -> & _). assert (NU : contains id u = false).
      { apply nth_error_In in Um. destruct (contains id u) eqn:X; [|reflexivity]. rewrite <- NC. symmetry. apply existsb_exists. exists (m, u). auto. }
      cbn [walk type_at first] in W1. rewrite (descend_contains _ _ Ke _ NU) in W1. discriminate W1.
  - rewrite (look_none _ _ _ BL'). replace (is_agg _ _) with false by reflexivity. unfold rounds. cbn [snd].
    refine (eq_trans (proj1 (run_members (length (dtoks d ++ toks it ++ items_toks false l ++ tail)) true d it l k m u s o1 l1 n1 Um W1 K2 D')) _). apply R.
    rewrite !app_length. pose proof (isize_toks l false). lia.
Qed.
Lemma members_bare d q it l o l2 n2 : resolve t d = Some q -> walk t (Some q) (ICons [] it l) = Some (o, l2, n2) -> wok t q (Some q) (ICons [] it l) = true ->
  match d, it with [], IB _ _ => False | _, _ => True end ->
  initialize_struct_or_union false t un id rs p (None, dtoks d ++ toks it ++ items_toks false l ++ tail) = Some (map (stored t p) o, (None, items_toks false l2 ++ tail))
  /\ (d = [] -> forall e, it = IE e -> initialize_struct_or_union false t un id rs p (Some e, items_toks false l ++ tail) = Some (map (stored t p) o, (None, items_toks false l2 ++ tail))).
Proof.
  intros Q W K NB.
  assert (A : forall k u s, (match d with [] => k = 0 /\ s = [] | _ => q = k :: s end) -> sub t k = Some u -> walk t (Some (k :: s)) (ICons [] it l) = Some (o, l2, n2) ->
    wok t q (Some (k :: s)) (ICons [] it l) = true ->
    forall rounds, isize l <= rounds -> run (S rounds) false (None, dtoks d ++ toks it ++ items_toks false l ++ tail) = Some (map (stored t p) o, (None, items_toks false l2 ++ tail))
    /\ (d = [] -> forall e, it = IE e -> run (S rounds) false (Some e, items_toks false l ++ tail) = Some (map (stored t p) o, (None, items_toks false l2 ++ tail)))).
  { intros k u s D U W' K' rounds R. destruct (split_walk _ _ _ _ _ _ _ _ _ U W') as (o1 & l1 & n1 & o' & W1 & -> & N & W2). destruct (sub_member _ _ _ _ _ _ U) as [m Um].
    destruct (wok_sub _ _ _ _ U _ _ _ _ _ K' eq_refl W1) as (K2 & K3 & K4).
    assert (BL : below q k = s /\ low q (S k) /\ here q k = match d with [] => false | _ => true end).
    { destruct d as [|x d]; [destruct D as [-> ->]; cbn in Q; injection Q as <-; split; [reflexivity|split; [exact Logic.I|reflexivity]]|]. rewrite D. unfold below, here. rewrite Nat.eqb_refl. cbn. auto. }
    destruct BL as [BL [L Hh]]. rewrite BL in K2.
    assert (D' : match d with [] => k = 0 /\ s = [] | _ => resolve t d = Some (k :: s) end) by (destruct d; [destruct D as (-> & ->); auto|rewrite Q, D; reflexivity]).
    assert (R' : isize l1 <= rounds) by (apply walk_less in W1; lia).
    assert (E : after rounds false (match d with [] => false | _ => true end) m k (map (stored t p) (under [k] o1)) (None, items_toks false l1 ++ tail)
      = Some (map (stored t p) (under [k] o1 ++ o'), (None, items_toks false l2 ++ tail))).
    { clear Q D D' BL. unfold after. assert (X : un = true \/ un = false) by (destruct un; auto). destruct X as [E|E]; rewrite E in *; cbv iota.
      - rewrite (union_elided id sz ms p tail k _ l1 rounds _ C K3). destruct (stops l1) eqn:S1.
        + destruct W2 as [-> ->]. rewrite app_nil_r. reflexivity.
        + rewrite succ_union in W2. destruct l1 as [|[|] ? ?]; try discriminate S1. cbn [walk] in W2. injection W2 as <- <- <-. rewrite app_nil_r. reflexivity.
      - rewrite <- Hh. rewrite (struct_elided id sz ms F Z0 (AP eq_refl) p tail C rounds k m u _ q l1 n1 o' l2 n2 Um); auto. rewrite map_app. reflexivity. }
    destruct (run_members rounds false d it l k m u s o1 l1 n1 Um W1 K2 D') as [R1 R2]. rewrite E in R1, R2. split; [exact R1|exact R2]. }
  unfold initialize_struct_or_union. destruct d as [|x d].
  - destruct it as [e|]; [|contradiction]. cbn in Q. injection Q as <-.
    assert (G : (let s := (Some e, items_toks false l ++ tail) in if is_agg id s then assign_element p t s else run (rounds s) false s)
      = Some (map (stored t p) o, (None, items_toks false l2 ++ tail))).
    { cbv zeta. unfold is_agg. cbn [fst]. cbn [walk type_at first descend] in W. cbn [wok type_at first] in K. destruct (match kind_of e with KAgg j => Nat.eqb j id | _ => false end) eqn:Ke.
      - cbn [app] in W. rewrite succ_nil in W. replace (walk t None l) with (Some (@nil (list nat * elem), l, match stops l with true => @None (list nat) | false => None end)) in W by (destruct l as [|[]]; reflexivity).
        injection W as <- <- _. reflexivity.
      - destruct ms as [|[m0 u0] ms'] eqn:Em; [discriminate W|]. rewrite <- Em in *.
        assert (De : descend t e = option_map (cons 0) (descend u0 e)) by (cbn [descend]; rewrite Ke, Em; reflexivity).
        destruct (descend u0 e) as [r|] eqn:Dl; [|discriminate W]. cbn [option_map] in De, W. rewrite De in K. cbn [app] in W, K.
        assert (U : sub t 0 = Some u0) by (cbn [sub]; rewrite Em; reflexivity).
        refine (proj2 (A 0 u0 [] (conj eq_refl eq_refl) U _ _ (length (items_toks false l ++ tail)) (size_tail _ _)) eq_refl e eq_refl).
        + cbn [walk type_at]. rewrite U. cbn [type_at first]. rewrite Dl. cbn [app]. exact W.
        + cbn [wok type_at]. rewrite U. cbn [type_at first]. rewrite Dl. cbn [app fine andb] in *. exact K. }
    split; [exact G|]. intros _ e' E. injection E as <-. exact G.
  - split; [|discriminate]. destruct (resolve_member _ _ _ _ _ _ _ Q) as (y & k & s & m & u & -> & -> & U & _ & Q2).
    change (look (None, dtoks (DName y :: d) ++ toks it ++ items_toks false l ++ tail)) with (Some (@None elem, dtoks (DName y :: d) ++ toks it ++ items_toks false l ++ tail)).
    cbv iota. replace (is_agg _ _) with false by reflexivity.
    apply (A k u s eq_refl (member_sub _ _ _ _ _ _ _ U) W K). unfold rounds. cbn [snd]. rewrite !app_length. pose proof (isize_toks l false). lia.
Qed.
End Aggregates.

Lemma brace_tail (comma : bool) r : closes ((if comma then [COMMA] else []) ++ [RB] ++ r).
Proof. destruct comma; exists r; [right|left]; reflexivity. Qed.
Lemma closing_tail (comma : bool) r o : closing (Some (o, (None, (if comma then [COMMA] else []) ++ [RB] ++ r))) = Some (o, (None, r)).
Proof. destruct comma; reflexivity. Qed.
Lemma walk_brace u l' comma l o l2 n2 : walk u (Some []) (ICons [] (IB l' comma) l) = Some (o, l2, n2) -> object u (IB l' comma) = Some o /\ l2 = l.
Proof.
  intros W. cbn [walk type_at first] in W. destruct (object u (IB l' comma)) as [o0|]; [|discriminate W]. cbn [app] in W. rewrite succ_nil in W.
  replace (walk u None l) with (Some (@nil (list nat * elem), l, @None (list nat))) in W by (destruct l as [|[]]; reflexivity).
  injection W as <- <- <-. rewrite under_0, app_nil_r. auto.
Qed.
Lemma wok_brace u l' comma l q : wok u q (Some []) (ICons [] (IB l' comma) l) = true -> object u (IB l' comma) <> None -> fine false u (IB l' comma) = true.
Proof.
  intros K N. cbn [wok type_at] in K. cbn [first] in K. destruct (object u (IB l' comma)); [|congruence]. apply andb_prop in K. destruct K as [K _]. apply andb_prop in K. apply K.
Qed.
Lemma brace_toks l comma r : toks (IB l comma) ++ r = LB :: items_toks true l ++ (if comma then [COMMA] else []) ++ [RB] ++ r.
Proof. cbn [toks app]. rewrite <- !app_assoc. reflexivity. Qed.
(* tokens that do not begin with a brace *)
Lemma unbraced d i r : match d, i with [], IB _ _ => False | _, _ => True end -> forall q, dtoks d ++ toks i ++ r <> LB :: q.
Proof. destruct d as [|[]]; destruct i; intros H q; cbn; try contradiction; discriminate. Qed.
Lemma member_g un id sz ms p pend ts : (pend = None -> forall q, ts <> LB :: q) ->
  initialize_member (TG un id sz ms) p (pend, ts) = initialize_struct_or_union false (TG un id sz ms) un id (map (fun x => (fst x, initialize_member (snd x))) ms) p (pend, ts).
Proof. intros H. cbn [initialize_member]. destruct pend; [reflexivity|]. destruct ts as [|[] ts]; try reflexivity. exfalso. exact (H eq_refl _ eq_refl). Qed.
Lemma member_a n el p pend ts : size_of (TA n el) <> 0%Z -> (pend = None -> forall q, ts <> LB :: q) ->
  initialize_member (TA n el) p (pend, ts) = no_count (initialize_array false (TA n el) n el (initialize_member el) p (pend, ts)).
Proof.
  intros Z H. cbn [initialize_member]. apply Z.eqb_neq in Z. rewrite Z. destruct pend; [reflexivity|]. destruct ts as [|[] ts]; try reflexivity. exfalso. exact (H eq_refl _ eq_refl).
Qed.
Lemma is_braced d (i : init) : (exists l comma, d = @nil desig /\ i = IB l comma) \/ match d, i with [], IB _ _ => False | _, _ => True end.
Proof. destruct d; [destruct i; [right; exact Logic.I|left; eauto]|right; destruct i; exact Logic.I]. Qed.

Lemma reads : forall u, Sound u -> Reads u (initialize_member u).
Proof.
  induction u as [c s|n u IH|un id sz ms IH] using ty_ind2; intros Hs p Hz d q i l o l2 n2 tail Q W K C.
  - destruct d as [|x d]; [|cbn in Q; destruct x; discriminate Q]. cbn in Q. injection Q as <-. cbn [dtoks app]. destruct i as [e|l' comma].
    + cbn [walk type_at first] in W. destruct (descend (TS c s) e) as [r|] eqn:D; [|discriminate W].
      assert (r = []) by (cbn [descend] in D; destruct (kind_of e), c; congruence). subst r. cbn [app] in W. rewrite succ_nil in W.
      replace (walk (TS c s) None l) with (Some (@nil (list nat * elem), l, @None (list nat))) in W by (destruct l as [|[]]; reflexivity).
      injection W as <- <- <-. split; [reflexivity|]. intros _ e' E. injection E as <-. reflexivity.
    + split; [|intros _ e E; discriminate E]. destruct (walk_brace _ _ _ _ _ _ _ W) as [O ->].
      assert (NO : object (TS c s) (IB l' comma) <> None) by congruence. pose proof (wok_brace _ _ _ _ _ K NO) as Fi. cbn [fine orb] in Fi.
      cbn [object] in O. destruct l' as [|[|] [e|] [|]]; try discriminate O. destruct (descend _ _); [|discriminate O]. injection O as <-.
      destruct comma; [discriminate Fi|]. reflexivity.
  - inversion Hs as [|? ? Hu Hsz|]; subst. specialize (IH Hu). cbn [zeros] in Hz. destruct (is_braced d i) as [(l' & comma & -> & ->)|NB].
    + cbn in Q. injection Q as <-. split; [|intros _ e E; discriminate E]. destruct (walk_brace _ _ _ _ _ _ _ W) as [O ->].
      assert (NO : object (TA n u) (IB l' comma) <> None) by congruence. pose proof (wok_brace _ _ _ _ _ K NO) as Fi.
      change (dtoks [] ++ ?x) with x. rewrite brace_toks. cbn [initialize_member]. apply Z.eqb_neq in Hsz. rewrite Hsz.
      rewrite (array_braced n u _ IH p Hz _ (brace_tail comma _) l' comma o false O Fi). cbn [no_count]. apply closing_tail.
    + destruct (array_bare n u _ IH p Hz tail C d q i l o l2 n2 Q W K NB) as [A B]. split.
      * rewrite (member_a _ _ _ _ _ Hsz); [exact A|]. intros _. apply unbraced. exact NB.
      * intros D e E. rewrite (member_a _ _ _ _ _ Hsz); [exact (B D e E)|discriminate].
  - inversion Hs as [| |? ? ? ? Hne Hm Hf Hap Hnc]; subst.
    assert (F : forall m t, In (m, t) ms -> Reads t (initialize_member t)) by (intros m t Hin; exact (IH m t Hin (Hm m t Hin))).
    destruct (is_braced d i) as [(l' & comma & -> & ->)|NB].
    + cbn in Q. injection Q as <-. split; [|intros _ e E; discriminate E]. destruct (walk_brace _ _ _ _ _ _ _ W) as [O ->].
      assert (NO : object (TG un id sz ms) (IB l' comma) <> None) by congruence. pose proof (wok_brace _ _ _ _ _ K NO) as Fi.
      change (dtoks [] ++ ?x) with x. rewrite brace_toks. cbn [initialize_member].
      rewrite (members_braced un id sz ms F Hf Hap Hnc p _ (brace_tail comma _) l' comma o false O Fi). apply closing_tail.
    + destruct (members_bare un id sz ms F Hf Hap Hnc p tail C d q i l o l2 n2 Q W K NB) as [A B]. split.
      * rewrite member_g; [exact A|]. intros _. apply unbraced. exact NB.
      * intros D e E. rewrite member_g; [exact (B D e E)|discriminate].
Qed.

Definition length_given (t : ty) (o : given) : nat := match t with TA _ _ => length_of o | _ => 0 end.
Lemma initializer_reads t i o rest : Sound_top t -> object t i = Some o -> fine true t i = true ->
  initializer t (toks i ++ rest) = Some (map (stored t (Pos 0 0 0)) o, (None, rest), length_given t o).
Proof.
  intros Hs O Fi. unfold initializer. destruct t as [c s|n u|un id sz ms].
  - destruct i as [e|l comma].
    + cbn [object] in O. destruct (descend _ e) as [[|]|]; try discriminate O. injection O as <-. reflexivity.
    + cbn [object] in O. destruct l as [|[|] [e|] [|]]; try discriminate O. destruct (descend _ e); [|discriminate O]. injection O as <-. destruct comma; reflexivity.
  - assert (R : Reads u (initialize_member u)).
    { apply reads. destruct Hs as [Hs|(v & E & Hs)]; [inversion Hs; subst; assumption|]. injection E as _ ->. exact Hs. }
    destruct i as [e|l comma].
    + cbn [object] in O. cbn [descend] in O. destruct (kind_of e) eqn:Ke; [destruct (option_map _ _) as [[|]|] eqn:X; try discriminate O; destruct (descend u e); discriminate X| |
        destruct (option_map _ _) as [[|]|] eqn:X; try discriminate O; destruct (descend u e); discriminate X].
      destruct (is_char u) eqn:Ch; [|destruct (descend u e); discriminate O]. injection O as <-.
      cbn [toks app initialize_object]. unfold initialize_array. cbn [look read_element]. unfold is_string. cbn [fst]. rewrite Ke.
      replace (match u with TS c _ => c | _ => false end) with true by (symmetry; exact Ch). reflexivity.
    + rewrite brace_toks. cbn [initialize_object].
      rewrite (array_braced n u _ R (Pos 0 0 0) (conj eq_refl eq_refl) _ (brace_tail comma _) l comma o true O Fi). cbn [closing']. rewrite closing_tail. reflexivity.
  - destruct Hs as [Hs|(v & E & _)]; [|discriminate E]. inversion Hs as [| |? ? ? ? Hne Hm Hf Hap Hnc]; subst.
    assert (F : forall m t, In (m, t) ms -> Reads t (initialize_member t)) by (intros m t Hin; exact (reads t (Hm m t Hin))).
    destruct i as [e|l comma].
    + cbn [object] in O. destruct (descend _ e) as [[|]|]; try discriminate O. injection O as <-. reflexivity.
    + rewrite brace_toks. cbn [initialize_object].
      rewrite (members_braced un id sz ms F Hf Hap Hnc (Pos 0 0 0) _ (brace_tail comma _) l comma o true O Fi). cbn [with_count closing']. rewrite closing_tail. reflexivity.
Qed.

(* --- initializers without designators, for types without unions --- *)
Lemma no_union_sub t k u : no_union t = true -> sub t k = Some u -> no_union u = true.
Proof.
  destruct t as [|n v|un id sz ms]; cbn [sub no_union]; intros H U; [discriminate U| |].
  - destruct (_ || _); [injection U as <-; exact H|discriminate U].
  - apply andb_prop in H. destruct H as [_ H]. destruct (nth_error ms k) as [[m v]|] eqn:E; [|discriminate U]. injection U as <-.
    rewrite forallb_forall in H. exact (H _ (nth_error_In _ _ E)).
Qed.
Lemma no_union_at : forall q t u, no_union t = true -> type_at t q = Some u -> no_union u = true.
Proof.
  induction q as [|k q IH]; intros t u H U; [injection U as <-; exact H|]. cbn [type_at] in U. destruct (sub t k) as [v|] eqn:V; [|discriminate U].
  exact (IH _ _ (no_union_sub _ _ _ H V) U).
Qed.
Lemma leave_plain : forall p root t, no_union t = true -> leave root t [] p [] = true.
Proof.
  induction p as [|k p IH]; intros root t H; [reflexivity|]. cbn [leave]. destruct (sub t k) as [u|] eqn:U; [|reflexivity].
  rewrite (IH false u (no_union_sub _ _ _ H U)). destruct root; [reflexivity|]. cbn [orb andb]. destruct (succ u p); [reflexivity|].
  destruct t as [|?|[] ? ? ?]; try reflexivity; [discriminate H|]. rewrite andb_false_r. reflexivity.
Qed.
Lemma succ_hd t p s : succ t p = Some s -> s <> [] /\ (hd 0 s = hd 0 p \/ s = [S (hd 0 p)] /\ sub t (S (hd 0 p)) <> None).
Proof.
  destruct p as [|k p]; [discriminate|]. cbn [succ hd]. destruct (sub t k) as [u|]; [|discriminate]. destruct (succ u p) as [r|].
  - intros E. injection E as <-. split; [discriminate|left; reflexivity].
  - assert (G : match sub t (S k) with Some _ => Some [S k] | None => None end = Some s -> s <> [] /\ (hd 0 s = k \/ s = [S k] /\ sub t (S k) <> None)).
    { destruct (sub t (S k)); [|discriminate]. intros E. injection E as <-. split; [discriminate|right]. split; [reflexivity|discriminate]. }
    destruct t as [|?|[] ? ? ?]; try exact G. discriminate.
Qed.
Lemma hd_app (q r : path) : q <> [] -> hd 0 (q ++ r) = hd 0 q. Proof. destruct q; [congruence|reflexivity]. Qed.
Lemma go_on_plain t p c : no_union t = true -> p <> [] -> c <= S (hd 0 p) -> go_on t [] p c [] = true.
Proof.
  intros H N L. unfold go_on. rewrite (leave_plain _ _ _ H). destruct t as [|n u|[] ? ? ?]; try reflexivity. cbn [andb].
  destruct (succ (TA n u) p) as [[|j [|? ?]]|] eqn:E; try reflexivity. destruct (succ_hd _ _ _ E) as (_ & [Hd|[Hd Hs]]).
  - destruct p as [|k p]; [congruence|]. cbn [hd] in *. subst j. cbn [succ] in E. destruct (sub (TA n u) k) as [v|]; [|discriminate E]. destruct (succ v p) as [[|x s]|] eqn:E2.
    + destruct (succ_hd _ _ _ E2) as [X _]. congruence.
    + discriminate E.
    + destruct (sub (TA n u) (S k)); [|discriminate E]. injection E as E. lia.
  - cbn [sub] in Hs. destruct (Nat.eqb n 0); [reflexivity|]. cbn [orb] in *. destruct (Nat.ltb_spec (S (hd 0 p)) n); [|congruence]. apply Nat.ltb_lt. lia.
Qed.
Fixpoint fine_plain (i : init) : forall top t, no_union t = true -> plain i = true -> object t i <> None -> fine top t i = true
with list_plain (l : items) : forall t c q, no_union t = true -> plain_list l = true -> (q = None \/ exists p, q = Some p /\ p <> [] /\ c <= S (hd 0 p)) -> list_ t q l <> None -> fine_list t [] c q l = true.
Proof.
  - intros top t H P O. destruct i as [e|l comma]; [reflexivity|]. cbn [plain] in P. apply andb_prop in P. destruct P as [P1 P2]. cbn [fine]. cbn [object] in O.
    assert (G : match t with TS _ _ => False | _ => True end -> list_ t (Some [0]) l <> None -> fine_list t [] 0 (Some [0]) l = true).
    { intros _ X. apply list_plain; auto. right. exists [0]. split; [reflexivity|]. split; [discriminate|]. cbn. lia. }
    destruct t as [ch s|n u|un id sz ms].
    + destruct l as [|[|] [e|] [|]]; try congruence. rewrite P1. apply orb_true_r.
    + destruct (braced_string (TA n u) l) eqn:B; [reflexivity|]. apply G; [exact Logic.I|]. destruct l; [congruence|exact O].
    + cbn [braced_string] in *. apply G; [exact Logic.I|]. destruct l; [congruence|]. destruct un; [discriminate H|exact O].
  - intros t c q H P Q O. destruct l as [|d i l]; [reflexivity|]. cbn [plain_list] in P. apply andb_prop in P. destruct P as [P P3]. apply andb_prop in P. destruct P as [P1 P2].
    destruct d; [|discriminate P1]. destruct Q as [->|(p & -> & N & L)]; [cbn [list_] in O; congruence|].
    cbn [fine_list]. cbn [list_] in O. destruct (type_at t p) as [u|] eqn:U; [|reflexivity].
    set (p' := match i with IE e => match descend u e with Some r => p ++ r | None => p end | IB _ _ => p end).
    assert (N' : p' <> [] /\ hd 0 p' = hd 0 p).
    { unfold p'. destruct i as [e|]; [|auto]. destruct (descend u e) as [r|]; [|auto]. split; [destruct p; [congruence|discriminate]|apply hd_app; exact N]. }
    destruct N' as [N' Hd].
    assert (Oi : object u i <> None \/ exists e, i = IE e) by (destruct i as [e|l0 c0]; [right; eauto|left]; intros X; rewrite X in O; congruence).
    assert (Ol : list_ t (succ t p') l <> None).
    { unfold p'. destruct i as [e|l0 c0].
      - destruct (descend u e) as [r|]; [|congruence]. intros X. rewrite X in O. congruence.
      - destruct (object u (IB l0 c0)); [|congruence]. intros X. rewrite X in O. congruence. }
    assert (Fi : fine false u i = true) by (destruct Oi as [Oi|(e & ->)]; [exact (fine_plain i false u (no_union_at _ _ _ H U) P2 Oi)|reflexivity]).
    rewrite Fi. cbn [andb]. cbv zeta. rewrite Hd. replace (Nat.max c (S (hd 0 p))) with (S (hd 0 p)) by lia.
    assert (G : match l with INil => true | ICons d' _ _ => go_on t [] p' (S (hd 0 p)) d' end = true).
    { destruct l as [|d' i' l']; [reflexivity|]. cbn [plain_list] in P3. destruct d'; [|discriminate P3]. apply go_on_plain; auto. lia. }
    rewrite G. cbn [andb]. apply list_plain; auto. destruct (succ t p') as [s|] eqn:E; [right|left; reflexivity]. exists s. split; [reflexivity|].
    destruct (succ_hd _ _ _ E) as (Ns & [X|[-> _]]); (split; [assumption|]); [lia|cbn [hd]; lia].
Qed.
