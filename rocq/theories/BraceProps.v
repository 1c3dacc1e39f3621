(* C50: how initializers are read *)
From Coq Require Import List ZArith Bool Arith.
From Verif Require Import BraceModel BraceSpec BraceProofs.
Import ListNotations.

(* types and initializers of the examples *)
Definition int_ := TS false 4.
Definition float_ := TS false 4.
Definition char_ := TS true 1.
Definition long_ := TS false 8.
Definition mem (x : nat) (at_ : Z) (t : ty) : minfo * ty := (MI x at_ 0 0, t).
Definition num_ (n : nat) : init := IE (El KScalar n).
Definition str_ (n : nat) : init := IE (El KString n).
Definition items_of (l : list (list desig * init)) : items := fold_right (fun x => ICons (fst x) (snd x)) INil l.
Definition br (l : list (list desig * init)) : init := IB (items_of l) false.
Definition just (i : init) : list desig * init := ([], i).

(* What an initializer gives to which subobject is what is assigned, in that order, and all of its tokens are read; the length is that of
   the array.  Missing: the initializers for which fine does not hold, see the refutations. *)
Theorem C50_complete_partial : forall t i o rest, Sound_top t -> object t i = Some o -> fine true t i = true ->
  initializer t (toks i ++ rest) = Some (map (stored t (Pos 0 0 0)) o, (None, rest), match t with TA _ _ => length_of o | _ => 0 end).
Proof. exact initializer_reads. Qed.
Print Assumptions C50_complete_partial.

(* struct { int a; struct { char s[4]; int n; } p[2]; union { int i; long l; } u; } *)
Definition pair_ := TG false 1 8 [mem 10 0 (TA 4 char_); mem 11 4 int_].
Definition one_ := TG true 2 8 [mem 12 0 int_; mem 13 0 long_].
Definition all_ := TG false 3 32 [mem 1 0 int_; mem 2 4 (TA 2 pair_); mem 3 24 one_].
(* { 1, "abc", 2, "x", .u = { .l = 3 } } and { 1, "abc", 2, { { 'x', [3] = 'y' }, 7 }, { .l = 3 } } *)
Definition init1 := br [just (num_ 1); just (str_ 100); just (num_ 2); just (str_ 101); ([DName 3], br [([DName 13], num_ 3)])].
Definition init2 := br [just (num_ 1); just (str_ 100); just (num_ 2); just (br [just (br [just (num_ 120); ([DIndex 3], num_ 121)]); just (num_ 7)]); just (br [([DName 13], num_ 3)])].
Example all_sound : Sound_top all_.
Proof.
  left. constructor; [discriminate| | |intros _; cbn; repeat split; left; discriminate|reflexivity].
  - intros m t H. cbn in H. destruct H as [H|[H|[H|[]]]]; injection H as <- <-; [constructor| |].
    + constructor; [|discriminate]. constructor; [discriminate| | |intros _; cbn; repeat split; left; discriminate|reflexivity].
      * intros m t H. cbn in H. destruct H as [H|[H|[]]]; injection H as <- <-; [|constructor]. constructor; [constructor|discriminate].
      * intros m n t H. cbn in H. destruct H as [H|[H|[]]]; try discriminate H. injection H as <- _ _. split; reflexivity.
    + constructor; [discriminate| | |discriminate|reflexivity].
      * intros m t H. cbn in H. destruct H as [H|[H|[]]]; injection H as <- <-; constructor.
      * intros m n t H. cbn in H. destruct H as [H|[H|[]]]; discriminate H.
  - intros m n t H. cbn in H. destruct H as [H|[H|[H|[]]]]; try discriminate H. injection H as <- _ _. split; reflexivity.
Qed.
Example ex_init1 : object all_ init1 = Some [([0], El KScalar 1); ([1; 0; 0], El KString 100); ([1; 0; 1], El KScalar 2); ([1; 1; 0], El KString 101); ([2; 1], El KScalar 3)]
  /\ fine true all_ init1 = true
  /\ option_map (fun x => map a_pos (fst (fst x))) (initializer all_ (toks init1)) = Some [Pos 0 0 0; Pos 4 0 0; Pos 8 0 0; Pos 12 0 0; Pos 24 0 0].
Proof. vm_compute. repeat split. Qed.
Example ex_init2 : object all_ init2 = Some [([0], El KScalar 1); ([1; 0; 0], El KString 100); ([1; 0; 1], El KScalar 2); ([1; 1; 0; 0], El KScalar 120); ([1; 1; 0; 3], El KScalar 121);
    ([1; 1; 1], El KScalar 7); ([2; 1], El KScalar 3)]
  /\ fine true all_ init2 = true.
Proof. vm_compute. repeat split. Qed.
(* int a[] = { 1, [4] = 2, 3 } has six elements *)
Example ex_length : exists o, object (TA 0 int_) (br [just (num_ 1); ([DIndex 4], num_ 2); just (num_ 3)]) = Some o /\ length_of o = 6
  /\ fine true (TA 0 int_) (br [just (num_ 1); ([DIndex 4], num_ 2); just (num_ 3)]) = true.
Proof. eexists. vm_compute. repeat split. Qed.

(* Without designators and unions nothing is missing: every initializer that C allows is read to what it means. *)
Theorem C50_plain : forall t i o rest, Sound_top t -> no_union t = true -> plain i = true -> object t i = Some o ->
  initializer t (toks i ++ rest) = Some (map (stored t (Pos 0 0 0)) o, (None, rest), match t with TA _ _ => length_of o | _ => 0 end).
Proof. intros t i o rest S N P O. apply initializer_reads; auto. apply fine_plain; auto. congruence. Qed.
Print Assumptions C50_plain.
(* struct { char s[4]; int n; } x[] = { "abc", 1, { { 1, 2 } }, 'a', 'b', 'c', 'd', 5, } *)
Definition init3 := IB (items_of [just (str_ 100); just (num_ 1); just (br [just (br [just (num_ 1); just (num_ 2)])]);
  just (num_ 97); just (num_ 98); just (num_ 99); just (num_ 100); just (num_ 5)]) true.
Example ex_plain : no_union (TA 0 pair_) = true /\ plain init3 = true /\ option_map length_of (object (TA 0 pair_) init3) = Some 3
  /\ option_map (map fst) (object (TA 0 pair_) init3) = Some [[0; 0]; [0; 1]; [1; 0; 0]; [1; 0; 1]; [2; 0; 0]; [2; 0; 1]; [2; 0; 2]; [2; 0; 3]; [2; 1]].
Proof. vm_compute. repeat split. Qed.

(* Where it is not so. *)
Definition rejected (t : ty) (i : init) : Prop := object t i <> None /\ initializer t (toks i) = None.
Ltac refute := split; [|vm_compute]; [vm_compute; discriminate|reflexivity].
(* struct { union { int a; float f; } u; int b; } x = { 1, 2 } *)
Definition with_union := TG false 1 8 [mem 1 0 (TG true 2 4 [mem 3 0 int_; mem 4 0 float_]); mem 2 4 int_].
Theorem C50_union_refuted : rejected with_union (br [just (num_ 1); just (num_ 2)]).
Proof. refute. Qed.
Print Assumptions C50_union_refuted.
(* struct { struct { int a, b; } s; int c; } x = { .s.b = 1, 2 } *)
Definition nested := TG false 1 12 [mem 1 0 (TG false 2 8 [mem 3 0 int_; mem 4 4 int_]); mem 2 8 int_].
Theorem C50_designated_last_refuted : rejected nested (br [([DName 1; DName 4], num_ 1); just (num_ 2)]).
Proof. refute. Qed.
Print Assumptions C50_designated_last_refuted.
(* struct { int a; int b[2]; } x[2] = { 1, [1] = { 5 } }: 5 is stored in x[0].b[1] *)
Definition int_pair := TG false 1 12 [mem 1 0 int_; mem 2 4 (TA 2 int_)].
Theorem C50_index_refuted : let i := br [just (num_ 1); ([DIndex 1], br [just (num_ 5)])] in
  object (TA 2 int_pair) i = Some [([0; 0], El KScalar 1); ([1; 0], El KScalar 5)]
  /\ initializer (TA 2 int_pair) (toks i) = Some (map (stored (TA 2 int_pair) (Pos 0 0 0)) [([0; 0], El KScalar 1); ([0; 1; 1], El KScalar 5)], (None, []), 1).
Proof. vm_compute. split; reflexivity. Qed.
Print Assumptions C50_index_refuted.
(* int a[3] = { [2] = 1, [0] = 5, 6 } *)
Theorem C50_back_refuted : rejected (TA 3 int_) (br [([DIndex 2], num_ 1); ([DIndex 0], num_ 5); just (num_ 6)]).
Proof. refute. Qed.
Print Assumptions C50_back_refuted.
(* struct { int a, b; } x = { 1, 2, .a = 3 } *)
Theorem C50_last_then_name_refuted : rejected (TG false 1 8 [mem 1 0 int_; mem 2 4 int_]) (br [just (num_ 1); just (num_ 2); ([DName 1], num_ 3)]).
Proof. refute. Qed.
Print Assumptions C50_last_then_name_refuted.
(* int a[2] = { { 1, }, 2 } *)
Theorem C50_comma_refuted : rejected (TA 2 int_) (br [just (IB (items_of [just (num_ 1)]) true); just (num_ 2)]).
Proof. refute. Qed.
Print Assumptions C50_comma_refuted.
(* union { int a[2]; } x = { .a[0] = 1, .a[1] = 2 }: the 1 is lost *)
Theorem C50_union_twice_refuted : let t := TG true 1 8 [mem 1 0 (TA 2 int_)] in let i := br [([DName 1; DIndex 0], num_ 1); ([DName 1; DIndex 1], num_ 2)] in
  object t i = Some [([0; 0], El KScalar 1); ([0; 1], El KScalar 2)]
  /\ initializer t (toks i) = Some (map (stored t (Pos 0 0 0)) [([0; 1], El KScalar 2)], (None, []), 0).
Proof. vm_compute. split; reflexivity. Qed.
Print Assumptions C50_union_twice_refuted.
(* struct { union { struct { int a, b; }; long c; }; int d; } x = { 1, 2, 3 }: the members of an anonymous member are members of the struct;
   then the next member that is at another place is next, which is c after b: 3 is stored in c, not d *)
Definition anonymous := TG false 1 16 [mem 0 0 (TG true 2 8 [mem 0 0 (TG false 3 8 [mem 1 0 int_; mem 2 4 int_]); mem 3 0 long_]); mem 4 8 int_].
Definition flat := TG false 1 16 [mem 1 0 int_; mem 2 4 int_; mem 3 0 long_; mem 4 8 int_].
Theorem C50_anonymous_refuted : let i := br [just (num_ 1); just (num_ 2); just (num_ 3)] in
  option_map (map (fun x => (a_pos (stored anonymous (Pos 0 0 0) x), a_el (stored anonymous (Pos 0 0 0) x)))) (object anonymous i)
    = Some [(Pos 0 0 0, El KScalar 1); (Pos 4 0 0, El KScalar 2); (Pos 8 0 0, El KScalar 3)]
  /\ option_map (fun x => map (fun a => (a_pos a, a_el a)) (fst (fst x))) (initializer flat (toks i))
    = Some [(Pos 0 0 0, El KScalar 1); (Pos 4 0 0, El KScalar 2); (Pos 0 0 0, El KScalar 3)].
Proof. vm_compute. split; reflexivity. Qed.
Print Assumptions C50_anonymous_refuted.
