(* Classification of parameters and results: System V x86-64 ABI (3.2.3), for C types as they are written. *)
From Coq Require Import List ZArith Bool.
From Verif Require Import TypeModel LayoutSpec AbiModel.
Import ListNotations.
Open Scope Z_scope.

(* An object of type c at offset b has a scalar of kind k at offset o. *)
Inductive Leaf : ctype -> Z -> tkind -> Z -> Prop :=
| Leaf_scalar k b : Leaf (CScalar k) b k b
| Leaf_array n c b i k o : 0 <= i < n -> Leaf c (b + i * csize c) k o -> Leaf (CArray n c) b k o
| Leaf_struct ms os e j n c p b k o : Placed 0 ms os e -> nth_error ms j = Some (n, c) -> nth_error os j = Some p ->
    Leaf c (b + p) k o -> Leaf (CStruct ms) b k o
| Leaf_union ms n c b k o : In (n, c) ms -> Leaf c b k o -> Leaf (CUnion ms) b k o.

Definition integral (k : tkind) : Prop := In k [T_BOOL; T_CHAR; T_SHORT; T_INT; T_LONG; T_POINTER].
Definition floating (k : tkind) : Prop := k = T_FLOAT \/ k = T_DOUBLE.
Definition aggregate (c : ctype) : Prop := match c with CStruct _ | CUnion _ => True | _ => False end.

(* The eightbytes of an object; MEMORY for the whole object is [MEMORY]. *)
Definition Abi (c : ctype) (l : list cls) : Prop :=
  match c with
  | CScalar k =>
    (integral k -> l = [INTEGER]) /\ (floating k -> l = [SSE]) /\ (k = T_LDOUBLE -> l = [X87; X87UP])
  | CArray _ _ => True
  | CStruct _ | CUnion _ =>
    (* more than two eightbytes (without vectors) *)
    (16 < csize c -> l = [MEMORY]) /\
    (csize c <= 16 ->
      (* no long double: each eightbyte is INTEGER if there is an integer in it, and SSE otherwise *)
      ((forall o, ~ Leaf c 0 T_LDOUBLE o) ->
        Z.of_nat (length l) = (csize c + 7) / 8 /\
        forall j x, nth_error l j = Some x ->
          ((exists k o, Leaf c 0 k o /\ integral k /\ o / 8 = Z.of_nat j) -> x = INTEGER) /\
          (~ (exists k o, Leaf c 0 k o /\ integral k /\ o / 8 = Z.of_nat j) ->
             (exists k o, Leaf c 0 k o /\ o / 8 = Z.of_nat j) -> x = SSE) /\
          (~ (exists k o, Leaf c 0 k o /\ o / 8 = Z.of_nat j) -> x = NO_CLASS)) /\
      (* long doubles only *)
      ((exists o, Leaf c 0 T_LDOUBLE o) -> (forall k o, Leaf c 0 k o -> k = T_LDOUBLE) -> l = [X87; X87UP]) /\
      (* a long double and something else, not an integer in the second eightbyte: X87UP is not preceded by X87, or is
         merged with SSE *)
      ((exists o, Leaf c 0 T_LDOUBLE o) -> (exists k o, Leaf c 0 k o /\ k <> T_LDOUBLE) ->
       ~ (exists k o, Leaf c 0 k o /\ integral k /\ 8 <= o) -> l = [MEMORY]))
  end.

(* What a classification means to the rest of the code. *)
Definition classes (n : Z) (pc : param_class) : list cls :=
  match pc with MEMORY :: _ => [MEMORY] | _ => firstn (Z.to_nat n) pc end.

(* Members at multiples of their size (not just of their alignment). *)
Definition size_aligned (c : ctype) : Prop :=
  match c with
  | CStruct ms => forall os e j n c p, Placed 0 ms os e -> nth_error ms j = Some (n, c) -> nth_error os j = Some p -> p mod csize c = 0
  | _ => True
  end.
