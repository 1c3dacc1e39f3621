(* C35: what an initializer means, bit by bit. *)
From Coq Require Import List ZArith Bool.
From Verif Require Import InitModel.
Import ListNotations.
Open Scope Z_scope.

(* bits of the object that an assignment writes: [first x, last x) *)
Definition width (x : asg) : Z := if a_fw x =? 0 then 8 * a_size x else a_fw x.
Definition first (x : asg) : Z := 8 * a_off x + a_foff x.
Definition last (x : asg) : Z := first x + width x.
Definition covers (x : asg) (q : Z) : Prop := first x <= q < last x.

(* bit q of the object, after x: a bit of a constant, or bit k of a value *)
Inductive bit := B (b : bool) | BOf (id : nat) (k : Z).
Definition bit_at (x : asg) (q : Z) : bit :=
  match a_val x with Const z => B (Z.testbit z (q - first x)) | Other id => BOf id (q - first x) end.

(* The initializers of an object in the order they were read: the last one to write a bit wins, other bits are zero. *)
Definition Initial (src : list asg) (q : Z) (b : bit) : Prop :=
  (exists l x r, src = l ++ x :: r /\ covers x q /\ b = bit_at x q /\ Forall (fun y => ~ covers y q) r) \/
  (Forall (fun y => ~ covers y q) src /\ b = B false).

(* Every bit from p to e is written once, in order. *)
Fixpoint Contiguous (p : Z) (l : list asg) (e : Z) : Prop :=
  match l with [] => p = e | x :: r => first x = p /\ p < last x /\ Contiguous (last x) r e end.

Definition Correct (src : list asg) (size : Z) (out : list asg) : Prop :=
  Contiguous 0 out (8 * size) /\ forall x q, In x out -> covers x q -> Initial src q (bit_at x q).

(* Initializers of an object of that size: any two write the same bits, or no bit twice. *)
Definition Inside (size : Z) (x : asg) : Prop := 0 <= a_off x /\ 0 < a_size x /\ a_off x + a_size x <= size.
Definition Plain (x : asg) : Prop := a_foff x = 0 /\ a_fw x = 0.
Definition Separate (x y : asg) : Prop :=
  a_off x = a_off y /\ a_size x = a_size y \/ a_off x + a_size x <= a_off y \/ a_off y + a_size y <= a_off x.

(* With bit-fields.  A field is within 64 bits of its unit; units at different offsets do not overlap. *)
Definition Item (size : Z) (x : asg) : Prop :=
  0 <= a_off x /\ last x <= 8 * size /\
  (Plain x /\ 0 < a_size x \/ 0 <= a_foff x /\ 0 < a_fw x /\ a_foff x + a_fw x <= 64 /\ exists z, a_val x = Const z).
Definition Apart (x y : asg) : Prop :=
  (a_off x = a_off y /\ a_foff x = a_foff y /\ width x = width y) \/
  (a_off x = a_off y /\ (last x <= first y \/ last y <= first x)) \/
  last x <= 8 * a_off y \/ last y <= 8 * a_off x.
(* A field that ends where the next object (or nothing) begins, ends at bit 8, 16, 32 or 64 of its unit. *)
Definition Ends_well (size : Z) (src : list asg) : Prop :=
  forall x e, In x src -> a_fw x <> 0 -> e = size \/ (exists y, In y src /\ a_off y = e) -> last x = 8 * e ->
    In (a_foff x + a_fw x) [8; 16; 32; 64].

(* Fields of one unit are initialized in order, each once. *)
Definition In_order (src : list asg) : Prop :=
  ForallOrdPairs (fun x y => a_off x = a_off y -> Plain x /\ Plain y \/ a_fw x <> 0 /\ a_fw y <> 0 /\ last x <= first y) src.
Definition Within_int (x : asg) : Prop := a_fw x <> 0 -> a_foff x + a_fw x <= 32.
(* A field does not go beyond the type it is accessed by. *)
Definition Fits (x : asg) : Prop := a_fw x <> 0 -> a_foff x + a_fw x <= 8 * a_size x.
