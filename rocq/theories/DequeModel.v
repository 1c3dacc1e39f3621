(* Model of include/lacc/deque.h (and the parts of include/lacc/array.h it uses): a growable array
   with a read cursor. *)
From Coq Require Import List Arith ZArith Bool.
From Verif Require Import Util.
Import ListNotations.

Section Deque.
Context {A : Type}.

(* array.h 5-10 and deque.h 10-14.  [data] has [capacity] cells; [None] is a cell whose content is
   indeterminate (fresh from realloc). *)
Record deque := mk_deque { cursor : nat; capacity : nat; len : nat; data : list (option A) }.

Definition deque_zero : deque := mk_deque 0 0 0 [].

Inductive outcome (B : Type) := Ok (b : B) | UB.
Arguments Ok {B}. Arguments UB {B}.
Definition bind {B C} (x : outcome B) (f : B -> outcome C) : outcome C :=
  match x with Ok b => f b | UB => UB end.

(* array.h 66: reading a cell; outside the allocation or indeterminate is UB. *)
Definition array_get (d : deque) (i : nat) : outcome A :=
  match nth_error (data d) i with Some (Some a) => Ok a | _ => UB end.

(* deque.h 16-17 (an int; negative when a pop overran, which [pop_back] below makes UB) *)
Definition deque_len (d : deque) : nat := len d - cursor d.

(* array.h 15-21.  Capacity is an int: doubling past INT_MAX overflows. *)
Definition array_grow (d : deque) : outcome deque :=
  if Nat.eqb (len d) (capacity d) then
    let cap := if Nat.eqb (capacity d) 0 then 16 else capacity d * 2 in
    if (2147483647 <? Z.of_nat cap)%Z then UB
    else Ok (mk_deque (cursor d) cap (len d) (data d ++ repeat None (cap - capacity d)))
  else Ok d.

(* array.h 13-23 *)
Definition array_push_back (d : deque) (x : A) : outcome deque :=
  bind (array_grow d) (fun d =>
  if Nat.ltb (len d) (capacity d)
  then Ok (mk_deque (cursor d) (capacity d) (S (len d)) (upd (data d) (len d) (Some x)))
  else UB).

(* memmove of [n] cells from [src] to the start of the allocation. *)
Fixpoint memmove0 (l : list (option A)) (src : list (option A)) (n i : nat) {struct n} : list (option A) :=
  match n, src with
  | S m, c :: t => memmove0 (upd l i c) t m (S i)
  | _, _ => l
  end.

(* deque.h 19-30; sizeof(elem) is assumed to be the size of an element. *)
Definition deque_push_back (d : deque) (x : A) : outcome deque :=
  let d := if negb (Nat.eqb (cursor d) 0) && Nat.eqb (len d) (capacity d)
           then mk_deque 0 (capacity d) (deque_len d)
                  (memmove0 (data d) (skipn (cursor d) (data d)) (deque_len d) 0)
           else d in
  array_push_back d x.

(* deque.h 35-36, array.h 46-47 *)
Definition deque_pop_back (d : deque) : outcome (deque * A) :=
  if Nat.leb (len d) (cursor d) then UB else
  let d' := mk_deque (cursor d) (capacity d) (len d - 1) (data d) in
  bind (array_get d' (len d')) (fun a => Ok (d', a)).

(* deque.h 38-39 *)
Definition deque_pop_front (d : deque) : outcome (deque * A) :=
  if Nat.leb (len d) (cursor d) then UB else
  bind (array_get d (cursor d)) (fun a => Ok (mk_deque (S (cursor d)) (capacity d) (len d) (data d), a)).

(* deque.h 41-42 *)
Definition deque_get (d : deque) (i : nat) : outcome A :=
  if Nat.leb (len d) (cursor d + i) then UB else array_get d (cursor d + i).

(* deque.h 44-48 *)
Definition deque_empty (d : deque) : deque := mk_deque 0 (capacity d) 0 (data d).
(* deque.h 50-54, array.h 105-112 *)
Definition deque_destroy (d : deque) : deque := mk_deque 0 0 0 [].

Inductive op := PushBack (x : A) | PopBack | PopFront | Get (i : nat) | Len | Empty | Destroy.
Inductive obs := Elem (a : A) | Size (n : nat) | Unit.

Definition step (d : deque) (o : op) : outcome (deque * obs) :=
  match o with
  | PushBack x => bind (deque_push_back d x) (fun d' => Ok (d', Unit))
  | PopBack => bind (deque_pop_back d) (fun '(d', a) => Ok (d', Elem a))
  | PopFront => bind (deque_pop_front d) (fun '(d', a) => Ok (d', Elem a))
  | Get i => bind (deque_get d i) (fun a => Ok (d, Elem a))
  | Len => Ok (d, Size (deque_len d))
  | Empty => Ok (deque_empty d, Unit)
  | Destroy => Ok (deque_destroy d, Unit)
  end.

Fixpoint run (d : deque) (ops : list op) : outcome (deque * list obs) :=
  match ops with
  | [] => Ok (d, [])
  | o :: rest => bind (step d o) (fun '(d', b) => bind (run d' rest) (fun '(d'', bs) => Ok (d'', b :: bs)))
  end.
End Deque.
Arguments Ok {B}. Arguments UB {B}.
Arguments PushBack {A}. Arguments PopBack {A}. Arguments PopFront {A}. Arguments Get {A}.
Arguments Len {A}. Arguments Empty {A}. Arguments Destroy {A}.
Arguments Elem {A}. Arguments Size {A}. Arguments Unit {A}.
