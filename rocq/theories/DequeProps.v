(* C03: the token look-ahead queue is a FIFO (and LIFO at its back end). *)
From Coq Require Import List Arith ZArith.
From Verif Require Import DequeModel DequeSpec DequeProofs.
Import ListNotations.

(* Every history the list specification accepts (no take from an empty queue, no index past the end,
   at most 2^30 pushes) runs without undefined behaviour and returns exactly the list's answers. *)
Theorem C03_deque_is_list :
  forall (A : Type) (ops : list (@op A)) (q : list A) (bs : list obs),
  (Z.of_nat (pushes ops) <= 2 ^ 30)%Z ->
  spec_run [] ops = Some (q, bs) -> exists d, run deque_zero ops = Ok (d, bs).
Proof. exact @deque_refines_list. Qed.
Print Assumptions C03_deque_is_list.

(* 16 pushes fill the first allocation, 3 front pops move the cursor, the next push compacts, further
   pushes double the allocation. *)
Definition c03_ops : list (@op nat) :=
  map PushBack (seq 0 16) ++ [PopFront; PopFront; PopFront; PushBack 16; Get 0; PopBack; Len] ++
  map PushBack (seq 20 10) ++ [Get 12; Get 13; PopBack; PopFront; Len].
Example C03_instance :
  (Z.of_nat (pushes c03_ops) <= 2 ^ 30)%Z /\
  option_map (fun x => skipn 16 (snd x)) (spec_run [] c03_ops) =
  Some ([Elem 0; Elem 1; Elem 2; Unit; Elem 3; Elem 16; Size 13] ++ repeat Unit 10 ++
        [Elem 15; Elem 20; Elem 29; Elem 3; Size 21]).
Proof. vm_compute. split; [discriminate|reflexivity]. Qed.
