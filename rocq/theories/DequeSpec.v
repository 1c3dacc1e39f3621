(* Specification of a deque: a list, front first.  [None] marks client misuse (taking from an empty
   queue or indexing past its end). *)
From Coq Require Import List Arith ZArith.
From Verif Require Import DequeModel.
Import ListNotations.

Section Spec.
Context {A : Type}.
Definition spec_step (q : list A) (o : @op A) : option (list A * @obs A) :=
  match o with
  | PushBack x => Some (q ++ [x], Unit)
  | PopBack => match rev q with x :: r => Some (rev r, Elem x) | [] => None end
  | PopFront => match q with x :: r => Some (r, Elem x) | [] => None end
  | Get i => match nth_error q i with Some x => Some (q, Elem x) | None => None end
  | Len => Some (q, Size (length q))
  | Empty | Destroy => Some ([], Unit)
  end.

Fixpoint spec_run (q : list A) (ops : list (@op A)) : option (list A * list (@obs A)) :=
  match ops with
  | [] => Some (q, [])
  | o :: rest =>
      match spec_step q o with
      | None => None
      | Some (q', b) => match spec_run q' rest with Some (q'', bs) => Some (q'', b :: bs) | None => None end
      end
  end.

Fixpoint pushes (ops : list (@op A)) : nat :=
  match ops with [] => 0 | PushBack _ :: r => S (pushes r) | _ :: r => pushes r end.
End Spec.
