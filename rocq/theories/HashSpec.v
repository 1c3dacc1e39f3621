(* Specification of the hash table interface (include/lacc/hash.h 15-43): a finite map in which
   insert keeps an existing binding.  From the model only the interface types [op] and [obs]
   are used. *)
From Coq Require Import List Bool ZArith.
From Verif Require Import HashModel.
Import ListNotations.

Section Spec.
Context {K V : Type}.
Variable keq : K -> K -> bool.

Definition fmap := K -> option V.
Definition fm_empty : fmap := fun _ => None.
Definition fm_set (m : fmap) (k : K) (v : option V) : fmap := fun k' => if keq k k' then v else m k'.

Definition spec_step (m : fmap) (o : @op K V) : fmap * @obs V :=
  match o with
  | Insert k v => match m k with
                  | Some v' => (m, Value (Some v'))            (* existing binding is kept *)
                  | None => (fm_set m k (Some v), Value (Some v))
                  end
  | Lookup k => (m, Value (m k))
  | Remove k => (fm_set m k None, Unit)
  | Clear => (fm_empty, Unit)
  end.

Fixpoint spec_run (m : fmap) (ops : list (@op K V)) : fmap * list (@obs V) :=
  match ops with
  | [] => (m, [])
  | o :: rest => let '(m', b) := spec_step m o in
                 let '(m'', bs) := spec_run m' rest in (m'', b :: bs)
  end.

(* Number of insertions in a history. *)
Fixpoint inserts (ops : list (@op K V)) : Z :=
  match ops with
  | [] => 0
  | Insert _ _ :: rest => 1 + inserts rest
  | _ :: rest => inserts rest
  end%Z.
End Spec.
