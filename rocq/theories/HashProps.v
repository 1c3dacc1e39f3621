(* C01: the hash table behaves as a finite map. *)
From Coq Require Import List Arith ZArith Bool.
From Verif Require Import HashModel HashSpec HashProofs.
Import ListNotations.

(* For every key type with a correct equality, every hash function and every history with at most
   2^29 insertions (the point where doubling the int capacity would overflow), every operation
   returns what the map specification returns, and no assertion fails. *)
Theorem C01_hash_table_is_finite_map :
  forall (K V : Type) (keq : K -> K -> bool) (str_hash : K -> Z) (zero_key : K)
         (ops : list (@op K V)),
  (forall a b, keq a b = true <-> a = b) ->
  (inserts ops <= 2 ^ 29)%Z ->
  exists t', run keq str_hash zero_key empty_table ops = Ok (t', snd (spec_run keq fm_empty ops)).
Proof.
  intros K V keq str_hash zero_key ops Hkeq Hn.
  exact (hash_table_refines_map keq Hkeq str_hash zero_key ops Hn).
Qed.
Print Assumptions C01_hash_table_is_finite_map.

(* Non-trivial instance: constant hash (all keys collide), removal in the middle of a probe chain,
   re-insertion, growth 16 -> 32, negative hash value. *)
Definition c01_ops : list (@op nat nat) :=
  map (fun i => Insert i (i * i)) (seq 0 12) ++
  [Remove 3; Lookup 3; Lookup 11; Insert 3 77; Insert 3 78; Lookup 3; Remove 0; Lookup 5; Clear; Lookup 5].
Example C01_instance :
  (inserts c01_ops <= 2 ^ 29)%Z /\
  option_map (skipn 12)
    (match run Nat.eqb (fun _ => (-7)%Z) 0 empty_table c01_ops with Ok (_, o) => Some o | _ => None end)
  = Some [Unit; Value None; Value (Some 121); Value (Some 77); Value (Some 77); Value (Some 77);
          Unit; Value (Some 25); Unit; Value None].
Proof. vm_compute. split; [discriminate|reflexivity]. Qed.
