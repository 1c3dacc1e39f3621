(* C02: interned strings are equal exactly when their bytes are equal. *)
From Coq Require Import List Arith ZArith Bool Lia.
From Verif Require Import Bytes StrtabModel StrtabProofs.
Import ListNotations.
Open Scope Z_scope.

(* For every hash function, every history of registrations of byte strings (each at most INT_MAX
   long, at most 2^29 of them) and every choice of distinct addresses by malloc: all calls succeed,
   each returned handle denotes -- in the final state, i.e. after all later registrations -- exactly
   the registered bytes, and two handles compare equal iff the registered bytes are equal. *)
Theorem C02_interning_is_injective_and_stable :
  forall (djb2_hash : list Z -> Z) (hist : list (list Z * Z)),
  Z.of_nat (length hist) <= 2 ^ 29 ->
  Forall (fun x => Forall is_byte (fst x) /\ Z.of_nat (length (fst x)) <= 2147483647) hist ->
  NoDup (map snd hist) ->
  exists st ss, intern_all djb2_hash empty_strtab hist = Ok (st, ss) /\ length ss = length hist /\
    (forall i b a s, nth_error hist i = Some (b, a) -> nth_error ss i = Some s ->
       str_bytes (st_heap st) s = Some b /\ str_len s = Z.of_nat (length b)) /\
    (forall i j b1 a1 b2 a2 s1 s2,
       nth_error hist i = Some (b1, a1) -> nth_error ss i = Some s1 ->
       nth_error hist j = Some (b2, a2) -> nth_error ss j = Some s2 ->
       (str_eq s1 s2 = true <-> b1 = b2)).
Proof. exact intern_correct. Qed.
Print Assumptions C02_interning_is_injective_and_stable.

(* Long strings with an embedded NUL, the same string twice, colliding hashes, and a short string
   that is a prefix of another padded with NUL. *)
Definition c02_hist : list (list Z * Z) :=
  [ (repeat 65 20, 1000); ([97;98;0], 1); (repeat 65 19 ++ [0], 2000); (repeat 65 20, 3000); ([97;98], 2) ].
Example C02_instance :
  (Z.of_nat (length c02_hist) <= 2 ^ 29 /\
   Forall (fun x => Forall is_byte (fst x) /\ Z.of_nat (length (fst x)) <= 2147483647) c02_hist /\
   NoDup (map snd c02_hist)) /\
  match intern_all (fun _ => -1) empty_strtab c02_hist with
  | Ok (_, [a; b; c; d; e]) => [str_eq a a; str_eq a b; str_eq a c; str_eq a d; str_eq b e; w0 d =? 1000]
  | _ => []
  end = [true; false; false; true; false; true].
Proof.
  split; [|vm_compute; reflexivity]. split; [vm_compute; discriminate|]. split.
  - repeat constructor; cbv; intuition discriminate.
  - repeat constructor; cbv; intuition discriminate.
Qed.
