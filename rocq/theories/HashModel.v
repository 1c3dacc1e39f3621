(* Model of src/util/hash.c: open addressing hash table with tombstones. *)
From Coq Require Import List Arith ZArith Bool.
From Verif Require Import Util.
Import ListNotations.

Section Hash.
(* Keys are interned strings (String, include/lacc/string.h 31-40) compared with str_eq
   (src/util/string.c 78-81); values are non-NULL pointers.  str_hash (string.c 100-115) is an
   arbitrary function into int, so every hash function is covered. *)
Context {K V : Type}.
Variable keq : K -> K -> bool.
Variable str_hash : K -> Z.
(* Content of a zeroed key (calloc, memset). *)
Variable zero_key : K.

(* hash.c 16-26, struct hash_entry.  A NULL value pointer is [None]. *)
Record entry := mk_entry { e_hash : Z; e_deleted : bool; e_key : K; e_value : option V }.

(* hash.h 9-13, struct hash_table; entries has [capacity] elements. *)
Record table := mk_table { t_capacity : nat; t_count : nat; t_entries : list entry }.

(* calloc'ed / memset entry: hash.c 43, 112. *)
Definition zero_entry : entry := mk_entry 0 false zero_key None.
(* A static zero-initialised table, as macro.c and symtab.c create it. *)
Definition empty_table : table := mk_table 0 0 [].

(* Results that are not a normal return: a failed assert, or int overflow. *)
Inductive outcome (A : Type) := Ok (a : A) | AssertFail | Overflow.
Arguments Ok {A}. Arguments AssertFail {A}. Arguments Overflow {A}.
Definition bind {A B} (x : outcome A) (f : A -> outcome B) : outcome B :=
  match x with Ok a => f a | AssertFail => AssertFail | Overflow => Overflow end.

(* hash.c 52-61 *)
Definition hash_match_entry (e : entry) (k : K) (h : Z) : bool :=
  if e_deleted e then false
  else match e_value e with
       | None => true
       | Some _ => (e_hash e =? h)%Z && keq (e_key e) k
       end.

(* The two loops of hash.c 78-90: scan [n] slots starting at index [j]. *)
Fixpoint scan (es : list entry) (k : K) (h : Z) (j n : nat) : option nat :=
  match n with
  | O => None
  | S n' =>
      match nth_error es j with
      | Some e => if hash_match_entry e k h then Some j else scan es k h (S j) n'
      | None => None
      end
  end.

(* hash.c 63-94.  [hash & (capacity - 1)] is computed on two's complement ints. *)
Definition start_index (cap : nat) (h : Z) : nat :=
  Z.to_nat (Z.land h (Z.of_nat cap - 1)).

Definition hash_find_entry (cap : nat) (es : list entry) (k : K) (h : Z) : outcome nat :=
  if Nat.eqb cap 0 then AssertFail else
  let i := start_index cap h in
  match nth_error es i with
  | None => AssertFail
  | Some e =>
      if hash_match_entry e k h then Ok i else
      match scan es k h (S i) (cap - S i) with
      | Some j => Ok j
      | None =>
          match scan es k h 0 i with
          | Some j => Ok j
          | None => AssertFail           (* assert(0), line 92 *)
          end
      end
  end.

(* hash.c 113-122: re-insert live entries into the fresh array. *)
Fixpoint rehash (cap : nat) (old : list entry) (es : list entry) : outcome (list entry) :=
  match old with
  | [] => Ok es
  | a :: rest =>
      match e_value a with
      | None => rehash cap rest es
      | Some v =>
          if e_deleted a then rehash cap rest es
          else bind (hash_find_entry cap es (e_key a) (e_hash a)) (fun j =>
               rehash cap rest (upd es j (mk_entry (e_hash a) false (e_key a) (Some v))))
      end
  end.

Definition INT_MAX : Z := 2147483647.

(* hash.c 96-126.  Doubling past INT_MAX is signed overflow; the error branch on line 106 needs
   capacity = INT_MAX, which no power of two is.  (b->deleted is left as calloc made it.) *)
Definition hash_expand (t : table) : outcome table :=
  let cap := if Nat.eqb (t_capacity t) 0 then 16 else t_capacity t * 2 in
  if (INT_MAX <? Z.of_nat cap)%Z then Overflow
  else bind (rehash cap (t_entries t) (repeat zero_entry cap)) (fun es =>
       Ok (mk_table cap (t_count t) es)).

(* hash.c 128-131 *)
Definition hash_is_full (t : table) : bool := Nat.leb (t_capacity t / 2) (t_count t).

(* hash.c 133-166.  The [add] callback is modelled for the callers' behaviour (store key and
   value); line 152 and 164 asserts are checked. *)
Definition hash_insert (t : table) (k : K) (v : V) : outcome (table * V) :=
  bind (if hash_is_full t then
          bind (hash_expand t) (fun t' => if hash_is_full t' then AssertFail else Ok t')
        else Ok t) (fun t =>
  if Nat.eqb (t_capacity t) 0 then AssertFail else
  if Nat.leb (t_capacity t - 1) (t_count t) then AssertFail else
  let h := str_hash k in
  bind (hash_find_entry (t_capacity t) (t_entries t) k h) (fun j =>
  match nth_error (t_entries t) j with
  | None => AssertFail
  | Some e =>
      if e_deleted e then AssertFail else
      match e_value e with
      | None => Ok (mk_table (t_capacity t) (S (t_count t))
                      (upd (t_entries t) j (mk_entry h (e_deleted e) k (Some v))), v)
      | Some v' => if ((e_hash e =? h)%Z && keq (e_key e) k)%bool then Ok (t, v') else AssertFail
      end
  end)).

(* hash.c 168-179 *)
Definition hash_lookup (t : table) (k : K) : outcome (option V) :=
  if Nat.eqb (t_capacity t) 0 then Ok None else
  bind (hash_find_entry (t_capacity t) (t_entries t) k (str_hash k)) (fun j =>
  match nth_error (t_entries t) j with
  | None => AssertFail
  | Some e => Ok (e_value e)
  end).

(* hash.c 181-203 (the [del] callback only frees memory). *)
Definition hash_remove (t : table) (k : K) : outcome table :=
  if Nat.eqb (t_capacity t) 0 then Ok t else
  bind (hash_find_entry (t_capacity t) (t_entries t) k (str_hash k)) (fun j =>
  match nth_error (t_entries t) j with
  | None => AssertFail
  | Some e =>
      match e_value e with
      | None => Ok t
      | Some _ => Ok (mk_table (t_capacity t) (t_count t)
                        (upd (t_entries t) j (mk_entry 0 true (e_key e) None)))
      end
  end).

(* hash.c 28-44 *)
Definition hash_clear (t : table) : table :=
  mk_table (t_capacity t) 0 (repeat zero_entry (t_capacity t)).

(* The public interface, include/lacc/hash.h 15-43. *)
Inductive op := Insert (k : K) (v : V) | Lookup (k : K) | Remove (k : K) | Clear.
(* Observable result of one operation. *)
Inductive obs := Value (v : option V) | Unit.

Definition step (t : table) (o : op) : outcome (table * obs) :=
  match o with
  | Insert k v => bind (hash_insert t k v) (fun '(t', v') => Ok (t', Value (Some v')))
  | Lookup k => bind (hash_lookup t k) (fun v => Ok (t, Value v))
  | Remove k => bind (hash_remove t k) (fun t' => Ok (t', Unit))
  | Clear => Ok (hash_clear t, Unit)
  end.

Fixpoint run (t : table) (ops : list op) : outcome (table * list obs) :=
  match ops with
  | [] => Ok (t, [])
  | o :: rest =>
      bind (step t o) (fun '(t', b) =>
      bind (run t' rest) (fun '(t'', bs) => Ok (t'', b :: bs)))
  end.
End Hash.

Arguments Ok {A}. Arguments AssertFail {A}. Arguments Overflow {A}.
Arguments Insert {K V}. Arguments Lookup {K V}. Arguments Remove {K V}. Arguments Clear {K V}.
Arguments Value {V}. Arguments Unit {V}.
