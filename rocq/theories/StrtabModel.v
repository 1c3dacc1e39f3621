(* Model of the string table, src/preprocessor/strtab.c, and of the String handle,
   include/lacc/string.h and src/util/string.c. *)
From Coq Require Import List Arith ZArith Bool.
From Verif Require Import Util Bytes.
Import ListNotations.
Open Scope Z_scope.

(* string.h 31-40: the union seen as its two 8-byte words (large.ptr, large.len).  Little endian:
   small.buf is the first 15 bytes and small.cap the most significant byte of the second word. *)
Record String := mk_String { w0 : Z; w1 : Z }.

Definition SHORT_STRING_LEN : nat := 15.                  (* string.h 10 *)
Definition MAX_STRING_LEN : Z := 2 ^ 56 - 1.              (* string.h 13: 0x00ffffffffffffff *)
(* small.cap as the unsigned value of the top byte; it is >= 0 as signed char iff < 128. *)
Definition cap_byte (s : String) : Z := w1 s / 2 ^ 56.
Definition IS_SHORT_STRING (s : String) : bool := cap_byte s <? 128.   (* string.h 12 *)

(* string.c 64-71 *)
Definition str_len (s : String) : Z :=
  if IS_SHORT_STRING s then 15 - cap_byte s else Z.land (w1 s) MAX_STRING_LEN.

(* string.c 78-81 *)
Definition str_eq (s1 s2 : String) : bool := (w0 s1 =? w0 s2) && (w1 s1 =? w1 s2).

(* Memory blocks returned by malloc, by address. *)
Definition heap := list (Z * list Z).
Fixpoint hget (hp : heap) (p : Z) : option (list Z) :=
  match hp with
  | [] => None
  | (q, b) :: t => if q =? p then Some b else hget t p
  end.

(* string.h 50, str_raw, then reading [str_len s] bytes from it. *)
Definition str_bytes (hp : heap) (s : String) : option (list Z) :=
  if IS_SHORT_STRING s
  then Some (firstn (Z.to_nat (str_len s)) (le_bytes 8 (w0 s) ++ le_bytes 8 (w1 s)))
  else option_map (firstn (Z.to_nat (str_len s))) (hget hp (w0 s)).

(* strtab.c 33-37 *)
Record sentry := mk_sentry { s_hash : Z; s_length : Z; s_value : option Z }.
(* strtab.c 23-38, plus the heap. *)
Record strtab := mk_strtab { st_capacity : nat; st_count : nat; st_entries : list sentry; st_heap : heap }.

Definition empty_strtab : strtab := mk_strtab 0 0 [] [].
Definition szero : sentry := mk_sentry 0 0 None.

Inductive outcome (A : Type) := Ok (a : A) | AssertFail | UB | ErrorExit.
Arguments Ok {A}. Arguments AssertFail {A}. Arguments UB {A}. Arguments ErrorExit {A}.
Definition bind {A B} (x : outcome A) (f : A -> outcome B) : outcome B :=
  match x with Ok a => f a | AssertFail => AssertFail | UB => UB | ErrorExit => ErrorExit end.

Section Strtab.
(* strtab.c 66-77, djb2_hash: int arithmetic that wraps in practice; any function will do. *)
Variable djb2_hash : list Z -> Z.

(* memcmp(p, v, n) == 0 on a heap block; a block shorter than n would be an over-read. *)
Definition memcmp_eq (hp : heap) (p : Z) (v : list Z) (n : nat) : bool :=
  match hget hp p with
  | Some b => list_eqb (firstn n b) (firstn n v)
  | None => false
  end.

(* strtab.c 79-88 *)
Definition strtab_match_entry (hp : heap) (e : sentry) (v : list Z) (len : Z) (h : Z) : bool :=
  match s_value e with
  | None => true
  | Some p => (s_hash e =? h) && (s_length e =? len) && memcmp_eq hp p v (Z.to_nat len)
  end.

Fixpoint sscan (hp : heap) (es : list sentry) (v : list Z) (len h : Z) (j n : nat) : option nat :=
  match n with
  | O => None
  | S n' =>
      match nth_error es j with
      | Some e => if strtab_match_entry hp e v len h then Some j else sscan hp es v len h (S j) n'
      | None => None
      end
  end.

(* strtab.c 90-121 *)
Definition strtab_find_entry (hp : heap) (cap : nat) (es : list sentry) (v : list Z) (len h : Z)
  : outcome nat :=
  if Nat.eqb cap 0 then AssertFail else
  let i := Z.to_nat (Z.land h (Z.of_nat cap - 1)) in
  match nth_error es i with
  | None => AssertFail
  | Some e =>
      if strtab_match_entry hp e v len h then Ok i else
      match sscan hp es v len h (S i) (cap - S i) with
      | Some j => Ok j
      | None => match sscan hp es v len h 0 i with
                | Some j => Ok j
                | None => AssertFail                       (* assert(0), line 119 *)
                end
      end
  end.

(* strtab.c 123-126 *)
Definition strtab_is_full (st : strtab) : bool := Nat.leb (st_capacity st / 2) (st_count st).

(* strtab.c 145-150; the old entry's own bytes are the key *)
Fixpoint srehash (hp : heap) (cap : nat) (old es : list sentry) : outcome (list sentry) :=
  match old with
  | [] => Ok es
  | a :: rest =>
      match s_value a with
      | None => srehash hp cap rest es
      | Some p =>
          match hget hp p with
          | None => UB
          | Some b =>
              bind (strtab_find_entry hp cap es b (s_length a) (s_hash a)) (fun j =>
              srehash hp cap rest (upd es j a))
          end
      end
  end.

(* strtab.c 128-153; as in hash.c the capacity is an int. *)
Definition strtab_expand (st : strtab) : outcome strtab :=
  let cap := if Nat.eqb (st_capacity st) 0 then N.to_nat 2048 else (st_capacity st * 2)%nat in
  if 2147483647 <? Z.of_nat cap then UB
  else bind (srehash (st_heap st) cap (st_entries st) (repeat szero cap)) (fun es =>
       Ok (mk_strtab cap (st_count st) es (st_heap st))).

(* strtab.c 155-208.  [addr] is what malloc returns should this call allocate (line 191).
   Lengths beyond INT_MAX are truncated to a negative int by the calls on line 185 and 190;
   memcmp then gets a huge size: UB. *)
Definition str_intern (st : strtab) (buf : list Z) (addr : Z) : outcome (strtab * String) :=
  let len := length buf in
  if Nat.leb len SHORT_STRING_LEN then
    let all := buf ++ repeat 0 (15 - len) ++ [Z.of_nat (15 - len)] in
    Ok (st, mk_String (le_val (firstn 8 all)) (le_val (skipn 8 all)))
  else if MAX_STRING_LEN <? Z.of_nat len then ErrorExit
  else if 2147483647 <? Z.of_nat len then UB
  else
  bind (if strtab_is_full st then strtab_expand st else Ok st) (fun st =>
  if strtab_is_full st then AssertFail else
  if Nat.eqb (st_capacity st) 0 then AssertFail else
  if Nat.leb (st_capacity st - 1) (st_count st) then AssertFail else
  let h := djb2_hash buf in
  bind (strtab_find_entry (st_heap st) (st_capacity st) (st_entries st) buf (Z.of_nat len) h) (fun j =>
  match nth_error (st_entries st) j with
  | None => AssertFail
  | Some e =>
      let '(st', p) :=
        match s_value e with
        | None =>
            (mk_strtab (st_capacity st) (S (st_count st))
               (upd (st_entries st) j (mk_sentry h (Z.of_nat len) (Some addr)))
               ((addr, buf ++ [0]) :: st_heap st), addr)
        | Some p => (st, p)
        end in
      Ok (st', mk_String p (Z.of_nat len + 255 * 2 ^ 56))
  end)).

(* A history of registrations, each with the address malloc would give it. *)
Fixpoint intern_all (st : strtab) (hist : list (list Z * Z)) : outcome (strtab * list String) :=
  match hist with
  | [] => Ok (st, [])
  | (b, a) :: rest =>
      bind (str_intern st b a) (fun '(st', s) =>
      bind (intern_all st' rest) (fun '(st'', ss) => Ok (st'', s :: ss)))
  end.
End Strtab.
