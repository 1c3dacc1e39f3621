(* Copying objects.  src/backend/x86_64/compile.c:455-493, 804-841, 880-888, 1364-1396. *)
From Coq Require Import List ZArith Bool.
Import ListNotations.
Open Scope Z_scope.

(* compile.c:813-831: the width of the next move, for `rest` = bytes - i > 0. *)
Definition chunk (rest : Z) : Z :=
  match rest with
  | 1 | 2 | 4 | 8 => rest
  | 3 => 2
  | 5 | 6 | 7 => 4
  | _ => 8
  end.
(* compile.c:811-835, one entry (offset, width) per pair of moves through %rax.  i is an int, bytes less than 2^31. *)
Fixpoint moves (fuel : nat) (i bytes : Z) : list (Z * Z) :=
  match fuel with
  | O => []
  | S n => if i <? bytes then (i, chunk (bytes - i)) :: moves n (i + chunk (bytes - i)) bytes else []
  end.

(* What emit_memcpy emits: moves from (%rsi) to (%rdi), or a call of memcpy with the size in %rdx. *)
Inductive copy := Moves (l : list (Z * Z)) | CallMemcpy (n : Z).
(* compile.c:804-841; has_memcpy: decl_memcpy != NULL *)
Definition emit_memcpy (has_memcpy : bool) (bytes : Z) : copy :=
  if (bytes <=? 64) || negb has_memcpy then Moves (moves (Z.to_nat bytes) 0 bytes) else CallMemcpy bytes.

(* Memory is a function from addresses to bytes; a move reads all its bytes before it writes. *)
Definition mem := Z -> Z.
Definition move_bytes (m : mem) (src dst w : Z) : mem :=
  fun a => if (dst <=? a) && (a <? dst + w) then m (src + (a - dst)) else m a.
Fixpoint run_moves (m : mem) (src dst : Z) (l : list (Z * Z)) : mem :=
  match l with
  | [] => m
  | (i, w) :: r => run_moves (move_bytes m (src + i) (dst + i) w) src dst r
  end.

(* compile.c:455-493 slice_type, for a type that is not scalar: the size of the type used for eightbyte i of an
   object of `width` bytes.  None: the assertion at 486. *)
Definition slice (width i : Z) (sse : bool) : option Z :=
  let w := if (i + 1) * 8 <? width then 8
           else match width mod 8 with 1 => 1 | 2 => 2 | 3 | 4 => 4 | _ => 8 end in
  if sse then match w mod 8 with 4 => Some 4 | 0 => Some 8 | _ => None end else Some w.
(* compile.c:1364-1396 move_to_from_registers: the parts (offset, width) read from the object, or written to it;
   EIGHTBYTES(t) is (size + 7) / 8 (abi.h:33).  cls i: the class of eightbyte i is SSE. *)
Fixpoint slices (fuel : nat) (width i : Z) (cls : Z -> bool) : option (list (Z * Z)) :=
  match fuel with
  | O => Some []
  | S n => match slice width i (cls i), slices n width (i + 1) cls with
           | Some w, Some r => Some ((8 * i, w) :: r)
           | _, _ => None
           end
  end.
Definition move_registers (width : Z) (cls : Z -> bool) : option (list (Z * Z)) :=
  slices (Z.to_nat ((width + 7) / 8)) width 0 cls.

(* compile.c:880-888 push of an aggregate: rep movsq, EIGHTBYTES times. *)
Fixpoint quads (fuel : nat) (i : Z) : list (Z * Z) :=
  match fuel with O => [] | S n => (8 * i, 8) :: quads n (i + 1) end.
Definition push_aggregate (width : Z) : list (Z * Z) := quads (Z.to_nat ((width + 7) / 8)) 0.
