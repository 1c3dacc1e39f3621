(* Bit-field access: src/backend/x86_64/compile.c store_op and load_field, src/parser/eval.c
   assign_field.  The eight bytes of memory at the offset of the field are one little-endian number in
   [0, 2^64); registers are numbers in [0, 2^64). *)
From Coq Require Import List ZArith Bool.
From Verif Require Import TypeModel LayoutModel.
Open Scope Z_scope.

(* What the instructions do to an n bit operand (n = 8, 16, 32, 64).  Shift counts are taken modulo 32,
   or 64 for a 64 bit operand. *)
Definition count (n c : Z) : Z := c mod (if n =? 64 then 64 else 32).
Definition shl (n x c : Z) : Z := Z.shiftl x (count n c) mod 2 ^ n.
Definition shr (n x c : Z) : Z := Z.shiftr (x mod 2 ^ n) (count n c).
Definition to_signed (n x : Z) : Z := if 2 ^ (n - 1) <=? x mod 2 ^ n then x mod 2 ^ n - 2 ^ n else x mod 2 ^ n.
Definition sar (n x c : Z) : Z := Z.shiftr (to_signed n x) (count n c) mod 2 ^ n.

(* compile.c:1256 mask, on a 64 bit long *)
Definition field_mask (width foff : Z) : Z := Z.shiftl (Z.ones width) foff.

(* compile.c:1252-1257: the unit is loaded to cx and the field cleared.  load() extends it to at least
   4 bytes, but only the low n bits are used again. *)
Definition cleared (n width foff mem : Z) : Z :=
  Z.land (mem mod 2 ^ n) (Z.lnot (field_mask width foff) mod 2 ^ n).

(* a mov of n bits to memory *)
Definition store_bits (n r mem : Z) : Z := mem - mem mod 2 ^ n + r mod 2 ^ n.

Inductive stored := Mem (m : Z) | AssertFails.

(* compile.c:1250-1276 store_op of a register, then the move at 1279-1327; size is size_of(target.type) *)
Definition store_reg (size width foff mem v : Z) : stored :=
  if negb ((0 <? width) && (width <? 64)) then AssertFails else
  let n := 8 * size in
  let r := v mod 2 ^ n in
  let r := if negb (foff =? 0) then shl n r foff else r in
  let r := Z.land r (field_mask width foff mod 2 ^ n) in
  Mem (store_bits n (Z.lor (cleared n width foff mem) r) mem).

(* compile.c:1258-1266 store_op of an immediate *)
Definition store_imm (size width foff mem v : Z) : stored :=
  if negb ((0 <? width) && (width <? 64)) then AssertFails else
  let n := 8 * size in
  let m := Z.land (Z.shiftl v foff) (field_mask width foff) in
  let cx := cleared n width foff mem in
  Mem (store_bits n (if negb (m =? 0) then Z.lor cx (m mod 2 ^ n) else cx) mem).

(* compile.c:649-680 load_field; sign is is_signed(v.type), w the number of bytes wanted, 4 or 8.
   The result is the register; writing 4 bytes of a register clears the upper half. *)
Definition load_field (sign : bool) (size width foff w mem : Z) : Z :=
  let n := if size <=? 4 then 32 else 64 in
  let r := mem mod 2 ^ n in
  let bits := n - (foff + width) in
  let r := if 0 <? bits then shl n r bits else r in
  let bits := foff + bits in
  let r := if 0 <? bits then (if sign then sar n r bits else shr n r bits) else r in
  if sign && (n <? 8 * w) then to_signed n r mod 2 ^ 64 else r.

(* the asserts at compile.c:654-656 *)
Definition load_checked (sign : bool) (size width foff w mem : Z) : option Z :=
  if (0 <? width) && (width <? 64) && (foff + width <=? 64) then Some (load_field sign size width foff w mem) else None.

(* eval.c:1610-1619 assign_field of an immediate: the value of the assignment expression.  A width of 64
   makes the shift undefined. *)
Definition assign_imm (sign : bool) (width v : Z) : option Z :=
  if 64 <=? width then None else
  let mask := Z.shiftl 1 width - 1 in
  let i := Z.land v mask in
  Some (if sign && negb (Z.land i (Z.shiftl 1 (width - 1)) =? 0) then Z.lor i (Z.lnot mask) else i).
