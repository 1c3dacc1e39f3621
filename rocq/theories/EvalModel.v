(* Integer constant folding.  src/parser/eval.c, src/parser/typetree.c.
   An immediate operand is a type and the 64-bit pattern of union value (include/lacc/token.h:151-157),
   0 <= bits < 2^64; `.u` is the pattern and `.i` its signed reading.
   Only integer types: floating point folding uses the host's arithmetic and is not modelled. *)
From Coq Require Import List ZArith Bool.
From Verif Require Import TypeModel.
Open Scope Z_scope.

Definition wrap (w v : Z) : Z := v mod 2 ^ w.
Definition sext (w v : Z) : Z := let m := v mod 2 ^ w in if m <? 2 ^ (w - 1) then m else m - 2 ^ w.

Definition as_i (bits : Z) : Z := sext 64 bits.      (* value.imm.i *)
Definition as_u (bits : Z) : Z := bits.              (* value.imm.u *)
Definition put (v : Z) : Z := wrap 64 v.             (* store to .i or .u *)

(* Result of folding: a constant, an expression left for run time, or a host operation with
   undefined behaviour (the compiler may crash), or a failed assertion. *)
Inductive fold := Const (t : Type_) (bits : Z) | Runtime | HostUB | Assert | Reject.

(* eval.c:18-31 immediate_bool_value, for integers *)
Definition immediate_bool_value (bits : Z) : Z := if as_u bits =? 0 then 0 else 1.

(* eval.c:348-415 convert, from and to integer types *)
Definition convert (bits : Z) (from to : Type_) : option Z :=
  let src := if is_signed from then as_i bits else as_u bits in
  match type_of to with
  | T_BOOL => Some (put (immediate_bool_value bits))
  | T_CHAR => Some (put (if is_signed to then sext 8 src else wrap 8 src))
  | T_SHORT => Some (put (if is_signed to then sext 16 src else wrap 16 src))
  | T_INT => Some (put (if is_signed to then sext 32 src else wrap 32 src))
  | T_LONG => Some (put (if is_signed to then sext 64 src else wrap 64 src))
  | T_POINTER => Some (put (wrap 64 src))
  | _ => None
  end.

Definition beqb := Bool.eqb.
(* typetree.c:971-995 type_equal, for types without a type tree *)
Definition type_equal (a b : Type_) : bool :=
  tkind_eqb (ty a) (ty b) && beqb (ty_unsigned a) (ty_unsigned b) && beqb (ty_const a) (ty_const b) &&
  beqb (ty_volatile a) (ty_volatile b) && beqb (ty_restrict a) (ty_restrict b) &&
  beqb (ty_pointer a) (ty_pointer b) && beqb (ty_pconst a) (ty_pconst b) &&
  beqb (ty_pvolatile a) (ty_pvolatile b) && beqb (ty_prestrict a) (ty_prestrict b) && (ty_ref a =? ty_ref b).

(* eval.c:417-440 cast_operand, for an immediate *)
Definition cast_operand (bits : Z) (from to : Type_) : option Z :=
  if type_equal from to then Some bits else convert bits from to.

(* eval.c:143-168 imm_signed; n is a long *)
Definition imm_signed (t : Type_) (n : Z) : fold :=
  if negb (is_signed t) then Assert else
  match type_of t with
  | T_CHAR => Const t (put (sext 8 n))
  | T_SHORT => Const t (put (sext 16 n))
  | T_INT => Const t (put (sext 32 n))
  | T_LONG => Const t (put n)
  | _ => Assert
  end.

(* eval.c:170-185 imm_unsigned; n is an unsigned long *)
Definition imm_unsigned (t : Type_) (n : Z) : fold :=
  if negb (is_unsigned t) then Assert else
  if size_of t <? 8 then Const t (Z.land n (Z.shiftr 4294967295 ((4 - size_of t) * 8))) else Const t n.

(* Host arithmetic on long: undefined behaviour on overflow (C99 6.5p5). *)
Definition in_long (n : Z) : bool := (- 2 ^ 63 <=? n) && (n <=? 2 ^ 63 - 1).
Definition host_long (t : Type_) (n : Z) : fold := if in_long n then imm_signed t n else HostUB.
Definition host_ulong (t : Type_) (n : Z) : fold := imm_unsigned t (wrap 64 n).

Inductive binop := Mul | Div | Mod | Add | Sub | Or | Xor | And | Shl | Shr | Eq | Ne | Ge | Gt.

Definition bool_z (b : bool) : Z := if b then 1 else 0.
Definition var_int (n : Z) : fold := Const basic_type__int (put n).

(* The fold of two operands already converted to type t. *)
Definition apply_op (op : binop) (t : Type_) (l r : Z) : fold :=
  let s := is_signed t in
  match op with
  | Mul => if s then host_long t (as_i l * as_i r) else host_ulong t (as_u l * as_u r)  (* eval.c:531-541 *)
  | Div =>                                                                             (* eval.c:568-588 *)
    if (s && (as_i r =? 0)) || (is_unsigned t && (as_u r =? 0)) then Runtime
    else if s then host_long t (Z.quot (as_i l) (as_i r)) else host_ulong t (Z.quot (as_u l) (as_u r))
  | Mod =>                                                                             (* eval.c:608-619 *)
    if (s && (as_i r =? 0)) || (is_unsigned t && (as_u r =? 0)) then Runtime
    else if s then (if in_long (Z.quot (as_i l) (as_i r)) then host_long t (Z.rem (as_i l) (as_i r)) else HostUB)
    else host_ulong t (Z.rem (as_u l) (as_u r))
  | Add => if s then host_long t (as_i l + as_i r) else host_ulong t (as_u l + as_u r)  (* eval.c:654-668 *)
  | Sub => if s then host_long t (as_i l - as_i r) else host_ulong t (as_u l - as_u r)  (* eval.c:751-765 *)
  | Or => if s then host_long t (Z.lor (as_i l) (as_i r)) else host_ulong t (Z.lor (as_u l) (as_u r))
  | Xor => if s then host_long t (Z.lxor (as_i l) (as_i r)) else host_ulong t (Z.lxor (as_u l) (as_u r))
  | And => if s then host_long t (Z.land (as_i l) (as_i r)) else host_ulong t (Z.land (as_u l) (as_u r))
  | Eq => var_int (bool_z (if s then as_i l =? as_i r else as_u l =? as_u r))           (* eval.c:875-900 *)
  | Ne => var_int (bool_z (negb (if s then as_i l =? as_i r else as_u l =? as_u r)))
  | Ge => var_int (bool_z (if s then as_i r <=? as_i l else as_u r <=? as_u l))
  | Gt => var_int (bool_z (if s then as_i r <? as_i l else as_u r <? as_u l))
  | Shl => Assert | Shr => Assert (* see shift *)
  end.

(* eval.c:1067-1123 eval_lshift, eval_rshift: the right operand is not converted; its pattern is read
   as .i for a signed and .u for an unsigned left operand.  Host undefined behaviour (C99 6.5.7):
   amount negative or >= 64; left shift of a negative value or with a result beyond long. *)
Definition shift (left : bool) (lt : Type_) (l r : Z) : fold :=
  let t := promote_integer lt in
  match cast_operand l lt t with
  | None => Assert
  | Some l =>
    if is_signed t then
      if (as_i r <? 0) || (64 <=? as_i r) then HostUB
      else if left then
        if as_i l <? 0 then HostUB else host_long t (Z.shiftl (as_i l) (as_i r))
      else host_long t (Z.shiftr (as_i l) (as_i r))
    else
      if 64 <=? as_u r then HostUB
      else if left then host_ulong t (Z.shiftl (as_u l) (as_u r))
      else host_ulong t (Z.shiftr (as_u l) (as_u r))
  end.

(* eval.c:512-1123 eval_mul, eval_div, eval_mod, eval_add, eval_sub, eval_cmp_*, eval_or, eval_xor,
   eval_and, eval_lshift, eval_rshift on two integer immediates. *)
Definition eval_binary (op : binop) (lt : Type_) (l : Z) (rt : Type_) (r : Z) : fold :=
  if negb (is_integer lt && is_integer rt) then Reject else
  match op with
  | Shl => shift true lt l r
  | Shr => shift false lt l r
  | _ =>
    let t := usual_arithmetic_conversion lt rt in
    match cast_operand l lt t, cast_operand r rt t with
    | Some l, Some r => apply_op op t l r
    | _, _ => Assert
    end
  end.

(* eval.c:1125-1151 eval_not *)
Definition eval_not (vt : Type_) (v : Z) : fold :=
  if negb (is_integer vt) then Reject else
  let t := promote_integer vt in
  match cast_operand v vt t with
  | None => Assert
  | Some v => if is_signed t then imm_signed t (Z.lnot (as_i v)) else imm_unsigned t (wrap 64 (Z.lnot (as_u v)))
  end.

(* eval.c:1153-1182 eval_neg *)
Definition eval_neg (vt : Type_) (v : Z) : fold :=
  if negb (is_integer vt) then Reject else eval_binary Sub basic_type__int (put 0) vt v.

(* eval.c:442-482 eval_cast of an integer immediate to an integer type *)
Definition eval_cast (vt : Type_) (v : Z) (to : Type_) : fold :=
  if negb (is_integer vt && is_integer to) then Reject
  else if type_equal vt to then Const vt v
  else match convert v vt to with Some b => Const to b | None => Assert end.
