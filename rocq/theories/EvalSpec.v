(* Integer conversions and operators of C99 (6.3.1, 6.5), on values. *)
From Coq Require Import ZArith Bool.
From Verif Require Import TypeSpec EvalModel.
Open Scope Z_scope.

(* 6.3.1.2, 6.3.1.3: to _Bool: 0 or 1; otherwise the value of the type congruent modulo 2^width
   (for signed types this is the implementation's choice) *)
Definition Converted (k : ikind) (v v' : Z) : Prop :=
  match k with
  | Bool_ => (v = 0 /\ v' = 0) \/ (v <> 0 /\ v' = 1)
  | _ => in_range k v' /\ exists q, v' = v + q * 2 ^ width k
  end.

(* A value of an integer type in a 64-bit union: two's complement, extended to 64 bits. *)
Definition Repr (k : ikind) (v bits : Z) : Prop := in_range k v /\ bits = v mod 2 ^ 64.

Definition representable (k : ikind) (v : Z) : bool := (lo k <=? v) && (v <=? hi k).

(* 6.2.5p9, 6.5p5: unsigned arithmetic wraps, signed overflow is undefined (None) *)
Definition exact (k : ikind) (v : Z) : option Z :=
  if signed k then (if representable k v then Some v else None) else Some (v mod 2 ^ width k).

(* 6.5.5, 6.5.6, 6.5.8 - 6.5.12 on two operands of the common type k *)
Definition c_binary (op : binop) (k : ikind) (a b : Z) : option Z :=
  match op with
  | Mul => exact k (a * b)
  | Add => exact k (a + b)
  | Sub => exact k (a - b)
  | Div => if b =? 0 then None else exact k (Z.quot a b)
  | Mod => if b =? 0 then None
           else if representable k (Z.quot a b) then Some (Z.rem a b) else None
  | And => Some (Z.land a b)
  | Or => Some (Z.lor a b)
  | Xor => Some (Z.lxor a b)
  | Eq => Some (if a =? b then 1 else 0)
  | Ne => Some (if a =? b then 0 else 1)
  | Ge => Some (if a <? b then 0 else 1)
  | Gt => Some (if b <? a then 1 else 0)
  | Shl | Shr => None
  end.
Definition result_kind (op : binop) (k : ikind) : ikind :=
  match op with Eq | Ne | Ge | Gt => Int | _ => k end.
Definition is_shift (op : binop) : bool := match op with Shl | Shr => true | _ => false end.

(* 6.5.7, on the promoted left operand; right shift of a negative value is arithmetic *)
Definition c_shift (left : bool) (k : ikind) (a n : Z) : option Z :=
  if (n <? 0) || (width k <=? n) then None
  else if left then
    if signed k && (a <? 0) then None else exact k (a * 2 ^ n)
  else Some (a / 2 ^ n).

(* 6.5.3.3 *)
Definition c_not (k : ikind) (a : Z) : Z := if signed k then - a - 1 else 2 ^ width k - 1 - a.
Definition c_neg (k : ikind) (a : Z) : option Z := exact k (- a).
