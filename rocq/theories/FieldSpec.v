(* What C says about bit-fields. *)
From Coq Require Import ZArith Bool.
Open Scope Z_scope.

(* the number v reduced to a field of the given width (C99 6.3.1.3, 6.7.2.1p9) *)
Definition reduce (sign : bool) (width v : Z) : Z :=
  let u := v mod 2 ^ width in if sign && (2 ^ (width - 1) <=? u) then u - 2 ^ width else u.

(* the value held by the bits foff .. foff+width-1 of mem *)
Definition held (sign : bool) (width foff mem : Z) : Z := reduce sign width (mem / 2 ^ foff).

(* a register of w bytes seen as a number of the given signedness *)
Definition reg_value (sign : bool) (w r : Z) : Z := reduce sign (8 * w) r.
