(* Compiled comparisons.  src/backend/x86_64/compile.c:2218-2345, 2778-2794, 3202-3276. *)
From Coq Require Import ZArith Bool List.
Import ListNotations.
Local Open Scope Z_scope.

(* The processor flags the emitted code tests. *)
Record flags := mk_flags { zf : bool; cf : bool; sf : bool; o_f : bool; pf : bool }.

(* encoding.h:191-208 enum tttn, with the flag test each performs (Intel manual, volume 1, appendix B). *)
Inductive tttn := CC_O | CC_NO | CC_NAE | CC_AE | CC_E | CC_NE | CC_NA | CC_A | CC_S | CC_NS | CC_P | CC_NP | CC_NGE | CC_GE | CC_NG | CC_G.
Definition holds (cc : tttn) (f : flags) : bool :=
  match cc with
  | CC_O => o_f f | CC_NO => negb (o_f f)
  | CC_NAE => cf f | CC_AE => negb (cf f)
  | CC_E => zf f | CC_NE => negb (zf f)
  | CC_NA => cf f || zf f | CC_A => negb (cf f || zf f)
  | CC_S => sf f | CC_NS => negb (sf f)
  | CC_P => pf f | CC_NP => negb (pf f)
  | CC_NGE => xorb (sf f) (o_f f) | CC_GE => negb (xorb (sf f) (o_f f))
  | CC_NG => zf f || xorb (sf f) (o_f f) | CC_G => negb (zf f || xorb (sf f) (o_f f))
  end.

(* The number in [-2^(w-1), 2^(w-1)) with the low w bits of a. *)
Definition signed (w a : Z) : Z := let m := a mod 2 ^ w in if m <? 2 ^ (w - 1) then m else m - 2 ^ w.
Fixpoint parity_pos (p : positive) : bool := match p with xH => true | xO p => parity_pos p | xI p => negb (parity_pos p) end.
Definition even_ones (z : Z) : bool := match z with Zpos p => negb (parity_pos p) | _ => true end.
(* The instruction  cmp  on w bits: the flags of a - b. *)
Definition cmp_int (w a b : Z) : flags :=
  let d := (a - b) mod 2 ^ w in
  mk_flags (d =? 0) (a mod 2 ^ w <? b mod 2 ^ w) (2 ^ (w - 1) <=? d)
           (negb ((- 2 ^ (w - 1) <=? signed w a - signed w b) && (signed w a - signed w b <? 2 ^ (w - 1))))
           (even_ones (d mod 256)).

Section Real.
Variable R : Type.
Variable rcmp : R -> R -> option comparison. (* None: unordered *)
Variable zero : R.
(* ucomiss, ucomisd and fucomip set the flags of a compared to b. *)
Definition cmp_real (a b : R) : flags :=
  match rcmp a b with
  | None => mk_flags true true false false true
  | Some Gt => mk_flags false false false false false
  | Some Lt => mk_flags false true false false false
  | Some Eq => mk_flags true false false false false
  end.

(* ir.h:106-109 *)
Inductive cmpop := OEq | ONe | OGe | OGt.
(* The common type of the operands; w bits wide for the integer types.  is_unsigned does not hold of a pointer. *)
Inductive kind := KSigned (w : Z) | KUnsigned (w : Z) | KReal.
Definition is_real (k : kind) : bool := match k with KReal => true | _ => false end.
(* Values of operands. *)
Inductive value := VInt (z : Z) | VReal (r : R).

(* compile.c:2228-2246 *)
Definition initial_cc (o : cmpop) (k : kind) : tttn :=
  match o, k with
  | OEq, _ => CC_E
  | ONe, _ => CC_NE
  | OGe, KSigned _ => CC_GE | OGe, _ => CC_AE
  | OGt, KSigned _ => CC_G | OGt, _ => CC_A
  end.
(* compile.c:2280-2294 *)
Definition swap_cc (cc : tttn) : tttn :=
  match cc with CC_AE => CC_NA | CC_GE => CC_NG | CC_A => CC_NAE | CC_G => CC_NGE | _ => cc end.

(* compile.c:2218-2345 compile_compare: the condition returned and the flags left by the instructions emitted.
   left_imm: l.kind == IMMEDIATE.  The way the operands reach the instruction (registers or memory) is left out; in every
   case of 2295-2340 the instruction compares l to r (the destination operand is l).  For long double and > or >= the
   operands, r on top, are exchanged (2253); for == and != r is compared to l. *)
Definition compile_compare (o : cmpop) (k : kind) (long_double left_imm : bool) (l r : value) : tttn * flags :=
  let cc := initial_cc o k in
  match k, l, r with
  | KReal, VReal a, VReal b =>
      (cc, if long_double then match o with OGe | OGt => cmp_real a b | _ => cmp_real b a end else cmp_real a b)
  | (KSigned w | KUnsigned w), VInt a, VInt b =>
      if left_imm && (w <? 64) then (swap_cc cc, cmp_int w b a) else (cc, cmp_int w a b)
  | _, _, _ => (cc, mk_flags false false false false false)
  end.

(* compile.c:2778-2794 set_compare_value: the value left in the register. *)
Definition set_compare_value (k : kind) (cc : tttn) (f : flags) : Z :=
  let al := Z.b2z (holds cc f) in
  if is_real k then
    let al := match cc with
              | CC_E => Z.land al (Z.b2z (holds CC_NP f))
              | CC_NE => Z.lor al (Z.b2z (holds CC_P f))
              | _ => al
              end in
    Z.land al 1
  else al.

(* A jump to the second successor, unless the code falls through to what follows. *)
Inductive branch_code := Jcc (cc : tttn) (second : bool) | Jmp (second : bool).
(* compile.c:3204-3249 the jumps after compile_compare; None: assertion. *)
Definition compare_jumps (k : kind) (cc : tttn) : option (list branch_code) :=
  match cc with
  | CC_E => Some (if is_real k then [Jcc CC_NE false; Jcc CC_P false; Jmp true] else [Jcc CC_NE false])
  | CC_NE => Some (if is_real k then [Jcc CC_NE true; Jcc CC_P true; Jmp false] else [Jcc CC_E false])
  | CC_G => Some [Jcc CC_NG false]
  | CC_NG => Some [Jcc CC_G false]
  | CC_A => Some [Jcc CC_NA false]
  | CC_NA => Some [Jcc CC_A false]
  | CC_GE => Some [Jcc CC_NGE false]
  | CC_NGE => Some [Jcc CC_GE false]
  | CC_AE => Some [Jcc CC_NAE false]
  | CC_NAE => Some [Jcc CC_AE false]
  | _ => None
  end.
(* compile.c:3250-3276: any other scalar expression is compared to zero. *)
Definition scalar_flags (k : kind) (v : value) : flags :=
  match k, v with
  | KReal, VReal a => cmp_real zero a
  | (KSigned w | KUnsigned w), VInt a => cmp_int w a 0
  | _, _ => mk_flags false false false false false
  end.
Definition scalar_jumps (k : kind) : list branch_code :=
  if is_real k then [Jcc CC_NE true; Jcc CC_P true; Jmp false] else [Jcc CC_E false].

(* Where the jumps lead; falling through leads to the second successor, whose code or a jump to which follows (3279). *)
Fixpoint take (l : list branch_code) (f : flags) : bool :=
  match l with
  | [] => true
  | Jcc cc b :: r => if holds cc f then b else take r f
  | Jmp b :: _ => b
  end.
End Real.
Arguments VInt {R} z. Arguments VReal {R} r.
