(* C99 6.4.4.1 integer constants and 6.4.4.2 floating constants, on an LP64 target where long long
   has the representation of long.  Uses nothing from the model but the names of the types. *)
From Coq Require Import List ZArith.
From Verif Require Import NumberModel TokenizeSpec.
Import ListNotations.
Open Scope Z_scope.

Inductive base := Dec | Oct | Hex.
Definition radix (b : base) : Z := match b with Dec => 10 | Oct => 8 | Hex => 16 end.

(* numeric value of a digit character *)
Definition numeral (c : Z) : Z :=
  if c <=? 57 then c - 48 else if c <=? 70 then c - 65 + 10 else c - 97 + 10.

(* positional value *)
Fixpoint value (r : Z) (ds : list Z) : Z :=
  match ds with [] => 0 | d :: t => numeral d * r ^ Z.of_nat (length t) + value r t end.

(* spelling of an integer constant without suffix: base, digits and text *)
Inductive Digits : base -> list Z -> list Z -> Prop :=
| D_dec d ds : 49 <= d <= 57 -> Forall digit ds -> Digits Dec (d :: ds) (d :: ds)
| D_oct ds : Forall oct ds -> Digits Oct (48 :: ds) (48 :: ds)
| D_hex x ds : x = 120 \/ x = 88 -> Forall hex ds -> ds <> [] -> Digits Hex ds (48 :: x :: ds).

(* suffix: unsigned?, number of l *)
Definition is_u (c : Z) := c = 117 \/ c = 85.
Inductive Ell : nat -> list Z -> Prop :=
| L_1 c : c = 108 \/ c = 76 -> Ell 1 [c]
| L_2 c : c = 108 \/ c = 76 -> Ell 2 [c; c].
Inductive Suffix : bool -> nat -> list Z -> Prop :=
| S_none : Suffix false 0 []
| S_u c : is_u c -> Suffix true 0 [c]
| S_l n l : Ell n l -> Suffix false n l
| S_ul c n l : is_u c -> Ell n l -> Suffix true n (c :: l)
| S_lu c n l : is_u c -> Ell n l -> Suffix true n (l ++ [c]).

(* 6.4.4.1p5, the table of candidate types *)
Definition candidates (b : base) (u : bool) (l : nat) : list nty :=
  match u, l, b with
  | false, O, Dec => [NInt; NLong; NLong]
  | false, O, _ => [NInt; NUInt; NLong; NULong; NLong; NULong]
  | true, O, _ => [NUInt; NULong; NULong]
  | false, _, Dec => [NLong; NLong]
  | false, _, _ => [NLong; NULong; NLong; NULong]
  | true, _, _ => [NULong; NULong]
  end.
Definition limit (t : nty) : Z :=
  match t with NInt => 2^31 | NUInt => 2^32 | NLong => 2^63 | _ => 2^64 end.
(* The first candidate that can represent v *)
Fixpoint first_fit (v : Z) (l : list nty) : option nty :=
  match l with [] => None | t :: r => if v <? limit t then Some t else first_fit v r end.

(* 6.4.4.2 *)
Inductive Expo (e1 e2 : Z) : list Z -> Prop :=
| E_plain e ds : e = e1 \/ e = e2 -> Forall digit ds -> ds <> [] -> Expo e1 e2 (e :: ds)
| E_sign e s ds : e = e1 \/ e = e2 -> s = 43 \/ s = 45 -> Forall digit ds -> ds <> [] -> Expo e1 e2 (e :: s :: ds).
Inductive Frac (P : Z -> Prop) : list Z -> Prop :=
| F_frac a b : Forall P a -> Forall P b -> a ++ b <> [] -> Frac P (a ++ 46 :: b).
Inductive FloatBody : list Z -> Prop :=
| FB_frac m : Frac digit m -> FloatBody m
| FB_frac_e m e : Frac digit m -> Expo 101 69 e -> FloatBody (m ++ e)
| FB_e ds e : Forall digit ds -> ds <> [] -> Expo 101 69 e -> FloatBody (ds ++ e)
| FB_hfrac x m e : x = 120 \/ x = 88 -> Frac hex m -> Expo 112 80 e -> FloatBody (48 :: x :: m ++ e)
| FB_hex x ds e : x = 120 \/ x = 88 -> Forall hex ds -> ds <> [] -> Expo 112 80 e -> FloatBody (48 :: x :: ds ++ e).
Inductive FloatSuffix : nty -> list Z -> Prop :=
| FS_d : FloatSuffix NDouble []
| FS_f c : c = 102 \/ c = 70 -> FloatSuffix NFloat [c]
| FS_l c : c = 108 \/ c = 76 -> FloatSuffix NLongDouble [c].
