(* C99 6.4.5 / 6.4.4.4: the bytes denoted by the text between the quotes of a string literal.
   Independent of the model: no definition of EscModel is used. *)
From Coq Require Import List ZArith.
Import ListNotations.
Open Scope Z_scope.

Definition oct_digit (c : Z) : Prop := 48 <= c <= 55.
Definition hex_digit (c : Z) : Prop := 48 <= c <= 57 \/ 65 <= c <= 70 \/ 97 <= c <= 102.

(* Value of a digit: relation, most significant digit first. *)
Definition hexv (c : Z) : Z :=
  if c <=? 57 then c - 48 else if c <=? 70 then c - 65 + 10 else c - 97 + 10.
Fixpoint value (base : Z) (ds : list Z) : Z :=
  match ds with
  | [] => 0
  | d :: t => hexv d * base ^ Z.of_nat (length t) + value base t
  end.

Definition simple_escapes : list (Z * Z) :=
  (* the simple escape sequences of 6.4.4.4, with their values in ASCII *)
  [(97, 7); (98, 8); (116, 9); (110, 10); (118, 11); (102, 12); (114, 13);
   (63, 63); (39, 39); (34, 34); (92, 92)].

Definition starts_with (P : Z -> Prop) (l : list Z) : Prop :=
  match l with c :: _ => P c | [] => False end.

(* [Literal ok q text bytes]: `text`, delimited by the quote character q, denotes `bytes`; every
   hexadecimal escape of the text, with digits ds and followed by t, satisfies [ok ds t].
   The C rule is the case where [ok] is always true. *)
Inductive Literal (ok : list Z -> list Z -> Prop) (q : Z) : list Z -> list Z -> Prop :=
| L_end : Literal ok q [] []
| L_plain c t b : c <> 92 -> c <> q -> c <> 10 -> 0 < c < 256 -> Literal ok q t b ->
    Literal ok q (c :: t) (c :: b)
| L_simple e v t b : In (e, v) simple_escapes -> Literal ok q t b ->
    Literal ok q (92 :: e :: t) (v :: b)
| L_octal ds t b : Forall oct_digit ds -> (1 <= length ds <= 3)%nat ->
    (length ds = 3%nat \/ ~ starts_with oct_digit t) -> value 8 ds < 256 ->
    Literal ok q t b -> Literal ok q (92 :: ds ++ t) (value 8 ds :: b)
| L_hex ds t b : Forall hex_digit ds -> ds <> [] -> ~ starts_with hex_digit t ->
    value 16 ds < 256 -> ok ds t ->
    Literal ok q t b -> Literal ok q (92 :: 120 :: ds ++ t) (value 16 ds :: b).

Definition any_hex (ds t : list Z) : Prop := True.
Definition no_hex (ds t : list Z) : Prop := False.
(* A lone digit 0 followed by x or X and a hexadecimal digit. *)
Definition not_0x (ds t : list Z) : Prop :=
  ~ (ds = [48] /\ exists x d r, t = x :: d :: r /\ (x = 120 \/ x = 88) /\ hex_digit d).
