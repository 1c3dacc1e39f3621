(* C52: lines of data in assembly text (Using as, 7: .byte, .short, .int, .quad, .ascii, .string; 3.6.1.1: strings). *)
From Coq Require Import String ZArith Bool List.
From Verif Require Import Bytes EncModel EncSpec ArgsModel AttModel AttSpec.
Import ListNotations.
Open Scope Z_scope.

(* a byte, or the address of a symbol plus an offset, of 8 bytes *)
Inductive item := Byte (b : Z) | Ptr (y : Z) (off : Z).

Definition octal (c : Z) : bool := between 48 c 55.
Definition escaped (c : Z) : option Z :=
  lookup [c] [(text "b", 8); (text "t", 9); (text "n", 10); (text "f", 12); (text "r", 13); ([92], 92); ([34], 34)].
(* after the opening quote *)
Fixpoint string_body (l : list Z) : option (list Z * list Z) :=
  let more (c : Z) (x : option (list Z * list Z)) := obind x (fun y => Some (c :: fst y, snd y)) in
  match l with
  | [] => None
  | c :: r =>
    if c =? 34 then Some ([], r)
    else if c =? 10 then None
    else if c =? 92 then
      match r with
      | c1 :: r1 =>
        if octal c1 then
          match r1 with
          | c2 :: r2 =>
            if octal c2 then
              match r2 with
              | c3 :: r3 => if octal c3 then more (((c1 - 48) * 64 + (c2 - 48) * 8 + (c3 - 48)) mod 256) (string_body r3) else more ((c1 - 48) * 8 + (c2 - 48)) (string_body r2)
              | [] => None
              end
            else more (c1 - 48) (string_body r1)
          | [] => None
          end
        else obind (escaped c1) (fun v => more v (string_body r1))
      | [] => None
      end
    else more c (string_body r)
  end.

Section Data.
Variable find : list Z -> option Z.
Definition in_bytes (n : nat) (v : Z) : bool := (- (2 ^ (8 * Z.of_nat n - 1)) <=? v) && (v <? 2 ^ (8 * Z.of_nat n)).
Definition integer_bytes (n : nat) (v : Z) : option (list item) := if in_bytes n v then Some (map Byte (le_bytes n v)) else None.
Definition value_items (n : nat) (l : list Z) : option (list item * list Z) :=
  obind (expression find l) (fun t =>
  match fst t with
  | Some (TNum v) => obind (integer_bytes n v) (fun x => Some (x, snd t))
  | Some (TSym PC32 y d) => if (n =? 8)%nat then Some ([Ptr y d], snd t) else None
  | _ => None
  end).
Definition string_items (tail : list Z) (l : list Z) : option (list item * list Z) :=
  match l with 34 :: r => obind (string_body r) (fun x => Some (map Byte (fst x ++ tail), snd x)) | _ => None end.
Definition data_line (l : list Z) : option (list item * list Z) :=
  let (n, r) := span symchar (skip l) in
  let r := skip r in
  obind (match lookup n [(text ".byte", 1%nat); (text ".short", 2%nat); (text ".int", 4%nat); (text ".quad", 8%nat)] with
         | Some k => value_items k r
         | None => if text_eqb n (text ".ascii") then string_items [] r else if text_eqb n (text ".string") then string_items [0] r else None
         end)
  (fun x => match skip (snd x) with 10 :: r => Some (fst x, r) | _ => None end).
(* lines one after another; n is a bound on their number *)
Fixpoint data_lines (n : nat) (l : list Z) : option (list item) :=
  match l with
  | [] => Some []
  | _ => match n with O => None | S n => obind (data_line l) (fun x => obind (data_lines n (snd x)) (fun y => Some (fst x ++ y))) end
  end.
Definition read_data (l : list Z) : option (list item) := data_lines (List.length l) l.
End Data.

(* What is to be there: the low bytes of an integer, the address, the characters and the 0 if there is room for it. *)
Definition stands_for (d : data) : list item :=
  match d with
  | DInt w q => map Byte (le_bytes (Z.to_nat w) q)
  | DAddr a => match a_sym a with Some y => [Ptr y (a_disp a)] | None => [] end
  | DString w s => map Byte (s ++ if w =? zlen s then [] else [0])
  end.
Definition regular (d : data) : bool :=
  match d with DInt _ _ => true | DAddr a => int32 (a_disp a) | DString _ s => forallb (fun c => between 0 c 255) s end.
