(* Property theorems C04 and C41. *)
From Coq Require Import List ZArith Lia.
From Verif Require Import EscModel EscSpec EscProofs.
Import ListNotations.
Open Scope Z_scope.

(* C04: the text printed for any byte sequence is one quoted literal which denotes exactly that
   sequence by the rules of C, and lacc's own scanner and decoder read it back. *)
Theorem C04_printed_literal_denotes_bytes :
  forall s rest, Forall (fun c => 0 <= c < 256) s ->
  exists text, fprintstr s = 34 :: text ++ [34] /\ Literal any_hex 34 text s /\
    strtostr (fprintstr s ++ rest) = Ok (text, rest) /\
    convert_preprocessing_string text = Ok s.
Proof. exact print_read_back. Qed.
Print Assumptions C04_printed_literal_denotes_bytes.

(* The count returned to the caller is the number of characters written. *)
Theorem C04_printed_length : forall s, fprintstr_ret s = Z.of_nat (length (fprintstr s)).
Proof. exact fprintstr_ret_ok. Qed.
Print Assumptions C04_printed_length.

(* NUL followed by a digit, a quote, a backslash followed by x41, a byte above 127. *)
Example C04_instance :
  fprintstr [0; 49; 34; 92; 120; 52; 49; 200] =
    [34; 92; 48; 48; 48; 49; 92; 34; 92; 92; 120; 52; 49; 92; 51; 49; 48; 34] /\
  Forall (fun c => 0 <= c < 256) [0; 49; 34; 92; 120; 52; 49; 200].
Proof. split; [reflexivity|repeat constructor; lia]. Qed.

(* C41, with the exception that no hexadecimal escape is a lone 0 followed by x and a hexadecimal
   digit.  Missing from the full statement: that exception (refuted below). *)
Theorem C41_literal_value_partial :
  forall text bytes rest, Literal not_0x 34 text bytes ->
  strtostr (34 :: text ++ 34 :: rest) = Ok (text, rest) /\
  convert_preprocessing_string text = Ok bytes.
Proof. intros text bytes rest H. split; [exact (strtostr_ok _ _ _ _ H)|exact (convert_ok _ _ _ H)]. Qed.
Print Assumptions C41_literal_value_partial.

(* In the literal "\x0x41" the escape is \x0, followed by the characters x41; lacc makes it A. *)
Theorem C41_literal_value_refuted :
  exists text bytes, Literal any_hex 34 text bytes /\
    convert_preprocessing_string text = Ok [65] /\ bytes = [0; 120; 52; 49].
Proof.
  exists [92; 120; 48; 120; 52; 49], [0; 120; 52; 49]. split; [|split; vm_compute; reflexivity].
  apply (L_hex any_hex 34 [48] [120; 52; 49] [120; 52; 49]).
  - apply Forall_cons; [unfold hex_digit; lia|apply Forall_nil].
  - discriminate.
  - cbn; unfold hex_digit; lia.
  - reflexivity.
  - exact I.
  - do 3 (apply L_plain; try lia). apply L_end.
Qed.
Print Assumptions C41_literal_value_refuted.

(* "a\n\0339\x7f?" *)
Example C41_instance :
  Literal not_0x 34 [97; 92; 110; 92; 48; 51; 51; 57; 92; 120; 55; 102; 63] [97; 10; 27; 57; 127; 63].
Proof.
  apply L_plain; try lia. apply L_simple; [cbn; tauto|].
  apply (L_octal not_0x 34 [48; 51; 51] [57; 92; 120; 55; 102; 63]).
  - repeat constructor; unfold oct_digit; lia.
  - cbn; lia.
  - auto.
  - reflexivity.
  - apply L_plain; try lia. apply (L_hex not_0x 34 [55; 102] [63]).
    + apply Forall_cons; [unfold hex_digit; lia|apply Forall_cons; [unfold hex_digit; lia|apply Forall_nil]].
    + discriminate.
    + cbn; unfold hex_digit; lia.
    + reflexivity.
    + intros [H _]; discriminate.
    + apply L_plain; try lia. apply L_end.
Qed.

(* The specification gives a literal at most one value. *)
Theorem C41_spec_deterministic : forall q text b1 b2,
  Literal any_hex q text b1 -> Literal any_hex q text b2 -> b1 = b2.
Proof. intros q text b1 b2 H1 H2. exact (Literal_deterministic _ _ q text b1 H1 b2 H2). Qed.
Print Assumptions C41_spec_deterministic.

(* C43: a character constant of one character is scanned up to its closing quote and has the value of
   that character as a signed char; any other number of characters is an error. *)
Theorem C43_char_constant : forall text c rest, Literal any_hex 39 text [c] ->
  strtochar (39 :: text ++ 39 :: rest) = Ok (text, rest) /\
  exists v, convert_preprocessing_char text = Ok v /\ -128 <= v <= 127 /\ v mod 256 = c.
Proof. intros text c rest H. split; [exact (strtochar_one _ _ _ _ H)|exact (convert_char_one _ _ H)]. Qed.
Print Assumptions C43_char_constant.

Theorem C43_other_lengths : forall text bytes rest, Literal any_hex 39 text bytes -> length bytes <> 1%nat ->
  strtochar (39 :: text ++ 39 :: rest) = Error.
Proof. exact (strtochar_not_one any_hex). Qed.
Print Assumptions C43_other_lengths.

(* '\377' and 'ab' *)
Example C43_instance : Literal any_hex 39 [92; 51; 55; 55] [255] /\ convert_preprocessing_char [92; 51; 55; 55] = Ok (-1) /\
  Literal any_hex 39 [97; 98] [97; 98].
Proof.
  split; [|split; [reflexivity|do 2 (apply L_plain; try lia); apply L_end]].
  apply (L_octal any_hex 39 [51; 55; 55] [] []); [repeat constructor; unfold oct_digit; lia|cbn; lia|auto|reflexivity|apply L_end].
Qed.
