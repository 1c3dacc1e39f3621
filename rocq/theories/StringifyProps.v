(* Property theorems C10. *)
From Coq Require Import List ZArith Lia.
From Verif Require Import TokModel StringifyModel StringifySpec StringifyProofs EscSpec EscModel.
Import ListNotations.
Open Scope Z_scope.

(* C10 for arguments without a backslash outside a literal: the result is either an already
   converted string holding the spelling, or a literal that denotes the spelling both by the C rules
   and for lacc's decoder; no buffer overflow, assertion failure or rejection.
   Missing: arguments containing a stray backslash token (see the refutation). *)
Theorem C10_stringify_spells_argument_partial :
  forall ts, Forall token_ok ts ->
  exists k s, stringify ts = SOk (k, s) /\
   ((k = T_STRING /\ s = argument_spelling ts) \/
    (k = T_PREP_STRING /\ Literal any_hex 34 s (argument_spelling ts) /\
     convert_preprocessing_string s = Ok (argument_spelling ts))).
Proof. exact stringify_ok. Qed.
Print Assumptions C10_stringify_spells_argument_partial.

Definition t_ident (s : list Z) ws := mk_tok T_IDENTIFIER true false ws s 0.
Definition t_str (s : list Z) ws := mk_tok T_PREP_STRING false false ws s 0.
Definition t_chr (s : list Z) ws := mk_tok T_PREP_CHAR false false ws s 0.
Definition t_bs ws := mk_tok T_BACKSLASH false false ws [92] 0.

(* An identifier, a string literal containing an escape, and the character constant of a quote. *)
Example C10_instance :
  let ts := [t_ident [97] 0; t_str [120; 92; 110] 3; t_chr [34] 0] in
  Forall token_ok ts /\ argument_spelling ts = [97; 32; 34; 120; 92; 110; 34; 39; 34; 39] /\
  stringify ts = SOk (T_PREP_STRING,
    [97; 32; 92; 34; 120; 92; 92; 110; 92; 34; 39; 92; 34; 39]).
Proof.
  cbn zeta. split; [|split; reflexivity].
  repeat apply Forall_cons; try apply Forall_nil; unfold token_ok, is_literal, char_ok, t_ident, t_str, t_chr;
   cbn [tt spell]; do 5 (split; [discriminate|]); split;
   first [left; tauto | right; repeat apply Forall_cons; try apply Forall_nil; lia
         | repeat apply Forall_cons; try apply Forall_nil; lia].
Qed.

(* Two backslash tokens: the literal text of 6.10.3.2 is two backslashes, a valid string literal of
   one character, but the argument is rejected. *)
Theorem C10_stringify_stray_backslash_refuted :
  exists ts, Literal any_hex 34 (flat_map spelling ts) [92] /\ stringify ts = SError.
Proof.
  exists [t_bs 0; t_bs 0]. split; [|vm_compute; reflexivity].
  apply L_simple; [cbn; tauto|apply L_end].
Qed.
Print Assumptions C10_stringify_stray_backslash_refuted.
