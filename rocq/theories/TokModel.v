(* Preprocessing tokens, shared by the tokeniser, macro and stringify models. *)
From Coq Require Import List ZArith Bool.
Import ListNotations.
Open Scope Z_scope.

(* include/lacc/token.h:14-138 enum token_type: the values used by name in the models. *)
Definition T_END := 0. Definition T_NEWLINE := 10. Definition T_BACKSLASH := 92.
Definition T_HASH := 35. Definition T_COMMA := 44. Definition T_LPAREN := 40.
Definition T_RPAREN := 41. Definition T_PASTE := 86. Definition T_DOTS := 87.
Definition T_NUMBER := 116. Definition T_IDENTIFIER := 117. Definition T_STRING := 118.
Definition T_PARAM := 119. Definition T_PREP_NUMBER := 120. Definition T_PREP_CHAR := 121.
Definition T_PREP_STRING := 122.

(* include/lacc/token.h:169-180 struct token.  `d` is a union of the spelling and a number; a token
   uses one of them, here they are two fields.  The `type` field is modelled only where numbers
   are (NumModel, CppModel). *)
Record tok := mk_tok {
  tt : Z;                 (* token *)
  expandable : bool;      (* is_expandable *)
  disabled : bool;        (* disable_expand *)
  lws : Z;                (* leading_whitespace, 16 bits *)
  spell : list Z;         (* d.string *)
  pval : Z                (* d.val.i *)
}.
