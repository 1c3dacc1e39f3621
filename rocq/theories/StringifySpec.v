(* C99 6.10.3.2: what the # operator must produce. *)
From Coq Require Import List ZArith Bool.
From Verif Require Import TokModel.
Import ListNotations.
Open Scope Z_scope.

(* Spelling of a token in the source text. *)
Definition spelling (t : tok) : list Z :=
  if (tt t =? T_PREP_STRING) || (tt t =? T_STRING) then [34] ++ spell t ++ [34]
  else if tt t =? T_PREP_CHAR then [39] ++ spell t ++ [39]
  else spell t.

(* Spelling of the argument: white space between tokens becomes one space, leading white space is
   deleted. *)
Definition spaced (t : tok) : list Z := (if lws t =? 0 then [] else [32]) ++ spelling t.
Definition argument_spelling (ts : list tok) : list Z :=
  match ts with [] => [] | t :: rest => spelling t ++ flat_map spaced rest end.

(* A token as the tokeniser produces it: no NUL or newline in the spelling; quotes and backslashes
   only inside literals, or the stray backslash token. *)
Definition char_ok (c : Z) : Prop := 0 < c < 256 /\ c <> 10.
Definition is_literal (t : tok) : Prop := tt t = T_PREP_STRING \/ tt t = T_STRING \/ tt t = T_PREP_CHAR.
Definition token_ok (t : tok) : Prop :=
  tt t <> T_NUMBER /\ tt t <> T_PARAM /\ tt t <> T_END /\ tt t <> T_NEWLINE /\ tt t <> T_BACKSLASH /\
  Forall char_ok (spell t) /\
  (is_literal t \/ Forall (fun c => c <> 34 /\ c <> 92) (spell t)).
