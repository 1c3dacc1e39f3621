(* C99 6.4: preprocessing tokens and the longest match rule.  Without digraphs (6.4.6p3), wide
   literals and universal character names; see TokenizeProps for what lacc does with those.
   Uses nothing from the model except the names of the token enumerators. *)
From Coq Require Import List ZArith String Ascii.
From Verif Require Import TokModel.
Import ListNotations.
Open Scope Z_scope.

Fixpoint chars (s : string) : list Z :=
  match s with EmptyString => [] | String a r => Z.of_nat (nat_of_ascii a) :: chars r end.

Definition digit (c : Z) : Prop := 48 <= c <= 57.
Definition nondigit (c : Z) : Prop := c = 95 \/ 97 <= c <= 122 \/ 65 <= c <= 90.
Definition space (c : Z) : Prop := c = 32 \/ 9 <= c <= 13.

Inductive kind := KIdent | KNumber | KChar | KString | KPunct.

(* 6.4.8 pp-number; p and P exponents only in C99. *)
Inductive PPNum (c99 : bool) : list Z -> Prop :=
| N_digit d : digit d -> PPNum c99 [d]
| N_dot d : digit d -> PPNum c99 [46; d]
| N_ext w c : PPNum c99 w -> (digit c \/ nondigit c \/ c = 46) -> PPNum c99 (w ++ [c])
| N_exp w e s : PPNum c99 w -> (e = 101 \/ e = 69 \/ (c99 = true /\ (e = 112 \/ e = 80))) ->
    (s = 43 \/ s = 45) -> PPNum c99 (w ++ [e; s]).

(* Body of a literal: any characters but the quote and the backslash, or a backslash and any
   character.  (Which escapes are valid is decided when the literal is converted.) *)
Inductive Body (q : Z) : list Z -> Prop :=
| B_nil : Body q []
| B_plain c b : c <> q -> c <> 92 -> Body q b -> Body q (c :: b)
| B_esc c b : Body q b -> Body q (92 :: c :: b).

(* 6.4.6 punctuators, with the enumerators of include/lacc/token.h; the last line is the
   single characters outside the C token set that lacc accepts (6.4: each non-white-space character
   that cannot be one of the above). *)
Definition punctuators : list (list Z * Z) :=
  [(chars "[", 91); (chars "]", 93); (chars "(", 40); (chars ")", 41); (chars "{", 123);
   (chars "}", 125); (chars ".", 46); (chars "->", 71); (chars "++", 72); (chars "--", 73);
   (chars "&", 38); (chars "*", 42); (chars "+", 43); (chars "-", 45); (chars "~", 126);
   (chars "!", 33); (chars "/", 47); (chars "%", 37); (chars "<<", 74); (chars ">>", 75);
   (chars "<", 60); (chars ">", 62); (chars "<=", 67); (chars ">=", 68); (chars "==", 69);
   (chars "!=", 70); (chars "^", 94); (chars "|", 124); (chars "&&", 66); (chars "||", 65);
   (chars "?", 63); (chars ":", 58); (chars ";", 59); (chars "...", 87); (chars "=", 61);
   (chars "*=", 76); (chars "/=", 77); (chars "%=", 78); (chars "+=", 79); (chars "-=", 80);
   (chars "<<=", 81); (chars ">>=", 82); (chars "&=", 83); (chars "^=", 84); (chars "|=", 85);
   (chars ",", 44); (chars "#", 35); (chars "##", 86);
   ([92], 92); (chars "$", 36); (chars "@", 64); (chars "`", 96)].

(* 6.4.1 keywords and the reserved synonyms, with their enumerators. *)
Definition keyword_table (c99 : bool) : list (list Z * Z) :=
  [(chars "auto", 1); (chars "break", 2); (chars "case", 3); (chars "char", 4); (chars "const", 5);
   (chars "continue", 6); (chars "default", 7); (chars "do", 8); (chars "double", 9);
   (chars "else", 11); (chars "enum", 12); (chars "extern", 13); (chars "float", 14);
   (chars "for", 15); (chars "goto", 16); (chars "if", 17); (chars "int", 18); (chars "long", 19);
   (chars "register", 20); (chars "return", 21); (chars "short", 22); (chars "signed", 23);
   (chars "sizeof", 24); (chars "static", 25); (chars "struct", 26); (chars "switch", 27);
   (chars "typedef", 28); (chars "union", 29); (chars "unsigned", 30); (chars "void", 31);
   (chars "volatile", 34); (chars "while", 39);
   (chars "_Alignof", 49); (chars "_Bool", 50); (chars "_Noreturn", 51); (chars "_Static_assert", 56);
   (chars "__asm", 104); (chars "__asm__", 104); (chars "__inline", 32); (chars "__inline__", 32);
   (chars "__signed", 23); (chars "__signed__", 23); (chars "__restrict", 48);
   (chars "__restrict__", 48); (chars "__volatile", 34); (chars "__volatile__", 34)] ++
  if c99 then [(chars "inline", 32); (chars "restrict", 48)] else [].

Inductive Token (c99 : bool) : kind -> list Z -> Prop :=
| T_ident c w : nondigit c -> Forall (fun x => digit x \/ nondigit x) w -> Token c99 KIdent (c :: w)
| T_number w : PPNum c99 w -> Token c99 KNumber w
| T_char b : Body 39 b -> b <> [] -> Token c99 KChar (39 :: b ++ [39])
| T_string b : Body 34 b -> Token c99 KString (34 :: b ++ [34])
| T_punct w t : In (w, t) punctuators -> Token c99 KPunct w.

(* 6.4p4: the next token is the longest sequence of characters that could be a token. *)
Definition Longest (c99 : bool) (k : kind) (w rest : list Z) : Prop :=
  Token c99 k w /\
  forall k' w' r', w ++ rest = w' ++ r' -> Token c99 k' w' -> (List.length w' <= List.length w)%nat.

(* A line of text and the tokens it consists of, each with the number of white space characters
   before it. *)
Inductive Lexed (c99 : bool) : list Z -> list (nat * kind * list Z) -> Prop :=
| X_end ws : Forall space ws -> Lexed c99 ws []
| X_tok ws k w rest l : Forall space ws -> Longest c99 k w rest ->
    ~ match w ++ rest with c :: _ => space c | [] => False end ->
    Lexed c99 rest l -> Lexed c99 (ws ++ w ++ rest) ((List.length ws, k, w) :: l).

(* The token object built for a spelling of some kind. *)
Definition represents (c99 : bool) (k : kind) (w : list Z) (t : tok) : Prop :=
  match k with
  | KNumber => tt t = T_PREP_NUMBER /\ spell t = w
  | KChar => tt t = T_PREP_CHAR /\ w = [39] ++ spell t ++ [39]
  | KString => tt t = T_PREP_STRING /\ w = [34] ++ spell t ++ [34]
  | KPunct => In (w, tt t) punctuators /\ spell t = w
  | KIdent => spell t = w /\
      (In (w, tt t) (keyword_table c99) \/
       (tt t = T_IDENTIFIER /\ expandable t = true /\ forall n, ~ In (w, n) (keyword_table c99)))
  end.

(* A character constant lacc supports: one character or one escape sequence. *)
Definition oct (c : Z) : Prop := 48 <= c <= 55.
Definition hex (c : Z) : Prop := digit c \/ 97 <= c <= 102 \/ 65 <= c <= 70.
Inductive Single : list Z -> Prop :=
| S_plain c : c <> 39 -> c <> 92 -> Single [c]
| S_esc c : ~ oct c -> c <> 120 -> Single [92; c]
| S_oct ds : Forall oct ds -> (1 <= List.length ds <= 3)%nat -> Single (92 :: ds)
| S_hex ds : Forall hex ds -> Single (92 :: 120 :: ds).
