(* The token buffer between preprocessor and parser.  src/preprocessor/preprocess.c:382-450, 553-683. *)
From Coq Require Import List Bool ZArith Arith.
Import ListNotations.

(* The tokens that are treated differently here; Tok stands for any other.  Number carries a converted constant. *)
Inductive tok := PrepString (s : list Z) | Str (s : list Z) | PrepChar (s : list Z) | PrepNumber (s : list Z) | Number (v : Z) | Tok (id : nat) | END.
Definition is_string (t : tok) : bool := match t with Str _ => true | _ => false end.

Section Buffer.
(* convert_preprocessing_string, _char and _number (tokenize.c:224-400), when they return. *)
Variable conv_string : list Z -> list Z.
Variable conv_char conv_number : list Z -> Z.
(* output_preprocessed: option -E *)
Variable verbatim : bool.

(* preprocess.c:395-402 *)
Definition convert (t : tok) : tok :=
  match t with
  | PrepChar s => Number (conv_char s)
  | PrepNumber s => Number (conv_number s)
  | PrepString s => Str (conv_string s)
  | _ => t
  end.
Definition back (l : list tok) : option tok := match l with [] => None | x :: r => Some (last r x) end.
(* preprocess.c:390-424 add_to_lookahead; la: the tokens not yet consumed.  str_cat (strtab.c:215-230) appends. *)
Definition add_to_lookahead (la : list tok) (t : tok) : list tok :=
  if verbatim then la ++ [t]
  else match convert t with
       | Str s => match back la with
                  | Some (Str p) => removelast la ++ [Str (p ++ s)]
                  | _ => la ++ [Str s]
                  end
       | t => la ++ [t]
       end.
(* preprocess.c:432-450 *)
Definition is_lookahead_ready (la : list tok) (n : nat) : bool :=
  if length la <? n then false
  else match back la with
       | Some t => if verbatim then true else negb (is_string t)
       | None => true
       end.
(* preprocess.c:553-601: the loop; the input is given as what each line contributes (594-596), an empty list for a directive. *)
Fixpoint fill (input : list (list tok)) (la : list tok) (n : nat) : list tok * list (list tok) :=
  match input with
  | [] => (la, [])
  | line :: rest =>
      let la := fold_left add_to_lookahead line la in
      if is_lookahead_ready la n then (la, rest) else fill rest la n
  end.
(* preprocess.c:603-605 *)
Fixpoint pad (k : nat) (la : list tok) : list tok := match k with O => la | S k => pad k (add_to_lookahead la END) end.
Definition preprocess_line (input : list (list tok)) (la : list tok) (n : nat) : list tok * list (list tok) :=
  let (la, input) := fill input la n in (pad (n - length la) la, input).

(* What the parser does: next (623-627), peekn (634-642). *)
Inductive op := Next | Peek (n : nat).
Record buffer := mk_buffer { input : list (list tok); ahead : list tok; consumed : list tok }.
(* The new state and the token seen; None: assertion. *)
Definition step (b : buffer) (o : op) : option (buffer * tok) :=
  match o with
  | Next => match ahead b with [] => None | t :: r => Some (mk_buffer (input b) r (consumed b ++ [t]), t) end
  | Peek O => None
  | Peek n =>
      let (la, inp) := if length (ahead b) <? n then preprocess_line (input b) (ahead b) n else (ahead b, input b) in
      match nth_error la (n - 1) with
      | Some t => Some (mk_buffer inp la (consumed b), t)
      | None => None
      end
  end.
Fixpoint run (b : buffer) (l : list op) : option (buffer * list tok) :=
  match l with
  | [] => Some (b, [])
  | o :: r => match step b o with
              | None => None
              | Some (b', t) => match run b' r with Some (b'', ts) => Some (b'', t :: ts) | None => None end
              end
  end.
End Buffer.
