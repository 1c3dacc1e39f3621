(* String and character literals: printing with escapes, scanning and decoding.
   Characters are integers in [0,256) (the C code stores them in `char`; the value stored is the
   residue modulo 256).  A NUL terminated C string is modelled by the list of its characters
   before the terminator; reading the character at the end of the list gives 0. *)
From Coq Require Import List ZArith Bool.
Import ListNotations.
Open Scope Z_scope.

Definition QUOTE := 34. Definition BSL := 92.

(* ctype.h in the C locale, used at string.c:16, tokenize.c:283, 304, 409. *)
Definition isprint (c : Z) : bool := (32 <=? c) && (c <=? 126).
Definition isoctal (c : Z) : bool := (48 <=? c) && (c <? 56).
Definition isdigit (c : Z) : bool := (48 <=? c) && (c <=? 57).
Definition isxdigit (c : Z) : bool :=
  isdigit c || ((65 <=? c) && (c <=? 70)) || ((97 <=? c) && (c <=? 102)).
Definition digit_val (c : Z) : Z :=
  if isdigit c then c - 48 else if c <=? 70 then c - 55 else c - 87.

(* src/util/string.c:13-39 printchar.  The last case is fprintf("\\%03o", c); c < 256. *)
Definition printchar (c : Z) : list Z :=
  if isprint c && negb (c =? 34) && negb (c =? 92) then [c]
  else if c =? 8 then [92; 98] else if c =? 9 then [92; 116] else if c =? 10 then [92; 110]
  else if c =? 12 then [92; 102] else if c =? 13 then [92; 114] else if c =? 92 then [92; 92]
  else if c =? 34 then [92; 34]
  else [92; 48 + c / 64; 48 + (c / 8) mod 8; 48 + c mod 8].

(* src/util/string.c:41-56 fprintstr: the characters written to the stream. *)
Definition fprintstr (s : list Z) : list Z := [QUOTE] ++ flat_map printchar s ++ [QUOTE].

(* src/util/string.c:50-55: the returned count. *)
Definition fprintstr_ret (s : list Z) : Z :=
  Z.of_nat (fold_left (fun n c => (n + length (printchar c))%nat) s 0%nat) + 2.

Inductive res (A : Type) : Type :=
| Ok (x : A)
| Error            (* error(...) followed by exit(1) *)
| OutOfBounds      (* reads beyond the end of the text: undefined behaviour *)
| NoFuel.
Arguments Ok {A} x. Arguments Error {A}. Arguments OutOfBounds {A}. Arguments NoFuel {A}.

(* Longest prefix satisfying p, and the rest. *)
Fixpoint span (p : Z -> bool) (l : list Z) : list Z * list Z :=
  match l with
  | c :: t => if p c then let '(a, b) := span p t in (c :: a, b) else ([], l)
  | [] => ([], [])
  end.

Definition LONG_MAX := 2 ^ 63 - 1.
Definition digits_value (base : Z) (ds : list Z) : Z :=
  fold_left (fun v c => v * base + digit_val c) ds 0.

(* C library strtol(s, &end, 16), for s starting with a hexadecimal digit: an optional 0x prefix is
   skipped when a digit follows it; saturates at LONG_MAX. *)
Definition strtol16 (s : list Z) : Z * list Z :=
  let body := match s with
    | 48 :: x :: d :: _ => if ((x =? 120) || (x =? 88)) && isxdigit d then tl (tl s) else s
    | _ => s end in
  let '(ds, rest) := span isxdigit body in
  (Z.min (digits_value 16 ds) LONG_MAX, rest).

(* tokenize.c:285-329 convert_escape_sequence; `s` is the text after the backslash.  The result is
   converted to `char`, i.e. reduced modulo 256. *)
Definition convert_escape_sequence (s : list Z) : res (Z * list Z) :=
  match s with
  | [] => Error                                   (* '\0' falls in `default` *)
  | c :: t =>
    if c =? 97 then Ok (7, t) else if c =? 98 then Ok (8, t) else if c =? 116 then Ok (9, t)
    else if c =? 110 then Ok (10, t) else if c =? 118 then Ok (11, t)
    else if c =? 102 then Ok (12, t) else if c =? 114 then Ok (13, t)
    else if (c =? 63) || (c =? 39) || (c =? 34) || (c =? 92) then Ok (c, t)
    else if c =? 120 then
      if isxdigit (hd 0 t) then let '(v, rest) := strtol16 t in Ok (v mod 256, rest) else Error
    else if isoctal c then
      (* loop at 314-316: at most three octal digits *)
      let ds := fst (span isoctal (firstn 3 s)) in
      Ok (digits_value 8 ds mod 256, skipn (length ds) s)
    else Error
  end.

(* tokenize.c:331-343 convert_char *)
Definition convert_char (s : list Z) : res (Z * list Z) :=
  match s with
  | [] => OutOfBounds
  | c :: t => if c =? 92 then convert_escape_sequence t else Ok (c, t)
  end.

(* tokenize.c:367-385 convert_preprocessing_string: the loop at 379-381.  Interning is C02. *)
Fixpoint convert_loop (fuel : nat) (s : list Z) : res (list Z) :=
  match s with
  | [] => Ok []
  | _ => match fuel with
    | O => NoFuel
    | S n => match convert_char s with
      | Ok (c, rest) => match convert_loop n rest with Ok r => Ok (c :: r) | e => e end
      | Error => Error | OutOfBounds => OutOfBounds | NoFuel => NoFuel
      end end
  end.
Definition convert_preprocessing_string (s : list Z) : res (list Z) := convert_loop (length s) s.

(* tokenize.c:387-397 convert_preprocessing_char: `char` is signed on x86-64, so the int value is
   sign extended; trailing characters are not looked at. *)
Definition convert_preprocessing_char (s : list Z) : res Z :=
  match convert_char s with
  | Ok (c, _) => Ok (if c <? 128 then c else c - 256)
  | Error => Error | OutOfBounds => OutOfBounds | NoFuel => NoFuel
  end.

(* tokenize.c:405-433 parse_escape_sequence; `s` is the text after the backslash.  The `default`
   case also steps over a terminating NUL, which is out of bounds. *)
Definition parse_escape_sequence (s : list Z) : res (list Z) :=
  match s with
  | [] => OutOfBounds
  | c :: t =>
    if c =? 120 then Ok (snd (span isxdigit t))
    else if isoctal c then
      match t with
      | d :: u => if isoctal d
                  then match u with e :: w => if isoctal e then Ok w else Ok u | [] => Ok u end
                  else Ok t
      | [] => Ok t
      end
    else Ok t
  end.

(* tokenize.c:467-488 strtostr: the spelling between the quotes and the text after the literal. *)
Fixpoint strtostr_loop (fuel : nat) (start s : list Z) : res (list Z * list Z) :=
  match fuel with
  | O => NoFuel
  | S n => match s with
    | [] => OutOfBounds
    | c :: t =>
      if c =? 34 then Ok (firstn (length start - length s) start, t)
      else if c =? 92 then
        match parse_escape_sequence t with
        | Ok rest => strtostr_loop n start rest
        | Error => Error | OutOfBounds => OutOfBounds | NoFuel => NoFuel
        end
      else strtostr_loop n start t
    end
  end.
Definition strtostr (s : list Z) : res (list Z * list Z) :=
  match s with
  | c :: t => if c =? 34 then strtostr_loop (S (length t)) t t else Error (* assert at 474 *)
  | [] => Error
  end.

(* tokenize.c:440-464 strtochar *)
Definition strtochar (s : list Z) : res (list Z * list Z) :=
  match s with
  | q :: t =>
    if negb (q =? 39) then Error (* assert *) else
    let after := match t with
      | c :: u => if c =? 92 then parse_escape_sequence u
                  else if c =? 39 then Error else Ok u
      | [] => OutOfBounds
      end in
    match after with
    | Ok (c :: u) => if c =? 39 then Ok (firstn (length t - length (c :: u)) t, u) else Error
    | Ok [] => Error
    | Error => Error | OutOfBounds => OutOfBounds | NoFuel => NoFuel
    end
  | [] => Error
  end.
