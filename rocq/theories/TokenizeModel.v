(* Tokenisation of a logical line.  src/preprocessor/tokenize.c.
   The text is the list of characters before the terminating NUL, as integers in [0,256).
   `char` is signed on the modelled host: a character >= 128 is a negative index into the table
   is_ident (494-514), which is undefined behaviour and modelled as the outcome OutOfBounds. *)
From Coq Require Import List ZArith Bool.
From Verif Require Import TokModel EscModel.
Import ListNotations.
Open Scope Z_scope.

(* Character at offset i; the terminator reads as 0. *)
Definition at_ (s : list Z) (i : nat) : Z := nth i s 0.

(* tokenize.c:496-514 is_ident, on the defined half of its index range. *)
Definition ident_char (c : Z) : bool :=
  ((48 <=? c) && (c <=? 57)) || ((65 <=? c) && (c <=? 90)) || (c =? 95) || ((97 <=? c) && (c <=? 122)).

(* tokenize.c:494 isident *)
Definition isident (c : Z) : res bool := if 128 <=? c then OutOfBounds else Ok (ident_char c).

(* isspace and isalpha of the C locale (isalpha/isdigit of a negative char are false in the
   table-driven C library assumed here). *)
Definition isspace (c : Z) : bool := (c =? 32) || ((9 <=? c) && (c <=? 13)).
Definition isalpha (c : Z) : bool := ((65 <=? c) && (c <=? 90)) || ((97 <=? c) && (c <=? 122)).
Definition tolower (c : Z) : Z := if (65 <=? c) && (c <=? 90) then c + 32 else c.

(* Does s start with p, character by character (macros M1..M7, 536-543, and strncmp at 704). *)
Fixpoint prefixb (p s : list Z) : bool :=
  match p, s with
  | [], _ => true
  | a :: p', b :: s' => (a =? b) && prefixb p' s'
  | _ :: _, [] => false
  end.

(* The keywords recognised by the switch at 552-708: spelling, token and whether C99 is required
   (595, 609).  Token values are positions in basic_token (25-90); token types of the synonyms
   starting with two underscores are those of the entry (68-71).
   Simplification: the nested comparisons of each case are written as a list of whole spellings;
   each is accepted if the text starts with it and the next character is not in an identifier (E). *)
Definition keywords : list (list Z * Z * bool) :=
  [ ([97;117;116;111], 1, false);                        (* auto *)
    ([98;114;101;97;107], 2, false);                     (* break *)
    ([99;97;115;101], 3, false);                         (* case *)
    ([99;104;97;114], 4, false);                         (* char *)
    ([99;111;110;115;116], 5, false);                    (* const *)
    ([99;111;110;116;105;110;117;101], 6, false);        (* continue *)
    ([100;101;102;97;117;108;116], 7, false);            (* default *)
    ([100;111], 8, false);                               (* do *)
    ([100;111;117;98;108;101], 9, false);                (* double *)
    ([101;108;115;101], 11, false);                      (* else *)
    ([101;110;117;109], 12, false);                      (* enum *)
    ([101;120;116;101;114;110], 13, false);              (* extern *)
    ([102;108;111;97;116], 14, false);                   (* float *)
    ([102;111;114], 15, false);                          (* for *)
    ([103;111;116;111], 16, false);                      (* goto *)
    ([105;102], 17, false);                              (* if *)
    ([105;110;116], 18, false);                          (* int *)
    ([105;110;108;105;110;101], 32, true);               (* inline *)
    ([108;111;110;103], 19, false);                      (* long *)
    ([114;101;103;105;115;116;101;114], 20, false);      (* register *)
    ([114;101;116;117;114;110], 21, false);              (* return *)
    ([114;101;115;116;114;105;99;116], 48, true);        (* restrict *)
    ([115;104;111;114;116], 22, false);                  (* short *)
    ([115;119;105;116;99;104], 27, false);               (* switch *)
    ([115;105;103;110;101;100], 23, false);              (* signed *)
    ([115;105;122;101;111;102], 24, false);              (* sizeof *)
    ([115;116;97;116;105;99], 25, false);                (* static *)
    ([115;116;114;117;99;116], 26, false);               (* struct *)
    ([116;121;112;101;100;101;102], 28, false);          (* typedef *)
    ([117;110;105;111;110], 29, false);                  (* union *)
    ([117;110;115;105;103;110;101;100], 30, false);      (* unsigned *)
    ([118;111;105;100], 31, false);                      (* void *)
    ([118;111;108;97;116;105;108;101], 34, false);       (* volatile *)
    ([119;104;105;108;101], 39, false);                  (* while *)
    ([95;95;97;115;109], 104, false);                    (* __asm *)
    ([95;95;97;115;109;95;95], 104, false);              (* __asm__ *)
    ([95;95;105;110;108;105;110;101], 32, false);        (* __inline *)
    ([95;95;105;110;108;105;110;101;95;95], 32, false);  (* __inline__ *)
    ([95;95;115;105;103;110;101;100], 23, false);        (* __signed *)
    ([95;95;115;105;103;110;101;100;95;95], 23, false);  (* __signed__ *)
    ([95;95;114;101;115;116;114;105;99;116], 48, false); (* __restrict *)
    ([95;95;114;101;115;116;114;105;99;116;95;95], 48, false);  (* __restrict__ *)
    ([95;95;118;111;108;97;116;105;108;101], 34, false); (* __volatile *)
    ([95;95;118;111;108;97;116;105;108;101;95;95], 34, false);  (* __volatile__ *)
    ([95;65;108;105;103;110;111;102], 49, false);        (* _Alignof *)
    ([95;66;111;111;108], 50, false);                    (* _Bool *)
    ([95;78;111;114;101;116;117;114;110], 51, false);    (* _Noreturn *)
    ([95;83;116;97;116;105;99;95;97;115;115;101;114;116], 56, false) (* _Static_assert *) ].

(* Try the keywords in order: Some (token, length) of the first accepted one. *)
Fixpoint match_keyword (c99 : bool) (kws : list (list Z * Z * bool)) (s : list Z) : res (option (Z * nat)) :=
  match kws with
  | [] => Ok None
  | (w, t, need99) :: r =>
    if (negb need99 || c99) && prefixb w s then
      match isident (at_ s (length w)) with
      | Ok false => Ok (Some (t, length w))
      | Ok true => match_keyword c99 r s
      | Error => Error | OutOfBounds => OutOfBounds | NoFuel => NoFuel
      end
    else match_keyword c99 r s
  end.

(* basic_token entries of keywords which are TOK, not IDN (49, 50, 78): not is_expandable. *)
Definition kw_expandable (t : Z) : bool := negb ((t =? 49) || (t =? 50) || (t =? 104)).

(* Operators and punctuators, 709-762: token value and length; None if c does not start one. *)
Definition punct (c : Z) (s : list Z) : option (Z * nat) :=
  (* s is the text after c; c1, c2 the next two characters *)
  let c1 := at_ s 0 in let c2 := at_ s 1 in
  if c =? 42 then Some (if c1 =? 61 then (76, 2%nat) else (42, 1%nat))            (* star *)
  else if c =? 47 then Some (if c1 =? 61 then (77, 2%nat) else (47, 1%nat))       (* slash *)
  else if c =? 37 then Some (if c1 =? 61 then (78, 2%nat) else (37, 1%nat))       (* percent *)
  else if c =? 43 then Some (if c1 =? 43 then (72, 2%nat) else if c1 =? 61 then (79, 2%nat) else (43, 1%nat))
  else if c =? 45 then Some (if c1 =? 62 then (71, 2%nat) else if c1 =? 45 then (73, 2%nat)
                             else if c1 =? 61 then (80, 2%nat) else (45, 1%nat))
  else if c =? 60 then Some (if c1 =? 60 then (if c2 =? 61 then (81, 3%nat) else (74, 2%nat))
                             else if c1 =? 61 then (67, 2%nat) else (60, 1%nat))
  else if c =? 62 then Some (if c1 =? 62 then (if c2 =? 61 then (82, 3%nat) else (75, 2%nat))
                             else if c1 =? 61 then (68, 2%nat) else (62, 1%nat))
  else if c =? 38 then Some (if c1 =? 61 then (83, 2%nat) else if c1 =? 38 then (66, 2%nat) else (38, 1%nat))
  else if c =? 94 then Some (if c1 =? 61 then (84, 2%nat) else (94, 1%nat))
  else if c =? 124 then Some (if c1 =? 61 then (85, 2%nat) else if c1 =? 124 then (65, 2%nat) else (124, 1%nat))
  else if c =? 61 then Some (if c1 =? 61 then (69, 2%nat) else (61, 1%nat))
  else if c =? 33 then Some (if c1 =? 61 then (70, 2%nat) else (33, 1%nat))
  else if c =? 35 then Some (if c1 =? 35 then (86, 2%nat) else (35, 1%nat))
  else if existsb (Z.eqb c) [40; 41; 123; 125; 91; 93; 44; 59; 58; 63; 126; 92; 36; 64; 96]
  then Some (c, 1%nat)
  else if (c =? 46) && negb (isdigit c1) then
    Some (if (c1 =? 46) && (c2 =? 46) then (87, 3%nat) else (46, 1%nat))
  else None.

(* tokenize.c:118-132, the loop of stringtonum: number of characters consumed. *)
Fixpoint num_loop (fuel : nat) (c99 : bool) (s : list Z) : res nat :=
  match fuel with
  | O => NoFuel
  | S n =>
    let c := at_ s 0 in
    if isdigit c || (c =? 46) || (c =? 95) then
      match num_loop n c99 (tl s) with Ok k => Ok (S k) | e => e end
    else if isalpha c then
      if ((tolower c =? 101) || (c99 && (tolower c =? 112))) && ((at_ s 1 =? 43) || (at_ s 1 =? 45)) then
        match num_loop n c99 (tl (tl s)) with Ok k => Ok (S (S k)) | e => e end
      else match num_loop n c99 (tl s) with Ok k => Ok (S k) | e => e end
    else Ok O
  end.

(* tokenize.c:108-137 stringtonum: number of characters of the token. *)
Definition stringtonum (c99 : bool) (s : list Z) : res nat :=
  let '(k, s1) := if at_ s 0 =? 46 then (1%nat, tl s) else (0%nat, s) in
  if isdigit (at_ s1 0) then
    match num_loop (S (length s1)) c99 s1 with Ok n => Ok (k + n)%nat | e => e end
  else Error (* assert at 117 *).

(* tokenize.c:516-529 strtoident: number of characters. *)
Fixpoint ident_len (s : list Z) : res nat :=
  match s with
  | [] => Ok O
  | c :: t => match isident c with
    | Ok true => match ident_len t with Ok n => Ok (S n) | e => e end
    | Ok false => Ok O
    | Error => Error | OutOfBounds => OutOfBounds | NoFuel => NoFuel
    end
  end.

(* Result of tokenize_internal: token type, expandable, spelling (d.string) and remaining text. *)
Definition ident_token (c99 : bool) (s : list Z) : res (tok * list Z) :=
  match match_keyword c99 keywords s with
  | Ok (Some (t, n)) => Ok (mk_tok t (kw_expandable t) false 0 (firstn n s) 0, skipn n s)
  | Ok None =>
    match ident_len (tl s) with
    | Ok n => Ok (mk_tok T_IDENTIFIER true false 0 (firstn (S n) s) 0, skipn (S n) s)
    | Error => Error | OutOfBounds => OutOfBounds | NoFuel => NoFuel
    end
  | Error => Error | OutOfBounds => OutOfBounds | NoFuel => NoFuel
  end.

(* tokenize.c:546-788 tokenize_internal *)
Definition tokenize_internal (c99 : bool) (s : list Z) : res (tok * list Z) :=
  match s with
  | [] => Ok (mk_tok T_END false false 0 [36] 0, [])
  | c :: t =>
    match punct c t with
    | Some (k, n) => Ok (mk_tok k false false 0 (firstn n s) 0, skipn n s)
    | None =>
      if isdigit c || (c =? 46) then
        match stringtonum c99 s with
        | Ok n => Ok (mk_tok T_PREP_NUMBER false false 0 (firstn n s) 0, skipn n s)
        | Error => Error | OutOfBounds => OutOfBounds | NoFuel => NoFuel
        end
      else if c =? 39 then
        match strtochar s with
        | Ok (w, r) => Ok (mk_tok T_PREP_CHAR false false 0 w 0, r)
        | Error => Error | OutOfBounds => OutOfBounds | NoFuel => NoFuel
        end
      else if c =? 34 then
        match strtostr s with
        | Ok (w, r) => Ok (mk_tok T_PREP_STRING false false 0 w 0, r)
        | Error => Error | OutOfBounds => OutOfBounds | NoFuel => NoFuel
        end
      else
        match isident c with
        | Ok true => ident_token c99 s
        | Ok false => Error
        | Error => Error | OutOfBounds => OutOfBounds | NoFuel => NoFuel
        end
    end
  end.

(* tokenize.c:790-803 tokenize.  leading_whitespace is a 16 bit field (token.h:174). *)
Definition tokenize (c99 : bool) (s : list Z) : res (tok * list Z) :=
  let '(ws, r) := span isspace s in
  match tokenize_internal c99 r with
  | Ok (t, rest) =>
    Ok (mk_tok (tt t) (expandable t) (disabled t) (Z.of_nat (length ws) mod 65536) (spell t) (pval t), rest)
  | Error => Error | OutOfBounds => OutOfBounds | NoFuel => NoFuel
  end.

(* Callers (preprocess.c:541-544, macro.c:781-788, preprocess.c:45-70) call tokenize repeatedly until
   END. *)
Fixpoint tokenize_all (fuel : nat) (c99 : bool) (s : list Z) : res (list tok) :=
  match fuel with
  | O => NoFuel
  | S n => match tokenize c99 s with
    | Ok (t, rest) =>
      if tt t =? T_END then Ok []
      else match tokenize_all n c99 rest with Ok r => Ok (t :: r) | e => e end
    | Error => Error | OutOfBounds => OutOfBounds | NoFuel => NoFuel
    end
  end.
Definition tokenize_line (c99 : bool) (s : list Z) : res (list tok) := tokenize_all (S (length s)) c99 s.
