(* Macro definitions and macro replacement.  src/preprocessor/macro.c:73-94, 183-272, 342-639,
   directive.c:607-676. *)
From Coq Require Import List ZArith Bool.
From Verif Require Import Bytes EscModel TokModel TokenizeModel StringifyModel.
Import ListNotations.
Open Scope Z_scope.

Inductive mres (A : Type) : Type :=
| MOk (x : A)
| MError              (* error + exit(1) *)
| MAssert             (* assertion failure *)
| MOut                (* reads outside the token array *)
| MFuel.              (* the model ran out of fuel: the C code is still running *)
Arguments MOk {A} x. Arguments MError {A}. Arguments MAssert {A}. Arguments MOut {A}. Arguments MFuel {A}.

Definition mbind {A B} (r : mres A) (f : A -> mres B) : mres B :=
  match r with MOk x => f x | MError => MError | MAssert => MAssert | MOut => MOut | MFuel => MFuel end.

(* macro.h:16-40 struct macro.  is__line__ and is__file__ are not stored: they are computed from the
   name by define (macro.c:197-198) and only change the token macro_definition returns, see `lookup`. *)
Record macro := mk_macro {
  m_name : list Z; m_func : bool; m_params : Z; m_vararg : bool; m_repl : list tok }.

(* macro.c:629-639 tok_cmp, negated.  NUMBER and PARAM tokens: the types compared here are both
   the zero type, since PARAM tokens come from directive.c:613 and NUMBER tokens do not occur in
   replacement lists. *)
Definition tok_same (a b : tok) : bool :=
  (tt a =? tt b) &&
  (if (tt a =? T_PARAM) || (tt a =? T_NUMBER) then pval a =? pval b else list_eqb (spell a) (spell b)).

Fixpoint toks_same (a b : list tok) : bool :=
  match a, b with
  | [], [] => true
  | x :: a', y :: b' => tok_same x y && toks_same a' b'
  | _, _ => false
  end.

(* macro.c:73-94 macrocmp, negated. *)
Definition macro_same (a b : macro) : bool :=
  Bool.eqb (m_func a) (m_func b) && (m_params a =? m_params b) && list_eqb (m_name a) (m_name b)
  && toks_same (m_repl a) (m_repl b).

(* The hash table of macro.c:30 as a finite map from names to macros; that the hash table
   behaves as one is C01. *)
Definition table := list macro.
Fixpoint find (tb : table) (n : list Z) : option macro :=
  match tb with
  | [] => None
  | m :: r => if list_eqb (m_name m) n then Some m else find r n
  end.

(* macro.c:183-205 define: hash_insert returns the existing entry, or the new one. *)
Definition define (tb : table) (m : macro) : mres table :=
  match find tb (m_name m) with
  | Some old => if macro_same old m then MOk tb else MError
  | None => MOk (m :: tb)
  end.
(* macro.c:207-210 undef. *)
Definition undef (tb : table) (n : list Z) : table :=
  filter (fun m => negb (list_eqb (m_name m) n)) tb.

(* directive.c:607-676 preprocess_define.  The parameters; None where directive.c:637 or 652 exits
   (expect, directive.c).  Returns the parameter tokens, the vararg flag, and what follows ')'. *)
Definition va_args_tok : tok := mk_tok T_IDENTIFIER true false 0 [95;95;86;65;95;65;82;71;83;95;95] 0.
Fixpoint define_params (fuel : nat) (ps : list tok) (line : list tok) : mres (list tok * bool * list tok) :=
  let close ps va l := match l with
    | t :: r => if tt t =? T_RPAREN then MOk (ps, va, r) else MError
    | [] => MOut
    end in
  match fuel with
  | O => MFuel
  | S n =>
    match line with
    | [] => MOut
    | t :: r =>
      if tt t =? T_RPAREN then MOk (ps, false, r)
      else if tt t =? T_DOTS then close (ps ++ [va_args_tok]) true r
      else if negb (expandable t) then MError
      else match r with
           | [] => MOut
           | u :: r' =>
             if tt u =? T_DOTS then close (ps ++ [t]) true r'
             else if tt u =? T_COMMA then define_params n (ps ++ [t]) r'
             else close (ps ++ [t]) false r
           end
    end
  end.

(* directive.c:655-662: the index of the parameter a token names. *)
Fixpoint param_index (i : Z) (ps : list tok) (t : tok) : option Z :=
  match ps with
  | [] => None
  | p :: r => if tok_same t p then Some i else param_index (i + 1) r t
  end.
Definition param_tok (i : Z) : tok := mk_tok T_PARAM false false 0 [] i.
(* directive.c:653-671: the replacement list, up to NEWLINE. *)
Fixpoint define_body (func : bool) (ps : list tok) (line : list tok) : mres (list tok) :=
  match line with
  | [] => MOut
  | t :: r =>
    if tt t =? T_NEWLINE then MOk []
    else if tt t =? T_END then MAssert
    else mbind (define_body func ps r) (fun b =>
      MOk ((if expandable t && func then
              match param_index 0 ps t with Some i => param_tok i | None => t end
            else t) :: b))
  end.
Definition preprocess_define (line : list tok) : mres macro :=
  match line with
  | [] => MOut
  | t :: r =>
    if negb (expandable t) then MError
    else
      let obj := mbind (define_body false [] r) (fun b => MOk (mk_macro (spell t) false 0 false b)) in
      match r with
      | u :: r' =>
        if (tt u =? T_LPAREN) && (lws u =? 0) then
          mbind (define_params (S (length r')) [] r') (fun '(ps, va, r'') =>
          mbind (define_body true ps r'') (fun b =>
          MOk (mk_macro (spell t) true (Z.of_nat (length ps)) va b)))
        else obj
      | [] => obj
      end
  end.

(* Nesting stack of names being expanded.  macro.c:38-52 is_expanded. *)
Definition is_expanded (scope : list (list Z)) (n : list Z) : bool := existsb (fun m => list_eqb m n) scope.

Definition set_lws (w : Z) (t : tok) : tok := mk_tok (tt t) (expandable t) (disabled t) w (spell t) (pval t).
Definition set_disabled (t : tok) : tok := mk_tok (tt t) (expandable t) true (lws t) (spell t) (pval t).

Section Expand.
Variable c99 : bool.
(* macro.c:162-181 macro_definition: the table lookup, with the replacement of __FILE__ and __LINE__
   already filled in; both are constant while one line is expanded. *)
Variable lookup : list Z -> option macro.

(* macro.c:243-272 paste.  str_raw of a PARAM token reads the number as a string; PARAM does not
   reach paste.  Characters of the spelling contain no NUL, strncpy copies all of them. *)
Definition paste (l r : tok) : mres tok :=
  if (tt l =? T_NUMBER) || (tt r =? T_NUMBER) then MAssert
  else match tokenize c99 (spell l ++ spell r) with
       | Ok (t, []) => MOk (set_lws (lws l) t)
       | Ok (_, _ :: _) => MError
       | Error => MError
       | OutOfBounds => MOut
       | NoFuel => MFuel
       end.

Definition argn (args : list (list tok)) (i : Z) : list tok := nth (Z.to_nat i) args [].
Fixpoint split_last (l : list tok) : option (list tok * tok) :=
  match l with
  | [] => None
  | [t] => Some ([], t)
  | t :: r => match split_last r with Some (i, x) => Some (t :: i, x) | None => None end
  end.

(* macro.c:716-770 stringify with the leading white space (760, 735). *)
Definition stringify_tok (a : list tok) : mres tok :=
  match stringify a with
  | SOk (k, s) => MOk (mk_tok k false false (match a with t :: _ => lws t | [] => 0 end) s 0)
  | SError => MError
  | SAssert => MAssert
  | SOverflow => MOut
  end.

(* macro.c:371-385, the right operand when the left one is the token t at the end of `acc`:
   the tokens of `acc` without t, then the result.  Some true: look at s again (i--). *)
Definition paste_right (def : macro) (args : list (list tok)) (acc : list tok) (s : tok)
  : mres (list tok * bool) :=
  match split_last acc with
  | None => MOut
  | Some (init, t) =>
    if tt s =? T_PARAM then
      if m_vararg def && (tt t =? T_COMMA) && (pval s =? m_params def - 1) then
        match argn args (pval s) with
        | [] => MOk (init, false)
        | _ => MOk (acc, true)
        end
      else match argn args (pval s) with
           | [] => MOk (acc, false)
           | a :: ar => mbind (paste t a) (fun p => MOk (init ++ p :: ar, false))
           end
    else mbind (paste t s) (fun p => MOk (init ++ [p], false))
  end.

(* macro.c:362-420 the loop of expand_stringify_and_paste.  `acc` is `list`, r the rest of the
   replacement list. *)
Fixpoint stringify_and_paste (fuel : nat) (def : macro) (args : list (list tok)) (acc : list tok)
  (r : list tok) : mres (list tok) :=
  match fuel with
  | O => MFuel
  | S n =>
    match r with
    | [] => MOk acc
    | t :: r' =>
      if tt t =? T_PASTE then
        match split_last acc, r' with
        | Some (init, l), s :: r'' =>
          let go acc := mbind (paste_right def args acc s) (fun '(acc, again) =>
                          stringify_and_paste n def args acc (if again : bool then r' else r'')) in
          if tt l =? T_PARAM then
            match argn args (pval l) with
            | [] => stringify_and_paste n def args
                      (init ++ (if tt s =? T_PARAM then argn args (pval s) else [s])) r''
            | a => go (init ++ a)
            end
          else go acc
        | _, _ => MOut
        end
      else if tt t =? T_HASH then
        match r' with
        | s :: r'' =>
          if tt s =? T_PARAM then
            mbind (stringify_tok (argn args (pval s))) (fun x => stringify_and_paste n def args (acc ++ [x]) r'')
          else MError
        | [] => MError
        end
      else stringify_and_paste n def args (acc ++ [t]) r'
    end
  end.

(* macro.c:342-361 expand_stringify_and_paste. *)
Definition expand_stringify_and_paste (def : macro) (args : list (list tok)) : mres (list tok) :=
  let r := m_repl def in
  match r with
  | t :: _ =>
    if tt t =? T_PASTE then MError
    else if (2 <? Z.of_nat (length r)) && (match split_last r with Some (_, l) => tt l =? T_PASTE | None => false end)
    then MError
    else stringify_and_paste (S (length r)) def args [] r
  | [] => MOk []
  end.

(* macro.c:478-513 read_arg.  Returns the argument and the list from the token that ends it; running
   off the end of the array is MOut.  (491-495 cannot happen: nesting is positive there.) *)
Fixpoint read_arg (scope : list (list Z)) (va : bool) (nesting : nat) (l : list tok) : mres (list tok * list tok) :=
  match l with
  | [] => MOut
  | t :: r =>
    if (match nesting with O => negb (((negb (tt t =? T_COMMA)) || va) && negb (tt t =? T_RPAREN)) | _ => false end)
    then MOk ([], l)
    else if tt t =? T_NEWLINE then MError
    else
      let nesting := if tt t =? T_LPAREN then S nesting
                     else if tt t =? T_RPAREN then pred nesting else nesting in
      let t := if expandable t && is_expanded scope (spell t) then set_disabled t else t in
      mbind (read_arg scope va nesting r) (fun '(a, e) => MOk (t :: a, e))
  end.

(* macro.c:530-546: the arguments from index i on; k = params - is_vararg - i remain to be read.
   Returns also whether the variable argument is still to be read (i != -1). *)
Fixpoint read_fixed (scope : list (list Z)) (va : bool) (k : nat) (l : list tok)
  : mres (list (list tok) * bool * list tok) :=
  match k with
  | O => MOk ([], true, l)
  | S k' =>
    mbind (read_arg scope false 0 l) (fun '(a, e) =>
    match e with
    | [] => MOut
    | t :: r =>
      if tt t =? T_COMMA then
        mbind (read_fixed scope va k' r) (fun '(as_, more, e) => MOk (a :: as_, more, e))
      else match k', va with
           | O, false => MOk ([a], true, e)           (* i == params - 1 *)
           | O, true => MOk ([a], false, e)           (* i == params - 2 and vararg: i = -1 *)
           | S _, _ => MError
           end
    end)
  end.

(* macro.c:515-565 read_args, for a function-like macro; l begins after the macro name.
   The missing variable argument is the empty list (calloc). *)
Definition read_args (scope : list (list Z)) (def : macro) (l : list tok) : mres (list (list tok) * list tok) :=
  if negb (m_func def) then MOk ([], l)
  else match l with
  | [] => MOut
  | t :: r =>
    if negb (tt t =? T_LPAREN) then MError
    else
      let close args l := match l with
        | [] => MOut
        | t :: r => if tt t =? T_RPAREN then MOk (args, r) else MError
        end in
      if m_params def =? 0 then close [] r
      else
        mbind (read_fixed scope (m_vararg def) (Z.to_nat (m_params def - (if m_vararg def then 1 else 0))) r)
          (fun '(args, more, e) =>
             if m_vararg def then
               if more : bool then mbind (read_arg scope true 0 e) (fun '(a, e) => close (args ++ [a]) e)
               else close (args ++ [[]]) e
             else close args e)
  end.

(* macro.c:440-461: the expanded arguments are put in the place of the PARAM tokens.  The loop goes
   on inside the inserted argument, which contains no PARAM tokens. *)
Definition fix_first (a : list tok) : list tok :=
  match a with t :: r => (if lws t =? 0 then set_lws 1 t else t) :: r | [] => [] end.
Fixpoint substitute (args : list (list tok)) (l : list tok) : list tok :=
  match l with
  | [] => []
  | t :: r => (if tt t =? T_PARAM then argn args (pval t) else [t]) ++ substitute args r
  end.

(* macro.c:601-603. *)
Definition with_lws (w : Z) (l : list tok) : list tok :=
  match l with t :: r => set_lws w t :: r | [] => [] end.

Fixpoint mmap {A B} (f : A -> mres B) (l : list A) : mres (list B) :=
  match l with
  | [] => MOk []
  | x :: r => mbind (f x) (fun y => mbind (mmap f r) (fun ys => MOk (y :: ys)))
  end.

(* macro.c:567-617 expand_line, with expand_macro (427-468) inlined; the number of replacements
   made at this level and the resulting list.  The recursion of 444 (expand: macro.c:619-627) starts
   with an empty stack. *)
Fixpoint expand_line (fuel : nat) (scope : list (list Z)) (l : list tok) : mres (nat * list tok) :=
  match fuel with
  | O => MFuel
  | S n =>
    match l with
    | [] => MOk (0%nat, [])
    | t :: r =>
      let keep t := mbind (expand_line n scope r) (fun '(k, o) => MOk (k, t :: o)) in
      if negb (expandable t) || disabled t then keep t
      else match lookup (spell t) with
      | None => keep t
      | Some def =>
        if is_expanded scope (spell t) then keep (set_disabled t)
        else if m_func def && (match r with u :: _ => negb (tt u =? T_LPAREN) | [] => true end) then keep t
        else
          mbind (read_args scope def r) (fun '(args, r') =>
          mbind (expand_stringify_and_paste def args) (fun list =>
          mbind (if 0 <? m_params def then
                   mbind (mmap (fun a => mbind (expand_line n [] a) (fun '(_, o) => MOk (fix_first o))) args)
                     (fun args => MOk (substitute args list))
                 else MOk list) (fun list =>
          mbind (expand_line n (m_name def :: scope) list) (fun '(_, e) =>
          mbind (expand_line n scope r') (fun '(k, o) =>
          MOk (S k, with_lws (lws t) e ++ o))))))
      end
    end
  end.

(* macro.c:619-627 expand. *)
Definition expand (fuel : nat) (l : list tok) : mres (nat * list tok) := expand_line fuel [] l.
End Expand.
