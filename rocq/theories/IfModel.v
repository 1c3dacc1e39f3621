(* The expression of #if and #elif.  src/preprocessor/directive.c:96-554.
   A number (struct number, 52-55) is the 64 bit pattern and whether its type is unsigned long: at the end of
   preprocess_primary (153-166) every type becomes long or unsigned long, and both_signed (215-231) keeps it
   so (usual_arithmetic_conversion and convert of C15 and C16; see the lemma both_signed_types in IfProofs).
   The list of tokens ends with a NEWLINE token. *)
From Coq Require Import List ZArith Bool.
From Verif Require Import TokModel EscModel NumberModel EvalModel TypeModel.
Import ListNotations.
Open Scope Z_scope.

Record num := mkNum { uns : bool; bits : Z }.

Inductive ires (A : Type) :=
| IOk (x : A)
| IError       (* error, exit(1) *)
| IAssert
| IUB          (* undefined behaviour of the compiler *)
| IFuel.
Arguments IOk {A}. Arguments IError {A}. Arguments IAssert {A}. Arguments IUB {A}. Arguments IFuel {A}.

Definition ibind {A B} (x : ires A) (f : A -> ires B) : ires B :=
  match x with IOk a => f a | IError => IError | IAssert => IAssert | IUB => IUB | IFuel => IFuel end.

(* signed operations of the host on long *)
Definition host (n : Z) : ires num := if in_long n then IOk (mkNum false (put n)) else IUB.
Definition both_signed (l r : num) : bool := negb (uns l || uns r).
Definition sgn (n : num) : Z := as_i (bits n).
Definition unsg (n : num) : Z := as_u (bits n).
Definition long (b : bool) : num := mkNum false (if b then 1 else 0).

(* the right hand sides of the cases, by operator token *)
Definition mul_op (op : Z) (l r : num) : ires num :=                         (* 233-277 *)
  if op =? 42 then if both_signed l r then host (sgn l * sgn r) else IOk (mkNum true (put (unsg l * unsg r)))
  else if unsg r =? 0 then IError
  else if op =? 47 then
    if both_signed l r then host (Z.quot (sgn l) (sgn r)) else IOk (mkNum true (unsg l / unsg r))
  else
    if both_signed l r then (if in_long (Z.quot (sgn l) (sgn r)) then host (Z.rem (sgn l) (sgn r)) else IUB)
    else IOk (mkNum true (unsg l mod unsg r)).
Definition add_op (op : Z) (l r : num) : ires num :=                         (* 279-309 *)
  if op =? 43 then if both_signed l r then host (sgn l + sgn r) else IOk (mkNum true (put (unsg l + unsg r)))
  else if both_signed l r then host (sgn l - sgn r) else IOk (mkNum true (put (unsg l - unsg r))).
Definition shift_op (op : Z) (l r : num) : ires num :=                       (* 311-341 *)
  let n := if both_signed l r then sgn r else unsg r in
  if (n <? 0) || (64 <=? n) then IUB
  else if op =? 74 then
    if both_signed l r then (if sgn l <? 0 then IUB else host (sgn l * 2 ^ n)) else IOk (mkNum true (put (unsg l * 2 ^ n)))
  else if both_signed l r then host (sgn l / 2 ^ n) else IOk (mkNum true (unsg l / 2 ^ n)).
Definition rel_op (op : Z) (l r : num) : ires num :=                         (* 343-385 *)
  let a := if both_signed l r then sgn l else unsg l in
  let b := if both_signed l r then sgn r else unsg r in
  IOk (long (if op =? 60 then a <? b else if op =? 62 then b <? a else if op =? 67 then a <=? b else b <=? a)).
Definition eq_op (op : Z) (l r : num) : ires num :=                          (* 387-415 *)
  let a := if both_signed l r then sgn l else unsg l in
  let b := if both_signed l r then sgn r else unsg r in
  IOk (long (if op =? 69 then a =? b else negb (a =? b))).
(* 417-475; the pattern of a signed result is that of the operation on the patterns *)
Definition bit_op (f : Z -> Z -> Z) (l r : num) : num := mkNum (uns l || uns r) (f (bits l) (bits r)).

Section Ev.
(* macro_definition(name) != NULL *)
Variable ismacro : list Z -> bool.
(* whether strtod reports a range error, see NumberModel *)
Variable erange : list Z -> bool.

(* directive.c:153-166: the type of a constant *)
Definition normalize (t : nty) (v : Z) : ires num :=
  match t with
  | NInt | NLong => IOk (mkNum false v)
  | NUInt | NULong => IOk (mkNum true v)
  | _ => IError
  end.

(* The functions of the parser.  The loops of 4 of them are separate: the accumulated value is their argument. *)
Inductive fn :=
| Primary | Unary | Mult | MultLoop (l : num) | Addi | AddiLoop (l : num) | Shift | ShiftLoop (l : num)
| Rela | RelaLoop (l : num) | Equa | And_ | Xor_ | Ior | Land | Lor | Cond | Expr.

Definition hd_tt (ts : list tok) : Z := match ts with t :: _ => tt t | [] => -1 end.

Fixpoint ev (fuel : nat) (f : fn) (ts : list tok) : ires (num * list tok) :=
  match fuel with
  | O => IFuel
  | S n =>
    match ts with
    | [] => IUB (* beyond the end of the array *)
    | t :: r =>
      match f with
      | Primary => (* 118-171 *)
        if tt t =? T_PREP_NUMBER then
          match convert_preprocessing_number erange (spell t) with
          | Integer v ty _ => ibind (normalize ty v) (fun x => IOk (x, r))
          | Floating _ => IError
          | OutOfRange => IError | Invalid => IError | AssertFailed => IAssert
          end
        else if tt t =? T_PREP_CHAR then
          match convert_preprocessing_char (spell t) with
          | Ok v => IOk (mkNum false (put v), r)
          | Error => IError | OutOfBounds => IUB | NoFuel => IFuel
          end
        else if tt t =? 40 then
          ibind (ev n Expr r) (fun x => match snd x with
            | t' :: r' => if tt t' =? 41 then IOk (fst x, r') else IError
            | [] => IUB end)
        else if (tt t =? T_IDENTIFIER) || expandable t then
          if ismacro (spell t) then IAssert else IOk (mkNum false 0, r)
        else IError
      | Unary => (* 173-213 *)
        if tt t =? 43 then ev n Unary r
        else if tt t =? 45 then
          ibind (ev n Unary r) (fun x => let l := fst x in
            ibind (if uns l then IOk (mkNum true (put (- unsg l))) else host (- sgn l)) (fun l => IOk (l, snd x)))
        else if tt t =? 126 then
          ibind (ev n Unary r) (fun x => IOk (mkNum (uns (fst x)) (put (- bits (fst x) - 1)), snd x))
        else if tt t =? 33 then
          ibind (ev n Unary r) (fun x => IOk (mkNum (uns (fst x)) (if bits (fst x) =? 0 then 1 else 0), snd x))
        else ev n Primary ts
      | Mult => ibind (ev n Unary ts) (fun x => ev n (MultLoop (fst x)) (snd x))
      | MultLoop l =>
        if (tt t =? 42) || (tt t =? 47) || (tt t =? 37) then
          ibind (ev n Unary r) (fun x => ibind (mul_op (tt t) l (fst x)) (fun l => ev n (MultLoop l) (snd x)))
        else IOk (l, ts)
      | Addi => ibind (ev n Mult ts) (fun x => ev n (AddiLoop (fst x)) (snd x))
      | AddiLoop l =>
        if (tt t =? 43) || (tt t =? 45) then
          ibind (ev n Mult r) (fun x => ibind (add_op (tt t) l (fst x)) (fun l => ev n (AddiLoop l) (snd x)))
        else IOk (l, ts)
      | Shift => ibind (ev n Addi ts) (fun x => ev n (ShiftLoop (fst x)) (snd x))
      | ShiftLoop l =>
        if (tt t =? 74) || (tt t =? 75) then
          ibind (ev n Addi r) (fun x => ibind (shift_op (tt t) l (fst x)) (fun l => ev n (ShiftLoop l) (snd x)))
        else IOk (l, ts)
      | Rela => ibind (ev n Shift ts) (fun x => ev n (RelaLoop (fst x)) (snd x))
      | RelaLoop l =>
        if (tt t =? 60) || (tt t =? 62) || (tt t =? 67) || (tt t =? 68) then
          ibind (ev n Shift r) (fun x => ibind (rel_op (tt t) l (fst x)) (fun l => ev n (RelaLoop l) (snd x)))
        else IOk (l, ts)
      | Equa =>
        ibind (ev n Rela ts) (fun x =>
          if (hd_tt (snd x) =? 69) || (hd_tt (snd x) =? 70) then
            ibind (ev n Equa (tl (snd x))) (fun y => ibind (eq_op (hd_tt (snd x)) (fst x) (fst y)) (fun l => IOk (l, snd y)))
          else IOk x)
      | And_ =>
        ibind (ev n Equa ts) (fun x =>
          if hd_tt (snd x) =? 38 then ibind (ev n And_ (tl (snd x))) (fun y => IOk (bit_op Z.land (fst x) (fst y), snd y)) else IOk x)
      | Xor_ =>
        ibind (ev n And_ ts) (fun x =>
          if hd_tt (snd x) =? 94 then ibind (ev n Xor_ (tl (snd x))) (fun y => IOk (bit_op Z.lxor (fst x) (fst y), snd y)) else IOk x)
      | Ior =>
        ibind (ev n Xor_ ts) (fun x =>
          if hd_tt (snd x) =? 124 then ibind (ev n Xor_ (tl (snd x))) (fun y => IOk (bit_op Z.lor (fst x) (fst y), snd y)) else IOk x)
      | Land => (* 477-492 *)
        ibind (ev n Ior ts) (fun x =>
          if hd_tt (snd x) =? 66 then
            ibind (ev n Land (tl (snd x))) (fun y => IOk (long (negb (bits (fst x) =? 0) && negb (bits (fst y) =? 0)), snd y))
          else IOk x)
      | Lor => (* 494-509 *)
        ibind (ev n Land ts) (fun x =>
          if hd_tt (snd x) =? 65 then
            ibind (ev n Lor (tl (snd x))) (fun y => IOk (long (negb (bits (fst x) =? 0) || negb (bits (fst y) =? 0)), snd y))
          else IOk x)
      | Cond => (* 511-533 *)
        ibind (ev n Lor ts) (fun a =>
          if hd_tt (snd a) =? 63 then
            ibind (ev n Expr (tl (snd a))) (fun b =>
              match snd b with
              | [] => IUB
              | t' :: r' =>
                if tt t' =? 58 then
                  ibind (ev n Cond r') (fun c =>
                    IOk (mkNum (uns (fst b) || uns (fst c)) (if bits (fst a) =? 0 then bits (fst c) else bits (fst b)), snd c))
                else IError
              end)
          else IOk a)
      | Expr => (* 535-547 *)
        ibind (ev n Cond ts) (fun x => if hd_tt (snd x) =? 44 then ev n Expr (tl (snd x)) else IOk x)
      end
    end
  end.

(* directive.c:549-554 preprocess_constant_expression, and the test at 739, 756: tokens after the expression
   are ignored.  The fuel is enough for every list (IfProofs.v). *)
Definition if_value (ts : list tok) : ires bool :=
  ibind (ev (20 * length ts + 20) Cond ts) (fun x => IOk (negb (bits (fst x) =? 0))).
End Ev.
