(* The value of a #if expression in C (C99 6.5, 6.6, 6.10.1): concrete syntax trees, the grammar, and the
   arithmetic of intmax_t and uintmax_t (64 bits). *)
From Coq Require Import List ZArith Bool.
From Verif Require Import TokModel TokenizeModel EscSpec NumberSpec.
Import ListNotations.
Open Scope Z_scope.

Inductive unop := Plus | Minus | Compl | Not.
Inductive binop := Times | Quot | Rem | Plus2 | Minus2 | Lsh | Rsh | Lt | Gt | Le | Ge | Equal | NEqual | BAnd | BXor | BOr | LAnd | LOr.

(* A syntax tree with its tokens.  A leaf carries its meaning: whether it is unsigned, and its value. *)
Inductive expr :=
| ELeaf (t : tok) (u : bool) (v : Z)
| EParen (l : tok) (e : expr) (r : tok)
| EUn (o : unop) (t : tok) (e : expr)
| EBin (o : binop) (a : expr) (t : tok) (b : expr)
| ECond (a : expr) (q : tok) (b : expr) (c : tok) (d : expr).

Fixpoint toks (e : expr) : list tok :=
  match e with
  | ELeaf t _ _ => [t]
  | EParen l e r => l :: toks e ++ [r]
  | EUn _ t e => t :: toks e
  | EBin _ a t b => toks a ++ t :: toks b
  | ECond a q b c d => toks a ++ q :: toks b ++ c :: toks d
  end.

(* 6.10.1p4: identifiers, among them those spelled as keywords, are 0; integer constants are intmax_t, or uintmax_t if they have a suffix u or do not
   fit intmax_t (unless decimal: then there is no type); character constants are int *)
Inductive Leaf : tok -> bool -> Z -> Prop :=
| Leaf_number t b ds w u l sfx : tt t = T_PREP_NUMBER -> spell t = w ++ sfx -> Digits b ds w -> Suffix u l sfx ->
    NumberSpec.value (radix b) ds < 2 ^ (if u then 64 else match b with Dec => 63 | _ => 64 end) ->
    Leaf t (u || (2 ^ 63 <=? NumberSpec.value (radix b) ds)) (NumberSpec.value (radix b) ds)
| Leaf_char t c : tt t = T_PREP_CHAR -> Literal any_hex 39 (spell t) [c] ->
    Leaf t false (if c <? 128 then c else c - 256)
| Leaf_ident t : tt t = T_IDENTIFIER \/ In (tt t) (map (fun k => snd (fst k)) keywords) -> Leaf t false 0.

(* punctuators of the operators, by token value: < and so on are their characters, the others are
   || && <= >= == != (65-70), << >> (74, 75) *)
Definition un_tok (o : unop) : Z := match o with Plus => 43 | Minus => 45 | Compl => 126 | Not => 33 end.
Definition bin_tok (o : binop) : Z :=
  match o with
  | Times => 42 | Quot => 47 | Rem => 37 | Plus2 => 43 | Minus2 => 45 | Lsh => 74 | Rsh => 75 | Lt => 60 | Gt => 62 | Le => 67 | Ge => 68
  | Equal => 69 | NEqual => 70 | BAnd => 38 | BXor => 94 | BOr => 124 | LAnd => 66 | LOr => 65
  end.
(* 6.5.5 - 6.5.14: level of an operator in the grammar, 0 is a primary expression, 1 a unary one *)
Definition level (o : binop) : nat :=
  match o with
  | Times | Quot | Rem => 2 | Plus2 | Minus2 => 3 | Lsh | Rsh => 4 | Lt | Gt | Le | Ge => 5 | Equal | NEqual => 6
  | BAnd => 7 | BXor => 8 | BOr => 9 | LAnd => 10 | LOr => 11
  end%nat.

(* derivable from the nonterminal of level k; all binary operators group from the left; level 12 is
   conditional-expression.  Constant expressions have no comma operators (6.6p3). *)
Fixpoint Derives (k : nat) (e : expr) : Prop :=
  match e with
  | ELeaf t u v => Leaf t u v
  | EParen l e r => tt l = 40 /\ Derives 12 e /\ tt r = 41
  | EUn o t e => (1 <= k)%nat /\ tt t = un_tok o /\ Derives 1 e
  | EBin o a t b => (level o <= k)%nat /\ Derives (level o) a /\ tt t = bin_tok o /\ Derives (pred (level o)) b
  | ECond a q b c d => (12 <= k)%nat /\ Derives 11 a /\ tt q = 63 /\ Derives 12 b /\ tt c = 58 /\ Derives 12 d
  end.

(* 6.3.1.8: is the type of the expression uintmax_t *)
Fixpoint utype (e : expr) : bool :=
  match e with
  | ELeaf _ u _ => u
  | EParen _ e _ => utype e
  | EUn Not _ _ => false
  | EUn _ _ e => utype e
  | EBin o a _ b =>
    match o with
    | Times | Quot | Rem | Plus2 | Minus2 | BAnd | BXor | BOr => utype a || utype b
    | Lsh | Rsh => utype a
    | _ => false
    end
  | ECond _ _ b _ c => utype b || utype c
  end.

Definition fits (v : Z) : bool := (- 2 ^ 63 <=? v) && (v <? 2 ^ 63).
Definition exact (u : bool) (v : Z) : option Z := if u then Some (v mod 2 ^ 64) else if fits v then Some v else None.
Definition conv (u : bool) (v : Z) : Z := if u then v mod 2 ^ 64 else v.
Definition truth (b : bool) : option Z := Some (if b then 1 else 0).

Definition arith (o : binop) (u : bool) (x y : Z) : option Z := (* x and y already converted to the common type *)
  match o with
  | Times => exact u (x * y) | Plus2 => exact u (x + y) | Minus2 => exact u (x - y)
  | Quot => if y =? 0 then None else exact u (Z.quot x y)
  | Rem => if y =? 0 then None else if u || fits (Z.quot x y) then Some (Z.rem x y) else None
  | BAnd => Some (Z.land x y) | BXor => Some (Z.lxor x y) | BOr => Some (Z.lor x y)
  | Lt => truth (x <? y) | Gt => truth (y <? x) | Le => truth (x <=? y) | Ge => truth (y <=? x)
  | Equal => truth (x =? y) | NEqual => truth (negb (x =? y))
  | _ => None
  end.
Definition shifted (left : bool) (u : bool) (x n : Z) : option Z :=
  if (n <? 0) || (64 <=? n) then None
  else if left then if negb u && (x <? 0) then None else exact u (x * 2 ^ n)
  else Some (x / 2 ^ n).

(* the value of an expression; None if it is undefined *)
Fixpoint val (e : expr) : option Z :=
  match e with
  | ELeaf _ _ v => Some v
  | EParen _ e _ => val e
  | EUn o _ e =>
    match val e with
    | None => None
    | Some v => match o with
      | Plus => Some v
      | Minus => exact (utype e) (- v)
      | Compl => exact (utype e) (- v - 1)
      | Not => truth (v =? 0)
      end
    end
  | EBin LAnd a _ b =>
    match val a with
    | None => None
    | Some x => if x =? 0 then Some 0 else match val b with None => None | Some y => truth (negb (y =? 0)) end
    end
  | EBin LOr a _ b =>
    match val a with
    | None => None
    | Some x => if x =? 0 then match val b with None => None | Some y => truth (negb (y =? 0)) end else Some 1
    end
  | EBin o a _ b =>
    match val a, val b with
    | Some x, Some y =>
      match o with
      | Lsh => shifted true (utype a) x y
      | Rsh => shifted false (utype a) x y
      | _ => let u := utype a || utype b in arith o u (conv u x) (conv u y)
      end
    | _, _ => None
    end
  | ECond a _ b _ c =>
    match val a with
    | None => None
    | Some x => match (if x =? 0 then val c else val b) with None => None | Some y => Some (conv (utype b || utype c) y) end
    end
  end.

(* The expressions of the theorem; what is left out is refuted in IfProps.v:
   - every part has a value, also one that is not evaluated;
   - the operand of ! is signed, and the right operand of a shift is not unsigned if the left one is signed;
   - == and != are not chained, nor is |;
   - an octal or hexadecimal constant from 2^31 to 2^32-1 has a suffix;
   - a name is not that of a macro, and a keyword is one of those the tokeniser marks as expandable. *)
Section Plain.
Variable ismacro : list Z -> bool.
Definition plain_leaf (t : tok) (u : bool) (v : Z) : Prop :=
  (tt t = T_PREP_NUMBER -> u = false -> 2 ^ 31 <= v < 2 ^ 32 -> hd 0 (spell t) <> 48 \/ In 108 (spell t) \/ In 76 (spell t)) /\
  (tt t <> T_PREP_NUMBER -> tt t <> T_PREP_CHAR -> ismacro (spell t) = false /\ (tt t = T_IDENTIFIER \/ expandable t = true)).
Fixpoint plain (e : expr) : Prop :=
  val e <> None /\
  match e with
  | ELeaf t u v => plain_leaf t u v
  | EParen _ e _ => plain e
  | EUn o _ e => plain e /\ (o = Not -> utype e = false)
  | EBin o a _ b => plain a /\ plain b /\
    match o with
    | Lsh | Rsh => utype a = true \/ utype b = false
    | Equal | NEqual => Derives 5 a
    | BOr => Derives 8 a
    | _ => True
    end
  | ECond a _ b _ c => plain a /\ plain b /\ plain c
  end.
End Plain.
