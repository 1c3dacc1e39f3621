(* The grammar of expressions in C (C99 6.5.1 - 6.5.17). *)
From Coq Require Import List ZArith Bool.
From Verif Require Import GramModel.
Import ListNotations.

(* --- spelling --- *)
Definition un_tok (o : unop) : punct := match o with Addr => AMP | Deref => STAR | Pos => PLUS | Neg => MINUS | Compl => TILDE | Not => BANG end.
Definition step_tok (o : step_op) : punct := match o with Inc => INCR | Dec => DECR end.
Definition bin_tok (o : binop) : punct :=
  match o with
  | Mul => STAR | Div => SLASH | Mod => PERCENT | Add => PLUS | Sub => MINUS | Shl => LSHIFT | Shr => RSHIFT
  | Lt => LT | Gt => GT | Le => LEQ | Ge => GEQ | Eq => EQ | Ne => NEQ | BAnd => AMP | BXor => CARET | BOr => BAR | LAnd => AND2 | LOr => OR2
  end.
(* 6.5.16: an assignment operator is = or a binary operator followed by =; there is none for comparisons and && || *)
Definition assign_tok (o : option binop) : option punct :=
  match o with
  | None => Some ASG
  | Some Mul => Some MUL_ASG | Some Div => Some DIV_ASG | Some Mod => Some MOD_ASG | Some Add => Some ADD_ASG | Some Sub => Some SUB_ASG
  | Some Shl => Some SHL_ASG | Some Shr => Some SHR_ASG | Some BAnd => Some AND_ASG | Some BXor => Some XOR_ASG | Some BOr => Some OR_ASG
  | Some _ => None
  end.
Definition tname_toks (t : tname) : list tok := P LP :: base t :: repeat (P STAR) (stars t) ++ [P RP].
Fixpoint toks (e : tree) : list tok :=
  match e with
  | Leaf t => [t]
  | Paren e => P LP :: toks e ++ [P RP]
  | Lit t i => tname_toks t ++ [Init i]
  | Index a b => toks a ++ P LB :: toks b ++ [P RB]
  | Call f l => toks f ++ P LP :: args_toks true l ++ [P RP]
  | Member a x => toks a ++ [P DOT; Id x]
  | Via a x => toks a ++ [P ARROW; Id x]
  | Post o a => toks a ++ [P (step_tok o)]
  | Pre o a => P (step_tok o) :: toks a
  | Un o a => P (un_tok o) :: toks a
  | SizeE a => SIZEOF :: toks a
  | SizeT t => SIZEOF :: tname_toks t
  | AlignT t => ALIGNOF :: tname_toks t
  | Cast t a => tname_toks t ++ toks a
  | Bin o a b => toks a ++ P (bin_tok o) :: toks b
  | Cond a b c => toks a ++ P QUEST :: toks b ++ P COLON :: toks c
  | Assign o a b => toks a ++ match assign_tok o with Some p => [P p] | None => [] end ++ toks b
  | Seq a b => toks a ++ P COMMA :: toks b
  end
with args_toks (first : bool) (l : trees) : list tok :=
  match l with TNil => [] | TCons e l => (if first then [] else [P COMMA]) ++ toks e ++ args_toks false l end.

(* --- grammar --- *)
(* The nonterminals: 0 postfix-expression, 1 unary-expression, 2 cast-expression, 3 multiplicative-expression, ...,
   10 inclusive-OR-expression, 11 logical-AND-expression, 12 logical-OR-expression, 13 conditional-expression,
   14 assignment-expression, 15 expression. *)
Definition level (o : binop) : nat :=
  match o with
  | Mul | Div | Mod => 3 | Add | Sub => 4 | Shl | Shr => 5 | Lt | Gt | Le | Ge => 6 | Eq | Ne => 7
  | BAnd => 8 | BXor => 9 | BOr => 10 | LAnd => 11 | LOr => 12
  end.
Section Grammar.
Variable class : nat -> cls.
Definition tname_ok (t : tname) : Prop := match base t with Ty _ => True | Id x => class x = Typedef | _ => False end.
(* strict: the grammar of C.  Otherwise a typedef name may stand for an operand, and the left side of an assignment may be
   any conditional-expression. *)
Fixpoint Derives (strict : bool) (k : nat) (e : tree) : Prop :=
  match e with
  | Leaf t => match t with Id x => if strict then class x = Ordinary else class x <> Unknown | Num _ | Str _ => True | _ => False end
  | Paren e => Derives strict 15 e
  | Lit t _ => tname_ok t
  | Index a b => Derives strict 0 a /\ Derives strict 15 b
  | Call f l => Derives strict 0 f /\ Derives_all strict l
  | Member a _ | Via a _ | Post _ a => Derives strict 0 a
  | Pre _ a | SizeE a => 1 <= k /\ Derives strict 1 a
  | Un _ a => 1 <= k /\ Derives strict 2 a
  | SizeT t | AlignT t => 1 <= k /\ tname_ok t
  | Cast t a => 2 <= k /\ tname_ok t /\ Derives strict 2 a
  | Bin o a b => level o <= k /\ Derives strict (level o) a /\ Derives strict (pred (level o)) b
  | Cond a b c => 13 <= k /\ Derives strict 12 a /\ Derives strict 15 b /\ Derives strict 13 c
  | Assign o a b => 14 <= k /\ assign_tok o <> None /\ Derives strict (if strict then 1 else 13) a /\ Derives strict 14 b
  | Seq a b => 15 <= k /\ Derives strict 15 a /\ Derives strict 14 b
  end
with Derives_all (strict : bool) (l : trees) : Prop :=
  match l with TNil => True | TCons e l => Derives strict 14 e /\ Derives_all strict l end.
End Grammar.

(* --- trees up to the grouping of chains of && and of || (they have the same value, GramProps.v) --- *)
(* a && (b && c)  for  (a && b) && c *)
Fixpoint graft (o : binop) (t z : tree) : tree :=
  match t with
  | Bin p x y => match o, p with LAnd, LAnd | LOr, LOr => Bin p x (graft o y z) | _, _ => Bin o t z end
  | _ => Bin o t z
  end.
Fixpoint norm (e : tree) : tree :=
  match e with
  | Leaf _ | Lit _ _ | SizeT _ | AlignT _ => e
  | Paren a => Paren (norm a)
  | Index a b => Index (norm a) (norm b)
  | Call f l => Call (norm f) (norms l)
  | Member a x => Member (norm a) x
  | Via a x => Via (norm a) x
  | Post o a => Post o (norm a)
  | Pre o a => Pre o (norm a)
  | Un o a => Un o (norm a)
  | SizeE a => SizeE (norm a)
  | Cast t a => Cast t (norm a)
  | Bin o a b => match o with LAnd | LOr => graft o (norm a) (norm b) | _ => Bin o (norm a) (norm b) end
  | Cond a b c => Cond (norm a) (norm b) (norm c)
  | Assign o a b => Assign o (norm a) (norm b)
  | Seq a b => Seq (norm a) (norm b)
  end
with norms (l : trees) : trees := match l with TNil => TNil | TCons e l => TCons (norm e) (norms l) end.

(* Two trees that differ in the grouping of such chains only *)
Inductive regroup : tree -> tree -> Prop :=
| RG_and a b c : regroup (Bin LAnd (Bin LAnd a b) c) (Bin LAnd a (Bin LAnd b c))
| RG_or a b c : regroup (Bin LOr (Bin LOr a b) c) (Bin LOr a (Bin LOr b c))
| RG_refl a : regroup a a
| RG_sym a b : regroup a b -> regroup b a
| RG_trans a b c : regroup a b -> regroup b c -> regroup a c
| RG_paren a b : regroup a b -> regroup (Paren a) (Paren b)
| RG_index a a' b b' : regroup a a' -> regroup b b' -> regroup (Index a b) (Index a' b')
| RG_call f f' l l' : regroup f f' -> regroups l l' -> regroup (Call f l) (Call f' l')
| RG_member a b x : regroup a b -> regroup (Member a x) (Member b x)
| RG_via a b x : regroup a b -> regroup (Via a x) (Via b x)
| RG_post o a b : regroup a b -> regroup (Post o a) (Post o b)
| RG_pre o a b : regroup a b -> regroup (Pre o a) (Pre o b)
| RG_un o a b : regroup a b -> regroup (Un o a) (Un o b)
| RG_size a b : regroup a b -> regroup (SizeE a) (SizeE b)
| RG_cast t a b : regroup a b -> regroup (Cast t a) (Cast t b)
| RG_bin o a a' b b' : regroup a a' -> regroup b b' -> regroup (Bin o a b) (Bin o a' b')
| RG_cond a a' b b' c c' : regroup a a' -> regroup b b' -> regroup c c' -> regroup (Cond a b c) (Cond a' b' c')
| RG_assign o a a' b b' : regroup a a' -> regroup b b' -> regroup (Assign o a b) (Assign o a' b')
| RG_seq a a' b b' : regroup a a' -> regroup b b' -> regroup (Seq a b) (Seq a' b')
with regroups : trees -> trees -> Prop :=
| RG_nil : regroups TNil TNil
| RG_cons a b l m : regroup a b -> regroups l m -> regroups (TCons a l) (TCons b m).

(* --- what the theorem asks for besides the grammar --- *)
Fixpoint count (l : trees) : nat := match l with TNil => 0 | TCons _ l => S (count l) end.
(* begins with a compound literal *)
Fixpoint lit_first (e : tree) : bool :=
  match e with
  | Lit _ _ => true
  | Index a _ | Call a _ | Member a _ | Via a _ | Post _ a => lit_first a
  | _ => false
  end.
Section Calls.
Variable sig : tree -> option (nat * bool).
(* Every call has as many arguments as the function has parameters, or at least as many if the parameters end with an ellipsis;
   sizeof, ++ and -- do not stand before a compound literal without parentheses. *)
Fixpoint plain (e : tree) : Prop :=
  match e with
  | Leaf _ | Lit _ _ | SizeT _ | AlignT _ => True
  | Paren a | Member a _ | Via a _ | Post _ a | Un _ a | Cast _ a => plain a
  | Pre _ a | SizeE a => lit_first a = false /\ plain a
  | Index a b | Bin _ a b | Assign _ a b | Seq a b => plain a /\ plain b
  | Call f l =>
    plain f /\ plains l /\
    exists n va, sig (norm f) = Some (n, va) /\ if va : bool then 1 <= n <= count l else count l = n
  | Cond a b c => plain a /\ plain b /\ plain c
  end
with plains (l : trees) : Prop := match l with TNil => True | TCons e l => plain e /\ plains l end.
End Calls.

(* The token after an expression: not one that could continue it. *)
Definition continues (t : tok) : bool :=
  match t with
  | P p => match p with RP | RB | COLON | TILDE | BANG => false | _ => true end
  | Init _ => true
  | _ => false
  end.
(* of the first token, if there is one *)
Definition hd_is (f : tok -> bool) (ts : list tok) : bool := match ts with t :: _ => f t | [] => false end.
