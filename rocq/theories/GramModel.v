(* The parser of expressions.  src/parser/expression.c.  The functions there call the eval_* functions on the operands as they
   read them; a tree here records which of these calls are made on which operands (what they do is in CfgModel.v, EvalModel.v and
   ArithModel.v).  Not modelled: errors found in the types of operands, except that of a function that is called;
   builtin functions (75); the declaration of a function by its call in C89 (281-291). *)
From Coq Require Import List ZArith Bool.
Import ListNotations.

(* token.h: the tokens that occur in expressions.  Ty: the keywords of a type without pointers, as `unsigned long` or
   `struct x`, taken as one token (C39, C48).  Init: an initializer from { to }, taken as one token (C35).
   End: anything else, for example a semicolon. *)
Inductive punct :=
| LP | RP | LB | RB | DOT | ARROW | INCR | DECR | AMP | STAR | PLUS | MINUS | TILDE | BANG | SLASH | PERCENT | LSHIFT | RSHIFT
| LT | GT | LEQ | GEQ | EQ | NEQ | CARET | BAR | AND2 | OR2 | QUEST | COLON | COMMA
| ASG | MUL_ASG | DIV_ASG | MOD_ASG | ADD_ASG | SUB_ASG | SHL_ASG | SHR_ASG | AND_ASG | XOR_ASG | OR_ASG.
Inductive tok := Id (x : nat) | Num (z : Z) | Str (i : nat) | Init (i : nat) | Ty (i : nat) | SIZEOF | ALIGNOF | P (p : punct) | End (i : nat).

Inductive unop := Addr | Deref | Pos | Neg | Compl | Not.
Inductive binop := Mul | Div | Mod | Add | Sub | Shl | Shr | Lt | Gt | Le | Ge | Eq | Ne | BAnd | BXor | BOr | LAnd | LOr.
Inductive step_op := Inc | Dec.
(* a type name: its first token, and how many stars follow *)
Record tname := TN { base : tok; stars : nat }.
Inductive tree :=
| Leaf (t : tok) | Paren (e : tree) | Lit (t : tname) (i : nat)
| Index (a b : tree) | Call (f : tree) (l : trees) | Member (a : tree) (x : nat) | Via (a : tree) (x : nat) | Post (o : step_op) (a : tree)
| Pre (o : step_op) (a : tree) | Un (o : unop) (a : tree) | SizeE (a : tree) | SizeT (t : tname) | AlignT (t : tname)
| Cast (t : tname) (a : tree)
| Bin (o : binop) (a b : tree) | Cond (a b c : tree) | Assign (o : option binop) (a b : tree) | Seq (a b : tree)
with trees := TNil | TCons (e : tree) (l : trees).
Fixpoint snoc (l : trees) (e : tree) : trees := match l with TNil => TCons e TNil | TCons a l => TCons a (snoc l e) end.

(* the functions of expression.c; the number of a binary operator's function is its level: 3 multiplicative_expression, 4 additive,
   5 shift, 6 relational, 7 equality, 8 and, 9 exclusive_or, 10 inclusive_or.  GPostfix, GLoop and GSeq are the loops in
   postfix, the binary functions and expression, with what has been read before. *)
Inductive goal :=
| GPrimary | GPostfix (e : tree) | GArgs (f : tree) (acc : trees) (n : nat) (va : bool) | GUnary | GCast
| GBin (k : nat) | GLoop (k : nat) (e : tree) | GAnd | GOr | GCond | GAssign | GExpr | GSeq (e : tree).

(* POk: the tree and the tokens left; PErr: an error is reported *)
Inductive res := POk (e : tree) (ts : list tok) | PErr | PFuel.
Definition bind (x : res) (f : tree -> list tok -> res) : res := match x with POk e ts => f e ts | PErr => PErr | PFuel => PFuel end.
Notation "'read' e q <- x ; f" := (bind x (fun e q => f)) (at level 200, e name, q name, x at level 100, f at level 200).

(* sym_lookup, src/parser/symtab.c: a typedef, something else that is declared, or nothing *)
Inductive cls := Typedef | Ordinary | Unknown.

Section Parser.
Variable class : nat -> cls.
(* the type of an expression: None if it is no function and no pointer to one, else nmembers and is_vararg of the function *)
Variable sig : tree -> option (nat * bool).

(* declaration.h:39-48 FIRST(type_name), expression.c:379-384, 492-497 *)
Definition starts_type (t : tok) : bool :=
  match t with Ty _ => true | Id x => match class x with Typedef => true | _ => false end | _ => false end.
(* expression.c:386-389, 412-415, 499-502: declaration_specifiers and declarator, for pointers.  Without keywords the type is int,
   as in _Alignof(); this is not modelled. *)
Fixpoint count_stars (ts : list tok) : nat * list tok :=
  match ts with P STAR :: q => let (n, r) := count_stars q in (S n, r) | _ => (0, ts) end.
Definition type_name (ts : list tok) (k : tname -> list tok -> res) : res :=
  match ts with
  | t :: q =>
    if starts_type t then let (n, q) := count_stars q in match q with P RP :: q => k (TN t n) q | _ => PErr end else PErr
  | [] => PErr
  end.
(* peek() == '(' and the token after it begins a type name *)
Definition paren_type (ts : list tok) : option (list tok) :=
  match ts with P LP :: (t :: _) as q => if starts_type t then Some q else None | _ => None end.

(* expression.c:532-544 ... 718-729: the operators of each function *)
Definition binop_at (k : nat) (p : punct) : option binop :=
  match k, p with
  | 3, STAR => Some Mul | 3, SLASH => Some Div | 3, PERCENT => Some Mod
  | 4, PLUS => Some Add | 4, MINUS => Some Sub
  | 5, LSHIFT => Some Shl | 5, RSHIFT => Some Shr
  | 6, LT => Some Lt | 6, GT => Some Gt | 6, LEQ => Some Le | 6, GEQ => Some Ge
  | 7, EQ => Some Eq | 7, NEQ => Some Ne
  | 8, AMP => Some BAnd | 9, CARET => Some BXor | 10, BAR => Some BOr
  | _, _ => None
  end.
(* expression.c:924-985: None for = *)
Definition assign_at (p : punct) : option (option binop) :=
  match p with
  | ASG => Some None | MUL_ASG => Some (Some Mul) | DIV_ASG => Some (Some Div) | MOD_ASG => Some (Some Mod) | ADD_ASG => Some (Some Add)
  | SUB_ASG => Some (Some Sub) | AND_ASG => Some (Some BAnd) | OR_ASG => Some (Some BOr) | XOR_ASG => Some (Some BXor)
  | SHR_ASG => Some (Some Shr) | SHL_ASG => Some (Some Shl)
  | _ => None
  end.
Definition sub (k : nat) : goal := if Nat.leb k 3 then GCast else GBin (pred k).

(* r: the functions that are called *)
Definition step (r : goal -> list tok -> res) (g : goal) (ts : list tok) : res :=
  match g with
  | GPrimary =>                                            (* expression.c:64-104 primary_expression *)
    match ts with
    | Id x :: q => match class x with Unknown => PErr | _ => POk (Leaf (Id x)) q end
    | Num z :: q => POk (Leaf (Num z)) q
    | Str i :: q => POk (Leaf (Str i)) q
    | P LP :: q => read e q <- r GExpr q; match q with P RP :: q => POk (Paren e) q | _ => PErr end
    | _ => PErr
    end
  | GPostfix e =>                                          (* expression.c:136-266 postfix *)
    match ts with
    | P LB :: q => read b q <- r GExpr q; match q with P RB :: q => r (GPostfix (Index e b)) q | _ => PErr end
    | P LP :: q => match sig e with Some (n, va) => r (GArgs e TNil n va) q | None => PErr end
    | P DOT :: q => match q with Id x :: q => r (GPostfix (Member e x)) q | _ => PErr end
    | P ARROW :: q => match q with Id x :: q => r (GPostfix (Via e x)) q | _ => PErr end
    | P INCR :: q => r (GPostfix (Post Inc e)) q
    | P DECR :: q => r (GPostfix (Post Dec e)) q
    | _ => POk e ts
    end
  | GArgs f acc n va =>                                    (* expression.c:177-198; n arguments are missing *)
    match n with
    | S m =>
      match ts with
      | P RP :: _ => PErr
      | _ =>
        read a q <- r GAssign ts;
        match m, q with
        | O, _ => r (GArgs f (snoc acc a) O va) q
        | S _, P COMMA :: q => r (GArgs f (snoc acc a) m va) q
        | _, _ => PErr
        end
      end
    | O =>
      match ts with
      | P RP :: q => r (GPostfix (Call f acc)) q
      | P COMMA :: q => if va then read a q <- r GAssign q; r (GArgs f (snoc acc a) O va) q else PErr
      | _ => PErr
      end
    end
  | GUnary =>                                              (* expression.c:296-448 unary_expression, 268-294 postfix_expression *)
    match ts with
    | P AMP :: q => read e q <- r GCast q; POk (Un Addr e) q
    | P STAR :: q => read e q <- r GCast q; POk (Un Deref e) q
    | P BANG :: q => read e q <- r GCast q; POk (Un Not e) q
    | P TILDE :: q => read e q <- r GCast q; POk (Un Compl e) q
    | P PLUS :: q => read e q <- r GCast q; POk (Un Pos e) q
    | P MINUS :: q => read e q <- r GCast q; POk (Un Neg e) q
    | SIZEOF :: q =>
      match paren_type q with
      | Some q => type_name q (fun t q => POk (SizeT t) q)
      | None => read e q <- r GUnary q; POk (SizeE e) q
      end
    | ALIGNOF :: q => match q with P LP :: q => type_name q (fun t q => POk (AlignT t) q) | _ => PErr end
    | P INCR :: q => read e q <- r GUnary q; POk (Pre Inc e) q
    | P DECR :: q => read e q <- r GUnary q; POk (Pre Dec e) q
    | _ => read e q <- r GPrimary ts; r (GPostfix e) q
    end
  | GCast =>                                               (* expression.c:481-521 cast_expression *)
    match paren_type ts with
    | Some q =>
      type_name q (fun t q =>
        match q with
        | Init i :: q => r (GPostfix (Lit t i)) q
        | _ => read e q <- r GCast q; POk (Cast t e) q
        end)
    | None => r GUnary ts
    end
  | GBin k => read e q <- r (sub k) ts; r (GLoop k e) q    (* expression.c:523-729 *)
  | GLoop k e =>
    match ts with
    | P p :: q =>
      match binop_at k p with
      | Some o => read b q <- r (sub k) q; r (GLoop k (Bin o e b)) q
      | None => POk e ts
      end
    | _ => POk e ts
    end
  | GAnd =>                                                (* expression.c:731-783 logical_and_expression *)
    read a q <- r (GBin 10) ts;
    match q with P AND2 :: q => read b q <- r GAnd q; POk (Bin LAnd a b) q | _ => POk a q end
  | GOr =>                                                 (* expression.c:785-837 logical_or_expression *)
    read a q <- r GAnd ts;
    match q with P OR2 :: q => read b q <- r GOr q; POk (Bin LOr a b) q | _ => POk a q end
  | GCond =>                                               (* expression.c:839-912 conditional_expression *)
    read a q <- r GOr ts;
    match q with
    | P QUEST :: q =>
      read b q <- r GExpr q;
      match q with P COLON :: q => read c q <- r GCond q; POk (Cond a b c) q | _ => PErr end
    | _ => POk a q
    end
  | GAssign =>                                             (* expression.c:914-985 assignment_expression *)
    read a q <- r GCond ts;
    match q with
    | P p :: q' => match assign_at p with Some o => read b q <- r GAssign q'; POk (Assign o a b) q | None => POk a q end
    | _ => POk a q
    end
  | GExpr => read a q <- r GAssign ts; r (GSeq a) q        (* expression.c:1000-1012 expression *)
  | GSeq a => match ts with P COMMA :: q => read b q <- r GAssign q; r (GSeq (Seq a b)) q | _ => POk a ts end
  end.

Fixpoint parse (fuel : nat) (g : goal) (ts : list tok) : res :=
  match fuel with O => PFuel | S f => step (parse f) g ts end.
(* expression.c:1000 expression; more fuel than steps are made (GramProofs.v) *)
Definition expression (ts : list tok) : res := parse (40 * S (length ts)) GExpr ts.
End Parser.
