(* Expressions and statements of a C function, over an arbitrary domain of values and memories.  Names of variables,
   labels, types and operators are numbers. *)
From Coq Require Import ZArith List.

(* C relational operators *)
Inductive relop := Req | Rne | Rlt | Rgt | Rle | Rge.

(* What the values of a program are, and what the parts of a program which are of no interest here do: any choice
   will do, subject to [lawful] (CfgSpec.v). *)
Record lang := Lang {
  val : Type;
  mem : Type;
  rdv : Z -> mem -> val;                       (* value of a variable *)
  wrv : Z -> val -> mem -> mem;                (* store to a variable *)
  asx : Z -> val -> val;                       (* conversion to the type of a variable *)
  castv : Z -> val -> val;                     (* conversion to a type *)
  binv : Z -> val -> val -> val;               (* binary operators *)
  relv : relop -> val -> val -> bool;          (* comparison *)
  callv : val -> list val -> mem -> val * mem; (* function calls *)
  int01 : bool -> val;                         (* (int) 0 and 1 *)
  voidv : val;
  casev : val -> val -> val                    (* a case constant, in the promoted type of the controlling value *)
}.

Section Syntax.
Variable L : lang.

(* Effects that can be seen: stores to variables, calls *)
Inductive effect := Write (x : Z) (v : val L) | Call (f : val L) (l : list (val L)).

Inductive expr :=
| EConst (v : val L)
| EVar (x : Z)
| EOp (o : Z) (a b : expr)
| ERel (r : relop) (a b : expr)
| ENot (a : expr)
| EAnd (a b : expr)
| EOr (a b : expr)
| ECond (t : option Z) (a b c : expr)   (* a ? b : c with type t; None is void *)
| EComma (a b : expr)
| ECast (t : option Z) (a : expr)
| EAssign (x : Z) (a : expr)
| EPost (o : Z) (x : Z) (v : val L)     (* x++ and x--: operator and the constant one *)
| ECall (void : bool) (f : expr) (l : exprs)
with exprs := ANil | ACons (a : expr) (l : exprs).

Inductive stmt :=
| SSkip
| SExpr (e : expr)
| SSeq (a b : stmt)
| SIf (e : expr) (a : stmt)
| SIfElse (e : expr) (a b : stmt)
| SDo (a : stmt) (e : expr)
| SWhile (e : expr) (a : stmt)
| SFor (init cond inc : option expr) (a : stmt)
| SSwitch (e : expr) (a : stmt)
| SCase (v : val L) (a : stmt)
| SDefault (a : stmt)
| SLabel (l : Z) (a : stmt)
| SGoto (l : Z)
| SBreak
| SContinue
| SReturn (e : option (Z * expr)).      (* with the return type *)

(* A function body; [main]: falling off the end returns 0 (main since C99) *)
Record func := Func { body : stmt; main : bool; int_ty : Z }.
End Syntax.

Arguments Write {L}. Arguments Call {L}. Arguments EConst {L}. Arguments EVar {L}. Arguments EOp {L}. Arguments ERel {L}. Arguments ENot {L}. Arguments EAnd {L}.
Arguments EOr {L}. Arguments ECond {L}. Arguments EComma {L}. Arguments ECast {L}. Arguments EAssign {L}. Arguments EPost {L}.
Arguments ECall {L}. Arguments ANil {L}. Arguments ACons {L}.
Arguments SSkip {L}. Arguments SExpr {L}. Arguments SSeq {L}. Arguments SIf {L}. Arguments SIfElse {L}. Arguments SDo {L}.
Arguments SWhile {L}. Arguments SFor {L}. Arguments SSwitch {L}. Arguments SCase {L}. Arguments SDefault {L}.
Arguments SLabel {L}. Arguments SGoto {L}. Arguments SBreak {L}. Arguments SContinue {L}. Arguments SReturn {L}.
Arguments Func {L}. Arguments body {L}. Arguments main {L}. Arguments int_ty {L}.

Scheme expr_mut := Induction for expr Sort Prop
  with exprs_mut := Induction for exprs Sort Prop.
Combined Scheme expr_exprs from expr_mut, exprs_mut.

(* Comparing to zero: the condition of if, while, ... *)
Definition truth (L : lang) (v : val L) : bool := relv L Rne v (int01 L false).
