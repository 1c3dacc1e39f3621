(* Assignment to objects: src/parser/eval.c:1639-1712, 1757-1800, src/parser/expression.c:253-270, 429-442, 913-983.

   Left out, besides what PtrModel.v leaves out: assignment of string literals to arrays, which only initializers come to (C24);
   operands that have effects themselves. *)
From Coq Require Import List Bool Arith ZArith.
From Verif Require Import Util PtrModel.
Import ListNotations.
Open Scope Z_scope.

(* ir.h:126-160 struct statement, IR_ASSIGN to something that is not a temporary *)
Record store := mkStore { target : var; source : expr }.
(* ir.h:123 is_immediate *)
Definition is_immediate (e : expr) : bool := is_identity e && is_imm (e_l e).

Section Tags.
Variable G : tagged.
(* eval.c:1639-1673 eval_prepare_assign_pointer; other integers than 0, and pointers to another type, only cause a warning *)
Definition prepare_pointer (e : expr) (t : cty) : M expr :=
  if is_pointer (e_type e) || is_integer (e_type e) then ret (mkE (e_op e) t (if is_identity e then retype (e_l e) t else e_l e) (e_r e)) else stop.
(* eval.c:1675-1712 eval_prepare_assign *)
Definition eval_prepare_assign (e : expr) (t : cty) : M expr :=
  let* e := (if is_identity e then let* v := rvalue G (e_l e) in ret (as_expr v) else ret e) in
  if is_pointer t then prepare_pointer e t
  else if is_integer t && is_integer (e_type e) then
    if is_immediate e then let* v := cast_operand G (e_l e) t in ret (as_expr v)
    else if negb (type_equal t (e_type e)) then let* v := eval e in eval_cast G v t
    else ret e
  else match t, e_type e with TStr i, TStr j => if Nat.eqb i j then ret e else stop | _, _ => stop end.
(* eval.c:1757-1785 eval_assign; what it stores, and its result *)
Definition eval_assign (v : var) (e : expr) : M (store * var) :=
  if negb (lvalue v) then stop
  else
    match vtype v with
    | TArr _ _ => bad
    | t =>
        let* e := eval_prepare_assign e t in
        ret (mkStore v e, if is_immediate e then e_l e else mkV (kind v) t (sym v) (offset v) (imm v) false)
    end.
(* eval.c:1787-1800 eval_copy *)
Definition eval_copy (v : var) : M var := let* v := rvalue G v in assign_tmp (vtype v) (as_expr v).

(* Expressions that assign *)
Inductive assignment :=
| Simple (a b : exp)              (* a = b *)
| Compound (o : bop) (a b : exp)  (* a += b, and so on *)
| Prefix (up : bool) (a : exp)    (* ++a, --a *)
| Postfix (up : bool) (a : exp).  (* a++, a-- *)
Definition by_one (up : bool) (v : var) : M expr := if up then eval_add G v (var_int 1) else eval_sub G v (var_int 1).
(* expression.c:923-983; comparisons cannot be written so *)
Definition operation (o : bop) (l r : var) : M expr :=
  match o with
  | Lt | Gt | Le | Ge | Eq | Ne => stop
  | Add => eval_add G l r | Sub => eval_sub G l r | Mul => eval_mul G l r | Div => eval_div G l r | Mod => eval_mod G l r
  | And => eval_and G l r | Or => eval_or G l r | Xor => eval_xor G l r | Shl => eval_lshift G l r | Shr => eval_rshift G l r
  end.
Definition compile_assignment (s : assignment) : M (store * var) :=
  match s with
  | Simple a b =>                                                               (* expression.c:913-983 *)
      let* x := compile G a in let* v := eval x in
      let* e := compile G b in eval_assign v e
  | Compound o a b =>
      let* x := compile G a in let* v := eval x in
      let* y := compile G b in let* u := eval y in
      let* e := operation o v u in eval_assign v e
  | Prefix up a => let* x := compile G a in let* v := eval x in let* e := by_one up v in eval_assign v e       (* 429-442 *)
  | Postfix up a =>                                                             (* 253-270 *)
      let* x := compile G a in let* v := eval x in
      let* c := eval_copy v in
      let* e := by_one up v in
      let* r := eval_assign v e in ret (fst r, c)
  end.

(* ---- What the statement means ---- *)
Definition put (m : Z -> Z) (a n z : Z) : Z -> Z := fun x => if (a <=? x) && (x <? a + n) then (z / 2 ^ (8 * (x - a))) mod 256 else m x.
(* A number is stored with the size of its type; structs are copied (C30).  Target and expression are of one type. *)
Definition perform (w : world) (T : temps) (s : store) : option world :=
  let t := vtype (target s) in
  if negb (type_equal (e_type (source s)) t) then None
  else
    match location w T (target s) with
    | None => None
    | Some a =>
        match t with
        | TStr _ =>
            if is_identity (source s) then
              option_map (fun b => mkW (fun x => if (a <=? x) && (x <? a + size_of G t) then mem w (b + (x - a)) else mem w x) (addr w)) (location w T (e_l (source s)))
            else None
        | TInt _ _ | TPtr _ => option_map (fun z => mkW (put (mem w) a (size_of G t) z) (addr w)) (meaning G w T (source s))
        | _ => None
        end
    end.
(* statement.c:73-80, 537-660: assignments that are statements, one after another.  Their code goes to the same block; here it is kept in
   parts, each of which ends with the store.  eval.c:302-319 eval_expression_statement adds nothing for what is left of an assignment. *)
Fixpoint compile_all (ss : list assignment) (n : nat) : outcome (list (list stmt * store) * nat) :=
  match ss with
  | [] => Ok ([], n)
  | s :: ss =>
      match compile_assignment s (n, []) with
      | Ok ((st, _), (n, l)) =>
          match compile_all ss n with
          | Ok (c, n) => Ok ((l, st) :: c, n)
          | Stop => Stop
          | Bad => Bad
          end
      | Stop => Stop
      | Bad => Bad
      end
  end.
Fixpoint run_all (w : world) (T : temps) (c : list (list stmt * store)) : option (world * temps) :=
  match c with
  | [] => Some (w, T)
  | (l, st) :: c =>
      match run G w l T with
      | Some T => match perform w T st with Some w => run_all w T c | None => None end
      | None => None
      end
  end.
End Tags.
