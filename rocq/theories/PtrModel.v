(* Expressions of integers, objects and pointers: src/parser/eval.c:203-237, 321-340, 417-482, 512-1186, 1212-1243, 1313-1488,
   1757-1785, src/parser/expression.c:75-85, 150-167, 213-252, 317-372, 483-718.

   Left out: bit-fields (C18), functions, arrays of variable length, string literals, floating types, bool, qualifiers, casts to
   void, enumeration constants; && || ?: and the comma (C23), sizeof. *)
From Coq Require Import List Bool Arith ZArith.
From Verif Require Import Util.
Import ListNotations.
Open Scope Z_scope.

(* Types.  An integer has its size in bytes and whether it is signed; a struct or union is a number, by which its size and its
   members with their offsets are found (C13). *)
Inductive cty :=
| TVoid
| TInt (size : Z) (signed : bool)
| TPtr (t : cty)
| TArr (n : Z) (t : cty)
| TStr (id : nat).
(* typetree.c struct typetree, for structs and unions: the size, and the members *)
Definition tagged := nat -> Z * list (nat * (Z * cty)).
(* typetree.c:1146-1175 size_of, without wrapping *)
Fixpoint size_of (G : tagged) (t : cty) : Z :=
  match t with TVoid => 0 | TInt s _ => s | TPtr _ => 8 | TArr n t => n * size_of G t | TStr i => fst (G i) end.
(* typetree.c:971-999 type_equal; here a struct is equal to itself only (C53 has what the code does) *)
Fixpoint type_equal (a b : cty) : bool :=
  match a, b with
  | TVoid, TVoid => true
  | TInt s u, TInt s' u' => (s =? s') && eqb u u'
  | TPtr a, TPtr b => type_equal a b
  | TArr n a, TArr m b => (n =? m) && type_equal a b
  | TStr i, TStr j => Nat.eqb i j
  | _, _ => false
  end.
Definition long : cty := TInt 8 true.
Definition ulong : cty := TInt 8 false.
Definition int : cty := TInt 4 true.
Definition char : cty := TInt 1 true.
Definition is_pointer (t : cty) : bool := match t with TPtr _ => true | _ => false end.
Definition is_integer (t : cty) : bool := match t with TInt _ _ => true | _ => false end.
Definition is_signed (t : cty) : bool := match t with TInt _ true => true | _ => false end.
Definition is_scalar (t : cty) : bool := is_pointer t || is_integer t.

(* ir.h:19-86 struct var.  Symbols: an object of the program, or a temporary; with their type.  The immediate is the 64 bits of
   union value, read as an unsigned number; offset is a size_t *)
Inductive symid := Obj (x : nat) | Tmp (n : nat).
Record symbol := mkSym { s_id : symid; s_type : cty }.
Inductive vkind := IMMEDIATE | DIRECT | ADDRESS | DEREF.
Record var := mkV { kind : vkind; vtype : cty; sym : option symbol; offset : Z; imm : Z; lvalue : bool }.
(* ir.h:88-121 struct expression, with the operators that are used here *)
Inductive op := CAST | NOT | ADD | SUB | MUL | DIV | MOD | AND | OR | XOR | SHL | SHR | EQ | NE | GE | GT.
Record expr := mkE { e_op : op; e_type : cty; e_l : var; e_r : var }.
(* an assignment of an expression to a temporary *)
Record stmt := mkS { s_tmp : nat; s_expr : expr }.

Definition wrap (z : Z) : Z := z mod 2 ^ 64.
Definition signed (z : Z) : Z := let r := wrap z in if r <? 2 ^ 63 then r else r - 2 ^ 64.

(* What compiling comes to: a result with the number of temporaries and the statements there are; a diagnostic and exit(1); a
   failed assertion *)
Inductive outcome (A : Type) := Ok (a : A) | Stop | Bad.
Arguments Ok {A} a. Arguments Stop {A}. Arguments Bad {A}.
Definition st := (nat * list stmt)%type.
Definition M (A : Type) := st -> outcome (A * st).
Definition ret {A} (a : A) : M A := fun s => Ok (a, s).
Definition stop {A} : M A := fun _ => Stop.
Definition bad {A} : M A := fun _ => Bad.
Definition bind {A B} (x : M A) (f : A -> M B) : M B := fun s => match x s with Ok (a, s) => f a s | Stop => Stop | Bad => Bad end.
Notation "'let*' x ':=' a 'in' b" := (bind a (fun x => b)) (at level 200, x pattern, a at level 100, b at level 200).

(* eval.c:138-145 var_numeric, 129-136 var_int, 104-127 var_direct *)
Definition var_numeric (t : cty) (z : Z) : var := mkV IMMEDIATE t None 0 z false.
Definition var_int (z : Z) : var := var_numeric int (wrap z).
Definition var_direct (s : symbol) : var := mkV DIRECT (s_type s) (Some s) 0 0 (match s_id s with Obj _ => true | Tmp _ => false end).
(* eval.c:203-212 as_expr, 227-237 create_binary_expression; ir.h:122 is_identity *)
Definition none : var := var_numeric TVoid 0.
Definition as_expr (v : var) : expr := mkE CAST (vtype v) v none.
Definition binary (o : op) (t : cty) (l r : var) : expr := mkE o t l r.
Definition is_identity (e : expr) : bool := match e_op e with CAST => type_equal (e_type e) (vtype (e_l e)) | _ => false end.
(* eval.c:90-102 create_var and 255-267 ir_assign: a new temporary, to which the expression is assigned *)
Definition assign_tmp (t : cty) (e : expr) : M var :=
  fun '(n, l) => Ok (mkV DIRECT t (Some (mkSym (Tmp n) t)) 0 0 false, (S n, l ++ [mkS n e])).
(* eval.c:321-340 eval *)
Definition eval (e : expr) : M var := if is_identity e then ret (e_l e) else assign_tmp (e_type e) e.

(* eval.c:348-415 convert, for integers and pointers *)
Definition low (size : Z) (z : Z) : Z := z mod 2 ^ (8 * size).
Definition extend (size : Z) (sg : bool) (z : Z) : Z :=
  let r := low size z in if sg && (2 ^ (8 * size - 1) <=? r) then wrap (r - 2 ^ (8 * size)) else r.
Definition convert (z : Z) (to : cty) : Z := match to with TInt s sg => extend s sg z | _ => wrap z end.

Definition retype (v : var) (t : cty) : var := mkV (kind v) t (sym v) (offset v) (imm v) (lvalue v).
Definition is_imm (v : var) : bool := match kind v with IMMEDIATE => true | _ => false end.
Definition is_addr (v : var) : bool := match kind v with ADDRESS => true | _ => false end.
Section Tags.
Variable G : tagged.
(* eval.c:417-440 cast_operand *)
Definition cast_operand (v : var) (t : cty) : M var :=
  if type_equal (vtype v) t then ret v
  else if is_imm v then if offset v =? 0 then ret (var_numeric t (convert (imm v) t)) else bad
  else if (size_of G (vtype v) =? size_of G t) && (is_pointer (vtype v) || is_pointer t) then ret (retype v t)
  else eval (mkE CAST t v none).

(* eval.c:147-187 imm_signed, imm_unsigned *)
Definition imm_int (t : cty) (z : Z) : var := var_numeric t (convert z t).
(* typetree.c:1032-1040 promote_integer, 1055-1080 usual_arithmetic_conversion, for integers *)
Definition promote (t : cty) : cty := if size_of G t <? 4 then int else t.
Definition usual_conversion (a b : cty) : cty :=
  let a := promote a in
  let b := promote b in
  if size_of G b <? size_of G a then a
  else if size_of G a <? size_of G b then b
  else match a with TInt _ false => a | _ => b end.
(* eval.c:512-543 eval_mul *)
Definition eval_mul (l r : var) : M expr :=
  if negb (is_integer (vtype l)) || negb (is_integer (vtype r)) then stop
  else
    let t := usual_conversion (vtype l) (vtype r) in
    let* l := cast_operand l t in
    let* r := cast_operand r t in
    ret (if is_imm l && is_imm r then as_expr (imm_int t (imm l * imm r)) else binary MUL t l r).
(* eval.c:553-589 eval_div, 591-622 eval_mod, 977-1006 eval_or, 1008-1037 eval_xor, 1039-1068 eval_and; what they have in common.
   LONG_MIN / -1 is undefined in the compiler, too (C17). *)
Definition int_operands (l r : var) (f : cty -> var -> var -> expr) : M expr :=
  if negb (is_integer (vtype l)) || negb (is_integer (vtype r)) then stop
  else
    let t := usual_conversion (vtype l) (vtype r) in
    let* l := cast_operand l t in
    let* r := cast_operand r t in
    ret (f t l r).
Definition eval_div (l r : var) : M expr :=
  int_operands l r (fun t l r =>
    if is_imm r && (imm r =? 0) then binary DIV t l r
    else if is_imm l && is_imm r then as_expr (imm_int t (if is_signed t then Z.quot (signed (imm l)) (signed (imm r)) else imm l / imm r))
    else binary DIV t l r).
Definition eval_mod (l r : var) : M expr :=
  int_operands l r (fun t l r =>
    if is_imm r && (imm r =? 0) then binary MOD t l r
    else if is_imm l && is_imm r then as_expr (imm_int t (if is_signed t then Z.rem (signed (imm l)) (signed (imm r)) else imm l mod imm r))
    else binary MOD t l r).
Definition eval_or (l r : var) : M expr :=
  int_operands l r (fun t l r => if is_imm l && is_imm r then as_expr (imm_int t (Z.lor (imm l) (imm r))) else binary OR t l r).
Definition eval_xor (l r : var) : M expr :=
  int_operands l r (fun t l r => if is_imm l && is_imm r then as_expr (imm_int t (Z.lxor (imm l) (imm r))) else binary XOR t l r).
Definition eval_and (l r : var) : M expr :=
  int_operands l r (fun t l r => if is_imm l && is_imm r then as_expr (imm_int t (Z.land (imm l) (imm r))) else binary AND t l r).
(* eval.c:1070-1098 eval_lshift, 1100-1128 eval_rshift.  A constant count that is no number of a bit is undefined in the compiler, too
   (C17); here it is taken modulo 64, as the processor does. *)
Definition eval_lshift (l r : var) : M expr :=
  if negb (is_integer (vtype l)) || negb (is_integer (vtype r)) then stop
  else
    let t := promote (vtype l) in
    let* l := cast_operand l t in
    ret (if is_imm l && is_imm r then as_expr (imm_int t (Z.shiftl (imm l) (imm r mod 64))) else binary SHL t l r).
Definition eval_rshift (l r : var) : M expr :=
  if negb (is_integer (vtype l)) || negb (is_integer (vtype r)) then stop
  else
    let t := promote (vtype l) in
    let* l := cast_operand l t in
    ret (if is_imm l && is_imm r then as_expr (imm_int t (Z.shiftr (if is_signed t then signed (imm l) else imm l) (imm r mod 64))) else binary SHR t l r).
(* eval.c:1130-1156 eval_not, 1313-1339 eval_unary_plus *)
Definition eval_not (v : var) : M expr :=
  if negb (is_integer (vtype v)) then stop
  else
    let t := promote (vtype v) in
    let* v := cast_operand v t in
    ret (if is_imm v then as_expr (imm_int t (Z.lnot (imm v))) else mkE NOT (vtype v) v none).
Definition eval_plus (v : var) : M expr :=
  if negb (is_integer (vtype v)) then stop
  else
    let v := mkV (kind v) (vtype v) (sym v) (offset v) (imm v) false in
    let t := promote (vtype v) in
    if type_equal (vtype v) t then ret (as_expr v)
    else if is_imm v then if offset v =? 0 then ret (as_expr (var_numeric t (convert (imm v) t))) else bad
    else ret (mkE CAST t v none).
Definition shift (v : var) (d : Z) : var := mkV (kind v) (vtype v) (sym v) (wrap (offset v + d)) (imm v) (lvalue v).
(* eval.c:650-681 eval_add, 745-772 eval_sub, for operands that are integers *)
Definition add_int (l r : var) : M expr :=
  let t := usual_conversion (vtype l) (vtype r) in
  let* l := cast_operand l t in
  let* r := cast_operand r t in
  ret (if is_imm l && is_imm r then as_expr (imm_int t (imm l + imm r))
       else if is_addr l && is_imm r then as_expr (shift l (imm r))
       else if is_imm l && is_addr r then as_expr (shift r (imm l))
       else binary ADD t l r).
Definition sub_int (l r : var) : M expr :=
  let t := usual_conversion (vtype l) (vtype r) in
  let* l := cast_operand l t in
  let* r := cast_operand r t in
  ret (if is_imm l && is_imm r then as_expr (imm_int t (imm l - imm r))
       else if is_addr l && is_imm r then as_expr (shift l (- imm r))
       else binary SUB t l r).

(* eval.c:631-718, eval_add when one operand is a pointer; rvalue is applied before.  add_offset is the part 682-710 *)
Definition add_offset (l r : var) : M expr :=
  match vtype l with
  | TPtr t =>
      let size := size_of G t in
      let* r := cast_operand r long in
      if size =? 0 then stop
      else if is_addr l && is_imm r then ret (as_expr (shift l (signed (imm r) * size)))
      else if is_imm l && is_imm r then ret (as_expr (mkV IMMEDIATE (vtype l) (sym l) (offset l) (wrap (imm l + imm r * size)) (lvalue l)))
      else if negb (is_imm r && (imm r =? 0)) then
        let type := vtype l in
        let* l := cast_operand l long in
        let* r := (if size =? 1 then ret r else let* e := eval_mul (imm_int long size) r in eval e) in
        ret (binary ADD type l r)
      else ret (as_expr l)
  | _ => bad
  end.
(* eval.c:1341-1422 eval_addr; it and rvalue call one another only for string literals *)
Definition eval_addr (v : var) : M var :=
  match kind v with
  | IMMEDIATE => stop
  | DIRECT => if lvalue v then ret (mkV ADDRESS (TPtr (vtype v)) (sym v) (offset v) (imm v) (lvalue v)) else stop
  | ADDRESS => if lvalue v then bad else stop
  | DEREF =>
      match sym v with
      | None => ret (mkV IMMEDIATE (TPtr (vtype v)) None 0 (wrap (imm v + offset v)) false)
      | Some s =>
          if negb (is_pointer (s_type s)) then bad
          else
            let tmp := var_direct s in
            let* tmp :=
              (if offset v =? 0 then ret tmp
               else
                 let* ptr := cast_operand tmp (TPtr char) in
                 let* e := add_offset ptr (var_numeric int (extend 4 true (offset v))) in
                 eval e) in
            ret (retype tmp (TPtr (vtype v)))
      end
  end.
(* eval.c:1212-1243 rvalue *)
Definition rvalue (v : var) : M var :=
  match vtype v with
  | TArr _ t => eval_addr (retype v t)
  | _ => ret v
  end.
Definition eval_add (l r : var) : M expr :=
  let* l := rvalue l in
  let* r := rvalue r in
  let (l, r) := if is_integer (vtype l) && is_pointer (vtype r) then (r, l) else (l, r) in
  if is_integer (vtype l) && is_integer (vtype r) then add_int l r
  else if is_pointer (vtype l) && is_integer (vtype r) then add_offset l r else stop.
(* eval.c:732-829 eval_sub *)
Definition eval_sub (l r : var) : M expr :=
  let* l := rvalue l in
  let* r := rvalue r in
  match vtype l, vtype r with
  | TInt _ _, TInt _ _ => sub_int l r
  | TPtr t, TInt _ _ =>
      let size := size_of G t in
      let* r := cast_operand r long in
      if size =? 0 then stop
      else if is_addr l && is_imm r then ret (as_expr (shift l (- (signed (imm r) * size))))
      else if is_imm l && is_imm r then ret (as_expr (mkV IMMEDIATE (vtype l) (sym l) (offset l) (wrap (imm l - imm r * size)) (lvalue l)))
      else if is_imm r && (imm r =? 0) then ret (as_expr l)
      else
        let* r := (if 1 <? size then let* e := eval_mul (imm_int ulong size) r in eval e else ret r) in
        ret (binary SUB (vtype l) l r)
  | TPtr t1, TPtr t2 =>
      let size := size_of G t2 in
      let* l := cast_operand l long in
      let* r := cast_operand r long in
      let* e := sub_int l r in
      if 1 <? size then
        let* l := eval e in
        eval_div l (imm_int long size)
      else if (size =? 0) || negb (size_of G t1 =? size) then stop
      else ret e
  | _, _ => stop
  end.
(* eval.c:1158-1186 eval_neg *)
Definition eval_neg (v : var) : M expr := if is_integer (vtype v) then eval_sub (var_int 0) v else stop.
(* eval.c:830-875 prepare_comparison_operands; the pointer that says most is converted first *)
Definition prepare_comparison (l r : var) : M (var * var) :=
  let swap := match vtype l, vtype r with
              | TPtr TVoid, TPtr TVoid => false
              | TPtr TVoid, TPtr _ => true
              | TPtr _, _ => false
              | _, TPtr _ => true
              | _, _ => false
              end in
  if is_integer (vtype l) && is_integer (vtype r) then
    let t := usual_conversion (vtype l) (vtype r) in
    let* l := cast_operand l t in
    let* r := cast_operand r t in
    ret (l, r)
  else if swap then
    if is_scalar (vtype l) then
      let* r := cast_operand r ulong in
      let* l := cast_operand l ulong in
      ret (l, r)
    else bad
  else if is_pointer (vtype l) then
    if is_scalar (vtype r) then
      let* l := cast_operand l ulong in
      let* r := cast_operand r ulong in
      ret (l, r)
    else bad
  else stop.
(* eval.c:877-884 eval_immediate_compare; what operators say of two numbers *)
Definition holds_for (o : op) (x y : Z) : bool :=
  match o with EQ => x =? y | NE => negb (x =? y) | GE => y <=? x | GT => y <? x | _ => false end.
Definition compared (o : op) (t : cty) (x y : Z) : Z :=
  if (if is_signed t then holds_for o (signed x) (signed y) else holds_for o x y) then 1 else 0.
(* eval.c:886-916 eval_cmp_eq and eval_cmp_ne *)
Definition eval_equality (o : op) (l r : var) : M expr :=
  let* l := rvalue l in
  let* r := rvalue r in
  let* (l, r) := prepare_comparison l r in
  ret (if is_imm l && is_imm r then as_expr (var_int (compared o (vtype l) (imm l) (imm r))) else binary o int l r).
(* eval.c:917-931 common_compare_type, 933-975 eval_cmp_ge and eval_cmp_gt *)
Definition eval_relation (o : op) (l r : var) : M expr :=
  let* l := rvalue l in
  let* r := rvalue r in
  let* t := match vtype l, vtype r with
            | TInt _ _, TInt _ _ => ret (usual_conversion (vtype l) (vtype r))
            | TPtr t, TPtr u => if type_equal t u then ret ulong else stop
            | _, _ => stop
            end in
  let* l := cast_operand l t in
  let* r := cast_operand r t in
  ret (if is_imm l && is_imm r then as_expr (var_int (compared o t (imm l) (imm r))) else binary o int l r).
(* expression.c:329-356, the operator ! *)
Definition logical_not (e : expr) : M expr :=
  match e_op e with
  | EQ => ret (mkE NE (e_type e) (e_l e) (e_r e))
  | NE => ret (mkE EQ (e_type e) (e_l e) (e_r e))
  | GE => ret (mkE GT (e_type e) (e_r e) (e_l e))
  | GT => ret (mkE GE (e_type e) (e_r e) (e_l e))
  | _ => let* v := eval e in eval_equality EQ (var_int 0) v
  end.
(* eval.c:1424-1488 eval_deref, with 1757-1785 eval_assign to a new temporary of the type of the pointer *)
Definition eval_deref (v : var) : M var :=
  let* v := rvalue v in
  match vtype v with
  | TPtr t =>
      let deref v := mkV DEREF t (sym v) (offset v) (imm v) true in
      match kind v with
      | DEREF => let* v := assign_tmp (vtype v) (as_expr v) in ret (deref v)
      | DIRECT =>
          match sym v with
          | None => bad
          | Some s =>
              if negb (offset v =? 0) || negb (is_pointer (s_type s)) then let* v := assign_tmp (vtype v) (as_expr v) in ret (deref v)
              else ret (deref v)
          end
      | ADDRESS => ret (mkV DIRECT t (sym v) (offset v) (imm v) true)
      | IMMEDIATE => ret (deref v)
      end
  | _ => stop
  end.
(* eval.c:442-482 eval_cast *)
Definition eval_cast (v : var) (t : cty) : M expr :=
  let* v := rvalue v in
  if negb (is_scalar (vtype v)) || negb (is_scalar t) then stop
  else if type_equal (vtype v) t then ret (as_expr v)
  else if is_imm v then if offset v =? 0 then ret (as_expr (var_numeric t (convert (imm v) t))) else bad
  else if (size_of G (vtype v) =? size_of G t) && (is_pointer (vtype v) || is_pointer t) then ret (as_expr (retype v t))
  else ret (mkE CAST t v none).

(* Expressions, as they are written.  C49 is about how they are read. *)
Inductive bop := Add | Sub | Mul | Div | Mod | And | Or | Xor | Shl | Shr | Lt | Gt | Le | Ge | Eq | Ne.
Inductive uop := Plus | Minus | Not | LNot.      (* + - ~ ! *)
Inductive exp :=
| EVar (x : nat) (t : cty)        (* a name, with the type it is declared with *)
| ENum (t : cty) (z : Z)          (* a constant of integer type *)
| EIndex (a i : exp)              (* a[i] *)
| EDeref (a : exp)
| EAddr (a : exp)
| EMember (a : exp) (m : nat)     (* a.m *)
| EArrow (a : exp) (m : nat)      (* a->m *)
| EBin (o : bop) (a b : exp)
| EUn (o : uop) (a : exp)
| ECast (t : cty) (a : exp).

(* typetree.c:1233-1258 find_type_member *)
Fixpoint find_member (ms : list (nat * (Z * cty))) (m : nat) : option (Z * cty) :=
  match ms with
  | [] => None
  | (x, r) :: ms => if Nat.eqb m x then Some r else find_member ms m
  end.
(* expression.c:213-229, 235-252; other is for what is not a struct: '.' fails the assertion of find_type_member *)
Definition member (other : M expr) (v : var) (m : nat) : M expr :=
  match vtype v with
  | TStr i =>
      match find_member (snd (G i)) m with
      | Some (o, t) => ret (as_expr (retype (shift v o) t))
      | None => stop
      end
  | _ => other
  end.
(* expression.c:521-718: the operands of < and <= change places *)
Definition binop (o : bop) (l r : var) : M expr :=
  match o with
  | Add => eval_add l r | Sub => eval_sub l r | Mul => eval_mul l r | Div => eval_div l r | Mod => eval_mod l r
  | And => eval_and l r | Or => eval_or l r | Xor => eval_xor l r | Shl => eval_lshift l r | Shr => eval_rshift l r
  | Lt => eval_relation GT r l | Gt => eval_relation GT l r | Le => eval_relation GE r l | Ge => eval_relation GE l r
  | Eq => eval_equality EQ l r | Ne => eval_equality NE l r
  end.
(* expression.c:329-372 *)
Definition unop (o : uop) (e : expr) : M expr :=
  match o with
  | LNot => logical_not e
  | Plus => let* v := eval e in eval_plus v
  | Minus => let* v := eval e in eval_neg v
  | Not => let* v := eval e in eval_not v
  end.
Fixpoint compile (e : exp) : M expr :=
  match e with
  | EVar x t => ret (as_expr (var_direct (mkSym (Obj x) t)))                    (* expression.c:75-81 *)
  | ENum t z => ret (as_expr (var_numeric t (convert z t)))                      (* 83-85 *)
  | EIndex a i =>                                                               (* 150-167 *)
      let* a := compile a in let* a := eval a in
      let* i := compile i in let* i := eval i in
      let* s := eval_add a i in let* s := eval s in
      let* v := eval_deref s in ret (as_expr v)
  | EDeref a => let* a := compile a in let* a := eval a in let* v := eval_deref a in ret (as_expr v)      (* 323-328 *)
  | EAddr a => let* a := compile a in let* a := eval a in let* v := eval_addr a in ret (as_expr v)        (* 317-322 *)
  | EMember a m => let* a := compile a in let* a := eval a in member bad a m                            (* 213-229 *)
  | EArrow a m => let* a := compile a in let* a := eval a in let* v := eval_deref a in member stop v m         (* 230-252 *)
  | EBin o a b => let* a := compile a in let* a := eval a in let* b := compile b in let* b := eval b in binop o a b
  | EUn o a => let* a := compile a in unop o a
  | ECast t a => let* a := compile a in let* a := eval a in eval_cast a t        (* 505-509 *)
  end.

(* ---- What the intermediate code means ---- *)
(* Bytes of memory; where objects are; what temporaries hold, as 64 bits. *)
Record world := mkW { mem : Z -> Z; addr : nat -> Z }.
Definition temps := nat -> Z.
Fixpoint read (m : Z -> Z) (a : Z) (n : nat) : Z := match n with O => 0 | S n => m a mod 256 + 256 * read m (a + 1) n end.
(* an integer or a pointer that is in memory *)
Definition load (w : world) (t : cty) (a : Z) : option Z :=
  match t with
  | TInt s sg => Some (extend s sg (read (mem w) (wrap a) (Z.to_nat s)))
  | TPtr _ => Some (read (mem w) (wrap a) 8)
  | _ => None
  end.
(* ir.h:51-86, the kinds.  Where an operand is: *)
Definition location (w : world) (T : temps) (v : var) : option Z :=
  match kind v, sym v with
  | DIRECT, Some (mkSym (Obj x) _) => Some (wrap (addr w x + offset v))
  | DEREF, Some (mkSym (Obj x) t) => if is_pointer t then option_map (fun p => wrap (p + offset v)) (load w t (addr w x)) else None
  | DEREF, Some (mkSym (Tmp n) t) => if is_pointer t then Some (wrap (T n + offset v)) else None
  | DEREF, None => Some (wrap (imm v + offset v))
  | _, _ => None
  end.
(* and its value: *)
Definition value (w : world) (T : temps) (v : var) : option Z :=
  match kind v, sym v with
  | IMMEDIATE, None => if offset v =? 0 then Some (imm v) else None
  | ADDRESS, Some (mkSym (Obj x) _) => Some (wrap (addr w x + offset v))
  | DIRECT, Some (mkSym (Tmp n) t) => if (offset v =? 0) && (size_of G t =? size_of G (vtype v)) && is_scalar t && is_scalar (vtype v) then Some (convert (T n) (vtype v)) else None
  | _, _ => match location w T v with Some a => load w (vtype v) a | None => None end
  end.
(* Operators: C44, C45.  The operands have the size of the result, except the second of a shift and those of a comparison, which are of
   one type.  Nothing is said of division by zero or with a quotient that is too large, and of shifts by too much. *)
Definition quotient (t : cty) (l r : Z) : option (Z * Z) :=
  if r =? 0 then None
  else if is_signed t then
    let q := Z.quot (signed l) (signed r) in
    if convert q t =? wrap q then Some (q, Z.rem (signed l) (signed r)) else None
  else Some (l / r, l mod r).
Definition meaning (w : world) (T : temps) (e : expr) : option Z :=
  match value w T (e_l e) with
  | None => None
  | Some l =>
      match e_op e with
      | CAST => Some (convert l (e_type e))
      | NOT => if size_of G (vtype (e_l e)) =? size_of G (e_type e) then Some (convert (Z.lnot l) (e_type e)) else None
      | o =>
          match value w T (e_r e) with
          | None => None
          | Some r =>
              let t := e_type e in
              let sizes := (size_of G (vtype (e_l e)) =? size_of G t) && (size_of G (vtype (e_r e)) =? size_of G t) in
              match o with
              | EQ | NE | GE | GT => if type_equal (vtype (e_l e)) (vtype (e_r e)) && type_equal t int then Some (compared o (vtype (e_l e)) l r) else None
              | SHL => if (size_of G (vtype (e_l e)) =? size_of G t) && (r <? 8 * size_of G t) then Some (convert (Z.shiftl l r) t) else None
              | SHR =>
                  if (size_of G (vtype (e_l e)) =? size_of G t) && (r <? 8 * size_of G t)
                  then Some (convert (Z.shiftr (if is_signed t then signed l else l) r) t) else None
              | _ =>
                  if negb sizes then None
                  else
                    match o with
                    | ADD => Some (convert (l + r) t)
                    | SUB => Some (convert (l - r) t)
                    | MUL => Some (convert (l * r) t)
                    | AND => Some (convert (Z.land l r) t)
                    | OR => Some (convert (Z.lor l r) t)
                    | XOR => Some (convert (Z.lxor l r) t)
                    | DIV => option_map (fun p => convert (fst p) t) (quotient t l r)
                    | MOD => option_map (fun p => convert (snd p) t) (quotient t l r)
                    | _ => None
                    end
              end
          end
      end
  end.
Definition set (T : temps) (n : nat) (z : Z) : temps := fun k => if Nat.eqb k n then z else T k.
Fixpoint run (w : world) (l : list stmt) (T : temps) : option temps :=
  match l with
  | [] => Some T
  | s :: l => match meaning w T (s_expr s) with Some z => run w l (set T (s_tmp s) z) | None => None end
  end.
End Tags.
Notation EAdd := (EBin Add).
Notation ESub := (EBin Sub).
Notation EMul := (EBin Mul).
