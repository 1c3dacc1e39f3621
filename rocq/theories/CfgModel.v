(* Building the control flow graph of a function, and what it does when executed.
   src/parser/statement.c, src/parser/expression.c:309-356, 590-640, 731-1012, src/parser/eval.c:203-340, src/parser/parse.c:117-192. *)
From Coq Require Import ZArith List Bool Arith.
From Verif Require Import CfgSyntax.
Import ListNotations.

(* Blocks (include/lacc/ir.h:164-209) are known by number, in order of creation; the block of a label
   (sym->value.label, statement.c:561-572) is known by the label, so it does not matter when it is created. *)
Inductive id := B (n : nat) | Lb (l : Z).
Definition id_eqb (a b : id) : bool :=
  match a, b with B n, B m => Nat.eqb n m | Lb x, Lb y => Z.eqb x y | _, _ => false end.

Section Model.
Variable L : lang.

(* include/lacc/ir.h:33-76 struct var: constants, variables, temporaries (not: memory behind pointers, offsets, fields) *)
Inductive opd := DImm (v : val L) | DVar (x : Z) | DTmp (n : nat).
(* include/lacc/ir.h:17-31: comparisons of the intermediate code *)
Inductive irel := Eq_ | Ne_ | Ge_ | Gt_.
Definition rel_of (r : irel) : relop := match r with Eq_ => Req | Ne_ => Rne | Ge_ => Rge | Gt_ => Rgt end.
(* include/lacc/ir.h:84-119 struct expression: an operation on operands, not carried out yet.  RId is_identity *)
Inductive res := RId (d : opd) | RBin (o : Z) (a b : opd) | RRel (r : irel) (a b : opd) | RCast (t : Z) (a : opd) | RCall (void : bool) (f : opd).
(* include/lacc/ir.h:126-160 struct statement.  The conversion to the type of the target (eval_prepare_assign,
   eval.c:1675-1710) is part of the assignment here; a temporary of None has the type of the value. *)
Inductive instr := IAssign (x : Z) (r : res) | ITemp (n : nat) (t : option Z) (r : res) | IExpr (r : res) | IParam (d : opd).

(* include/lacc/ir.h:164-209; the statements are kept in the block, [head] is where they begin in def->statements *)
Record blk := Blk { head : nat; code : list instr; bexpr : res; jump0 : option id; jump1 : option id; retv : option Z }.
Definition empty_blk : blk := Blk 0 [] (RId (DImm (voidv L))) None None None.

(* The definition under construction: blocks, the number of blocks, of temporaries, of statements; the labels defined;
   switch_context (statement.c:39-54): case labels in order, default label *)
Record st := St { blocks : id -> blk; next : nat; tmp : nat; len : nat; defs : list Z; cases : list (val L * id); dflt : option id }.

Definition modb (b : id) (f : blk -> blk) (s : st) : st :=
  St (fun c => if id_eqb c b then f (blocks s c) else blocks s c) (next s) (tmp s) (len s) (defs s) (cases s) (dflt s).
(* parse.c:122-142 cfg_block_init *)
Definition new_ (s : st) : st :=
  let s := St (blocks s) (S (next s)) (tmp s) (len s) (defs s) (cases s) (dflt s) in modb (B (pred (next s))) (fun _ => empty_blk) s.
Definition setj0 (b : id) (j : option id) : st -> st := modb b (fun k => Blk (head k) (code k) (bexpr k) j (jump1 k) (retv k)).
Definition setj1 (b : id) (j : option id) : st -> st := modb b (fun k => Blk (head k) (code k) (bexpr k) (jump0 k) j (retv k)).
Definition sete (b : id) (e : res) : st -> st := modb b (fun k => Blk (head k) (code k) e (jump0 k) (jump1 k) (retv k)).
Definition setret (b : id) (t : Z) : st -> st := modb b (fun k => Blk (head k) (code k) (bexpr k) (jump0 k) (jump1 k) (Some t)).
Definition setlen (n : nat) (s : st) : st := St (blocks s) (next s) (tmp s) n (defs s) (cases s) (dflt s).
Definition settmp (n : nat) (s : st) : st := St (blocks s) (next s) n (len s) (defs s) (cases s) (dflt s).

(* eval.c:234-249 append_statement; None: the assertion that the statements of a block are consecutive *)
Definition append (b : id) (i : instr) (s : st) : option st :=
  let k := blocks s b in
  match code k with
  | [] => Some (setlen (S (len s)) (modb b (fun k => Blk (len s) [i] (bexpr k) (jump0 k) (jump1 k) (retv k)) s))
  | _ => if Nat.eqb (head k + length (code k)) (len s)
         then Some (setlen (S (len s)) (modb b (fun k => Blk (head k) (code k ++ [i]) (bexpr k) (jump0 k) (jump1 k) (retv k)) s))
         else None
  end.

(* eval.c:321-340 eval *)
Definition eval_ (b : id) (r : res) (s : st) : option (opd * st) :=
  match r with
  | RId d => Some (d, s)
  | RCall true _ => match append b (IExpr r) s with Some s => Some (DImm (voidv L), s) | None => None end
  | _ => match append b (ITemp (tmp s) None r) (settmp (S (tmp s)) s) with Some s' => Some (DTmp (tmp s), s') | None => None end
  end.

(* eval.c:51-73 immediate_bool (constants only) *)
Definition imm_bool (r : res) : option bool := match r with RId (DImm v) => Some (truth L v) | _ => None end.
(* include/lacc/ir.h:121, 124 *)
Definition has_side_effects (r : res) : bool := match r with RCall _ _ => true | _ => false end.
Definition is_comparison (r : res) : bool := match r with RRel _ _ _ => true | _ => false end.
(* eval.c:883-975 eval_cmp_eq and so on, without conversions *)
Definition cmp (r : irel) (a b : opd) : res :=
  match a, b with DImm u, DImm v => RId (DImm (int01 L (relv L (rel_of r) u v))) | _, _ => RRel r a b end.
(* eval.c:550-900 eval_mul and so on *)
Definition bin (o : Z) (a b : opd) : res :=
  match a, b with DImm u, DImm v => RId (DImm (binv L o u v)) | _, _ => RBin o a b end.
(* eval.c:439-478 eval_cast.  A cast to the own type is dropped there. *)
Definition cast_res (t : option Z) (d : opd) : res :=
  match t, d with
  | None, _ => RId (DImm (voidv L))
  | Some t, DImm v => RId (DImm (castv L t v))
  | Some t, _ => RCast t d
  end.
Definition zero : opd := DImm (int01 L false).
Definition one : opd := DImm (int01 L true).
(* expression.c:317-343 the operator ! *)
Definition not_ (b : id) (r : res) (s : st) : option (res * st) :=
  match r with
  | RRel Eq_ x y => Some (RRel Ne_ x y, s)
  | RRel Ne_ x y => Some (RRel Eq_ x y, s)
  | RRel Ge_ x y => Some (RRel Gt_ y x, s)
  | RRel Gt_ x y => Some (RRel Ge_ y x, s)
  | _ => match eval_ b r s with Some (d, s) => Some (cmp Eq_ zero d, s) | None => None end
  end.
(* expression.c:611-676: < and <= swap operands *)
Definition relational (o : relop) (x y : opd) : res :=
  match o with
  | Req => cmp Eq_ x y | Rne => cmp Ne_ x y
  | Rlt => cmp Gt_ y x | Rgt => cmp Gt_ x y
  | Rle => cmp Ge_ y x | Rge => cmp Ge_ x y
  end.
(* eval_push_param, expression.c:199-201 *)
Fixpoint params (b : id) (l : list opd) (s : st) : option st :=
  match l with [] => Some s | d :: l => match append b (IParam d) s with Some s => params b l s | None => None end end.

Definition bind {X Y : Type} (x : option X) (f : X -> option Y) : option Y := match x with Some x => f x | None => None end.
Local Notation "'do' x <- a ; b" := (bind a (fun x => b)) (at level 200, x pattern, right associativity).

(* expression.c:763-780 (&&), 818-834 (||): both operands are evaluated at run time *)
Definition join_ (or_ : bool) (lft : id) (r : res) (rgt : id) (r2 : res) (top : id) (s : st) : option (id * res * st) :=
  let t := B (next s) in let s := new_ s in
  let f := B (next s) in let s := new_ s in
  let b := B (next s) in let s := new_ s in
  let s := sete lft r s in
  let s := if or_ then setj1 lft (Some t) (setj0 lft (Some top) s) else setj1 lft (Some top) (setj0 lft (Some f) s) in
  let s := setj1 rgt (Some t) (setj0 rgt (Some f) (sete rgt r2 s)) in
  let s := setj0 f (Some b) (setj0 t (Some b) s) in
  let n := tmp s in
  do s <- append t (ITemp n None (RId one)) (settmp (S n) s);
  do s <- append f (ITemp n None (RId zero)) s;
  Some (b, RId (DTmp n), s).

(* expression.c: [lower e b s] reads e with current block b, and gives the block then current, its `expr`
   and the new state.  [expr] is stored in the block where it is left by a branch. *)
Fixpoint lower (e : expr L) (b : id) (s : st) {struct e} : option (id * res * st) :=
  match e with
  | EConst v => Some (b, RId (DImm v), s)
  | EVar x => Some (b, RId (DVar x), s)
  | EOp o x y =>                                          (* expression.c:540-610, 700-729 *)
    do (b, r, s) <- lower x b s; do (d, s) <- eval_ b r s;
    do (b, r, s) <- lower y b s; do (d2, s) <- eval_ b r s;
    Some (b, bin o d d2, s)
  | ERel o x y =>                                         (* expression.c:611-699 *)
    do (b, r, s) <- lower x b s; do (d, s) <- eval_ b r s;
    do (b, r, s) <- lower y b s; do (d2, s) <- eval_ b r s;
    Some (b, relational o d d2, s)
  | ENot x => do (b, r, s) <- lower x b s; do (r, s) <- not_ b r s; Some (b, r, s)
  | EAnd x y =>                                           (* expression.c:731-783 logical_and_expression *)
    do (lft, r, s) <- lower x b s;
    let top := B (next s) in
    do (rgt, r2, s) <- lower y top (new_ s);
    match imm_bool r with
    | Some true =>
      let s := setj0 lft (Some top) s in
      if is_comparison r2 then Some (rgt, r2, s)
      else do (d, s) <- eval_ rgt r2 s; Some (rgt, cmp Ne_ d zero, s)
    | Some false =>
      if id_eqb top rgt && match code (blocks s top) with [] => true | _ => false end then Some (lft, RId zero, s)
      else let b := B (next s) in Some (b, RId zero, setj0 lft (Some b) (new_ s))
    | None => join_ false lft r rgt r2 top s
    end
  | EOr x y =>                                            (* expression.c:785-837 logical_or_expression *)
    do (lft, r, s) <- lower x b s;
    let top := B (next s) in
    do (rgt, r2, s) <- lower y top (new_ s);
    match imm_bool r with
    | Some true =>
      if id_eqb top rgt && match code (blocks s top) with [] => true | _ => false end then Some (lft, RId one, s)
      else let b := B (next s) in Some (b, RId one, setj0 lft (Some b) (new_ s))
    | Some false =>
      let s := setj0 lft (Some top) s in
      if is_comparison r2 then Some (rgt, r2, s)
      else do (d, s) <- eval_ rgt r2 s; Some (rgt, cmp Ne_ d zero, s)
    | None => join_ true lft r rgt r2 top s
    end
  | ECond t x y z =>                                      (* expression.c:839-912 conditional_expression *)
    do (b, r, s) <- lower x b s;
    match imm_bool r with
    | Some true =>
      do (lft, rl, s) <- lower y b s;
      do (_, s) <- eval_ lft rl s;
      let n := len s in                                   (* parse.c:166-192 begin_throwaway_block, restore_block *)
      do (rgt, rr, s) <- lower z (B (next s)) (new_ s);
      do (_, s) <- eval_ rgt rr s;
      let s := setlen n s in
      match t with
      | None => Some (lft, RId (DImm (voidv L)), s)
      | Some _ => do (d, s) <- eval_ lft rl s; Some (lft, cast_res t d, s)
      end
    | Some false =>
      let n := len s in
      do (lft, rl, s) <- lower y (B (next s)) (new_ s);
      do (_, s) <- eval_ lft rl s;
      let s := setlen n s in
      do (rgt, rr, s) <- lower z b s;
      do (_, s) <- eval_ rgt rr s;
      match t with
      | None => Some (rgt, RId (DImm (voidv L)), s)
      | Some _ => do (d, s) <- eval_ rgt rr s; Some (rgt, cast_res t d, s)
      end
    | None =>
      let lft := B (next s) in let s := new_ s in
      let rgt := B (next s) in let s := new_ s in
      let s := setj1 b (Some lft) (setj0 b (Some rgt) (sete b r s)) in
      let join := B (next s) in let s := new_ s in
      do (lft, rl, s) <- lower y lft s; do (dl, s) <- eval_ lft rl s;
      do (rgt, rr, s) <- lower z rgt s; do (dr, s) <- eval_ rgt rr s;
      match t with
      | None => Some (join, RId (DImm (voidv L)), setj0 rgt (Some join) (setj0 lft (Some join) s))
      | Some ty =>
        let n := tmp s in
        do s <- append rgt (ITemp n (Some ty) (RId dr)) (settmp (S n) s);
        let extra := B (next s) in
        do s <- append extra (ITemp n (Some ty) (RId dl)) (setj0 lft (Some extra) (new_ s));
        Some (join, RId (DTmp n), setj0 rgt (Some join) (setj0 extra (Some join) s))
      end
    end
  | EComma x y =>                                         (* expression.c:1000-1012 *)
    do (b, r, s) <- lower x b s;
    do s <- (if has_side_effects r then do (_, s) <- eval_ b r s; Some s else Some s);
    lower y b s
  | ECast t x => do (b, r, s) <- lower x b s; do (d, s) <- eval_ b r s; Some (b, cast_res t d, s)
  | EAssign x y =>                                        (* expression.c:914-985, eval.c:1757-1786 eval_assign *)
    do (b, r, s) <- lower y b s;
    do s <- append b (IAssign x r) s;
    Some (b, match r with RId (DImm v) => RId (DImm (asx L x v)) | _ => RId (DVar x) end, s)
  | EPost o x v =>                                        (* expression.c:243-262, eval.c:1788-1800 eval_copy *)
    let n := tmp s in
    do s <- append b (ITemp n None (RId (DVar x))) (settmp (S n) s);
    do s <- append b (IAssign x (RBin o (DVar x) (DImm v))) s;
    Some (b, RId (DTmp n), s)
  | ECall v f l =>                                        (* expression.c:167-206 *)
    do (b, r, s) <- lower f b s;
    do (b, ds, s) <- lowers l b s;
    do s <- params b ds s;
    do (d, s) <- eval_ b r s;
    Some (b, RCall v d, s)
  end
with lowers (l : exprs L) (b : id) (s : st) {struct l} : option (id * list opd * st) :=
  match l with
  | ANil => Some (b, [], s)
  | ACons a l =>
    do (b, r, s) <- lower a b s;
    do (d, s) <- eval_ b r s;                             (* eval.c:1716-1755 eval_prepare_arg *)
    do (b, ds, s) <- lowers l b s;
    Some (b, d :: ds, s)
  end.

(* statement.c:72-79 expression_statement, eval.c:302-319 (no structures) *)
Definition expression_statement (e : expr L) (b : id) (s : st) : option (id * st) :=
  do (b, r, s) <- lower e b s;
  if has_side_effects r then do s <- append b (IExpr r) s; Some (b, s) else Some (b, s).

(* statement.c:95-104, 155-163, 198-206, 254-262: the jumps after a condition *)
Definition branch (b : id) (r : res) (yes no : id) (s : st) : st :=
  match imm_bool r with
  | Some true => setj0 b (Some yes) s
  | Some false => setj0 b (Some no) s
  | None => setj1 b (Some yes) (setj0 b (Some no) (sete b r s))
  end.

(* statement.c:338-346 the comparisons of a switch statement *)
Fixpoint chain (cond : id) (d : opd) (l : list (val L * id)) (s : st) : id * st :=
  match l with
  | [] => (cond, s)
  | (v, lab) :: l =>
    let c := B (next s) in
    chain c d l (setj0 cond (Some c) (setj1 c (Some lab) (sete c (cmp Eq_ (DImm v) d) (new_ s))))
  end.
Definition setsw (cs : list (val L * id)) (d : option id) (s : st) : st := St (blocks s) (next s) (tmp s) (len s) (defs s) cs d.
Definition setdefs (l : list Z) (s : st) : st := St (blocks s) (next s) (tmp s) (len s) l (cases s) (dflt s).

(* statement.c:536-682 statement.  break_target and continue_target are arguments, [insw] tells whether there is a
   switch_context.  None: an assertion, or rejected (stray case, two defaults, label defined twice). *)
Fixpoint statement (brk cnt : option id) (insw : bool) (c : stmt L) (b : id) (s : st) {struct c} : option (id * st) :=
  match c with
  | SSkip => Some (b, s)
  | SExpr e => expression_statement e b s
  | SSeq x y => do (b, s) <- statement brk cnt insw x b s; statement brk cnt insw y b s   (* 688-700 block *)
  | SIf e x =>                                            (* 82-126 if_statement *)
    let rgt := B (next s) in let s := new_ s in
    let nxt := B (next s) in let s := new_ s in
    do (p, r, s) <- lower e b s;
    do (rgt, s) <- statement brk cnt insw x rgt (branch p r rgt nxt s);
    Some (nxt, setj0 rgt (Some nxt) s)
  | SIfElse e x y =>
    let rgt := B (next s) in let s := new_ s in
    let nxt := B (next s) in let s := new_ s in
    do (p, r, s) <- lower e b s;
    do (rgt, s) <- statement brk cnt insw x rgt (branch p r rgt nxt s);
    let s := setj0 rgt (Some nxt) s in
    let lft := B (next s) in let s := new_ s in
    let s := match imm_bool r with Some true => s | _ => setj0 p (Some lft) s end in
    do (lft, s) <- statement brk cnt insw y lft s;
    Some (nxt, setj0 lft (Some nxt) s)
  | SDo x e =>                                            (* 128-171 do_statement *)
    let top := B (next s) in let s := new_ s in
    let cond := B (next s) in let s := new_ s in
    let nxt := B (next s) in let s := new_ s in
    do (body, s) <- statement (Some nxt) (Some cond) insw x top (setj0 b (Some top) s);
    do (tail, r, s) <- lower e cond (setj0 body (Some cond) s);
    Some (nxt, branch tail r top nxt s)
  | SWhile e x =>                                         (* 173-215 while_statement *)
    let top := B (next s) in let s := new_ s in
    let body := B (next s) in let s := new_ s in
    let nxt := B (next s) in let s := new_ s in
    do (cond, r, s) <- lower e top (setj0 b (Some top) s);
    do (body, s) <- statement (Some nxt) (Some top) insw x body (branch cond r body nxt s);
    Some (nxt, setj0 body (Some top) s)
  | SFor i e inc x =>                                     (* 217-300 for_statement *)
    let top := B (next s) in let s := new_ s in
    let body := B (next s) in let s := new_ s in
    let increment := B (next s) in let s := new_ s in
    let tail := B (next s) in let s := new_ s in
    do (b, s) <- match i with Some i => expression_statement i b s | None => Some (b, s) end;
    do (top, s) <- match e with
                   | Some e => do (c, r, s) <- lower e top (setj0 b (Some top) s); Some (top, branch c r body tail s)
                   | None => Some (body, setj0 b (Some body) s)
                   end;
    match inc with
    | Some inc =>
      do (i, s) <- expression_statement inc increment s;
      do (body, s) <- statement (Some tail) (Some increment) insw x body (setj0 i (Some top) s);
      Some (tail, setj0 body (Some increment) s)
    | None =>
      do (body, s) <- statement (Some tail) (Some top) insw x body s;
      Some (tail, setj0 body (Some top) s)
    end
  | SSwitch e x =>                                        (* 302-358 switch_statement *)
    let body := B (next s) in let s := new_ s in
    let nxt := B (next s) in let s := new_ s in
    let old := cases s in let oldd := dflt s in
    do (p, r, s) <- lower e b (setsw [] None s);
    do (d, s) <- eval_ p r s;
    do (last, s) <- statement (Some nxt) cnt true x body (sete p (RId d) s);
    let s := setj0 last (Some nxt) s in
    let s := match cases s, dflt s with
             | [], None => setj0 p (Some nxt) s
             | l, df => let (c, s) := chain p d l s in setj0 c (Some (match df with Some x => x | None => nxt end)) s
             end in
    Some (nxt, setsw old oldd s)
  | SCase v x =>                                          (* 601-614 *)
    if insw then
      let n := B (next s) in let s := new_ s in
      statement brk cnt insw x n (setj0 b (Some n) (setsw (cases s ++ [(v, n)]) (dflt s) s))
    else None
  | SDefault x =>                                         (* 615-629 *)
    if insw then
      match dflt s with
      | Some _ => None
      | None => let n := B (next s) in let s := new_ s in
                statement brk cnt insw x n (setsw (cases s) (Some n) (setj0 b (Some n) s))
      end
    else None
  | SLabel l x =>                                         (* 635-655 *)
    if existsb (Z.eqb l) (defs s) then None
    else statement brk cnt insw x (Lb l) (setj0 b (Some (Lb l)) (setdefs (l :: defs s) s))
  | SGoto l => Some (B (next s), new_ (setj0 b (Some (Lb l)) s))     (* 562-577 *)
  | SContinue => Some (B (next s), new_ (setj0 b cnt s))  (* 578-583 *)
  | SBreak => Some (B (next s), new_ (setj0 b brk s))     (* 584-589 *)
  | SReturn None => Some (B (next s), new_ s)             (* 590-598, eval.c:1806-1825 eval_return *)
  | SReturn (Some (t, e)) =>
    do (b, r, s) <- lower e b s;
    Some (B (next s), new_ (setret b t (sete b r s)))
  end.

(* declaration.c:1122-1137, 883-899 ensure_main_returns_zero; parse.c:151-164 cfg_init.  The block where the function begins is B 0. *)
Definition init_st : st := St (fun _ => empty_blk) 1 0 0 [] [] None.
Definition build (f : func L) : option (id -> blk) :=
  do (b, s) <- statement None None false (body f) (B 0) init_st;
  Some (blocks (if main f then setret b (int_ty f) (sete b (RId zero) s) else s)).

(* ------------------------------------------------------------------ *)
(* Execution of a graph: what compile_block (compile.c:3149-3287) makes of it.  *)

Definition opdv (d : opd) (m : mem L) (t : nat -> val L) : val L :=
  match d with DImm v => v | DVar x => rdv L x m | DTmp n => t n end.
(* Operations; a call takes the parameters pushed so far (compile.c:1460-1526, 3041) *)
Definition run (r : res) (m : mem L) (t : nat -> val L) (ps : list opd) : val L * mem L * list opd * list (effect L) :=
  match r with
  | RId d => (opdv d m t, m, ps, [])
  | RBin o a b => (binv L o (opdv a m t) (opdv b m t), m, ps, [])
  | RRel c a b => (int01 L (relv L (rel_of c) (opdv a m t) (opdv b m t)), m, ps, [])
  | RCast ty a => (castv L ty (opdv a m t), m, ps, [])
  | RCall v f =>
    let l := map (fun d => opdv d m t) ps in
    let (w, m') := callv L (opdv f m t) l m in
    (if v then voidv L else w, m', [], [Call (opdv f m t) l])
  end.

Inductive gstate := Run (b : id) (i : nat) (m : mem L) (t : nat -> val L) (ps : list opd) | End (v : option (val L)) (m : mem L).

Definition exec (i : instr) (m : mem L) (t : nat -> val L) (ps : list opd) : mem L * (nat -> val L) * list opd * list (effect L) :=
  match i with
  | IAssign x r => let '(v, m, ps, ev) := run r m t ps in
                   let v := asx L x v in (wrv L x v m, t, ps, ev ++ [Write x v])
  | ITemp n ty r => let '(v, m, ps, ev) := run r m t ps in
                    let v := match ty with Some ty => castv L ty v | None => v end in
                    (m, fun k => if Nat.eqb k n then v else t k, ps, ev)
  | IExpr r => let '(v, m, ps, ev) := run r m t ps in (m, t, ps, ev)
  | IParam d => (m, t, ps ++ [d], [])
  end.

(* one statement, or the jump at the end; None: finished *)
Definition gstep (g : id -> blk) (s : gstate) : option (list (effect L) * gstate) :=
  match s with
  | End _ _ => None
  | Run b i m t ps =>
    let k := g b in
    match nth_error (code k) i with
    | Some c => let '(m, t, ps, ev) := exec c m t ps in Some (ev, Run b (S i) m t ps)
    | None =>
      match jump0 k, jump1 k with
      | None, _ =>
        match retv k with
        | Some ty => let '(v, m, _, ev) := run (bexpr k) m t ps in Some (ev, End (Some (castv L ty v)) m)
        | None => Some ([], End None m)
        end
      | Some j, None => Some ([], Run j 0 m t ps)
      | Some j, Some y =>
        let '(v, m, ps, ev) := run (bexpr k) m t ps in
        Some (ev, Run (if truth L v then y else j) 0 m t ps)
      end
    end
  end.

Inductive gsteps (g : id -> blk) : nat -> gstate -> list (effect L) -> gstate -> Prop :=
| gsteps_0 : forall s, gsteps g 0 s [] s
| gsteps_S : forall n s ev s1 tr s2, gstep g s = Some (ev, s1) -> gsteps g n s1 tr s2 -> gsteps g (S n) s (ev ++ tr) s2.
Definition gstart (m : mem L) : gstate := Run (B 0) 0 m (fun _ => voidv L) [].
End Model.

Arguments DImm {L}. Arguments DVar {L}. Arguments DTmp {L}. Arguments RId {L}. Arguments RBin {L}. Arguments RRel {L}.
Arguments RCast {L}. Arguments RCall {L}. Arguments IAssign {L}. Arguments ITemp {L}. Arguments IExpr {L}. Arguments IParam {L}.
Arguments Blk {L}. Arguments head {L}. Arguments code {L}. Arguments bexpr {L}. Arguments jump0 {L}. Arguments jump1 {L}. Arguments retv {L}.
Arguments St {L}. Arguments blocks {L}. Arguments next {L}. Arguments tmp {L}. Arguments len {L}. Arguments defs {L}. Arguments cases {L}. Arguments dflt {L}.
Arguments empty_blk {L}. Arguments modb {L}. Arguments new_ {L}. Arguments setj0 {L}. Arguments setj1 {L}. Arguments sete {L}. Arguments setret {L}.
Arguments setlen {L}. Arguments settmp {L}. Arguments setsw {L}. Arguments setdefs {L}.
Arguments append {L}. Arguments eval_ {L}. Arguments imm_bool {L}. Arguments has_side_effects {L}. Arguments is_comparison {L}.
Arguments cmp {L}. Arguments bin {L}. Arguments cast_res {L}. Arguments zero {L}. Arguments one {L}. Arguments not_ {L}. Arguments relational {L}.
Arguments params {L}. Arguments join_ {L}. Arguments lower {L}. Arguments lowers {L}. Arguments expression_statement {L}. Arguments branch {L}.
Arguments chain {L}. Arguments statement {L}. Arguments init_st {L}. Arguments build {L}.
Arguments opdv {L}. Arguments run {L}. Arguments Run {L}. Arguments End {L}. Arguments exec {L}. Arguments gstep {L}. Arguments gsteps {L}. Arguments gstart {L}.
