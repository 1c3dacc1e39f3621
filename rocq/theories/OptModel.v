(* The optimizer.  src/optimizer/liveness.c, transform.c, optimize.c; include/lacc/ir.h:19-209.
   A program is a definition: one array of statements, and nodes (basic blocks) that refer to parts of it.  Nodes and symbols
   are numbers.  Simplified: labels, params, locals and inline assembly are not here (optimize.c:269: a function with inline
   assembly is left alone); the colours of nodes are a set of visited nodes. *)
From Coq Require Import List ZArith Bool.
From Verif Require Import Util.
Import ListNotations.
Open Scope Z_scope.

(* include/lacc/type.h.  A scalar has a size and a number that tells apart the types of one size; a struct or union has a tag,
   a size and the types of its members. *)
Inductive ty := TVoid | TScalar (id size : Z) | TPtr (t : ty) | TArr (n : Z) (t : ty) | TAgg (tag size : Z) (ms : list ty) | TFun.
Fixpoint tsize (t : ty) : Z :=
  match t with
  | TScalar _ n => n
  | TPtr _ => 8
  | TArr n t => n * tsize t
  | TAgg _ n _ => n
  | TVoid | TFun => 0
  end.
(* type.h:60, 75 *)
Definition is_object (t : ty) : bool := match t with TFun => false | _ => true end.
Definition is_scalar (t : ty) : bool := match t with TScalar _ _ | TPtr _ => true | _ => false end.
(* typetree.c:884-926, 971-999 type_equal; qualifiers and the names of members are in the numbers *)
Fixpoint type_equal (a b : ty) : bool :=
  match a, b with
  | TVoid, TVoid | TFun, TFun => true
  | TScalar i n, TScalar j m => (i =? j) && (n =? m)
  | TPtr a, TPtr b => type_equal a b
  | TArr n a, TArr m b => (n =? m) && type_equal a b
  | TAgg i n la, TAgg j m lb =>
    (i =? j) && (n =? m) &&
    (fix go (la lb : list ty) : bool :=
       match la, lb with [], [] => true | x :: la', y :: lb' => type_equal x y && go la' lb' | _, _ => false end) la lb
  | _, _ => false
  end.
(* liveness.c:82-101 is_or_has_pointer *)
Fixpoint is_or_has_pointer (t : ty) : bool :=
  match t with
  | TPtr _ => true
  | TAgg _ _ ms => existsb is_or_has_pointer ms
  | _ => false
  end.

Definition sym := nat.
(* the type of a symbol, and whether its linkage is LINK_NONE *)
Record symbol := mkSym { s_type : ty; s_none : bool }.

(* ir.h:19-49 struct var; symbol: is_symbol and value.symbol; imm: value.imm *)
Inductive kind := DIRECT | ADDRESS | DEREF | IMMEDIATE.
Definition kind_eqb (a b : kind) : bool :=
  match a, b with DIRECT, DIRECT | ADDRESS, ADDRESS | DEREF, DEREF | IMMEDIATE, IMMEDIATE => true | _, _ => false end.
Record var := mkVar { v_kind : kind; v_width : Z; v_foff : Z; v_type : ty; v_offset : Z; v_sym : option sym; v_imm : list Z }.
(* ir.h:95-119; BIN: the operators with two operands *)
Inductive optype := CAST | CALL | VA_ARG | NOT | NEG | BIN (k : Z).
Record expr := mkExpr { e_op : optype; e_type : ty; e_l : var; e_r : var }.
(* ir.h:121-122 *)
Definition has_side_effects (e : expr) : bool := match e_op e with CALL | VA_ARG => true | _ => false end.
Definition is_identity (e : expr) : bool := match e_op e with CAST => type_equal (e_type e) (v_type (e_l e)) | _ => false end.
(* ir.h:126-152 *)
Inductive sttype := IR_EXPR | IR_PARAM | IR_VA_START | IR_ASSIGN | IR_VLA_ALLOC.
Record stmt := mkStmt { st_st : sttype; st_out : Z; st_t : var; st_expr : expr }.
Definition is_assign (s : stmt) : bool := match st_st s with IR_ASSIGN => true | _ => false end.
(* ir.h:164-209 *)
Record block := mkBlock { b_head : nat; b_count : nat; b_expr : expr; b_jump0 : option nat; b_jump1 : option nat; b_ret : bool; b_in : Z; b_out : Z }.
Record def := mkDef { d_body : nat; d_nodes : list block; d_stmts : list stmt }.
Definition body (d : def) (b : block) : list stmt := firstn (b_count b) (skipn (b_head b) (d_stmts d)).
Definition set_nodes (d : def) (l : list block) : def := mkDef (d_body d) l (d_stmts d).
Definition set_stmts (d : def) (l : list stmt) : def := mkDef (d_body d) (d_nodes d) l.

Section Optimize.
Variable tab : sym -> symbol.

(* --- symbols: optimize.c:66-148 --- *)
Fixpoint index_from (i : nat) (l : list sym) (s : sym) : option nat :=
  match l with [] => None | x :: r => if Nat.eqb x s then Some i else index_from (S i) r s end.
(* symbol->index - 1 *)
Definition index (symbols : list sym) (s : sym) : option nat := index_from 0 symbols s.
(* optimize.c:66-88 count_symbol *)
Definition count_symbol (symbols : list sym) (v : var) : list sym :=
  match v_sym v with
  | Some s =>
    if is_object (s_type (tab s)) then
      match index symbols s with Some _ => symbols | None => if (length symbols <? 64)%nat then symbols ++ [s] else symbols end
    else symbols
  | None => symbols
  end.
Definition binary (e : expr) : bool := match e_op e with BIN _ => true | _ => false end.
Definition count_expr (symbols : list sym) (e : expr) : list sym := count_symbol (if binary e then count_symbol symbols (e_r e) else symbols) (e_l e).
Definition count_stmt (symbols : list sym) (s : stmt) : list sym :=
  let l := count_expr symbols (st_expr s) in if is_assign s then count_symbol l (st_t s) else l.
Definition uses_expr (b : block) : bool := b_ret b || match b_jump1 b with Some _ => true | None => false end.
(* optimize.c:102-148 enumerate_used_symbols *)
Definition enumerate_used_symbols (d : def) (symbols : list sym) (n : nat) : list sym :=
  match nth_error (d_nodes d) n with
  | None => symbols
  | Some b => let l := fold_left count_stmt (body d b) symbols in if uses_expr b then count_expr l (b_expr b) else l
  end.

(* --- liveness.c --- *)
Definition ALL : Z := Z.ones 64.
Definition bit (symbols : list sym) (s : sym) : Z := match index symbols s with Some i => Z.shiftl 1 (Z.of_nat i) | None => 0 end.
Section Live.
Variable symbols : list sym.
(* liveness.c:20-30; a DIRECT variable has a symbol *)
Definition set_def_bit (v : var) : Z :=
  match v_kind v, v_sym v with
  | DIRECT, Some s => if is_scalar (s_type (tab s)) then bit symbols s else 0
  | _, _ => 0
  end.
(* liveness.c:38-61; the assertions that the symbol has an index are not here (all symbols have one) *)
Definition set_use_bit (v : var) : Z :=
  match v_kind v with
  | DEREF => ALL
  | DIRECT | ADDRESS => match v_sym v with Some s => if is_object (s_type (tab s)) then bit symbols s else 0 | None => 0 end
  | IMMEDIATE => match v_sym v with Some s => bit symbols s | None => 0 end
  end.
(* liveness.c:63-80 *)
Definition use (e : expr) : Z := Z.lor (if binary e then set_use_bit (e_r e) else 0) (set_use_bit (e_l e)).
Definition with_kind (v : var) (k : kind) : var := mkVar k (v_width v) (v_foff v) (v_type v) (v_offset v) (v_sym v) (v_imm v).
(* liveness.c:107-131 *)
Definition uses (s : stmt) : Z :=
  let r := use (st_expr s) in
  match st_st s with
  | IR_ASSIGN =>
    match v_kind (st_t s), v_sym (st_t s) with
    | DEREF, Some _ => Z.lor r (set_use_bit (with_kind (st_t s) DIRECT))
    | _, _ => r
    end
  | IR_PARAM => if is_or_has_pointer (e_type (st_expr s)) then Z.lor r ALL else r
  | _ => r
  end.
(* liveness.c:133-143 *)
Definition defs (s : stmt) : Z := match st_st s with IR_ASSIGN => set_def_bit (st_t s) | _ => 0 end.
Definition before (s : stmt) : Z := Z.lor (Z.ldiff (st_out s) (defs s)) (uses s).
Definition with_out (s : stmt) (o : Z) : stmt := mkStmt (st_st s) o (st_t s) (st_expr s).

(* liveness.c:165-187: from the last statement to the first; what is live after the last one is out *)
Fixpoint annotate (l : list stmt) (out : Z) : list stmt * Z :=
  match l with
  | [] => ([], out)
  | s :: r => let (r', o) := annotate r out in let s' := with_out s o in (s' :: r', before s')
  end.
Definition live_in (d : def) (n : option nat) : Z :=
  match n with Some n => match nth_error (d_nodes d) n with Some b => b_in b | None => 0 end | None => 0 end.
Definition splice (l : list stmt) (i : nat) (m : list stmt) : list stmt := firstn i l ++ m ++ skipn (i + length m) l.
(* liveness.c:145-190 live_variable_analysis; true: the block has changed *)
Definition live_variable_analysis (d : def) (n : nat) : def * bool :=
  match nth_error (d_nodes d) n with
  | None => (d, false)
  | Some b =>
    let out := match b_jump0 b with
      | Some _ => Z.lor (live_in d (b_jump0 b)) (match b_jump1 b with Some _ => live_in d (b_jump1 b) | None => 0 end)
      | None => 0
      end in
    let last := if uses_expr b then Z.lor out (use (b_expr b)) else out in
    let (l, i) := annotate (body d b) last in
    (mkDef (d_body d) (upd (d_nodes d) n (mkBlock (b_head b) (b_count b) (b_expr b) (b_jump0 b) (b_jump1 b) (b_ret b) i out))
       (splice (d_stmts d) (b_head b) l), negb (b_in b =? i))
  end.

(* --- transform.c --- *)
(* optimize.c:248-256 is_live_after, with optimization *)
Definition is_live_after (s : sym) (st : stmt) : bool :=
  if is_object (s_type (tab s)) then match index symbols s with Some i => Z.testbit (st_out st) (Z.of_nat i) | None => true end else true.
(* transform.c:11-20 *)
Definition sym_eqb (a b : option sym) : bool := match a, b with None, None => true | Some x, Some y => Nat.eqb x y | _, _ => false end.
Definition var_equal (a b : var) : bool :=
  type_equal (v_type a) (v_type b) && sym_eqb (v_sym a) (v_sym b) && kind_eqb (v_kind a) (v_kind b) &&
  (v_width a =? v_width b) && (v_foff a =? v_foff b) && (v_offset a =? v_offset b).
(* transform.c:34-48 *)
Definition can_merge (s1 s2 : stmt) : bool :=
  is_assign s1 && is_assign s2 && is_identity (st_expr s2) && var_equal (st_t s1) (e_l (st_expr s2)) &&
  type_equal (v_type (st_t s1)) (v_type (st_t s2)) && kind_eqb (v_kind (st_t s1)) DIRECT &&
  match v_sym (st_t s1) with Some s => s_none (tab s) && (v_width (st_t s1) =? 0) && negb (is_live_after s s2) | None => false end.
(* array.h:52-60 *)
Definition erase {A} (l : list A) (i : nat) : list A := firstn i l ++ skipn (S i) l.
(* transform.c:50-71 statement_array_erase *)
Definition shift_block (i : nat) (b : block) : block :=
  if (b_head b + b_count b <? i)%nat then b
  else if (b_head b <=? i)%nat && (i <? b_head b + b_count b)%nat
  then mkBlock (b_head b) (b_count b - 1) (b_expr b) (b_jump0 b) (b_jump1 b) (b_ret b) (b_in b) (b_out b)
  else if (i <? b_head b)%nat
  then mkBlock (b_head b - 1) (b_count b) (b_expr b) (b_jump0 b) (b_jump1 b) (b_ret b) (b_in b) (b_out b)
  else b.
Definition statement_array_erase (d : def) (i : nat) : def := mkDef (d_body d) (map (shift_block i) (d_nodes d)) (erase (d_stmts d) i).

(* transform.c:73-101; the loop from statement i on, s1 is the one before; the number of changes *)
Fixpoint merge_loop (fuel : nat) (d : def) (n i : nat) (s1 : stmt) (c : nat) : def * nat :=
  match fuel with
  | O => (d, c)
  | S fuel =>
    match nth_error (d_nodes d) n with
    | None => (d, c)
    | Some b =>
      if (i <? b_count b)%nat then
        match nth_error (d_stmts d) (b_head b + i) with
        | None => (d, c)
        | Some s2 =>
          if can_merge s1 s2 then
            let s1 := mkStmt (st_st s1) (st_out s1) (st_t s2) (st_expr s1) in
            let d := statement_array_erase (set_stmts d (upd (d_stmts d) (b_head b + i - 1) s1)) (b_head b + i) in
            merge_loop fuel d n i s1 (S c)
          else merge_loop fuel d n (S i) s2 c
        end
      else (d, c)
    end
  end.
Definition merge_chained_assignment (d : def) (n : nat) : def * nat :=
  match nth_error (d_nodes d) n with
  | None => (d, O)
  | Some b =>
    if (b_count b <=? 1)%nat then (d, O)
    else match nth_error (d_stmts d) (b_head b) with Some s1 => merge_loop (b_count b) d n 1 s1 0 | None => (d, O) end
  end.
(* transform.c:103-128 *)
Definition is_dead (st : stmt) : bool :=
  is_assign st && kind_eqb (v_kind (st_t st)) DIRECT &&
  match v_sym (st_t st) with Some s => negb (is_live_after s st) && s_none (tab s) | None => false end.
Definition to_expr (s : stmt) : stmt := mkStmt IR_EXPR (st_out s) (st_t s) (st_expr s).
Fixpoint dead_loop (fuel : nat) (d : def) (n i : nat) (c : nat) : def * nat :=
  match fuel with
  | O => (d, c)
  | S fuel =>
    match nth_error (d_nodes d) n with
    | None => (d, c)
    | Some b =>
      if (i <? b_count b)%nat then
        match nth_error (d_stmts d) (b_head b + i) with
        | None => (d, c)
        | Some st =>
          if is_dead st then
            if has_side_effects (st_expr st) then dead_loop fuel (set_stmts d (upd (d_stmts d) (b_head b + i) (to_expr st))) n (S i) (S c)
            else dead_loop fuel (statement_array_erase d (b_head b + i)) n i (S c)
          else dead_loop fuel d n (S i) c
        end
      else (d, c)
    end
  end.
Definition dead_store_elimination (d : def) (n : nat) : def * nat :=
  match nth_error (d_nodes d) n with Some b => dead_loop (b_count b) d n 0 0 | None => (d, O) end.

(* --- optimize.c --- *)
(* optimize.c:178-191 traverse, with the sum of the results *)
Definition traverse (f : def -> nat -> def * nat) (d : def) (bl : list nat) : def * nat :=
  fold_left (fun acc n => let (d', c) := f (fst acc) n in (d', snd acc + c)%nat) bl (d, O).
Definition analysis (d : def) (n : nat) : def * nat := let (d', b) := live_variable_analysis d n in (d', if b then 1%nat else O).
(* optimize.c:197-206 execute_iterative_dataflow; None: no end within fuel iterations *)
Fixpoint execute_iterative_dataflow (fuel : nat) (d : def) (bl : list nat) : option def :=
  match fuel with
  | O => None
  | S fuel => let (d', c) := traverse analysis d bl in match c with O => Some d' | _ => execute_iterative_dataflow fuel d' bl end
  end.
(* optimize.c:282-290 *)
Fixpoint optimize_loop (fuel : nat) (d : def) (bl : list nat) : option def :=
  match fuel with
  | O => None
  | S fuel' =>
    match execute_iterative_dataflow fuel d bl with
    | None => None
    | Some d =>
      let (d, c1) := traverse dead_store_elimination d bl in
      let (d, c2) := traverse merge_chained_assignment d bl in
      match (c1 + c2)%nat with O => Some d | _ => optimize_loop fuel' d bl end
    end
  end.
End Live.

(* optimize.c:47-64; the output of every statement, the blocks of the list *)
Definition clear_block (b : block) : block := mkBlock (b_head b) (b_count b) (b_expr b) (b_jump0 b) (b_jump1 b) (b_ret b) 0 0.
Definition initialize_dataflow (d : def) (bl : list nat) : def :=
  mkDef (d_body d) (fold_left (fun l n => match nth_error l n with Some b => upd l n (clear_block b) | None => l end) bl (d_nodes d))
    (map (fun s => with_out s 0) (d_stmts d)).

(* optimize.c:30-45 serialize_basic_blocks; depth first, seen: the list so far.  A node is not entered twice, so that the
   depth is at most the number of nodes. *)
Fixpoint serialize (fuel : nat) (d : def) (seen : list nat) (n : nat) : list nat :=
  match fuel with
  | O => seen
  | S fuel =>
    if existsb (Nat.eqb n) seen then seen
    else match nth_error (d_nodes d) n with
      | None => seen
      | Some b =>
        let seen := seen ++ [n] in
        match b_jump0 b with
        | None => seen
        | Some x => let seen := serialize fuel d seen x in match b_jump1 b with None => seen | Some y => serialize fuel d seen y end
        end
      end
  end.
Definition serialize_basic_blocks (d : def) : list nat := serialize (S (length (d_nodes d))) d [] (d_body d).

(* optimize.c:157-172 skip_empty_blocks; None: no end within fuel iterations *)
Definition empty_block (b : block) : option nat :=
  match b_count b, b_jump0 b, b_jump1 b with O, Some m, None => Some m | _, _, _ => None end.
Definition jump (b : block) (i : bool) : option nat := if i then b_jump1 b else b_jump0 b.
Definition set_jump (b : block) (i : bool) (m : nat) : block :=
  if i then mkBlock (b_head b) (b_count b) (b_expr b) (b_jump0 b) (Some m) (b_ret b) (b_in b) (b_out b)
  else mkBlock (b_head b) (b_count b) (b_expr b) (Some m) (b_jump1 b) (b_ret b) (b_in b) (b_out b).
Fixpoint skip_jump (fuel : nat) (d : def) (n : nat) (i : bool) : option def :=
  match fuel with
  | O => None
  | S fuel =>
    match nth_error (d_nodes d) n with
    | None => Some d
    | Some b =>
      match jump b i with
      | None => Some d
      | Some x =>
        match nth_error (d_nodes d) x with
        | None => Some d
        | Some next =>
          match empty_block next with
          | Some m => skip_jump fuel (set_nodes d (upd (d_nodes d) n (set_jump b i m))) n i
          | None => Some d
          end
        end
      end
    end
  end.
Definition skip_empty_blocks (fuel : nat) (d : def) (n : nat) : option def :=
  match nth_error (d_nodes d) n with
  | Some b =>
    match b_jump0 b with
    | None => Some d
    | Some _ => match skip_jump fuel d n false with Some d => skip_jump fuel d n true | None => None end
    end
  | None => Some d
  end.
Definition skip_all (fuel : nat) (d : def) (bl : list nat) : option def :=
  fold_left (fun acc n => match acc with Some d => skip_empty_blocks fuel d n | None => None end) bl (Some d).

(* optimize.c:263-295 optimize, at an optimization level other than 0 *)
Definition optimize (fuel : nat) (d : def) : option def :=
  let bl := serialize_basic_blocks d in
  match skip_all fuel d bl with
  | None => None
  | Some d =>
    let symbols := fold_left (enumerate_used_symbols d) bl [] in
    if (length symbols <? 64)%nat then optimize_loop symbols fuel (initialize_dataflow d bl) bl else Some d
  end.
End Optimize.
