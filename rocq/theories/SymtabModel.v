(* Symbol table: scopes, declaration of names, assembler names, and the final list of
   declarations.  src/parser/symtab.c:153-231, 296-452, 454-538, 561-583; parse.c:210-285. *)
From Coq Require Import List ZArith Bool.
From Verif Require Import Bytes.
Import ListNotations.
Open Scope Z_scope.

(* include/lacc/symbol.h:16-62 *)
Inductive symtype := SDefinition | STentative | SDeclaration | STypedef | STag | SConstant | SLabel | SLiteral | SBuiltin.
Inductive linkage := LNone | LIntern | LExtern.

(* conversion to short, symbol.h:87,93 *)
Definition to_short (z : Z) : Z := (z + 32768) mod 65536 - 32768.

Section Symtab.
(* Types, and what symtab.c asks of them: is_function, type_equal, and sym_apply_type (241-291),
   which gives the new type of the symbol, or exits. *)
Variable Ty : Type.
Variable is_function : Ty -> bool.
Variable type_equal : Ty -> Ty -> bool.
Variable apply_type : Ty -> Ty -> option Ty.

(* include/lacc/symbol.h:64-137 struct symbol, the fields used here; a symbol is known by its
   index in the list of all symbols of the namespace (symtab.h:18-22). *)
Record symbol := mk_symbol {
  s_name : list Z; s_type : Ty; s_kind : symtype; s_link : linkage; s_n : Z; s_depth : Z; s_ref : bool }.

(* symtab.h:13-52 struct namespace.  `visible` holds scope.names and scope.symbols, last one first,
   `counts` the same; `globals` is the hash table (C01), `functions` that of symtab.c:92. *)
Record ns := mk_ns {
  symbols : list symbol; globals : list (list Z * nat); counts : list nat;
  visible : list (list Z * nat); functions : list (list Z * nat); statics : Z }.
Definition ns0 : ns := mk_ns [] [] [] [] [] 0.

Fixpoint assoc (l : list (list Z * nat)) (n : list Z) : option nat :=
  match l with
  | [] => None
  | (m, s) :: r => if list_eqb m n then Some s else assoc r n
  end.
(* hash_insert without a constructor: an existing entry stays. *)
Definition insert (l : list (list Z * nat)) (n : list Z) (s : nat) : list (list Z * nat) :=
  match assoc l n with Some _ => l | None => (n, s) :: l end.

(* symtab.c:153-156 *)
Definition push_scope (st : ns) : ns :=
  mk_ns (symbols st) (globals st) (0%nat :: counts st) (visible st) (functions st) (statics st).
(* symtab.c:158-167; None is the assertion *)
Definition pop_scope (st : ns) : option ns :=
  match counts st with
  | [] => None
  | c :: r => Some (mk_ns (symbols st) (globals st) r (skipn c (visible st)) (functions st) (statics st))
  end.
(* symtab.c:169-181; the label namespace has one scope, of depth 0 *)
Definition current_scope_depth (label : bool) (st : ns) : option Z :=
  if label then match counts st with [_] => Some 0 | _ => None end
  else Some (Z.of_nat (length (counts st))).
(* symtab.c:183-196 *)
Definition sym_lookup (st : ns) (n : list Z) : option nat :=
  match assoc (visible st) n with
  | Some s => Some s
  | None => assoc (globals st) n
  end.
(* symtab.c:364-373 *)
Definition sym_make_visible (st : ns) (n : list Z) (s : nat) : ns :=
  match counts st with
  | [] => mk_ns (symbols st) (insert (globals st) n s) [] (visible st) (functions st) (statics st)
  | c :: r => mk_ns (symbols st) (globals st) (S c :: r) ((n, s) :: visible st) (functions st) (statics st)
  end.

Fixpoint update (l : list symbol) (i : nat) (f : symbol -> symbol) : list symbol :=
  match l, i with
  | [], _ => []
  | x :: r, O => f x :: r
  | x :: r, S i' => x :: update r i' f
  end.
Definition set_symbols (st : ns) (l : list symbol) : ns :=
  mk_ns l (globals st) (counts st) (visible st) (functions st) (statics st).

Definition linkage_eqb (a b : linkage) : bool :=
  match a, b with LNone, LNone | LIntern, LIntern | LExtern, LExtern => true | _, _ => false end.
Definition symtype_eqb (a b : symtype) : bool :=
  match a, b with
  | SDefinition, SDefinition | STentative, STentative | SDeclaration, SDeclaration | STypedef, STypedef | STag, STag
  | SConstant, SConstant | SLabel, SLabel | SLiteral, SLiteral | SBuiltin, SBuiltin => true
  | _, _ => false
  end.

(* symtab.c:296-362 sym_redeclare; None where it exits or asserts *)
Definition redeclare (depth : Z) (x : symbol) (ty : Ty) (k : symtype) (l : linkage) : option symbol :=
  let link := match l with
    | LIntern => match s_link x with LExtern => None | _ => Some LIntern end
    | LExtern => match s_link x, k with
                 | LIntern, SDefinition | LIntern, STentative => None
                 | _, _ => Some (s_link x)
                 end
    | LNone => if (s_depth x =? depth) && negb (s_depth x =? 0) then None else Some (s_link x)
    end in
  match link with
  | None => None
  | Some link =>
    let upd k t := Some (mk_symbol (s_name x) t k link (s_n x) (s_depth x) (s_ref x)) in
    let apply k := match apply_type (s_type x) ty with Some t => upd k t | None => None end in
    match k with
    | STentative | SDeclaration =>
      let k' := match k, s_kind x with STentative, SDeclaration => STentative | _, o => o end in
      match k' with
      | SDefinition => if type_equal (s_type x) ty then upd k' (s_type x) else None
      | _ => apply k'
      end
    | SDefinition => apply SDefinition
    | STag | STypedef | SConstant =>
      if symtype_eqb (s_kind x) k && type_equal (s_type x) ty then upd (s_kind x) (s_type x) else None
    | SLabel | SLiteral | SBuiltin => None
    end
  end.

(* symtab.c:383-452 sym_add.  The new namespace and the symbol. *)
Definition sym_add (label : bool) (st : ns) (name : list Z) (ty : Ty) (k : symtype) (l : linkage) : option (ns * nat) :=
  match current_scope_depth label st with
  | None => None
  | Some depth =>
    let alloc :=
      let s := length (symbols st) in
      let local_static := linkage_eqb l LIntern && negb (to_short depth =? 0) in
      let x := mk_symbol name ty k l (if local_static then to_short (statics st + 1) else 0) (to_short depth) false in
      let st1 := mk_ns (symbols st ++ [x]) (globals st) (counts st) (visible st) (functions st)
                       (if local_static then statics st + 1 else statics st) in
      let st2 := sym_make_visible st1 name s in
      let fs := if negb (symtype_eqb k STypedef) && is_function ty then insert (functions st2) name s else functions st2 in
      Some (mk_ns (symbols st2) (globals st2) (counts st2) (visible st2) fs (statics st2), s) in
    match sym_lookup st name with
    | None =>
      if negb (symtype_eqb k STypedef) && is_function ty then
        match assoc (functions st) name with
        | Some s =>
          match nth_error (symbols st) s with
          | None => None
          | Some x =>
            match apply_type (s_type x) ty with
            | None => None
            | Some t =>
              let st1 := set_symbols st (update (symbols st) s (fun x =>
                mk_symbol (s_name x) t (s_kind x) (s_link x) (s_n x) (if depth <? s_depth x then to_short depth else s_depth x) (s_ref x))) in
              Some (sym_make_visible st1 name s, s)
            end
          end
        | None => alloc
        end
      else alloc
    | Some s =>
      match nth_error (symbols st) s with
      | None => None
      | Some x =>
        if ((depth =? 0) || linkage_eqb l LExtern) && (s_depth x =? 0) then
          match redeclare depth x ty k l with
          | Some x' => Some (set_symbols st (update (symbols st) s (fun _ => x')), s)
          | None => None
          end
        else alloc
      end
    end
  end.

(* symtab.c:561-583 yield_declaration, called until it gives NULL (lacc.c:654-656): the symbols
   handed to declare. *)
Definition yields (x : symbol) : bool :=
  match s_kind x with
  | SLiteral | SConstant | SDeclaration => s_ref x
  | STentative => true
  | _ => false
  end.
Fixpoint yield_from (fuel cursor : nat) (l : list symbol) : list nat :=
  match fuel with
  | O => []
  | S f => match nth_error l cursor with
           | None => []
           | Some x => if yields x then cursor :: yield_from f (S cursor) l else yield_from f (S cursor) l
           end
  end.
End Symtab.

(* ---- Function definitions: parse.c:210-285 ---- *)
(* A definition waiting to be compiled: its identity and whether the function is inline. *)
Record definition := mk_def { def_id : nat; def_inlined : bool }.
(* pop_inline_function, 210-233; `referenced` is the state at the end of the input, when it is called. *)
Fixpoint pop_inline (referenced : nat -> bool) (l : list definition) : option (definition * list definition) :=
  match l with
  | [] => None
  | d :: r => if referenced (def_id d) then Some (d, r)
              else match pop_inline referenced r with Some (x, r') => Some (x, d :: r') | None => None end
  end.
(* The state of parse: the declarations still in the input (each the definitions it makes), the queue of
   definitions, the inline definitions put aside. *)
Record pstate := mk_pstate { input : list (list definition); queue : list definition; inlines : list definition }.
(* 250-252 *)
Fixpoint fill (inp : list (list definition)) : list definition * list (list definition) :=
  match inp with
  | [] => ([], [])
  | [] :: r => fill r
  | ds :: r => (ds, r)
  end.
(* 246-285; fuel: one round of `while (1)` per definition *)
Fixpoint parse (fuel : nat) (referenced : nat -> bool) (st : pstate) : option (option definition * pstate) :=
  match fuel with
  | O => None
  | S n =>
    let '(q, inp) := match queue st with [] => fill (input st) | q => (q, input st) end in
    match q with
    | d :: q' =>
      if def_inlined d then parse n referenced (mk_pstate inp q' (inlines st ++ [d]))
      else Some (Some d, mk_pstate inp q' (inlines st))
    | [] =>
      match pop_inline referenced (inlines st) with
      | Some (d, r) => Some (Some d, mk_pstate inp [] r)
      | None => Some (None, mk_pstate inp [] [])
      end
    end
  end.
(* lacc.c:639-652: parse until NULL *)
Fixpoint parse_all (fuel : nat) (referenced : nat -> bool) (st : pstate) : option (list definition) :=
  match fuel with
  | O => None
  | S n =>
    match parse fuel referenced st with
    | None => None
    | Some (None, _) => Some []
    | Some (Some d, st') => match parse_all n referenced st' with Some l => Some (d :: l) | None => None end
    end
  end.

(* ---- Names: symtab.c:203-231 sym_name ---- *)
(* sprintf %d *)
Fixpoint digits (fuel : nat) (z : Z) : list Z :=
  match fuel with
  | O => []
  | S n => if z <? 10 then [48 + z] else digits n (z / 10) ++ [48 + z mod 10]
  end.
Definition decimal (z : Z) : list Z := if z <? 0 then 45 :: digits 6 (- z) else digits 6 z.
(* 219: None is the error for long names *)
Definition sym_name (raw : list Z) (n : Z) : option (list Z) :=
  if n =? 0 then Some raw
  else if 100 <? Z.of_nat (length raw) then None
  else match raw with
       | 46 :: _ => Some (raw ++ decimal n)
       | _ => Some (raw ++ 46 :: decimal n)
       end.

(* The creation of symbols that need storage or a label: sym_create_temporary, _unnamed, _label, _constant,
   _string (454-538) and scoped statics (sym_add, 423-425).  Each kind counts on its own. *)
Inductive creation := CTemporary | CUnnamed | CLabel | CConstant | CString | CStatic (name : list Z).
Definition raw_name (c : creation) : list Z :=
  match c with
  | CTemporary => [46; 116] | CUnnamed => [46; 117] | CLabel => [46; 76] | CConstant => [46; 67] | CString => [46; 76; 67]
  | CStatic n => n
  end.
Definition kind_no (c : creation) : Z :=
  match c with CTemporary => 0 | CUnnamed => 1 | CLabel => 2 | CConstant => 3 | CString => 4 | CStatic _ => 5 end.
(* The symbols created, given how many of each kind there were before: raw name and n. *)
Fixpoint create (counter : Z -> Z) (cs : list creation) : list (list Z * Z) :=
  match cs with
  | [] => []
  | c :: r =>
    let k := counter (kind_no c) + 1 in
    (raw_name c, to_short k) :: create (fun j => if j =? kind_no c then k else counter j) r
  end.
