(* Declarators: from tokens to types.
   src/parser/declaration.c:56-424, src/parser/typetree.c:75-523, 870-882, 1146-1219, include/lacc/type.h:28-86.

   Left out, here and in what follows: arrays whose length is not a constant (type_create_vla) and the blocks their length is
   computed in; names of struct members (declarator is the same function there, with def = NULL); the 16 bits Type.ref has:
   numbers of types are not bounded here, so what is said of the code holds as long as there are at most 32767 of them. *)
From Coq Require Import List Bool Arith ZArith.
From Verif Require Import Util.
Import ListNotations.
Open Scope Z_scope.

(* include/lacc/type.h:9-27 enum type; PLACEHOLDER is -1, typetree.c:171-180. *)
Inductive tk := VOID | BOOL | CHAR | SHORT | INT | LONG | FLOAT | DOUBLE | LDOUBLE | POINTER | FUNCTION | ARRAY | STRUCT | UNION | PLACEHOLDER.
Definition tk_eqb (a b : tk) : bool :=
  match a, b with
  | VOID, VOID | BOOL, BOOL | CHAR, CHAR | SHORT, SHORT | INT, INT | LONG, LONG | FLOAT, FLOAT | DOUBLE, DOUBLE | LDOUBLE, LDOUBLE
  | POINTER, POINTER | FUNCTION, FUNCTION | ARRAY, ARRAY | STRUCT, STRUCT | UNION, UNION | PLACEHOLDER, PLACEHOLDER => true
  | _, _ => false
  end.

(* type.h:45-56 Type: type, is_unsigned, is_const, is_volatile, is_restrict, is_pointer, is_pointer_const, is_pointer_volatile,
   is_pointer_restrict, ref. *)
Record typ := mkT { kind : tk; uns : bool; tc : bool; tv : bool; tr : bool; tp : bool; pc : bool; pv : bool; pr : bool; ref : nat }.
Definition plain (k : tk) (u : bool) (r : nat) : typ := mkT k u false false false false false false false r.
Definition void_type : typ := plain VOID false 0.        (* basic_type__void *)

(* type.h:59-86 *)
Definition type_of (t : typ) : tk := if tp t then POINTER else kind t.
Definition is_void (t : typ) := tk_eqb (type_of t) VOID.
Definition is_pointer (t : typ) := tk_eqb (type_of t) POINTER.
Definition is_array (t : typ) := tk_eqb (type_of t) ARRAY.
Definition is_function (t : typ) := tk_eqb (type_of t) FUNCTION.
Definition is_const (t : typ) := if tp t then pc t else tc t.
Definition is_volatile (t : typ) := if tp t then pv t else tv t.
Definition is_restrict (t : typ) := if tp t then pr t else tr t.

(* Names are numbers; None is the empty string. *)
Definition name := option nat.
(* type.h:121-133 struct member: the fields a parameter uses. *)
Record member := mkM { mname : name; mtype : typ; moffset : Z }.
(* typetree.c:12-81 struct typetree: the fields used here. *)
Record node := mkN { nkind : tk; nconst : bool; nvolatile : bool; nrestrict : bool; nsize : Z; incomplete : bool; vararg : bool;
                     members : list member; nnext : typ }.
Definition heap := list node.        (* static array_of(struct typetree) types *)

(* What a call comes to: a value, a diagnostic followed by exit(1), a failed assertion, or not enough fuel. *)
Inductive outcome (A : Type) := Ok (a : A) | Stop | Bad | Fuel.
Arguments Ok {A} a. Arguments Stop {A}. Arguments Bad {A}. Arguments Fuel {A}.
Definition bind {A B} (x : outcome A) (f : A -> outcome B) : outcome B :=
  match x with Ok a => f a | Stop => Stop | Bad => Bad | Fuel => Fuel end.
Notation "'let*' x ':=' a 'in' b" := (bind a (fun x => b)) (at level 200, x pattern, a at level 100, b at level 200).

(* typetree.c:89-95 get_typetree_handle: numbers start at 1. *)
Definition node_at (h : heap) (r : nat) : option node := match r with O => None | S i => nth_error h i end.
Definition handle (h : heap) (r : nat) : outcome node := match node_at h r with Some n => Ok n | None => Bad end.
Definition put (h : heap) (r : nat) (n : node) : heap := match r with O => h | S i => upd h i n end.

(* typetree.c:97-134 get_type_handle *)
Definition type_handle (h : heap) (r : nat) : outcome typ :=
  let* t := handle h r in
  match nkind t with
  | POINTER =>
      let x := nnext t in
      if tp x then Bad
      else Ok (mkT (kind x) (uns x) (tc x) (tv x) (tr x) true (nconst t) (nvolatile t) (nrestrict t) (ref x))
  | FUNCTION | ARRAY | STRUCT | UNION => Ok (mkT (nkind t) false (nconst t) (nvolatile t) (nrestrict t) false false false false r)
  | _ => Ok (mkT (nkind t) false (nconst t) (nvolatile t) (nrestrict t) false false false false 0)
  end.

(* typetree.c:137-147 type_create *)
Definition zero_node (k : tk) : node := mkN k false false false 0 false false [] void_type.
Definition type_create (h : heap) (k : tk) (n : node) : heap * typ := (h ++ [n], plain k false (S (length h))).

(* typetree.c:182-195 *)
Definition type_unqualified (t : typ) : typ :=
  if tp t then mkT (kind t) (uns t) (tc t) (tv t) (tr t) (tp t) false false false (ref t)
  else mkT (kind t) (uns t) false false false (tp t) (pc t) (pv t) (pr t) (ref t).

(* typetree.c:374-394 type_create_pointer: the node gets is_const and is_volatile, not is_restrict. *)
Definition set_tp (t : typ) (b : bool) : typ := mkT (kind t) (uns t) (tc t) (tv t) (tr t) b (pc t) (pv t) (pr t) (ref t).
Definition create_pointer (h : heap) (next : typ) : heap * typ :=
  if tp next then
    type_create h POINTER (mkN POINTER (is_const next) (is_volatile next) false 0 false false [] (set_tp (type_unqualified next) false))
  else (h, set_tp next true).

(* typetree.c:396-406 type_create_function *)
Definition create_function (h : heap) (next : typ) : heap * typ :=
  type_create h FUNCTION (mkN FUNCTION false false false 0 true false [] next).

(* typetree.c:1146-1175 size_of: the product is one of unsigned longs. *)
Definition wrap64 (z : Z) : Z := z mod 2 ^ 64.
Fixpoint size_of (fuel : nat) (h : heap) (t : typ) : outcome Z :=
  match fuel with
  | O => Fuel
  | S f =>
      match type_of t with
      | BOOL | CHAR => Ok 1
      | SHORT => Ok 2
      | INT | FLOAT => Ok 4
      | LONG | DOUBLE | POINTER => Ok 8
      | LDOUBLE => Ok 16
      | STRUCT | UNION => let* n := handle h (ref t) in Ok (nsize n)
      | ARRAY => let* n := handle h (ref t) in let* s := size_of f h (nnext n) in Ok (wrap64 (nsize n * s))
      | _ => Ok 0
      end
  end.

(* typetree.c:408-423 type_create_array, 425-435 type_create_incomplete *)
Definition LONG_MAX : Z := 2 ^ 63 - 1.
Definition create_array (fuel : nat) (h : heap) (next : typ) (count : Z) : outcome (heap * typ) :=
  let* s := size_of fuel h next in
  if LONG_MAX <? wrap64 (count * s) then Stop
  else Ok (type_create h ARRAY (mkN ARRAY false false false count false false [] next)).
Definition create_incomplete (h : heap) (next : typ) : heap * typ :=
  type_create h ARRAY (mkN ARRAY false false false 0 true false [] next).

(* typetree.c:450-487 type_set_const, type_set_volatile, type_set_restrict, 489-498 type_apply_qualifiers *)
Definition set_const (t : typ) : typ :=
  if tp t then mkT (kind t) (uns t) (tc t) (tv t) (tr t) true true (pv t) (pr t) (ref t)
  else mkT (kind t) (uns t) true (tv t) (tr t) false (pc t) (pv t) (pr t) (ref t).
Definition set_volatile (t : typ) : typ :=
  if tp t then mkT (kind t) (uns t) (tc t) (tv t) (tr t) true (pc t) true (pr t) (ref t)
  else mkT (kind t) (uns t) (tc t) true (tr t) false (pc t) (pv t) (pr t) (ref t).
Definition set_restrict (t : typ) : outcome typ :=
  if negb (is_pointer t) then Stop
  else Ok (if tp t then mkT (kind t) (uns t) (tc t) (tv t) (tr t) true (pc t) (pv t) true (ref t)
           else mkT (kind t) (uns t) (tc t) (tv t) true false (pc t) (pv t) (pr t) (ref t)).
Definition apply_qualifiers (t other : typ) : outcome typ :=
  let t := if is_const other then set_const t else t in
  let t := if is_volatile other then set_volatile t else t in
  if is_restrict other then set_restrict t else Ok t.

(* typetree.c:1195-1206 type_deref, 1208-1219 type_next *)
Definition type_deref (h : heap) (t : typ) : outcome typ :=
  if negb (is_pointer t) then Bad
  else if tp t then Ok (set_tp (type_unqualified t) false)
  else type_handle h (ref t).
Definition type_next (h : heap) (t : typ) : outcome typ :=
  if is_pointer t then type_deref h t
  else if is_function t || is_array t then let* n := handle h (ref t) in Ok (nnext n)
  else Bad.

(* typetree.c:500-523 type_patch_declarator.  The node of a function or array is the place whose next is written to. *)
Definition set_next (n : node) (t : typ) : node :=
  mkN (nkind n) (nconst n) (nvolatile n) (nrestrict n) (nsize n) (incomplete n) (vararg n) (members n) t.
Fixpoint patch (fuel : nat) (h : heap) (head target : typ) : outcome (heap * typ) :=
  match fuel with
  | O => Fuel
  | S f =>
      if is_void head then Ok (h, target)
      else if is_pointer head then
        let* next := type_next h head in
        let* (h, next) := patch f h next target in
        let (h, next) := create_pointer h next in
        let* next := apply_qualifiers next head in
        Ok (h, next)
      else if is_function head || is_array head then
        let* n := handle h (ref head) in
        let* (h, next) := patch f h (nnext n) target in
        let* n := handle h (ref head) in
        Ok (put h (ref head) (set_next n next), head)
      else Bad
  end.

(* typetree.c:870-882 is_complete *)
Definition is_complete (h : heap) (t : typ) : outcome bool :=
  match type_of t with
  | ARRAY | FUNCTION => let* n := handle h (ref t) in Ok (negb (incomplete n))
  | _ => Ok true
  end.

(* typetree.c:204-254 add_member and 618-630 type_add_member, for a function; 803-811 type_seal, for a function *)
Definition same_name (a b : name) : bool := match a, b with Some x, Some y => Nat.eqb x y | _, _ => false end.
Definition add_member (h : heap) (fn : typ) (m : member) : outcome heap :=
  let* n := handle h (ref fn) in
  if existsb (fun m' => same_name (mname m) (mname m')) (members n) then Stop
  else Ok (put h (ref fn) (mkN (nkind n) (nconst n) (nvolatile n) (nrestrict n) (nsize n)
             (tk_eqb (kind (mtype m)) PLACEHOLDER) (vararg n) (members n ++ [m]) (nnext n))).
Definition add_dots (h : heap) (fn : typ) : outcome heap :=
  let* n := handle h (ref fn) in
  if vararg n || incomplete n then Bad
  else Ok (put h (ref fn) (mkN (nkind n) (nconst n) (nvolatile n) (nrestrict n) (nsize n) false true (members n) (nnext n))).
Definition type_seal (h : heap) (fn : typ) : outcome heap :=
  let* n := handle h (ref fn) in
  Ok (put h (ref fn) (mkN (nkind n) (nconst n) (nvolatile n) (nrestrict n) (nsize n) false (vararg n) (members n) (nnext n))).

(* Tokens.  Kbase: the keywords that name a type without qualifiers, as `unsigned long`; Ktag: `struct x` or `union x`, for
   which struct_or_union_declaration gives the type numbered r (what sequences of keywords mean is C39).  Knum: a constant
   expression, taken as one token, with its value (C06, C17).  Kother: anything else, which ends a declarator. *)
Inductive tok :=
| Kid (x : nat) | Klp | Krp | Klb | Krb | Kstar | Kcomma | Kdots | Kconst | Kvolatile | Krestrict | Kstatic
| Knum (z : Z) | Kbase (k : tk) (u : bool) | Ktag (k : tk) (r : nat) | Kother (i : nat).

(* Visible ordinary identifiers, innermost first: a typedef with its type, or something else.  get_typedef,
   src/parser/symtab.c: the type of a typedef, NULL if the name means something else or nothing.  push_scope and pop_scope
   around parameters are the two uses of env in direct_declarator below. *)
Definition env := list (nat * option typ).
Fixpoint get_typedef (e : env) (x : nat) : option typ :=
  match e with
  | [] => None
  | (y, t) :: e => if Nat.eqb x y then t else get_typedef e x
  end.

(* declaration.c:628-858 declaration_specifiers, for the tokens above.  has: a type specifier was seen; without one the type
   is int. *)
Fixpoint specifiers (e : env) (has : option typ) (c v : bool) (ts : list tok) : typ * list tok :=
  let done :=
    let t := match has with Some t => t | None => plain INT false 0 end in
    let t := if c then set_const t else t in
    ((if v then set_volatile t else t), ts) in
  match ts with
  | Kconst :: r => specifiers e has true v r
  | Kvolatile :: r => specifiers e has c true r
  | Kbase k u :: r => match has with None => specifiers e (Some (plain k u 0)) c v r | Some _ => done end
  | Ktag k n :: r => match has with None => specifiers e (Some (plain k false n)) c v r | Some _ => done end
  | Kid x :: r =>
      match has with
      | None => match get_typedef e x with Some t => specifiers e (Some t) c v r | None => done end
      | Some _ => done
      end
  | _ => done
  end.

(* declaration.c:379-398 pointer, after the star *)
Fixpoint pointer_quals (t : typ) (ts : list tok) : outcome (typ * list tok) :=
  match ts with
  | Kconst :: r => pointer_quals (set_const t) r
  | Kvolatile :: r => pointer_quals (set_volatile t) r
  | Krestrict :: r => let* t := set_restrict t in pointer_quals t r
  | _ => Ok (t, ts)
  end.

(* declaration.c:167-195 array_param_qualifiers: const, volatile, restrict, static *)
Record cvrs := mkQ { qc : bool; qv : bool; qr : bool; qs : bool }.
Fixpoint array_quals (q : cvrs) (ts : list tok) : cvrs * list tok :=
  match ts with
  | Kconst :: r => array_quals (mkQ true (qv q) (qr q) (qs q)) r
  | Kvolatile :: r => array_quals (mkQ (qc q) true (qr q) (qs q)) r
  | Krestrict :: r => array_quals (mkQ (qc q) (qv q) true (qs q)) r
  | _ => (q, ts)
  end.
Definition array_param_qualifiers (ts : list tok) : cvrs * list tok :=
  let (s, ts) := match ts with Kstatic :: r => (true, r) | _ => (false, ts) end in
  let (q, ts) := array_quals (mkQ false false false s) ts in
  match qs q, ts with
  | false, Kstatic :: r => (mkQ (qc q) (qv q) (qr q) true, r)
  | _, _ => (q, ts)
  end.

Definition consume (t : tok) (ts : list tok) : outcome (list tok) :=
  match ts, t with
  | Krp :: r, Krp => Ok r
  | Krb :: r, Krb => Ok r
  | Klb :: r, Klb => Ok r
  | _, _ => Stop
  end.
Definition starts_bracket (ts : list tok) : bool := match ts with Klb :: _ => true | _ => false end.

(* declaration.c:213-276: what stands between the brackets.  def: there is a function or object being defined to put code
   into; without it (members of structs) a constant is read at once.  len: static_length is not NULL. *)
Definition array_length (def len : bool) (ts : list tok) : outcome (cvrs * option Z * list tok) :=
  let noq := mkQ false false false false in
  match ts with
  | Krb :: _ => Ok (noq, None, ts)
  | _ =>
      let (q, ts) := if def && len then array_param_qualifiers ts else (noq, ts) in
      match ts with
      | Krb :: _ => if qs q then Stop else Ok (q, None, ts)
      | Knum z :: r => if z <? 0 then Stop else Ok (q, Some z, r)
      | _ => Stop
      end
  end.
(* declaration.c:279-297 *)
Definition array_type (fuel : nat) (h : heap) (base : typ) (len : bool) (q : cvrs) (n : option Z) : outcome (heap * typ) :=
  if len then
    let (h, t) := create_pointer h base in
    let t := if qc q then set_const t else t in
    let t := if qv q then set_volatile t else t in
    if qr q then let* t := set_restrict t in Ok (h, t) else Ok (h, t)
  else match n with
       | None => Ok (create_incomplete h base)
       | Some z => create_array fuel h base z
       end.
(* declaration.c:204-298 array_declarator; the length is what *static_length is set to *)
Fixpoint array_declarator (fuel : nat) (def : bool) (h : heap) (base : typ) (len : bool) (ts : list tok)
  : outcome (heap * typ * Z * list tok) :=
  match fuel with
  | O => Fuel
  | S f =>
      let* ts := consume Klb ts in
      let* (q, n, ts) := array_length def len ts in
      let* ts := consume Krb ts in
      let* (h, base, ts) :=
        (if starts_bracket ts then let* (h, base, _, ts) := array_declarator f def h base false ts in Ok (h, base, ts)
         else Ok (h, base, ts)) in
      let* ok := is_complete h base in
      if negb ok then Stop
      else
        let* (h, t) := array_type f h base len q n in
        Ok (h, t, match n with Some z => z | None => 0 end, ts)
  end.

(* declaration.c:135-160 identifier_list, after the function was created *)
Fixpoint identifiers (e : env) (h : heap) (fn : typ) (ts : list tok) : outcome (heap * list tok) :=
  match ts with
  | Kid x :: r =>
      match get_typedef e x with
      | Some _ => Stop
      | None =>
          let* h := add_member h fn (mkM (Some x) (plain PLACEHOLDER false 0) 0) in
          match r with
          | Kcomma :: r => identifiers e h fn r
          | _ => Ok (h, r)
          end
      end
  | _ => Stop
  end.

(* declaration.c:320-338, 347-349: does the parenthesis hold a declarator; does it hold a list of identifiers *)
Definition nested (e : env) (ts : list tok) : bool :=
  match ts with
  | Klp :: Kid x :: _ => match get_typedef e x with None => true | Some _ => false end
  | Klp :: Klp :: _ | Klp :: Kstar :: _ => true
  | _ => false
  end.
Definition old_style (e : env) (ts : list tok) : bool :=
  match ts with
  | Kid x :: _ => match get_typedef e x with None => true | Some _ => false end
  | _ => false
  end.

Definition declared (e : env) (x : name) : env := match x with Some y => (y, None) :: e | None => e end.

(* declaration.c:400-414 parameter_declarator (len: length is not NULL; declarator, 416-424, is the one without), 311-377
   direct_declarator, 77-119 the loop of parameter_list.  named: name is not NULL.  The result has the type, the name, the
   length of a parameter that is an array, and the tokens left. *)
Fixpoint parameter_declarator (fuel : nat) (def : bool) (e : env) (h : heap) (base : typ) (named len : bool) (ts : list tok)
  : outcome (heap * typ * name * Z * list tok) :=
  match fuel with
  | O => Fuel
  | S f =>
      match ts with
      | Kstar :: r =>
          let (h, t) := create_pointer h base in
          let* (t, r) := pointer_quals t r in
          parameter_declarator f def e h t named len r
      | _ => direct_declarator f def e h base named len ts
      end
  end
with direct_declarator (fuel : nat) (def : bool) (e : env) (h : heap) (base : typ) (named len : bool) (ts : list tok)
  : outcome (heap * typ * name * Z * list tok) :=
  match fuel with
  | O => Fuel
  | S f =>
      let* (h, head, x, ts) :=
        match ts with
        | Kid x :: r => if named then Ok (h, void_type, Some x, r) else Stop
        | _ =>
            if nested e ts then
              let* (h, head, x, _, ts) := parameter_declarator f def e h void_type named false (tl ts) in
              let* ts := consume Krp ts in
              Ok (h, head, x, ts)
            else Ok (h, void_type, None, ts)
        end in
      let len := len && is_void head in
      let* (h, t, n, ts) :=
        match ts with
        | Klb :: _ => array_declarator f def h base len ts
        | Klp :: r =>
            let (h, fn) := create_function h base in
            if old_style e r then
              let* (h, ts) := identifiers e h fn r in
              let* ts := consume Krp ts in
              Ok (h, fn, 0, ts)
            else
              let* (h, ts) := parameters f def e h fn r in
              let* ts := consume Krp ts in
              Ok (h, fn, 0, ts)
        | _ => Ok (h, base, 0, ts)
        end in
      if is_void head then Ok (h, t, x, n, ts)
      else let* (h, t) := patch f h head t in Ok (h, t, x, n, ts)
  end
with parameters (fuel : nat) (def : bool) (e : env) (h : heap) (fn : typ) (ts : list tok) : outcome (heap * list tok) :=
  match fuel with
  | O => Fuel
  | S f =>
      match ts with
      | Krp :: _ => Ok (h, ts)
      | _ =>
          let (base, ts) := specifiers e None false false ts in
          let* (h, t, x, n, ts) := parameter_declarator f def e h base true true ts in
          if is_void t then
            let* fnode := handle h (ref fn) in
            if negb (Nat.eqb (length (members fnode)) 0) then Stop
            else let* h := type_seal h fn in Ok (h, ts)
          else
            let* (h, t) :=
              (if is_array t then let* next := type_next h t in Ok (create_pointer h next)
               else if is_function t then Ok (create_pointer h t)
               else Ok (h, t)) in
            let* h := add_member h fn (mkM x t n) in
            match ts with
            | Kcomma :: Kdots :: r => let* h := add_dots h fn in Ok (h, r)
            | Kcomma :: r => parameters f def (declared e x) h fn r
            | _ => Ok (h, ts)
            end
      end
  end.

(* declaration.c:416-424 *)
Definition declarator (fuel : nat) (def : bool) (e : env) (h : heap) (base : typ) (named : bool) (ts : list tok)
  : outcome (heap * typ * name * list tok) :=
  let* (h, t, x, _, ts) := parameter_declarator fuel def e h base named false ts in Ok (h, t, x, ts).
