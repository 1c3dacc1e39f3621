(* Declarations of one name: src/parser/typetree.c:884-1030, 1082-1144, 1221-1231, src/parser/symtab.c:241-291.
   Types are those of DeclModel, in the same table.  Left out, as there: arrays whose length is not a constant, and of the
   fields of struct typetree is_flexible, is_vla (which are compared), is_unsigned (which is never set in the table). *)
From Coq Require Import List Bool Arith ZArith.
From Verif Require Import Util DeclModel.
Import ListNotations.
Open Scope Z_scope.

(* str_eq, on names: the empty string equals itself *)
Definition str_eq (a b : name) : bool := match a, b with Some x, Some y => Nat.eqb x y | None, None => true | _, _ => false end.
(* typetree.c:973-979, 983: all of a Type but the reference *)
Definition flags_eqb (a b : typ) : bool :=
  tk_eqb (kind a) (kind b) && eqb (uns a) (uns b) && eqb (tc a) (tc b) && eqb (tv a) (tv b) && eqb (tr a) (tr b)
  && eqb (tp a) (tp b) && eqb (pc a) (pc b) && eqb (pv a) (pv b) && eqb (pr a) (pr b).

(* typetree.c:971-999 type_equal with 884-926 typetree_equal; and, with q false, 1001-1030 type_equal_unqualified with
   928-969 typetree_equal_unqualified, which differ in the lines where q is used *)
Fixpoint equal (q : bool) (fuel : nat) (h : heap) (a b : typ) : outcome bool :=
  match fuel with
  | O => Fuel
  | S f =>
      let x := if q then a else type_unqualified a in
      let y := if q then b else type_unqualified b in
      if negb (flags_eqb x y) then Ok false
      else if Nat.eqb (ref x) (ref y) then Ok true
      else if Nat.eqb (ref x) 0 || Nat.eqb (ref y) 0 then Ok false
      else
        let* ta := handle h (ref a) in
        let* tb := handle h (ref b) in
        if negb (tk_eqb (nkind ta) (nkind tb) && (nsize ta =? nsize tb)
                 && (negb q || (eqb (nconst ta) (nconst tb) && eqb (nvolatile ta) (nvolatile tb) && eqb (nrestrict ta) (nrestrict tb)))
                 && eqb (vararg ta) (vararg tb) && eqb (incomplete ta) (incomplete tb))
        then Ok false
        else if negb (Nat.eqb (length (members ta)) (length (members tb))) then Ok false
        else
          let* e := equal q f h (nnext ta) (nnext tb) in
          if negb e then Ok false
          else
            (fix loop (la lb : list member) : outcome bool :=
               match la, lb with
               | ma :: la, mb :: lb =>
                   let* e := equal q f h (mtype ma) (mtype mb) in
                   if negb e then Ok false
                   else if tk_eqb (nkind ta) FUNCTION then loop la lb
                   else if negb (moffset ma =? moffset mb) then Bad
                   else if negb (str_eq (mname ma) (mname mb)) then Ok false
                   else loop la lb
               | _, _ => Ok true
               end) (members ta) (members tb)
  end.
Definition type_equal := equal true.
Definition type_equal_unqualified := equal false.

(* typetree.c:1082-1137 is_compatible; the parameters are compared by is_compatible_unqualified, 1139-1144 *)
Fixpoint is_compatible (fuel : nat) (h : heap) (l r : typ) : outcome bool :=
  match fuel with
  | O => Fuel
  | S f =>
      if negb (tk_eqb (type_of l) (type_of r) && eqb (is_const l) (is_const r) && eqb (is_volatile l) (is_volatile r)
               && eqb (is_restrict l) (is_restrict r))
      then Ok false
      else
        match type_of l with
        | BOOL | CHAR | SHORT | INT | LONG | FLOAT | DOUBLE | LDOUBLE => Ok true
        | POINTER =>
            let* a := type_next h l in
            let* b := type_next h r in
            is_compatible f h a b
        | ARRAY =>
            let* n1 := handle h (ref l) in
            let* n2 := handle h (ref r) in
            if (nsize n1 =? 0) || (nsize n2 =? 0) || (nsize n1 =? nsize n2) then is_compatible f h (nnext n1) (nnext n2)
            else Ok false
        | FUNCTION =>
            let* n1 := handle h (ref l) in
            let* n2 := handle h (ref r) in
            let* e := type_equal f h (nnext n1) (nnext n2) in
            if negb e then Ok false
            else if incomplete n1 || incomplete n2 then Ok true
            else if negb (Nat.eqb (length (members n1)) (length (members n2))) then Ok false
            else
              (fix loop (la lb : list member) : outcome bool :=
                 match la, lb with
                 | ma :: la, mb :: lb =>
                     let* e := is_compatible f h (type_unqualified (mtype ma)) (type_unqualified (mtype mb)) in
                     if negb e then Ok false else loop la lb
                 | _, _ => Ok true
                 end) (members n1) (members n2)
        | _ => type_equal f h l r
        end
  end.

(* typetree.c:1221-1231 set_array_length *)
Definition set_array_length (h : heap) (t : typ) (z : Z) : outcome heap :=
  let* n := handle h (ref t) in
  if is_array t && (nsize n =? 0) && incomplete n then
    Ok (put h (ref t) (mkN (nkind n) (nconst n) (nvolatile n) (nrestrict n) z false (vararg n) (members n) (nnext n)))
  else Bad.

(* symtab.c:241-291 sym_apply_type; sym is the type the symbol has, the result the one it has then.  Stop: error and exit(1) *)
Definition sym_apply_type (fuel : nat) (h : heap) (sym type : typ) : outcome (heap * typ) :=
  if is_function sym then
    if negb (is_function type) then Stop
    else
      let* a := type_next h sym in
      let* b := type_next h type in
      let* e := is_compatible fuel h a b in
      if negb e then Stop
      else
        let* cs := is_complete h sym in
        let* ct := is_complete h type in
        if negb cs then
          let* n := handle h (ref sym) in
          match members n with
          | [] => Ok (h, if ct then type else sym)
          | _ => Bad
          end
        else if ct then
          let* e := is_compatible fuel h sym type in
          if e then Ok (h, type) else Stop
        else Ok (h, sym)
  else if is_array sym then
    if negb (is_array type) then Stop
    else
      let* a := type_next h sym in
      let* b := type_next h type in
      let* e := type_equal_unqualified fuel h a b in
      if negb e then Stop
      else
        let* cs := is_complete h sym in
        let* ct := is_complete h type in
        if negb cs then
          if ct then
            let* n := handle h (ref type) in
            let* h := set_array_length h sym (nsize n) in
            Ok (h, sym)
          else Ok (h, sym)
        else if ct then
          let* e := is_compatible fuel h sym type in
          if e then Ok (h, sym) else Stop
        else Ok (h, sym)
  else
    let* e := is_compatible fuel h sym type in
    if e then Ok (h, sym) else Stop.

(* symtab.c:327-343, what sym_redeclare does with the types (the rest of it is in SymtabModel).  defined: the symbol is
   SYM_DEFINITION; def: so is the new declaration *)
Definition redeclare_type (fuel : nat) (h : heap) (defined def : bool) (sym type : typ) : outcome (heap * typ) :=
  if defined && negb def then
    let* e := type_equal fuel h sym type in
    if e then Ok (h, sym) else Stop
  else sym_apply_type fuel h sym type.
