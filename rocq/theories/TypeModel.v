(* Type values and arithmetic conversions.  include/lacc/type.h, src/parser/typetree.c. *)
From Coq Require Import List ZArith Bool.
Import ListNotations.
Open Scope Z_scope.

(* type.h:12-27 enum type *)
Inductive tkind := T_VOID | T_BOOL | T_CHAR | T_SHORT | T_INT | T_LONG | T_FLOAT | T_DOUBLE
  | T_LDOUBLE | T_POINTER | T_FUNCTION | T_ARRAY | T_STRUCT | T_UNION.
Definition tindex (k : tkind) : Z :=
  match k with
  | T_VOID => 0 | T_BOOL => 1 | T_CHAR => 2 | T_SHORT => 3 | T_INT => 4 | T_LONG => 5 | T_FLOAT => 6
  | T_DOUBLE => 7 | T_LDOUBLE => 8 | T_POINTER => 9 | T_FUNCTION => 10 | T_ARRAY => 11
  | T_STRUCT => 12 | T_UNION => 13
  end.
Definition tkind_eqb (a b : tkind) : bool := tindex a =? tindex b.

(* type.h:43-54 Type *)
Record Type_ := mkType {
  ty : tkind; ty_unsigned : bool; ty_const : bool; ty_volatile : bool; ty_restrict : bool;
  ty_pointer : bool; ty_pconst : bool; ty_pvolatile : bool; ty_prestrict : bool; ty_ref : Z }.

(* type.h:57-85 *)
Definition type_of (t : Type_) : tkind := if ty_pointer t then T_POINTER else ty t.
Definition between (lo hi : tkind) (t : Type_) : bool :=
  (tindex lo <=? tindex (type_of t)) && (tindex (type_of t) <=? tindex hi).
Definition is_bool (t : Type_) : bool := tkind_eqb (type_of t) T_BOOL.
Definition is_integer : Type_ -> bool := between T_BOOL T_LONG.
Definition is_unsigned (t : Type_) : bool := (negb (ty_pointer t) && ty_unsigned t) || is_bool t.
Definition is_signed (t : Type_) : bool := negb (is_unsigned t) && is_integer t.
Definition is_pointer (t : Type_) : bool := tkind_eqb (type_of t) T_POINTER.
Definition is_float (t : Type_) : bool := tkind_eqb (type_of t) T_FLOAT.
Definition is_double (t : Type_) : bool := tkind_eqb (type_of t) T_DOUBLE.
Definition is_long_double (t : Type_) : bool := tkind_eqb (type_of t) T_LDOUBLE.
Definition is_arithmetic : Type_ -> bool := between T_BOOL T_LDOUBLE.

(* typetree.c:17-30 basic types *)
Definition basic (k : tkind) (u : bool) : Type_ := mkType k u false false false false false false false 0.
Definition basic_type__void := basic T_VOID false.
Definition basic_type__bool := basic T_BOOL false.
Definition basic_type__char := basic T_CHAR false.
Definition basic_type__unsigned_char := basic T_CHAR true.
Definition basic_type__short := basic T_SHORT false.
Definition basic_type__unsigned_short := basic T_SHORT true.
Definition basic_type__int := basic T_INT false.
Definition basic_type__unsigned_int := basic T_INT true.
Definition basic_type__long := basic T_LONG false.
Definition basic_type__unsigned_long := basic T_LONG true.
Definition basic_type__float := basic T_FLOAT false.
Definition basic_type__double := basic T_DOUBLE false.
Definition basic_type__long_double := basic T_LDOUBLE false.

(* typetree.c:182-195 type_unqualified *)
Definition type_unqualified (t : Type_) : Type_ :=
  if ty_pointer t
  then mkType (ty t) (ty_unsigned t) (ty_const t) (ty_volatile t) (ty_restrict t) true false false false (ty_ref t)
  else mkType (ty t) (ty_unsigned t) false false false false (ty_pconst t) (ty_pvolatile t) (ty_prestrict t) (ty_ref t).

(* typetree.c:1146-1174 size_of, for scalar types; the size of aggregates is in LayoutModel.v *)
Definition size_of (t : Type_) : Z :=
  match type_of t with
  | T_BOOL | T_CHAR => 1
  | T_SHORT => 2
  | T_INT | T_FLOAT => 4
  | T_LONG | T_DOUBLE | T_POINTER => 8
  | T_LDOUBLE => 16
  | _ => 0
  end.

(* typetree.c:1032-1040 promote_integer (the assertion is a hypothesis of the theorems) *)
Definition promote_integer (t : Type_) : Type_ := if size_of t <? 4 then basic_type__int else t.

(* typetree.c:1042-1053 default_argument_promotion *)
Definition default_argument_promotion (t : Type_) : Type_ :=
  if is_float t then basic_type__double else if is_integer t then promote_integer t else t.

(* typetree.c:1055-1080 usual_arithmetic_conversion *)
Definition usual_arithmetic_conversion (t1 t2 : Type_) : Type_ :=
  type_unqualified
   (if is_long_double t1 || is_long_double t2 then basic_type__long_double
    else if is_double t1 || is_double t2 then basic_type__double
    else if is_float t1 || is_float t2 then basic_type__float
    else
      let t1 := promote_integer t1 in
      let t2 := promote_integer t2 in
      if size_of t2 <? size_of t1 then t1
      else if size_of t1 <? size_of t2 then t2
      else if is_unsigned t1 then t1 else t2).
