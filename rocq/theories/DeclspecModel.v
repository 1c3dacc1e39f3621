(* Declaration specifiers.  src/parser/declaration.c:597-859, src/parser/typetree.c:450-470. *)
From Coq Require Import List Bool Arith.
Import ListNotations.

(* include/lacc/type.h: the fields of Type that matter here; `tree` stands for everything else (the typetree it refers to). *)
Inductive ttype := T_VOID | T_BOOL | T_CHAR | T_SHORT | T_INT | T_LONG | T_FLOAT | T_DOUBLE | T_LDOUBLE | T_OTHER (tree : nat).
Record type := mk_type { t_type : ttype; t_unsigned : bool; t_const : bool; t_volatile : bool;
                         t_pointer : bool; t_pointer_const : bool; t_pointer_volatile : bool }.
(* Type type = {0}: T_VOID is the first enumerator. *)
Definition zero_type : type := mk_type T_VOID false false false false false false.

(* Tokens.  A struct, union or enum specifier is taken as one token: what struct_or_union_declaration and enum_declaration
   consume; they run before any later specifier is looked at.  TypedefName: an identifier for which get_typedef finds a type. *)
Inductive storage := AUTO | STATIC | EXTERN | TYPEDEF.
Inductive tok :=
| VOID | BOOL | CHAR | SHORT | INT | LONG | SIGNED | UNSIGNED | FLOAT | DOUBLE | CONST | VOLATILE
| TypedefName (t : type) | StructUnion (t : type) | ENUM | INLINE | NORETURN | REGISTER | Storage (s : storage) | Other.

(* declaration.c:632-661 *)
Inductive base := B_NONE | B_VOID | B_BOOL | B_CHAR | B_INT | B_FLOAT | B_DOUBLE | B_ENUM | B_AGGREGATE.
Inductive modifier := M_NONE | M_SHORT | M_LONG | M_LONG_LONG.
Inductive sign := S_NONE | S_SIGNED | S_UNSIGNED.
Record state := mk_state {
  s_base : base; s_mod : modifier; s_sign : sign; s_const : bool; s_volatile : bool; s_type : type;
  (* struct declaration_specifier_info, declaration.h *)
  from_typedef : bool; is_inline : bool; is_noreturn : bool; is_register : bool; storage_class : option storage;
  errors : nat }.
(* declaration.c:629-665 *)
Definition start : state := mk_state B_NONE M_NONE S_NONE false false zero_type false false false false None 0.

Definition set_base (st : state) (b : base) : state :=
  mk_state b (s_mod st) (s_sign st) (s_const st) (s_volatile st) (s_type st) (from_typedef st) (is_inline st) (is_noreturn st) (is_register st) (storage_class st) (errors st).
Definition set_mod (st : state) (m : modifier) : state :=
  mk_state (s_base st) m (s_sign st) (s_const st) (s_volatile st) (s_type st) (from_typedef st) (is_inline st) (is_noreturn st) (is_register st) (storage_class st) (errors st).
Definition set_sign (st : state) (s : sign) : state :=
  mk_state (s_base st) (s_mod st) s (s_const st) (s_volatile st) (s_type st) (from_typedef st) (is_inline st) (is_noreturn st) (is_register st) (storage_class st) (errors st).
Definition error (st : state) : state :=
  mk_state (s_base st) (s_mod st) (s_sign st) (s_const st) (s_volatile st) (s_type st) (from_typedef st) (is_inline st) (is_noreturn st) (is_register st) (storage_class st) (S (errors st)).
Definition set_type (st : state) (t : type) : state :=
  mk_state (s_base st) (s_mod st) (s_sign st) (s_const st) (s_volatile st) t (from_typedef st) (is_inline st) (is_noreturn st) (is_register st) (storage_class st) (errors st).

Definition no_base (st : state) : bool := match s_base st with B_NONE => true | _ => false end.
Definition no_mod (st : state) : bool := match s_mod st with M_NONE => true | _ => false end.
Definition no_sign (st : state) : bool := match s_sign st with S_NONE => true | _ => false end.

(* declaration.c:667-810, one round of the loop; info: the argument is not NULL.  None: goto done. *)
Definition step (info : bool) (st : state) (t : tok) : option state :=
  let none := no_base st && no_mod st && no_sign st in
  match t with
  | VOID => if none then Some (set_base st B_VOID) else None
  | BOOL => if none then Some (set_base st B_BOOL) else None
  | CHAR => if no_base st && no_mod st then Some (set_base st B_CHAR) else None
  | SHORT => if no_mod st && match s_base st with B_NONE | B_INT => true | _ => false end then Some (set_mod st M_SHORT) else None
  | INT => if no_base st then Some (set_base st B_INT) else None
  | LONG => if no_base st && match s_mod st with M_NONE | M_LONG => true | _ => false end
            then Some (set_mod st (match s_mod st with M_LONG => M_LONG_LONG | _ => M_LONG end)) else None
  | SIGNED => Some (match s_sign st with S_NONE => set_sign st S_SIGNED | _ => error st end)
  | UNSIGNED => Some (match s_sign st with S_NONE => set_sign st S_UNSIGNED | _ => error st end)
  | FLOAT => if none then Some (set_base st B_FLOAT) else None
  | DOUBLE => if no_base st && match s_mod st with M_NONE | M_LONG => true | _ => false end && no_sign st
              then Some (set_base st B_DOUBLE) else None
  | CONST => Some (mk_state (s_base st) (s_mod st) (s_sign st) true (s_volatile st) (s_type st) (from_typedef st) (is_inline st) (is_noreturn st) (is_register st) (storage_class st) (errors st))
  | VOLATILE => Some (mk_state (s_base st) (s_mod st) (s_sign st) (s_const st) true (s_type st) (from_typedef st) (is_inline st) (is_noreturn st) (is_register st) (storage_class st) (errors st))
  | TypedefName ty =>
      if none then
        let st := set_type (set_base st B_AGGREGATE) ty in
        Some (mk_state (s_base st) (s_mod st) (s_sign st) (s_const st) (s_volatile st) (s_type st) (from_typedef st || info) (is_inline st) (is_noreturn st) (is_register st) (storage_class st) (errors st))
      else None
  | StructUnion ty => if none then Some (set_type (set_base st B_AGGREGATE) ty) else None
  | ENUM => if none then Some (set_base st B_ENUM) else None
  | INLINE =>
      Some (if info && negb (is_inline st)
            then mk_state (s_base st) (s_mod st) (s_sign st) (s_const st) (s_volatile st) (s_type st) (from_typedef st) true (is_noreturn st) (is_register st) (storage_class st) (errors st)
            else error st)
  | NORETURN =>
      Some (if info && negb (is_noreturn st)
            then mk_state (s_base st) (s_mod st) (s_sign st) (s_const st) (s_volatile st) (s_type st) (from_typedef st) (is_inline st) true (is_register st) (storage_class st) (errors st)
            else error st)
  | REGISTER =>
      Some (if info && negb (is_register st)
            then mk_state (s_base st) (s_mod st) (s_sign st) (s_const st) (s_volatile st) (s_type st) (from_typedef st) (is_inline st) (is_noreturn st) true (storage_class st) (errors st)
            else error st)
  | Storage s =>
      Some (match info, storage_class st with
            | true, None => mk_state (s_base st) (s_mod st) (s_sign st) (s_const st) (s_volatile st) (s_type st) (from_typedef st) (is_inline st) (is_noreturn st) (is_register st) (Some s) (errors st)
            | _, _ => error st
            end)
  | Other => None
  end.
(* The loop: the final state, and what has not been consumed. *)
Fixpoint specifiers (info : bool) (st : state) (l : list tok) : state * list tok :=
  match l with
  | [] => (st, [])
  | t :: r => match step info st t with Some st' => specifiers info st' r | None => (st, l) end
  end.

(* typetree.c:450-470 *)
Definition type_set_const (t : type) : type :=
  if t_pointer t then mk_type (t_type t) (t_unsigned t) (t_const t) (t_volatile t) true true (t_pointer_volatile t)
  else mk_type (t_type t) (t_unsigned t) true (t_volatile t) false (t_pointer_const t) (t_pointer_volatile t).
Definition type_set_volatile (t : type) : type :=
  if t_pointer t then mk_type (t_type t) (t_unsigned t) (t_const t) (t_volatile t) true (t_pointer_const t) true
  else mk_type (t_type t) (t_unsigned t) (t_const t) true false (t_pointer_const t) (t_pointer_volatile t).

(* declaration.c:812-858 *)
Definition simple (t : ttype) (u : bool) : type := mk_type t u false false false false false.
Definition result_type (st : state) : type :=
  let u := match s_sign st with S_UNSIGNED => true | _ => false end in
  let type :=
    match s_base st with
    | B_AGGREGATE => s_type st
    | B_VOID => simple T_VOID false
    | B_BOOL => simple T_BOOL false
    | B_CHAR => simple T_CHAR u
    | B_ENUM | B_NONE | B_INT =>
        simple (match s_mod st with M_NONE => T_INT | M_SHORT => T_SHORT | M_LONG | M_LONG_LONG => T_LONG end) u
    | B_FLOAT => simple T_FLOAT false
    | B_DOUBLE => simple (match s_mod st with M_LONG => T_LDOUBLE | _ => T_DOUBLE end) false
    end in
  let type := if s_const st then type_set_const type else type in
  if s_volatile st then type_set_volatile type else type.
(* declaration.c:627-859 *)
Definition declaration_specifiers (info : bool) (l : list tok) : type * state * list tok :=
  let (st, rest) := specifiers info start l in (result_type st, st, rest).
