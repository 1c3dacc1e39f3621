(* Type specifiers, C99 6.7.2p2; the types of this implementation (char is signed, long long is long, an enumerated type is int). *)
From Coq Require Import List Permutation.
From Verif Require Import DeclspecModel.
Import ListNotations.

(* The multisets of 6.7.2p2 with their types. *)
Inductive row : list tok -> type -> Prop :=
| r_void : row [VOID] (simple T_VOID false)
| r_char : row [CHAR] (simple T_CHAR false)
| r_schar : row [SIGNED; CHAR] (simple T_CHAR false)
| r_uchar : row [UNSIGNED; CHAR] (simple T_CHAR true)
| r_short : forall m, In m [[SHORT]; [SIGNED; SHORT]; [SHORT; INT]; [SIGNED; SHORT; INT]] -> row m (simple T_SHORT false)
| r_ushort : forall m, In m [[UNSIGNED; SHORT]; [UNSIGNED; SHORT; INT]] -> row m (simple T_SHORT true)
| r_int : forall m, In m [[INT]; [SIGNED]; [SIGNED; INT]] -> row m (simple T_INT false)
| r_uint : forall m, In m [[UNSIGNED]; [UNSIGNED; INT]] -> row m (simple T_INT true)
| r_long : forall m, In m [[LONG]; [SIGNED; LONG]; [LONG; INT]; [SIGNED; LONG; INT]] -> row m (simple T_LONG false)
| r_ulong : forall m, In m [[UNSIGNED; LONG]; [UNSIGNED; LONG; INT]] -> row m (simple T_LONG true)
| r_llong : forall m, In m [[LONG; LONG]; [SIGNED; LONG; LONG]; [LONG; LONG; INT]; [SIGNED; LONG; LONG; INT]] -> row m (simple T_LONG false)
| r_ullong : forall m, In m [[UNSIGNED; LONG; LONG]; [UNSIGNED; LONG; LONG; INT]] -> row m (simple T_LONG true)
| r_float : row [FLOAT] (simple T_FLOAT false)
| r_double : row [DOUBLE] (simple T_DOUBLE false)
| r_ldouble : row [LONG; DOUBLE] (simple T_LDOUBLE false)
| r_bool : row [BOOL] (simple T_BOOL false)
| r_struct : forall t, row [StructUnion t] t
| r_enum : row [ENUM] (simple T_INT false)
| r_typedef : forall t, row [TypedefName t] t.

Definition is_type_specifier (t : tok) : bool :=
  match t with
  | VOID | BOOL | CHAR | SHORT | INT | LONG | SIGNED | UNSIGNED | FLOAT | DOUBLE | TypedefName _ | StructUnion _ | ENUM => true
  | _ => false
  end.
Definition is_specifier (t : tok) : bool := match t with Other => false | _ => true end.
Definition type_specifiers (l : list tok) : list tok := filter is_type_specifier l.
(* The specifiers denote the type t: in any order. *)
Definition denotes (l : list tok) (t : type) : Prop := exists m, Permutation (type_specifiers l) m /\ row m t.

(* A qualified version of a type, 6.7.3: q of the type itself; a pointer type is qualified at the pointer. *)
Definition qualified (c v : Prop) (t q : type) : Prop :=
  t_type q = t_type t /\ t_unsigned q = t_unsigned t /\ t_pointer q = t_pointer t /\
  (if t_pointer t
   then t_const q = t_const t /\ t_volatile q = t_volatile t /\
        (t_pointer_const q = true <-> c \/ t_pointer_const t = true) /\ (t_pointer_volatile q = true <-> v \/ t_pointer_volatile t = true)
   else (t_const q = true <-> c \/ t_const t = true) /\ (t_volatile q = true <-> v \/ t_volatile t = true) /\
        t_pointer_const q = t_pointer_const t /\ t_pointer_volatile q = t_pointer_volatile t).

Definition storages (l : list tok) : list storage :=
  flat_map (fun t => match t with Storage s => [s] | _ => [] end) l.
Definition occurs (p : tok -> bool) (l : list tok) : nat := length (filter p l).
Definition p_inline (t : tok) : bool := match t with INLINE => true | _ => false end.
Definition p_noreturn (t : tok) : bool := match t with NORETURN => true | _ => false end.
Definition p_register (t : tok) : bool := match t with REGISTER => true | _ => false end.
(* At most one storage class specifier, and (more than C asks) no repeated function specifier; none where only qualifiers are
   allowed. *)
Definition storage_ok (info : bool) (l : list tok) : Prop :=
  let n := if info then 1 else 0 in
  length (storages l) <= n /\ occurs p_inline l <= n /\ occurs p_noreturn l <= n /\ occurs p_register l <= n.

(* signed or unsigned after a type they do not combine with *)
Definition unsignable (t : tok) : Prop :=
  match t with VOID | BOOL | FLOAT | DOUBLE | TypedefName _ | StructUnion _ | ENUM => True | _ => False end.
Definition late_sign (l : list tok) : Prop :=
  exists l1 t l2 s l3, l = l1 ++ t :: l2 ++ s :: l3 /\ unsignable t /\ (s = SIGNED \/ s = UNSIGNED).
(* long after int or double *)
Definition late_long (l : list tok) : Prop :=
  exists l1 t l2 l3, l = l1 ++ t :: l2 ++ LONG :: l3 /\ (t = INT \/ t = DOUBLE).
