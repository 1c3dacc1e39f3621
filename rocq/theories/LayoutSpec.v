(* Layout of structs and unions: System V x86-64 ABI (3.1.2), C99 6.7.2.1. *)
From Coq Require Import List ZArith Bool.
From Verif Require Import TypeModel LayoutModel.
Import ListNotations.
Open Scope Z_scope.

(* C object types as written in the source; pointers are CScalar T_POINTER.  Members have names. *)
Inductive ctype :=
| CScalar (k : tkind)
| CArray (n : Z) (c : ctype)
| CStruct (ms : list (Z * ctype))
| CUnion (ms : list (Z * ctype)).

Definition scalar_size (k : tkind) : Z :=
  match k with
  | T_BOOL | T_CHAR => 1 | T_SHORT => 2 | T_INT | T_FLOAT => 4
  | T_LONG | T_DOUBLE | T_POINTER => 8 | T_LDOUBLE => 16
  | _ => 0
  end.

(* the least multiple of a that is >= x *)
Definition roundup (x a : Z) : Z := ((x + a - 1) / a) * a.
Definition LeastMultiple (a x y : Z) : Prop := (a | y) /\ x <= y /\ forall z, (a | z) -> x <= z -> y <= z.

Fixpoint calign (c : ctype) : Z :=
  match c with
  | CScalar k => scalar_size k
  | CArray _ c => calign c
  | CStruct ms | CUnion ms => fold_right Z.max 1 (map (fun m => calign (snd m)) ms)
  end.

Fixpoint csize (c : ctype) : Z :=
  match c with
  | CScalar k => scalar_size k
  | CArray n c => n * csize c
  | CStruct ms => roundup (fold_left (fun e m => roundup e (calign (snd m)) + csize (snd m)) ms 0) (calign c)
  | CUnion ms => roundup (fold_right Z.max 0 (map (fun m => csize (snd m)) ms)) (calign c)
  end.

(* Members placed one after the other from e on, each at the first suitable offset, ending at e'. *)
Inductive Placed : Z -> list (Z * ctype) -> list Z -> Z -> Prop :=
| Placed_nil e : Placed e [] [] e
| Placed_cons e n c o ms os e' : LeastMultiple (calign c) e o -> Placed (o + csize c) ms os e' ->
    Placed e ((n, c) :: ms) (o :: os) e'.

(* Complete types of a size the host can count *)
Fixpoint complete (c : ctype) : Prop :=
  match c with
  | CScalar k => 0 < scalar_size k
  | CArray n c => 0 < n /\ complete c /\ n * csize c <= 2 ^ 63 - 1
  | CStruct ms | CUnion ms =>
    ms <> [] /\ NoDup (map fst ms) /\ ~ In 0 (map fst ms) /\
    fold_right and True (map (fun m => complete (snd m)) ms) /\
    fold_right Z.add 0 (map (fun m => csize (snd m) + calign (snd m)) ms) <= 2 ^ 63 - 32
  end.

(* The front end applied to a type, members in order. *)
Fixpoint elab (c : ctype) : out ltype :=
  match c with
  | CScalar k => Done (LScalar k)
  | CArray n c => obind (elab c) (fun t => match type_create_array t n with Some t => Done t | None => Rejected end)
  | CStruct ms =>
    obind (fold_right (fun m acc => obind (elab (snd m)) (fun t => obind acc (fun l => Done (DMember (fst m) t :: l))))
             (Done []) ms) (struct_or_union false)
  | CUnion ms =>
    obind (fold_right (fun m acc => obind (elab (snd m)) (fun t => obind acc (fun l => Done (DMember (fst m) t :: l))))
             (Done []) ms) (struct_or_union true)
  end.

Definition members_of (t : ltype) : list lmember := match t with LAgg _ _ _ ms => ms | _ => [] end.

(* Bits of the object a member occupies: first bit and number of bits. *)
Definition first_bit (m : lmember) : Z := 8 * m_offset m + m_foff m.
Definition bit_count (m : lmember) : Z := if m_width m =? 0 then 8 * lsize (m_type m) else m_width m.
Definition Disjoint (a b : lmember) : Prop :=
  first_bit a + bit_count a <= first_bit b \/ first_bit b + bit_count b <= first_bit a.

(* Declarations considered for bit-fields: members of complete types and fields of integer types. *)
Definition int_kind (k : tkind) : Prop := k = T_BOOL \/ k = T_CHAR \/ k = T_SHORT \/ k = T_INT \/ k = T_LONG.
Definition decl_ok (d : decl) : Prop :=
  match d with
  | DMember n t => n <> 0 /\ exists c, complete c /\ elab c = Done t
  | DField _ k w => int_kind k /\ 0 <= w
  | DAnonymous _ => False
  end.
Definition decl_room (d : decl) : Z :=
  match d with DMember _ t => lsize t + 16 | _ => 64 end.
Definition decl_name (d : decl) : Z := match d with DMember n _ => n | DField n _ _ => n | DAnonymous _ => 0 end.
(* accepted by the constraints of C99 6.7.2.1p3 *)
Definition decl_valid (d : decl) : Prop :=
  match d with
  | DField n k w => w <= 8 * scalar_size k /\ (k = T_BOOL -> w <= 1) /\ (w = 0 -> n = 0)
  | _ => True
  end.
(* the named members, as declared *)
Definition declared (d : decl) : Z * ltype * Z :=
  match d with DMember n t => (n, t, 0) | DField n k w => (n, LScalar k, w) | DAnonymous t => (0, t, 0) end.

Definition named (ds : list decl) : list decl := filter (fun d => negb (decl_name d =? 0)) ds.
Definition room (ds : list decl) : Z := fold_right Z.add 0 (map decl_room ds).
(* a list of member declarations C99 accepts: 6.7.2.1p2-3, and at least one named member (p7) *)
Definition ValidDecls (ds : list decl) : Prop :=
  Forall decl_valid ds /\ NoDup (map decl_name (named ds)) /\ named ds <> [].
(* name, type and width of a member *)
Definition sig (m : lmember) : Z * ltype * Z := (m_name m, m_type m, m_width m).
Definition type_of_decl (d : decl) : ltype := snd (fst (declared d)).

(* what a finished struct looks like *)
Definition member_fits (t : ltype) (m : lmember) : Prop :=
  (m_width m = 0 -> m_foff m = 0 /\ 0 <= m_offset m /\ m_offset m mod lalign (m_type m) = 0 /\ m_offset m + lsize (m_type m) <= lsize t) /\
  (m_width m <> 0 -> 0 <= m_offset m /\ 0 <= m_foff m /\ 0 < m_width m /\ m_foff m + m_width m <= m_back m /\
     8 * m_offset m + m_back m <= 8 * lsize t).
