(* Layout of structs and unions.  src/parser/typetree.c:197-373, 580-840, 1146-1174.
   A type with its typetree is a value of ltype; basic types are given by their kind, all pointers are
   T_POINTER.  size_t arithmetic is modulo 2^64.  Names are numbers (interned strings, C02), 0 is the
   empty name.  The list of members is kept last member first while a type is being built; the C
   array is its reverse. *)
From Coq Require Import List ZArith Bool.
From Verif Require Import TypeModel.
Import ListNotations.
Open Scope Z_scope.

(* type.h:125-133 struct member, without the symbol of parameters *)
Record member (T : Type) := mkMember {
  m_name : Z; m_type : T; m_offset : Z; m_width : Z; m_foff : Z; m_back : Z }.
Arguments mkMember {T}. Arguments m_name {T}. Arguments m_type {T}. Arguments m_offset {T}.
Arguments m_width {T}. Arguments m_foff {T}. Arguments m_back {T}.

Inductive ltype :=
| LScalar (k : tkind)
| LArray (n : Z) (t : ltype)
| LAgg (is_union : bool) (flexible : bool) (size : Z) (ms : list (member ltype)).

Notation lmember := (member ltype).

Definition M := 18446744073709551616. (* 2^64 *)
Definition LONG_MAX := 9223372036854775807.
Definition szt (x : Z) : Z := x mod M.

(* typetree.c:1146-1174 size_of *)
Fixpoint lsize (t : ltype) : Z :=
  match t with
  | LScalar k => size_of (basic k false)
  | LArray n t => szt (n * lsize t)
  | LAgg _ _ s _ => s
  end.

(* typetree.c:580-601 type_alignment; the assertion m != 0 holds for every sealed type *)
Fixpoint lalign (t : ltype) : Z :=
  match t with
  | LScalar k => size_of (basic k false)
  | LArray _ t => lalign t
  | LAgg _ _ _ ms => fold_right Z.max 0 (map (fun m => lalign (m_type m)) ms)
  end.

(* typetree.c:408-425 type_create_array *)
Definition type_create_array (next : ltype) (count : Z) : option ltype :=
  if LONG_MAX <? szt (count * lsize next) then None else Some (LArray count next).

(* typetree.c:34-82 struct typetree, the parts used here; t_members is last first *)
Record tree := mkTree { t_size : Z; t_flex : bool; t_members : list lmember }.
Definition empty_tree := mkTree 0 false [].

Inductive out (A : Type) := Done (a : A) | Rejected | Failed. (* Failed: assertion *)
Arguments Done {A}. Arguments Rejected {A}. Arguments Failed {A}.
Definition obind {A B} (x : out A) (f : A -> out B) : out B :=
  match x with Done a => f a | Rejected => Rejected | Failed => Failed end.

Definition is_array (t : ltype) : bool := match t with LArray _ _ => true | _ => false end.
Definition is_flexible (t : ltype) : bool := match t with LAgg _ f _ _ => f | _ => false end.

(* typetree.c:204-254 add_member, struct or union parent *)
Definition add_member (u : bool) (t : tree) (m : lmember) : out tree :=
  if negb (m_name m =? 0) && existsb (fun x => m_name x =? m_name m) (t_members t) then Rejected else
  obind (if lsize (m_type m) =? 0 then
           if is_array (m_type m) && negb (t_flex t) then Done true else Rejected
         else Done (t_flex t)) (fun flex =>
  obind (if is_flexible (m_type m) then if negb u then Rejected else Done true else Done flex) (fun flex =>
  if szt (LONG_MAX - m_offset m) <? lsize (m_type m) then Rejected else
  let e := szt (m_offset m + lsize (m_type m)) in
  Done (mkTree (if t_size t <? e then e else t_size t) flex (m :: t_members t)))).

(* typetree.c:351-361: the while loop, taking bits from all trailing members at the given offset *)
Fixpoint shrink (off d : Z) (ms : list lmember) : list lmember :=
  match ms with
  | m :: r =>
    if m_offset m =? off
    then mkMember (m_name m) (m_type m) (m_offset m) (m_width m) (m_foff m) (m_back m - d) :: shrink off d r
    else ms
  | [] => []
  end.

(* typetree.c:344-364: the unused bytes of the unit of a last bit-field are given back *)
Definition reclaim (t : tree) : tree :=
  match t_members t with
  | mb :: _ =>
    if negb (m_back mb =? 0) then
      let bytes := Z.quot (m_back mb - (m_foff mb + m_width mb)) 8 in
      if negb (bytes =? 0)
      then mkTree (szt (t_size t - bytes)) (t_flex t) (shrink (m_offset mb) (bytes * 8) (t_members t))
      else t
    else t
  | [] => t
  end.

(* typetree.c:333-373 adjust_member_alignment for a struct parent: new tree and the offset returned *)
Definition adjust_member_alignment (t : tree) (type : ltype) : tree * Z :=
  let t := reclaim t in
  let align := lalign type in
  let size := if negb (t_size t mod align =? 0) then szt (t_size t + (align - t_size t mod align)) else t_size t in
  (mkTree size (t_flex t) (t_members t), size).

(* typetree.c:618-632 type_add_member; a union gets offset 0 (342) *)
Definition type_add_member (u : bool) (t : tree) (name : Z) (type : ltype) : out tree :=
  let '(t, off) := if u then (t, 0) else adjust_member_alignment t type in
  add_member u t (mkMember name type off 0 0 0).

(* typetree.c:678-684: the loop giving the trailing fields of a unit a bigger backing *)
Fixpoint widen (off back : Z) (ms : list lmember) : list lmember :=
  match ms with
  | m :: r =>
    if negb (m_width m =? 0) && (m_offset m =? off)
    then mkMember (m_name m) (m_type m) (m_offset m) (m_width m) (m_foff m) back :: widen off back r
    else ms
  | [] => []
  end.

(* typetree.c:649-690 pack_field_member: None for 0 *)
Definition pack_field_member (t : tree) (f : lmember) : option (tree * lmember) :=
  match t_members t with
  | [] => None
  | last :: _ =>
    if m_width last =? 0 then None else
    let used := m_foff last + m_width last in
    let bits := used + m_width f in
    if bits <=? m_back last then
      Some (t, mkMember (m_name f) (m_type f) (m_offset last) (m_width f) used (m_back last))
    else if bits <=? m_back f then
      Some (mkTree (t_size t) (t_flex t) (widen (m_offset last) (m_back f) (t_members t)),
            mkMember (m_name f) (m_type f) (m_offset last) (m_width f) used (m_back f))
    else None
  end.

(* typetree.c:256-270 backing_type_from_bits *)
Definition backing_type_from_bits (b : Z) : option tkind :=
  if b =? 8 then Some T_CHAR else if b =? 16 then Some T_SHORT else if b =? 32 then Some T_INT
  else if b =? 64 then Some T_LONG else None.

(* typetree.c:698-738 type_add_field to a struct, with nonzero width; type is an integer type *)
Definition add_field_bits (t : tree) (name : Z) (type : tkind) (width : Z) : out tree :=
  let sz := lsize (LScalar type) in
  if (sz * 8 <? width) || (tkind_eqb type T_BOOL && (1 <? width)) then Rejected else
  let m := mkMember name (LScalar type) 0 width 0 (sz * 8) in
  let '(t, m) := match pack_field_member t m with
    | Some tm => tm
    | None => let '(t, off) := adjust_member_alignment t (LScalar type) in
              (t, mkMember name (LScalar type) off width 0 (sz * 8))
    end in
  add_member false t m.

(* typetree.c:319-323, the last step of reset_field_alignment *)
Definition round_size (t : tree) (clear_size : Z) : tree :=
  mkTree (if t_size t <? clear_size then clear_size
          else if negb (t_size t mod clear_size =? 0) then szt (t_size t + t_size t mod clear_size)
          else t_size t) (t_flex t) (t_members t).

(* typetree.c:304-308: fill up the unit of the last field m *)
Definition fill_unit (t : tree) (m : lmember) (backing : tkind) : out tree :=
  let bits := m_foff m + m_width m in
  if m_back m <? bits then Failed
  else if negb (bits =? m_back m) then add_field_bits t 0 backing (m_back m - bits) else Done t.

(* typetree.c:282-324 reset_field_alignment.  The call at 315 can have width 0: it then comes back
   here with the backing type itself as `clear`, hence to line 304. *)
Definition reset_field_alignment (t : tree) (clear : tkind) : out tree :=
  match t_members t with
  | [] => Done t
  | m :: _ =>
    let clear_size := lsize (LScalar clear) in
    let clear_bits := clear_size * 8 in
    obind
      (if negb (m_width m =? 0) then
         let bits := m_foff m + m_width m in
         match backing_type_from_bits (m_back m) with
         | None => Failed
         | Some backing =>
           if m_back m <=? clear_bits then fill_unit t m backing
           else if clear_bits <? bits then
             let mod_ := bits mod clear_bits in
             if negb (mod_ =? 0) then add_field_bits t 0 backing mod_ else Done t
           else if clear_bits =? bits then
             obind (fill_unit t m backing) (fun t => Done (round_size t (lsize (LScalar backing))))
           else add_field_bits t 0 backing (clear_bits - bits)
         end
       else Done t)
      (fun t => Done (round_size t clear_size))
  end.

(* typetree.c:698-738 type_add_field *)
Definition type_add_field (u : bool) (t : tree) (name : Z) (type : tkind) (width : Z) : out tree :=
  let sz := lsize (LScalar type) in
  if (sz * 8 <? width) || (tkind_eqb type T_BOOL && (1 <? width)) then Rejected else
  if negb (name =? 0) && (width =? 0) then Rejected else
  if u then
    if name =? 0 then Done t else add_member u t (mkMember name (LScalar type) 0 width 0 (sz * 8))
  else if width =? 0 then
    let m := mkMember name (LScalar type) 0 0 0 (sz * 8) in
    let t := match pack_field_member t m with
      | Some (t, _) => t
      | None => fst (adjust_member_alignment t (LScalar type))
      end in
    reset_field_alignment t type
  else add_field_bits t name type width.

(* typetree.c:740-768 type_add_anonymous_member *)
Fixpoint add_all (add : tree -> lmember -> out tree) (t : tree) (ms : list lmember) : out tree :=
  match ms with [] => Done t | m :: r => obind (add t m) (fun t => add_all add t r) end.
Definition type_add_anonymous_member (u : bool) (t : tree) (type : ltype) : out tree :=
  match type with
  | LAgg u' _ _ ms =>
    if negb u && u' then
      let '(t, off) := adjust_member_alignment t type in
      add_all (fun t m => add_member u t
        (mkMember (m_name m) (m_type m) (szt (m_offset m + off)) (m_width m) (m_foff m) (m_back m))) t ms
    else if u && negb u' then add_all (add_member u) t ms
    else add_all (fun t m => type_add_member u t (m_name m) (m_type m)) t ms
  | _ => Failed
  end.

(* typetree.c:774-840 remove_anonymous_fields, type_seal *)
Definition type_seal (u : bool) (t : tree) : out ltype :=
  let ms := filter (fun m => negb (m_name m =? 0)) (t_members t) in
  let align := fold_right Z.max 0 (map (fun m => lalign (m_type m)) ms) in
  if align =? 0 then Rejected else
  let size := if negb (t_size t mod align =? 0) then szt (t_size t + (align - t_size t mod align)) else t_size t in
  Done (LAgg u (t_flex t) size (rev ms)).

(* declaration.c:425-470 the members of a struct or union specifier, in order.
   Field types are integer types; widths are not negative (445). *)
Inductive decl :=
| DMember (name : Z) (t : ltype)
| DField (name : Z) (k : tkind) (width : Z)
| DAnonymous (t : ltype).

Definition add_decl (u : bool) (t : tree) (d : decl) : out tree :=
  match d with
  | DMember name ty => type_add_member u t name ty
  | DField name k w => type_add_field u t name k w
  | DAnonymous ty => type_add_anonymous_member u t ty
  end.
Fixpoint add_decls (u : bool) (t : tree) (ds : list decl) : out tree :=
  match ds with [] => Done t | d :: r => obind (add_decl u t d) (fun t => add_decls u t r) end.

Definition struct_or_union (u : bool) (ds : list decl) : out ltype :=
  obind (add_decls u empty_tree ds) (type_seal u).
