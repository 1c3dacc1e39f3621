(* The types C gives to expressions (C89 6.3, here cited as C99 6.5), whatever the values are. *)
From Coq Require Import List Bool ZArith.
From Verif Require Import PtrModel PtrSpec StoreModel.
Import ListNotations.
Open Scope Z_scope.

Section T.
Variable G : tagged.
(* A type, and whether the expression is an object.  6.3.2.1: the type of the value *)
Definition decayed (r : cty * bool) : option cty :=
  match r with
  | (TArr _ t, true) => Some (TPtr t)
  | (TInt s sg, _) => Some (TInt s sg)
  | (TPtr t, _) => Some (TPtr t)
  | _ => None
  end.
Definition when {A} (b : bool) (a : A) : option A := if b then Some a else None.
Definition same (t u : cty) : bool := if same_type t u then true else false.
Definition complete (t : cty) : bool := 0 <? width G t.
Definition at_least_int (s : Z) (sg : bool) : cty := if s <? 4 then int else TInt s sg.
(* 6.5.5 to 6.5.12 *)
Definition type_binary (o : bop) (a b : cty) : option cty :=
  match a, b with
  | TInt s sg, TInt s' sg' =>
      match o with
      | Shl | Shr => Some (at_least_int s sg)
      | Lt | Gt | Le | Ge | Eq | Ne => Some int
      | _ => Some (common s sg s' sg')
      end
  | TPtr t, TInt _ _ => match o with Add | Sub => when (complete t) (TPtr t) | Eq | Ne => Some int | _ => None end
  | TInt _ _, TPtr t => match o with Add => when (complete t) (TPtr t) | Eq | Ne => Some int | _ => None end
  | TPtr t, TPtr u =>
      match o with
      | Sub => when (same t u && complete t) long
      | Lt | Gt | Le | Ge => when (same t u) int
      | Eq | Ne => Some int
      | _ => None
      end
  | _, _ => None
  end.
(* 6.5.3.3 *)
Definition type_unary (o : uop) (a : cty) : option cty :=
  match o, a with
  | LNot, (TInt _ _ | TPtr _) => Some int
  | (Plus | Minus | Not), TInt s sg => Some (at_least_int s sg)
  | _, _ => None
  end.
(* 6.5.3.2: what a pointer points to is an object; 6.5.2.3: so is a member of an object *)
Definition pointee (t : cty) : option (cty * bool) := match t with TPtr t => Some (t, true) | _ => None end.
Definition member_of (t : cty) (m : nat) : option (cty * bool) :=
  match t with TStr i => option_map (fun x => (snd (snd x), true)) (find (fun x => Nat.eqb (fst x) m) (snd (G i))) | _ => None end.
Definition temporary (t : cty) : cty * bool := (t, false).
Fixpoint typed (e : exp) : option (cty * bool) :=
  let value e := into (typed e) decayed in
  match e with
  | EVar _ t => Some (t, true)
  | ENum t _ => when (is_integer t) (t, false)
  | EIndex a i => into (value a) (fun a => into (value i) (fun i => into (type_binary Add a i) pointee))
  | EDeref a => into (value a) pointee
  | EAddr a => match typed a with Some (t, true) => Some (TPtr t, false) | _ => None end
  | EMember a m => match typed a with Some (t, true) => member_of t m | _ => None end
  | EArrow a m => into (value a) (fun t => match t with TPtr t => member_of t m | _ => None end)
  | EBin o a b => into (value a) (fun a => into (value b) (fun b => option_map temporary (type_binary o a b)))
  | EUn o a => into (value a) (fun a => option_map temporary (type_unary o a))
  | ECast t a => into (value a) (fun _ => when (scalar t) (t, false))
  end.
(* Constraints that are checked: not, that & is applied to an object, and that pointers that are subtracted are of the same type
   (C56_difference_refuted, C54_lvalue_refuted).  Casts to void are not modelled. *)
Fixpoint checked (e : exp) : Prop :=
  let value e := into (typed e) decayed in
  match e with
  | EVar _ _ => True
  | ENum t _ => is_integer t = true
  | EDeref a | EMember a _ | EArrow a _ | EUn _ a => checked a
  | EAddr a => checked a /\ forall t, typed a <> Some (t, false)
  | ECast t a => checked a /\ t <> TVoid
  | EIndex a b => checked a /\ checked b
  | EBin o a b => checked a /\ checked b /\ (o = Sub -> forall t u, value a = Some (TPtr t) -> value b = Some (TPtr u) -> t = u)
  end.
(* 6.5.16.1: what may be assigned to an object of type t.  Between integers and pointers, and pointers to different types, it is for the
   compiler to warn (C89 3.3.16.1 has it a constraint, too; nearly all compilers accept it). *)
Definition assignable (t : cty) (r : cty * bool) : bool :=
  match t, r with
  | TInt _ _, _ => match decayed r with Some (TInt _ _) => true | _ => false end
  | TPtr _, _ => match decayed r with Some _ => true | None => false end
  | TStr i, (TStr j, _) => Nat.eqb i j
  | _, _ => false
  end.
Definition comparison (o : bop) : bool := match o with Lt | Gt | Le | Ge | Eq | Ne => true | _ => false end.
(* 6.5.16, 6.5.16.2, 6.5.2.4, 6.5.3.1: a op= b is of the type of a, for which a op b has to be assignable to a; ++ is += 1 *)
Definition typed_operation (o : bop) (t : cty) (b : cty) : option cty :=
  if comparison o then None
  else into (decayed (t, true)) (fun a => into (type_binary o a b) (fun u => when (assignable t (u, false)) t)).
Definition object_type (a : exp) : option cty := into (typed a) (fun r => when (snd r) (fst r)).
Definition typed_assignment (s : assignment) : option cty :=
  match s with
  | Simple a b => into (object_type a) (fun t => into (typed b) (fun r => when (assignable t r) t))
  | Compound o a b => into (object_type a) (fun t => into (into (typed b) decayed) (typed_operation o t))
  | Prefix up a | Postfix up a => into (object_type a) (fun t => typed_operation (if up then Add else Sub) t int)
  end.
Definition assignment_types_ok (s : assignment) : Prop :=
  match s with Simple a b | Compound _ a b => types_ok G a /\ types_ok G b | Prefix _ a | Postfix _ a => types_ok G a end.
Definition checked_assignment (s : assignment) : Prop :=
  let object a := forall t, typed a <> Some (t, false) in
  match s with
  | Simple a b => checked a /\ object a /\ checked b
  | Compound o a b => checked (EBin o a b) /\ object a
  | Prefix _ a | Postfix _ a => checked a /\ object a
  end.
End T.
