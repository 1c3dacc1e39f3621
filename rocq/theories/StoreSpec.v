(* What C says of assignment: 6.5.16, 6.5.2.4, 6.5.3.1. *)
From Coq Require Import List Bool Arith ZArith.
From Verif Require Import PtrModel PtrSpec StoreModel.
Import ListNotations.
Open Scope Z_scope.

Section C.
Variable G : tagged.
Variable w : world.
Definition value (e : exp) : option (cty * Z) := into (denotes G w e) (value_of w).
(* 6.5.16.1: numbers to numbers, pointers to pointers, and the constant 0 to a pointer.  (Pointers to different types need a cast in
   C; here there is a warning only, and the address is kept.) *)
Definition is_zero (e : exp) : bool := match e with ENum (TInt _ _) 0 => true | _ => false end.
Definition may_assign (t u : cty) (zero : bool) : bool :=
  match t, u with
  | TInt _ _, TInt _ _ | TPtr _, TPtr _ => true
  | TPtr _, TInt _ _ => zero
  | _, _ => false
  end.
Definition may_compound (o : bop) : bool := match o with Lt | Gt | Le | Ge | Eq | Ne => false | _ => true end.
(* the value that the object of type t gets: that of the right side, converted to the type of the object *)
Definition computed (s : assignment) : option (cty * Z) :=
  let binary o a b := into (calculate G o a b) (value_of w) in
  let one up a := binary (if up : bool then Add else Sub) a (int, 1) in
  match s with
  | Simple _ b => value b
  | Compound o a b => into (value a) (fun x => into (value b) (fun y => if may_compound o then binary o x y else None))
  | Prefix up a | Postfix up a => into (value a) (one up)
  end.
Definition left (s : assignment) : exp := match s with Simple a _ | Compound _ a _ | Prefix _ a | Postfix _ a => a end.
Definition zero (s : assignment) : bool := match s with Simple _ b => is_zero b | _ => false end.
(* The object of type t at a gets the value z *)
Definition assigns (s : assignment) (t : cty) (a z : Z) : Prop :=
  denotes G w (left s) = Some (At t a) /\ exists u y, computed s = Some (u, y) /\ may_assign t u (zero s) = true /\ z = converted t y.
Definition types_of (s : assignment) : Prop :=
  match s with Simple a b | Compound _ a b => types_ok G a /\ types_ok G b | Prefix _ a | Postfix _ a => types_ok G a end.

(* The objects in which pointers are found on the way to what is designated *)
Fixpoint names (e : exp) : list (nat * cty) :=
  match e with
  | EVar x t => [(x, t)]
  | ENum _ _ => []
  | EIndex a b | EBin _ a b => names a ++ names b
  | EDeref a | EAddr a | EMember a _ | EArrow a _ | EUn _ a | ECast _ a => names a
  end.
Fixpoint through (e : exp) : list (nat * cty) :=
  match e with
  | EVar _ _ => []
  | EMember a _ => through a
  | e => names e
  end.
(* none of these is where the n bytes at a are *)
Definition apart (e : exp) (a n : Z) : Prop :=
  forall x t, In (x, TPtr t) (through e) -> a + n <= addr w x \/ addr w x + 8 <= a.
End C.

(* What a statement does to memory *)
Inductive effect (G : tagged) (w : world) : assignment -> world -> Prop :=
| effect_scalar s t a z w' : assigns G w s t a z -> addr w' = addr w -> held w' t a = Some z ->
    (forall x, ~ (a <= x < a + width G t) -> mem w' x = mem w x) -> effect G w s w'
| effect_struct a b i p q w' : denotes G w a = Some (At (TStr i) p) -> denotes G w b = Some (At (TStr i) q) -> addr w' = addr w ->
    (forall j, 0 <= j < fst (G i) -> mem w' (p + j) = mem w (q + j)) -> (forall x, ~ (p <= x < p + fst (G i)) -> mem w' x = mem w x) ->
    effect G w (Simple a b) w'.
(* each statement of the list has a meaning, when its turn comes *)
Fixpoint defined (G : tagged) (w : world) (ss : list assignment) : Prop :=
  match ss with
  | [] => True
  | s :: ss => types_of G s /\ (exists w', effect G w s w') /\ forall w', effect G w s w' -> defined G w' ss
  end.
Fixpoint happens (G : tagged) (w : world) (ss : list assignment) (w' : world) : Prop :=
  match ss with
  | [] => w' = w
  | s :: ss => exists w1, effect G w s w1 /\ happens G w1 ss w'
  end.
