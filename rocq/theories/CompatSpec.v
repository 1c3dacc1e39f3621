(* C53: compatible types (C99 6.2.7, 6.7.3p9, 6.7.5.1p2, 6.7.5.2p6, 6.7.5.3p15), on the types of DeclSpec. *)
From Coq Require Import List Bool Arith ZArith.
From Verif Require Import DeclModel DeclSpec.
Import ListNotations.
Open Scope Z_scope.

Definition quals_eqb (a b : quals) : bool := eqb (q_const a) (q_const b) && eqb (q_volatile a) (q_volatile b) && eqb (q_restrict a) (q_restrict b).
Definition length_eqb (a b : option Z) : bool := match a, b with Some x, Some y => x =? y | None, None => true | _, _ => false end.
Definition proto_eqb (a b : proto) : bool := match a, b with Unknown, Unknown => true | Proto x, Proto y => eqb x y | _, _ => false end.

(* The same type: only the names of parameters may differ.  With qs false, qualifiers too. *)
Fixpoint same (qs : bool) (t t' : ty) {struct t} : bool :=
  match t, t' with
  | TBasic k u c v, TBasic k' u' c' v' => tk_eqb k k' && eqb u u' && (negb qs || (eqb c c' && eqb v v'))
  | TTag k r c v, TTag k' r' c' v' => tk_eqb k k' && Nat.eqb r r' && (negb qs || (eqb c c' && eqb v v'))
  | TPtr q t, TPtr q' t' => (negb qs || quals_eqb q q') && same qs t t'
  | TArr _ n t, TArr _ n' t' => length_eqb n n' && same qs t t'
  | TFun ps k t, TFun ps' k' t' =>
      proto_eqb k k' && same qs t t' &&
      (fix each (l l' : list (name * ty)) : bool :=
         match l, l' with
         | [], [] => true
         | (_, p) :: l, (_, p') :: l' => same qs p p' && each l l'
         | _, _ => false
         end) ps ps'
  | TPending, TPending => true
  | _, _ => false
  end.

(* 6.5.2.2p6: the type is its own promotion *)
Definition promoted (t : ty) : bool := match t with TBasic (BOOL | CHAR | SHORT | FLOAT) _ _ _ => false | _ => true end.
Definition arithmetic (k : tk) : bool := match k with BOOL | CHAR | SHORT | INT | LONG | FLOAT | DOUBLE | LDOUBLE => true | _ => false end.
Definition lengths_agree (n n' : option Z) : bool := match n, n' with Some x, Some y => x =? y | _, _ => true end.
Definition zero_or_unknown (n : option Z) : bool := match n with Some z => z =? 0 | None => true end.

(* Compatible.  Strict: as C says.  Loose: not regarding signedness, `...', what is said of parameters when only one of two
   functions has a prototype, and the length 0.  Tight: as Loose, but functions return the same type.
   top: qualifiers of the type itself do not count (6.7.5.3p15, for parameters). *)
Inductive mode := Strict | Loose | Tight.
Definition lax (m : mode) : bool := match m with Strict => false | _ => true end.
Definition tight (m : mode) : bool := match m with Tight => true | _ => false end.
Fixpoint compat (m : mode) (top : bool) (t t' : ty) {struct t} : bool :=
  match t, t' with
  | TBasic k u c v, TBasic k' u' c' v' => tk_eqb k k' && ((lax m && arithmetic k) || eqb u u') && (top || (eqb c c' && eqb v v'))
  | TTag k r c v, TTag k' r' c' v' => tk_eqb k k' && Nat.eqb r r' && (top || (eqb c c' && eqb v v'))
  | TPtr q t, TPtr q' t' => (top || quals_eqb q q') && compat m false t t'
  | TArr _ n t, TArr _ n' t' =>
      (lengths_agree n n' || (lax m && (zero_or_unknown n || zero_or_unknown n'))) && compat m false t t'
  | TFun ps k t, TFun ps' k' t' =>
      (if tight m then same true t t' else compat m false t t') &&
      match k, k' with
      | Proto v, Proto v' =>
          (lax m || eqb v v') &&
          (fix each (l l' : list (name * ty)) : bool :=
             match l, l' with
             | [], [] => true
             | (_, p) :: l, (_, p') :: l' => compat m true p p' && each l l'
             | _, _ => false
             end) ps ps'
      | Proto v, Unknown => lax m || (negb v && forallb (fun p => promoted (snd p)) ps)
      | Unknown, Proto v => lax m || (negb v && forallb (fun p => promoted (snd p)) ps')
      | Unknown, Unknown => true
      end
  | TPending, TPending => true
  | _, _ => false
  end.
Definition compatible : ty -> ty -> bool := compat Strict false.

(* Types that are compatible with no type but themselves: no array of unknown length, no function without prototype, and
   parameters without qualifiers.  firm: this is so of what is returned by functions. *)
Definition bare_ (t : ty) : bool :=
  match t with TBasic _ _ c v | TTag _ _ c v => negb c && negb v | TPtr q _ => quiet q | _ => true end.
Fixpoint rigid (t : ty) : bool :=
  match t with
  | TPtr _ t => rigid t
  | TArr _ n t => match n with Some _ => true | None => false end && rigid t
  | TFun ps k t => match k with Proto _ => true | Unknown => false end && rigid t && forallb (fun p => bare_ (snd p) && rigid (snd p)) ps
  | _ => true
  end.
Fixpoint firm (t : ty) : bool :=
  match t with
  | TPtr _ t | TArr _ _ t => firm t
  | TFun ps _ t => rigid t && forallb (fun p => firm (snd p)) ps
  | _ => true
  end.
(* The types declarations of one name may have, for the two to be known as compatible. *)
Definition regular (t : ty) : bool :=
  match t with
  | TArr _ _ t => rigid t
  | TFun ps Unknown t => rigid t && match ps with [] => true | _ => false end
  | t => firm t
  end.
(* 6.2.7p3: the type a name has after both declarations knows the length and the parameters, if one of them does *)
Definition knows (t : ty) : bool := match t with TArr _ None _ | TFun _ Unknown _ => false | _ => true end.

(* No type is deeper than this. *)
Fixpoint depth (t : ty) : nat :=
  match t with
  | TPtr _ t | TArr _ _ t => S (depth t)
  | TFun ps _ t => S (Nat.max (depth t) (fold_right (fun p m => Nat.max (depth (snd p)) m) 0%nat ps))
  | _ => 0%nat
  end.

(* Structs and unions that are different differ in kind, size or number of members (see C53_self_reference_refuted). *)
Definition apart (tag : tags) (h : heap) : Prop :=
  forall r r' n n', tag r <> None -> tag r' <> None -> r <> r' -> node_at h r = Some n -> node_at h r' = Some n' ->
  nkind n <> nkind n' \/ nsize n <> nsize n' \/ length (members n) <> length (members n').

(* How types are represented: pointers to pointers are kept in the table, two at a time; nothing else is there but what belongs
   to a pointer, array or function. *)
Definition tidy_typ (h : heap) (T : typ) : Prop :=
  kind T = POINTER -> uns T = false /\ exists n, node_at h (ref T) = Some n /\ nkind n = POINTER.
Definition tidy_node (h : heap) (n : node) : Prop :=
  match nkind n with
  | POINTER => nsize n = 0 /\ incomplete n = false /\ vararg n = false /\ members n = [] /\ tp (nnext n) = false
               /\ pc (nnext n) = false /\ pv (nnext n) = false /\ pr (nnext n) = false /\ tidy_typ h (nnext n)
  | ARRAY => vararg n = false /\ members n = [] /\ nconst n = false /\ nvolatile n = false /\ nrestrict n = false /\ tidy_typ h (nnext n)
  | FUNCTION => nsize n = 0 /\ nconst n = false /\ nvolatile n = false /\ nrestrict n = false /\ tidy_typ h (nnext n)
                /\ Forall (fun m => tidy_typ h (mtype m)) (members n)
  | _ => True
  end.
Definition tidy (h : heap) : Prop := forall r n, node_at h r = Some n -> tidy_node h n.
(* As tidy, and types of arrays and functions have their node in the table. *)
Definition fits (h : heap) (T : typ) : Prop :=
  match kind T with
  | POINTER => uns T = false /\ exists n, node_at h (ref T) = Some n /\ nkind n = POINTER
  | ARRAY => exists n, node_at h (ref T) = Some n /\ nkind n = ARRAY
  | FUNCTION => exists n, node_at h (ref T) = Some n /\ nkind n = FUNCTION
  | _ => True
  end.
Definition fits_node (h : heap) (n : node) : Prop :=
  match nkind n with
  | POINTER => nsize n = 0 /\ incomplete n = false /\ vararg n = false /\ members n = [] /\ tp (nnext n) = false
               /\ pc (nnext n) = false /\ pv (nnext n) = false /\ pr (nnext n) = false /\ fits h (nnext n)
  | ARRAY => vararg n = false /\ members n = [] /\ nconst n = false /\ nvolatile n = false /\ nrestrict n = false /\ fits h (nnext n)
  | FUNCTION => nsize n = 0 /\ nconst n = false /\ nvolatile n = false /\ nrestrict n = false /\ fits h (nnext n)
                /\ Forall (fun m => fits h (mtype m)) (members n)
  | _ => True
  end.
Definition fitting (h : heap) : Prop := forall r n, node_at h r = Some n -> fits_node h n.
Definition env_fits (h : heap) (e : env) : Prop := Forall (fun p => match snd p with Some T => fits h T | None => True end) e.
Definition derived (k : tk) : bool := match k with POINTER | ARRAY | FUNCTION => true | _ => false end.
(* tokens of which types are made stand for basic types, structs and unions *)
Definition tok_ok (t : tok) : bool := match t with Kbase k _ => negb (derived k) | Ktag k _ => negb (derived k) | _ => true end.
Definition toks_ok (ts : list tok) : Prop := forallb tok_ok ts = true.

(* A function without prototype has no parameters (the list of identifiers of a definition is not kept as a type). *)
Definition formed (t : ty) : bool := match t with TFun (_ :: _) Unknown _ => false | _ => true end.
(* what is taken: types that are compatible but for what Loose leaves out, and arrays without a length, for which qualifiers are left out *)
Definition taken (t1 t2 : ty) : Prop :=
  compat Loose false t1 t2 = true \/
  exists n1 e1 n2 e2, t1 = TArr unqualified n1 e1 /\ t2 = TArr unqualified n2 e2 /\ (n1 = None \/ n2 = None) /\ same false e1 e2 = true.
