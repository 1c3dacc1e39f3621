(* What C says expressions of integers, objects and pointers are: in terms of addresses and integers, without code. *)
From Coq Require Import List Bool Arith ZArith.
From Verif Require Import PtrModel.
Import ListNotations.
Open Scope Z_scope.

(* An expression is an object of some type at an address, or a value.  A pointer's value is an address. *)
Inductive result := At (t : cty) (a : Z) | Val (t : cty) (z : Z).

Definition least (s : Z) (sg : bool) : Z := if sg then - 2 ^ (8 * s - 1) else 0.
Definition most (s : Z) (sg : bool) : Z := if sg then 2 ^ (8 * s - 1) else 2 ^ (8 * s).
Definition fits (t : cty) (z : Z) : Prop :=
  match t with TInt s sg => least s sg <= z < most s sg | TPtr _ => 0 <= z < 2 ^ 64 | _ => False end.
Definition fitsb (t : cty) (z : Z) : bool :=
  match t with TInt s sg => (least s sg <=? z) && (z <? most s sg) | TPtr _ => (0 <=? z) && (z <? 2 ^ 64) | _ => false end.
(* 6.3.1.3, 6.3.2.3: the value of the type that differs from z by a multiple of two to the number of bits *)
Definition bits (t : cty) : Z := match t with TInt s _ => 8 * s | _ => 64 end.
Definition lowest (t : cty) : Z := match t with TInt s sg => least s sg | _ => 0 end.
Definition converted (t : cty) (z : Z) : Z := (z - lowest t) mod 2 ^ bits t + lowest t.
(* What is in memory: the first byte is the least significant *)
Definition bytes_at (m : Z -> Z) (a : Z) (n : nat) : Z :=
  fold_right Z.add 0 (map (fun i => (m (a + Z.of_nat i) mod 256) * 2 ^ (8 * Z.of_nat i)) (seq 0 n)).
Definition held (w : world) (t : cty) (a : Z) : option Z :=
  match t with
  | TInt s _ => Some (converted t (bytes_at (mem w) a (Z.to_nat s)))
  | TPtr _ => Some (bytes_at (mem w) a 8)
  | _ => None
  end.
(* 6.3.2.1: an array is the address of its first element; another object is what it holds *)
Definition value_of (w : world) (r : result) : option (cty * Z) :=
  match r with
  | Val t z => Some (t, z)
  | At (TArr _ t) a => Some (TPtr t, a)
  | At t a => option_map (pair t) (held w t a)
  end.

(* The bytes of an object *)
Fixpoint width (G : tagged) (t : cty) : Z :=
  match t with TVoid => 0 | TInt s _ => s | TPtr _ => 8 | TArr n u => n * width G u | TStr i => fst (G i) end.
Definition same_type (t u : cty) : {t = u} + {t <> u}.
Proof. decide equality; (apply Z.eq_dec || apply bool_dec || apply Nat.eq_dec). Defined.

Section C.
Variable G : tagged.
Variable w : world.

(* 6.5.6: n elements on from p; nothing is said of what is not an address *)
Definition step (t : cty) (p n : Z) : option Z :=
  let q := p + n * width G t in if (0 <? width G t) && (0 <=? q) && (q <? 2 ^ 64) then Some q else None.
(* 6.3.1.8: the larger type, but at least int; unsigned, if one of that size is.  Overflow is undefined, unsigned types wrap *)
Definition common (s : Z) (sg : bool) (s' : Z) (sg' : bool) : cty :=
  let m := Z.max 4 (Z.max s s') in TInt m (negb ((s =? m) && negb sg || (s' =? m) && negb sg')).
Definition arith (ok : cty -> Z -> Z -> bool) (f : Z -> Z -> Z) (a b : cty * Z) : option result :=
  match a, b with
  | (TInt s sg, x), (TInt s' sg', y) =>
      let t := common s sg s' sg' in
      let x := converted t x in
      let y := converted t y in
      if ok t x y then
        match t with
        | TInt _ true => if fitsb t (f x y) then Some (Val t (f x y)) else None
        | _ => Some (Val t (converted t (f x y)))
        end
      else None
  | _, _ => None
  end.
Definition any (t : cty) (x y : Z) : bool := true.
(* 6.5.5: division truncates towards zero; there has to be a quotient *)
Definition divides (t : cty) (x y : Z) : bool := negb (y =? 0) && fitsb t (Z.quot x y).
(* 6.5.7: the type is that of the left operand, but at least int; a signed number that is shifted left must not be negative, nor
   become too large; one that is shifted right is divided, rounding down *)
Definition shifted (left : bool) (a b : cty * Z) : option result :=
  match a, b with
  | (TInt s sg, x), (TInt _ _, n) =>
      let t := if s <? 4 then int else TInt s sg in
      if (0 <=? n) && (n <? bits t) then
        if left then
          match t with
          | TInt _ true => if (0 <=? x) && fitsb t (x * 2 ^ n) then Some (Val t (x * 2 ^ n)) else None
          | _ => Some (Val t (converted t (x * 2 ^ n)))
          end
        else Some (Val t (x / 2 ^ n))
      else None
  | _, _ => None
  end.
(* 6.5.8, 6.5.9: numbers are compared in the common type.  Pointers to the same type are compared; equal may be pointers to any types,
   and integers, for which there is a warning: it is the address that counts. *)
Definition truth (b : bool) : option result := Some (Val int (if b then 1 else 0)).
Definition relation (f : Z -> Z -> bool) (a b : cty * Z) : option result :=
  match a, b with
  | (TInt s sg, x), (TInt s' sg', y) => let t := common s sg s' sg' in truth (f (converted t x) (converted t y))
  | (TPtr t, p), (TPtr u, q) => if same_type t u then truth (f p q) else None
  | _, _ => None
  end.
Definition equality (f : Z -> Z -> bool) (a b : cty * Z) : option result :=
  match a, b with
  | (TPtr _, p), (TPtr _, q) => truth (f p q)
  | (TPtr t, p), (TInt _ _, y) => truth (f p (converted (TPtr t) y))
  | (TInt _ _, x), (TPtr t, q) => truth (f (converted (TPtr t) x) q)
  | _, _ => relation f a b
  end.
Definition plus (a b : cty * Z) : option result :=
  match a, b with
  | (TPtr t, p), (TInt _ _, n) | (TInt _ _, n), (TPtr t, p) => option_map (Val (TPtr t)) (step t p n)
  | _, _ => arith any Z.add a b
  end.
(* the difference is the number of elements that lie between, when the bytes can be counted in a long *)
Definition minus (a b : cty * Z) : option result :=
  match a, b with
  | (TPtr t, p), (TInt _ _, n) => option_map (Val (TPtr t)) (step t p (- n))
  | (TPtr t, p), (TPtr u, q) =>
      let s := width G t in
      if (if same_type t u then true else false) && (0 <? s) && ((p - q) mod s =? 0) && fitsb long (p - q) then Some (Val long ((p - q) / s)) else None
  | _, _ => arith any Z.sub a b
  end.
Definition calculate (o : bop) (a b : cty * Z) : option result :=
  match o with
  | Add => plus a b | Sub => minus a b | Mul => arith any Z.mul a b | Div => arith divides Z.quot a b | Mod => arith divides Z.rem a b
  | And => arith any Z.land a b | Or => arith any Z.lor a b | Xor => arith any Z.lxor a b
  | Shl => shifted true a b | Shr => shifted false a b
  | Lt => relation Z.ltb a b | Gt => relation Z.gtb a b | Le => relation Z.leb a b | Ge => relation Z.geb a b
  | Eq => equality Z.eqb a b | Ne => equality (fun x y => negb (x =? y)) a b
  end.
(* 6.5.3.3 *)
Definition unary (o : uop) (v : cty * Z) : option result :=
  match o with
  | Plus => arith any Z.add (int, 0) v
  | Minus => arith any Z.sub (int, 0) v
  | Not => arith any (fun _ y => Z.lnot y) (int, 0) v
  | LNot => match v with (TInt _ _, z) | (TPtr _, z) => truth (z =? 0) | _ => None end
  end.
Definition object (v : cty * Z) : option result := match v with (TPtr t, p) => Some (At t p) | _ => None end.
Definition part (r : result) (m : nat) : option result :=
  match r with
  | At (TStr i) a =>
      match find (fun x => Nat.eqb (fst x) m) (snd (G i)) with
      | Some (_, (o, t)) => if a + o <? 2 ^ 64 then Some (At t (a + o)) else None
      | None => None
      end
  | _ => None
  end.
Definition scalar (t : cty) : bool := match t with TInt _ _ | TPtr _ => true | _ => false end.
Definition into {A B} (x : option A) (f : A -> option B) : option B := match x with Some a => f a | None => None end.
Fixpoint denotes (e : exp) : option result :=
  let value e := into (denotes e) (value_of w) in
  match e with
  | EVar x t => Some (At t (addr w x))
  | ENum t z => match t with TInt _ _ => if fitsb t z then Some (Val t z) else None | _ => None end
  | EIndex a i => into (value a) (fun a => into (value i) (fun i => into (plus a i) (fun r => into (value_of w r) object)))
  | EDeref a => into (value a) object
  | EAddr a => match denotes a with Some (At t p) => Some (Val (TPtr t) p) | _ => None end
  | EMember a m => into (denotes a) (fun r => part r m)
  | EArrow a m => into (value a) (fun v => into (object v) (fun r => part r m))
  | EBin o a b => into (value a) (fun a => into (value b) (calculate o a))
  | EUn o a => into (value a) (unary o)
  | ECast t a => into (value a) (fun v => if scalar t then Some (Val t (converted t (snd v))) else None)
  end.
End C.

(* Types there can be: integers are of the sizes there are, objects are smaller than half of memory *)
Fixpoint type_ok (G : tagged) (t : cty) : Prop :=
  match t with
  | TInt s _ => s = 1 \/ s = 2 \/ s = 4 \/ s = 8
  | TPtr t => type_ok G t
  | TArr n u => 0 <= n /\ type_ok G u /\ n * width G u < 2 ^ 63
  | TVoid | TStr _ => True
  end.
(* structs and unions are smaller than 2 GB, and contain their members *)
Definition tags_ok (G : tagged) : Prop :=
  forall i, 0 <= fst (G i) < 2 ^ 31 /\
    forall m o t, In (m, (o, t)) (snd (G i)) -> type_ok G t /\ 0 <= o /\ o + width G t <= fst (G i).
Fixpoint types_ok (G : tagged) (e : exp) : Prop :=
  match e with
  | EVar _ t | ENum t _ => type_ok G t
  | EIndex a b | EBin _ a b => types_ok G a /\ types_ok G b
  | EDeref a | EAddr a | EUn _ a | EMember a _ | EArrow a _ => types_ok G a
  | ECast t a => type_ok G t /\ types_ok G a
  end.
Definition world_ok (w : world) : Prop := forall x, 0 <= addr w x < 2 ^ 64.
