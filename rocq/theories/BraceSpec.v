(* Initializers in C: C99 6.7.8 *)
From Coq Require Import List ZArith Bool Arith.
From Verif Require Import BraceModel.
Import ListNotations.

(* --- syntax: initializer, designation --- *)
Inductive desig := DName (x : nat) | DIndex (i : nat).
Inductive init := IE (e : elem) | IB (l : items) (comma : bool)
with items := INil | ICons (d : list desig) (i : init) (l : items).

Definition dtok (d : desig) : tok := match d with DName x => Dot x | DIndex i => At i end.
Definition dtoks (d : list desig) : list tok := match d with [] => [] | _ => map dtok d ++ [EQ] end.
Fixpoint toks (i : init) : list tok :=
  match i with
  | IE e => [E e]
  | IB l comma => LB :: items_toks true l ++ (if comma then [COMMA] else []) ++ [RB]
  end
with items_toks (first : bool) (l : items) : list tok :=
  match l with INil => [] | ICons d i l => (if first then [] else [COMMA]) ++ dtoks d ++ toks i ++ items_toks false l end.

(* --- subobjects --- *)
Notation path := (list nat).
Definition sub (t : ty) (k : nat) : option ty :=
  match t with
  | TS _ _ => None
  | TA n u => if Nat.eqb n 0 || Nat.ltb k n then Some u else None
  | TG _ _ _ ms => option_map snd (nth_error ms k)
  end.
Fixpoint type_at (t : ty) (p : path) : option ty :=
  match p with [] => Some t | k :: p => match sub t k with Some u => type_at u p | None => None end end.
(* where it is *)
Fixpoint place (t : ty) (at_ : pos) (p : path) : pos :=
  match p with
  | [] => at_
  | k :: p =>
    match t with
    | TS _ _ => at_
    | TA _ u => place u (Pos (p_off at_ + Z.of_nat k * size_of u) 0 0) p
    | TG _ _ _ ms => match nth_error ms k with Some (m, u) => place u (Pos (p_off at_ + offset m) (foff m) (fw m)) p | None => at_ end
    end
  end.
(* 6.7.8#17: the subobject after p in the order of subobjects; a union has only one *)
Fixpoint succ (t : ty) (p : path) : option path :=
  match p with
  | [] => None
  | k :: p =>
    match sub t k with
    | Some u =>
      match succ u p with
      | Some s => Some (k :: s)
      | None => match t with TG true _ _ _ => None | _ => match sub t (S k) with Some _ => Some [S k] | None => None end end
      end
    | None => None
    end
  end.
(* 6.7.8#6, #7 *)
Fixpoint index_of (x : nat) (ms : list (minfo * ty)) : option nat :=
  match ms with [] => None | (m, _) :: ms => if Nat.eqb x (name m) then Some O else option_map S (index_of x ms) end.
Definition select (t : ty) (d : desig) : option nat :=
  match t, d with
  | TG _ _ _ ms, DName x => index_of x ms
  | TA n _, DIndex i => if Nat.eqb n 0 || Nat.ltb i n then Some i else None
  | _, _ => None
  end.
Fixpoint resolve (t : ty) (d : list desig) : option path :=
  match d with
  | [] => Some []
  | x :: d => match select t x with Some k => match sub t k with Some u => option_map (cons k) (resolve u d) | None => None end | None => None end
  end.
(* 6.7.8#13, #14, #20: the part of an object of type t that the expression e initializes, if it is the next subobject: all of it if e has
   its type, or is a string for an array of characters; otherwise e initializes its first subobject, and so on *)
Definition is_char (t : ty) : bool := match t with TS c _ => c | _ => false end.
Fixpoint descend (t : ty) (e : elem) : option path :=
  match t with
  | TS char _ => match kind_of e with KScalar => Some [] | KString => if char then None else Some [] | KAgg _ => None end
  | TA _ u =>
    match kind_of e with
    | KString => if is_char u then Some [] else option_map (cons O) (descend u e)
    | _ => option_map (cons O) (descend u e)
    end
  | TG _ id _ ms =>
    if match kind_of e with KAgg j => Nat.eqb j id | _ => false end then Some []
    else match ms with (_, u) :: _ => option_map (cons O) (descend u e) | [] => None end
  end.

(* --- meaning: what is given to which subobject, in the order of the list (later ones override earlier ones); None: not allowed --- *)
Notation given := (list (list nat * elem)).
Definition under (q : path) (o : given) : given := map (fun x => (q ++ fst x, snd x)) o.
(* A union holds one member at a time. *)
Definition same_member (x y : path * elem) : bool := Nat.eqb (hd 0 (fst x)) (hd 0 (fst y)).
Fixpoint held (o : given) : given :=
  match o with [] => [] | x :: o => if forallb (same_member x) o then x :: held o else held o end.
Definition braced_string (t : ty) (l : items) : option elem :=
  match t, l with
  | TA _ u, ICons [] (IE e) INil => match kind_of e with KString => if is_char u then Some e else None | _ => None end
  | _, _ => None
  end.
(* object: an object of type t is initialized by i; list: l initializes parts of an object of type t, from next on *)
Fixpoint object (t : ty) (i : init) : option given :=
  match i with
  | IE e => match descend t e with Some [] => Some [([], e)] | _ => None end
  | IB l _ =>
    match t with
    | TS _ _ => match l with ICons [] (IE e) INil => match descend t e with Some _ => Some [([], e)] | None => None end | _ => None end
    | _ =>
      match l with INil => None | _ =>
      match braced_string t l with
      | Some e => Some [([], e)]
      | None => match t with TG true _ _ _ => option_map held (list_ t (Some [O]) l) | _ => list_ t (Some [O]) l end
      end end
    end
  end
with list_ (t : ty) (next : option path) (l : items) : option given :=
  match l with
  | INil => Some []
  | ICons d i l =>
    match (match d with [] => next | _ => resolve t d end) with
    | Some q =>
      match type_at t q with
      | Some u =>
        match i with
        | IE e =>
          match descend u e with
          | Some r => match list_ t (succ t (q ++ r)) l with Some o => Some ((q ++ r, e) :: o) | None => None end
          | None => None
          end
        | IB _ _ =>
          match object u i, list_ t (succ t q) l with Some o, Some o' => Some (under q o ++ o') | _, _ => None end
        end
      | None => None
      end
    | None => None
    end
  end.
(* the assignment of an element *)
Definition stored (t : ty) (at_ : pos) (x : path * elem) : asg :=
  Asg (place t at_ (fst x)) (match type_at t (fst x) with Some u => u | None => TS false 0 end) (snd x).
(* 6.7.8#22 *)
Definition length_of (o : given) : nat := fold_right Nat.max O (map (fun x => match fst x with k :: _ => S k | [] => O end) o).

(* --- types --- *)
(* as the layout of structs makes them; no two consecutive members of a struct at one place (as with an anonymous union) *)
Fixpoint apart (ms : list (minfo * ty)) : Prop :=
  match ms with
  | (a, _) :: (((b, _) :: _) as ms') => (offset a <> offset b \/ foff a <> foff b) /\ apart ms'
  | _ => True
  end.
(* a struct or union does not contain itself *)
Fixpoint contains (id : nat) (t : ty) : bool :=
  match t with TS _ _ => false | TA _ u => contains id u | TG _ j _ ms => Nat.eqb j id || existsb (fun x => contains id (snd x)) ms end.
Inductive Sound : ty -> Prop :=
| Sound_S c s : Sound (TS c s)
| Sound_A n u : Sound u -> size_of (TA n u) <> 0%Z -> Sound (TA n u)
| Sound_G u id s ms : ms <> [] -> (forall m t, In (m, t) ms -> Sound t) ->
    (forall m n t, In (m, TA n t) ms -> foff m = 0%Z /\ fw m = 0%Z) -> (u = false -> apart ms) ->
    existsb (fun x => contains id (snd x)) ms = false -> Sound (TG u id s ms).
(* of an object that is declared *)
Definition Sound_top (t : ty) : Prop := Sound t \/ exists u, t = TA 0 u /\ Sound u.

(* --- what the theorem asks for besides --- *)
(* t: the type of an object some part of which has been initialized without braces of its own, namely the one at p; then comes an
   element with designators d.  chosen: the path that has been designated.  root: the object has braces. *)
Definition at_end (t : ty) (k : nat) : bool := match sub t (S k) with Some _ => false | None => true end.
Fixpoint leave (root : bool) (t : ty) (chosen p : path) (d : list desig) : bool :=
  match p with
  | [] => true
  | k :: p =>
    let here := match chosen with j :: _ => Nat.eqb j k | [] => false end in
    match sub t k with
    | Some u =>
      leave false u (if here then tl chosen else []) p d &&
      (root || match d, succ u p with [], Some _ => true | _, _ =>
        match t, d with
        | TG true _ _ _, [] | TG true _ _ _, DIndex _ :: _ => false                        (* a union, and no member is designated next *)
        | TG false _ _ _, [] => negb (at_end t k && here)                                  (* past the end, after the last was designated *)
        | TG false _ _ _, DIndex _ :: _ => at_end t k && negb here                          (* in a struct, and [ is next *)
        | _, _ => true
        end end)
    | None => true
    end
  end.
(* from the element with designators d at p to the next; count: how many elements of the array are reached so far *)
Definition go_on (t : ty) (chosen p : path) (count : nat) (d : list desig) : bool :=
  leave true t chosen p d &&
  match t, d with
  | TG true _ _ _, _ :: _ => match resolve t d with Some q => negb (Nat.eqb (hd 0 q) (hd 0 p)) | None => true end    (* another member of a union *)
  | TG false _ _ _, _ :: _ => negb (at_end t (hd 0 p)) || match chosen with j :: _ => Nat.eqb j (hd 0 p) | [] => false end    (* not a designator at the end *)
  | TA n _, [] => match succ t p with Some [_] => Nat.eqb n 0 || Nat.ltb count n | _ => true end                      (* not past the end of an array *)
  | _, _ => true
  end.
Fixpoint fine (top : bool) (t : ty) (i : init) : bool :=
  match i with
  | IE _ => true
  | IB l comma =>
    match t with
    | TS _ _ => top || negb comma
    | _ => match braced_string t l with Some _ => true | None => fine_list t [] O (Some [O]) l end
    end
  end
with fine_list (t : ty) (chosen : path) (count : nat) (next : option path) (l : items) : bool :=
  match l with
  | INil => true
  | ICons d i l =>
    match (match d with [] => next | _ => resolve t d end) with
    | Some q =>
      match type_at t q with
      | Some u =>
        let p := match i with IE e => match descend u e with Some r => q ++ r | None => q end | IB _ _ => q end in
        let chosen := match d with [] => chosen | _ => q end in
        let count := Nat.max count (S (hd 0 p)) in
        fine false u i && match l with INil => true | ICons d' _ _ => go_on t chosen p count d' end && fine_list t chosen count (succ t p) l
      | None => true
      end
    | None => true
    end
  end.

(* --- no designators, no unions --- *)
Fixpoint no_union (t : ty) : bool :=
  match t with TS _ _ => true | TA _ u => no_union u | TG u _ _ ms => negb u && forallb (fun x => no_union (snd x)) ms end.
(* and no comma after an expression alone in braces *)
Fixpoint plain (i : init) : bool :=
  match i with
  | IE _ => true
  | IB l comma => match l with ICons _ (IE _) INil => negb comma | _ => true end && plain_list l
  end
with plain_list (l : items) : bool :=
  match l with INil => true | ICons d i l => match d with [] => true | _ => false end && plain i && plain_list l end.
