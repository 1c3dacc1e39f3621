(* How initializers are read: which element is stored where.  src/parser/initializer.c:86-580, 950-973.  Not modelled: that elements for
   objects with static storage are computed at load time (102-111), and the conversion of an element to the type of what it
   initializes (eval_assign).  What is done with the assignments afterwards is in InitModel.v. *)
From Coq Require Import List ZArith Bool Arith.
Import ListNotations.
Local Open Scope Z_scope.

(* Expressions are taken as one token (C49), with the kind of its type and a number to tell them apart: a string literal, a value of
   the struct or union type with this number, anything else. *)
Inductive kind := KScalar | KString | KAgg (id : nat).
Record elem := El { kind_of : kind; num : nat }.
(* Dot: a full stop and an identifier; At: [, a constant expression, ].  The others: { } , = *)
Inductive tok := LB | RB | COMMA | EQ | Dot (x : nat) | At (i : nat) | E (e : elem).

(* typetree.c struct member *)
Record minfo := MI { name : nat; offset : Z; foff : Z; fw : Z }.
(* Types: a scalar (is_char, size_of); an array (its length, 0 if it is not known); a struct or union (two are compatible if they have
   the same number: is_compatible_unqualified) *)
Inductive ty := TS (char : bool) (size : Z) | TA (n : nat) (t : ty) | TG (union : bool) (id : nat) (size : Z) (ms : list (minfo * ty)).
Fixpoint size_of (t : ty) : Z := match t with TS _ s | TG _ _ s _ => s | TA n t => Z.of_nat n * size_of t end.

(* struct var target: offset, field_offset, field_width *)
Record pos := Pos { p_off : Z; p_foff : Z; p_fw : Z }.
(* struct statement IR_ASSIGN: where, as which type, what *)
Record asg := Asg { a_pos : pos; a_ty : ty; a_el : elem }.
(* block->has_init_value and block->expr; the tokens to be read *)
Definition st : Type := option elem * list tok.
(* None: an error is reported, or an assertion fails *)
Definition res : Type := option (list asg * st).

(* initializer.c:90-124 read_initializer_element *)
Definition read_element (s : st) : option st := match s with (None, E e :: q) => Some (Some e, q) | _ => None end.
(* initializer.c:133-150 next_element; cur: the state is CURRENT.  The tokens left, if there is a next element. *)
Definition next_element (cur : bool) (ts : list tok) : option (list tok) :=
  match ts with
  | COMMA :: q => match q with RB :: _ => None | Dot _ :: _ => if cur then Some q else None | _ => Some q end
  | _ => None
  end.
(* initializer.c:152-162 access_member *)
Definition access_member (p : pos) (m : minfo) : pos := Pos (p_off p + offset m) (foff m) (fw m).
Definition skip_eq (ts : list tok) : list tok := match ts with EQ :: q => q | _ => ts end.
(* initializer.c:311-331 assign_initializer_element *)
Definition assign_element (p : pos) (t : ty) (s : st) : res := match s with (Some e, q) => Some ([Asg p t e], (None, q)) | _ => None end.

(* how a member is initialized: initialize_member at a type *)
Definition reader : Type := pos -> st -> res.
Definition more (out : list asg) (r : res) : res := match r with Some (o, s) => Some (out ++ o, s) | None => None end.

(* typetree.c:1233-1258 find_type_member: the index, from i on *)
Fixpoint find_member (x : nat) (i : nat) (ms : list (minfo * reader)) : option (nat * minfo * reader) :=
  match ms with [] => None | (m, f) :: ms => if Nat.eqb x (name m) then Some (i, m, f) else find_member x (S i) ms end.

(* initializer.c:199-248 initialize_union; n: more than there are rounds *)
Fixpoint initialize_union (n : nat) (cur : bool) (ms : list (minfo * reader)) (p : pos) (done : bool) (out : list asg) (s : st) : res :=
  match n with
  | O => None
  | S n =>
    let round m (f : reader) s :=
      match f (access_member p m) s with
      | Some (o, (pend, q)) =>
        match next_element cur q with Some q => initialize_union n cur ms p true o (pend, q) | None => Some (o, (pend, q)) end
      | None => None
      end in
    match snd s with
    | Dot x :: q => match find_member x 0 ms with Some (_, m, f) => round m f (fst s, skip_eq q) | None => None end
    | _ => if done then Some (out, s) else match ms with (m, f) :: _ => round m f s | [] => None end
    end
  end.

(* initializer.c:289-297: the next member from i on that is not at the place of prev *)
Fixpoint pick (prev : option minfo) (i : nat) (ms : list (minfo * reader)) : option (nat * minfo * reader) :=
  match ms with
  | [] => None
  | (m, f) :: ms =>
    match prev with
    | Some p => if Z.eqb (offset p) (offset m) && Z.eqb (foff p) (foff m) then pick prev (S i) ms else Some (i, m, f)
    | None => Some (i, m, f)
    end
  end.
(* initializer.c:250-309 initialize_struct *)
Fixpoint initialize_struct (n : nat) (cur : bool) (ms : list (minfo * reader)) (p : pos) (i : nat) (prev : option minfo) (s : st) : res :=
  match n with
  | O => None
  | S n =>
    let rest m i out (s : st) :=
      match next_element cur (snd s) with
      | Some q => more out (initialize_struct n cur ms p i (Some m) (fst s, q))
      | None => Some (out, s)
      end in
    match s with
    | (None, Dot x :: q) =>
      match find_member x 0 ms with
      | Some (i, m, f) => match f (access_member p m) (None, skip_eq q) with Some (o, s) => rest m (S i) o s | None => None end
      | None => None
      end
    | _ =>
      match pick prev i (skipn i ms) with
      | Some (i, m, f) =>
        match f (access_member p m) s with
        | Some (o, s) => if Nat.leb (length ms) (S i) then Some (o, s) else rest m (S i) o s
        | None => None
        end
      | None => None
      end
    end
  end.

(* initializer.c:349-357, 462-470: an expression is read unless one has been read or a brace or designator is next *)
Definition look (s : st) : option st :=
  match s with
  | (None, Dot _ :: _) | (None, LB :: _) | (None, At _ :: _) => Some s
  | (None, _) => read_element s
  | _ => Some s
  end.
Definition is_agg (id : nat) (s : st) : bool :=
  match fst s with Some e => match kind_of e with KAgg j => Nat.eqb j id | _ => false end | None => false end.
Definition is_string (s : st) : bool := match fst s with Some e => match kind_of e with KString => true | _ => false end | None => false end.
Definition rounds (s : st) : nat := S (length (snd s)).
(* initializer.c:340-372 initialize_struct_or_union *)
Definition initialize_struct_or_union (cur : bool) (t : ty) (u : bool) (id : nat) (ms : list (minfo * reader)) (p : pos) (s : st) : res :=
  match look s with
  | Some s =>
    if is_agg id s then assign_element p t s
    else if u then initialize_union (rounds s) cur ms p false [] s
    else initialize_struct (rounds s) cur ms p 0 None s
  | None => None
  end.

(* initializer.c:374-395 has_next_array_element: whether it has a designator *)
Definition has_next (cur : bool) (ts : list tok) : option bool :=
  match ts with
  | COMMA :: q => match q with RB :: _ | Dot _ :: _ => None | At _ :: _ => if cur then Some true else None | _ => Some false end
  | _ => None
  end.
(* initializer.c:484-499.  Also c, how many elements the array has if its length is not known. *)
Fixpoint array_loop (n : nat) (cur : bool) (count : nat) (width : Z) (f : reader) (p : pos) (i c : nat) (s : st) : option (list asg * st * nat) :=
  match n with
  | O => None
  | S n =>
    let '(i, ts) := match snd s with At j :: q => (j, skip_eq q) | ts => (i, ts) end in
    match f (Pos (p_off p + Z.of_nat i * width) (p_foff p) (p_fw p)) (fst s, ts) with
    | Some (o, (pend, ts)) =>
      let i := S i in
      let c := if Nat.ltb c i then i else c in
      match has_next cur ts with
      | Some d =>
        if negb d && negb (Nat.eqb count 0) && Nat.leb count c then Some (o, (pend, ts), c)
        else match array_loop n cur count width f p i c (pend, tl ts) with Some (o', s, c) => Some (o ++ o', s, c) | None => None end
      | None => Some (o, (pend, ts), c)
      end
    | None => None
    end
  end.
(* initializer.c:436-506 initialize_array; elem: type_next *)
Definition initialize_array (cur : bool) (t : ty) (n : nat) (el : ty) (f : reader) (p : pos) (s : st) : option (list asg * st * nat) :=
  match look s with
  | Some s =>
    if is_string s && match el with TS c _ => c | _ => false end
    then match assign_element p t s with Some (o, s) => Some (o, s, O) | None => None end
    else array_loop (rounds s) cur n (size_of el) f p 0 0 s
  | None => None
  end.
Definition no_count (r : option (list asg * st * nat)) : res := match r with Some (o, s, _) => Some (o, s) | None => None end.

Definition skip_comma (ts : list tok) : list tok := match ts with COMMA :: q => q | _ => ts end.
Definition closing (r : res) : res :=
  match r with Some (o, (pend, ts)) => match skip_comma ts with RB :: q => Some (o, (pend, q)) | _ => None end | None => None end.
(* initializer.c:508-550 initialize_member *)
Fixpoint initialize_member (t : ty) : reader := fun p s =>
  match t with
  | TG u id _ ms =>
    let rs := map (fun x => (fst x, initialize_member (snd x))) ms in
    match s with
    | (None, LB :: q) => closing (initialize_struct_or_union true t u id rs p (None, q))
    | _ => initialize_struct_or_union false t u id rs p s
    end
  | TA n el =>
    if Z.eqb (size_of t) 0 then None
    else match s with
    | (None, LB :: q) => closing (no_count (initialize_array true t n el (initialize_member el) p (None, q)))
    | _ => no_count (initialize_array false t n el (initialize_member el) p s)
    end
  | TS _ _ =>
    match s with
    | (Some _, _) => assign_element p t s
    | (None, LB :: q) =>
      match read_element (None, q) with
      | Some (e, RB :: q) => assign_element p t (e, q)
      | _ => None
      end
    | _ => match read_element s with Some s => assign_element p t s | None => None end
    end
  end.

(* initializer.c:552-580 initialize_object, 950-973 initializer; the last component is the length of an array of unknown length *)
Definition closing' (r : option (list asg * st * nat)) : option (list asg * st * nat) :=
  match r with Some (o, s, c) => match closing (Some (o, s)) with Some (o, s) => Some (o, s, c) | None => None end | None => None end.
Definition with_count (r : res) : option (list asg * st * nat) := match r with Some (o, s) => Some (o, s, O) | None => None end.
Fixpoint initialize_object (t : ty) (p : pos) (ts : list tok) : option (list asg * st * nat) :=
  match ts with
  | LB :: q =>
    closing' match t with
             | TG u id _ ms =>
               with_count (initialize_struct_or_union true t u id (map (fun x => (fst x, initialize_member (snd x))) ms) p (None, q))
             | TA n el => initialize_array true t n el (initialize_member el) p (None, q)
             | TS _ _ => initialize_object t p q
             end
  | _ =>
    match t with
    | TA n el => initialize_array false t n el (initialize_member el) p (None, ts)
    | _ => match read_element (None, ts) with Some s => with_count (assign_element p t s) | None => None end
    end
  end.
(* of an object: its offset is 0 *)
Definition initializer (t : ty) (ts : list tok) : option (list asg * st * nat) := initialize_object t (Pos 0 0 0) ts.
