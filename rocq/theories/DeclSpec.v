(* What C says a declarator means: C99 6.7.5.  Types, declarators as written, and the type a declarator gives to a name. *)
From Coq Require Import List Bool Arith ZArith.
From Verif Require Import DeclModel.
Import ListNotations.
Open Scope Z_scope.

(* Qualifiers of a pointer. *)
Record quals := mkq { q_const : bool; q_volatile : bool; q_restrict : bool }.
Definition unqualified : quals := mkq false false false.

(* Types.  A struct or union is known by its number.  An array that has qualifiers between its brackets can only be a
   parameter.  TPending: a parameter named in an identifier list, whose type is given later. *)
Inductive proto := Unknown | Proto (variadic : bool).
Inductive ty :=
| TBasic (k : tk) (u : bool) (c v : bool)
| TTag (k : tk) (r : nat) (c v : bool)
| TPtr (q : quals) (t : ty)
| TArr (q : quals) (n : option Z) (t : ty)
| TFun (ps : list (name * ty)) (k : proto) (t : ty)
| TPending.

Definition basic (k : tk) : bool := match k with VOID | BOOL | CHAR | SHORT | INT | LONG | FLOAT | DOUBLE | LDOUBLE => true | _ => false end.

(* Struct and union types declared so far, with their sizes. *)
Definition tags := nat -> option (tk * Z).

Section WithTags.
  Variable tag : tags.

  (* ---- Sizes, and what may be declared (C99 6.7.5.2p1, 6.7.5.3p1) ---- *)
  Fixpoint size (t : ty) : Z :=
    match t with
    | TBasic k _ _ _ =>
        match k with BOOL | CHAR => 1 | SHORT => 2 | INT | FLOAT => 4 | LONG | DOUBLE => 8 | LDOUBLE => 16 | _ => 0 end
    | TTag _ r _ _ => match tag r with Some (_, z) => z | None => 0 end
    | TPtr _ _ => 8
    | TArr _ (Some n) t => n * size t
    | _ => 0
    end.
  Definition is_arr (t : ty) : bool := match t with TArr _ _ _ => true | _ => false end.
  Definition is_fun (t : ty) : bool := match t with TFun _ _ _ => true | _ => false end.
  Definition unsized (t : ty) : bool := match t with TArr _ None _ => true | _ => false end.
  Definition restricted (t : ty) : bool := match t with TPtr q _ => q_restrict q | _ => false end.
  Definition quiet (q : quals) : bool := negb (q_const q || q_volatile q || q_restrict q).
  Definition element (n : option Z) (t : ty) : bool :=
    negb (unsized t) && negb (is_fun t) && match n with Some z => (0 <=? z) && (z * size t <=? 2 ^ 63 - 1) | None => true end.
  (* Functions return no arrays and no functions; elements of arrays are no functions and have a length; no array is larger
     than 2^63-1 bytes.  The one thing C allows that is missing: a pointer to a pointer that is `restrict`. *)
  Fixpoint declarable (t : ty) : bool :=
    match t with
    | TPtr _ t => negb (restricted t) && declarable t
    | TArr q n t => quiet q && element n t && declarable t
    | TFun _ _ t => negb (is_arr t) && negb (is_fun t) && declarable t
    | _ => true
    end.
  Definition declarable_parameter (t : ty) : bool :=
    match t with
    | TArr q n t => element n t && negb (restricted t) && declarable t
    | t => declarable t
    end.
End WithTags.

(* ---- What is written ---- *)
Inductive qual := Qconst | Qvolatile | Qrestrict.
Definition add_qual (q : quals) (x : qual) : quals :=
  match x with
  | Qconst => mkq true (q_volatile q) (q_restrict q)
  | Qvolatile => mkq (q_const q) true (q_restrict q)
  | Qrestrict => mkq (q_const q) (q_volatile q) true
  end.
Definition all_quals (l : list qual) : quals := fold_left add_qual l unqualified.

(* [static const 3], [const static 3], [], ... *)
Record brackets := mkB { static1 : bool; bquals : list qual; static2 : bool; bsize : option Z }.
(* The specifiers of a parameter: qualifiers (true: const, false: volatile) around one type specifier. *)
Inductive tspec := SBasic (k : tk) (u : bool) | STag (k : tk) (r : nat) | STypedef (x : nat).
Record specs := mkS { before : list bool; spec : tspec; after : list bool }.

(* Declarators and abstract declarators: the grammar of C99 6.7.5 and 6.7.6.  DName None: no name, where it would stand.
   `(void)`, `(a, b)` and `()` are the parameters of DVoid, DIds [a; b], DIds []. *)
Inductive decl :=
| DName (x : name)
| DParen (d : decl)
| DPtr (q : list qual) (d : decl)
| DArr (d : decl) (b : brackets)
| DFun (d : decl) (ps : list (specs * decl)) (variadic : bool)
| DVoid (d : decl)
| DIds (d : decl) (xs : list nat).

Definition write_qual (q : qual) : tok := match q with Qconst => Kconst | Qvolatile => Kvolatile | Qrestrict => Krestrict end.
Definition write_cv (b : bool) : tok := if b then Kconst else Kvolatile.
Definition write_brackets (b : brackets) : list tok :=
  Klb :: (if static1 b then [Kstatic] else []) ++ map write_qual (bquals b) ++ (if static2 b then [Kstatic] else []) ++
  (match bsize b with Some z => [Knum z] | None => [] end) ++ [Krb].
Definition write_tspec (s : tspec) : tok := match s with SBasic k u => Kbase k u | STag k r => Ktag k r | STypedef x => Kid x end.
Definition write_specs (s : specs) : list tok := map write_cv (before s) ++ write_tspec (spec s) :: map write_cv (after s).
Fixpoint commas (l : list (list tok)) : list tok :=
  match l with
  | [] => []
  | [x] => x
  | x :: l => x ++ Kcomma :: commas l
  end.
Fixpoint write (d : decl) : list tok :=
  match d with
  | DName (Some x) => [Kid x]
  | DName None => []
  | DParen d => Klp :: write d ++ [Krp]
  | DPtr q d => Kstar :: map write_qual q ++ write d
  | DArr d b => write d ++ write_brackets b
  | DFun d ps va =>
      write d ++ Klp :: commas (map (fun p : specs * decl => let (s, d) := p in write_specs s ++ write d) ps)
        ++ (if va then [Kcomma; Kdots] else []) ++ [Krp]
  | DVoid d => write d ++ [Klp; Kbase VOID false; Krp]
  | DIds d xs => write d ++ Klp :: commas (map (fun x => [Kid x]) xs) ++ [Krp]
  end.

(* The name a declarator declares. *)
Fixpoint declares (d : decl) : name :=
  match d with
  | DName x => x
  | DParen d | DPtr _ d | DArr d _ | DFun d _ _ | DVoid d | DIds d _ => declares d
  end.

(* ---- What it means ---- *)
(* Ordinary identifiers in scope, innermost first: typedef names with their types, and others. *)
Definition senv := list (nat * option ty).
Fixpoint typedef (e : senv) (x : nat) : option ty :=
  match e with
  | [] => None
  | (y, t) :: e => if Nat.eqb x y then t else typedef e x
  end.
Definition hide (e : senv) (x : name) : senv := match x with Some y => (y, None) :: e | None => e end.

(* Qualifiers before or after a type specifier; those of an array qualify its elements (6.7.3p8). *)
Fixpoint qualify (c v : bool) (t : ty) : ty :=
  match t with
  | TBasic k u c' v' => TBasic k u (c || c') (v || v')
  | TTag k r c' v' => TTag k r (c || c') (v || v')
  | TPtr q t => TPtr (mkq (c || q_const q) (v || q_volatile q) (q_restrict q)) t
  | TArr q n t => TArr q n (qualify c v t)
  | t => t
  end.
Definition specified (e : senv) (s : specs) : ty :=
  let l := before s ++ after s in
  qualify (existsb (fun b => b) l) (existsb negb l)
    (match spec s with
     | SBasic k u => TBasic k u false false
     | STag k r => TTag k r false false
     | STypedef x => match typedef e x with Some t => t | None => TPending end
     end).

(* 6.7.5.3p7-8: a parameter that is an array is a pointer to its elements, one that is a function is a pointer to it. *)
Definition adjusted (t : ty) : ty :=
  match t with
  | TArr q _ t => TPtr q t
  | TFun _ _ _ => TPtr unqualified t
  | t => t
  end.

(* 6.7.5: what is declared by D, when the rest of the declaration says t.  In `D[n]` the name has the type that D gives it when
   the rest says array of n t; likewise for functions, and for pointers in `* D`. *)
Fixpoint meaning (e : senv) (d : decl) (t : ty) {struct d} : ty :=
  match d with
  | DName _ => t
  | DParen d => meaning e d t
  | DPtr q d => meaning e d (TPtr (all_quals q) t)
  | DArr d b => meaning e d (TArr (all_quals (bquals b)) (bsize b) t)
  | DFun d ps va =>
      meaning e d (TFun
        ((fix each (e : senv) (ps : list (specs * decl)) : list (name * ty) :=
            match ps with
            | [] => []
            | (s, p) :: ps => (declares p, adjusted (meaning e p (specified e s))) :: each (hide e (declares p)) ps
            end) e ps) (Proto va) t)
  | DVoid d => meaning e d (TFun [] (Proto false) t)
  | DIds d xs => meaning e d (TFun (map (fun x => (Some x, TPending)) xs) Unknown t)
  end.

(* ---- Which declarators are grammatical and keep to the constraints ---- *)
(* No star outside parentheses: what may be followed by brackets or parameters. *)
Definition direct (d : decl) : bool := match d with DPtr _ _ => false | _ => true end.
(* Just a name, in any number of parentheses. *)
Fixpoint bare (d : decl) : bool := match d with DName _ => true | DParen d => bare d | _ => false end.
(* What stands in parentheses begins like a declarator: with a name that is not a typedef name, a star or a parenthesis (and
   not with a bracket: `int ([3])` is the one thing C allows that is missing here). *)
Fixpoint opens (e : senv) (d : decl) : bool :=
  match d with
  | DName None => false
  | DName (Some x) => match typedef e x with None => true | Some _ => false end
  | DParen _ | DPtr _ _ => true
  | DArr d _ => opens e d
  | DFun d _ _ | DVoid d | DIds d _ => match d with DName None => true | _ => opens e d end
  end.
Definition fresh (x : name) (seen : list name) : bool :=
  match x with Some y => negb (existsb (fun z => match z with Some z => Nat.eqb y z | None => false end) seen) | None => true end.
Definition is_tvoid (t : ty) : bool := match t with TBasic VOID _ _ _ => true | _ => false end.
(* The type is known: it is not, and does not lead to, that of a parameter whose type comes later. *)
Fixpoint settled (t : ty) : bool := match t with TPending => false | TPtr _ t | TArr _ _ t | TFun _ _ t => settled t | _ => true end.
Definition qualifiable (t : ty) : bool := negb (is_arr t) && negb (is_fun t).

Section WithTags2.
  Variable tag : tags.
  (* Not between the braces of a struct: there, brackets may have no qualifiers even in parameters. *)
  Variable def : bool.
  (* A typedef name is visible; qualifiers are not put on a typedef name for an array or function. *)
  Definition good_specs (e : senv) (s : specs) : bool :=
    match spec s with
    | SBasic k u => basic k
    | STag k r => match tag r with Some (k', _) => tk_eqb k k' | None => false end
    | STypedef x =>
        match typedef e x with
        | Some t => settled t && (qualifiable t || match before s ++ after s with [] => true | _ => false end)
        | None => false
        end
    end.
  Definition good_brackets (qualified : bool) (b : brackets) : bool :=
    (qualified || (negb (static1 b) && negb (static2 b) && match bquals b with [] => true | _ => false end))
    && negb (static1 b && static2 b)
    && match bsize b with Some z => 0 <=? z | None => negb (static1 b || static2 b) end.

  (* param: a parameter is declared, and its brackets may have qualifiers and static. *)
  Fixpoint good (param : bool) (e : senv) (d : decl) {struct d} : bool :=
    match d with
    | DName _ => true
    | DParen d => opens e d && good false e d
    | DPtr _ d => good param e d
    | DArr d b => direct d && good_brackets (param && bare d) b && good param e d
    | DFun d ps va =>
        direct d && good param e d && match ps with [] => false | _ => true end &&
        ((fix each (e : senv) (seen : list name) (ps : list (specs * decl)) : bool :=
            match ps with
            | [] => true
            | (s, p) :: ps =>
                good_specs e s && good def e p
                && declarable_parameter tag (meaning e p (specified e s)) && negb (is_tvoid (meaning e p (specified e s)))
                && fresh (declares p) seen
                && each (hide e (declares p)) (declares p :: seen) ps
            end) e [] ps)
    | DVoid d => direct d && good param e d
    | DIds d xs =>
        direct d && good param e d
        && match xs with [] => true | _ => match d with DName None => false | _ => true end end
        && forallb (fun x => match typedef e x with None => true | Some _ => false end) xs
        && ((fix distinct (l : list nat) := match l with [] => true | x :: l => negb (existsb (Nat.eqb x) l) && distinct l end) xs)
    end.

  (* ---- Reading a type of the compiler: type_of, type_deref, type_next, the members of a function ---- *)
  Inductive denotes (h : heap) : typ -> ty -> Prop :=
  | den_basic : forall k u c v, basic k = true -> denotes h (mkT k u c v false false false false false 0) (TBasic k u c v)
  | den_tag : forall k r c v n z, tag r = Some (k, z) -> node_at h r = Some n -> nkind n = k -> nsize n = z ->
      k = STRUCT \/ k = UNION -> denotes h (mkT k false c v false false false false false r) (TTag k r c v)
  | den_ptr : forall T T' t, is_pointer T = true -> (tp T = false -> pc T = false /\ pv T = false /\ pr T = false) ->
      type_deref h T = Ok T' -> denotes h T' t ->
      denotes h T (TPtr (mkq (is_const T) (is_volatile T) (is_restrict T)) t)
  | den_arr : forall r n l t, node_at h r = Some n -> nkind n = ARRAY ->
      nsize n = match l with Some z => z | None => 0 end -> incomplete n = match l with Some _ => false | None => true end ->
      denotes h (nnext n) t -> denotes h (plain ARRAY false r) (TArr unqualified l t)
  | den_fun : forall r n ps k t, node_at h r = Some n -> nkind n = FUNCTION ->
      incomplete n = match k with Unknown => true | Proto _ => false end ->
      vararg n = match k with Proto true => true | _ => false end ->
      denote h (members n) ps -> denotes h (nnext n) t -> denotes h (plain FUNCTION false r) (TFun ps k t)
  | den_pending : denotes h (plain PLACEHOLDER false 0) TPending
  with denote (h : heap) : list member -> list (name * ty) -> Prop :=
  | den_none : denote h [] []
  | den_one : forall m ms x t ps, mname m = x -> denotes h (mtype m) t -> denote h ms ps -> denote h (m :: ms) ((x, t) :: ps).

  (* The compiler knows the identifiers that are in scope, and the sizes of structs and unions. *)
  Fixpoint env_ok (h : heap) (e : env) (s : senv) : Prop :=
    match e, s with
    | [], [] => True
    | (x, Some T) :: e, (y, Some t) :: s => x = y /\ denotes h T t /\ env_ok h e s
    | (x, None) :: e, (y, None) :: s => x = y /\ env_ok h e s
    | _, _ => False
    end.
  Definition tags_ok (h : heap) : Prop :=
    forall r k z, tag r = Some (k, z) ->
    (k = STRUCT \/ k = UNION) /\ 0 <= z /\ exists n, node_at h r = Some n /\ nkind n = k /\ nsize n = z.
End WithTags2.

(* What may come after a declarator. *)
Definition ends_here (ts : list tok) : bool := match ts with [] | Krp :: _ | Kcomma :: _ | Kother _ :: _ => true | _ => false end.
