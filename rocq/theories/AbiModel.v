(* Classification of parameters and results.  src/backend/x86_64/abi.c:11-137, abi.h:17-38.  Types are those of
   LayoutModel; qualifiers and signedness do not matter here. *)
From Coq Require Import List ZArith Bool.
From Verif Require Import Util TypeModel LayoutModel.
Import ListNotations.
Open Scope Z_scope.

(* abi.h:19-26 *)
Inductive cls := NO_CLASS | INTEGER | SSE | SSEUP | X87 | X87UP | COMPLEX_X87 | MEMORY.
Definition cls_eqb (a b : cls) : bool :=
  match a, b with
  | NO_CLASS, NO_CLASS | INTEGER, INTEGER | SSE, SSE | SSEUP, SSEUP | X87, X87 | X87UP, X87UP
  | COMPLEX_X87, COMPLEX_X87 | MEMORY, MEMORY => true
  | _, _ => false
  end.
(* abi.h:32 EIGHTBYTES *)
Definition eightbytes (t : ltype) : Z := (lsize t + 7) / 8.

(* abi.c:11-26; None: the assertion at 19 *)
Fixpoint has_unaligned_fields (ms : list lmember) : option bool :=
  match ms with
  | [] => Some false
  | m :: r =>
    if lsize (m_type m) =? 0 then None
    else if negb (m_offset m mod lsize (m_type m) =? 0) then Some true else has_unaligned_fields r
  end.

(* abi.c:28-38 *)
Definition combine (a b : cls) : cls :=
  if cls_eqb a b then a
  else if cls_eqb a NO_CLASS then b
  else if cls_eqb b NO_CLASS then a
  else if cls_eqb a MEMORY || cls_eqb b MEMORY then MEMORY
  else if cls_eqb a INTEGER || cls_eqb b INTEGER then INTEGER
  else if cls_eqb a X87 || cls_eqb b X87 then MEMORY
  else if cls_eqb a X87UP || cls_eqb b X87UP then MEMORY
  else SSE.

(* abi.h:14-16: four classes.  None: a failed assertion, or an index outside of the array. *)
Definition param_class := list cls.
Definition mix (pc : param_class) (i : Z) (c : cls) : option param_class :=
  if (0 <=? i) && (i <? 4) then Some (upd pc (Z.to_nat i) (combine (nth (Z.to_nat i) pc NO_CLASS) c)) else None.
Definition obnd {A B} (x : option A) (f : A -> option B) : option B := match x with Some a => f a | None => None end.

(* abi.c:40-84.  Offsets are not negative and less than 2^31 (types of at most 32 bytes). *)
Fixpoint flatten (pc : param_class) (t : ltype) (offset : Z) {struct t} : option param_class :=
  match t with
  | LScalar k =>
    let i := offset / 8 in
    match k with
    | T_FLOAT | T_DOUBLE => mix pc i SSE
    | T_LDOUBLE => obnd (mix pc i X87) (fun pc => if i <? 3 then mix pc (i + 1) X87UP else Some pc)
    | T_CHAR | T_INT | T_SHORT | T_LONG | T_POINTER => mix pc i INTEGER
    | _ => None
    end
  | LAgg _ _ _ ms =>
    fold_left (fun acc m => obnd acc (fun pc => flatten pc (m_type m) (m_offset m + offset))) ms (Some pc)
  | LArray _ next =>
    fold_left (fun acc i => obnd acc (fun pc => flatten pc next (Z.of_nat i * lsize next + offset)))
      (seq 0 (Z.to_nat (lsize t / lsize next))) (Some pc)
  end.

(* abi.c:86-111.  The loop: memory and sseup for the eightbytes from i on; prev is the one before. *)
Fixpoint scan (prev : option cls) (l : list cls) : bool * bool :=
  match l with
  | [] => (false, false)
  | c :: r =>
    let (memory, sseup) := scan (Some c) r in
    match c with
    | X87UP => match prev with Some X87 => (memory, sseup) | _ => (true, sseup) end
    | MEMORY => (true, sseup)
    | SSEUP => (memory, true)
    | _ => (memory, sseup)
    end
  end.
Definition merge (pc : param_class) (n : Z) : param_class :=
  let (memory, sseup) := scan None (firstn (Z.to_nat n) pc) in
  if memory || ((2 <? n) && (negb (cls_eqb (nth 0 pc NO_CLASS) SSE) || negb sseup)) then upd pc 0 MEMORY else pc.

Definition is_integer_or_pointer (k : tkind) : bool :=
  match k with T_BOOL | T_CHAR | T_SHORT | T_INT | T_LONG | T_POINTER => true | _ => false end.
(* abi.c:113-137; not for function types (116) *)
Definition classify (t : ltype) : option param_class :=
  let memory := Some [MEMORY; NO_CLASS; NO_CLASS; NO_CLASS] in
  match t with
  | LScalar k =>
    if is_integer_or_pointer k then Some [INTEGER; NO_CLASS; NO_CLASS; NO_CLASS]
    else match k with
    | T_DOUBLE | T_FLOAT => Some [SSE; NO_CLASS; NO_CLASS; NO_CLASS]
    | T_LDOUBLE => Some [X87; X87UP; NO_CLASS; NO_CLASS]
    | T_VOID => Some [NO_CLASS; NO_CLASS; NO_CLASS; NO_CLASS]
    | _ => memory
    end
  | LArray _ _ => memory
  | LAgg _ flexible _ ms =>
    if (eightbytes t <=? 4) && negb flexible then
      obnd (has_unaligned_fields ms) (fun u =>
        if u then memory
        else obnd (flatten [NO_CLASS; NO_CLASS; NO_CLASS; NO_CLASS] t 0) (fun pc => Some (merge pc (eightbytes t))))
    else memory
  end.
