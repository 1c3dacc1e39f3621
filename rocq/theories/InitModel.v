(* The assignments of an initializer, after they have been read.  src/parser/initializer.c:637-948.
   An assignment is to one variable; a_size is the size of the type of the target.  Values are integer constants or
   something else (numbered).  Types only count by their size: the ones of bit-fields are integer types, and the result of
   usual_arithmetic_conversion (typetree.c:1055-1080) on integer types has the size of the bigger one and at least that of
   int.  Offsets and sizes do not wrap around.  None: a failed assertion; validate_contiguous_initialization (834-867,
   absent in release builds) is not modelled. *)
From Coq Require Import List ZArith Bool.
Import ListNotations.
Open Scope Z_scope.

Inductive val := Const (z : Z) | Other (id : nat).
(* ir.h:20-80 struct var and struct statement: offset, size_of(type), field_offset, field_width *)
Record asg := mkAsg { a_off : Z; a_size : Z; a_foff : Z; a_fw : Z; a_val : val }.

Definition obnd {A B} (x : option A) (f : A -> option B) : option B := match x with Some a => f a | None => None end.
Definition guard (b : bool) : option unit := if b then Some tt else None.

(* initializer.c:593-634 zero_initialize, of a scalar *)
Definition zero (off size foff fw : Z) : asg := mkAsg off size foff fw (Const 0).

(* initializer.c:637-675 zero_initialize_bytes; at most as many steps as bytes *)
Fixpoint zero_initialize_bytes (fuel : nat) (off bytes : Z) : list asg :=
  match fuel with
  | O => []
  | S fuel =>
    if bytes =? 0 then []
    else
      let s := bytes mod 8 in
      let s := if s =? 0 then 8 else s in
      let s := if (s =? 1) || (s =? 2) || (s =? 4) || (s =? 8) then s else 1 in
      zero off s 0 0 :: zero_initialize_bytes fuel (off + s) (bytes - s)
  end.

(* initializer.c:703-722: the target is at the offset already *)
Definition complete_field (off foff nfoff : Z) : option (list asg) :=
  obnd (guard (foff <=? nfoff)) (fun _ =>
  let w := nfoff - foff in
  if w =? 0 then Some []
  else if 32 <? nfoff then obnd (guard (nfoff <? 64)) (fun _ => Some [zero off 8 foff w])
  else if 16 <? nfoff then Some [zero off 4 foff w]
  else if 8 <? nfoff then Some [zero off 2 foff w]
  else Some [zero off 1 foff w]).
(* initializer.c:725-755: what is written, and the offset up to which the field has been filled *)
Definition finish_field (off foff noff : Z) : option (list asg * Z) :=
  if (foff =? 8) || (foff =? 16) || (foff =? 32) || (foff =? 64) then Some ([], off + foff / 8)
  else if foff =? 0 then Some ([], off)
  else
    obnd (if foff <? 32 then Some 4 else obnd (guard (foff <? 64)) (fun _ => Some 8)) (fun size =>
    let bytes := off + size in
    let w := size * 8 - foff in
    obnd (if noff <? bytes then obnd (guard (bytes - noff <? w * 8)) (fun _ => Some (w - (bytes - noff) * 8)) else Some w) (fun w =>
    obnd (guard ((foff + w) mod 8 =? 0)) (fun _ =>
    Some ([zero off size foff w], off + (foff + w) / 8)))).
(* initializer.c:687-762 initialize_padding.  The loop ends in its first or second round: after the first the offsets are
   equal and the field offset of prev is 0. *)
Definition initialize_padding (off foff noff nfoff : Z) : option (list asg) :=
  obnd (guard ((off <=? noff) && (off * 8 + foff <=? noff * 8 + nfoff))) (fun _ =>
  if off =? noff then complete_field off foff nfoff
  else
    obnd (finish_field off foff noff) (fun x =>
    let '(l, off) := x in
    obnd (guard (off <=? noff)) (fun _ =>
    obnd (complete_field noff 0 nfoff) (fun r =>
    Some (l ++ zero_initialize_bytes (Z.to_nat (noff - off)) off (noff - off) ++ r))))).

(* initializer.c:773-800 merge_assignments.  Shifts and masks are of 64 bits; a shift by 63 to the sign bit wraps around. *)
Definition wrap64 (z : Z) : Z := (z + 2 ^ 63) mod 2 ^ 64 - 2 ^ 63.
Definition is_field (a : asg) : bool := negb (a_fw a =? 0).
Definition merge_assignments (a b : asg) : option (option asg) :=
  match a_val a, a_val b with
  | Const x, Const y =>
    if negb (a_off a =? a_off b) then Some None
    else
      obnd (guard (is_field a && is_field b)) (fun _ =>
      let m1 := wrap64 (wrap64 (Z.shiftl 1 (a_fw a)) - 1) in
      let m2 := wrap64 (wrap64 (Z.shiftl 1 (a_fw b)) - 1) in
      let size := Z.max 4 (Z.max (a_size a) (a_size b)) in
      let w := a_fw a + a_fw b in
      let v := Z.lor (wrap64 (Z.shiftl (Z.land x m1) (a_foff a))) (wrap64 (Z.shiftl (Z.land y m2) (a_foff b))) in
      let w := if (a_foff a =? 0) && (w =? size * 8) then 0 else w in
      Some (Some (mkAsg (a_off a) size (a_foff a) w (Const v))))
  | _, _ => Some None
  end.
(* initializer.c:809-824 normalize_field_assignment: from the assignment a on *)
Fixpoint normalize (a : asg) (l : list asg) : option (list asg) :=
  match l with
  | [] => Some [a]
  | b :: r =>
    obnd (merge_assignments a b) (fun x =>
    match x with
    | Some a' => normalize a' r
    | None => obnd (normalize b r) (fun l' => Some (a :: l'))
    end)
  end.
Definition normalize_field_assignment (l : list asg) : option (list asg) :=
  match l with a :: b :: r => normalize a (b :: r) | _ => None end.

(* initializer.c:875-900 sort_and_trim.  rev: code[i - 1], ..., code[0]; x is code[i]. *)
Fixpoint insert (rev : list asg) (x : asg) : option (list asg) :=
  match rev with
  | [] => Some [x]
  | h :: t =>
    if a_off x <? a_off h then option_map (cons h) (insert t x)
    else if (a_off h =? a_off x) && (a_foff h =? a_foff x) then obnd (guard (a_fw h =? a_fw x)) (fun _ => Some (x :: t))
    else Some (x :: h :: t)
  end.
Definition sort_and_trim (l : list asg) : option (list asg) :=
  option_map (@rev asg) (fold_left (fun acc x => obnd acc (fun r => insert r x)) l (Some [])).

(* initializer.c:909-948 postprocess_object_initialization; off and foff are those of prev *)
Fixpoint fill (off foff size : Z) (l : list asg) : option (list asg) :=
  match l with
  | [] => initialize_padding off foff size 0
  | x :: r =>
    obnd (initialize_padding off foff (a_off x) (a_foff x)) (fun pad =>
    obnd (fill (if a_fw x =? 0 then a_off x + a_size x else a_off x) (a_foff x + a_fw x) size r) (fun rest =>
    Some (pad ++ x :: rest)))
  end.
Definition postprocess (l : list asg) (size : Z) : option (list asg) :=
  obnd (sort_and_trim l) (fun l =>
  obnd (fill 0 0 size l) (fun block =>
  if existsb is_field l then normalize_field_assignment block else Some block)).
