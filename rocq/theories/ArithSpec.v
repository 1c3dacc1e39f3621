(* What an assignment of the intermediate representation means: values of operands, and what an assignment changes. *)
From Coq Require Import List ZArith Bool.
From Verif Require Import TypeModel TypeSpec EvalModel EvalSpec FieldSpec ArithModel.
Import ListNotations.
Open Scope Z_scope.

(* The integer type of an operand; a pointer is a number of 64 bits. *)
Definition Denotes (t : Type_) (k : ikind) : Prop := denotes t (I k) \/ ty_pointer t = true /\ k = ULong.

Section Spec.
Variables (rbp : Z) (glob : nat -> Z) (sym : nat -> symbol).

Definition symbol_address (s : nat) : Z := match s_linkage (sym s) with LINK_NONE => rbp + s_stack (sym s) | _ => glob s end.
(* Temporaries with a slot live in a register, each in its own; everything else lives in memory. *)
Inductive place := InReg (i : nat) | InMem (a : Z).
Definition home (s : nat) : place :=
  if s_temporary (sym s) && negb (Nat.eqb (s_slot (sym s)) 0) then InReg (s_slot (sym s) - 1) else InMem (symbol_address s).
Definition contents (st : mach) (p : place) (n : Z) : Z :=
  match p with InReg i => regs st (Tmp i) mod 2 ^ (8 * n) | InMem a => rd (mem st) a n end.
(* The object an operand designates: sym + offset, or what the pointer sym, or a constant, points to. *)
Definition place_of (st : mach) (v : var) : option place :=
  match v_kind v with
  | DIRECT => Some (match home (v_sym v) with InReg i => InReg i | InMem a => InMem (a + v_offset v) end)
  | DEREF => Some (InMem ((if v_is_symbol v then contents st (home (v_sym v)) 8 else v_imm v mod 2 ^ 64) + v_offset v))
  | _ => None
  end.

(* The operand v, of type k, has the value z. *)
Definition HasValue (st : mach) (v : var) (k : ikind) (z : Z) : Prop :=
  Denotes (v_type v) k /\ in_range k z /\
  match v_kind v with
  | IMMEDIATE => v_imm v = sext 64 z
  | ADDRESS => z mod 2 ^ 64 = (symbol_address (v_sym v) + v_offset v) mod 2 ^ 64
  | _ => exists p, place_of st v = Some p /\
    if is_field v then z = held (signed k) (v_width v) (v_foff v) (contents st p 8)
    else contents st p (size_of (v_type v)) = z mod 2 ^ (8 * size_of (v_type v))
  end.

(* What the front end produces: bit-fields are narrower than 64 bits, inside a unit of their type, and in memory; objects have
   addresses, temporaries no parts; pointers that are followed have pointer type. *)
Definition Valid (st : mach) (v : var) : Prop :=
  0 <= v_offset v <= 2 ^ 31 - 1 /\
  (is_field v = true -> 0 < v_width v < 64 /\ 0 <= v_foff v /\ v_foff v + v_width v <= 8 * size_of (v_type v)) /\
  match v_kind v with
  | IMMEDIATE => v_is_symbol v = false /\ v_offset v = 0 /\ is_field v = false
  | ADDRESS => v_is_symbol v = true /\ is_field v = false /\ size_of (v_type v) = 8
  | DIRECT => v_is_symbol v = true /\
    match home (v_sym v) with InReg _ => v_offset v = 0 /\ is_field v = false | InMem a => 0 <= a + v_offset v < 2 ^ 64 end
  | DEREF => v_is_symbol v = true /\ is_pointer (s_type (sym (v_sym v))) = true /\
    match home (v_sym v) with InReg _ => True | InMem a => 0 <= a < 2 ^ 64 end /\
    contents st (home (v_sym v)) 8 + v_offset v < 2 ^ 64
  end.
(* A target is an object; a constant can serve as the pointer to it. *)
Definition ValidTarget (st : mach) (t : var) : Prop :=
  (v_kind t = DIRECT \/ v_kind t = DEREF) /\ (exists k, Denotes (v_type t) k) /\
  (Valid st t \/ v_kind t = DEREF /\ v_is_symbol t = false /\ v_offset t = 0 /\ is_field t = false).

(* The registers of the temporaries are as they were, but for one. *)
Definition TempsBut (i : option nat) (st st' : mach) : Prop := forall j, i <> Some j -> regs st' (Tmp j) = regs st (Tmp j).
(* After the assignment of z to t, t holds z, converted to its type; nothing else has changed. *)
Definition Assigned (st st' : mach) (t : var) (z : Z) : Prop :=
  let n := size_of (v_type t) in
  match place_of st t with
  | Some (InReg i) => regs st' (Tmp i) mod 2 ^ (8 * n) = z mod 2 ^ (8 * n) /\ (forall x, mem st' x = mem st x) /\ TempsBut (Some i) st st'
  | Some (InMem a) =>
    (if is_field t then
       (forall s, held s (v_width t) (v_foff t) (rd (mem st') a 8) = reduce s (v_width t) z) /\
       forall i, 0 <= i -> i < v_foff t \/ v_foff t + v_width t <= i -> Z.testbit (rd (mem st') a 8) i = Z.testbit (rd (mem st) a 8) i
     else rd (mem st') a n = z mod 2 ^ (8 * n)) /\
    (forall x, x < a \/ a + n <= x -> mem st' x = mem st x) /\ TempsBut None st st'
  | None => False
  end.
(* The low n bytes of a register are those of z; nothing a program can see has changed. *)
Definition Computed (st st' : mach) (r : reg) (n z : Z) : Prop :=
  regs st' r mod 2 ^ (8 * n) = z mod 2 ^ (8 * n) /\ (forall x, mem st' x = mem st x) /\ TempsBut None st st'.
Definition Done (st st' : mach) (t : option var) (r : reg) (n z : Z) : Prop :=
  match t with Some t => Assigned st st' t z | None => Computed st st' r n z end.
(* The target, if there is one, is as wide as the value. *)
Definition Fits (st : mach) (t : option var) (n : Z) : Prop := match t with Some t => ValidTarget st t /\ size_of (v_type t) = n | None => True end.
(* Both are the same temporary, which is in a register. *)
Definition SameTemporary (st : mach) (t : option var) (v : var) : Prop :=
  match t with Some t => exists i, place_of st t = Some (InReg i) /\ place_of st v = Some (InReg i) | None => False end.
End Spec.
(* the types of arithmetic, after promotion *)
Definition promoted (k : ikind) : Prop := k = Int \/ k = UInt \/ k = Long \/ k = ULong.
Definition arithmetic (op : binop) : Prop := match op with Add | Sub | Mul | Div | Mod | And | Or | Xor => True | _ => False end.
