(* C47: where arguments are passed.  System V x86-64 ABI, 3.2.3 Parameter Passing. *)
From Coq Require Import List ZArith Bool.
From Verif Require Import TypeModel LayoutModel LayoutSpec AbiModel AbiSpec CallModel.
Import ListNotations.
Open Scope Z_scope.

Definition integer_registers : list reg := [DI; SI; DX; CX; R8; R9].
Definition vector_registers : list reg := [XMM 0; XMM 1; XMM 2; XMM 3; XMM 4; XMM 5; XMM 6; XMM 7].

(* The registers of the eightbytes of one argument, and the registers that are left, of the integer and vector registers
   that are free.  None: the argument is passed on the stack (one of its eightbytes is in memory, or has no register). *)
Fixpoint assign (l : list cls) (free : list reg) (vfree : list reg) : option (list reg * list reg * list reg) :=
  match l with
  | [] => Some ([], free, vfree)
  | INTEGER :: l' =>
    match free with
    | r :: free' => option_map (fun x => (r :: fst (fst x), snd (fst x), snd x)) (assign l' free' vfree)
    | [] => None
    end
  | SSE :: l' =>
    match vfree with
    | r :: vfree' => option_map (fun x => (r :: fst (fst x), snd (fst x), snd x)) (assign l' free vfree')
    | [] => None
    end
  | _ :: _ => None
  end.

Inductive location := Registers (l : list reg) | Stack (o : Z).
(* Arguments are given by the classes of their eightbytes and their size.  Offsets on the stack are from %rsp at the call
   instruction; each argument takes a whole number of eightbytes there, the first at the lowest address. *)
Fixpoint locate (args : list (list cls * Z)) (free vfree : list reg) (o : Z) : list location :=
  match args with
  | [] => []
  | (l, n) :: r =>
    match assign l free vfree with
    | Some (rs, free', vfree') => Registers rs :: locate r free' vfree' o
    | None => Stack o :: locate r free vfree (o + 8 * ((n + 7) / 8))
    end
  end.
(* A result of class MEMORY is at an address that is passed in %rdi. *)
Definition locations (result : list cls) (args : list (list cls * Z)) : list location :=
  locate args (match result with [MEMORY] => tl integer_registers | _ => integer_registers end) vector_registers 0.

Definition is_vector (r : reg) : bool := match r with XMM _ => true | _ => false end.
Definition vectors (l : list location) : list reg :=
  filter is_vector (flat_map (fun x => match x with Registers rs => rs | Stack _ => [] end) l).

(* Byte k of an argument that is at w, in the state s where its first byte on the stack is at sp. *)
Definition byte_at (s : mach) (sp : Z) (w : location) (k : Z) : option Z :=
  match w with
  | Registers rs => option_map (fun r => nth (Z.to_nat (k mod 8)) (m_reg s r) 0) (nth_error rs (Z.to_nat (k / 8)))
  | Stack o => Some (m_mem s (sp + o + k))
  end.

(* Types of arguments and results; for the last two conditions see C27 *)
Definition passable (c : ctype) : Prop :=
  complete c /\ (forall n e, c <> CArray n e) /\ (aggregate c -> forall o, ~ Leaf c 0 T_BOOL o) /\ (csize c <= 16 -> size_aligned c).

(* The classes of a result (None: void), and how the compiler classifies it. *)
Definition AbiResult (c : option ctype) (l : list cls) : Prop := match c with None => l = [] | Some c => Abi c l end.
Definition result_class (c : option ctype) (pc : param_class) : Prop :=
  match c with
  | None => classify (LScalar T_VOID) = Some pc
  | Some c => passable c /\ exists t, elab c = Done t /\ classify t = Some pc
  end.
