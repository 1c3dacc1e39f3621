(* Scopes, names and emission, as the language describes them. *)
From Coq Require Import List ZArith Bool.
From Verif Require Import Bytes SymtabModel.
Import ListNotations.
Open Scope Z_scope.

(* What happens to a namespace: scopes open and close, names are declared; a parameter of the
   prototype is made visible again in the function body (declaration.c:977). *)
Inductive sop (Ty : Type) :=
| OPush | OPop
| OAdd (name : list Z) (ty : Ty) (k : symtype) (l : linkage)
| OShow (name : list Z) (s : nat).
Arguments OPush {Ty}. Arguments OPop {Ty}. Arguments OAdd {Ty}. Arguments OShow {Ty}.

(* The same as a trace: EDecl name s, name was declared in the current scope and denotes s. *)
Inductive event := EPush | EPop | EDecl (name : list Z) (s : nat).

(* The declaration of n that is visible after a trace (last event first): go back in the program text, skipping
   blocks that are closed. *)
Fixpoint seen (closed : nat) (tr : list event) (n : list Z) : option nat :=
  match tr with
  | [] => None
  | EPop :: r => seen (S closed) r n
  | EPush :: r => seen (pred closed) r n
  | EDecl m s :: r =>
    match closed with
    | O => if list_eqb m n then Some s else seen 0 r n
    | S _ => seen closed r n
    end
  end.

Fixpoint max_depth {Ty} (d : Z) (ops : list (sop Ty)) : Z :=
  match ops with
  | [] => d
  | OPush :: r => Z.max d (max_depth (d + 1) r)
  | OPop :: r => Z.max d (max_depth (d - 1) r)
  | _ :: r => max_depth d r
  end.

(* A block body: every scope opened in it is closed in it. *)
Inductive block {Ty} : list (sop Ty) -> Prop :=
| block_nil : block []
| block_add : forall n t k l r, block r -> block (OAdd n t k l :: r)
| block_show : forall n s r, block r -> block (OShow n s :: r)
| block_nest : forall b r, block b -> block r -> block (OPush :: b ++ OPop :: r).

Section Run.
Variable Ty : Type.
Variable is_function : Ty -> bool.
Variable type_equal : Ty -> Ty -> bool.
Variable apply_type : Ty -> Ty -> option Ty.

Definition exec (label : bool) (st : ns Ty) (o : sop Ty) : option (ns Ty * event) :=
  match o with
  | OPush => Some (push_scope _ st, EPush)
  | OPop => match pop_scope _ st with Some st' => Some (st', EPop) | None => None end
  | OAdd n t k l =>
    match sym_add Ty is_function type_equal apply_type label st n t k l with
    | Some (st', s) => Some (st', EDecl n s)
    | None => None
    end
  | OShow n s =>
    match counts _ st with
    | [] => None
    | _ => Some (sym_make_visible _ st n s, EDecl n s)
    end
  end.
(* None: the compiler stopped with an error.  The trace has the last event first. *)
Fixpoint runs (label : bool) (st : ns Ty) (tr : list event) (ops : list (sop Ty)) : option (ns Ty * list event) :=
  match ops with
  | [] => Some (st, tr)
  | o :: r => match exec label st o with Some (st', e) => runs label st' (e :: tr) r | None => None end
  end.
End Run.

(* An identifier of C: no period in it. *)
Definition identifier (n : list Z) : Prop := n <> [] /\ ~ In 46 n /\ (length n <= 100)%nat.
Fixpoint how_many (k : Z) (cs : list creation) : nat :=
  match cs with [] => 0 | c :: r => (if (kind_no c =? k)%Z then 1 else 0) + how_many k r end%nat.
