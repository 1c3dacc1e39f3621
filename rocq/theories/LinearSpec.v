(* Execution of a graph of blocks and of the instructions emitted for it. *)
From Coq Require Import List Bool Arith.
From Verif Require Import CmpModel LinearModel.
Import ListNotations.

Section Exec.
Variable St : Type.
(* The statements of a block; its return value; its condition, by the C meaning of it. *)
Variable body : nat -> St -> St.
Variable leave : nat -> St -> St.
Variable choose : nat -> St -> St * bool.

(* The states in which the first n blocks of an execution are entered; the final state if it ends within them.  This is
   the meaning of jump[0] and jump[1] in include/lacc/ir.h:181-186. *)
Fixpoint graph_run (g : lgraph) (n : nat) (b : nat) (s : St) : list (nat * St) * option St :=
  match n with
  | O => ([], None)
  | S n =>
    let s1 := body b s in
    match to0 (g b), to1 (g b) with
    | None, _ => ([(b, s)], Some (leave b s1))
    | Some t, None => let '(tr, f) := graph_run g n t s1 in ((b, s) :: tr, f)
    | Some t, Some u => let '(s2, c) := choose b s1 in let '(tr, f) := graph_run g n (if c then u else t) s2 in ((b, s) :: tr, f)
    end
  end.

(* The machine: evaluating a condition leaves flags. *)
Variable compare : nat -> St -> St * flags.
Fixpoint find (b : nat) (code : list instr) : option (list instr) :=
  match code with
  | [] => None
  | Label c :: r => if Nat.eqb b c then Some r else find b r
  | _ :: r => find b r
  end.
Inductive outcome := Running (rest : list instr) (s : St) (f : flags) | Halted (s : St) | Lost.
(* One instruction; the program counter is given by the instructions from it on. *)
Definition step (code : list instr) (rest : list instr) (s : St) (f : flags) : list (nat * St) * outcome :=
  let goto b := match find b code with Some r => Running r s f | None => Lost end in
  match rest with
  | [] => ([], Lost)
  | Label _ :: r => ([], Running r s f)
  | Body b :: r => ([(b, s)], Running r (body b s) f)
  | Compare b :: r => let '(s', f') := compare b s in ([], Running r s' f')
  | JumpCc cc b :: r => ([], if holds cc f then goto b else Running r s f)
  | Jump b :: _ => ([], goto b)
  | Return b :: _ => ([], Halted (leave b s))
  end.
Fixpoint machine_run (code : list instr) (n : nat) (rest : list instr) (s : St) (f : flags) : list (nat * St) * outcome :=
  match n with
  | O => ([], Running rest s f)
  | S n =>
    let '(tr, o) := step code rest s f in
    match o with
    | Running rest s f => let '(tr', o) := machine_run code n rest s f in (tr ++ tr', o)
    | _ => (tr, o)
    end
  end.
End Exec.
Arguments Running {St} rest s f. Arguments Halted {St} s. Arguments Lost {St}.
