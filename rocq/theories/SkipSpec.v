(* Execution of a control-flow graph, ir.h:181-186. *)
From Coq Require Import List Bool Arith.
From Verif Require Import SkipModel.
Import ListNotations.

Section Run.
Variable St : Type.
(* The statements of a block, and its branch condition. *)
Variable body : nat -> St -> St.
Variable cond : nat -> St -> St * bool.

(* Going on at block b, the next block that does something is u. *)
Inductive reach (g : graph) : nat -> nat -> Prop :=
| reach_here : forall b, skippable (g b) = false -> reach g b b
| reach_next : forall b t u, skippable (g b) = true -> jump0 (g b) = Some t -> reach g t u -> reach g b u.

(* The first n blocks that do something, each with the state before it; at the end the final state if the function has
   returned. *)
Inductive run (g : graph) : nat -> nat -> St -> list (nat * St) -> option St -> Prop :=
| run_stop : forall b s, run g 0 b s [] None
| run_return : forall n b u s, reach g b u -> jump0 (g u) = None -> run g (S n) b s [(u, s)] (Some (body u s))
| run_jump : forall n b u t s tr f, reach g b u -> jump0 (g u) = Some t -> jump1 (g u) = None ->
    run g n t (body u s) tr f -> run g (S n) b s ((u, s) :: tr) f
| run_branch : forall n b u t v s s' c tr f, reach g b u -> jump0 (g u) = Some t -> jump1 (g u) = Some v ->
    cond u (body u s) = (s', c) -> run g n (if c then v else t) s' tr f -> run g (S n) b s ((u, s) :: tr) f.
End Run.
