(* Emission of the blocks of a function.  src/backend/x86_64/compile.c:3149-3287 compile_block, 3341-3353 compile_function. *)
From Coq Require Import List Bool Arith ZArith.
From Verif Require Import CmpModel.
Import ListNotations.

(* include/lacc/ir.h:164-209 struct block: the jump targets, and what kind of expression the branch condition is. *)
Inductive condition := Comparison (o : cmpop) (k : kind) (long_double left_imm : bool) | Scalar (k : kind).
Record lblk := mk_lblk { to0 : option nat; to1 : option nat; test : condition }.
Definition lgraph := nat -> lblk.

(* The instructions emitted, by block: the label, the code of the statements, the code that evaluates the condition and
   compares, jumps, and the return sequence. *)
Inductive instr := Label (b : nat) | Body (b : nat) | Compare (b : nat) | JumpCc (cc : tttn) (b : nat) | Jump (b : nat) | Return (b : nat).

Definition jump_to (br0 br1 : nat) (j : branch_code) : instr :=
  match j with
  | Jcc cc second => JumpCc cc (if second then br1 else br0)
  | Jmp second => Jump (if second then br1 else br0)
  end.
(* compile.c:2280-2294: the condition compile_compare returns. *)
Definition condition_of (o : cmpop) (k : kind) (left_imm : bool) : tttn :=
  match k with
  | KSigned w | KUnsigned w => if left_imm && (w <? 64)%Z then swap_cc (initial_cc o k) else initial_cc o k
  | KReal => initial_cc o k
  end.
(* compile.c:3195-3276; None: assertion. *)
Definition branch_instrs (c : condition) (br0 br1 : nat) : option (list instr) :=
  match c with
  | Comparison o k _ imm => option_map (map (jump_to br0 br1)) (compare_jumps k (condition_of o k imm))
  | Scalar k => Some (map (jump_to br0 br1) (scalar_jumps k))
  end.

(* compile.c:3149-3287; black: the blocks whose color is BLACK.  None: out of fuel, or an assertion fails. *)
Fixpoint compile_block (fuel : nat) (g : lgraph) (black : list nat) (b : nat) : option (list instr * list nat) :=
  match fuel with
  | O => None
  | S n =>
    if existsb (Nat.eqb b) black then Some ([], black)
    else
      let black := black ++ [b] in
      let head := [Label b; Body b] in
      match to0 (g b), to1 (g b) with
      | None, None => Some (head ++ [Return b], black)
      | None, Some _ => None
      | Some t, None =>
          if existsb (Nat.eqb t) black then Some (head ++ [Jump t], black)
          else match compile_block n g black t with
               | Some (code, black) => Some (head ++ code, black)
               | None => None
               end
      | Some t, Some u =>
          match branch_instrs (test (g b)) t u with
          | None => None
          | Some jumps =>
            let second := if existsb (Nat.eqb u) black then Some ([Jump u], black) else compile_block n g black u in
            match second with
            | None => None
            | Some (code1, black) =>
              match compile_block n g black t with
              | Some (code0, black) => Some (head ++ Compare b :: jumps ++ code1 ++ code0, black)
              | None => None
              end
            end
          end
      end
  end.
