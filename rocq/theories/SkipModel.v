(* Removal of empty basic blocks.  src/optimizer/optimize.c:29-43, 157-194. *)
From Coq Require Import List Bool Arith.
Import ListNotations.

(* include/lacc/ir.h:164-209 struct block, the fields used here: the number of statements, the jump targets.  Blocks are
   known by number; a graph gives each its contents. *)
Record blk := mk_blk { count : nat; jump0 : option nat; jump1 : option nat }.
Definition graph := nat -> blk.
Definition set_block (g : graph) (b : nat) (x : blk) : graph := fun c => if Nat.eqb c b then x else g c.

(* optimize.c:166: the target `next` is skipped. *)
Definition skippable (x : blk) : bool :=
  match count x, jump0 x, jump1 x with O, Some _, None => true | _, _, _ => false end.

(* optimize.c:164-170 the do loop for a jump to t.  The loop reads next->jump[0], where next may be the block itself, whose
   jump has been written by an earlier round: the graph is updated each time.  None: out of fuel, the loop goes on. *)
Fixpoint follow0 (fuel : nat) (g : graph) (b : nat) : option graph :=
  match fuel with
  | O => None
  | S n =>
    match jump0 (g b) with
    | None => Some g
    | Some t => if skippable (g t) then follow0 n (set_block g b (mk_blk (count (g b)) (jump0 (g t)) (jump1 (g b)))) b
                else Some g
    end
  end.
Fixpoint follow1 (fuel : nat) (g : graph) (b : nat) : option graph :=
  match fuel with
  | O => None
  | S n =>
    match jump1 (g b) with
    | None => Some g
    | Some t => if skippable (g t) then follow1 n (set_block g b (mk_blk (count (g b)) (jump0 (g b)) (jump0 (g t)))) b
                else Some g
    end
  end.
(* optimize.c:163: the loop ends at the first missing jump. *)
Definition skip_block (fuel : nat) (g : graph) (b : nat) : option graph :=
  match jump0 (g b) with
  | None => Some g
  | Some _ => match follow0 fuel g b with Some g' => follow1 fuel g' b | None => None end
  end.
(* optimize.c:180-194 traverse, over the list of blocks. *)
Fixpoint skip_empty_blocks (fuel : nat) (g : graph) (l : list nat) : option graph :=
  match l with
  | [] => Some g
  | b :: r => match skip_block fuel g b with Some g' => skip_empty_blocks fuel g' r | None => None end
  end.

(* optimize.c:29-43 serialize_basic_blocks; `black` is the list so far. *)
Fixpoint serialize (fuel : nat) (g : graph) (black : list nat) (b : nat) : option (list nat) :=
  match fuel with
  | O => None
  | S n =>
    if existsb (Nat.eqb b) black then Some black
    else let black := black ++ [b] in
         match jump0 (g b) with
         | None => Some black
         | Some t => match serialize n g black t with
                     | None => None
                     | Some black => match jump1 (g b) with None => Some black | Some u => serialize n g black u end
                     end
         end
  end.
