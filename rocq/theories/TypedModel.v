(* sizeof, over the expressions of PtrModel. *)
From Coq Require Import List Bool ZArith.
From Verif Require Import PtrModel.
Import ListNotations.
Open Scope Z_scope.

(* expression.c:373-404, sizeof of an expression: it is parsed into a block that is thrown away (395-398, parse.c:166-192
   begin_throwaway_block and restore_block), and only its type counts.  Temporaries made meanwhile are not used again, and the blocks that
   restore_block leaves behind (it counts up to a length that goes down) are not reached from anywhere.  typetree.c:870-882
   is_complete: all the types there are here.  Not: variable length arrays *)
Definition compile_sizeof (G : tagged) (e : exp) : M expr :=
  fun '(n, l) =>
    match compile G e (n, []) with
    | Ok (x, (n', _)) => Ok (as_expr (imm_int ulong (size_of G (e_type x))), (n', l))
    | Stop => Stop
    | Bad => Bad
    end.
