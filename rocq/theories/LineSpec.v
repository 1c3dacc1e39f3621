(* Translation phases 1 to 3 of C89 (2.1.1.2), as far as they concern lines, splices and comments: one phase after the other, on
   the whole text.  Nothing here refers to the model. *)
From Coq Require Import ZArith String List Bool.
From Verif Require Import TokenizeSpec.
Import ListNotations.
Local Open Scope Z_scope.

(* C89 2.2.1.1 *)
Definition trigraphs : list (Z * Z) := combine (chars "=(/)'<!>-") (chars "#[\]^{|}~").
Definition trigraph (c : Z) : option Z := option_map snd (find (fun p => fst p =? c) trigraphs).
(* Phase 1: trigraph sequences are replaced. *)
Fixpoint phase1 (s : list Z) : list Z :=
  match s with
  | [] => []
  | a :: s' =>
      match s' with
      | b :: c :: r =>
          match (if (a =? 63) && (b =? 63) then trigraph c else None) with
          | Some t => t :: phase1 r
          | None => a :: phase1 s'
          end
      | _ => a :: phase1 s'
      end
  end.
(* Phase 2: each backslash immediately followed by a newline is deleted. *)
Fixpoint phase2 (s : list Z) : list Z :=
  match s with
  | [] => []
  | a :: s' =>
      match s' with
      | b :: r => if (a =? 92) && (b =? 10) then phase2 r else a :: phase2 s'
      | [] => [a]
      end
  end.
(* What follows the first asterisk-slash. *)
Fixpoint after_comment (s : list Z) : option (list Z) :=
  match s with
  | [] => None
  | a :: s' => match s' with
               | b :: r => if (a =? 42) && (b =? 47) then Some r else after_comment s'
               | [] => None
               end
  end.
(* A literal after its opening quote: what it consists of, the closing quote included, and what follows.  escaped: the character
   follows a backslash that is not itself escaped. *)
Inductive quoted (q : Z) : bool -> list Z -> list Z -> list Z -> Prop :=
| quoted_end : forall s, quoted q false (q :: s) [q] s
| quoted_char : forall c s b r, c <> q -> c <> 92 -> c <> 10 -> quoted q false s b r -> quoted q false (c :: s) (c :: b) r
| quoted_backslash : forall s b r, quoted q true s b r -> quoted q false (92 :: s) (92 :: b) r
| quoted_escaped : forall c s b r, c <> 10 -> quoted q false s b r -> quoted q true (c :: s) (c :: b) r.
(* Phase 3 on one logical line, without the newline that ends it: comments become a space, literals stay as they are.
   qq: whether two question marks may follow each other outside literals and comments. *)
Inductive phase3 (qq : bool) : list Z -> list Z -> Prop :=
| p3_end : phase3 qq [] []
| p3_char : forall c s t, c <> 10 -> c <> 34 -> c <> 39 -> (c = 47 -> hd 0 s <> 47 /\ hd 0 s <> 42) ->
    (qq = true \/ c <> 63 \/ hd 0 s <> 63) -> phase3 qq s t -> phase3 qq (c :: s) (c :: t)
| p3_literal : forall q s b r t, q = 34 \/ q = 39 -> quoted q false s b r -> phase3 qq r t -> phase3 qq (q :: s) (q :: b ++ t)
| p3_comment : forall s r t, after_comment s = Some r -> phase3 qq r t -> phase3 qq (47 :: 42 :: s) (32 :: t)
| p3_line_comment : forall s, ~ In 10 s -> phase3 qq (47 :: 47 :: s) [].
(* Newlines in a text *)
Definition newlines (s : list Z) : nat := List.length (filter (Z.eqb 10) s).
(* No trigraph for a backslash stands before a newline, and no three question marks in a row. *)
Fixpoint clear (s : list Z) : Prop :=
  match s with
  | [] => True
  | a :: s' => (forall r, s <> 63 :: 63 :: 47 :: 10 :: r) /\ (forall r, s <> 63 :: 63 :: 63 :: r) /\ clear s'
  end.
(* s, a physical text, is one logical line whose content is t; the newline after s ends it. *)
Record logical_line (qq : bool) (s t : list Z) : Prop := {
  ends : last (phase1 s) 0 <> 92;
  content : phase3 qq (phase2 (phase1 s)) t;
}.
