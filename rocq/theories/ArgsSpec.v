(* The meaning of option rules, argparse.h:4-20 and the comment at argparse.c:12-14. *)
From Coq Require Import ZArith List.
Import ListNotations.
Local Open Scope Z_scope.

(* A rule is a sequence of text, [optional] parts and {a|b} sets. *)
Inductive piece := Lit (s : list Z) | Opt (s : list Z) | Alt (x : list Z) (l : list (list Z)).
Inductive means : list piece -> list Z -> Prop :=
| means_nil : means [] []
| means_lit : forall s ps a, means ps a -> means (Lit s :: ps) (s ++ a)
| means_with : forall s ps a, means ps a -> means (Opt s :: ps) (s ++ a)
| means_without : forall s ps a, means ps a -> means (Opt s :: ps) a
| means_alt : forall x l y ps a, In y (x :: l) -> means ps a -> means (Alt x l :: ps) (y ++ a).

Fixpoint bars (l : list (list Z)) : list Z := match l with [] => [] | x :: r => [124] ++ x ++ bars r end.
Fixpoint spell (ps : list piece) : list Z :=
  match ps with
  | [] => []
  | Lit s :: r => s ++ spell r
  | Opt s :: r => [91] ++ s ++ [93] ++ spell r
  | Alt x l :: r => [123] ++ x ++ bars l ++ [125] ++ spell r
  end.
(* The text contains none of the brackets and bars. *)
Definition plain (s : list Z) : Prop := Forall (fun c => ~ In c [91; 93; 123; 124; 125]) s.
Definition plain_piece (p : piece) : Prop :=
  match p with Lit s | Opt s => plain s | Alt x l => Forall plain (x :: l) end.
(* What follows an optional part does not begin like it; no element of a set begins another. *)
Fixpoint unambiguous (ps : list piece) : Prop :=
  match ps with
  | [] => True
  | Lit _ :: r => unambiguous r
  | Opt s :: r => (forall a, ~ means r (s ++ a)) /\ unambiguous r
  | Alt x l :: r => (forall y z a, In y (x :: l) -> In z (x :: l) -> z = y ++ a -> z = y) /\ unambiguous r
  end.
(* The argument does not spell a bracket where the rule has one. *)
Fixpoint no_bracket (ps : list piece) (arg : list Z) : Prop :=
  match ps with
  | [] => True
  | Lit s :: r => forall a, arg = s ++ a -> no_bracket r a
  | Opt s :: r => hd 0 arg <> 91 /\ (forall a, arg = s ++ a -> no_bracket r a) /\ no_bracket r arg
  | Alt x l :: r => hd 0 arg <> 123 /\ forall y a, In y (x :: l) -> arg = y ++ a -> no_bracket r a
  end.

(* Options: exactly the text; a value in the same or in the next argument; a value in the same argument. *)
Inductive option_rule := Exact (ps : list piece) | Separate (s : list Z) | Glued (s : list Z) | Equals (s : list Z).
Definition spelled (o : option_rule) : list Z :=
  match o with Exact ps => spell ps | Separate s => s ++ [58] | Glued s => s ++ [60] | Equals s => s ++ [61] end.
Definition well_formed (o : option_rule) : Prop :=
  match o with
  | Exact ps => Forall plain_piece ps /\ unambiguous ps /\ ~ In (last (spell ps) 0) [58; 60; 61]
  | _ => True
  end.
(* The option takes the argument (and, if n is 2, the next) with the value v. *)
Definition takes (o : option_rule) (arg : list Z) (next : option (list Z)) (v : list Z) (n : nat) : Prop :=
  match o with
  | Exact ps => means ps arg /\ v = arg /\ n = 1%nat
  | Separate s => arg = s ++ v /\ v <> [] /\ n = 1%nat \/ arg = s /\ next = Some v /\ n = 2%nat
  | Glued s => arg = s ++ v /\ v <> [] /\ n = 1%nat
  | Equals s => arg = s ++ [61] ++ v /\ v <> [] /\ n = 1%nat
  end.
(* The option is named but its value is missing. *)
Definition lacks (o : option_rule) (arg : list Z) (next : option (list Z)) : Prop :=
  match o with
  | Exact _ => False
  | Separate s => arg = s /\ next = None
  | Glued s => arg = s
  | Equals s => arg = s ++ [61]
  end.
Definition arg_ok (o : option_rule) (arg : list Z) : Prop := match o with Exact ps => no_bracket ps arg | _ => True end.

(* A command line is read from left to right.  An argument that begins with - is taken by the first option that can take it,
   where no earlier one misses its value; any other is an input. *)
Inductive reads (opts : list option_rule) : list (list Z) -> list (option (list Z) * list Z) -> Prop :=
| reads_end : reads opts [] []
| reads_input : forall arg rest calls, hd 0 arg <> 45 -> reads opts rest calls -> reads opts (arg :: rest) ((None, arg) :: calls)
| reads_option : forall arg rest before o after v n calls, hd 0 arg = 45 -> opts = before ++ o :: after ->
    (forall b, In b before -> ~ lacks b arg (hd_error rest) /\ forall w m, ~ takes b arg (hd_error rest) w m) ->
    takes o arg (hd_error rest) v n -> reads opts (skipn n (arg :: rest)) calls ->
    reads opts (arg :: rest) ((Some (spelled o), v) :: calls).
