(* Conditional groups.  src/preprocessor/directive.c:33-94, 712-822; src/preprocessor/preprocess.c:553-609;
   src/preprocessor/input.c:616-663.
   What a condition, a directive or a line of text means is a parameter of the section:
   Env is the state of the preprocessor (macro definitions, current file).
   Simplifications: a line is a logical line, and reading it does not touch the next one (a function-like
   macro at the end of a line does, see CppModel); the lines of all open files are one list, to which an
   #include adds the lines of the included file in front. *)
From Coq Require Import List ZArith Bool.
From Verif Require Import Bytes TokModel.
Import ListNotations.

(* directive.c:33-51 enum state *)
Inductive bstate := LIVE | DISABLED | DEAD.

Section Machine.
Variables Env Cnd Prep Name Dir Txt Out : Type.

(* A logical line. *)
Inductive line :=
| LText (t : Txt)
| LIf (c : Cnd) | LIfdef (n : Name) | LIfndef (n : Name) | LElif (c : Cnd) | LElse | LEndif
| LDir (d : Dir)     (* any other directive *)
| LNull.             (* a # alone *)

(* read_complete_line (preprocess.c:261-303) and expand of the tokens of a condition; None: exit(1) *)
Variable prepare : Env -> Cnd -> option Prep.
(* preprocess_constant_expression (directive.c:550-555) is non-zero; None: exit(1) *)
Variable value : Env -> Prep -> option bool.
(* macro_definition(name) != NULL; None: not an identifier, exit(1) *)
Variable isdef : Env -> Name -> option bool.
(* the other directives: new state, and the lines of the file if it is an #include; None: exit(1) *)
Variable exec : Env -> Dir -> option (Env * list line).
(* macro expansion of a line of text; None: exit(1) *)
Variable emit : Env -> Txt -> option Out.

(* directive.c:86-94 in_active_block; the top of the stack is the head of the list *)
Definition active (st : list bstate) : bool := match st with [] => true | s :: _ => match s with LIVE => true | _ => false end end.

Definition branch (b : bool) : bstate := if b then LIVE else DEAD.

(* directive.c:68-84 pop_state, then 743-748 and 761-764: the part of #else and #elif under an inactive block *)
Inductive popped := Popped (s : bstate) (rest : list bstate) | Unmatched.
Definition pop_state (st : list bstate) : popped := match st with s :: r => Popped s r | [] => Unmatched end.

Inductive result :=
| Done (os : list Out) (e : Env)
| Err                   (* error, exit(1) *)
| AssertFails
| NoFuel.

Inductive next := Go (st : list bstate) (e : Env) (input : list line) (o : list Out) | Stop (r : result).

Definition ifdef (st : list bstate) (e : Env) (rest : list line) (b : option bool) : next :=
  match b with Some b => Go (branch b :: st) e rest [] | None => Stop Err end.

(* preprocess.c:553-596 one line of preprocess_line, with directive.c:712-822 preprocess_directive *)
Definition step (st : list bstate) (e : Env) (l : line) (rest : list line) : next :=
  match l with
  | LText t => if active st then match emit e t with Some o => Go st e rest [o] | None => Stop Err end else Go st e rest [] (* input.c:650-652 *)
  | LIf c =>
    match prepare e c with
    | None => Stop Err
    | Some p => if active st then match value e p with Some b => Go (branch b :: st) e rest [] | None => Stop Err end else Go (DISABLED :: st) e rest []
    end
  | LElse =>
    match pop_state st with
    | Unmatched => Stop Err
    | Popped s st' =>
      if active st' then Go ((match s with DEAD => LIVE | _ => DISABLED end) :: st') e rest []
      else match s with DISABLED => Go (DISABLED :: st') e rest [] | _ => Stop AssertFails end
    end
  | LElif c =>
    match prepare e c with
    | None => Stop Err
    | Some p =>
      match pop_state st with
      | Unmatched => Stop Err
      | Popped s st' =>
        if active st' then
          match s with
          | DEAD => match value e p with Some b => Go (branch b :: st') e rest [] | None => Stop Err end
          | _ => Go (DISABLED :: st') e rest []
          end
        else match s with DISABLED => Go (DISABLED :: st') e rest [] | _ => Stop AssertFails end
      end
    end
  | LEndif => match pop_state st with Unmatched => Stop Err | Popped _ st' => Go st' e rest [] end
  | LIfndef n => if active st then ifdef st e rest (option_map negb (isdef e n)) else Go (DISABLED :: st) e rest []
  | LIfdef n => if active st then ifdef st e rest (isdef e n) else Go (DISABLED :: st) e rest []
  | LDir d => if active st then match exec e d with Some (e', ls) => Go st e' (ls ++ rest) [] | None => Stop Err end else Go st e rest []
  | LNull => Go st e rest []
  end.

(* preprocess_line repeated until the end of input.  The fuel is there because of #include. *)
Fixpoint pp (fuel : nat) (st : list bstate) (e : Env) (input : list line) (acc : list Out) : result :=
  match input with
  | [] => Done acc e
  | l :: rest =>
    match fuel with
    | O => NoFuel
    | S n => match step st e l rest with Go st' e' input' o => pp n st' e' input' (acc ++ o) | Stop r => r end
    end
  end.
End Machine.

(* preprocess.c:165-195 read_defined_operator and 261-303 read_complete_line, on the tokens after #if or #elif,
   for lines without names of macros other than as operands of defined.  The list is without the NEWLINE token
   that ends the line; an operand missing at the end of the line is that token, which is not expandable.
   None: error, exit(1). *)
Definition defined_name : list Z := [100; 101; 102; 105; 110; 101; 100]%Z.
Definition digit_tok (b : bool) : tok := mk_tok T_PREP_NUMBER false false 0 [if b then 49 else 48]%Z 0.
Fixpoint read_condition (ismacro : list Z -> bool) (ts : list tok) : option (list tok) :=
  match ts with
  | [] => Some []
  | t :: r =>
    if expandable t && list_eqb (spell t) defined_name then
      match r with
      | [] => None
      | t1 :: r1 =>
        if (tt t1 =? 40)%Z then
          match r1 with
          | t2 :: t3 :: r3 =>
            if negb (expandable t2) then None
            else if (tt t3 =? 41)%Z then option_map (cons (digit_tok (ismacro (spell t2)))) (read_condition ismacro r3) else None
          | _ => None
          end
        else if negb (expandable t1) then None
        else option_map (cons (digit_tok (ismacro (spell t1)))) (read_condition ismacro r1)
      end
    else option_map (cons t) (read_condition ismacro r)
  end.
