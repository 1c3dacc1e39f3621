(* Command line options.  src/util/argparse.c. *)
From Coq Require Import ZArith List Bool String Ascii.
Import ListNotations.
Local Open Scope Z_scope.

(* Strings are lists of characters without the terminating NUL. *)
Fixpoint text (s : string) : list Z :=
  match s with EmptyString => [] | String c r => Z.of_nat (nat_of_ascii c) :: text r end.

(* strncmp(s, arg, strlen(s)) == 0 *)
Fixpoint starts (s arg : list Z) : bool :=
  match s, arg with
  | [], _ => true
  | c :: s, d :: arg => (c =? d) && starts s arg
  | _ :: _, [] => false
  end.
(* argparse.c:22-25 *)
Fixpoint skip_common (rule arg : list Z) : list Z * list Z :=
  match rule, arg with
  | c :: rule', d :: arg' => if c =? d then skip_common rule' arg' else (rule, arg)
  | _, _ => (rule, arg)
  end.
(* The characters up to the first one of `stop`, and what is left from it on; None: there is none (read out of bounds). *)
Fixpoint until (stop : list Z) (s : list Z) : option (list Z * list Z) :=
  match s with
  | [] => None
  | c :: r => if existsb (Z.eqb c) stop then Some ([], s)
              else match until stop r with Some (a, b) => Some (c :: a, b) | None => None end
  end.
(* argparse.c:38-52 the alternatives; the rule is after { or |.  Some None: no alternative; Some (Some (rule, arg)): where
   matching goes on.  None: out of bounds. *)
Fixpoint alternatives (fuel : nat) (rule arg : list Z) : option (option (list Z * list Z)) :=
  match fuel with
  | O => None
  | S n =>
    match until [125; 124] rule with (* } | *)
    | None => None
    | Some (a, rest) =>
      if starts a arg then
        match until [125] rest with
        | Some (_, _ :: after) => Some (Some (after, skipn (List.length a) arg))
        | _ => None
        end
      else match rest with
           | c :: r => if c =? 124 then alternatives n r arg else Some None
           | [] => Some None
           end
    end
  end.
(* argparse.c:15-57 match_rule; None: out of bounds or out of fuel. *)
Fixpoint match_rule (fuel : nat) (rule arg : list Z) : option bool :=
  match fuel with
  | O => None
  | S n =>
    match skip_common rule arg with
    | ([], arg) => Some (match arg with [] => true | _ => false end)
    | (c :: rule, arg) =>
      if c =? 91 then (* [ *)
        match until [93] rule with
        | Some (a, _ :: rest) => if starts a arg then match_rule n rest (skipn (List.length a) arg) else match_rule n rest arg
        | _ => None
        end
      else if c =? 123 then (* { *)
        match alternatives (S (List.length rule)) rule arg with
        | None => None
        | Some None => Some false
        | Some (Some (rule, arg)) => match_rule n rule arg
        end
      else Some false
    end
  end.

(* argparse.c:67-112 match_arg: the value passed to the callback and the number of arguments consumed. *)
Inductive matched := NoMatch | Missing | Value (v : list Z) (n : nat) | Broken.
Definition match_arg (rule arg : list Z) (next : option (list Z)) : matched :=
  let prefix := removelast rule in
  let c := last rule 0 in
  if c =? 58 then (* : *)
    if starts prefix arg then
      if Nat.eqb (List.length arg) (List.length prefix) then
        match next with None => Missing | Some v => Value v 2 end
      else Value (skipn (List.length prefix) arg) 1
    else NoMatch
  else if (c =? 60) || (c =? 61) then (* < = *)
    let prefix := if c =? 60 then prefix else rule in
    if starts prefix arg then
      if Nat.eqb (List.length arg) (List.length prefix) then Missing else Value (skipn (List.length prefix) arg) 1
    else NoMatch
  else match match_rule (S (List.length rule)) rule arg with
       | None => Broken
       | Some true => Value arg 1
       | Some false => NoMatch
       end.

(* A callback invoked: the rule (None: an argument that is not an option) and the value. *)
Definition call := (option (list Z) * list Z)%type.
Inductive parsed := Done (calls : list call) | Failed (ret : Z) (calls : list call) | Stuck.

Section Parse.
(* The rules, in order; the result of a callback, given the calls made before it. *)
Variable rules : list (list Z).
Variable callback : list call -> call -> Z.
(* argparse.c:129-134: the first rule that matches. *)
Inductive found := Nothing | Found (r v : list Z) (n : nat) | NoValue | Bad.
Fixpoint first_match (rules : list (list Z)) (arg : list Z) (next : option (list Z)) : found :=
  match rules with
  | [] => Nothing
  | r :: rules =>
    match match_arg r arg next with
    | NoMatch => first_match rules arg next
    | Value v n => Found r v n
    | Missing => NoValue
    | Broken => Bad
    end
  end.
(* argparse.c:120-153 parse_args; args without the program name. *)
Fixpoint parse_args (fuel : nat) (args : list (list Z)) (calls : list call) : parsed :=
  match fuel with
  | O => Stuck
  | S m =>
    match args with
    | [] => Done calls
    | arg :: rest =>
      if hd 0 arg =? 45 then
        match first_match rules arg (hd_error rest) with
        | Nothing | NoValue => Failed 1 calls
        | Bad => Stuck
        | Found r v n =>
          let c := (Some r, v) in
          let ret := callback calls c in
          if ret =? 0 then parse_args m (skipn (n - 1) rest) (calls ++ [c]) else Failed ret (calls ++ [c])
        end
      else
        let c := (None, arg) in
        let ret := callback calls c in
        if ret =? 0 then parse_args m rest (calls ++ [c]) else Failed ret (calls ++ [c])
    end
  end.
End Parse.

(* src/lacc.c:475-520: the options of the compiler. *)
Definition option_table : list (list Z) := map text
  ["-S"; "-E"; "-c"; "-v"; "-w"; "-g"; "-W"; "-W<"; "-x:"; "-f[no-]PIC"; "-f[no-]fast-math"; "-f[no-]strict-aliasing";
   "-f[no-]common"; "-fvisibility="; "-m[no-]sse"; "-m[no-]sse2"; "-m[no-]3dnow"; "-m[no-]mmx"; "-dot"; "--help"; "--version";
   "-march="; "-o:"; "-I:"; "-O{0|1|2|3}"; "-std="; "-D:"; "--dump-symbols"; "--dump-types"; "-nostdinc"; "-isystem:";
   "-include:"; "-print-file-name="; "-pipe"; "-pedantic"; "-MD"; "-MP"; "-Wl,"; "-rdynamic"; "-shared"; "-static"; "-[no]pie";
   "-f[no-]PIE"; "-l:"; "-L:"]%string.
