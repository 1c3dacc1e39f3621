(* The driver: exit status, default output names, macros given on the command line.  src/lacc.c, src/backend/linker.c. *)
From Coq Require Import ZArith List Bool.
Import ListNotations.
Local Open Scope Z_scope.

(* ---- Exit status ---- *)
(* What happens while one input is processed.  Fatal: error() followed by exit(1) (src/parser and src/preprocessor, many
   places).  Otherwise the number of calls of error() (context.c:105). *)
Inductive file_event := CannotOpen | Fatal | Compiled (errors : Z).
(* linker.c:149-160: fork fails; execvp fails in the child; the linker exits; the linker is killed by a signal. *)
Inductive link_event := ForkFailed | ExecFailed | Exited (code : Z) | Killed (signal : Z).

(* waitpid status word of a child, and WEXITSTATUS. *)
Definition status_word (e : link_event) : Z :=
  match e with ForkFailed => 0 | ExecFailed => 0 | Exited code => (code mod 256) * 256 | Killed s => s mod 128 end.
Definition wexitstatus (w : Z) : Z := (w / 256) mod 256.
(* linker.c:125-165 invoke_linker; in the child _exit(0) follows execvp. *)
Definition invoke_linker (e : link_event) : Z := match e with ForkFailed => 1 | _ => wexitstatus (status_word e) end.

(* lacc.c:612-674 process_file: the result, and context.errors afterwards.  None: exit(1). *)
Definition process_file (errors : Z) (e : file_event) : option (Z * Z) :=
  match e with
  | CannotOpen => Some (1, errors)
  | Fatal => None
  | Compiled n => Some (errors + n, errors + n)
  end.
(* lacc.c:676-705 main: the status the process exits with, an int truncated to eight bits.  args: the result of
   parse_program_arguments. *)
Fixpoint process_files (errors : Z) (l : list file_event) : option Z :=
  match l with
  | [] => Some 0
  | e :: r => match process_file errors e with
              | None => None
              | Some (ret, errors) => if ret =? 0 then process_files errors r else Some ret
              end
  end.
Definition main (args : Z) (files : list file_event) (exe : bool) (link : link_event) : Z :=
  let finish ret := (if ret <? 0 then 0 else ret) mod 256 in
  if negb (args =? 0) then finish args
  else match process_files 0 files with
       | None => 1
       | Some ret => if ret =? 0 then finish (if exe then invoke_linker link else 0) else finish ret
       end.

(* ---- Names ---- *)
Inductive target := T_Preprocess | T_Dot | T_Asm | T_Obj | T_Exe.
Fixpoint strrchr (s : list Z) (c : Z) : option nat :=
  match s with
  | [] => None
  | x :: r => match strrchr r c with
              | Some n => Some (S n)
              | None => if x =? c then Some O else None
              end
  end.
Fixpoint strchr (s : list Z) (c : Z) : option nat :=
  match s with [] => None | x :: r => if x =? c then Some O else option_map S (strchr r c) end.

(* Writing to a buffer; None: out of bounds. *)
Fixpoint put (buf : list Z) (i : nat) (c : Z) : option (list Z) :=
  match buf, i with
  | [], _ => None
  | _ :: r, O => Some (c :: r)
  | x :: r, S i => option_map (cons x) (put r i c)
  end.
Fixpoint puts (buf : list Z) (i : nat) (s : list Z) : option (list Z) :=
  match s with [] => Some buf | c :: r => match put buf i c with Some b => puts b (S i) r | None => None end end.
(* The C string in a buffer; None: no terminator. *)
Fixpoint cstring (buf : list Z) : option (list Z) :=
  match buf with [] => None | c :: r => if c =? 0 then Some [] else option_map (cons c) (cstring r) end.

Definition suffix_of (t : target) : option (list Z) :=
  match t with
  | T_Preprocess => None
  | T_Dot => Some [46; 100; 111; 116]
  | T_Asm => Some [46; 115]
  | T_Obj | T_Exe => Some [46; 111]
  end.
(* lacc.c:245-284 change_file_suffix; the outer None is an access out of bounds or a failed assertion, the inner one NULL. *)
Definition change_file_suffix (file : list Z) (t : target) : option (option (list Z)) :=
  match suffix_of t with
  | None => Some None
  | Some suffix =>
    let file := match strrchr file 47 with Some n => skipn (S n) file | None => file end in
    let len := match strrchr file 46 with Some n => n | None => List.length file end in
    let buf := repeat 0 (len + List.length suffix + 1) in
    match puts buf 0 (firstn len file) with (* strncpy *)
    | None => None
    | Some buf =>
      let at_len := nth len buf 0 in
      if (at_len =? 0) || (at_len =? 46) then
        match put buf len 46 with
        | None => None
        | Some buf => match puts buf len (suffix ++ [0]) with
                      | None => None
                      | Some buf => match cstring buf with Some s => Some (Some s) | None => None end
                      end
        end
      else None
    end
  end.
(* lacc.c:365-382 define_macro: the line injected. *)
Definition define_macro (arg : list Z) : option (list Z) :=
  let buf := repeat 0 (List.length arg + 11) in
  let text := [35; 100; 101; 102; 105; 110; 101; 32] ++ arg in
  let buf := match strchr arg 61 with
             | Some n => match puts buf 0 (text ++ [0]) with Some buf => put buf (8 + n) 32 | None => None end
             | None => puts buf 0 (text ++ [32; 49] ++ [0])
             end in
  match buf with Some b => cstring b | None => None end.
