(* Reading logical lines.  src/preprocessor/input.c:277-539. *)
From Coq Require Import ZArith List Bool.
Import ListNotations.
Local Open Scope Z_scope.

(* Memory that may be read is a list of characters, from the current position on; reading past its end is Oob.  The line being
   written is kept reversed; cap is the number of characters that may be written. *)
Inductive comment := Closed (rest : list Z) (lines : nat) | Unclosed | CommentOob.
(* input.c:284-305 read_comment, from the current character on.  star: the last character, line splices apart, was an asterisk
   (the while loop at 292). *)
Fixpoint read_comment (star : bool) (r : list Z) (lines : nat) : comment :=
  match r with
  | [] => CommentOob
  | c :: r' =>
      let plain := if c =? 42 then read_comment true r' lines
                   else if c =? 10 then read_comment false r' (S lines)
                   else if c =? 0 then Unclosed
                   else read_comment false r' lines in
      if star then
        if c =? 47 then Closed r' lines
        else match r' with
             | d :: r'' => if (c =? 92) && (d =? 10) then read_comment true r'' (S lines) else plain
             | [] => if c =? 92 then CommentOob else plain
             end
      else plain
  end.
(* input.c:311-327 read_line_comment *)
Fixpoint read_line_comment (r : list Z) (lines : nat) : comment :=
  match r with
  | [] => CommentOob
  | c :: r' =>
      let plain := if c =? 10 then Closed r' lines else if c =? 0 then Unclosed else read_line_comment r' lines in
      if c =? 92 then
        match r' with
        | d :: r'' => if d =? 10 then read_line_comment r'' (S lines) else plain
        | [] => CommentOob
        end
      else plain
  end.
(* input.c:336-351 *)
Definition read_trigraph (c : Z) : Z :=
  match c with
  | 61 => 35 (* = # *) | 40 => 91 (* ( [ *) | 47 => 92 (* / \ *) | 41 => 93 (* ) ] *) | 39 => 94 (* ' ^ *)
  | 60 => 123 (* < { *) | 33 => 124 (* ! | *) | 62 => 125 (* > } *) | 45 => 126 (* - ~ *)
  | _ => 0
  end.
(* input.c:391-395 the number of backslashes written last. *)
Fixpoint backslashes (w : list Z) : nat := match w with c :: w' => if c =? 92 then S (backslashes w') else O | [] => O end.

Inductive literal := LitDone (rest w : list Z) (lines : nat) | LitNone | LitError | LitOob.
(* input.c:374-418 read_literal, the loop; w: the characters written, the opening quote among them. *)
Fixpoint read_literal_loop (cap : nat) (q : Z) (r w : list Z) (lines : nat) : literal :=
  match r with
  | [] => LitOob
  | c :: r' =>
      let copy := if Nat.ltb (length w) cap then read_literal_loop cap q r' (c :: w) lines else LitOob in
      if c =? 0 then LitNone
      else if c =? 10 then
        match w with
        | b :: w' => if b =? 92 then read_literal_loop cap q r' w' (S lines) else LitError
        | [] => LitOob
        end
      else if c =? 63 then
        match r' with
        | [] => LitOob
        | d :: r2 =>
            if d =? 63 then
              match r2 with
              | [] => LitOob
              | e :: r3 => let t := read_trigraph e in
                           if t =? 0 then copy
                           else if Nat.ltb (length w) cap then read_literal_loop cap q r3 (t :: w) lines else LitOob
              end
            else copy
        end
      else if (c =? q) && Nat.even (backslashes w) then
        if Nat.ltb (length w) cap then LitDone r' (c :: w) lines else LitOob
      else copy
  end.
(* input.c:362-372: the opening quote *)
Definition read_literal (cap : nat) (r w : list Z) (lines : nat) : literal :=
  match r with
  | q :: r' => if Nat.ltb (length w) cap then read_literal_loop cap q r' (q :: w) lines else LitOob
  | [] => LitOob
  end.

Inductive line := Line (text rest : list Z) (lines : nat) | Incomplete | Exit | Oob.
(* memcpy(write, start, count) *)
Definition flush (cap : nat) (start : list Z) (count : nat) (w : list Z) : option (list Z) :=
  if Nat.leb (length w + count) cap && Nat.leb count (length start) then Some (rev (firstn count start) ++ w) else None.
(* The newline cases, 453-459 and 478-484: write[count] = 0 needs room for one more. *)
Definition finish (cap : nat) (start : list Z) (count : nat) (w rest : list Z) (lines : nat) : line :=
  match flush cap start count w with
  | Some w => if Nat.ltb (length w) cap then Line (rev w) rest (S lines) else Oob
  | None => Oob
  end.

(* input.c:475-536 the second loop: r, the memory from line[i] on; k = len - i; start, count: what has been read but not
   copied.  The iteration count is bounded by fuel. *)
Fixpoint read_rest (fuel cap : nat) (r : list Z) (k : nat) (start : list Z) (count : nat) (w : list Z) (lines : nat) : line :=
  match fuel with
  | O => Oob
  | S f =>
    match k with
    | O => Incomplete
    | S k' =>
      match r with
      | [] => Oob
      | c :: r' =>
        if c =? 10 then finish cap start count w r' lines
        else if (c =? 34) || (c =? 39) || (c =? 42) || (c =? 47) || (c =? 63) || (c =? 92) then
          match flush cap start count w with
          | None => Oob
          | Some w =>
            let start := skipn count start in
            (* continue after a part that has been dealt with, up to `rest` *)
            let continue rest w lines := read_rest f cap rest (k - (length r - length rest)) rest 0 w lines in
            let keep := read_rest f cap r' k' start 1 w lines in
            if (c =? 34) || (c =? 39) then
              match read_literal cap r w lines with
              | LitDone rest w lines => continue rest w lines
              | LitNone => Incomplete
              | LitError => Exit
              | LitOob => Oob
              end
            else if (c =? 42) && (hd 0 w =? 47) then
              match read_comment false r' lines with
              | Closed rest lines => continue rest (32 :: tl w) lines
              | Unclosed => Incomplete
              | CommentOob => Oob
              end
            else if c =? 92 then
              match r' with
              | [] => Oob
              | d :: r2 => if d =? 10 then continue r2 w (S lines) else keep
              end
            else if c =? 63 then
              match r' with
              | [] => Oob
              | d :: r2 =>
                  if d =? 63 then
                    match r2 with
                    | [] => Oob
                    | e :: r3 => let t := read_trigraph e in
                                 if t =? 0 then read_rest f cap r' k' start 0 w lines
                                 else if Nat.ltb (length w) cap then continue r3 (t :: w) lines else Oob
                    end
                  else keep
              end
            else if (c =? 47) && (hd 0 w =? 47) then
              match read_line_comment r' lines with
              | Closed rest lines => Line (rev (tl w)) rest (S lines)
              | Unclosed => Incomplete
              | CommentOob => Oob
              end
            else keep
          end
        else read_rest f cap r' k' start (S count) w lines
      end
    end
  end.
(* input.c:451-473 the first loop; s0: line *)
Fixpoint read_first (cap : nat) (s0 r : list Z) (k count : nat) : line :=
  match k with
  | O => Incomplete
  | S k' =>
    match r with
    | [] => Oob
    | c :: r' =>
      if c =? 10 then finish cap s0 count [] r' 0
      else if (c =? 34) || (c =? 39) || (c =? 47) || (c =? 63) || (c =? 92) then read_rest (S (length r)) cap r k s0 count [] 0
      else read_first cap s0 r' k' (S count)
    end
  end.
(* input.c:433-539 read_line; mem: line[0] and what follows it in memory, len characters of it are input.  The result: the line
   written, what of mem has not been consumed, and what is added to *linecount. *)
Definition read_line (cap : nat) (mem : list Z) (len : nat) : line := read_first cap mem mem len 0.

(* input.c:20-45 struct source, as far as reading goes: data, the characters read into the buffer (read is its length);
   term, the character after them; file, what the file still has; eof, the end-of-file indicator; lines, the line number.
   rlen: the size of the line buffer, shared between files. *)
Record source := { data : list Z; term : Z; processed : nat; size : nat; file : list Z; eof : bool; lines : nat; rlen : nat }.
Definition FILE_BUFFER_SIZE : nat := Z.to_nat 4096. (* input.c:18 *)
(* fread(buffer, 1, n, file): up to n characters; the indicator is set if there are fewer. *)
Definition fread (n : nat) (s : source) : list Z * list Z * bool := (firstn n s.(file), skipn n s.(file), s.(eof) || Nat.ltb (length s.(file)) n).

Inductive got := Got (text : list Z) (s : source) | Done | Failed | Bad | Spin.
(* input.c:551-587: the reading part of the loop body.  None: the function returns NULL; the error exit is separate. *)
Inductive filled := Ready (s : source) | NoMore | Whole.
Definition refill (s : source) : filled :=
  if Nat.eqb s.(processed) (length s.(data)) || Nat.eqb s.(processed) 0 then
    if s.(eof) then
      if Nat.ltb s.(processed) (length s.(data)) then Whole else NoMore
    else
      let '(data', file', eof') :=
        if Nat.eqb s.(processed) 0 then
          let '(d, f, e) := fread (s.(size) - length s.(data) - 1) s in (s.(data) ++ d, f, e)
        else fread (s.(size) - 1) s in
      let newline := eof' && negb (last data' 10 =? 10) in
      if eof' && Nat.eqb (length data') 0 then NoMore
      else Ready {| data := data'; term := if newline then 10 else 0; processed := 0; size := s.(size); file := file';
                    eof := eof'; lines := s.(lines); rlen := s.(rlen) |}
  else Ready s.
(* input.c:543-614 initial_preprocess_line.  The assertions are outcomes (Bad), as are accesses outside the buffers. *)
Fixpoint initial_preprocess_line (fuel : nat) (s : source) : got :=
  match fuel with
  | O => Spin
  | S f =>
    if Nat.ltb (length s.(data)) s.(processed) then Bad else
    match refill s with
    | NoMore => Done
    | Whole => Failed
    | Ready s =>
      if Nat.leb (length s.(data)) s.(processed) then Bad else
      match read_line (s.(rlen) - 1) (skipn s.(processed) s.(data) ++ [s.(term)]) (length s.(data) - s.(processed)) with
      | Line t rest n =>
          Got t {| data := s.(data); term := s.(term); processed := S (length s.(data)) - length rest; size := s.(size);
                   file := s.(file); eof := s.(eof); lines := s.(lines) + n; rlen := s.(rlen) |}
      | Incomplete =>
          if Nat.eqb s.(processed) 0 then
            let size' := (s.(size) + FILE_BUFFER_SIZE)%nat in
            initial_preprocess_line f {| data := s.(data); term := s.(term); processed := 0; size := size'; file := s.(file);
                                         eof := s.(eof); lines := s.(lines);
                                         rlen := if Nat.leb s.(rlen) size' then S size' else s.(rlen) |}
          else
            initial_preprocess_line f {| data := skipn s.(processed) s.(data); term := s.(term); processed := 0; size := s.(size);
                                         file := s.(file); eof := s.(eof); lines := s.(lines); rlen := s.(rlen) |}
      | Exit => Failed
      | Oob => Bad
      end
    end
  end.
(* input.c:238-275 set_input_file, and include_file via push_file: nothing read yet. *)
Definition open_file (rlen : nat) (text : list Z) : source :=
  {| data := []; term := 0; processed := 0; size := FILE_BUFFER_SIZE; file := text; eof := false; lines := 0; rlen := rlen |}.
