(* The # operator.  src/preprocessor/macro.c:641-770. *)
From Coq Require Import List ZArith Bool.
From Verif Require Import TokModel.
Import ListNotations.
Open Scope Z_scope.

Inductive sres (A : Type) : Type :=
| SOk (x : A)
| SError              (* error + exit(1) *)
| SAssert             (* assertion failure *)
| SOverflow.          (* write beyond the allocated buffer *)
Arguments SOk {A} x. Arguments SError {A}. Arguments SAssert {A}. Arguments SOverflow {A}.

(* macro.c:641-654 str_write_escaped: the characters written. *)
Fixpoint str_write_escaped (s : list Z) : list Z :=
  match s with
  | [] => []
  | c :: t => if (c =? 34) || (c =? 92) then 92 :: c :: str_write_escaped t else c :: str_write_escaped t
  end.

(* macro.c:656-704 stringify_concat.  The buffer is (cap, contents); realloc keeps the contents.
   The characters are written one after another from `pos`; writing more than cap is an overflow. *)
Definition stringify_concat (cap : Z) (buf : list Z) (t : tok) : sres (Z * list Z) :=
  if (tt t =? T_NUMBER) || (tt t =? T_PARAM) then SAssert else
  let len := Z.of_nat (length (spell t)) in
  let pos := Z.of_nat (length buf) in
  let max := (if lws t =? 0 then 0 else 1) + len * 2 + 4 in
  let cap := if cap <? pos + max then pos + max else cap in
  let buf := if lws t =? 0 then buf else buf ++ [32] in
  let buf :=
    if (tt t =? T_PREP_STRING) || (tt t =? T_STRING) then
      buf ++ [92; 34] ++ str_write_escaped (spell t) ++ [92; 34]
    else if tt t =? T_PREP_CHAR then
      buf ++ [39] ++ str_write_escaped (spell t) ++ [39]
    else buf ++ spell t in
  if cap <? Z.of_nat (length buf) then SOverflow else SOk (cap, buf).

(* macro.c:744-756, the loop of stringify; `first` is i == 0. *)
Fixpoint stringify_loop (first : bool) (cap : Z) (buf : list Z) (ts : list tok) : sres (list Z) :=
  match ts with
  | [] => SOk buf
  | t :: rest =>
    if tt t =? T_NEWLINE then
      match rest with [] => SOk buf | _ => SAssert end
    else if tt t =? T_END then SAssert
    else
      let t := if first then mk_tok (tt t) (expandable t) (disabled t) 0 (spell t) (pval t) else t in
      match stringify_concat cap buf t with
      | SOk (cap, buf) => stringify_loop false cap buf rest
      | SError => SError | SAssert => SAssert | SOverflow => SOverflow
      end
  end.

Definition ends_in_backslash (buf : list Z) : bool :=
  match rev buf with c :: _ => c =? 92 | [] => false end.

(* macro.c:716-770 stringify: token type and spelling of the result. *)
Definition stringify (ts : list tok) : sres (Z * list Z) :=
  match ts with
  | [] => SOk (T_STRING, [])
  | t :: rest =>
    let loop :=
      match stringify_loop true (Z.of_nat (length ts) * 8) [] ts with
      | SOk buf => if ends_in_backslash buf then SError else SOk (T_PREP_STRING, buf)
      | SError => SError | SAssert => SAssert | SOverflow => SOverflow
      end in
    if (tt t =? T_BACKSLASH) || (tt t =? T_STRING) || (tt t =? T_PREP_STRING) || (tt t =? T_PREP_CHAR)
    then loop
    else if (tt t =? T_END) || (tt t =? T_NUMBER) then SAssert
    else match rest with
         | [] => SOk (T_STRING, spell t)
         | _ => loop
         end
  end.
