(* C29: the parts of a stack frame, as (offset from %rbp, size). *)
From Coq Require Import List ZArith Bool.
From Verif Require Import LayoutModel AbiModel CallModel.
Import ListNotations.
Open Scope Z_scope.

Inductive slot :=
| Saved (k : nat)     (* callee saved register k, pushed on entry *)
| Area                (* the register save area of a variadic function; otherwise the pointer to the result, if there is one *)
| Param (i : nat)
| Local (i : nat).

Definition extent (respc : param_class) (vararg : bool) (params : list ltype) (locals : list local) (f : frame) (s : slot) : option (Z * Z) :=
  match s with
  | Saved k => if (k <? f_saved f)%nat then Some (-8 * (Z.of_nat k + 1), 8) else None
  | Area => if vararg then Some (va_save (f_va f), 176) else if is_memory respc then Some (f_ret f, 8) else None
  | Param i =>
    match nth_error (f_offs f) i, nth_error params i with
    | Some o, Some t => Some (o, lsize t)
    | _, _ => None
    end
  | Local i =>
    match nth_error (f_locals f) i, nth_error locals i with
    | Some (Some o), Some l => Some (o, lsize (l_type l))
    | _, _ => None
    end
  end.
