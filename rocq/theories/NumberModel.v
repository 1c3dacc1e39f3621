(* Conversion of preprocessing numbers.  src/preprocessor/tokenize.c:139-281. *)
From Coq Require Import List ZArith Bool.
From Verif Require Import EscModel TokenizeModel.
Import ListNotations.
Open Scope Z_scope.

Definition INT_MAX := 2147483647.
Definition UINT_MAX := 4294967295.
Definition LONG_MAX := 9223372036854775807.
Definition ULONG_MAX := 18446744073709551615.

(* basic types a number can get; long long is represented as long (typetree.c) *)
Inductive nty := NInt | NUInt | NLong | NULong | NFloat | NDouble | NLongDouble.

(* value in a base, most significant digit first *)
Fixpoint digits_val (b acc : Z) (ds : list Z) : Z :=
  match ds with [] => acc | d :: r => digits_val b (acc * b + digit_val d) r end.

(* strtoul (C library) with base 0 at a text not starting with white space or a sign: value, range
   error and remaining text. *)
Definition strtoul0 (s : list Z) : Z * bool * list Z :=
  let '(base, body) :=
    match s with
    | 48 :: x :: d :: r => if ((x =? 120) || (x =? 88)) && isxdigit d then (16, d :: r) else (8, s)
    | 48 :: _ => (8, s)
    | _ => (10, s)
    end in
  let p := if base =? 16 then isxdigit else if base =? 8 then isoctal else isdigit in
  let '(ds, rest) := span p body in
  let v := digits_val base 0 ds in
  if ULONG_MAX <? v then (ULONG_MAX, true, rest) else (v, false, rest).

(* tokenize.c:139-146 enum suffix *)
Definition SUFFIX_U := 1.
Definition SUFFIX_L := 2.
Definition SUFFIX_LL := 6.

(* tokenize.c:148-173 read_integer_suffix *)
Definition read_integer_suffix (s : list Z) : Z * list Z :=
  let '(f, s) := match s with
    | c :: r => if tolower c =? 117 then (SUFFIX_U, r) else (0, s)
    | [] => (0, s) end in
  match s with
  | c :: r =>
    if tolower c =? 108 then
      let f := Z.lor f SUFFIX_L in
      let '(f, r) := match r with
        | d :: r' => if d =? c then (Z.lor f SUFFIX_LL, r') else (f, r)
        | [] => (f, r) end in
      match r with
      | d :: r' => if (Z.land f SUFFIX_U =? 0) && (tolower d =? 117) then (Z.lor f SUFFIX_U, r') else (f, r)
      | [] => (f, r)
      end
    else (f, s)
  | [] => (f, s)
  end.

(* tokenize.c:175-222 constant_integer_type; the second component is whether a warning is given.
   Suffix values: 0 none, 1 u, 2 l, 3 ul, 6 ll, 7 ull. *)
Definition constant_integer_type (value suffix : Z) (is_decimal : bool) : nty * bool :=
  if suffix =? 0 then
    if value <=? INT_MAX then (NInt, false)
    else if negb is_decimal && (value <=? UINT_MAX) then (NUInt, false)
    else if value <=? LONG_MAX then (NLong, false)
    else (NULong, is_decimal)
  else if suffix =? SUFFIX_U then
    if value <=? UINT_MAX then (NUInt, false) else (NULong, false)
  else if (suffix =? SUFFIX_L) || (suffix =? SUFFIX_LL) then
    if value <=? LONG_MAX then (NLong, false) else (NULong, is_decimal)
  else (NULong, false).

(* strtod (C library), length of the subject sequence, for a text starting with a digit or a dot:
   digits with optional point and optional exponent, or 0x and hexadecimal digits with optional point
   and optional binary exponent. *)
Definition mantissa (p : Z -> bool) (s : list Z) : nat * list Z :=
  let '(a, r) := span p s in
  match r with
  | 46 :: r' =>
    let '(b, r'') := span p r' in
    match a, b with [], [] => (0%nat, s) | _, _ => ((length a + length b)%nat, r'') end
  | _ => (length a, r)
  end.
Definition exponent (e : Z) (s : list Z) : list Z :=
  match s with
  | c :: r =>
    if tolower c =? e then
      let r1 := match r with d :: r' => if (d =? 43) || (d =? 45) then r' else r | [] => r end in
      match span isdigit r1 with ([], _) => s | (_, r2) => r2 end
    else s
  | [] => s
  end.
Definition strtod_end (s : list Z) : list Z :=
  let dec := let '(n, r) := mantissa isdigit s in match n with O => s | _ => exponent 101 r end in
  match s with
  | 48 :: x :: r =>
    if (x =? 120) || (x =? 88) then
      let '(n, r1) := mantissa isxdigit r in
      match n with O => x :: r | _ => exponent 112 r1 end
    else dec
  | _ => dec
  end.

Inductive number :=
| Integer (value : Z) (type : nty) (warned : bool)
| Floating (type : nty)  (* the value is what strtod returns; not modelled *)
| OutOfRange             (* "Numeric literal is out of range", exit(1) *)
| Invalid                (* "Invalid numeric literal", exit(1) *)
| AssertFailed.

(* tokenize.c:224-281 convert_preprocessing_number; `erange` is whether strtod sets errno. *)
Definition convert_preprocessing_number (erange : list Z -> bool) (s : list Z) : number :=
  let '(v, range, e) := strtoul0 s in
  let '(suffix, e) := read_integer_suffix e in
  match e with
  | [] =>
    if isdigit (at_ s 0) then
      let '(t, w) := constant_integer_type v suffix (negb (at_ s 0 =? 48)) in
      if range then OutOfRange else Integer v t w
    else AssertFailed
  | _ =>
    let e := strtod_end s in
    let '(t, e) := match e with
      | c :: r => if (c =? 102) || (c =? 70) then (NFloat, r)
                  else if (c =? 108) || (c =? 76) then (NLongDouble, r) else (NDouble, e)
      | [] => (NDouble, e) end in
    if erange s then OutOfRange else match e with [] => Floating t | _ => Invalid end
  end.
