(* C52: how a line of assembly text is read (AT&T syntax: Using as, 9.16 for x86; System V ABI for @PLT and @GOTPCREL).
   The meaning of an instruction is that of EncSpec; neither the printer nor its tables are referred to.
   Only what is needed of the syntax is here: integers are decimal, expressions are symbol + number. *)
From Coq Require Import String ZArith Bool List.
From Verif Require Import EncModel EncSpec ArgsModel.
Import ListNotations.
Open Scope Z_scope.

Definition between (a c b : Z) : bool := (a <=? c) && (c <=? b).
Definition blank (c : Z) : bool := (c =? 32) || (c =? 9).
Definition digit (c : Z) : bool := between 48 c 57.
Definition letter (c : Z) : bool := between 65 c 90 || between 97 c 122.
Definition alnum (c : Z) : bool := letter c || digit c.
Definition symchar (c : Z) : bool := alnum c || (c =? 95) || (c =? 46) || (c =? 36).   (* _ . $ *)
Definition symstart (c : Z) : bool := letter c || (c =? 95) || (c =? 46).
Fixpoint span (p : Z -> bool) (l : list Z) : list Z * list Z :=
  match l with
  | c :: r => if p c then let (a, b) := span p r in (c :: a, b) else ([], l)
  | [] => ([], [])
  end.
Definition skip (l : list Z) : list Z := snd (span blank l).
Fixpoint text_eqb (a b : list Z) : bool :=
  match a, b with [], [] => true | x :: a, y :: b => (x =? y) && text_eqb a b | _, _ => false end.
Fixpoint lookup {A} (x : list Z) (l : list (list Z * A)) : option A :=
  match l with [] => None | (y, a) :: l => if text_eqb x y then Some a else lookup x l end.
Definition obind {A B} (x : option A) (f : A -> option B) : option B := match x with Some a => f a | None => None end.
Definition guard (b : bool) : option unit := if b then Some tt else None.

(* numbers *)
Definition value (l : list Z) : Z := fold_left (fun v c => 10 * v + (c - 48)) l 0.
Definition unsigned_number (l : list Z) : option (Z * list Z) :=
  let (a, r) := span digit l in match a with [] => None | _ => Some (value a, r) end.
Definition number (l : list Z) : option (Z * list Z) :=
  match l with
  | 45 :: r => obind (unsigned_number r) (fun x => Some (- fst x, snd x))
  | _ => unsigned_number l
  end.

(* names of registers *)
Definition numbered (f : Z -> arg) (l : list (list Z)) : list (list Z * arg) := combine l (map (fun n => f (Z.of_nat n)) (seq 0 (List.length l))).
Definition words : list (list Z) := map text ["ax"; "cx"; "dx"; "bx"; "sp"; "bp"; "si"; "di"]%string.
Definition news : list (list Z) := map text ["r8"; "r9"; "r10"; "r11"; "r12"; "r13"; "r14"; "r15"]%string.
Definition registers : list (list Z * arg) :=
  numbered (fun n => R n 1) (map text ["al"; "cl"; "dl"; "bl"; "spl"; "bpl"; "sil"; "dil"]%string ++ map (fun s => s ++ text "b") news)
  ++ numbered (fun n => R n 2) (words ++ map (fun s => s ++ text "w") news)
  ++ numbered (fun n => R n 4) (map (fun s => text "e" ++ s) words ++ map (fun s => s ++ text "d") news)
  ++ numbered (fun n => R n 8) (map (fun s => text "r" ++ s) words ++ news)
  ++ numbered Hi (map text ["ah"; "ch"; "dh"; "bh"]%string)
  ++ numbered X (map text ["xmm0"; "xmm1"; "xmm2"; "xmm3"; "xmm4"; "xmm5"; "xmm6"; "xmm7"; "xmm8"; "xmm9"; "xmm10"; "xmm11"; "xmm12"; "xmm13"; "xmm14"; "xmm15"]%string).

Inductive named_register := Named (a : arg) | Pointer.   (* Pointer: %rip *)
(* after the % *)
Definition register (l : list Z) : option (named_register * list Z) :=
  let (n, r) := span alnum l in
  if text_eqb n (text "rip") then Some (Pointer, r)
  else if text_eqb n (text "st") then
    match r with
    | 40 :: c :: 41 :: r' => if between 48 c 55 then Some (Named (St (c - 48)), r') else None
    | _ => Some (Named (St 0), r)
    end
  else obind (lookup n registers) (fun a => Some (Named a, r)).

(* operands *)
Inductive opnd := OReg (a : arg) | OImm (v : Z) | OMem (p : place) | OSym (k : kind) (y : Z) (d : Z) | OStar (o : opnd).
Inductive term := TNum (d : Z) | TSym (k : kind) (y : Z) (d : Z).

Section Read.
(* the symbols, their addresses, and the address of the next instruction *)
Variables (find : list Z -> option Z) (loc : kind -> Z -> Z) (end_ : Z).

(* + or - and a number, or nothing *)
Definition offset (l : list Z) : option (Z * list Z) :=
  match l with
  | 43 :: r => unsigned_number r
  | 45 :: r => obind (unsigned_number r) (fun x => Some (- fst x, snd x))
  | _ => Some (0, l)
  end.
Definition relocation (l : list Z) : option (kind * list Z) :=
  match l with
  | 64 :: r =>
    let (n, r) := span letter r in
    if text_eqb n (text "PLT") then Some (PLT32, r) else if text_eqb n (text "GOTPCREL") then Some (GOTPCREL, r) else None
  | _ => Some (PC32, l)
  end.
(* None in the first component: no expression *)
Definition expression (l : list Z) : option (option term * list Z) :=
  match l with
  | c :: _ =>
    if symstart c then
      let (n, r) := span symchar l in
      obind (find n) (fun y =>
      obind (relocation r) (fun x =>
      obind (offset (snd x)) (fun z => Some (Some (TSym (fst x) y (fst z)), snd z))))
    else if digit c || (c =? 45) then obind (number l) (fun x => Some (Some (TNum (fst x)), snd x))
    else Some (None, l)
  | [] => Some (None, l)
  end.

Definition scale_of (l : list Z) : option (Z * list Z) :=
  match l with
  | 44 :: r => obind (unsigned_number r) (fun x => if (fst x =? 1) || (fst x =? 2) || (fst x =? 4) || (fst x =? 8) then Some x else None)
  | _ => Some (1, l)
  end.
(* , index, scale *)
Definition index_of (l : list Z) : option (option (Z * Z) * list Z) :=
  match l with
  | 44 :: 37 :: r =>
    obind (register r) (fun x =>
    match fst x with
    | Named (R n 8) => if n =? 4 then None else obind (scale_of (snd x)) (fun y => Some (Some (n, fst y), snd y))
    | _ => None
    end)
  | _ => Some (None, l)
  end.
Definition base_of (l : list Z) : option (option named_register * list Z) :=
  match l with 37 :: r => obind (register r) (fun x => Some (Some (fst x), snd x)) | _ => Some (None, l) end.
(* what is between parentheses, to the end of them *)
Definition parenthesis (l : list Z) : option (option named_register * option (Z * Z) * list Z) :=
  obind (base_of l) (fun x => obind (index_of (snd x)) (fun y =>
  match snd y with 41 :: r => Some (fst x, fst y, r) | _ => None end)).

Definition place_at (d : Z) (b : option named_register) (x : option (Z * Z)) : option opnd :=
  if int32 d then
    match b, x with
    | None, _ => Some (OMem (At None x d))
    | Some (Named (R n 8)), _ => Some (OMem (At (Some n) x d))
    | _, _ => None
    end
  else None.
(* the operand denoted by an expression (0 if there is none) and a parenthesis *)
Definition addressed (t : option term) (b : option named_register) (x : option (Z * Z)) : option opnd :=
  match t, b, x with
  | Some (TSym k y d), Some Pointer, None => match k with PLT32 => None | _ => Some (OMem (Rip (loc k y + d - end_))) end
  | Some (TSym PC32 y d), _, _ => place_at (loc PC32 y + d) b x
  | Some (TSym _ _ _), _, _ => None
  | Some (TNum d), Some Pointer, None => if int32 d then Some (OMem (Rip d)) else None
  | Some (TNum d), _, _ => place_at d b x
  | None, Some Pointer, None => Some (OMem (Rip 0))
  | None, _, _ => place_at 0 b x
  end.
Definition memory_operand (l : list Z) : option (opnd * list Z) :=
  obind (expression l) (fun t =>
  match snd t with
  | 40 :: r => obind (parenthesis r) (fun p => obind (addressed (fst t) (fst (fst p)) (snd (fst p))) (fun o => Some (o, snd p)))
  | r =>
    match fst t with
    | Some (TSym k y d) => Some (OSym k y d, r)
    | Some (TNum d) => obind (place_at d None None) (fun o => Some (o, r))
    | None => None
    end
  end).
Definition direct_operand (l : list Z) : option (opnd * list Z) :=
  match l with
  | 37 :: r => obind (register r) (fun x => match fst x with Named a => Some (OReg a, snd x) | Pointer => None end)
  | 36 :: r => obind (number r) (fun x => Some (OImm (fst x), snd x))
  | _ => memory_operand l
  end.
Definition operand (l : list Z) : option (opnd * list Z) :=
  match l with
  | 42 :: r => obind (direct_operand r) (fun x => Some (OStar (fst x), snd x))
  | _ => direct_operand l
  end.
(* one or two of them, to the end of the line *)
Definition some_operands (l : list Z) : option (list opnd) :=
  obind (operand l) (fun x =>
  match skip (snd x) with
  | [10] => Some [fst x]
  | 44 :: l => obind (operand (skip l)) (fun y => match skip (snd y) with [10] => Some [fst x; fst y] | _ => None end)
  | _ => None
  end).
Definition operand_list (l : list Z) : option (list opnd) := match skip l with [10] => Some [] | l => some_operands l end.

(* Operations; w is the width in the suffix. *)
Inductive oper :=
| Two (m : mnem) (w : option Z)        (* two operands of one width *)
| One (m : mnem) (w : option Z)
| Shift (m : mnem) (w : option Z)
| Extend (m : mnem) (s d : Z)
| Lea (w : option Z)
| Push | Pop
| Branch (m : mnem)
| Set_ (m : mnem)
| None_ (m : mnem)
| Str (w : Z)
| Scalar (m : mnem) (w : Z) (store : bool)   (* of vector registers, w bytes of memory *)
| FromInt (w : Z) (s : option Z) | ToInt (w : Z) (d : option Z)
| Fp (m : mnem) | FpMem (m : mnem) (w : Z).

Definition suffixed (stem : string) (f : option Z -> oper) : list (list Z * oper) :=
  [(text stem, f None); (text stem ++ text "b", f (Some 1)); (text stem ++ text "w", f (Some 2)); (text stem ++ text "l", f (Some 4)); (text stem ++ text "q", f (Some 8))].
(* condition codes: Intel, appendix B.1 *)
Definition conditions : list (list Z * Z) := map (fun x => (text (fst x), snd x)) [
  ("o", 0); ("no", 1); ("b", 2); ("c", 2); ("nae", 2); ("ae", 3); ("nb", 3); ("nc", 3); ("e", 4); ("z", 4); ("ne", 5); ("nz", 5);
  ("be", 6); ("na", 6); ("a", 7); ("nbe", 7); ("s", 8); ("ns", 9); ("p", 10); ("pe", 10); ("np", 11); ("po", 11);
  ("l", 12); ("nge", 12); ("ge", 13); ("nl", 13); ("le", 14); ("ng", 14); ("g", 15); ("nle", 15)]%string.
Definition fixed (s : string) (o : oper) : list (list Z * oper) := [(text s, o)].
(* The assembler calls FSUBP of the manual fsubrp, FDIVP fdivrp, and the other way around (Using as, 9.16.16: a bug kept for
   compatibility). *)
Definition operations : list (list Z * oper) :=
  suffixed "add" (Two ADD) ++ suffixed "or" (Two OR) ++ suffixed "and" (Two AND) ++ suffixed "sub" (Two SUB) ++ suffixed "xor" (Two XOR)
  ++ suffixed "cmp" (Two CMP) ++ suffixed "test" (Two TEST) ++ suffixed "mov" (Two MOV)
  ++ suffixed "not" (One NOT) ++ suffixed "neg" (One NEG) ++ suffixed "mul" (One MUL) ++ suffixed "div" (One DIV) ++ suffixed "idiv" (One IDIV)
  ++ suffixed "shl" (Shift SHL) ++ suffixed "sal" (Shift SHL) ++ suffixed "shr" (Shift SHR) ++ suffixed "sar" (Shift SAR)
  ++ fixed "movsbw" (Extend MOVSX 1 2) ++ fixed "movsbl" (Extend MOVSX 1 4) ++ fixed "movsbq" (Extend MOVSX 1 8)
  ++ fixed "movswl" (Extend MOVSX 2 4) ++ fixed "movswq" (Extend MOVSX 2 8) ++ fixed "movslq" (Extend MOVSX 4 8)
  ++ fixed "movzbw" (Extend MOVZX 1 2) ++ fixed "movzbl" (Extend MOVZX 1 4) ++ fixed "movzbq" (Extend MOVZX 1 8)
  ++ fixed "movzwl" (Extend MOVZX 2 4) ++ fixed "movzwq" (Extend MOVZX 2 8)
  ++ fixed "lea" (Lea None) ++ fixed "leaw" (Lea (Some 2)) ++ fixed "leal" (Lea (Some 4)) ++ fixed "leaq" (Lea (Some 8))
  ++ fixed "push" Push ++ fixed "pushq" Push ++ fixed "pop" Pop ++ fixed "popq" Pop
  ++ fixed "call" (Branch CALL) ++ fixed "callq" (Branch CALL) ++ fixed "jmp" (Branch JMP) ++ fixed "jmpq" (Branch JMP)
  ++ map (fun x => (text "j" ++ fst x, Branch (J (snd x)))) conditions ++ map (fun x => (text "set" ++ fst x, Set_ (SET (snd x)))) conditions
  ++ fixed "ret" (None_ RET) ++ fixed "retq" (None_ RET) ++ fixed "leave" (None_ LEAVE) ++ fixed "leaveq" (None_ LEAVE)
  ++ fixed "cdq" (None_ CDQ) ++ fixed "cltd" (None_ CDQ) ++ fixed "cqo" (None_ CQO) ++ fixed "cqto" (None_ CQO)
  ++ fixed "movsb" (Str 1) ++ fixed "movsw" (Str 2) ++ fixed "movsl" (Str 4) ++ fixed "movsq" (Str 8)
  ++ fixed "addss" (Scalar (ADDS 4) 4 false) ++ fixed "addsd" (Scalar (ADDS 8) 8 false) ++ fixed "mulss" (Scalar (MULS 4) 4 false)
  ++ fixed "mulsd" (Scalar (MULS 8) 8 false) ++ fixed "subss" (Scalar (SUBS 4) 4 false) ++ fixed "subsd" (Scalar (SUBS 8) 8 false)
  ++ fixed "divss" (Scalar (DIVS 4) 4 false) ++ fixed "divsd" (Scalar (DIVS 8) 8 false) ++ fixed "ucomiss" (Scalar (UCOMIS 4) 4 false)
  ++ fixed "ucomisd" (Scalar (UCOMIS 8) 8 false) ++ fixed "movss" (Scalar (MOVSS 4) 4 true) ++ fixed "movsd" (Scalar (MOVSS 8) 8 true)
  ++ fixed "movaps" (Scalar MOVAPS 16 true) ++ fixed "movups" (Scalar MOVUPS 16 true) ++ fixed "pxor" (Scalar PXOR 16 false)
  ++ fixed "cvtss2sd" (Scalar (CVTS2S 4 8) 4 false) ++ fixed "cvtsd2ss" (Scalar (CVTS2S 8 4) 8 false)
  ++ fixed "cvtsi2ss" (FromInt 4 None) ++ fixed "cvtsi2ssl" (FromInt 4 (Some 4)) ++ fixed "cvtsi2ssq" (FromInt 4 (Some 8))
  ++ fixed "cvtsi2sd" (FromInt 8 None) ++ fixed "cvtsi2sdl" (FromInt 8 (Some 4)) ++ fixed "cvtsi2sdq" (FromInt 8 (Some 8))
  ++ fixed "cvttss2si" (ToInt 4 None) ++ fixed "cvttss2sil" (ToInt 4 (Some 4)) ++ fixed "cvttss2siq" (ToInt 4 (Some 8))
  ++ fixed "cvttsd2si" (ToInt 8 None) ++ fixed "cvttsd2sil" (ToInt 8 (Some 4)) ++ fixed "cvttsd2siq" (ToInt 8 (Some 8))
  ++ fixed "faddp" (Fp FADDP) ++ fixed "fmulp" (Fp FMULP) ++ fixed "fsubrp" (Fp FSUBP) ++ fixed "fsubp" (Fp FSUBRP)
  ++ fixed "fdivrp" (Fp FDIVP) ++ fixed "fdivp" (Fp FDIVRP) ++ fixed "fucomip" (Fp FUCOMIP) ++ fixed "fxch" (Fp FXCH)
  ++ fixed "fld" (Fp FLD) ++ fixed "fstp" (Fp FSTP)
  ++ fixed "flds" (FpMem FLD 4) ++ fixed "fldl" (FpMem FLD 8) ++ fixed "fldt" (FpMem FLD 10)
  ++ fixed "fstps" (FpMem FSTP 4) ++ fixed "fstpl" (FpMem FSTP 8) ++ fixed "fstpt" (FpMem FSTP 10)
  ++ fixed "filds" (FpMem FILD 2) ++ fixed "fildl" (FpMem FILD 4) ++ fixed "fildq" (FpMem FILD 8)
  ++ fixed "fistps" (FpMem FISTP 2) ++ fixed "fistpl" (FpMem FISTP 4) ++ fixed "fistpq" (FpMem FISTP 8)
  ++ fixed "fldcw" (FpMem FLDCW 2) ++ fixed "fldcww" (FpMem FLDCW 2) ++ fixed "fnstcw" (FpMem FNSTCW 2) ++ fixed "fnstcww" (FpMem FNSTCW 2)
  ++ fixed "fldz" (None_ FLDZ).

(* Operands in an operation. *)
Definition place_of (o : opnd) : option place :=
  match o with
  | OMem p => Some p
  | OSym PC32 y d => if int32 (loc PC32 y + d) then Some (At None None (loc PC32 y + d)) else None
  | _ => None
  end.
Definition memory_of (w : Z) (o : opnd) : option arg := obind (place_of o) (fun p => Some (M p w)).
Definition general_of (w : Z) (o : opnd) : option arg :=
  match o with
  | OReg (R n v) => if v =? w then Some (R n w) else None
  | OReg (Hi n) => if w =? 1 then Some (Hi n) else None
  | OReg _ => None
  | _ => memory_of w o
  end.
Definition vector_of (w : Z) (o : opnd) : option arg := match o with OReg (X n) => Some (X n) | OReg _ => None | _ => memory_of w o end.
Definition is_mem (a : arg) : bool := match a with M _ _ => true | _ => false end.
(* the value of an immediate operand of w bytes; of 8 bytes there are 4 in the instruction, unless long *)
Definition immediate_of (w : Z) (long : bool) (v : Z) : option arg :=
  if (- 2 ^ (8 * w - 1) <=? v) && (v <? 2 ^ (8 * w)) then
    let x := signed (Z.to_nat w) v in if (w =? 8) && negb long && negb (int32 x) then None else Some (Imv x)
  else None.
Definition reg_width (o : opnd) : option Z := match o with OReg (R _ w) => Some w | OReg (Hi _) => Some 1 | _ => None end.
(* the suffix, or the width of the last operand, or that of the first one *)
Definition width (w : option Z) (l : list opnd) : option Z :=
  match w with
  | Some w => Some w
  | None => fold_left (fun x o => match reg_width o with Some w => Some w | None => x end) l None
  end.
Definition pair_of (m : mnem) (a b : option arg) : option ins :=   (* destination, source *)
  obind a (fun a => obind b (fun b => if is_mem a && is_mem b then None else Some (Ins m [a; b]))).

Definition meaning (prefix : Z) (f : oper) (l : list opnd) : option ins :=
  match f, l with
  | Two MOV (Some 8), [OReg (X n); d] => obind (memory_of 8 d) (fun d => Some (Ins (MOVSS 8) [d; X n]))   (* movq *)
  | Two MOV (Some 8), [s; OReg (X n)] => obind (memory_of 8 s) (fun s => Some (Ins (MOVSS 8) [X n; s]))
  | Two m w, [OImm v; d] =>
    obind (width w l) (fun w => pair_of m (general_of w d) (immediate_of w (match m, d with MOV, OReg _ => true | _, _ => false end) v))
  | Two m w, [s; d] =>
    obind (width w l) (fun w =>
    match m, general_of w s with
    | TEST, Some (M p v) => pair_of m (Some (M p v)) (general_of w d)   (* memory first, whatever the order *)
    | _, s => pair_of m (general_of w d) s
    end)
  | One m w, [o] => obind (width w l) (fun w => obind (general_of w o) (fun a => Some (Ins m [a])))
  | Shift m w, [OReg (R 1 1); d] => obind (width w [d]) (fun w => pair_of m (general_of w d) (Some (R 1 1)))
  | Shift m w, [OImm v; d] => obind (width w [d]) (fun w => pair_of m (general_of w d) (immediate_of 1 false v))
  | Extend m a b, [s; OReg d] => pair_of m (general_of b (OReg d)) (general_of a s)
  | Lea w, [s; OReg d] => obind (width w [OReg d]) (fun w => pair_of LEA (general_of w (OReg d)) (memory_of 0 s))
  | Push, [OImm v] => obind (immediate_of 8 false v) (fun a => Some (Ins PUSH [a]))
  | Push, [o] => obind (general_of 8 o) (fun a => Some (Ins PUSH [a]))
  | Pop, [o] => obind (general_of 8 o) (fun a => Some (Ins POP [a]))
  | Branch m, [OSym k y d] => match k with GOTPCREL => None | _ => Some (Ins m [Rel (loc k y + d - end_)]) end
  | Branch ((CALL | JMP) as m), [OStar o] => obind (general_of 8 o) (fun a => Some (Ins m [a]))
  | Set_ m, [o] => obind (general_of 1 o) (fun a => Some (Ins m [a]))
  | None_ m, [] => Some (Ins m [])
  | Str w, [] => Some (Ins (MOVSTR prefix w) [])
  | Scalar m w _, [s; OReg (X d)] => obind (vector_of w s) (fun s => Some (Ins m [X d; s]))
  | Scalar m w true, [OReg (X s); d] => obind (memory_of w d) (fun d => Some (Ins m [d; X s]))
  | FromInt w v, [s; OReg (X d)] => obind (general_of (match v with Some v => v | None => match reg_width s with Some v => v | None => 4 end end) s) (fun s => Some (Ins (CVTSI2S w) [X d; s]))
  | ToInt w v, [s; OReg (R n u)] =>
    if match v with Some v => v =? u | None => true end then obind (vector_of w s) (fun s => Some (Ins (CVTTS2SI w) [R n u; s])) else None
  | Fp m, [OReg (St n)] => Some (Ins m [St n])
  | FpMem m w, [o] => obind (memory_of w o) (fun a => Some (Ins m [a]))
  | _, _ => None
  end.
Definition repeats (n : list Z) : option Z :=
  lookup n [(text "rep", 243); (text "repe", 243); (text "repz", 243); (text "repne", 242); (text "repnz", 242)].
Definition read_body (prefix : Z) (n r : list Z) : option ins :=
  obind (lookup n operations) (fun f => obind (operand_list r) (meaning prefix f)).
Definition read_line (l : list Z) : option ins :=
  let (n, r) := span alnum (skip l) in
  match repeats n with
  | Some p => let (n, r) := span alnum (skip r) in match lookup n operations with Some (Str w) => obind (operand_list r) (meaning p (Str w)) | _ => None end
  | None => read_body 0 n r
  end.
End Read.

(* Symbols are printed by names that can be read. *)
Definition symbol_name (l : list Z) : bool := match l with c :: _ => symstart c | [] => false end && forallb symchar l.

(* What is not printed rightly (theorems are in AttProps.v) or is not what the compiler makes: a symbol addressed otherwise
   than by %rip; a displacement is an int. *)
Definition odd_address (a : address) : bool :=
  negb (int32 (a_disp a)) || (negb (a_index a =? 0) && (a_scale a =? 0))
  || match a_sym a with Some _ => negb (a_base a =? IP) | None => (a_base a =? 0) && (a_index a =? 0) && (a_disp a =? 0) end.
Definition odd_target (i : immediate) : bool :=
  match i_val i with IAddr a => negb (int32 (a_disp a)) || negb (a_base a =? 0) || negb (a_index a =? 0) | IInt _ => false end.
Definition misspelt (i : instruction) : bool :=
  let c := n_op i in
  let shift := (c =? INSTR_SHL) || (c =? INSTR_SHR) || (c =? INSTR_SAR) in
  let compare := (c =? INSTR_CMP) || (c =? INSTR_TEST) in
  match n_args i with
  | NoOp w => (((c =? INSTR_LEAVE) || (c =? INSTR_RET)) && (w =? 4)) || ((c =? INSTR_FLDZ) && negb (w =? 0))
  | OpImm m => odd_target m
  | OpReg _ => false
  | OpMem m => (c =? INSTR_CALL) || odd_address (m_addr m)
  | RegReg s _ => (c =? INSTR_MOVZX) && (r_width s =? 4)
  | RegMem _ m => odd_address (m_addr m)
  | MemReg m _ => ((c =? INSTR_MOVZX) && (m_width m =? 4)) || odd_address (m_addr m)
  | ImmReg s d => (negb shift && negb (i_width s =? r_width d)) || (compare && long_value s)
  | ImmMem s m => negb (i_width s =? m_width m) || (compare && long_value s) || odd_address (m_addr m)
  end.

(* What the printer asserts of an address, and what fits in its buffers. *)
Definition settled (a : address) : bool :=
  match a_sym a, a_type a with Some _, (ADDR_GLOBAL_OFFSET | ADDR_PLT) => a_disp a =? 0 | _, _ => true end && (negb (a_index a =? 0) || (a_scale a =? 0)).
Definition printable (depth : Z) (i : instruction) : bool :=
  match n_args i with
  | OpReg r => (r_reg r <? 34) || (1 <? depth)
  | OpMem m | RegMem _ m | MemReg m _ | ImmMem _ m => settled (m_addr m)
  | OpImm m => match i_val m with IAddr a => settled a | IInt _ => true end
  | _ => true
  end.
(* the symbols in the operands *)
Definition sym_of (a : address) : list Z := match a_sym a with Some y => [y] | None => [] end.
Definition symbols (i : instruction) : list Z :=
  match n_args i with
  | OpMem m | RegMem _ m | MemReg m _ | ImmMem _ m => sym_of (m_addr m)
  | OpImm m => match i_val m with IAddr a => sym_of a | IInt _ => [] end
  | _ => []
  end.
