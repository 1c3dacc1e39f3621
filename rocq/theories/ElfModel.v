(* The object file writer.  src/backend/x86_64/elf.c:41-769, elf.h:9-136 and the two places of encoding.c (371-381,
   521-536) that call it while an instruction is being encoded.  An instruction is abstracted to the pieces its
   encoding is made of; the encoding itself is EncModel.  Not modelled: -g (dwarf.c), failures of malloc and fwrite,
   size_t wrap-around, and section_symbol, which only dwarf.c reads. *)
From Coq Require Import List ZArith Bool.
From Verif Require Import Util Bytes.
Import ListNotations.
Open Scope Z_scope.

(* Abort: a failed assert.  Ub: an access outside of a buffer. *)
Inductive res (A : Type) := Ok (a : A) | Abort | Ub.
Arguments Ok {A}. Arguments Abort {A}. Arguments Ub {A}.
Definition bind {A B} (m : res A) (k : A -> res B) : res B :=
  match m with Ok a => k a | Abort => Abort | Ub => Ub end.
Notation "'do' p <- m ; k" := (bind m (fun p => k)) (at level 200, p pattern, right associativity).
Definition assert (b : bool) : res unit := if b then Ok tt else Abort.

Definition zlen {A} (l : list A) : Z := Z.of_nat (length l).
Definition zeros (n : Z) : list Z := repeat 0 (Z.to_nat n).
(* conversion to int *)
Definition int32 (z : Z) : Z := (z + 2 ^ 31) mod 2 ^ 32 - 2 ^ 31.
(* n bytes of a buffer at an offset; and the buffer with the bytes there replaced *)
Definition sub (b : list Z) (off n : Z) : list Z := firstn (Z.to_nat n) (skipn (Z.to_nat off) b).
Definition patch (b : list Z) (off : Z) (x : list Z) : list Z :=
  firstn (Z.to_nat off) b ++ x ++ skipn (Z.to_nat off + length x) b.

(* elf.h:42-53; sh_addr is always 0. *)
Record shdr := Shdr { sh_name : Z; sh_type : Z; sh_flags : Z; sh_offset : Z; sh_size : Z;
  sh_link : Z; sh_info : Z; sh_align : Z; sh_entsize : Z }.
Definition null_shdr : shdr := Shdr 0 0 0 0 0 0 0 0 0.
(* elf.h:61-71 *)
Definition SHT_PROGBITS := 1. Definition SHT_SYMTAB := 2. Definition SHT_STRTAB := 3. Definition SHT_RELA := 4.
Definition SHT_NOBITS := 8.
(* elf.h:76-83; st_other is always 0. *)
Record esym := Esym { st_name : Z; st_info : Z; st_shndx : Z; st_value : Z; st_size : Z }.
Definition null_esym : esym := Esym 0 0 0 0 0.
(* elf.h:76-83, 94-98, 42-53, 15-30 as laid out in memory on a little-endian machine *)
Definition enc_sym (e : esym) : list Z :=
  le_bytes 4 (st_name e) ++ le_bytes 1 (st_info e) ++ [0] ++ le_bytes 2 (st_shndx e) ++
  le_bytes 8 (st_value e) ++ le_bytes 8 (st_size e).
Definition enc_rela (offset info addend : Z) : list Z := le_bytes 8 offset ++ le_bytes 8 info ++ le_bytes 8 addend.
Definition enc_shdr (h : shdr) : list Z :=
  le_bytes 4 (sh_name h) ++ le_bytes 4 (sh_type h) ++ le_bytes 8 (sh_flags h) ++ le_bytes 8 0 ++
  le_bytes 8 (sh_offset h) ++ le_bytes 8 (sh_size h) ++ le_bytes 4 (sh_link h) ++ le_bytes 4 (sh_info h) ++
  le_bytes 8 (sh_align h) ++ le_bytes 8 (sh_entsize h).
(* elf.c:15-39 with e_shnum (308) and e_shstrndx (299) filled in *)
Definition enc_ehdr (shnum shstrndx : Z) : list Z :=
  [127; 69; 76; 70; 2; 1; 1; 0; 0; 0; 16; 0; 0; 0; 0; 0] ++ le_bytes 2 1 ++ le_bytes 2 62 ++ le_bytes 4 1 ++
  le_bytes 8 0 ++ le_bytes 8 0 ++ le_bytes 8 64 ++ le_bytes 4 0 ++ le_bytes 2 64 ++ le_bytes 2 0 ++ le_bytes 2 0 ++
  le_bytes 2 64 ++ le_bytes 2 shnum ++ le_bytes 2 shstrndx.

(* A section: its header and the first sh_size bytes of its buffer (nothing for SHT_NOBITS). *)
Record sec := Sec { s_hdr : shdr; s_buf : list Z }.
Definition null_sec : sec := Sec null_shdr [].
(* elf.c:65-71; symbols are identified by a number standing for their address. *)
Record reloc := Reloc { r_symbol : Z; r_type : Z; r_offset : Z; r_addend : Z }.
(* elf.c:331-338 *)
Inductive current := CNone | CStatic (i : Z) | CGlobal (i : nat).

(* elf.c:44-100: shdr with sbuf, scap (kept between input files), header.e_shstrndx, the pending lists, and the
   member stack_offset of all symbols. *)
Record est := Est { secs : list sec; caps : list Z; shstrndx : Z; off : Z -> Z;
  globals : list (Z * esym); prel : list (list reloc); pend : list (Z * Z); cur : current }.
Definition SHNUM_MAX : nat := 13.
(* elf.c:47, 531-565: the members of section *)
Definition shstrtab : nat := 1. Definition strtab : nat := 2. Definition symtab : nat := 3. Definition bss : nat := 4.
Definition rodata : nat := 5. Definition data : nat := 6. Definition rela_data : nat := 7. Definition text : nat := 8.
Definition rela_text : nat := 9.

Definition get (s : est) (i : nat) : sec := nth i (secs s) null_sec.
Definition size_of_sec (s : est) (i : nat) : Z := sh_size (s_hdr (get s i)).
Definition set (s : est) (i : nat) (x : sec) : est :=
  Est (upd (secs s) i x) (caps s) (shstrndx s) (off s) (globals s) (prel s) (pend s) (cur s).
Definition set_cap (s : est) (i : nat) (c : Z) : est :=
  Est (secs s) (upd (caps s) i c) (shstrndx s) (off s) (globals s) (prel s) (pend s) (cur s).
Definition set_off (s : est) (y v : Z) : est :=
  Est (secs s) (caps s) (shstrndx s) (fun z => if z =? y then v else off s z) (globals s) (prel s) (pend s) (cur s).
Definition set_globals (s : est) (g : list (Z * esym)) : est :=
  Est (secs s) (caps s) (shstrndx s) (off s) g (prel s) (pend s) (cur s).
Definition set_prel (s : est) (p : list (list reloc)) : est :=
  Est (secs s) (caps s) (shstrndx s) (off s) (globals s) p (pend s) (cur s).
Definition set_pend (s : est) (p : list (Z * Z)) : est :=
  Est (secs s) (caps s) (shstrndx s) (off s) (globals s) (prel s) p (cur s).
Definition set_cur (s : est) (c : current) : est :=
  Est (secs s) (caps s) (shstrndx s) (off s) (globals s) (prel s) (pend s) c.
Definition with_size (h : shdr) (n : Z) : shdr :=
  Shdr (sh_name h) (sh_type h) (sh_flags h) (sh_offset h) n (sh_link h) (sh_info h) (sh_align h) (sh_entsize h).
Definition with_align (h : shdr) (n : Z) : shdr :=
  Shdr (sh_name h) (sh_type h) (sh_flags h) (sh_offset h) (sh_size h) (sh_link h) (sh_info h) n (sh_entsize h).
Definition with_info (h : shdr) (n : Z) : shdr :=
  Shdr (sh_name h) (sh_type h) (sh_flags h) (sh_offset h) (sh_size h) (sh_link h) n (sh_align h) (sh_entsize h).
Definition with_offset (h : shdr) (n : Z) : shdr :=
  Shdr (sh_name h) (sh_type h) (sh_flags h) n (sh_size h) (sh_link h) (sh_info h) (sh_align h) (sh_entsize h).

(* the asserts of elf.c:112-118 and 159-164 *)
Definition writable (s : est) (i : nat) : bool :=
  (0 <? i)%nat && (i <? length (secs s))%nat &&
  (let t := sh_type (s_hdr (get s i)) in
   (t =? SHT_STRTAB) || (t =? SHT_SYMTAB) || (t =? SHT_PROGBITS) || (t =? SHT_RELA) || (t =? SHT_NOBITS)).

(* elf.c:122-134: the capacity after making room.  sbuf[shid].data is NULL exactly when scap[shid] is 0. *)
Definition grow (cap offset n : Z) : res Z :=
  if cap <=? offset + n then
    if cap =? 0 then (do _ <- assert (offset =? 0); Ok (10 * n))
    else (do _ <- assert (negb (offset =? 0)); Ok (2 * cap + n))
  else Ok cap.

(* elf.c:103-144; bs is the data, or zeros when the argument is NULL.  Returns the offset. *)
Definition section_write (s : est) (i : nat) (bs : list Z) : res (est * Z) :=
  do _ <- assert (writable s i);
  let x := get s i in
  let offset := sh_size (s_hdr x) in
  let n := zlen bs in
  if negb (sh_type (s_hdr x) =? SHT_NOBITS) && (0 <? n) then
    do c <- grow (nth i (caps s) 0) offset n;
    if offset + n <=? c then
      Ok (set_cap (set s i (Sec (with_size (s_hdr x) (offset + n)) (s_buf x ++ bs))) i c, offset)
    else Ub
  else Ok (set s i (Sec (with_size (s_hdr x) (offset + n)) (s_buf x)), offset).

(* elf.c:156-177 *)
Definition section_align (s : est) (i : nat) (align : Z) : res est :=
  do _ <- assert (writable s i);
  let x := get s i in
  do s <- (if sh_align (s_hdr x) <? align then
             do _ <- assert (align <=? 16); Ok (set s i (Sec (with_align (s_hdr x) align) (s_buf x)))
           else Ok s);
  let offset := size_of_sec s i in
  if negb (offset mod align =? 0) then
    do (s, _) <- section_write s i (zeros (align - offset mod align)); Ok s
  else Ok s.

(* elf.c:216-230; str without its terminating NUL.  The position is an int. *)
Definition strtab_add (s : est) (i : nat) (str : list Z) : res (est * Z) :=
  do _ <- assert ((0 <? i)%nat && (i <? length (secs s))%nat && (sh_type (s_hdr (get s i)) =? SHT_STRTAB));
  do s <- (if size_of_sec s i =? 0 then do (s, _) <- section_write s i [0]; Ok s else Ok s);
  let pos := int32 (size_of_sec s i) in
  do (s, _) <- section_write s i (str ++ [0]);
  Ok (s, pos).

(* elf.c:240-260; sym[i-1].st_info is read back from the buffer. *)
Definition symtab_add (s : est) (i : nat) (e : esym) : res (est * Z) :=
  do _ <- assert (0 <? i)%nat;
  let k := size_of_sec s i / 24 in
  do (s, k) <- (if k =? 0 then do (s, _) <- section_write s i (zeros 24); Ok (s, k + 1) else Ok (s, k));
  do (s, _) <- section_write s i (enc_sym e);
  let x := get s i in
  if (st_info e / 16 =? 1) && (sh_info (s_hdr x) =? 0) then
    Ok (set s i (Sec (with_info (s_hdr x) k) (s_buf x)), k)
  else
    do _ <- assert ((k =? 0) || (st_info e / 16 =? le_val (sub (s_buf x) (24 * (k - 1) + 4) 1) / 16));
    Ok (s, k).

(* elf.c:267-310; shstr and symt are section.shstrtab and section.symtab, 0 while not set.  Returns the id. *)
Definition section_init (s : est) (shstr symt : nat) (name : list Z)
    (type flags link info align entsize : Z) : res (est * nat) :=
  let s := if (length (secs s) =? 0)%nat
           then Est [null_sec] (caps s) (shstrndx s) (off s) (globals s) (prel s) (pend s) (cur s) else s in
  let id := length (secs s) in
  do _ <- assert (id <? SHNUM_MAX)%nat;
  let s := Est (secs s ++ [Sec (Shdr 0 type flags 0 0 link info align entsize) []]) (caps s) (shstrndx s) (off s)
               (globals s) (prel s) (pend s) (cur s) in
  do (s, nm) <- (if (0 <? shstr)%nat then strtab_add s shstr name
                 else strtab_add (Est (secs s) (caps s) (Z.of_nat id) (off s) (globals s) (prel s) (pend s) (cur s)) id name);
  let x := get s id in
  let h := s_hdr x in
  let s := set s id (Sec (Shdr nm (sh_type h) (sh_flags h) (sh_offset h) (sh_size h) (sh_link h) (sh_info h)
                               (sh_align h) (sh_entsize h)) (s_buf x)) in
  do s <- (if (0 <? symt)%nat then do (s, _) <- symtab_add s symt (Esym 0 3 (Z.of_nat id) 0 0); Ok s else Ok s);
  Ok (s, id).

(* ".shstrtab" and the other section names of elf.c:531-565 *)
Definition n_shstrtab := [46;115;104;115;116;114;116;97;98]. Definition n_strtab := [46;115;116;114;116;97;98].
Definition n_symtab := [46;115;121;109;116;97;98]. Definition n_bss := [46;98;115;115].
Definition n_rodata := [46;114;111;100;97;116;97]. Definition n_data := [46;100;97;116;97].
Definition n_rela_data := [46;114;101;108;97;46;100;97;116;97]. Definition n_text := [46;116;101;120;116].
Definition n_rela_text := [46;114;101;108;97;46;116;101;120;116].
(* "_GLOBAL_OFFSET_TABLE_", elf.c:401 *)
Definition n_got := [95;71;76;79;66;65;76;95;79;70;70;83;69;84;95;84;65;66;76;69;95].

(* elf.c:531-538 *)
Definition init_tables (s : est) : res (est * nat * nat * nat) :=
  do (s, i1) <- section_init s 0 0 n_shstrtab SHT_STRTAB 0 0 0 1 0;
  do (s, i2) <- section_init s i1 0 n_strtab SHT_STRTAB 0 0 0 1 0;
  do (s, i3) <- section_init s i1 0 n_symtab SHT_SYMTAB 0 (Z.of_nat i2) 0 4 24;
  Ok (s, i1, i2, i3).
(* elf.c:540-545 *)
Definition init_file (s : est) (i2 i3 : nat) (file : option (list Z)) : res est :=
  match file with
  | Some f => do (s, nm) <- strtab_add s i2 f; do (s, _) <- symtab_add s i3 (Esym nm 4 65521 0 0); Ok s
  | None => Ok s
  end.
(* elf.c:547-565 *)
Definition init_sections (s : est) (i1 i3 : nat) : res est :=
  do (s, _) <- section_init s i1 i3 n_bss SHT_NOBITS 3 0 0 4 0;
  do (s, _) <- section_init s i1 i3 n_rodata SHT_PROGBITS 2 0 0 16 0;
  do (s, i6) <- section_init s i1 i3 n_data SHT_PROGBITS 3 0 0 4 0;
  do (s, _) <- section_init s i1 i3 n_rela_data SHT_RELA 0 (Z.of_nat i3) (Z.of_nat i6) 8 24;
  do (s, i8) <- section_init s i1 i3 n_text SHT_PROGBITS 6 0 0 16 0;
  do (s, _) <- section_init s i1 i3 n_rela_text SHT_RELA 0 (Z.of_nat i3) (Z.of_nat i8) 8 24;
  Ok s.
(* elf.c:521-570, without -g.  What is left of the previous input file: the capacities, the symbols, the lists. *)
Definition elf_init (s : est) (file : option (list Z)) : res est :=
  let s := Est [] (caps s) (shstrndx s) (off s) (globals s) (prel s) (pend s) CNone in
  do (s, i1, i2, i3) <- init_tables s;
  do s <- init_file s i2 i3 file;
  init_sections s i1 i3.

(* elf.c:340-353 *)
Definition add_size (e : esym) (n : Z) : esym := Esym (st_name e) (st_info e) (st_shndx e) (st_value e) (st_size e + n).
Definition increment_function_size (s : est) (n : Z) : res est :=
  match cur s with
  | CNone => Abort
  | CStatic i =>
      let x := get s symtab in
      let p := 24 * i + 16 in
      if p + 8 <=? zlen (s_buf x) then
        Ok (set s symtab (Sec (s_hdr x) (patch (s_buf x) p (le_bytes 8 (le_val (sub (s_buf x) p 8) + n)))))
      else Ub
  | CGlobal i =>
      match nth_error (globals s) i with
      | Some (y, e) => Ok (set_globals s (upd (globals s) i (y, add_size e n)))
      | None => Ub
      end
  end.

(* include/lacc/symbol.h:16-26, 32 *)
Inductive symtype := SDefinition | STentative | SDeclaration | STypedef | SLiteral | SConstant | SLabel | STag | SBuiltin.
Inductive linkage := LNone | LIntern | LExtern.
(* What the writer reads of a symbol: its name, kind, linkage, is_function, sym_alignment, size_of, and for strings and
   constants the bytes at `data` (elf.c:617-625). *)
Record symb := Symb { y_id : Z; y_name : list Z; y_kind : symtype; y_link : linkage; y_fun : bool;
  y_align : Z; y_size : Z; y_raw : list Z }.
Definition is_intern (l : linkage) : bool := match l with LIntern => true | _ => false end.
Definition is_none (l : linkage) : bool := match l with LNone => true | _ => false end.
(* context.pic and context.no_common *)
Record ctx := Ctx { pic : bool; no_common : bool }.

(* elf.c:362-381 *)
Definition symtab_assoc (s : est) (y : symb) (e : esym) : res est :=
  if is_intern (y_link y) then
    do (s, k) <- symtab_add s symtab e;
    let s := set_off s (y_id y) k in
    Ok (if y_fun y then set_cur s (CStatic k) else s)
  else
    do _ <- assert (st_info e / 16 =? 1);
    let s := set_globals s (globals s ++ [(y_id y, e)]) in
    Ok (if y_fun y then set_cur s (CGlobal (length (globals s) - 1)) else s).

(* elf.c:572-648; section is the index for st_shndx, the types of elf.h:89-90 are 1 and 2. *)
Definition elf_symbol (c : ctx) (s : est) (y : symb) : res est :=
  do _ <- assert (negb (is_none (y_link y)));
  do _ <- assert (off s (y_id y) =? 0);
  match y_kind y with
  | SLabel => Ok (set_off s (y_id y) (int32 (size_of_sec s text)))
  | _ =>
    do (s, nm) <- strtab_add s strtab (y_name y);
    let bnd := if is_intern (y_link y) then 0 else 16 in
    if y_fun y then
      match y_kind y with
      | SDefinition => symtab_assoc s y (Esym nm (bnd + 2) (Z.of_nat text) (size_of_sec s text) 0)
      | _ => symtab_assoc s y (Esym nm (bnd + 2) 0 0 0)
      end
    else match y_kind y with
    | SDefinition =>
        do s <- section_align s data (y_align y);
        symtab_assoc s y (Esym nm (bnd + 1) (Z.of_nat data) (size_of_sec s data) (y_size y))
    | SLiteral | SConstant =>
        do s <- section_align s rodata (y_align y);
        let v := size_of_sec s rodata in
        if y_size y <=? zlen (y_raw y) then
          do (s, _) <- section_write s rodata (firstn (Z.to_nat (y_size y)) (y_raw y));
          symtab_assoc s y (Esym nm (bnd + 1) (Z.of_nat rodata) v (y_size y))
        else Ub
    | k =>
        if is_intern (y_link y) || (match k with STentative => no_common c | _ => false end) then
          do s <- section_align s bss (y_align y);
          let x := get s bss in
          let v := sh_size (s_hdr x) in
          symtab_assoc (set s bss (Sec (with_size (s_hdr x) (v + y_size y)) (s_buf x))) y
            (Esym nm (bnd + 1) (Z.of_nat bss) v (y_size y))
        else match k with
        | STentative => symtab_assoc s y (Esym nm (bnd + 1) 65522 (y_align y) (y_size y))
        | _ => symtab_assoc s y (Esym nm bnd 0 0 0)
        end
    end
  end.

(* elf.c:410-429; target: sh_info of the relocation section *)
Definition add_relocation (s : est) (i : nat) (y t o a : Z) : res est :=
  do _ <- assert ((0 <? i)%nat && (sh_type (s_hdr (get s i)) =? SHT_RELA));
  let target := Z.to_nat (sh_info (s_hdr (get s i))) in
  let r := Reloc y t (int32 (size_of_sec s target + o)) a in
  Ok (set_prel s (upd (prel s) i (nth i (prel s) [] ++ [r]))).

(* elf.c:499-512; the sum is unsigned long, converted to int on return.  That the symbol is a label is the caller's. *)
Definition text_displacement (s : est) (l o : Z) : est * Z :=
  if negb (off s l =? 0) then (s, int32 (off s l - size_of_sec s text - o))
  else (set_pend s (pend s ++ [(l, int32 (size_of_sec s text + o))]), 0).

(* The parts of an encoded instruction: opcode bytes; the relative address of a label plus d (encoding.c:525-528);
   a relocated field (encoding.c:371-381 with a = addr.displacement - addend, and 530-536), 4 zero bytes. *)
Inductive piece := PBytes (b : list Z) | PJump (l d : Z) | PRel (y t a : Z).
(* encoding.c:1065-1122 as far as elf.c is concerned; code is the instruction so far, c->len its length. *)
Fixpoint encode (s : est) (code : list Z) (ps : list piece) : res (est * list Z) :=
  match ps with
  | [] => Ok (s, code)
  | PBytes b :: r => encode s (code ++ b) r
  | PJump l d :: r =>
      let (s, x) := text_displacement s l (zlen code) in
      encode s (code ++ le_bytes 4 (x + d - 4)) r
  | PRel y t a :: r =>
      do s <- add_relocation s rela_text y t (zlen code) a;
      encode s (code ++ zeros 4) r
  end.

(* elf.c:650-660; c.val is zero initialised *)
Definition elf_text (s : est) (ps : list piece) : res est :=
  do (s, c) <- encode s [] ps;
  if negb (nth 0 c 0 =? 144) then
    do (s, _) <- section_write s text c;
    increment_function_size s (zlen c)
  else Ok s.

(* elf.c:662-691: an integer or a string as its bytes, or an address. *)
Inductive dat := DBytes (b : list Z) | DAddr (y a : Z).
Definition elf_data (s : est) (d : dat) : res est :=
  match d with
  | DBytes b => do (s, _) <- section_write s data b; Ok s
  | DAddr y a =>
      do s <- add_relocation s rela_data y 1 0 a;
      do (s, _) <- section_write s data (zeros 8); Ok s
  end.

(* elf.c:488-494, one iteration: int arithmetic on the 4 bytes at text_offset *)
Definition fix_displacement (s : est) (p : Z * Z) : res est :=
  let (l, o) := p in
  do _ <- assert (negb (off s l =? 0));
  let x := get s text in
  if (0 <=? o) && (o + 4 <=? zlen (s_buf x)) then
    Ok (set s text (Sec (s_hdr x)
          (patch (s_buf x) o (le_bytes 4 (le_val (sub (s_buf x) o 4) + (off s l - o))))))
  else Ub.
Fixpoint fix_all (s : est) (ps : list (Z * Z)) : res est :=
  match ps with [] => Ok s | p :: r => do s <- fix_displacement s p; fix_all s r end.
(* elf.c:483-497 *)
Definition flush_text_displacements (s : est) : res est :=
  do s <- fix_all s (pend s); Ok (set_pend s []).

(* elf.c:389-408 *)
Fixpoint flush_globals (s : est) (g : list (Z * esym)) : res est :=
  match g with
  | [] => Ok s
  | (y, e) :: r => do (s, k) <- symtab_add s symtab e; flush_globals (set_off s y k) r
  end.
Definition flush_symtab_globals (c : ctx) (s : est) : res est :=
  do s <- flush_globals s (globals s);
  do s <- (if pic c then
             do (s, nm) <- strtab_add s strtab n_got;
             do (s, _) <- symtab_add s symtab (Esym nm 16 0 0 0); Ok s
           else Ok s);
  Ok (set_globals s []).

(* elf.c:453-472: one entry *)
Definition rela_bytes (s : est) (r : reloc) : list Z :=
  let a := if (r_type r =? 2) || (r_type r =? 4) || (r_type r =? 9) then r_addend r - 4 else r_addend r in
  enc_rela (r_offset r) (off s (r_symbol r) * 2 ^ 32 + r_type r) a.
(* elf.c:444-475 for section i; entry = sbuf[i].rela + offset counts in entries, so the entries are written at
   24 * offset. *)
Definition flush_rela (s : est) (i : nat) : res est :=
  let ps := nth i (prel s) [] in
  match ps with
  | [] => Ok s
  | _ =>
    do (s, o) <- section_write s i (zeros (24 * zlen ps));
    do _ <- assert (forallb (fun r => negb (r_type r =? 0)) ps);
    let x := get s i in
    if 24 * o + 24 * zlen ps <=? zlen (s_buf x) then
      Ok (set_prel (set s i (Sec (s_hdr x) (patch (s_buf x) (24 * o) (flat_map (rela_bytes s) ps)))) (upd (prel s) i []))
    else Ub
  end.
Fixpoint flush_relocations (s : est) (n i : nat) : res est :=
  match n with O => Ok s | S m => do s <- flush_rela s i; flush_relocations s m (S i) end.

(* elf.c:183-210, over the sections from 1 on; prev is the end of the section before, if there is one yet. *)
Definition is_nobits (x : sec) : bool := sh_type (s_hdr x) =? SHT_NOBITS.
Fixpoint chain (first : Z) (prev : option Z) (l : list sec) : res (list sec) :=
  match l with
  | [] => match prev with None => Abort | Some _ => Ok [] end
  | x :: r =>
      if is_nobits x then do t <- chain first prev r; Ok (x :: t)
      else
        let h := s_hdr x in
        do o <- match prev with
                | None => Ok first
                | Some e =>
                    if 1 <? sh_align h then
                      let padding := e mod sh_align h in do _ <- assert (padding <? 16); Ok (e + padding)
                    else Ok e
                end;
        do t <- chain first (Some (o + sh_size h)) r;
        Ok (Sec (with_offset h o) (s_buf x) :: t)
  end.
Definition chain_offsets (s : est) : res est :=
  match secs s with
  | [] => Abort
  | z :: r => do t <- chain (64 + 64 * zlen (secs s)) None r;
              Ok (Est (z :: t) (caps s) (shstrndx s) (off s) (globals s) (prel s) (pend s) (cur s))
  end.

(* elf.c:710-733; the padding array of write_data has 16 bytes; the buffer holds sh_size bytes. *)
Fixpoint write_sections (prev : option Z) (l : list sec) : res (list Z) :=
  match l with
  | [] => Ok []
  | x :: r =>
      if is_nobits x then write_sections prev r
      else
        let h := s_hdr x in
        do pad <- match prev with
                  | None => Ok []
                  | Some written =>
                      do _ <- assert (written <=? sh_offset h);
                      do _ <- assert (sh_offset h - written <=? 16);
                      Ok (zeros (sh_offset h - written))
                  end;
        if sh_size h <=? zlen (s_buf x) then
          do t <- write_sections (Some (sh_offset h + sh_size h)) r;
          Ok (pad ++ sub (s_buf x) 0 (sh_size h) ++ t)
        else Ub
  end.

(* elf.c:735-756, without -g: the bytes written to the file, and the state left for the next input file. *)
Definition elf_flush (c : ctx) (s : est) : res (list Z * est) :=
  do s <- flush_symtab_globals c s;
  do s <- flush_relocations s SHNUM_MAX 0;
  let s := set_pend s [] in
  do s <- chain_offsets s;
  do body <- write_sections None (tl (secs s));
  Ok (enc_ehdr (zlen (secs s)) (shstrndx s) ++ flat_map (fun x => enc_shdr (s_hdr x)) (secs s) ++ body, s).

(* The calls the rest of the back end makes: enter_context (elf_symbol), emit_instruction (elf_text), emit_data
   (elf_data), and elf_flush_text_displacements after each function (compile.c:3343-3411). *)
Inductive op := OSym (y : symb) | OText (ps : list piece) | OData (d : dat) | OEnd.
Definition step (c : ctx) (s : est) (o : op) : res est :=
  match o with
  | OSym y => elf_symbol c s y
  | OText ps => elf_text s ps
  | OData d => elf_data s d
  | OEnd => flush_text_displacements s
  end.
Fixpoint run (c : ctx) (s : est) (ops : list op) : res est :=
  match ops with [] => Ok s | o :: r => do s <- step c s o; run c s r end.
(* One input file, from the state left by those before. *)
Definition object_file (c : ctx) (s : est) (file : option (list Z)) (ops : list op) : res (list Z * est) :=
  do s <- elf_init s file;
  do s <- run c s ops;
  elf_flush c s.
Definition start : est := Est [] (repeat 0 SHNUM_MAX) 0 (fun _ => 0) [] (repeat [] SHNUM_MAX) [] CNone.
