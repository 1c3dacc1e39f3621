(* What C32-C34 ask of an object file, read from its bytes as the ELF-64 specification lays them out, for the sequence
   of definitions and declarations handed to the writer. *)
From Coq Require Import List ZArith Bool.
From Verif Require Import Bytes ElfModel.
Import ListNotations.
Open Scope Z_scope.

(* --- Reading a file --- *)
Definition bytes_at (f : list Z) (o n : Z) : list Z := firstn (Z.to_nat n) (skipn (Z.to_nat o) f).
Definition num (f : list Z) (o n : Z) : Z := le_val (bytes_at f o n).
(* the file header: where the section headers are, how large, how many, and the section with their names *)
Definition e_shoff f := num f 40 8.
Definition e_shentsize f := num f 58 2.
Definition e_shnum f := num f 60 2.
Definition e_shstrndx f := num f 62 2.
(* section header i *)
Definition sec_num f i o n := num f (e_shoff f + e_shentsize f * i + o) n.
Definition sec_name f i := sec_num f i 0 4.
Definition sec_type f i := sec_num f i 4 4.
Definition sec_flags f i := sec_num f i 8 8.
Definition sec_offset f i := sec_num f i 24 8.
Definition sec_size f i := sec_num f i 32 8.
Definition sec_link f i := sec_num f i 40 4.
Definition sec_info f i := sec_num f i 44 4.
Definition sec_align f i := sec_num f i 48 8.
Definition sec_entsize f i := sec_num f i 56 8.
Definition content f i := bytes_at f (sec_offset f i) (sec_size f i).
(* the string of a string table at an offset: the bytes before the next NUL; None if there is no NUL *)
Fixpoint until_nul (b : list Z) : option (list Z) :=
  match b with
  | [] => None
  | c :: r => if c =? 0 then Some [] else match until_nul r with Some t => Some (c :: t) | None => None end
  end.
Definition string_at (b : list Z) (o : Z) : option (list Z) := until_nul (skipn (Z.to_nat o) b).
(* the name of section i; entries of the symbol table t; of the relocation section t *)
Definition name_of_section f i := string_at (content f (e_shstrndx f)) (sec_name f i).
Definition sym_count f t := sec_size f t / 24.
Definition sym_num f t k o n := num (content f t) (24 * k + o) n.
Definition sym_name f t k := string_at (content f (sec_link f t)) (sym_num f t k 0 4).
Definition sym_type f t k := sym_num f t k 4 1 mod 16.
Definition sym_bind f t k := sym_num f t k 4 1 / 16.
Definition sym_shndx f t k := sym_num f t k 6 2.
Definition sym_value f t k := sym_num f t k 8 8.
Definition sym_size f t k := sym_num f t k 16 8.
Definition rel_count f t := sec_size f t / 24.
Definition rel_offset f t j := num (content f t) (24 * j) 8.
Definition rel_type f t j := num (content f t) (24 * j + 8) 4.
Definition rel_sym f t j := num (content f t) (24 * j + 12) 4.
Definition signed (n z : Z) : Z := if z <? 2 ^ (n - 1) then z else z - 2 ^ n.
Definition rel_addend f t j := signed 64 (num (content f t) (24 * j + 16) 8).

(* --- What is handed to the writer: declarations, objects with their initial values, and functions. --- *)
Inductive cmd := CLabel (y : symb) | CInstr (ps : list piece).
Inductive item := TDecl (y : symb) | TData (y : symb) (ds : list dat) | TFun (y : symb) (body : list cmd).
Definition op_of_cmd (c : cmd) : op := match c with CLabel y => OSym y | CInstr ps => OText ps end.
Definition ops_of_item (t : item) : list op :=
  match t with
  | TDecl y => [OSym y]
  | TData y ds => OSym y :: map OData ds
  | TFun y body => OSym y :: map op_of_cmd body ++ [OEnd]
  end.
Definition ops_of (l : list item) : list op := flat_map ops_of_item l.

Definition sym_of (t : item) : symb := match t with TDecl y | TData y _ | TFun y _ => y end.
Definition labels_of (b : list cmd) : list symb :=
  flat_map (fun c => match c with CLabel y => [y] | CInstr _ => [] end) b.
Definition body_of (t : item) : list cmd := match t with TFun _ b => b | _ => [] end.
Definition data_of (t : item) : list dat := match t with TData _ d => d | _ => [] end.

(* a no-operation is not written *)
Definition is_nop (ps : list piece) : bool :=
  match ps with PBytes (b :: _) :: _ => b =? 144 | _ => false end.
Definition plen (p : piece) : Z := match p with PBytes b => zlen b | _ => 4 end.
Definition plens (ps : list piece) : Z := fold_right (fun p n => plen p + n) 0 ps.
Definition ilen (ps : list piece) : Z := if is_nop ps then 0 else plens ps.
Definition clen (c : cmd) : Z := match c with CLabel _ => 0 | CInstr ps => ilen ps end.
Definition code_len (b : list cmd) : Z := fold_right (fun c n => clen c + n) 0 b.
Definition text_len (l : list item) : Z := fold_right (fun t n => code_len (body_of t) + n) 0 l.
(* the symbols relocated against, and the labels jumped to *)
Definition prels (ps : list piece) : list Z := flat_map (fun p => match p with PRel y _ _ => [y] | _ => [] end) ps.
Definition pjumps (ps : list piece) : list Z := flat_map (fun p => match p with PJump l _ => [l] | _ => [] end) ps.
Definition crels (c : cmd) : list Z := match c with CInstr ps => prels ps | _ => [] end.
Definition cjumps (c : cmd) : list Z := match c with CInstr ps => pjumps ps | _ => [] end.
Definition drels (d : dat) : list Z := match d with DAddr y _ => [y] | _ => [] end.
Definition rels_of (t : item) : list Z := flat_map crels (body_of t) ++ flat_map drels (data_of t).
Definition ids_of (t : item) : list Z := y_id (sym_of t) :: map y_id (labels_of (body_of t)).

(* --- Where things are to be --- *)
Inductive place := PText | PData | PRodata | PBss | PCommon | PUndef.
Definition place_of (c : ctx) (y : symb) : place :=
  match y_fun y, y_kind y with
  | true, SDefinition => PText
  | true, _ => PUndef
  | false, SDefinition => PData
  | false, SLiteral | false, SConstant => PRodata
  | false, STentative =>
      match y_link y with LIntern => PBss | _ => if no_common c then PBss else PCommon end
  | false, _ => match y_link y with LIntern => PBss | _ => PUndef end
  end.
(* the index in st_shndx, the symbol type, the binding *)
Definition shndx_of (p : place) : Z :=
  match p with PText => 8 | PData => 6 | PRodata => 5 | PBss => 4 | PCommon => 65522 | PUndef => 0 end.
Definition type_of (c : ctx) (y : symb) : Z :=
  if y_fun y then 2 else match place_of c y with PUndef => 0 | _ => 1 end.
Definition bind_of (y : symb) : Z := match y_link y with LIntern => 0 | _ => 1 end.
Definition align_up (n al : Z) : Z := (n + al - 1) / al * al.
Definition place_eqb (p q : place) : bool :=
  match p, q with
  | PText, PText | PData, PData | PRodata, PRodata | PBss, PBss | PCommon, PCommon | PUndef, PUndef => true
  | _, _ => false
  end.
Definition dlen (d : dat) : Z := match d with DBytes b => zlen b | DAddr _ _ => 8 end.
Definition dlens (ds : list dat) : Z := fold_right (fun d n => dlen d + n) 0 ds.
Definition dat_bytes (d : dat) : list Z := match d with DBytes b => b | DAddr _ _ => repeat 0 8 end.
(* how many bytes an item takes up in its section *)
Definition item_len (t : item) : Z :=
  match t with TDecl y => y_size y | TData _ ds => dlens ds | TFun _ b => code_len b end.
(* the size of section p after item t when it was n before; and after all of l *)
Definition fill (c : ctx) (p : place) (n : Z) (t : item) : Z :=
  if place_eqb (place_of c (sym_of t)) p then
    (match p with PText => n | _ => align_up n (y_align (sym_of t)) end) + item_len t
  else n.
Definition place_len (c : ctx) (p : place) (l : list item) : Z := fold_left (fill c p) l 0.
(* the value of the symbol of t after the items l: its offset in its section, the alignment for common symbols *)
Definition value_of (c : ctx) (l : list item) (t : item) : Z :=
  let y := sym_of t in
  match place_of c y with
  | PText => place_len c PText l
  | PCommon => y_align y
  | PUndef => 0
  | p => align_up (place_len c p l) (y_align y)
  end.
Definition size_of_sym (c : ctx) (t : item) : Z :=
  let y := sym_of t in
  match place_of c y with PText => item_len t | PUndef => 0 | _ => y_size y end.
(* the relocations: symbol, type, position in the section, addend without the correction of the relative ones *)
Fixpoint piece_rels (pos : Z) (ps : list piece) : list (Z * Z * Z * Z) :=
  match ps with
  | [] => []
  | p :: r => (match p with PRel y t a => [(y, t, pos, a)] | _ => [] end) ++ piece_rels (pos + plen p) r
  end.
Fixpoint code_rels (pos : Z) (b : list cmd) : list (Z * Z * Z * Z) :=
  match b with
  | [] => []
  | c :: r => (match c with CInstr ps => piece_rels pos ps | _ => [] end) ++ code_rels (pos + clen c) r
  end.
Fixpoint dat_rels (pos : Z) (ds : list dat) : list (Z * Z * Z * Z) :=
  match ds with
  | [] => []
  | d :: r => (match d with DAddr y a => [(y, 1, pos, a)] | _ => [] end) ++ dat_rels (pos + dlen d) r
  end.
Fixpoint text_relocs (c : ctx) (before : list item) (l : list item) : list (Z * Z * Z * Z) :=
  match l with
  | [] => []
  | t :: r => code_rels (value_of c before t) (body_of t) ++ text_relocs c (before ++ [t]) r
  end.
Fixpoint data_relocs (c : ctx) (before : list item) (l : list item) : list (Z * Z * Z * Z) :=
  match l with
  | [] => []
  | t :: r => dat_rels (value_of c before t) (data_of t) ++ data_relocs c (before ++ [t]) r
  end.
(* relative relocations are counted from the end of the 4 byte field *)
Definition rel_end (t : Z) : Z := if t =? 1 then 0 else 4.

(* --- Well-formed input --- *)
Definition sym_wf (y : symb) : Prop :=
  y_link y <> LNone /\ y_kind y <> SLabel /\ In (y_align y) [1; 2; 4; 8; 16] /\ 0 <= y_size y /\
  (y_kind y = SLiteral \/ y_kind y = SConstant -> zlen (y_raw y) = y_size y /\ Forall is_byte (y_raw y)) /\
  Forall (fun b => 0 < b < 256) (y_name y).
Definition piece_wf (p : piece) : Prop :=
  match p with
  | PBytes b => Forall is_byte b
  | PJump _ d => True
  | PRel _ t _ => t = 1 \/ t = 2 \/ t = 4 \/ t = 9
  end.
(* An instruction starts with its opcode; only the no-operation, which is a single byte, starts with 0x90. *)
Definition instr_wf (ps : list piece) : Prop :=
  Forall piece_wf ps /\ (exists b c r, ps = PBytes (b :: c) :: r) /\ (is_nop ps = true -> ps = [PBytes [144]]).
Definition cmd_wf (c : cmd) : Prop :=
  match c with CLabel y => y_kind y = SLabel /\ y_link y = LIntern | CInstr ps => instr_wf ps end.
Definition dat_wf (d : dat) : Prop := match d with DBytes b => Forall is_byte b | DAddr _ _ => True end.
(* Functions start with an instruction, define the labels they jump to, and are defined functions. *)
Definition item_wf (t : item) : Prop :=
  sym_wf (sym_of t) /\
  match t with
  | TDecl y => y_kind y <> SDefinition
  | TData y ds => y_fun y = false /\ y_kind y = SDefinition /\ Forall dat_wf ds
  | TFun y b => y_fun y = true /\ y_kind y = SDefinition /\ Forall cmd_wf b /\
      (exists ps r, b = CInstr ps :: r /\ is_nop ps = false) /\
      (forall l, In l (flat_map cjumps b) -> In l (map y_id (labels_of b)))
  end.
(* All symbols are different objects; all those relocated against are declared or defined. *)
Definition wf (l : list item) : Prop :=
  Forall item_wf l /\ NoDup (flat_map ids_of l) /\
  (forall y, In y (flat_map rels_of l) -> In y (map (fun t => y_id (sym_of t)) l)).
(* The limits: what is kept in an int, and the fields of the file.  22 is the length of _GLOBAL_OFFSET_TABLE_. *)
Definition str_len (file : option (list Z)) (l : list item) : Z :=
  (match file with Some f => zlen f + 2 | None => 1 end) + fold_right (fun t n => zlen (y_name (sym_of t)) + 1 + n) 0 l.
Definition in_int (z : Z) : Prop := - 2 ^ 31 <= z < 2 ^ 31.
Definition addend_ok (r : Z * Z * Z * Z) : Prop := in_int (snd r).
Definition small (c : ctx) (file : option (list Z)) (l : list item) : Prop :=
  place_len c PText l < 2 ^ 31 /\ place_len c PData l < 2 ^ 31 /\ place_len c PRodata l < 2 ^ 31 /\
  place_len c PBss l < 2 ^ 31 /\ str_len file l + 22 < 2 ^ 31 /\
  Forall (fun t => y_size (sym_of t) < 2 ^ 31) l /\
  zlen (text_relocs c [] l) < 2 ^ 31 /\ zlen (data_relocs c [] l) < 2 ^ 31 /\
  Forall addend_ok (text_relocs c [] l) /\ Forall addend_ok (data_relocs c [] l).
