(* C32, C33 and C34: object files. *)
From Coq Require Import List ZArith Lia Bool.
From Verif Require Import Util Bytes ElfModel ElfSpec ElfProofs ElfSteps ElfJump ElfItems ElfAll ElfFlush ElfRead ElfFinal ElfObject ElfFacts ElfSyms.
Import ListNotations.
Open Scope Z_scope.

(* --- an instance: a static object holding the address of an external one, a function with jumps both ways, a string,
   a static array, a common symbol --- *)
Definition nm (z : Z) : list Z := [z].
Definition y_d := Symb 1 (nm 100) SDefinition LIntern false 8 16 [].
Definition y_e := Symb 2 (nm 101) SDeclaration LExtern false 4 4 [].
Definition y_f := Symb 3 (nm 102) SDefinition LExtern true 1 0 [].
Definition y_l1 := Symb 4 [] SLabel LIntern false 1 0 [].
Definition y_l2 := Symb 5 [] SLabel LIntern false 1 0 [].
Definition y_s := Symb 6 (nm 115) SLiteral LIntern false 1 3 [104; 105; 0].
Definition y_b := Symb 7 (nm 98) STentative LIntern false 4 40 [].
Definition y_c := Symb 8 (nm 99) STentative LExtern false 8 8 [].
Definition body_f : list cmd :=
  [CInstr [PBytes [85]]; CLabel y_l1; CInstr [PBytes [15; 132]; PJump 5 0]; CInstr [PBytes [144]]; CInstr [PBytes [139; 5]; PRel 2 2 0];
   CInstr [PBytes [233]; PJump 4 0]; CLabel y_l2; CInstr [PBytes [232]; PRel 3 4 0]; CInstr [PBytes [195]]].
Definition prog : list item :=
  [TData y_d [DBytes [1; 2; 3; 4; 5; 6; 7; 8]; DAddr 2 12]; TFun y_f body_f; TDecl y_s; TDecl y_e; TDecl y_b; TDecl y_c].
Definition c0 := Ctx false false.
Ltac wfs := repeat first [apply Forall_cons|apply Forall_nil|split|apply NoDup_nil]; cbn; try lia; try discriminate; try (intros [X|X]; discriminate X); try (match goal with H : _ \/ _ |- _ => destruct H; discriminate end); auto.
Lemma prog_wf : wf prog.
Proof.
  split; [|split].
  - unfold prog. repeat apply Forall_cons; try apply Forall_nil; unfold item_wf, sym_wf, y_d, y_f, y_s, y_e, y_b, y_c; cbn [sym_of y_link y_kind y_align y_size y_raw y_name y_fun].
    + wfs; unfold dat_wf, is_byte; wfs.
    + assert (Forall cmd_wf body_f) as FB.
      { unfold body_f. repeat apply Forall_cons; try apply Forall_nil; cbn [cmd_wf]; try (split; reflexivity); unfold instr_wf;
          (split; [repeat apply Forall_cons; try apply Forall_nil; cbn [piece_wf]; unfold is_byte; wfs|split; [eexists; eexists; eexists; reflexivity|cbn; first [discriminate|reflexivity]]]). }
      split; [wfs|]. split; [reflexivity|]. split; [reflexivity|]. split; [exact FB|].
      split; [eexists; eexists; split; reflexivity|]. cbn. intros x [<-|[<-|[]]]; auto.
    + wfs; unfold is_byte; wfs.
    + wfs.
    + wfs.
    + wfs.
  - cbn. repeat apply NoDup_cons; try apply NoDup_nil; cbn [In]; lia.
  - cbn. intros y H. intuition.
Qed.
Lemma prog_small : small c0 (Some (nm 120)) prog.
Proof.
  unfold small. assert (text_relocs c0 [] prog = [(2, 2, 9, 0); (3, 4, 19, 0)]) as -> by (vm_compute; reflexivity).
  assert (data_relocs c0 [] prog = [(2, 1, 8, 12)]) as -> by (vm_compute; reflexivity).
  repeat match goal with |- _ /\ _ => split end; try reflexivity; unfold prog, addend_ok, in_int; repeat apply Forall_cons; try apply Forall_nil; cbn; lia.
Qed.

(* C32.  A file is written; every section with contents lies after the headers, inside the file, clear of the others. *)
Theorem C32_written c file l : wf l -> small c file l -> exists f s, object_file c start file (ops_of l) = Ok (f, s).
Proof. intros W SM. destruct (object_ok c file l W SM) as (f & s & E & _). eauto. Qed.
Print Assumptions C32_written.
Lemma reads c file l f s : wf l -> small c file l -> object_file c start file (ops_of l) = Ok (f, s) -> file_reads f (secs_of (a_fin c file l)).
Proof. intros W SM E. destruct (object_ok c file l W SM) as (f' & s' & E' & FR). rewrite E' in E. injection E as <- _. exact FR. Qed.

Lemma bind_ok {A B} (m : res A) (k : A -> res B) x : bind m k = Ok x -> exists a, m = Ok a /\ k a = Ok x.
Proof. destruct m as [a| |]; [|discriminate|discriminate]. intro H. exists a. auto. Qed.
Lemma magic_ok c s0 file ops f s : object_file c s0 file ops = Ok (f, s) -> exists n k v, f = enc_ehdr n k ++ v.
Proof.
  unfold object_file. intro E. apply bind_ok in E. destruct E as (s1 & _ & E). apply bind_ok in E. destruct E as (s2 & _ & E).
  unfold elf_flush in E. apply bind_ok in E. destruct E as (s3 & _ & E). apply bind_ok in E. destruct E as (s4 & _ & E).
  apply bind_ok in E. destruct E as (s5 & _ & E). apply bind_ok in E. destruct E as (b & _ & E). assert (forall A (x y : A), Ok x = Ok y -> x = y) as INJ by (intros; congruence).
  apply INJ in E. apply (f_equal fst) in E. cbn [fst] in E. eexists. eexists. eexists. symmetry. exact E.
Qed.
Theorem C32_layout c file l f s : wf l -> small c file l -> object_file c start file (ops_of l) = Ok (f, s) ->
  bytes_at f 0 6 = [127; 69; 76; 70; 2; 1] /\ e_shoff f = 64 /\ e_shentsize f = 64 /\ e_shnum f = 10 /\
  map (name_of_section f) [1; 2; 3; 4; 5; 6; 7; 8; 9] =
    map Some [n_shstrtab; n_strtab; n_symtab; n_bss; n_rodata; n_data; n_rela_data; n_text; n_rela_text] /\
  map (sec_type f) [0; 1; 2; 3; 4; 5; 6; 7; 8; 9] =
    [0; SHT_STRTAB; SHT_STRTAB; SHT_SYMTAB; SHT_NOBITS; SHT_PROGBITS; SHT_PROGBITS; SHT_RELA; SHT_PROGBITS; SHT_RELA] /\
  (forall i, 1 <= i < 10 -> sec_type f i <> SHT_NOBITS ->
     e_shoff f + e_shentsize f * e_shnum f <= sec_offset f i /\ sec_offset f i + sec_size f i <= zlen f) /\
  (forall i j, 1 <= i -> i < j -> j < 10 -> sec_type f i <> SHT_NOBITS -> sec_type f j <> SHT_NOBITS ->
     sec_offset f i + sec_size f i <= sec_offset f j).
Proof.
  intros W SM E. pose proof (reads _ _ _ _ _ W SM E) as FR. destruct (fr_hdr _ _ FR) as (H1 & H2 & H3 & H4).
  destruct (layout_facts _ _ FR) as [L1 L2]. pose proof (secs_read_ok _ _ FR) as Q.
  split; [|split; [exact H1|split; [exact H2|split; [exact H3|split; [apply (names_facts _ _ FR)|split; [apply (q_types _ _ Q)|split; [rewrite H1, H2; exact L1|exact L2]]]]]]].
  destruct (magic_ok _ _ _ _ _ _ E) as (n & k & v & EF). rewrite EF. reflexivity.
Qed.
Print Assumptions C32_layout.

(* The contents are what was handed in, each object at its place; the sections are as large as what is in them, and
   aligned for all their objects. *)
Theorem C32_contents c file l f s l1 t l2 : wf l -> small c file l -> object_file c start file (ops_of l) = Ok (f, s) ->
  l = l1 ++ t :: l2 ->
  (place_of c (sym_of t) = PData -> bytes_at (content f 6) (value_of c l1 t) (item_len t) = flat_map dat_bytes (data_of t)) /\
  (place_of c (sym_of t) = PRodata -> bytes_at (content f 5) (value_of c l1 t) (item_len t) = y_raw (sym_of t)) /\
  (place_of c (sym_of t) = PText -> forall b1 p1 x p2 b2, body_of t = b1 ++ CInstr (p1 ++ PBytes x :: p2) :: b2 ->
     is_nop (p1 ++ PBytes x :: p2) = false ->
     bytes_at (content f 8) (value_of c l1 t + code_len b1 + plens p1) (zlen x) = x) /\
  match place_of c (sym_of t) with
  | (PText | PData | PRodata | PBss) as p =>
      let i := shndx_of p in
      0 <= value_of c l1 t /\ value_of c l1 t + item_len t <= sec_size f i /\
      (p <> PText -> value_of c l1 t mod y_align (sym_of t) = 0 /\ sec_align f i mod y_align (sym_of t) = 0)
  | _ => True
  end.
Proof.
  intros W SM E ->. pose proof (reads _ _ _ _ _ W SM E) as FR. pose proof (secs_read_ok _ _ FR) as Q.
  destruct (fin_ok c file (l1 ++ t :: l2)) as [_ _ _ [F4 F4'] [F5 F5'] [F6 F6'] F7 _ _].
  pose proof (it_wf l1 t l2 W) as [W1 WT]. rewrite (q_dat _ _ Q), (q_rod _ _ Q), (q_txt _ _ Q), F5, F6, F7.
  split; [apply (it_data c file l1 t l2 W SM)|]. split; [|split].
  - intro P. assert (item_len t = y_size (sym_of t)) as ->.
    { destruct t as [y|y ds|y b]; [reflexivity| |]; exfalso; destruct WT as (_ & WF & WK & _); unfold place_of in P; cbn [sym_of] in P; rewrite WF, WK in P; discriminate. }
    apply (it_rodata c file l1 t l2 W SM P).
  - intros P b1 p1 x p2 b2 EB NP. destruct (it_text c file l1 t l2 W SM P) as (K & _ & T).
    destruct (T b1 _ b2 p1 (PBytes x) p2 EB NP eq_refl) as (T1 & _). cbn [plen fin_p] in T1. rewrite app_nil_r in T1. exact T1.
  - destruct (q_sizes _ _ Q) as (_ & _ & Z4 & Z5 & Z6 & _ & Z8 & _). destruct (q_align _ _ Q) as (A4 & A5 & A6 & A8).
    destruct (small_parts _ _ _ SM) as (_ & _ & _ & _ & S5 & _).
    destruct (all_inv c file (l1 ++ t :: l2) (wf_pre _ W) ltac:(lia)) as (I & _ & _). destruct (i_al _ _ _ I) as (_ & AR & _).
    destruct (value_bound c l1 t _ W1 WT eq_refl) as [V0 V1]. pose proof (it_align c file l1 t l2 W SM) as AL. pose proof (al_pos t WT) as AP.
    assert (forall p, place_len c p (l1 ++ [t]) <= place_len c p (l1 ++ t :: l2)) as PL.
    { intro p. change (t :: l2) with ([t] ++ l2). rewrite app_assoc. apply place_len_app.
      destruct W as (F & _). apply Forall_app in F. destruct F as [_ F]. inversion F; assumption. }
    rewrite F4 in Z4. rewrite F5 in Z5. rewrite F6 in Z6. rewrite F7 in Z8. rewrite F4' in A4. rewrite F5' in A5. rewrite F6' in A6.
    rewrite (i_bss _ _ _ I) in Z4. rewrite (i_rod _ _ _ I) in Z5. rewrite (i_dat _ _ _ I) in Z6. rewrite (i_txt _ _ _ I) in Z8.
    rewrite AR in A5.
    destruct (place_of c (sym_of t)) eqn:P; cbv zeta; cbn [shndx_of]; auto; rewrite ?A4, ?A5, ?A6, ?Z4, ?Z5, ?Z6, ?Z8;
      (split; [exact V0|split; [|intro NP]]); try contradiction.
    + pose proof (PL PText). lia.
    + pose proof (PL PData). lia.
    + split; [|exact AL]. unfold value_of. rewrite P. apply align_up_mod. lia.
    + pose proof (PL PRodata). lia.
    + split; [|exact AL]. unfold value_of. rewrite P. apply align_up_mod. lia.
    + pose proof (PL PBss). lia.
    + split; [|exact AL]. unfold value_of. rewrite P. apply align_up_mod. lia.
Qed.
Print Assumptions C32_contents.

(* Two objects of the same section do not overlap. *)
Theorem C32_objects_disjoint c l1 t l2 u l3 : wf (l1 ++ t :: l2 ++ u :: l3) ->
  place_of c (sym_of t) = place_of c (sym_of u) -> In (place_of c (sym_of t)) [PText; PData; PRodata; PBss] ->
  value_of c l1 t + item_len t <= value_of c (l1 ++ t :: l2) u.
Proof.
  intros (F & _) P IP. apply Forall_app in F. destruct F as [F1 F]. inversion F as [|? ? WT F']; subst. apply Forall_app in F'. destruct F' as [F2 F'].
  inversion F' as [|? ? WU F3]; subst. destruct (value_bound c l1 t _ F1 WT eq_refl) as [_ V].
  assert (place_len c (place_of c (sym_of t)) (l1 ++ [t]) <= place_len c (place_of c (sym_of t)) (l1 ++ t :: l2)) as PL.
  { change (t :: l2) with ([t] ++ l2). rewrite app_assoc. apply place_len_app. exact F2. }
  pose proof (align_up_ge (place_len c (place_of c (sym_of t)) (l1 ++ t :: l2)) (y_align (sym_of u)) ltac:(apply al_pos; auto)) as AG.
  unfold value_of at 2. rewrite <- P. destruct (place_of c (sym_of t)); cbn [In] in IP; try lia; exfalso; repeat destruct IP as [IP|IP]; try discriminate; exact IP.
Qed.
Print Assumptions C32_objects_disjoint.

Definition obj (c : ctx) (file : option (list Z)) (l : list item) : list Z :=
  match object_file c start file (ops_of l) with Ok (f, _) => f | _ => [] end.
Example C32_instance : exists s, object_file c0 start (Some (nm 120)) (ops_of prog) = Ok (obj c0 (Some (nm 120)) prog, s) /\
  let f := obj c0 (Some (nm 120)) prog in
  map (sec_size f) [4; 5; 6; 8] = [40; 3; 16; 24] /\ content f 6 = [1; 2; 3; 4; 5; 6; 7; 8] ++ repeat 0 8 /\ content f 5 = [104; 105; 0].
Proof.
  destruct (C32_written c0 (Some (nm 120)) prog prog_wf prog_small) as (f & s & E). exists s. unfold obj. rewrite E.
  split; [reflexivity|]. assert (f = obj c0 (Some (nm 120)) prog) as -> by (unfold obj; rewrite E; reflexivity). clear E. vm_compute. auto.
Qed.

(* The file offset of a section is not always a multiple of the alignment its header declares. *)
Theorem C32_align_refuted : exists c file l f s i, wf l /\ small c file l /\ object_file c start file (ops_of l) = Ok (f, s) /\
  1 <= i < 10 /\ sec_type f i <> SHT_NOBITS /\ sec_size f i <> 0 /\ sec_offset f i mod sec_align f i <> 0.
Proof.
  exists c0, (Some (nm 120)), prog. destruct (C32_written c0 (Some (nm 120)) prog prog_wf prog_small) as (f & s & E). exists f, s, 8.
  split; [exact prog_wf|]. split; [exact prog_small|]. split; [exact E|].
  assert (f = obj c0 (Some (nm 120)) prog) as -> by (unfold obj; rewrite E; reflexivity). clear E.
  split; [lia|]. split; [vm_compute; discriminate|]. split; vm_compute; discriminate.
Qed.
Print Assumptions C32_align_refuted.

(* C33.  Every item has a symbol of its own, with its name, binding, type, section, offset and size; every relocation is
   at its place and refers to the symbol it was recorded for. *)
Theorem C33_symbols c file l f s : wf l -> small c file l -> object_file c start file (ops_of l) = Ok (f, s) ->
  exists idx : nat -> Z,
  (forall i j, (i < length l)%nat -> (j < length l)%nat -> idx i = idx j -> i = j) /\
  sym_count f 3 = (match file with Some _ => 8 | None => 7 end) + zlen l + (if pic c then 1 else 0) /\
  (forall l1 t l2, l = l1 ++ t :: l2 -> let k := idx (length l1) in
     0 < k < sym_count f 3 /\ sym_name f 3 k = Some (y_name (sym_of t)) /\ sym_bind f 3 k = bind_of (sym_of t) /\
     sym_type f 3 k = type_of c (sym_of t) /\ sym_shndx f 3 k = shndx_of (place_of c (sym_of t)) /\
     sym_value f 3 k = value_of c l1 t /\ sym_size f 3 k = size_of_sym c t) /\
  sec_link f 3 = 2 /\ sec_link f 7 = 3 /\ sec_link f 9 = 3 /\ sec_info f 7 = 6 /\ sec_info f 9 = 8 /\
  sec_entsize f 3 = 24 /\ sec_entsize f 7 = 24 /\ sec_entsize f 9 = 24 /\
  (rel_count f 9 = zlen (text_relocs c [] l) /\ rel_count f 7 = zlen (data_relocs c [] l)) /\
  (forall j y t o ad, nth_error (text_relocs c [] l) j = Some (y, t, o, ad) ->
     rel_offset f 9 (Z.of_nat j) = o /\ rel_type f 9 (Z.of_nat j) = t /\ rel_addend f 9 (Z.of_nat j) = ad - rel_end t /\
     exists l1 x l2, l = l1 ++ x :: l2 /\ y_id (sym_of x) = y /\ rel_sym f 9 (Z.of_nat j) = idx (length l1)) /\
  (forall j y t o ad, nth_error (data_relocs c [] l) j = Some (y, t, o, ad) ->
     rel_offset f 7 (Z.of_nat j) = o /\ rel_type f 7 (Z.of_nat j) = t /\ rel_addend f 7 (Z.of_nat j) = ad - rel_end t /\
     exists l1 x l2, l = l1 ++ x :: l2 /\ y_id (sym_of x) = y /\ rel_sym f 7 (Z.of_nat j) = idx (length l1)).
Proof.
  intros W SM E. pose proof (reads _ _ _ _ _ W SM E) as FR. pose proof (secs_read_ok _ _ FR) as Q.
  exists (idx c file l). split; [intros i j; apply idx_inj; assumption|]. split; [apply count_ok; assumption|].
  split. { intros l1 t l2 ->. cbv zeta. rewrite idx_at. apply (it_symbol c file l1 t l2 W SM f FR). }
  destruct (q_links _ _ Q) as (Q1 & Q2 & Q3 & Q4 & Q5 & Q6 & Q7 & Q8). do 8 (split; [assumption|]).
  exact (rel_facts c file l f W SM FR).
Qed.
Print Assumptions C33_symbols.

(* Local symbols come first; the section info is where they end, as soon as there is one that is not local. *)
Theorem C33_boundary c file l f s : wf l -> small c file l -> object_file c start file (ops_of l) = Ok (f, s) ->
  (exists t, In t l /\ bind_of (sym_of t) = 1) \/ pic c = true ->
  forall k, 0 <= k < sym_count f 3 -> (k < sec_info f 3 -> sym_bind f 3 k = 0) /\ (sec_info f 3 <= k -> sym_bind f 3 k = 1).
Proof. intros W SM E. apply (boundary c file l f W SM (reads _ _ _ _ _ W SM E)). Qed.
Print Assumptions C33_boundary.
Example C33_instance : let f := obj c0 (Some (nm 120)) prog in
  map (sym_name f 3) [8; 9; 10; 11; 12; 13] = map Some [nm 100; nm 115; nm 98; nm 102; nm 101; nm 99] /\
  map (sym_value f 3) [8; 9; 10; 11; 12; 13] = [0; 0; 0; 0; 0; 8] /\ sec_info f 3 = 11 /\ sym_count f 3 = 14 /\
  rel_sym f 9 0 = 12 /\ rel_sym f 9 1 = 11 /\ rel_sym f 7 0 = 12 /\ rel_addend f 9 1 = -4 /\ rel_addend f 7 0 = 12.
Proof. vm_compute. repeat split. Qed.

(* With no global symbol the info is 0, though the first entries are local. *)
Definition locals : list item := [TData y_d [DBytes [1; 2; 3; 4; 5; 6; 7; 8]; DBytes [1; 2; 3; 4; 5; 6; 7; 8]]].
Lemma locals_wf : wf locals.
Proof.
  split; [|split].
  - unfold locals. apply Forall_cons; [|apply Forall_nil]. unfold item_wf, sym_wf, y_d; cbn [sym_of y_link y_kind y_align y_size y_raw y_name y_fun].
    wfs; unfold dat_wf, is_byte; wfs.
  - cbn. repeat apply NoDup_cons; try apply NoDup_nil; cbn [In]; lia.
  - cbn. intros y H. intuition.
Qed.
Lemma locals_small : small c0 None locals.
Proof.
  unfold small. assert (text_relocs c0 [] locals = []) as -> by (vm_compute; reflexivity).
  assert (data_relocs c0 [] locals = []) as -> by (vm_compute; reflexivity).
  repeat match goal with |- _ /\ _ => split end; try reflexivity; unfold locals, addend_ok, in_int; repeat apply Forall_cons; try apply Forall_nil; cbn; lia.
Qed.
Theorem C33_info_refuted : exists c file l f s k, wf l /\ small c file l /\ object_file c start file (ops_of l) = Ok (f, s) /\
  0 <= k < sym_count f 3 /\ sym_bind f 3 k = 0 /\ ~ k < sec_info f 3.
Proof.
  exists c0, None, locals. destruct (C32_written c0 None locals locals_wf locals_small) as (f & s & E). exists f, s, 7.
  split; [exact locals_wf|]. split; [exact locals_small|]. split; [exact E|].
  assert (f = obj c0 None locals) as -> by (unfold obj; rewrite E; reflexivity). clear E.
  split; [vm_compute; split; [discriminate|reflexivity]|]. split; [vm_compute; reflexivity|]. vm_compute. discriminate.
Qed.
Print Assumptions C33_info_refuted.

(* C34.  The displacement of a jump, added to the address of the byte after it, is the label's address plus the offset. *)
Lemma code_len_bound b e1 e2 : b = e1 ++ e2 -> code_len e1 <= code_len b.
Proof.
  intros ->. assert (code_len (e1 ++ e2) = code_len e1 + code_len e2) as -> by (unfold code_len; induction e1 as [|x e IH]; [reflexivity|cbn [app fold_right]; rewrite IH; lia]).
  pose proof (code_len_nonneg e2). lia. Qed.
Theorem C34_jumps c file l f s l1 y b l2 b1 p1 z d p2 b2 e1 e2 : wf l -> small c file l ->
  object_file c start file (ops_of l) = Ok (f, s) -> l = l1 ++ TFun y b :: l2 ->
  b = b1 ++ CInstr (p1 ++ PJump (y_id z) d :: p2) :: b2 -> is_nop (p1 ++ PJump (y_id z) d :: p2) = false ->
  b = e1 ++ CLabel z :: e2 ->
  let start_ := value_of c l1 (TFun y b) in
  let P := start_ + code_len b1 + plens p1 in
  let L := start_ + code_len e1 in
  (d = 0 \/ in_int (L + d - (P + 4))) -> P + 4 + signed 32 (num (content f 8) P 4) = L + d.
Proof.
  intros W SM E -> EB NP EL start_ P L R. pose proof (reads _ _ _ _ _ W SM E) as FR. pose proof (secs_read_ok _ _ FR) as Q.
  destruct (fin_ok c file (l1 ++ TFun y b :: l2)) as [_ _ _ _ _ _ F7 _ _].
  pose proof (it_wf l1 _ l2 W) as [W1 WT].
  assert (place_of c (sym_of (TFun y b)) = PText) as PT by (destruct WT as (_ & WF & WK & _); unfold place_of; cbn [sym_of]; rewrite WF, WK; reflexivity).
  destruct (it_text c file l1 _ l2 W SM PT) as (K & KL & T). cbn [body_of] in KL, T.
  specialize (KL z e1 e2 EL). destruct (T b1 _ b2 p1 _ p2 EB NP eq_refl) as (T1 & T2 & T3). cbv zeta in T1, T2, T3. fold start_ in T1, T2, T3, KL. fold P in T1, T2, T3. fold L in KL.
  cbn [plen fin_p] in T1, T3. rewrite app_nil_r in T1. unfold num. rewrite (q_txt _ _ Q), F7, T1, KL.
  assert (in_int (L + d - (P + 4))) as R'.
  { destruct R as [->|R]; [|exact R]. pose proof SM as (S1 & _).
    assert (zlen (a_txt (a_all c file (l1 ++ TFun y b :: l2))) = place_len c PText (l1 ++ TFun y b :: l2)) as EZ.
    { destruct (small_parts _ _ _ SM) as (_ & _ & _ & _ & S5 & _).
      destruct (all_inv c file _ (wf_pre _ W) ltac:(lia)) as (I & _). apply (i_txt _ _ _ I). }
    destruct (value_bound c l1 (TFun y b) PText W1 WT ltac:(rewrite PT; reflexivity)) as [V0 V1].
    assert (place_len c PText (l1 ++ [TFun y b]) <= place_len c PText (l1 ++ TFun y b :: l2)) as PL.
    { change (TFun y b :: l2) with ([TFun y b] ++ l2). rewrite app_assoc. apply place_len_app.
      destruct W as (F & _). apply Forall_app in F. destruct F as [_ F]. inversion F; assumption. }
    pose proof (code_len_bound b e1 _ EL). pose proof (code_len_nonneg e1). unfold in_int. cbn [item_len] in V1. subst start_. lia. }
  replace (L - P + d - 4) with (L + d - (P + 4)) by lia.
  rewrite le_val_bytes. change (256 ^ Z.of_nat 4) with (2 ^ 32). rewrite signed_mod; [lia|lia|exact R'].
Qed.
Print Assumptions C34_jumps.
(* forward over 11 bytes and back over 17 *)
Example C34_instance : let f := obj c0 (Some (nm 120)) prog in
  3 + 4 + signed 32 (num (content f 8) 3 4) = value_of c0 [TDecl y_d] (TFun y_f body_f) + code_len (firstn 6 body_f) /\
  14 + 4 + signed 32 (num (content f 8) 14 4) = 1.
Proof. vm_compute. auto. Qed.

(* The capacities of sections are remembered when their buffers are not: a second input file can stop the compiler. *)
Definition lit1 : list item := [TDecl (Symb 1 (nm 97) SLiteral LIntern false 1 1 [65])].
Definition lit2 : list item := [TDecl (Symb 2 (nm 98) SLiteral LIntern false 1 12 [65; 65; 65; 65; 65; 65; 65; 65; 65; 65; 65; 0])].
Lemma lit_wf y : sym_wf y -> y_kind y = SLiteral -> wf [TDecl y].
Proof.
  intros H K. split; [|split].
  - apply Forall_cons; [|apply Forall_nil]. split; [exact H|]. cbn [sym_of]. rewrite K. discriminate.
  - cbn. repeat apply NoDup_cons; [intros []|apply NoDup_nil].
  - cbn. intros ? [].
Qed.
Lemma lits_wf : wf lit1 /\ wf lit2.
Proof. split; (apply lit_wf; [|reflexivity]); unfold sym_wf, nm; cbn [y_link y_kind y_align y_size y_raw y_name]; wfs; unfold is_byte; wfs. Qed.
Lemma lits_small : small c0 None lit1 /\ small c0 None lit2.
Proof.
  split; unfold small.
  - assert (text_relocs c0 [] lit1 = []) as -> by (vm_compute; reflexivity). assert (data_relocs c0 [] lit1 = []) as -> by (vm_compute; reflexivity).
    repeat match goal with |- _ /\ _ => split end; try reflexivity; unfold lit1; repeat apply Forall_cons; try apply Forall_nil; cbn; lia.
  - assert (text_relocs c0 [] lit2 = []) as -> by (vm_compute; reflexivity). assert (data_relocs c0 [] lit2 = []) as -> by (vm_compute; reflexivity).
    repeat match goal with |- _ /\ _ => split end; try reflexivity; unfold lit2; repeat apply Forall_cons; try apply Forall_nil; cbn; lia.
Qed.
Definition state_of {A B} (d : B) (r : res (A * B)) : B := match r with Ok (_, s) => s | _ => d end.
Theorem C32_second_refuted : exists c file l1 l2 f s, wf l1 /\ wf l2 /\ small c file l1 /\ small c file l2 /\
  object_file c start file (ops_of l1) = Ok (f, s) /\ object_file c s file (ops_of l2) = Abort.
Proof.
  destruct lits_wf as [W1 W2]. destruct lits_small as [S1 S2].
  destruct (C32_written c0 None lit1 W1 S1) as (f & s & E). exists c0, None, lit1, lit2, f, s.
  do 4 (split; [assumption|]). split; [exact E|].
  assert (s = state_of start (object_file c0 start None (ops_of lit1))) as -> by (rewrite E; reflexivity). clear. vm_compute. reflexivity.
Qed.
Print Assumptions C32_second_refuted.
