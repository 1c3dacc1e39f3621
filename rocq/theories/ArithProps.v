(* C44: the code of an integer assignment stores the value C gives the expression. *)
From Coq Require Import List ZArith Lia Bool.
From Verif Require Import TypeModel TypeSpec EvalModel EvalSpec EvalProofs LayoutModel FieldModel FieldSpec ArithModel ArithSpec ArithMach ArithLoad ArithStore ArithProofs.
Import ListNotations.
Open Scope Z_scope.

(* t = l op r;  the types of l, r and the operation are the same.  Missing: the two cases refuted below. *)
Theorem C44_binary_partial : forall rbp glob sym pic st t op ty k l r a b v,
  Denotes ty k -> promoted k -> arithmetic op -> c_binary op k a b = Some v ->
  Valid rbp glob sym st l -> HasValue rbp glob sym st l k a -> Valid rbp glob sym st r -> HasValue rbp glob sym st r k b ->
  Fits rbp glob sym st t (size_of ty) ->
  (op = Add -> ~ (SameTemporary rbp glob sym st t l /\ v_kind r = IMMEDIATE) /\ ~ (SameTemporary rbp glob sym st t r /\ v_kind l = IMMEDIATE)) ->
  (op = Mul -> ~ (v_kind l = DIRECT /\ is_field l = true)) ->
  exists x c st', compile_assign sym pic t (EBin op ty l r) = Some (x, c) /\ exec rbp glob c st = Some st' /\ Done rbp glob sym st st' t x (size_of ty) v.
Proof. intros. eapply binary_all; eassumption. Qed.
Print Assumptions C44_binary_partial.

(* p + n, p - n and p - q: numbers of 64 bits, signed or not, and pointers *)
Theorem C44_address_partial : forall rbp glob sym pic st t (plus : bool) ty l r kl kr k a b,
  Denotes ty k -> size_of ty = 8 -> size_of (v_type l) = 8 -> size_of (v_type r) = 8 ->
  Valid rbp glob sym st l -> HasValue rbp glob sym st l kl a -> Valid rbp glob sym st r -> HasValue rbp glob sym st r kr b ->
  Fits rbp glob sym st t 8 ->
  (plus = true -> ~ (SameTemporary rbp glob sym st t l /\ v_kind r = IMMEDIATE) /\ ~ (SameTemporary rbp glob sym st t r /\ v_kind l = IMMEDIATE)) ->
  exists x c st', compile_assign sym pic t (EBin (if plus then Add else Sub) ty l r) = Some (x, c) /\ exec rbp glob c st = Some st' /\
    Done rbp glob sym st st' t x 8 (if plus then a + b else a - b).
Proof. intros. eapply address_all; try eassumption. rewrite <- (denotes_size ty k); assumption. Qed.
Print Assumptions C44_address_partial.

(* l << r and l >> r *)
Theorem C44_shift : forall rbp glob sym pic st t (left : bool) ty k l kr r a b v,
  Denotes ty k -> promoted k -> is_pointer (v_type l) = false -> c_shift left k a b = Some v ->
  Valid rbp glob sym st l -> HasValue rbp glob sym st l k a -> Valid rbp glob sym st r -> HasValue rbp glob sym st r kr b ->
  Fits rbp glob sym st t (size_of ty) ->
  exists x c st', compile_assign sym pic t (EBin (if left then Shl else Shr) ty l r) = Some (x, c) /\ exec rbp glob c st = Some st' /\
    Done rbp glob sym st st' t x (size_of ty) v.
Proof.
  intros rbp glob sym pic st t left ty k l kr r a b v D P Np E Vl Hl Vr Hr T. rewrite (denotes_size _ _ D) in *.
  pose proof (shift_ok rbp glob sym pic st t left k l a r kr b v P Np Vl Hl Vr Hr T E) as X. destruct left; exact X.
Qed.
Print Assumptions C44_shift.

(* ~l *)
Theorem C44_not : forall rbp glob sym pic st t ty k l a,
  Denotes ty k -> promoted k -> Valid rbp glob sym st l -> HasValue rbp glob sym st l k a -> Fits rbp glob sym st t (size_of ty) ->
  exists x c st', compile_assign sym pic t (ENot ty l) = Some (x, c) /\ exec rbp glob c st = Some st' /\ Done rbp glob sym st st' t x (size_of ty) (c_not k a).
Proof. intros rbp glob sym pic st t ty k l a D P V H T. rewrite (denotes_size _ _ D) in *. apply not_ok; assumption. Qed.
Print Assumptions C44_not.

(* t = (ty) l, and t = l.  Missing: the cases refuted below. *)
Theorem C44_cast_partial : forall rbp glob sym pic st t ty k1 k2 l a v,
  Denotes ty k2 -> Valid rbp glob sym st l -> HasValue rbp glob sym st l k1 a -> Converted k2 a v -> Fits rbp glob sym st t (size_of ty) ->
  (k2 = Bool_ -> k1 = Bool_) -> (v_kind l = ADDRESS -> size_of ty = 8) ->
  (forall t', t = Some t' -> is_field t' = true -> forall i, place_of rbp glob sym st l <> Some (InReg i)) ->
  exists x c st', compile_assign sym pic t (ECast ty l) = Some (x, c) /\ exec rbp glob c st = Some st' /\ Done rbp glob sym st st' t x (size_of ty) v.
Proof.
  intros rbp glob sym pic st t ty k1 k2 l a v D V H Cv T Bl Ad Ex. cbn [compile_assign]. rewrite (denotes_size _ _ D) in *. apply (cast_ok rbp glob sym pic st t ty k2 l k1 a v); try assumption.
  - rewrite (denotes_size _ _ D). exact Ad.
  - destruct t as [t|]; [|exact Logic.I]. intros Fd Ra. destruct (allocated_place rbp glob sym st l Ra) as (i & Pi). destruct (Ex t eq_refl Fd i Pi).
Qed.
Print Assumptions C44_cast_partial.

(* --- a frame: symbol 0 is a pointer in memory, 1 an int in memory, 2 and 3 are temporaries in registers, 4 is a global int --- *)
Definition int_ : Type_ := basic_type__int.
Definition ptr_ : Type_ := mkType T_INT false false false false true false false false 0.
Definition ex_sym (s : nat) : symbol :=
  match s with
  | 0%nat => mkSym LINK_NONE false 0 (-8) ptr_
  | 1%nat => mkSym LINK_NONE false 0 (-16) int_
  | 2%nat => mkSym LINK_NONE true 1 0 int_
  | 3%nat => mkSym LINK_NONE true 2 0 ptr_
  | _ => mkSym LINK_EXTERN false 0 0 int_
  end.
Definition ex_glob (s : nat) : Z := 16384 + 16 * Z.of_nat s.
(* the pointer is 8192, the int is n, the global int is 21; the unit of the bit-field below is 0xABCDEF01 *)
Definition ex_mem (n : Z) : Z -> Z := wr (wr (wr (wr (fun _ => 0) 4088 8 8192) 4080 4 (n mod 2 ^ 32)) 8196 4 2882400001) 16448 4 21.
Definition ex_st (n : Z) : mach := mkM (fun r => match r with AX => 100 | Tmp 0 => 5 | Tmp 1 => 8192 | _ => 77 end) (ex_mem n).
Definition var_of (s : nat) (t : Type_) : var := mkVar DIRECT 0 0 true t 0 s 0.
Definition imm_of (z : Z) : var := mkVar IMMEDIATE 0 0 false int_ 0 0 z.
(* symbol 0 -> field, of 5 bits *)
Definition field_of : var := mkVar DEREF 5 3 true int_ 4 0 0.

Ltac hyp := first
  [ exact Logic.I | reflexivity | discriminate | lia
  | (vm_compute; reflexivity)
  | (vm_compute; intuition discriminate) ].
Lemma int_denotes : Denotes int_ Int. Proof. left. vm_compute. auto. Qed.
Lemma int_promoted : promoted Int. Proof. left. reflexivity. Qed.
Lemma ex_direct s n z : v_kind (var_of s int_) = DIRECT -> in_range Int z -> (exists p, place_of 4096 ex_glob ex_sym (ex_st n) (var_of s int_) = Some p /\ contents (ex_st n) p 4 = z mod 2 ^ 32) -> HasValue 4096 ex_glob ex_sym (ex_st n) (var_of s int_) Int z.
Proof. intros _ R (p & P & C). split; [exact int_denotes|]. split; [exact R|]. cbn [v_kind var_of]. exists p. split; [exact P|]. exact C. Qed.
Lemma ex_imm n z : in_range Int z -> sext 64 z = z -> HasValue 4096 ex_glob ex_sym (ex_st n) (imm_of z) Int z.
Proof. intros R E. split; [exact int_denotes|]. split; [exact R|]. cbn. symmetry. exact E. Qed.
Lemma ex_valid s n t : (s = 1 \/ s = 4)%nat -> Valid 4096 ex_glob ex_sym (ex_st n) (var_of s t).
Proof. intros [-> | ->]; (split; [cbn; lia|]; split; [discriminate|]); cbn; (split; [reflexivity|]); lia. Qed.
Lemma ex_valid_temp n t : Valid 4096 ex_glob ex_sym (ex_st n) (var_of 2 t).
Proof. split; [cbn; lia|]. split; [discriminate|]. cbn. auto. Qed.
Lemma ex_valid_imm n z : Valid 4096 ex_glob ex_sym (ex_st n) (imm_of z).
Proof. split; [cbn; lia|]. split; [discriminate|]. cbn. auto. Qed.
Lemma ex_field n : Fits 4096 ex_glob ex_sym (ex_st n) (Some field_of) (size_of int_).
Proof.
  split; [|reflexivity]. split; [right; reflexivity|]. split; [exists Int; exact int_denotes|]. left. split; [cbn; lia|]. split; [intros _; vm_compute; intuition discriminate|].
  split; [reflexivity|]. split; [reflexivity|]. split; [cbn; lia|]. vm_compute. reflexivity.
Qed.

Lemma runs rbp glob (e : option (reg * code)) st (P : reg -> mach -> bool) :
  (match e with Some (x, c) => match exec rbp glob c st with Some st' => P x st' | None => false end | None => false end) = true ->
  exists x c st', e = Some (x, c) /\ exec rbp glob c st = Some st' /\ P x st' = true.
Proof. destruct e as [[x c]|]; [|discriminate]. destruct (exec rbp glob c st) as [st'|] eqn:E; [|discriminate]. eauto 10. Qed.

(* p->field = n - g, where n is -7 and g a global variable, in code for a shared object: the field becomes -28 modulo 2^5 *)
Example C44_instance :
  (Denotes int_ Int /\ promoted Int /\ arithmetic Sub /\ c_binary Sub Int (-7) 21 = Some (-28) /\
   Valid 4096 ex_glob ex_sym (ex_st (-7)) (var_of 1 int_) /\ HasValue 4096 ex_glob ex_sym (ex_st (-7)) (var_of 1 int_) Int (-7) /\
   Valid 4096 ex_glob ex_sym (ex_st (-7)) (var_of 4 int_) /\ HasValue 4096 ex_glob ex_sym (ex_st (-7)) (var_of 4 int_) Int 21 /\
   Fits 4096 ex_glob ex_sym (ex_st (-7)) (Some field_of) (size_of int_)) /\
  exists x c st', compile_assign ex_sym true (Some field_of) (EBin Sub int_ (var_of 1 int_) (var_of 4 int_)) = Some (x, c) /\ exec 4096 ex_glob c (ex_st (-7)) = Some st' /\
    (rd (mem st') 8196 4 =? 2882400033) = true.
Proof.
  split.
  - split; [exact int_denotes|]. split; [exact int_promoted|]. split; [exact Logic.I|]. split; [reflexivity|]. split; [apply ex_valid; auto|]. split.
    { apply ex_direct; [reflexivity|vm_compute; intuition discriminate|]. eexists. split; [reflexivity|]. vm_compute. reflexivity. }
    split; [apply ex_valid; auto|]. split; [|apply ex_field].
    apply ex_direct; [reflexivity|vm_compute; intuition discriminate|]. eexists. split; [reflexivity|]. vm_compute. reflexivity.
  - apply (runs 4096 ex_glob _ (ex_st (-7)) (fun x st' => rd (mem st') 8196 4 =? 2882400033)). vm_compute. reflexivity.
Qed.

(* A temporary t in a register:  t = t + 3  adds the register AX, which nothing has loaded, in place of 3. *)
Theorem C44_add_refuted : exists rbp glob sym pic st t l r a b v,
  Denotes int_ Int /\ c_binary Add Int a b = Some v /\
  Valid rbp glob sym st l /\ HasValue rbp glob sym st l Int a /\ Valid rbp glob sym st r /\ HasValue rbp glob sym st r Int b /\ Fits rbp glob sym st (Some t) (size_of int_) /\
  exists x c st', compile_assign sym pic (Some t) (EBin Add int_ l r) = Some (x, c) /\ exec rbp glob c st = Some st' /\ ~ Done rbp glob sym st st' (Some t) x (size_of int_) v.
Proof.
  exists 4096, ex_glob, ex_sym, false, (ex_st 0), (var_of 2 int_), (var_of 2 int_), (imm_of 3), 5, 3, 8.
  split; [exact int_denotes|]. split; [reflexivity|]. split; [apply ex_valid_temp|]. split.
  { apply ex_direct; [reflexivity|vm_compute; intuition discriminate|]. exists (InReg 0). split; reflexivity. }
  split; [apply ex_valid_imm|]. split; [apply ex_imm; [vm_compute; intuition discriminate|reflexivity]|].
  split. { split; [|reflexivity]. split; [left; reflexivity|]. split; [exists Int; exact int_denotes|]. left. apply ex_valid_temp. }
  destruct (runs 4096 ex_glob (compile_assign ex_sym false (Some (var_of 2 int_)) (EBin Add int_ (var_of 2 int_) (imm_of 3))) (ex_st 0) (fun x st' => regs st' (Tmp 0) mod 2 ^ (8 * 4) =? 105)) as (x & c & st' & E1 & E2 & E3); [vm_compute; reflexivity|].
  exists x, c, st'. split; [exact E1|]. split; [exact E2|]. intros (A & _). apply Z.eqb_eq in E3. change (regs st' (Tmp 0) mod 2 ^ (8 * 4) = 8 mod 2 ^ (8 * 4)) in A. rewrite E3 in A. vm_compute in A. discriminate.
Qed.
Print Assumptions C44_add_refuted.

(* A bit-field that is the left operand of  *  and part of a variable: the whole unit is multiplied. *)
Theorem C44_mul_field_refuted : exists rbp glob sym pic st l r a b v,
  Denotes int_ Int /\ c_binary Mul Int a b = Some v /\
  Valid rbp glob sym st l /\ HasValue rbp glob sym st l Int a /\ Valid rbp glob sym st r /\ HasValue rbp glob sym st r Int b /\
  exists x c st', compile_assign sym pic None (EBin Mul int_ l r) = Some (x, c) /\ exec rbp glob c st = Some st' /\ ~ Done rbp glob sym st st' None x (size_of int_) v.
Proof.
  set (l := mkVar DIRECT 3 1 true int_ 0 1 0).
  exists 4096, ex_glob, ex_sym, false, (ex_st (-7)), l, (imm_of 3), (-4), 3, (-12).
  split; [exact int_denotes|]. split; [reflexivity|]. split. { split; [cbn; lia|]. split; [intros _; vm_compute; intuition discriminate|]. cbn. split; [reflexivity|]. lia. }
  split. { split; [exact int_denotes|]. split; [vm_compute; intuition discriminate|]. cbn [v_kind l]. exists (InMem 4080). split; [reflexivity|]. vm_compute. reflexivity. }
  split; [apply ex_valid_imm|]. split; [apply ex_imm; [vm_compute; intuition discriminate|reflexivity]|].
  destruct (runs 4096 ex_glob (compile_assign ex_sym false None (EBin Mul int_ l (imm_of 3))) (ex_st (-7)) (fun x st' => regs st' x mod 2 ^ (8 * 4) =? 2 ^ 32 - 21)) as (x & c & st' & E1 & E2 & E3); [vm_compute; reflexivity|].
  exists x, c, st'. split; [exact E1|]. split; [exact E2|]. intros (A & _). apply Z.eqb_eq in E3. change (regs st' x mod 2 ^ (8 * 4) = -12 mod 2 ^ (8 * 4)) in A. rewrite E3 in A. vm_compute in A. discriminate.
Qed.
Print Assumptions C44_mul_field_refuted.

(* b = (_Bool) n, where n is 256: b becomes 0; C says 1. *)
Theorem C44_bool_refuted : exists rbp glob sym pic st t l a v,
  Denotes basic_type__bool Bool_ /\ Converted Bool_ a v /\
  Valid rbp glob sym st l /\ HasValue rbp glob sym st l Int a /\ Fits rbp glob sym st (Some t) (size_of basic_type__bool) /\
  exists x c st', compile_assign sym pic (Some t) (ECast basic_type__bool l) = Some (x, c) /\ exec rbp glob c st = Some st' /\ ~ Done rbp glob sym st st' (Some t) x (size_of basic_type__bool) v.
Proof.
  set (t := var_of 4 basic_type__bool). assert (D : Denotes basic_type__bool Bool_) by (left; split; reflexivity).
  exists 4096, ex_glob, ex_sym, false, (ex_st 256), t, (var_of 1 int_), 256, 1.
  split; [exact D|]. split; [right; split; [discriminate|reflexivity]|]. split; [apply ex_valid; auto|]. split.
  { apply ex_direct; [reflexivity|vm_compute; intuition discriminate|]. exists (InMem 4080). split; reflexivity. }
  split. { split; [|reflexivity]. split; [left; reflexivity|]. split; [exists Bool_; exact D|]. left. apply ex_valid. auto. }
  destruct (runs 4096 ex_glob (compile_assign ex_sym false (Some t) (ECast basic_type__bool (var_of 1 int_))) (ex_st 256) (fun x st' => rd (mem st') 16448 1 =? 0)) as (x & c & st' & E1 & E2 & E3); [vm_compute; reflexivity|].
  exists x, c, st'. split; [exact E1|]. split; [exact E2|]. intros (A & _). apply Z.eqb_eq in E3. change (rd (mem st') 16448 1 = 1 mod 2 ^ 8) in A. rewrite E3 in A. vm_compute in A. discriminate.
Qed.
Print Assumptions C44_bool_refuted.

(* p->field = t, where t is a temporary in a register: the register is shifted and masked, and t lost. *)
Theorem C44_field_temporary_refuted : exists rbp glob sym pic st t l a,
  Denotes int_ Int /\ Converted Int a a /\ Valid rbp glob sym st l /\ HasValue rbp glob sym st l Int a /\ Fits rbp glob sym st (Some t) (size_of int_) /\
  exists x c st', compile_assign sym pic (Some t) (ECast int_ l) = Some (x, c) /\ exec rbp glob c st = Some st' /\ ~ Done rbp glob sym st st' (Some t) x (size_of int_) a.
Proof.
  exists 4096, ex_glob, ex_sym, false, (ex_st 0), field_of, (var_of 2 int_), 5.
  split; [exact int_denotes|]. split; [split; [vm_compute; intuition discriminate|exists 0; reflexivity]|]. split; [apply ex_valid_temp|]. split.
  { apply ex_direct; [reflexivity|vm_compute; intuition discriminate|]. exists (InReg 0). split; reflexivity. }
  split; [apply ex_field|].
  destruct (runs 4096 ex_glob (compile_assign ex_sym false (Some field_of) (ECast int_ (var_of 2 int_))) (ex_st 0) (fun x st' => negb (regs st' (Tmp 0) =? 5))) as (x & c & st' & E1 & E2 & E3); [vm_compute; reflexivity|].
  exists x, c, st'. split; [exact E1|]. split; [exact E2|]. intros (_ & _ & A). specialize (A 0%nat ltac:(discriminate)). rewrite A in E3. vm_compute in E3. discriminate.
Qed.
Print Assumptions C44_field_temporary_refuted.

(* *(int * ) 4080: reading through a pointer that is a constant makes the compiler take the constant for a symbol. *)
Theorem C44_constant_pointer_refuted : exists rbp glob sym pic st l r a b v,
  Denotes int_ Int /\ c_binary Add Int a b = Some v /\ v_kind l = DEREF /\ v_is_symbol l = false /\
  HasValue rbp glob sym st l Int a /\ Valid rbp glob sym st r /\ HasValue rbp glob sym st r Int b /\ compile_assign sym pic None (EBin Add int_ l r) = None.
Proof.
  exists 4096, ex_glob, ex_sym, false, (ex_st (-7)), (mkVar DEREF 0 0 false int_ 0 0 4080), (imm_of 3), (-7), 3, (-4).
  split; [exact int_denotes|]. do 3 (split; [reflexivity|]). split.
  { split; [exact int_denotes|]. split; [vm_compute; intuition discriminate|]. cbn [v_kind]. exists (InMem 4080). split; [reflexivity|]. vm_compute. reflexivity. }
  split; [apply ex_valid_imm|]. split; [apply ex_imm; [vm_compute; intuition discriminate|reflexivity]|]. vm_compute. reflexivity.
Qed.
Print Assumptions C44_constant_pointer_refuted.

(* (int) &n: an assertion of the compiler fails. *)
Theorem C44_address_cast_refuted : exists rbp glob sym pic st l a v,
  Denotes int_ Int /\ v_kind l = ADDRESS /\ Valid rbp glob sym st l /\ HasValue rbp glob sym st l ULong a /\ Converted Int a v /\ compile_assign sym pic None (ECast int_ l) = None.
Proof.
  exists 4096, ex_glob, ex_sym, false, (ex_st 0), (mkVar ADDRESS 0 0 true ptr_ 0 1 0), 4080, 4080.
  split; [exact int_denotes|]. split; [reflexivity|]. split. { split; [cbn; lia|]. split; [discriminate|]. cbn. auto. }
  split. { split; [right; split; reflexivity|]. split; [vm_compute; intuition discriminate|]. cbn [v_kind]. vm_compute. reflexivity. }
  split; [split; [vm_compute; intuition discriminate|exists 0; reflexivity]|]. vm_compute. reflexivity.
Qed.
Print Assumptions C44_address_cast_refuted.

(* n >> 1 and ~n, where n is -7 *)
Example C44_shift_instance :
  (c_shift false Int (-7) 1 = Some (-4) /\ is_pointer int_ = false /\ HasValue 4096 ex_glob ex_sym (ex_st (-7)) (var_of 1 int_) Int (-7) /\ HasValue 4096 ex_glob ex_sym (ex_st (-7)) (imm_of 1) Int 1) /\
  (exists x c st', compile_assign ex_sym false None (EBin Shr int_ (var_of 1 int_) (imm_of 1)) = Some (x, c) /\ exec 4096 ex_glob c (ex_st (-7)) = Some st' /\ (regs st' x =? 2 ^ 32 - 4) = true) /\
  (exists x c st', compile_assign ex_sym false None (ENot int_ (var_of 1 int_)) = Some (x, c) /\ exec 4096 ex_glob c (ex_st (-7)) = Some st' /\ (regs st' x =? 6) = true).
Proof.
  split; [|split].
  - do 2 (split; [reflexivity|]). split; [|apply ex_imm; [vm_compute; intuition discriminate|reflexivity]]. apply ex_direct; [reflexivity|vm_compute; intuition discriminate|]. exists (InMem 4080). split; reflexivity.
  - apply (runs 4096 ex_glob _ (ex_st (-7)) (fun x st' => regs st' x =? 2 ^ 32 - 4)). vm_compute. reflexivity.
  - apply (runs 4096 ex_glob _ (ex_st (-7)) (fun x st' => regs st' x =? 6)). vm_compute. reflexivity.
Qed.

(* the temporary pointer 3, less 8, to the pointer 0; the int n, 300, to an unsigned char *)
Example C44_address_instance :
  (HasValue 4096 ex_glob ex_sym (ex_st 300) (var_of 3 ptr_) ULong 8192 /\ Fits 4096 ex_glob ex_sym (ex_st 300) (Some (var_of 0 ptr_)) 8) /\
  (exists x c st', compile_assign ex_sym false (Some (var_of 0 ptr_)) (EBin Sub ptr_ (var_of 3 ptr_) (mkVar IMMEDIATE 0 0 false basic_type__long 0 0 8)) = Some (x, c) /\ exec 4096 ex_glob c (ex_st 300) = Some st' /\ (rd (mem st') 4088 8 =? 8184) = true) /\
  Converted UChar 300 44 /\
  (exists x c st', compile_assign ex_sym false (Some (var_of 4 basic_type__unsigned_char)) (ECast basic_type__unsigned_char (var_of 1 int_)) = Some (x, c) /\ exec 4096 ex_glob c (ex_st 300) = Some st' /\ (rd (mem st') 16448 1 =? 44) = true).
Proof.
  split; [|split; [|split]].
  - split. { split; [right; split; reflexivity|]. split; [vm_compute; intuition discriminate|]. exists (InReg 1). split; reflexivity. }
    split; [|reflexivity]. split; [left; reflexivity|]. split; [exists ULong; right; split; reflexivity|]. left. split; [cbn; lia|]. split; [discriminate|]. cbn. split; [reflexivity|]. lia.
  - apply (runs 4096 ex_glob _ (ex_st 300) (fun x st' => rd (mem st') 4088 8 =? 8184)). vm_compute. reflexivity.
  - split; [vm_compute; intuition discriminate|exists (-1); reflexivity].
  - apply (runs 4096 ex_glob _ (ex_st 300) (fun x st' => rd (mem st') 16448 1 =? 44)). vm_compute. reflexivity.
Qed.
