(* C13, C14: layout of structs and unions. *)
From Coq Require Import List ZArith Lia Bool.
From Verif Require Import TypeModel LayoutModel LayoutSpec LayoutProofs LayoutProofs2 LayoutProofs3.
Import ListNotations.
Open Scope Z_scope.

(* C13: members of a struct come in order, each at the first multiple of its alignment after the
   previous one; the size is the least multiple of the alignment covering all. *)
Theorem C13_struct : forall ms, complete (CStruct ms) ->
  exists t os e, elab (CStruct ms) = Done t /\
    map m_name (members_of t) = map fst ms /\ map m_offset (members_of t) = os /\ Placed 0 ms os e /\
    LeastMultiple (calign (CStruct ms)) e (lsize t) /\ lalign t = calign (CStruct ms) /\
    Forall2 (fun m x => elab (snd x) = Done (m_type m) /\ lsize (m_type m) = csize (snd x) /\ lalign (m_type m) = calign (snd x) /\
      m_width m = 0) (members_of t) ms.
Proof.
  intros ms H. destruct (elab_ok _ H) as (t & E & (G1 & G2 & G3 & _) & L & _). destruct (L ms eq_refl) as (l & EL & LN & LO & LF).
  exists t, (offs 0 ms), (end_of 0 ms). rewrite EL. split; [exact E|]. split; [exact LN|]. split; [exact LO|].
  split; [|split; [|split; [exact G2|]]].
  - apply placed_offs. rewrite Forall_forall. intros x Hx. destruct (Forall2_right _ _ _ LF x Hx) as (m & _ & (_ & _ & P & _) & _). unfold pow2 in P. lia.
  - rewrite G1. apply roundup_least. unfold pow2 in G3. lia.
  - clear - LF. induction LF as [|m x l ms (A & (B & C & _) & D & _) HF IH]; constructor; auto.
Qed.

(* In particular no two members overlap and all lie inside. *)
Theorem C13_no_overlap : forall ms t, complete (CStruct ms) -> elab (CStruct ms) = Done t ->
  ForallOrdPairs (fun a b => m_offset a + lsize (m_type a) <= m_offset b) (members_of t) /\
  Forall (fun m => 0 <= m_offset m /\ m_offset m + lsize (m_type m) <= lsize t) (members_of t).
Proof.
  intros ms t H E. destruct (C13_struct ms H) as (t' & os & e & E' & HN & HO & HP & HL & _ & HF). rewrite E in E'. injection E' as <-.
  assert (HC : Forall (fun x => 0 <= csize (snd x)) ms).
  { destruct (elab_ok _ H) as (t0 & E0 & G0 & L & L2). destruct (L ms eq_refl) as (l0 & E1 & E2 & E3 & LF). rewrite Forall_forall. intros x Hx.
    destruct (Forall2_right _ _ _ LF x Hx) as (m & _ & (_ & _ & _ & _ & S & _) & _). lia. }
  destruct (Placed_ordered _ _ _ _ HP HC) as (_ & HB & HD). destruct HL as (_ & HL & _). subst os. split.
  - clear - HF HD. revert HD. induction HF as [|m x l ms (_ & S & _) HF IH]; cbn; intro HD; [constructor|]. inversion HD as [|? ? HA HD']; subst.
    constructor; [|auto]. clear - HA HF S. cbn in HA. revert HA. induction HF as [|m' x' l ms _ HF IH]; cbn; intro HA; constructor; inversion HA; subst; cbn in *; [lia|auto].
  - clear - HF HB HL. revert HB. induction HF as [|m x l ms (_ & S & _) HF IH]; cbn; intro HB; [constructor|]. inversion HB; subst. constructor; [lia|auto].
Qed.

(* C13: in a union every member is at offset 0 and the size is the least multiple of the alignment
   covering the largest. *)
Theorem C13_union : forall ms, complete (CUnion ms) ->
  exists t e, elab (CUnion ms) = Done t /\ map m_name (members_of t) = map fst ms /\
    Forall2 (fun m x => elab (snd x) = Done (m_type m) /\ lsize (m_type m) = csize (snd x) /\ m_offset m = 0 /\ m_width m = 0) (members_of t) ms /\
    (forall x, In x ms -> csize (snd x) <= e) /\ (exists x, In x ms /\ csize (snd x) = e) /\
    LeastMultiple (calign (CUnion ms)) e (lsize t) /\ lalign t = calign (CUnion ms).
Proof.
  intros ms H. destruct (elab_ok _ H) as (t & E & (G1 & G2 & G3 & _) & _ & L). destruct (L ms eq_refl) as (l & EL & LN & LO & LF).
  exists t, (fold_right Z.max 0 (map (fun m => csize (snd m)) ms)). rewrite EL. split; [exact E|]. split; [exact LN|]. split; [|split; [|split; [|split; [|exact G2]]]].
  - clear - LF LO. induction LF as [|m x l ms (A & (B & _) & D & _) HF IH]; constructor; inversion LO; subst; auto.
  - intros x Hx. apply max_least, (in_map (fun m => csize (snd m))), Hx.
  - destruct H as (HN & _). assert (P : Forall (fun x => 0 < csize (snd x)) ms).
    { rewrite Forall_forall. intros x Hx. destruct (Forall2_right _ _ _ LF x Hx) as (m & _ & (_ & _ & _ & _ & S & _) & _). lia. }
    clear - P HN. induction P as [|x ms P0 HF IH]; [congruence|]. cbn. destruct ms as [|y ms]; [exists x; cbn; split; [auto|lia]|].
    destruct (IH ltac:(discriminate)) as (z & Hz & Ez). destruct (Z.max_spec (csize (snd x)) (fold_right Z.max 0 (map (fun m => csize (snd m)) (y :: ms)))) as [[_ ->]|[_ ->]].
    + exists z. split; [right; exact Hz|exact Ez].
    + exists x. split; [left; reflexivity|reflexivity].
  - rewrite G1. apply roundup_least. unfold pow2 in G3. lia.
Qed.

(* union { char a[5]; short b; int c; } *)
Example C13_union_instance : exists t, elab (CUnion [(1, CArray 5 (CScalar T_CHAR)); (2, CScalar T_SHORT); (3, CScalar T_INT)]) = Done t /\
  map m_offset (members_of t) = [0; 0; 0] /\ lsize t = 8.
Proof. eexists. split; [vm_compute; reflexivity|split; reflexivity]. Qed.

(* C13: the size of an array is the product, so element i starts at i times the element size *)
Theorem C13_array : forall n c, complete (CArray n c) ->
  exists t e, elab (CArray n c) = Done t /\ elab c = Done e /\ lsize t = n * lsize e /\ lalign t = lalign e /\ (lalign e | lsize e).
Proof.
  intros n c H. pose proof H as (_ & HC & _). destruct (elab_ok _ H) as (t & E & (G1 & G2 & _) & _). destruct (elab_ok _ HC) as (e & E' & (K1 & K2 & _ & K4 & _) & _).
  exists t, e. rewrite G1, G2, K1, K2. cbn [csize calign]. auto.
Qed.

(* struct { char a; struct { short x; long double y; } b[3]; union { int p; char q[5]; } c; char d; } *)
Definition ex13 : ctype := CStruct [(1, CScalar T_CHAR);
  (2, CArray 3 (CStruct [(1, CScalar T_SHORT); (2, CScalar T_LDOUBLE)]));
  (3, CUnion [(1, CScalar T_INT); (2, CArray 5 (CScalar T_CHAR))]); (4, CScalar T_CHAR)].
Example C13_instance : complete ex13 /\ exists t, elab ex13 = Done t /\ map m_offset (members_of t) = [0; 16; 112; 120] /\ lsize t = 128 /\ lalign t = 16.
Proof.
  split; [|eexists; split; [vm_compute; reflexivity|split; [reflexivity|split; reflexivity]]].
  unfold ex13. cbn [complete fold_right map snd fst].
  repeat match goal with
  | |- _ /\ _ => split
  | |- NoDup [] => apply NoDup_nil
  | |- NoDup _ => apply NoDup_cons
  | |- ~ In _ _ => cbn [In]; intuition discriminate
  | |- True => exact I
  | |- _ <> _ => discriminate
  | |- _ < _ => reflexivity
  | |- _ <= _ => vm_compute; discriminate
  end.
Qed.

(* Outside the size bound of `complete`: the size is computed modulo 2^64. *)
Theorem C13_array_overflow_refuted : exists n, 2 ^ 63 <= n * 4 /\ exists t, elab (CArray n (CScalar T_INT)) = Done t /\ lsize t = 4.
Proof. exists 4611686018427387905. split; [lia|]. eexists. split; [vm_compute; reflexivity|reflexivity]. Qed.

(* C11 anonymous structs: struct { char a; struct { char b; int c; }; } must be laid out as with a named
   inner struct (b at 4, c at 8); here b is at 1 and c at 4. *)
Theorem C13_anonymous_struct_refuted : exists inner t,
  struct_or_union false [DMember 2 (LScalar T_CHAR); DMember 3 (LScalar T_INT)] = Done inner /\
  struct_or_union false [DMember 1 (LScalar T_CHAR); DAnonymous inner] = Done t /\
  lalign inner = 4 /\ map (fun m => (m_name m, m_offset m)) (members_of t) = [(1, 0); (2, 1); (3, 4)] /\ lsize t = 8.
Proof. eexists _, _. split; [vm_compute; reflexivity|]. split; [vm_compute; reflexivity|]. split; [reflexivity|]. split; reflexivity. Qed.

(* C14: a struct specifier is accepted exactly if its member list is valid; then it has the declared
   named members in order, each inside the object, a field inside its storage unit, an ordinary member
   aligned, and each ending before the next begins. *)
Theorem C14_fields : forall ds, Forall decl_ok ds -> room ds <= 2 ^ 63 - 128 ->
  (~ ValidDecls ds /\ struct_or_union false ds = Rejected) \/
  (ValidDecls ds /\ exists t, struct_or_union false ds = Done t /\ map sig (members_of t) = map declared (named ds) /\
     Forall (member_fits t) (members_of t) /\
     ForallOrdPairs (fun a b => first_bit a + bit_count a <= first_bit b) (members_of t) /\
     (forall d, In d (named ds) -> (lalign (type_of_decl d) | lsize t)) /\ 0 < lsize t <= room ds + 16).
Proof. intros ds H HB. apply struct_decls_ok; [exact H|]. change (2 ^ 63 - 128) with 9223372036854775680 in HB. unfold LIM. lia. Qed.

Theorem C14_union_fields : forall ds, Forall decl_ok ds -> room ds <= 2 ^ 63 - 128 ->
  (~ ValidDecls ds /\ struct_or_union true ds = Rejected) \/
  (ValidDecls ds /\ exists t, struct_or_union true ds = Done t /\ map sig (members_of t) = map declared (named ds) /\
     Forall (fun m => m_offset m = 0 /\ m_foff m = 0 /\ m_width m <= m_back m /\ m_back m <= 8 * lsize (m_type m)) (members_of t) /\
     exists a, LeastMultiple a (fold_right Z.max 0 (map (fun d => lsize (type_of_decl d)) (named ds))) (lsize t) /\
       a = fold_right Z.max 0 (map (fun d => lalign (type_of_decl d)) (named ds)) /\ lalign t = a).
Proof. intros ds H HB. apply union_decls_ok; [exact H|]. change (2 ^ 63 - 128) with 9223372036854775680 in HB. unfold LIM. lia. Qed.

(* struct { char a; int b:5; int :3; int c:30; short :0; short d; _Bool e:1; long f:40; } *)
Definition ex14 : list decl := [DMember 1 (LScalar T_CHAR); DField 2 T_INT 5; DField 0 T_INT 3; DField 3 T_INT 30; DField 0 T_SHORT 0;
  DMember 4 (LScalar T_SHORT); DField 5 T_BOOL 1; DField 6 T_LONG 40].
Example C14_instance : Forall decl_ok ex14 /\ room ex14 <= 2 ^ 63 - 128 /\ ValidDecls ex14 /\
  exists t, struct_or_union false ex14 = Done t /\ List.length (members_of t) = 6%nat.
Proof.
  split; [|split; [vm_compute; discriminate|split; [|eexists; split; [vm_compute; reflexivity|reflexivity]]]].
  - assert (S : forall n k, n <> 0 -> 0 < scalar_size k -> decl_ok (DMember n (LScalar k))) by (intros n k N K; split; [exact N|]; exists (CScalar k); split; [exact K|reflexivity]).
    unfold ex14. repeat (apply Forall_cons; [first [apply S; cbn; lia|cbn; unfold int_kind; split; [auto 6|lia]]|]). apply Forall_nil.
  - unfold ValidDecls, ex14. split; [repeat constructor; cbn; try lia; discriminate|]. split; [|discriminate]. cbn. repeat constructor; cbn; intuition discriminate.
Qed.

(* union { char a[3]; int b:9; _Bool c:1; } *)
Example C14_union_instance : exists ty t, elab (CArray 3 (CScalar T_CHAR)) = Done ty /\
  struct_or_union true [DMember 1 ty; DField 2 T_INT 9; DField 3 T_BOOL 1] = Done t /\ lsize t = 4 /\ map m_width (members_of t) = [0; 9; 1].
Proof. eexists _, _. split; [vm_compute; reflexivity|]. split; [vm_compute; reflexivity|]. split; reflexivity. Qed.

(* What fails.  A zero-width field must move the next field to a unit of its type:
   struct { char a:3; int :0; int b:5; } puts b into the same unit as a, at bit 8. *)
Theorem C14_zero_width_refuted : exists ds t, ds = [DField 1 T_CHAR 3; DField 0 T_INT 0; DField 2 T_INT 5] /\
  Forall decl_ok ds /\ ValidDecls ds /\ struct_or_union false ds = Done t /\
  exists b, nth_error (members_of t) 1 = Some b /\ m_name b = 2 /\ first_bit b = 8 /\ first_bit b mod 32 <> 0.
Proof.
  eexists _, _. split; [reflexivity|]. split; [repeat constructor; cbn; unfold int_kind; auto; lia|]. split.
  - unfold ValidDecls. split; [repeat constructor; cbn; try lia; discriminate|]. split; [|discriminate]. cbn. repeat constructor; cbn; intuition discriminate.
  - split; [vm_compute; reflexivity|]. eexists. split; [reflexivity|]. vm_compute. repeat split. discriminate.
Qed.

(* struct { char c; char a:4; int b:28; }: b crosses a boundary of its type (System V ABI 3.1.2). *)
Theorem C14_straddle_refuted : exists ds t, ds = [DMember 1 (LScalar T_CHAR); DField 2 T_CHAR 4; DField 3 T_INT 28] /\
  Forall decl_ok ds /\ ValidDecls ds /\ struct_or_union false ds = Done t /\
  exists b, nth_error (members_of t) 2 = Some b /\ m_name b = 3 /\ first_bit b / 32 <> (first_bit b + bit_count b - 1) / 32.
Proof.
  eexists _, _. split; [reflexivity|]. split.
  { constructor; [split; [discriminate|]; exists (CScalar T_CHAR); split; reflexivity|]. repeat constructor; cbn; unfold int_kind; auto; lia. }
  split.
  - unfold ValidDecls. split; [repeat constructor; cbn; try lia; discriminate|]. split; [|discriminate]. cbn. repeat constructor; cbn; intuition discriminate.
  - split; [vm_compute; reflexivity|]. eexists. split; [reflexivity|]. vm_compute. repeat split. discriminate.
Qed.

(* struct { union { int x; int y:3; }; char z; }: z shares a byte with x. *)
Theorem C14_anonymous_union_refuted : exists inner t x z,
  struct_or_union true [DMember 1 (LScalar T_INT); DField 2 T_INT 3] = Done inner /\
  struct_or_union false [DAnonymous inner; DMember 3 (LScalar T_CHAR)] = Done t /\
  nth_error (members_of t) 0 = Some x /\ nth_error (members_of t) 2 = Some z /\ m_name x = 1 /\ m_name z = 3 /\ ~ Disjoint x z.
Proof.
  eexists _, _, _, _. split; [vm_compute; reflexivity|]. split; [vm_compute; reflexivity|]. split; [reflexivity|]. split; [reflexivity|].
  split; [reflexivity|]. split; [reflexivity|]. unfold Disjoint. vm_compute. intros [X|X]; apply X; reflexivity.
Qed.

Print Assumptions C13_struct. Print Assumptions C13_no_overlap. Print Assumptions C13_union. Print Assumptions C13_array.
Print Assumptions C13_array_overflow_refuted. Print Assumptions C13_anonymous_struct_refuted.
Print Assumptions C14_fields. Print Assumptions C14_union_fields. Print Assumptions C14_zero_width_refuted.
Print Assumptions C14_straddle_refuted. Print Assumptions C14_anonymous_union_refuted.
