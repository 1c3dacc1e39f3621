(* What a function in the intermediate representation does, and what of it can be seen from outside.
   Memory is bytes at addresses.  The function has local objects (linkage none), each in a place of its own; everything else,
   other functions included, is outside.  Machine: what the optimizer takes no part in - where objects are, arithmetic,
   conversions, what a called function does. *)
From Coq Require Import List ZArith Bool.
From Verif Require Import Bytes OptModel.
Import ListNotations.
Open Scope Z_scope.

Definition mem := Z -> Z.
Definition bytes_at (m : mem) (a : Z) (n : nat) : list Z := map (fun i => m (a + Z.of_nat i)) (seq 0 n).
Definition write (m : mem) (a : Z) (l : list Z) : mem := fun x => if (a <=? x) && (x <? a + Z.of_nat (length l)) then nth (Z.to_nat (x - a)) l 0 else m x.

(* A called function returns, or does not (it exits, or runs for ever), or what it does is undefined. *)
Inductive outcome (W : Type) := Returns (w : W) (m : mem) (v : list Z) | Never | Undefined.
Arguments Returns {W}. Arguments Never {W}. Arguments Undefined {W}.
Definition args := list (ty * list Z).

(* W: the state of the world that is not memory.  owner: the local object that a byte of memory belongs to. *)
Record machine (W : Type) := mkMachine {
  loc : sym -> Z;
  owner : Z -> option sym;
  constant : sym -> Z -> ty -> list Z;
  ptr : Z -> list Z;
  unptr : list Z -> Z;
  conv : ty -> ty -> list Z -> list Z;
  unary : optype -> ty -> list Z -> option (list Z);
  binop : Z -> ty -> ty -> list Z -> ty -> list Z -> option (list Z);
  truth : ty -> list Z -> bool;
  getfield : Z -> Z -> ty -> list Z -> list Z;
  va_first : list Z;
  va_next : list Z -> ty -> mem -> option (list Z * list Z);
  call : W -> ty -> list Z -> args -> mem -> outcome W }.
Arguments loc {W}. Arguments owner {W}. Arguments constant {W}. Arguments ptr {W}. Arguments unptr {W}. Arguments conv {W}.
Arguments unary {W}. Arguments binop {W}. Arguments truth {W}. Arguments getfield {W}. Arguments va_first {W}. Arguments va_next {W}. Arguments call {W}.

(* The bits from off on, width of them, of the bytes of memory are those of the value; byte i. *)
Definition field_byte (width off : Z) (v : list Z) (i : nat) (old : Z) : Z :=
  let mask := Z.land (Z.shiftr (Z.shiftl (Z.ones width) off) (8 * Z.of_nat i)) 255 in
  Z.lor (Z.ldiff old mask) (Z.land (Z.shiftr (Z.shiftl (le_val v) off) (8 * Z.of_nat i)) mask).
Definition set_field (width off : Z) (v : list Z) (old : list Z) : list Z :=
  map (fun i => field_byte width off v i (nth i old 0)) (seq 0 (length old)).

Section Meaning.
Context {W : Type}.
Variable tab : sym -> symbol.
Variable M : machine W.

Definition size (t : ty) : nat := Z.to_nat (tsize t).
(* the n bytes at a belong to the symbol, or to nothing local if it is not local *)
Definition belongs (s : sym) (a : Z) (n : nat) : bool :=
  is_object (s_type (tab s)) &&
  forallb (fun i => match owner M (a + Z.of_nat i) with Some s' => s_none (tab s) && Nat.eqb s' s | None => negb (s_none (tab s)) end) (seq 0 n).
Definition pointer (m : mem) (v : var) : option Z :=
  match v_sym v with
  | Some s => if belongs s (loc M s) 8 then Some (unptr M (bytes_at m (loc M s) 8)) else None
  | None => Some (unptr M (v_imm v))
  end.
(* where a variable is *)
Definition place (m : mem) (v : var) : option Z :=
  match v_kind v with
  | DIRECT => match v_sym v with Some s => let a := loc M s + v_offset v in if belongs s a (size (v_type v)) then Some a else None | None => None end
  | DEREF => option_map (fun p => p + v_offset v) (pointer m v)
  | _ => None
  end.
Definition value (m : mem) (v : var) : option (list Z) :=
  match v_kind v with
  | ADDRESS => option_map (fun s => ptr M (loc M s + v_offset v)) (v_sym v)
  | IMMEDIATE => Some (match v_sym v with Some s => constant M s (v_offset v) (v_type v) | None => v_imm v end)
  | DIRECT | DEREF =>
    match v_type v, v_kind v, v_sym v with
    | TFun, DIRECT, Some s => Some (ptr M (loc M s + v_offset v))
    | _, _, _ =>
      option_map (fun a => let b := bytes_at m a (size (v_type v)) in if v_width v =? 0 then b else getfield M (v_width v) (v_foff v) (v_type v) b)
        (place m v)
    end
  end.
Definition store (m : mem) (v : var) (b : list Z) : option mem :=
  match place m v with
  | None => None
  | Some a =>
    if is_object (v_type v) && (length b =? size (v_type v))%nat
    then Some (write m a (if v_width v =? 0 then b else set_field (v_width v) (v_foff v) b (bytes_at m a (size (v_type v)))))
    else None
  end.

(* the world, memory, the parameters that have been given for the next call, and the calls so far, the last one first *)
Record event := mkEvent { ev_fun : list Z; ev_args : args; ev_mem : mem }.
Record conf := mkConf { c_w : W; c_m : mem; c_ps : args; c_tr : list event }.
Inductive result (A : Type) := Goes (v : A) (c : conf) | Stops (tr : list event) | Fails.
Arguments Goes {A}. Arguments Stops {A}. Arguments Fails {A}.
Definition bind {A B} (r : result A) (f : A -> conf -> result B) : result B :=
  match r with Goes v c => f v c | Stops tr => Stops tr | Fails => Fails end.

Definition with_mem (c : conf) (m : mem) : conf := mkConf (c_w c) m (c_ps c) (c_tr c).
Definition pure (e : expr) (m : mem) : option (list Z) :=
  match e_op e with
  | CAST => option_map (conv M (e_type e) (v_type (e_l e))) (value m (e_l e))
  | NOT | NEG => match value m (e_l e) with Some v => unary M (e_op e) (e_type e) v | None => None end
  | BIN k =>
    match value m (e_l e), value m (e_r e) with
    | Some a, Some b => binop M k (e_type e) (v_type (e_l e)) a (v_type (e_r e)) b
    | _, _ => None
    end
  | CALL | VA_ARG => None
  end.
(* An argument list is a local object, or something outside. *)
Definition va_list_size := 24%nat.
Definition list_place (m : mem) (v : var) : option Z :=
  match v_kind v, v_sym v with
  | ADDRESS, Some s => let a := loc M s + v_offset v in if belongs s a va_list_size then Some a else None
  | _, _ =>
    match value m v with
    | Some b => let a := unptr M b in if forallb (fun i => match owner M (a + Z.of_nat i) with Some _ => false | None => true end) (seq 0 va_list_size) then Some a else None
    | None => None
    end
  end.
Definition eval (e : expr) (c : conf) : result (list Z) :=
  match e_op e with
  | CALL =>
    match value (c_m c) (e_l e) with
    | None => Fails
    | Some f =>
      let tr := mkEvent f (c_ps c) (c_m c) :: c_tr c in
      match call M (c_w c) (e_type e) f (c_ps c) (c_m c) with
      | Returns w m v => Goes v (mkConf w m [] tr)
      | Never => Stops tr
      | Undefined => Fails
      end
    end
  | VA_ARG =>
    match c_ps c, list_place (c_m c) (e_l e) with
    | [], Some a =>
      match va_next M (bytes_at (c_m c) a va_list_size) (e_type e) (c_m c) with
      | Some (v, l) => if (length l =? va_list_size)%nat then Goes v (with_mem c (write (c_m c) a l)) else Fails
      | None => Fails
      end
    | _, _ => Fails
    end
  | _ => match c_ps c, pure e (c_m c) with [], Some v => Goes v c | _, _ => Fails end
  end.
Definition step (s : stmt) (c : conf) : result unit :=
  match st_st s with
  | IR_EXPR => bind (eval (st_expr s) c) (fun _ c => Goes tt c)
  | IR_PARAM =>
    match pure (st_expr s) (c_m c) with
    | Some v => Goes tt (mkConf (c_w c) (c_m c) (c_ps c ++ [(e_type (st_expr s), v)]) (c_tr c))
    | None => Fails
    end
  | IR_ASSIGN =>
    bind (eval (st_expr s) c) (fun v c =>
      match store (c_m c) (st_t s) (conv M (v_type (st_t s)) (e_type (st_expr s)) v) with
      | Some m => Goes tt (with_mem c m)
      | None => Fails
      end)
  | IR_VA_START =>
    match c_ps c, place (c_m c) (e_l (st_expr s)) with
    | [], Some a => if (length (va_first M) =? size (v_type (e_l (st_expr s))))%nat then Goes tt (with_mem c (write (c_m c) a (va_first M))) else Fails
    | _, _ => Fails
    end
  | IR_VLA_ALLOC => Fails
  end.
Fixpoint steps (l : list stmt) (c : conf) : result unit :=
  match l with [] => Goes tt c | s :: r => bind (step s c) (fun _ c => steps r c) end.

(* the end of a block: the node to go to, or the value to return *)
Definition leave (b : block) (c : conf) : result (nat + option (list Z)) :=
  match b_jump0 b, b_jump1 b with
  | None, _ => if b_ret b then bind (eval (b_expr b) c) (fun v c => Goes (inr (Some v)) c) else match c_ps c with [] => Goes (inr None) c | _ => Fails end
  | Some x, None => match c_ps c with [] => Goes (inl x) c | _ => Fails end
  | Some x, Some y => bind (eval (b_expr b) c) (fun v c => Goes (inl (if truth M (e_type (b_expr b)) v then y else x)) c)
  end.
Definition enter (d : def) (n : nat) (c : conf) : result (nat + option (list Z)) :=
  match nth_error (d_nodes d) n with
  | Some b => bind (steps (body d b) c) (fun _ c => leave b c)
  | None => Fails
  end.

(* the first k blocks *)
Inductive behaviour := Running (tr : list event) | Returned (v : option (list Z)) (w : W) (m : mem) (tr : list event) | Stopped (tr : list event) | Failed.
Fixpoint run (k : nat) (d : def) (n : nat) (c : conf) : behaviour :=
  match k with
  | O => Running (c_tr c)
  | S k =>
    match enter d n c with
    | Goes (inl x) c => run k d x c
    | Goes (inr v) c => Returned v (c_w c) (c_m c) (c_tr c)
    | Stops tr => Stopped tr
    | Fails => Failed
    end
  end.
Definition execute (k : nat) (d : def) (w : W) (m : mem) : behaviour := run k d (d_body d) (mkConf w m [] []).

(* what can be seen *)
Fixpoint holds_pointer (t : ty) : bool :=
  match t with
  | TPtr _ => true
  | TArr _ t => holds_pointer t
  | TAgg _ _ ms => existsb holds_pointer ms
  | _ => false
  end.
Definition gives_pointer (ps : args) : Prop := exists p, In p ps /\ holds_pointer (fst p) = true.
Definition same_outside (m m' : mem) : Prop := forall a, owner M a = None -> m a = m' a.
Definition same_event (a b : event) : Prop :=
  ev_fun a = ev_fun b /\ ev_args a = ev_args b /\ same_outside (ev_mem a) (ev_mem b) /\ (gives_pointer (ev_args a) -> forall x, ev_mem a x = ev_mem b x).
Definition same_trace : list event -> list event -> Prop := Forall2 same_event.
(* the second does what the first does, or the first is undefined *)
Definition same_behaviour (a b : behaviour) : Prop :=
  match a, b with
  | Failed, _ => True
  | Running t, Running t' => same_trace t t'
  | Returned v w m t, Returned v' w' m' t' => v = v' /\ w = w' /\ same_outside m m' /\ same_trace t t'
  | Stopped t, Stopped t' => same_trace t t'
  | _, _ => False
  end.

(* What is needed of the machine: local objects are apart from each other and at least as large as their types; converting to
   the same type is nothing; the arguments of the function are not in a local object; and a called function that is given
   no pointer sees and changes memory without regard to what is in the local objects. *)
Definition same_outcome (m m' : mem) (a b : outcome W) : Prop :=
  match a, b with
  | Returns w m1 v, Returns w' m1' v' => w = w' /\ v = v' /\ forall x, m x = m' x -> m1 x = m1' x
  | Never, Never => True
  | Undefined, Undefined => True
  | _, _ => False
  end.
Record lawful : Prop := mkLawful {
  law_owner : forall a s, owner M a = Some s -> s_none (tab s) = true /\ loc M s <= a < loc M s + tsize (s_type (tab s));
  law_conv : forall t v, conv M t t v = v;
  law_va : forall l t m m', same_outside m m' -> va_next M l t m = va_next M l t m';
  law_call : forall w t f ps m m', (gives_pointer ps -> forall x, m x = m' x) -> same_outside m m' -> same_outcome m m' (call M w t f ps m) (call M w t f ps m') }.
End Meaning.
Arguments Goes {W A}. Arguments Stops {W A}. Arguments Fails {W A}.
Arguments Running {W}. Arguments Returned {W}. Arguments Stopped {W}. Arguments Failed {W}.

(* What is needed of the function.  The statements of different nodes are different ones. *)
Definition separate (d : def) : Prop :=
  (forall b, In b (d_nodes d) -> (b_head b + b_count b <= length (d_stmts d))%nat) /\
  (forall i j a b, nth_error (d_nodes d) i = Some a -> nth_error (d_nodes d) j = Some b -> i <> j -> (0 < b_count a)%nat -> (0 < b_count b)%nat ->
     (b_head a + b_count a <= b_head b \/ b_head b + b_count b <= b_head a)%nat).
(* Jumps lead to nodes. *)
Definition linked (d : def) : Prop :=
  (d_body d < length (d_nodes d))%nat /\
  forall b x, In b (d_nodes d) -> b_jump0 b = Some x \/ b_jump1 b = Some x -> (x < length (d_nodes d))%nat.
(* An assignment to a scalar object assigns all of it. *)
Definition whole (tab : sym -> symbol) (s : stmt) : Prop :=
  st_st s = IR_ASSIGN -> v_kind (st_t s) = DIRECT -> forall x, v_sym (st_t s) = Some x -> is_scalar (s_type (tab x)) = true ->
  v_offset (st_t s) = 0 /\ v_width (st_t s) = 0 /\ tsize (v_type (st_t s)) = tsize (s_type (tab x)).
(* No pointer is assigned that is then assigned through with its own type. *)
Definition no_self (l : list stmt) : Prop :=
  forall s s' x, In s l -> In s' l -> st_st s = IR_ASSIGN -> st_st s' = IR_ASSIGN ->
  v_kind (st_t s) = DIRECT -> v_sym (st_t s) = Some x -> v_kind (st_t s') = DEREF -> v_sym (st_t s') = Some x ->
  v_type (st_t s) <> v_type (st_t s').
(* No parameter is a struct with an array of pointers in it. *)
Fixpoint plain (t : ty) : bool :=
  match t with
  | TArr _ t => negb (holds_pointer t)
  | TAgg _ _ ms => forallb plain ms
  | _ => true
  end.
Definition plain_param (s : stmt) : Prop := st_st s = IR_PARAM -> plain (e_type (st_expr s)) = true.
Record fit (tab : sym -> symbol) (d : def) : Prop := mkFit {
  fit_separate : separate d;
  fit_linked : linked d;
  fit_whole : Forall (whole tab) (d_stmts d);
  fit_self : no_self (d_stmts d);
  fit_param : Forall plain_param (d_stmts d) }.
