(* What a function does according to the C standard: expressions by recursion, statements one step at a time, with a
   continuation saying what remains to be done. *)
From Coq Require Import ZArith List Bool.
From Verif Require Import CfgSyntax.
Import ListNotations.

(* The domain: 6.5.8, 6.5.9 (this holds with not-a-number values, too) *)
Definition lawful (L : lang) : Prop :=
  (forall a b, relv L Rlt a b = relv L Rgt b a) /\ (forall a b, relv L Rle a b = relv L Rge b a)
  /\ (forall a b, relv L Rne a b = negb (relv L Req a b)) /\ (forall a b, relv L Req a b = relv L Req b a)
  /\ (forall b, truth L (int01 L b) = b).
(* Without not-a-number values *)
Definition ordered (L : lang) : Prop := forall a b, relv L Rlt a b = negb (relv L Rge a b).

Section Spec.
Variable L : lang.

(* The result of an expression: a value, or a variable to be read when the value is needed.  6.5#3: between
   sequence points the order of evaluation is unspecified, so a variable may be read before or after the other
   operands are evaluated; likewise the value of an assignment may be the value assigned or be read from
   its left operand later.  [late] makes the choice. *)
Inductive result := Val (v : val L) | Lv (x : Z).
Definition rvalue (r : result) (m : mem L) : val L := match r with Val v => v | Lv x => rdv L x m end.

Variable late : expr L -> bool.

Fixpoint sem (e : expr L) (m : mem L) : list (effect L) * mem L * result :=
  match e with
  | EConst v => ([], m, Val v)
  | EVar x => ([], m, if late e then Lv x else Val (rdv L x m))
  | EOp o a b =>
    let '(t1, m, r1) := sem a m in let '(t2, m, r2) := sem b m in
    (t1 ++ t2, m, Val (binv L o (rvalue r1 m) (rvalue r2 m)))
  | ERel o a b =>
    let '(t1, m, r1) := sem a m in let '(t2, m, r2) := sem b m in
    (t1 ++ t2, m, Val (int01 L (relv L o (rvalue r1 m) (rvalue r2 m))))
  | ENot a =>                                   (* 6.5.3.3#5: 0 == a *)
    let '(t1, m, r1) := sem a m in (t1, m, Val (int01 L (negb (truth L (rvalue r1 m)))))
  | EAnd a b =>                                 (* 6.5.13 *)
    let '(t1, m, r1) := sem a m in
    if truth L (rvalue r1 m)
    then let '(t2, m, r2) := sem b m in (t1 ++ t2, m, Val (int01 L (truth L (rvalue r2 m))))
    else (t1, m, Val (int01 L false))
  | EOr a b =>                                  (* 6.5.14 *)
    let '(t1, m, r1) := sem a m in
    if truth L (rvalue r1 m) then (t1, m, Val (int01 L true))
    else let '(t2, m, r2) := sem b m in (t1 ++ t2, m, Val (int01 L (truth L (rvalue r2 m))))
  | ECond t a b c =>                            (* 6.5.15 *)
    let '(t1, m, r1) := sem a m in
    let '(t2, m, r2) := if truth L (rvalue r1 m) then sem b m else sem c m in
    (t1 ++ t2, m, Val (match t with Some t => castv L t (rvalue r2 m) | None => voidv L end))
  | EComma a b => let '(t1, m, _) := sem a m in let '(t2, m, r2) := sem b m in (t1 ++ t2, m, r2)
  | ECast t a => let '(t1, m, r1) := sem a m in (t1, m, Val (match t with Some t => castv L t (rvalue r1 m) | None => voidv L end))
  | EAssign x a =>                              (* 6.5.16 *)
    let '(t1, m, r1) := sem a m in
    let v := asx L x (rvalue r1 m) in
    (t1 ++ [Write x v], wrv L x v m, if late e then Lv x else Val v)
  | EPost o x c =>                              (* 6.5.2.4 *)
    let w := asx L x (binv L o (rdv L x m) c) in ([Write x w], wrv L x w m, Val (rdv L x m))
  | ECall v f l =>                              (* 6.5.2.2 *)
    let '(t1, m, r1) := sem f m in let '(t2, m, rs) := sems l m in
    let g := rvalue r1 m in let vs := map (fun r => rvalue r m) rs in
    let (w, m) := callv L g vs m in
    (t1 ++ t2 ++ [Call g vs], m, Val (if v then voidv L else w))
  end
with sems (l : exprs L) (m : mem L) : list (effect L) * mem L * list result :=
  match l with
  | ANil => ([], m, [])
  | ACons a l => let '(t1, m, r) := sem a m in let '(t2, m, rs) := sems l m in (t1 ++ t2, m, r :: rs)
  end.

Definition value_of (e : expr L) (m : mem L) : list (effect L) * mem L * val L :=
  let '(t, m, r) := sem e m in (t, m, rvalue r m).

(* What remains to be done after a statement *)
Inductive cont :=
| Kstop
| Kseq (s : stmt L) (k : cont)
| Kwhile (e : expr L) (s : stmt L) (k : cont)
| Kdo (s : stmt L) (e : expr L) (k : cont)
| Kfor (c i : option (expr L)) (s : stmt L) (k : cont)
| Kswitch (k : cont).

Definition orelse {X} (a b : option X) : option X := match a with Some x => Some x | None => b end.

(* 6.8.4.2: where to go in the body s of a switch statement for value v; nested switch statements have labels of their own *)
Fixpoint find_case (v : val L) (s : stmt L) (k : cont) : option (stmt L * cont) :=
  match s with
  | SSeq a b => orelse (find_case v a (Kseq b k)) (find_case v b k)
  | SIf _ a => find_case v a k
  | SIfElse _ a b => orelse (find_case v a k) (find_case v b k)
  | SDo a e => find_case v a (Kdo a e k)
  | SWhile e a => find_case v a (Kwhile e a k)
  | SFor _ c i a => find_case v a (Kfor c i a k)
  | SCase c a => if relv L Req (casev L c v) v then Some (a, k) else find_case v a k
  | SDefault a | SLabel _ a => find_case v a k
  | _ => None
  end.
Fixpoint find_default (s : stmt L) (k : cont) : option (stmt L * cont) :=
  match s with
  | SSeq a b => orelse (find_default a (Kseq b k)) (find_default b k)
  | SIf _ a => find_default a k
  | SIfElse _ a b => orelse (find_default a k) (find_default b k)
  | SDo a e => find_default a (Kdo a e k)
  | SWhile e a => find_default a (Kwhile e a k)
  | SFor _ c i a => find_default a (Kfor c i a k)
  | SDefault a => Some (a, k)
  | SCase _ a | SLabel _ a => find_default a k
  | _ => None
  end.
Fixpoint find_label (l : Z) (s : stmt L) (k : cont) : option (stmt L * cont) :=
  match s with
  | SSeq a b => orelse (find_label l a (Kseq b k)) (find_label l b k)
  | SIf _ a => find_label l a k
  | SIfElse _ a b => orelse (find_label l a k) (find_label l b k)
  | SDo a e => find_label l a (Kdo a e k)
  | SWhile e a => find_label l a (Kwhile e a k)
  | SFor _ c i a => find_label l a (Kfor c i a k)
  | SSwitch _ a => find_label l a (Kswitch k)
  | SCase _ a | SDefault a => find_label l a k
  | SLabel l' a => if Z.eqb l l' then Some (a, k) else find_label l a k
  | _ => None
  end.

Inductive sstate := Do (s : stmt L) (k : cont) (m : mem L) | Ret (v : option (val L)) (m : mem L).

Definition cond_of (c : option (expr L)) (m : mem L) : list (effect L) * mem L * bool :=
  match c with Some e => let '(t, m, v) := value_of e m in (t, m, truth L v) | None => ([], m, true) end.
Definition do_ (c : option (expr L)) (m : mem L) : list (effect L) * mem L :=
  match c with Some e => let '(t, m, _) := value_of e m in (t, m) | None => ([], m) end.

(* One step in function f; None: finished (or no meaning: break outside of a loop, ...) *)
Definition step (f : func L) (s : sstate) : option (list (effect L) * sstate) :=
  match s with
  | Ret _ _ => None
  | Do c k m =>
    match c with
    | SSkip =>
      match k with
      | Kstop => Some ([], Ret (if main f then Some (castv L (int_ty f) (int01 L false)) else None) m)
      | Kseq s k => Some ([], Do s k m)
      | Kwhile e s k => Some ([], Do (SWhile e s) k m)
      | Kdo s e k => let '(t, m, v) := value_of e m in Some (t, if truth L v then Do (SDo s e) k m else Do SSkip k m)
      | Kfor c i s k => let '(t, m) := do_ i m in Some (t, Do (SFor None c i s) k m)
      | Kswitch k => Some ([], Do SSkip k m)
      end
    | SExpr e => let '(t, m) := do_ (Some e) m in Some (t, Do SSkip k m)
    | SSeq a b => Some ([], Do a (Kseq b k) m)
    | SIf e a => let '(t, m, v) := value_of e m in Some (t, Do (if truth L v then a else SSkip) k m)
    | SIfElse e a b => let '(t, m, v) := value_of e m in Some (t, Do (if truth L v then a else b) k m)
    | SDo a e => Some ([], Do a (Kdo a e k) m)
    | SWhile e a => let '(t, m, v) := value_of e m in Some (t, if truth L v then Do a (Kwhile e a k) m else Do SSkip k m)
    | SFor (Some i) c inc a => let '(t, m) := do_ (Some i) m in Some (t, Do (SFor None c inc a) k m)
    | SFor None c inc a => let '(t, m, b) := cond_of c m in Some (t, if b then Do a (Kfor c inc a k) m else Do SSkip k m)
    | SSwitch e a =>
      let '(t, m, v) := value_of e m in
      match orelse (find_case v a (Kswitch k)) (find_default a (Kswitch k)) with
      | Some (s, k) => Some (t, Do s k m)
      | None => Some (t, Do SSkip k m)
      end
    | SCase _ a | SDefault a | SLabel _ a => Some ([], Do a k m)
    | SGoto l => match find_label l (body f) Kstop with Some (s, k) => Some ([], Do s k m) | None => None end
    | SBreak =>
      match k with
      | Kstop => None
      | Kseq _ k => Some ([], Do SBreak k m)
      | Kwhile _ _ k | Kdo _ _ k | Kfor _ _ _ k | Kswitch k => Some ([], Do SSkip k m)
      end
    | SContinue =>
      match k with
      | Kstop => None
      | Kseq _ k | Kswitch k => Some ([], Do SContinue k m)
      | Kwhile _ _ _ | Kdo _ _ _ | Kfor _ _ _ _ => Some ([], Do SSkip k m)
      end
    | SReturn None => Some ([], Ret None m)
    | SReturn (Some (ty, e)) => let '(t, m, v) := value_of e m in Some (t, Ret (Some (castv L ty v)) m)
    end
  end.

Inductive steps (f : func L) : nat -> sstate -> list (effect L) -> sstate -> Prop :=
| steps_0 : forall s, steps f 0 s [] s
| steps_S : forall n s ev s1 tr s2, step f s = Some (ev, s1) -> steps f n s1 tr s2 -> steps f (S n) s (ev ++ tr) s2.
Definition start (f : func L) (m : mem L) : sstate := Do (body f) Kstop m.

End Spec.

Section Valid.
Variable L : lang.

(* ------------------------------------------------------------------ *)
(* Programs with a meaning (6.8.1, 6.8.4.2, 6.8.6) *)
Fixpoint labels (s : stmt L) : list Z :=
  match s with
  | SSeq a b | SIfElse _ a b => labels a ++ labels b
  | SIf _ a | SDo a _ | SWhile _ a | SFor _ _ _ a | SSwitch _ a | SCase _ a | SDefault a => labels a
  | SLabel l a => l :: labels a
  | _ => []
  end.
Fixpoint gotos (s : stmt L) : list Z :=
  match s with
  | SSeq a b | SIfElse _ a b => gotos a ++ gotos b
  | SIf _ a | SDo a _ | SWhile _ a | SFor _ _ _ a | SSwitch _ a | SCase _ a | SDefault a | SLabel _ a => gotos a
  | SGoto l => [l]
  | _ => []
  end.
(* number of default labels that belong to the switch statement around s *)
Fixpoint defaults (s : stmt L) : nat :=
  match s with
  | SSeq a b | SIfElse _ a b => defaults a + defaults b
  | SIf _ a | SDo a _ | SWhile _ a | SFor _ _ _ a | SCase _ a | SLabel _ a => defaults a
  | SDefault a => S (defaults a)
  | _ => 0
  end.
Fixpoint placed (loop sw : bool) (s : stmt L) : Prop :=
  match s with
  | SSeq a b | SIfElse _ a b => placed loop sw a /\ placed loop sw b
  | SIf _ a | SLabel _ a => placed loop sw a
  | SDo a _ | SWhile _ a | SFor _ _ _ a => placed true sw a
  | SSwitch _ a => placed loop true a /\ (defaults a <= 1)%nat
  | SCase _ a | SDefault a => sw = true /\ placed loop sw a
  | SBreak => loop = true \/ sw = true
  | SContinue => loop = true
  | _ => True
  end.

(* ------------------------------------------------------------------ *)
(* Where the compiler goes astray (refuted in CfgProps.v) *)

(* the value of an expression which the compiler knows to be constant (perhaps after side effects) *)
Fixpoint constant (e : expr L) : option (val L) :=
  match e with
  | EConst v => Some v
  | EOp o a b => match constant a, constant b with Some u, Some v => Some (binv L o u v) | _, _ => None end
  | ERel o a b => match constant a, constant b with Some u, Some v => Some (int01 L (relv L o u v)) | _, _ => None end
  | ENot a => match constant a with Some u => Some (int01 L (negb (truth L u))) | None => None end
  | EAnd a b =>
    match constant a with
    | Some u => if truth L u then match constant b with Some v => Some (int01 L (truth L v)) | None => None end
                else Some (int01 L false)
    | None => None
    end
  | EOr a b =>
    match constant a with
    | Some u => if truth L u then Some (int01 L true)
                else match constant b with Some v => Some (int01 L (truth L v)) | None => None end
    | None => None
    end
  | ECond None _ _ _ => Some (voidv L)
  | ECond (Some t) a b c =>
    match constant a with
    | Some u => match (if truth L u then constant b else constant c) with Some v => Some (castv L t v) | None => None end
    | None => None
    end
  | EComma _ b => constant b
  | ECast None _ => Some (voidv L)
  | ECast (Some t) a => match constant a with Some v => Some (castv L t v) | None => None end
  | EAssign x a => match constant a with Some v => Some (asx L x v) | None => None end
  | _ => None
  end.
(* a call as such *)
Fixpoint is_call (e : expr L) : bool := match e with ECall _ _ _ => true | EComma _ b => is_call b | _ => false end.
(* a comparison with <, >, <= or >=, perhaps below other logical operators *)
Fixpoint relational_ (e : expr L) : bool :=
  match e with
  | ERel o _ _ => match o with Req | Rne => false | _ => true end
  | ENot a => relational_ a
  | EAnd _ b | EOr _ b | EComma _ b => relational_ b
  | _ => false
  end.
(* a function designator that needs no computation after its operands are evaluated *)
Fixpoint direct (e : expr L) : bool :=
  match constant e with
  | Some _ => true
  | None => match e with
            | EVar _ | EAssign _ _ | EPost _ _ _ => true
            | ECond _ a _ _ => match constant a with Some _ => false | None => true end
            | EComma _ b => direct b
            | _ => false
            end
  end.

(* no value (6.3.2.2) *)
Fixpoint isvoid (e : expr L) : bool :=
  match e with ECall v _ _ => v | ECond None _ _ _ | ECast None _ => true | EComma _ b => isvoid b | _ => false end.

(* Expressions that have a meaning (void expressions are not used for their value) and are not among the defects.
   [fine v e]: e is used for its value if v *)
Fixpoint fine (v : bool) (e : expr L) : Prop :=
  (v = true -> isvoid e = false) /\
  match e with
  | EConst _ | EVar _ | EPost _ _ _ => True
  | EOp _ a b | ERel _ a b | EAnd a b | EOr a b => fine true a /\ fine true b
  | EComma a b => fine false a /\ fine v b
  | ENot a => fine true a /\ (ordered L \/ relational_ a = false)
  | ECond t a b c =>
    let w := match t with Some _ => true | None => false end in
    fine true a /\ fine w b /\ fine w c
    /\ match t, constant a with Some _, Some v => is_call (if truth L v then b else c) = false | _, _ => True end
  | ECast t a => fine (match t with Some _ => true | None => false end) a
  | EAssign _ a => fine true a
  | ECall _ f l => fine true f /\ direct f = true /\ fines l
  end
with fines (l : exprs L) : Prop := match l with ANil => True | ACons a l => fine true a /\ fines l end.

Definition fineo (v : bool) (o : option (expr L)) : Prop := match o with Some e => fine v e | None => True end.
Fixpoint fine_s (s : stmt L) : Prop :=
  match s with
  | SSkip | SGoto _ | SBreak | SContinue | SReturn None => True
  | SExpr e => fine false e
  | SReturn (Some (_, e)) => fine true e
  | SSeq a b => fine_s a /\ fine_s b
  | SIf e a | SDo a e | SWhile e a | SSwitch e a => fine true e /\ fine_s a
  | SIfElse e a b => fine true e /\ fine_s a /\ fine_s b
  | SFor i c n a => fineo false i /\ fineo true c /\ fineo false n /\ fine_s a
  | SCase c a => (forall v, relv L Req c v = relv L Req (casev L c v) v) /\ fine_s a
  | SDefault a | SLabel _ a => fine_s a
  end.
End Valid.

Arguments Val {L}. Arguments Lv {L}. Arguments rvalue {L}. Arguments sem {L}. Arguments sems {L}. Arguments value_of {L}.
Arguments Kstop {L}. Arguments Kseq {L}. Arguments Kwhile {L}. Arguments Kdo {L}. Arguments Kfor {L}. Arguments Kswitch {L}.
Arguments find_case {L}. Arguments find_default {L}. Arguments find_label {L}. Arguments Do {L}. Arguments Ret {L}.
Arguments cond_of {L}. Arguments do_ {L}. Arguments step {L}. Arguments steps {L}. Arguments start {L}.
Arguments labels {L}. Arguments gotos {L}. Arguments defaults {L}. Arguments placed {L}.
Arguments constant {L}. Arguments is_call {L}. Arguments relational_ {L}. Arguments direct {L}. Arguments isvoid {L}. Arguments fine {L}. Arguments fines {L}.
Arguments fineo {L}. Arguments fine_s {L}.
