(* C99 6.10, 6.10.1: groups.  A file is a group; a group is a sequence of text lines, control lines and
   if-sections, an if-section is a condition, a group, and alternatives (elif-groups, else-group). *)
From Coq Require Import List Bool.
From Verif Require Import CondModel.
Import ListNotations.

Section Groups.
Variables Env Cnd Name Dir Txt Out : Type.

Inductive test := Tif (c : Cnd) | Tifdef (n : Name) | Tifndef (n : Name).
Inductive group :=
| GNil
| GText (t : Txt) (rest : group)
| GDir (d : Dir) (rest : group)
| GNull (rest : group)
| GSect (t : test) (body : group) (alts : alts) (rest : group)
with alts :=
| AEnd
| AElse (body : group)
| AElif (c : Cnd) (body : group) (more : alts).

Variable cond : Env -> Cnd -> option bool.        (* value of a condition, if it has one *)
Variable isdef : Env -> Name -> option bool.
Variable exec : Env -> Dir -> option (Env * group). (* effect of a control line; contents of an included file *)
Variable emit : Env -> Txt -> option Out.
Variable skipped : Env -> Cnd -> Prop.            (* what is asked of a condition that is not evaluated *)

Definition holds (e : Env) (t : test) : option bool :=
  match t with Tif c => cond e c | Tifdef n => isdef e n | Tifndef n => option_map negb (isdef e n) end.

(* all conditions inside a skipped group *)
Fixpoint skip_group (e : Env) (g : group) : Prop :=
  match g with
  | GNil => True
  | GText _ r | GDir _ r | GNull r => skip_group e r
  | GSect t b a r => match t with Tif c => skipped e c | _ => True end /\ skip_group e b /\ skip_alts e a /\ skip_group e r
  end
with skip_alts (e : Env) (a : alts) : Prop :=
  match a with
  | AEnd => True
  | AElse b => skip_group e b
  | AElif c b m => skipped e c /\ skip_group e b /\ skip_alts e m
  end.

(* Run e g os e': in state e, processing the group produces os and leaves the state e' *)
Inductive Run : Env -> group -> list Out -> Env -> Prop :=
| RNil e : Run e GNil [] e
| RText e t r o os e' : emit e t = Some o -> Run e r os e' -> Run e (GText t r) (o :: os) e'
| RNull e r os e' : Run e r os e' -> Run e (GNull r) os e'
| RDir e d r e1 inc os1 e2 os e' : exec e d = Some (e1, inc) -> Run e1 inc os1 e2 -> Run e2 r os e' -> Run e (GDir d r) (os1 ++ os) e'
| RTrue e t b a r os1 e1 os e' : holds e t = Some true -> Run e b os1 e1 -> skip_alts e1 a -> Run e1 r os e' -> Run e (GSect t b a r) (os1 ++ os) e'
| RFalse e t b a r os1 e1 os e' : holds e t = Some false -> skip_group e b -> RunAlts e a os1 e1 -> Run e1 r os e' -> Run e (GSect t b a r) (os1 ++ os) e'
with RunAlts : Env -> alts -> list Out -> Env -> Prop :=
| RAEnd e : RunAlts e AEnd [] e
| RAElse e b os e' : Run e b os e' -> RunAlts e (AElse b) os e'
| RATrue e c b m os e' : cond e c = Some true -> Run e b os e' -> skip_alts e' m -> RunAlts e (AElif c b m) os e'
| RAFalse e c b m os e' : cond e c = Some false -> skip_group e b -> RunAlts e m os e' -> RunAlts e (AElif c b m) os e'.

End Groups.
Scheme group_ind2 := Induction for group Sort Prop with alts_ind2 := Induction for alts Sort Prop.
Combined Scheme group_alts_ind from group_ind2, alts_ind2.
Scheme Run_ind2 := Minimality for Run Sort Prop with RunAlts_ind2 := Minimality for RunAlts Sort Prop.
Combined Scheme Run_mutind from Run_ind2, RunAlts_ind2.

(* the lines of a group; the lines are those of CondModel *)
Arguments LText {Cnd Name Dir Txt}. Arguments LIf {Cnd Name Dir Txt}. Arguments LIfdef {Cnd Name Dir Txt}. Arguments LIfndef {Cnd Name Dir Txt}.
Arguments LElif {Cnd Name Dir Txt}. Arguments LElse {Cnd Name Dir Txt}. Arguments LEndif {Cnd Name Dir Txt}. Arguments LDir {Cnd Name Dir Txt}. Arguments LNull {Cnd Name Dir Txt}.
Arguments GNil {Cnd Name Dir Txt}. Arguments GText {Cnd Name Dir Txt}. Arguments GDir {Cnd Name Dir Txt}. Arguments GNull {Cnd Name Dir Txt}.
Arguments GSect {Cnd Name Dir Txt}. Arguments AEnd {Cnd Name Dir Txt}. Arguments AElse {Cnd Name Dir Txt}. Arguments AElif {Cnd Name Dir Txt}.
Arguments Tif {Cnd Name}. Arguments Tifdef {Cnd Name}. Arguments Tifndef {Cnd Name}.
Section Flat.
Context {Cnd Name Dir Txt : Type}.
Notation line := (line Cnd Name Dir Txt).
Notation group := (group Cnd Name Dir Txt).
Notation alts := (alts Cnd Name Dir Txt).
Definition opener (t : test Cnd Name) : line := match t with Tif c => LIf c | Tifdef n => LIfdef n | Tifndef n => LIfndef n end.

Fixpoint flat (g : group) : list line :=
  match g with
  | GNil => []
  | GText t r => LText t :: flat r
  | GDir d r => LDir d :: flat r
  | GNull r => LNull :: flat r
  | GSect t b a r => opener t :: flat b ++ flat_alts a ++ flat r
  end
with flat_alts (a : alts) : list line :=
  match a with
  | AEnd => [LEndif]
  | AElse b => LElse :: flat b ++ [LEndif]
  | AElif c b m => LElif c :: flat b ++ flat_alts m
  end.
End Flat.
