(* What C says about macro definitions and macro replacement (C99 6.10.3). *)
From Coq Require Import List ZArith Bool.
From Verif Require Import TokModel MacroModel.
Import ListNotations.
Open Scope Z_scope.

(* ---- #define and #undef ---- *)

Inductive op := Define (m : macro) | Undef (n : list Z).
Definition op_name (o : op) : list Z := match o with Define m => m_name m | Undef n => n end.

(* What the preprocessor does with a history of directives. *)
Fixpoint run (ops : list op) (tb : table) : mres table :=
  match ops with
  | [] => MOk tb
  | Define m :: r => mbind (define tb m) (run r)
  | Undef n :: r => run r (undef tb n)
  end.

(* The last directive about n, if it is a definition. *)
Inductive last_def : list op -> list Z -> option macro -> Prop :=
| last_none : forall n, last_def [] n None
| last_define : forall ops m, last_def (ops ++ [Define m]) (m_name m) (Some m)
| last_undef : forall ops n, last_def (ops ++ [Undef n]) n None
| last_other : forall ops o n r, op_name o <> n -> last_def ops n r -> last_def (ops ++ [o]) n r.

(* Two tokens of a replacement list agree: both the same parameter, or the same kind and spelling. *)
Definition same_tok (a b : tok) : Prop :=
  tt a = tt b /\ (tt a = T_PARAM -> pval a = pval b) /\ (tt a <> T_PARAM -> spell a = spell b).
(* Same name, kind and number of parameters, and token by token the same replacement list. *)
Definition same_macro (a b : macro) : Prop :=
  m_name a = m_name b /\ m_func a = m_func b /\ m_params a = m_params b /\ Forall2 same_tok (m_repl a) (m_repl b).

(* Source definitions: name, parameters (None: object-like), `...` at the end, replacement tokens. *)
Record defn := mk_defn { d_name : tok; d_params : option (list tok * bool); d_body : list tok }.

Definition punct_tok (k : Z) (w : Z) : tok := mk_tok k false false w [k] 0.
Definition dots_tok : tok := mk_tok T_DOTS false false 0 [46;46;46] 0.
Fixpoint commas (ls : list (list tok)) : list tok :=
  match ls with
  | [] => []
  | [l] => l
  | l :: r => l ++ punct_tok T_COMMA 0 :: commas r
  end.
(* The tokens after `#define`. *)
Definition def_line (d : defn) : list tok :=
  d_name d ::
  (match d_params d with
   | None => []
   | Some (ps, va) =>
     punct_tok T_LPAREN 0 :: commas (map (fun p => [p]) ps ++ (if va : bool then [[dots_tok]] else []))
       ++ [punct_tok T_RPAREN 0]
   end) ++ d_body d ++ [punct_tok T_NEWLINE 0].

Definition ident (t : tok) : Prop := expandable t = true /\ tt t <> T_RPAREN /\ tt t <> T_DOTS
  /\ tt t <> T_COMMA /\ tt t <> T_LPAREN /\ tt t <> T_NEWLINE /\ tt t <> T_END /\ tt t <> T_PARAM /\ tt t <> T_NUMBER.
(* A definition a program can contain: names are identifiers or keywords; an object-like macro's
   replacement does not begin with a parenthesis touching the name. *)
Definition wf_defn (d : defn) : Prop :=
  ident (d_name d) /\
  (forall ps va, d_params d = Some (ps, va) -> Forall ident ps) /\
  (d_params d = None -> match d_body d with t :: _ => tt t = T_LPAREN -> lws t <> 0 | [] => True end) /\
  Forall (fun t => tt t <> T_NEWLINE /\ tt t <> T_END /\ tt t <> T_PARAM /\ tt t <> T_NUMBER) (d_body d).

(* 6.10.3p1,2: same number, order, spelling and white-space separation. *)
Definition same_spelling (a b : tok) : Prop := tt a = tt b /\ spell a = spell b.
Definition same_in_c (a b : defn) : Prop :=
  same_spelling (d_name a) (d_name b) /\
  (match d_params a, d_params b with
   | None, None => True
   | Some (p, v), Some (q, w) => Forall2 same_spelling p q /\ v = w
   | _, _ => False
   end) /\
  Forall2 (fun x y => same_spelling x y /\ expandable x = expandable y) (d_body a) (d_body b) /\
  Forall2 (fun x y => lws x = 0 <-> lws y = 0) (tl (d_body a)) (tl (d_body b)).

(* ---- Replacement ---- *)

(* A token without its spacing and marks. *)
Definition core (t : tok) : Z * bool * list Z * Z := (tt t, expandable t, spell t, pval t).

(* Balanced parentheses; commas at the top only if allowed. *)
Inductive balanced : bool -> list tok -> Prop :=
| bal_nil : forall c, balanced c []
| bal_tok : forall c t r, tt t <> T_LPAREN -> tt t <> T_RPAREN -> tt t <> T_NEWLINE ->
    (c = false -> tt t <> T_COMMA) -> balanced c r -> balanced c (t :: r)
| bal_group : forall c p a q r, tt p = T_LPAREN -> tt q = T_RPAREN -> balanced true a -> balanced c r ->
    balanced c (p :: a ++ q :: r).

(* Arguments separated by commas. *)
Inductive sep_args : list (list tok) -> list tok -> Prop :=
| sep_nil : sep_args [] []
| sep_one : forall a, sep_args [a] a
| sep_cons : forall a c b r s, tt c = T_COMMA -> sep_args (b :: r) s -> sep_args (a :: b :: r) (a ++ c :: s).

(* Each parameter replaced by its argument. *)
Definition subst (args : list (list tok)) (body : list tok) : list tok :=
  flat_map (fun t => if tt t =? T_PARAM then nth (Z.to_nat (pval t)) args [] else [t]) body.

Section PX.
Variable lookup : list Z -> option macro.

(* A macro without # and ## operators, as #define makes it. *)
Definition plain (m : macro) : Prop :=
  Forall (fun t => tt t <> T_PASTE /\ tt t <> T_HASH /\ disabled t = false /\ (tt t = T_PARAM -> 0 <= pval t < m_params m)) (m_repl m)
  /\ 0 <= m_params m /\ (m_func m = false -> m_params m = 0) /\ (m_vararg m = true -> 0 < m_params m).

(* An argument that mentions no macro. *)
Definition no_macros (a : list tok) : Prop :=
  Forall (fun t => expandable t = true -> lookup (spell t) = None) a.

(* The arguments fit the parameters. *)
Definition fits (m : macro) (args : list (list tok)) : Prop :=
  Z.of_nat (length args) = m_params m /\
  (if m_vararg m then exists i l, args = i ++ [l] /\ Forall (balanced false) i /\ balanced true l
   else Forall (balanced false) args).

(* Prosser's algorithm: every token carries the names it must not be replaced by (its hide set);
   a replacement is put back in front of the rest of the input and scanned again.
   Restriction: no # and ##, arguments mention no macros, and an invocation lies in the text
   of one macro (all of its tokens have the same hide set). *)
Inductive px : list (tok * list (list Z)) -> list tok -> Prop :=
| px_nil : px [] []
| px_other : forall t h ts o, (expandable t = true -> lookup (spell t) = None) ->
    px ts o -> px ((t, h) :: ts) (t :: o)
| px_hidden : forall t h ts o, expandable t = true -> In (spell t) h ->
    px ts o -> px ((t, h) :: ts) (t :: o)
| px_no_call : forall t h ts o m, expandable t = true -> lookup (spell t) = Some m -> m_func m = true ->
    (match ts with (u, _) :: _ => tt u <> T_LPAREN | [] => True end) ->
    px ts o -> px ((t, h) :: ts) (t :: o)
| px_object : forall t h ts o m, expandable t = true -> lookup (spell t) = Some m -> m_func m = false ->
    ~ In (spell t) h -> plain m ->
    px (map (fun u => (u, spell t :: h)) (m_repl m) ++ ts) o -> px ((t, h) :: ts) o
| px_call : forall t h ts o m p q args s, expandable t = true -> lookup (spell t) = Some m -> m_func m = true ->
    ~ In (spell t) h -> plain m ->
    tt p = T_LPAREN -> tt q = T_RPAREN -> sep_args args s -> fits m args -> Forall no_macros args ->
    px (map (fun u => (u, spell t :: h)) (subst args (m_repl m)) ++ ts) o ->
    px ((t, h) :: map (fun u => (u, h)) (p :: s ++ [q]) ++ ts) o.
End PX.
