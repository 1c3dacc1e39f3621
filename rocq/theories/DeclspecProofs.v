From Coq Require Import List Bool Arith Lia Permutation.
From Verif Require Import DeclspecModel DeclspecSpec.
Import ListNotations.

Definition canon_sign (s : sign) : list tok := match s with S_NONE => [] | S_SIGNED => [SIGNED] | S_UNSIGNED => [UNSIGNED] end.
Definition canon_mod (m : modifier) : list tok := match m with M_NONE => [] | M_SHORT => [SHORT] | M_LONG => [LONG] | M_LONG_LONG => [LONG; LONG] end.
Definition canon_base (st : state) (named : tok) : list tok :=
  match s_base st with
  | B_NONE => [] | B_VOID => [VOID] | B_BOOL => [BOOL] | B_CHAR => [CHAR] | B_INT => [INT] | B_FLOAT => [FLOAT] | B_DOUBLE => [DOUBLE]
  | B_ENUM => [ENUM] | B_AGGREGATE => [named]
  end.
Definition canon (st : state) (named : tok) : list tok := canon_sign (s_sign st) ++ canon_mod (s_mod st) ++ canon_base st named.
Definition is_named (st : state) (named : tok) : Prop := s_base st = B_AGGREGATE -> named = TypedefName (s_type st) \/ named = StructUnion (s_type st).


Lemma add_base : forall st st' named named' t, s_base st = B_NONE -> canon_base st' named' = [t] -> s_sign st' = s_sign st -> s_mod st' = s_mod st ->
  Permutation ([t] ++ canon st named) (canon st' named').
Proof.
  intros st st' named named' t B C S M. unfold canon. rewrite C, S, M. unfold canon_base. rewrite B. rewrite app_nil_r.
  rewrite (app_assoc (canon_sign (s_sign st)) (canon_mod (s_mod st)) [t]). cbn [app].
  rewrite <- (app_nil_r (canon_sign (s_sign st) ++ canon_mod (s_mod st))) at 1. apply Permutation_middle.
Qed.
Lemma add_mod : forall st st' named t, canon_mod (s_mod st') = t :: canon_mod (s_mod st) -> canon_base st' named = canon_base st named -> s_sign st' = s_sign st ->
  Permutation ([t] ++ canon st named) (canon st' named).
Proof. intros st st' named t M B S. unfold canon. rewrite M, B, S. cbn [app]. apply Permutation_middle. Qed.
Lemma add_sign : forall st st' named t, s_sign st = S_NONE -> canon_sign (s_sign st') = [t] -> canon_base st' named = canon_base st named -> s_mod st' = s_mod st ->
  Permutation ([t] ++ canon st named) (canon st' named).
Proof. intros st st' named t S0 S B M. unfold canon. rewrite M, B, S, S0. apply Permutation_refl. Qed.

(* A specifier adds itself to what the state stands for. *)
Lemma step_canon : forall info st named t st', is_named st named -> step info st t = Some st' -> errors st' = errors st ->
  exists named', is_named st' named' /\ Permutation (type_specifiers [t] ++ canon st named) (canon st' named').
Proof.
  intros info st named t st' N H E.
  destruct t; cbn [step] in H;
    try (match type of H with context [if no_base ?x && _ && _ then _ else _] => destruct (no_base x) eqn:NB; [|discriminate] end);
    try (match type of H with context [if no_base ?x && _ then _ else _] => destruct (no_base x) eqn:NB; [|discriminate] end);
    try (match type of H with context [if no_base ?x then _ else _] => destruct (no_base x) eqn:NB; [|discriminate] end);
    try (match type of H with context [if ?x then Some _ else None] => destruct x eqn:X; [|discriminate] end);
    try discriminate; injection H as <-;
    try (assert (s_base st = B_NONE) as NB' by (unfold no_base in NB; destruct (s_base st); congruence)).
  all: try (exists named; split; [intro Y; discriminate Y|]; cbn [type_specifiers filter is_type_specifier]; apply add_base; first [exact NB'|reflexivity]).
  all: try (exists named; split; [exact N|apply Permutation_refl]).
  - exists named. split; [exact N|]. apply add_mod; try reflexivity. cbn. unfold no_mod in X. destruct (s_mod st); [reflexivity|discriminate..].
  - exists named. split; [exact N|]. apply add_mod; try reflexivity. cbn. destruct (s_mod st); try discriminate; reflexivity.
  - destruct (s_sign st) eqn:S; cbn in E; try lia. exists named. split; [exact N|]. apply add_sign; try assumption; reflexivity.
  - destruct (s_sign st) eqn:S; cbn in E; try lia. exists named. split; [exact N|]. apply add_sign; try assumption; reflexivity.
  - exists (TypedefName t). split; [intro; left; reflexivity|]. apply add_base; first [exact NB'|reflexivity].
  - exists (StructUnion t). split; [intro; right; reflexivity|]. apply add_base; first [exact NB'|reflexivity].
  - exists named. destruct (info && negb (is_inline st)); (split; [exact N|apply Permutation_refl]).
  - exists named. destruct (info && negb (is_noreturn st)); (split; [exact N|apply Permutation_refl]).
  - exists named. destruct (info && negb (is_register st)); (split; [exact N|apply Permutation_refl]).
  - exists named. destruct info, (storage_class st); (split; [exact N|apply Permutation_refl]).
Qed.

Lemma step_errors : forall info st t st', step info st t = Some st' -> errors st <= errors st'.
Proof.
  intros info st t st' H. destruct t; cbn [step] in H;
    try (match type of H with context [if ?x then Some _ else None] => destruct x; [|discriminate] end);
    try discriminate; injection H as <-; cbn; try lia.
  - destruct (s_sign st); cbn; lia.
  - destruct (s_sign st); cbn; lia.
  - destruct (info && negb (is_inline st)); cbn; lia.
  - destruct (info && negb (is_noreturn st)); cbn; lia.
  - destruct (info && negb (is_register st)); cbn; lia.
  - destruct info, (storage_class st); cbn; lia.
Qed.
Lemma specifiers_errors : forall info l st st' r, specifiers info st l = (st', r) -> errors st <= errors st'.
Proof.
  induction l as [|t l IH]; intros st st' r H; cbn in H; [injection H as <- <-; lia|].
  destruct (step info st t) as [st1|] eqn:E; [|injection H as <- <-; lia]. apply step_errors in E. apply IH in H. lia.
Qed.
Lemma specifiers_app : forall info l st st' r, specifiers info st l = (st', []) -> specifiers info st (l ++ r) = specifiers info st' r.
Proof.
  induction l as [|t l IH]; intros st st' r H; cbn in *; [injection H as <-; reflexivity|].
  destruct (step info st t) as [st1|]; [apply IH; exact H|discriminate].
Qed.
Lemma specifiers_split : forall info l st st' r, specifiers info st l = (st', r) -> exists c, l = c ++ r /\ specifiers info st c = (st', []).
Proof.
  induction l as [|t l IH]; intros st st' r H; cbn in H; [injection H as <- <-; exists []; split; reflexivity|].
  destruct (step info st t) as [st1|] eqn:E; [|injection H as <- <-; exists []; split; reflexivity].
  destruct (IH _ _ _ H) as (c & -> & C). exists (t :: c). split; [reflexivity|]. cbn. rewrite E. exact C.
Qed.
Lemma specifiers_snoc : forall info l t st st', specifiers info st (l ++ [t]) = (st', []) ->
  exists st1, specifiers info st l = (st1, []) /\ step info st1 t = Some st'.
Proof.
  induction l as [|x l IH]; intros t st st' H; cbn in H.
  - destruct (step info st t) as [s|] eqn:E; [|discriminate]. injection H as ->. exists st. split; [reflexivity|exact E].
  - cbn. destruct (step info st x) as [s|]; [|discriminate]. apply IH. exact H.
Qed.

Definition p_const (t : tok) : bool := match t with CONST => true | _ => false end.
Definition p_volatile (t : tok) : bool := match t with VOLATILE => true | _ => false end.
Definition b2n (b : bool) : nat := if b then 1 else 0.

Record inv (info : bool) (l : list tok) (st : state) (named : tok) : Prop := {
  i_named : is_named st named;
  i_perm : Permutation (type_specifiers l) (canon st named);
  i_mod : match s_base st with B_NONE | B_INT => True | B_DOUBLE => s_mod st = M_NONE \/ s_mod st = M_LONG | _ => s_mod st = M_NONE end;
  i_const : s_const st = existsb p_const l;
  i_volatile : s_volatile st = existsb p_volatile l;
  i_storage : match storage_class st with Some s => [s] | None => [] end = storages l;
  i_inline : b2n (is_inline st) = occurs p_inline l;
  i_noreturn : b2n (is_noreturn st) = occurs p_noreturn l;
  i_register : b2n (is_register st) = occurs p_register l;
  i_info : info = false -> storages l = [] /\ occurs p_inline l = 0 /\ occurs p_noreturn l = 0 /\ occurs p_register l = 0;
}.
Lemma type_app : forall l t, Permutation (type_specifiers (l ++ [t])) (type_specifiers [t] ++ type_specifiers l).
Proof. intros. unfold type_specifiers. rewrite filter_app. apply Permutation_app_comm. Qed.
Lemma occurs_app : forall p l t, occurs p (l ++ [t]) = occurs p l + b2n (p t).
Proof. intros. unfold occurs. rewrite filter_app, app_length. cbn. destruct (p t); reflexivity. Qed.
Lemma storages_app : forall l t, storages (l ++ [t]) = storages l ++ storages [t].
Proof. intros. unfold storages. apply flat_map_app. Qed.

Lemma inv_start : forall info, inv info [] start Other.
Proof. intros. constructor; try reflexivity; try exact I; try (repeat split). intro H. discriminate. Qed.
Lemma step_same : forall info st t st', is_type_specifier t = false -> step info st t = Some st' ->
  s_base st' = s_base st /\ s_mod st' = s_mod st /\ s_sign st' = s_sign st /\ s_type st' = s_type st.
Proof.
  intros info st t st' T H. destruct t; try discriminate T; cbn [step] in H; try discriminate H; injection H as <-;
    try (match goal with |- context [if ?x then _ else _] => destruct x end); try (destruct (storage_class st)); repeat split; reflexivity.
Qed.
Lemma inv_step : forall info l st named t st', inv info l st named -> step info st t = Some st' -> errors st' = errors st ->
  exists named', inv info (l ++ [t]) st' named'.
Proof.
  intros info l st named t st' V H E. destruct (step_canon _ _ _ _ _ (i_named _ _ _ _ V) H E) as (named' & N & P).
  exists named'. destruct V as [_ VP VM VC VV VS VI VN VR VF].
  constructor; [exact N| | | | | | | | |].
  - rewrite type_app. rewrite VP. exact P.
  - clear - H VM. destruct (is_type_specifier t) eqn:T.
    + destruct t; try discriminate T; cbn [step] in H; unfold no_base, no_mod, no_sign in H; destruct (s_base st) eqn:B; try discriminate H;
        destruct (s_mod st) eqn:M; try discriminate H; destruct (s_sign st) eqn:S; try discriminate H;
        injection H as <-; cbn; rewrite ?B, ?M; first [exact I|exact VM|reflexivity|left; reflexivity|right; reflexivity|discriminate VM|destruct VM; discriminate].
    + destruct (step_same _ _ _ _ T H) as (B & M & _). rewrite B, M. exact VM.
  - rewrite existsb_app. cbn. rewrite orb_false_r. rewrite <- VC. clear - H. destruct t; cbn [step] in H;
      try (match type of H with context [if ?x then Some _ else None] => destruct x; [|discriminate] end); try discriminate; injection H as <-; cbn;
      repeat (match goal with |- context [match ?x with _ => _ end] => destruct x; cbn end); rewrite ?orb_false_r, ?orb_true_r; reflexivity.
  - rewrite existsb_app. cbn. rewrite orb_false_r. rewrite <- VV. clear - H. destruct t; cbn [step] in H;
      try (match type of H with context [if ?x then Some _ else None] => destruct x; [|discriminate] end); try discriminate; injection H as <-; cbn;
      repeat (match goal with |- context [match ?x with _ => _ end] => destruct x; cbn end); rewrite ?orb_false_r, ?orb_true_r; reflexivity.
  - rewrite storages_app. rewrite <- VS. clear - H E. destruct t; cbn [step] in H;
      try (match type of H with context [if ?x then Some _ else None] => destruct x; [|discriminate] end); try discriminate; injection H as <-; cbn;
      try (destruct (s_sign st)); try (match goal with |- context [if ?x then mk_state _ _ _ _ _ _ _ _ _ _ _ _ else _] => destruct x end); try (cbn in *; rewrite ?app_nil_r; reflexivity).
    all: destruct info, (storage_class st); cbn in *; rewrite ?app_nil_r; try lia; reflexivity.
  - rewrite occurs_app. rewrite <- VI. clear - H E. destruct t; cbn [step] in H;
      try (match type of H with context [if ?x then Some _ else None] => destruct x; [|discriminate] end); try discriminate; injection H as <-; cbn;
      try (destruct (s_sign st)); cbn; try lia;
      destruct info, (is_inline st) eqn:?, (is_noreturn st) eqn:?, (is_register st) eqn:?, (storage_class st) eqn:?; cbn in *; unfold b2n; cbn; repeat match goal with H : _ st = _ |- _ => rewrite H in * end; cbn in *; lia.
  - rewrite occurs_app. rewrite <- VN. clear - H E. destruct t; cbn [step] in H;
      try (match type of H with context [if ?x then Some _ else None] => destruct x; [|discriminate] end); try discriminate; injection H as <-; cbn;
      try (destruct (s_sign st)); cbn; try lia;
      destruct info, (is_inline st) eqn:?, (is_noreturn st) eqn:?, (is_register st) eqn:?, (storage_class st) eqn:?; cbn in *; unfold b2n; cbn; repeat match goal with H : _ st = _ |- _ => rewrite H in * end; cbn in *; lia.
  - rewrite occurs_app. rewrite <- VR. clear - H E. destruct t; cbn [step] in H;
      try (match type of H with context [if ?x then Some _ else None] => destruct x; [|discriminate] end); try discriminate; injection H as <-; cbn;
      try (destruct (s_sign st)); cbn; try lia;
      destruct info, (is_inline st) eqn:?, (is_noreturn st) eqn:?, (is_register st) eqn:?, (storage_class st) eqn:?; cbn in *; unfold b2n; cbn; repeat match goal with H : _ st = _ |- _ => rewrite H in * end; cbn in *; lia.
  - intro F. rewrite storages_app, !occurs_app. destruct (VF F) as (-> & -> & -> & ->). subst info. clear - H E.
    destruct t; cbn [step] in H;
      try (match type of H with context [if ?x then Some _ else None] => destruct x; [|discriminate] end); try discriminate; injection H as <-; cbn in *;
      try lia; repeat split; reflexivity.
Qed.
Lemma inv_run : forall info l st, specifiers info start l = (st, []) -> errors st = 0 -> exists named, inv info l st named.
Proof.
  intros info l. induction l as [|t l IH] using rev_ind; intros st H E.
  - injection H as <-. exists Other. apply inv_start.
  - apply specifiers_snoc in H as (st1 & H1 & H2). pose proof (step_errors _ _ _ _ H2) as L.
    destruct (IH st1 H1 ltac:(lia)) as (named & V). eapply inv_step; [exact V|exact H2|lia].
Qed.
