(* C37: command line options are matched as their rules say. *)
From Coq Require Import ZArith List Bool String Lia.
From Verif Require Import ArgsModel ArgsSpec ArgsProofs.
Import List ListNotations.
Local Open Scope Z_scope.

(* An argument matches a rule if and only if it is one of the rule's spellings, provided what follows an optional part does not
   begin like it, no element of a set begins another and the argument has no bracket where the rule has one; see the
   refutations. *)
Theorem C37_rule : forall ps arg, Forall plain_piece ps -> unambiguous ps -> no_bracket ps arg ->
  exists b, match_rule (S (List.length (spell ps))) (spell ps) arg = Some b /\ (b = true <-> means ps arg).
Proof. intros. apply match_ok; try assumption. lia. Qed.
Print Assumptions C37_rule.
Definition rule_fpic : list piece := [Lit (text "-f"); Opt (text "no-"); Lit (text "PIC")].
Definition rule_opt : list piece := [Lit (text "-O"); Alt (text "0") [text "1"; text "2"; text "3"]].
Ltac no_means := repeat match goal with H : means _ _ |- _ => inversion H; clear H; subst end; try discriminate.
Ltac is_plain := unfold plain; repeat (constructor; [simpl; intuition discriminate|]); constructor.
Example C37_rule_instance :
  (spell rule_fpic = text "-f[no-]PIC" /\ Forall plain_piece rule_fpic /\ unambiguous rule_fpic /\ no_bracket rule_fpic (text "-fno-PIC") /\
   means rule_fpic (text "-fno-PIC") /\ means rule_fpic (text "-fPIC") /\ ~ means rule_fpic (text "-fno-PI")) /\
  (spell rule_opt = text "-O{0|1|2|3}" /\ means rule_opt (text "-O2") /\ match_rule 12 (spell rule_opt) (text "-O4") = Some false).
Proof.
  split.
  - split; [reflexivity|]. split; [repeat (constructor; [cbn [plain_piece]; is_plain|]); constructor|].
    split; [split; [|exact I]; intros a M; inversion M; discriminate|].
    split; [intros a X; injection X as <-; split; [discriminate|]; split; intros; simpl; auto|].
    split; [exact (means_lit (text "-f") _ _ (means_with (text "no-") _ _ (means_lit (text "PIC") _ _ means_nil)))|].
    split; [exact (means_lit (text "-f") _ _ (means_without (text "no-") _ _ (means_lit (text "PIC") _ _ means_nil)))|].
    intro M. no_means.
  - split; [reflexivity|]. split; [|reflexivity].
    exact (means_lit (text "-O") _ _ (means_alt (text "0") [text "1"; text "2"; text "3"] (text "2") _ _ (or_intror (or_intror (or_introl eq_refl))) means_nil)).
Qed.

(* For every list of options, every argument vector and every behaviour of the callbacks: parsing succeeds with the sequence of
   calls `calls` if and only if that is how the command line reads and every call succeeds.  No argument is skipped or used
   twice, and no access out of bounds happens. *)
Theorem C37_args : forall opts callback args,
  Forall well_formed opts -> (forall a, In a args -> hd 0 a = 45 -> Forall (fun o => arg_ok o a) opts) ->
  parse_args (map spelled opts) callback (S (List.length args)) args [] <> Stuck /\
  forall calls, (parse_args (map spelled opts) callback (S (List.length args)) args [] = Done calls <->
                 reads opts args calls /\ forall pre c post, calls = pre ++ c :: post -> callback pre c = 0).
Proof.
  intros opts callback args W A. destruct (parse_ok opts callback (S (List.length args)) args [] W A ltac:(lia)) as [NS I].
  split; [exact NS|]. intro calls. rewrite I. split.
  - intros (new & -> & R & S). split; [exact R|exact S].
  - intros [R S]. exists calls. split; [reflexivity|]. split; [exact R|exact S].
Qed.
Print Assumptions C37_args.

(* A command line reads in at most one way. *)
Theorem C37_deterministic : forall opts args calls1 calls2,
  Forall well_formed opts -> (forall a, In a args -> hd 0 a = 45 -> Forall (fun o => arg_ok o a) opts) ->
  reads opts args calls1 -> reads opts args calls2 -> calls1 = calls2.
Proof.
  intros opts args c1 c2 W A R1 R2.
  destruct (C37_args opts (fun _ _ => 0) args W A) as [_ I].
  pose proof (proj2 (I c1) (conj R1 (fun _ _ _ _ => eq_refl))) as X1. pose proof (proj2 (I c2) (conj R2 (fun _ _ _ _ => eq_refl))) as X2. congruence.
Qed.
Print Assumptions C37_deterministic.

(* The options of the compiler, read as rules. *)
Definition E (s : string) : option_rule := Exact [Lit (text s)].
Definition no (a b c : string) : option_rule := Exact [Lit (text a); Opt (text b); Lit (text c)].
Definition compiler_options : list option_rule :=
  [E "-S"; E "-E"; E "-c"; E "-v"; E "-w"; E "-g"; E "-W"; Glued (text "-W"); Separate (text "-x"); no "-f" "no-" "PIC";
   no "-f" "no-" "fast-math"; no "-f" "no-" "strict-aliasing"; no "-f" "no-" "common"; Equals (text "-fvisibility");
   no "-m" "no-" "sse"; no "-m" "no-" "sse2"; no "-m" "no-" "3dnow"; no "-m" "no-" "mmx"; E "-dot"; E "--help"; E "--version";
   Equals (text "-march"); Separate (text "-o"); Separate (text "-I"); Exact rule_opt; Equals (text "-std"); Separate (text "-D");
   E "--dump-symbols"; E "--dump-types"; E "-nostdinc"; Separate (text "-isystem"); Separate (text "-include");
   Equals (text "-print-file-name"); E "-pipe"; E "-pedantic"; E "-MD"; E "-MP"; E "-Wl,"; E "-rdynamic"; E "-shared"; E "-static";
   no "-" "no" "pie"; no "-f" "no-" "PIE"; Separate (text "-l"); Separate (text "-L")]%string.
(* The argument does not spell a bracket after -f, -m, -O or -. *)
Definition bracketless (a : list Z) : Prop :=
  forall p, In p (map text ["-f["; "-m["; "-O{"; "-["]%string) -> forall r, a <> p ++ r.

Lemma means_one : forall s a, means [Lit s] a -> a = s.
Proof. intros s a M. inversion M as [|? ? ? N E1 E2| | |]; subst. inversion N; subst. apply app_nil_r. Qed.
Lemma wf_exact : forall s, plain (text s) -> ~ In (last (text s) 0) [58; 60; 61] -> well_formed (E s).
Proof.
  intros s P L. cbn. rewrite app_nil_r. split; [|split; [exact I|exact L]]. constructor; [exact P|constructor].
Qed.
Lemma wf_no : forall a b c, plain (text a) -> plain (text b) -> plain (text c) -> starts (text b) (text c) = false ->
  ~ In (last (spell [Lit (text a); Opt (text b); Lit (text c)]) 0) [58; 60; 61] -> well_formed (no a b c).
Proof.
  intros a b c PA PB PC S L. split; [repeat (constructor; [assumption|]); constructor|]. split; [|exact L].
  cbn. split; [|exact I]. intros x M. apply means_one in M. apply (starts_no _ _ S x). symmetry. exact M.
Qed.
Lemma ok_no : forall a b c arg, (forall r, arg <> (text a ++ [91]) ++ r) -> arg_ok (no a b c) arg.
Proof.
  intros a b c arg H. cbn [arg_ok no no_bracket]. intros x X. split; [|split; intros; exact I].
  intro Y. destruct x as [|d x]; [discriminate|]. simpl in Y. subst d. apply (H x). rewrite <- app_assoc. exact X.
Qed.
Lemma W24 : well_formed (Exact rule_opt).
Proof.
  split; [constructor; [cbn [plain_piece]; is_plain|]; constructor; [|constructor]; cbn [plain_piece]; repeat (constructor; [is_plain|]); constructor|].
  split; [|simpl; intuition discriminate].
  split; [|exact I]. intros y z a Y Z X. simpl in Y, Z.
  repeat (destruct Y as [<-|Y]; [repeat (destruct Z as [<-|Z]; [first [reflexivity|discriminate X]|]); contradiction|]). contradiction.
Qed.
Lemma A24 : forall a, bracketless a -> arg_ok (Exact rule_opt) a.
Proof.
  intros a B. cbn [arg_ok rule_opt no_bracket]. intros x X. split; [|intros; exact I].
  intro Y. destruct x as [|d x]; [discriminate|]. simpl in Y. subst d. apply (B (text "-O{") ltac:(simpl; auto) x). exact X.
Qed.
Theorem C37_table : map spelled compiler_options = option_table /\ Forall well_formed compiler_options /\
  forall a, bracketless a -> Forall (fun o => arg_ok o a) compiler_options.
Proof.
  split; [reflexivity|]. split.
  - unfold compiler_options.
    repeat (constructor; [first [exact I
      | apply wf_exact; [is_plain|simpl; intuition discriminate]
      | apply wf_no; [is_plain|is_plain|is_plain|reflexivity|simpl; intuition discriminate]
      | exact W24]|]); constructor.
  - intros a B. unfold compiler_options.
    repeat (constructor; [first [exact I
      | apply ok_no; apply B; simpl; auto
      | intros ? _; exact I
      | exact (A24 a B)]|]); constructor.
Qed.
Print Assumptions C37_table.

(* A command line: lacc -c -O2 -o x.o -Iinc -fno-PIC a.c *)
Example C37_args_instance :
  let args := map text ["-c"; "-O2"; "-o"; "x.o"; "-Iinc"; "-fno-PIC"; "a.c"]%string in
  let calls := [(Some (text "-c"), text "-c"); (Some (text "-O{0|1|2|3}"), text "-O2"); (Some (text "-o:"), text "x.o");
                (Some (text "-I:"), text "inc"); (Some (text "-f[no-]PIC"), text "-fno-PIC"); (None, text "a.c")] in
  Forall bracketless args /\ reads compiler_options args calls /\
  parse_args option_table (fun _ _ => 0) (S (List.length args)) args [] = Done calls.
Proof.
  intros args calls.
  assert (B : Forall bracketless args).
  { repeat (constructor; [intros p P r X; simpl in P; repeat (destruct P as [<-|P]; [discriminate X|]); contradiction|]). constructor. }
  assert (D : parse_args option_table (fun _ _ => 0) (S (List.length args)) args [] = Done calls) by (vm_compute; reflexivity).
  split; [exact B|]. split; [|exact D]. destruct C37_table as (T & W & A).
  apply (proj2 (C37_args compiler_options (fun _ _ => 0) args W (fun a I _ => A a (proj1 (Forall_forall _ _) B a I))) calls). rewrite T. exact D.
Qed.

(* Without the conditions on rule and argument the claim fails.  An argument that spells the brackets of the rule matches; an
   optional part is taken greedily; the first element of a set that fits is taken. *)
Theorem C37_rule_refuted :
  (match_rule 20 (text "-f[no-]PIC") (text "-f[no-]PIC") = Some true /\ ~ means rule_fpic (text "-f[no-]PIC")) /\
  (match_rule 20 (text "-f[no-]no-x") (text "-fno-x") = Some false /\ means [Lit (text "-f"); Opt (text "no-"); Lit (text "no-x")] (text "-fno-x")) /\
  (match_rule 20 (text "-{a|ab}") (text "-ab") = Some false /\ means [Lit (text "-"); Alt (text "a") [text "ab"]] (text "-ab")).
Proof.
  split; [|split]; (split; [vm_compute; reflexivity|]).
  - intro M. no_means.
  - exact (means_lit (text "-f") _ _ (means_without (text "no-") _ _ (means_lit (text "no-x") _ _ means_nil))).
  - exact (means_lit (text "-") _ _ (means_alt (text "a") [text "ab"] (text "ab") _ _ (or_intror (or_introl eq_refl)) means_nil)).
Qed.
Print Assumptions C37_rule_refuted.

Lemma first_match_value : forall l arg next r v n, first_match l arg next = Found r v n -> match_arg r arg next = Value v n.
Proof.
  induction l as [|x l IH]; intros arg next r v n H; cbn [first_match] in H; [discriminate|].
  destruct (match_arg x arg next) as [| |w m|] eqn:M; try discriminate; [apply IH; exact H|]. injection H as -> -> ->. exact M.
Qed.
(* No command line passes options to the linker: an argument that begins with -Wl, is always taken by the option -W<, which
   the compiler ignores, and never by -Wl, whose callback hands it on. *)
Theorem C37_linker_refuted : forall callback fuel args calls, parse_args option_table callback fuel args [] = Done calls ->
  forall v, ~ In (Some (text "-Wl,"), v) calls.
Proof.
  assert (K : forall rules1 arg next r v n, first_match (rules1 ++ [text "-W<"] ++ map text ["-x:"; "-f[no-]PIC"; "-f[no-]fast-math"; "-f[no-]strict-aliasing";
   "-f[no-]common"; "-fvisibility="; "-m[no-]sse"; "-m[no-]sse2"; "-m[no-]3dnow"; "-m[no-]mmx"; "-dot"; "--help"; "--version";
   "-march="; "-o:"; "-I:"; "-O{0|1|2|3}"; "-std="; "-D:"; "--dump-symbols"; "--dump-types"; "-nostdinc"; "-isystem:";
   "-include:"; "-print-file-name="; "-pipe"; "-pedantic"; "-MD"; "-MP"; "-Wl,"; "-rdynamic"; "-shared"; "-static"; "-[no]pie";
   "-f[no-]PIE"; "-l:"; "-L:"]%string) arg next = Found r v n -> ~ In (text "-Wl,") rules1 -> r <> text "-Wl,").
  { induction rules1 as [|r0 rules1 IH]; intros arg next r v n F NI X.
    - subst r. cbn [app first_match] in F. destruct (match_arg (text "-W<") arg next) as [| |w m|] eqn:M; try discriminate.
      assert (V : match_arg (text "-Wl,") arg next = NoMatch).
      { unfold match_arg in *. cbn in M. cbn [last text] in *.
        change (match_rule (S (List.length (text "-Wl,"))) (text "-Wl,") arg) with (match_rule 5 (text "-Wl," ++ []) arg).
        change ((if last (text "-Wl,") 0 =? 58 then
          if starts (removelast (text "-Wl,")) arg then
            if Nat.eqb (List.length arg) (List.length (removelast (text "-Wl,"))) then
              match next with None => Missing | Some v => Value v 2 end
            else Value (skipn (List.length (removelast (text "-Wl,"))) arg) 1
          else NoMatch
          else match match_rule 5 (text "-Wl," ++ []) arg with None => Broken | Some true => Value arg 1 | Some false => NoMatch end) = NoMatch).
        change (last (text "-Wl,") 0 =? 58) with false. cbv iota.
        rewrite match_lit by (try is_plain; lia). destruct (starts (text "-Wl,") arg) eqn:S; [|reflexivity]. exfalso.
        apply starts_iff in S as (a & ->). cbn in M. discriminate M. }
      clear - F V.
      apply first_match_value in F. congruence.
    - cbn [app first_match] in F. destruct (match_arg r0 arg next) as [| |w m|]; try discriminate.
      + apply (IH _ _ _ _ _ F); [intro; apply NI; right; assumption|exact X].
      + injection F as -> -> ->. apply NI. left. exact X. }
  intros callback fuel args calls P v. revert P.
  assert (G : forall fuel args past, ~ In (Some (text "-Wl,"), v) past -> parse_args option_table callback fuel args past = Done calls ->
    ~ In (Some (text "-Wl,"), v) calls).
  { clear fuel args. induction fuel as [|m IH]; intros args past NP P; [discriminate|]. destruct args as [|arg rest]; cbn [parse_args] in P.
    - injection P as <-. exact NP.
    - destruct (hd 0 arg =? 45).
      + destruct (first_match option_table arg (hd_error rest)) as [|r w n| |] eqn:F; try discriminate.
        destruct (callback past (Some r, w) =? 0); [|discriminate]. apply IH in P; [exact P|].
        intro I. apply in_app_or in I as [I|[I|[]]]; [contradiction|]. injection I as -> ->.
        apply (K (map text ["-S"; "-E"; "-c"; "-v"; "-w"; "-g"; "-W"]%string) arg (hd_error rest) (text "-Wl,") v n F); [|reflexivity].
        simpl. intuition discriminate.
      + destruct (callback past (None, arg) =? 0); [|discriminate]. apply IH in P; [exact P|].
        intro I. apply in_app_or in I as [I|[I|[]]]; [contradiction|discriminate]. }
  apply G. intros [].
Qed.
Print Assumptions C37_linker_refuted.
Example C37_linker_refuted_instance :
  parse_args option_table (fun _ _ => 0) 3 (map text ["-Wl,-z,now"; "a.c"]%string) [] =
  Done [(Some (text "-W<"), text "l,-z,now"); (None, text "a.c")].
Proof. vm_compute. reflexivity. Qed.
