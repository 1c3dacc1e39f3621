(* Declarators: reading what a declarator is written as gives the type it means. *)
From Coq Require Import List Bool Arith ZArith Lia.
From Verif Require Import Util DeclModel DeclSpec DeclProofs DeclPath DeclParse.
Import ListNotations.
Open Scope Z_scope.

(* ---- Declarators as a middle with brackets and parameters after it ---- *)
Inductive suf := XArr (b : brackets) | XFun (ps : list (specs * decl)) (va : bool) | XVoid | XIds (xs : list nat).
Definition app1 (d : decl) (x : suf) : decl :=
  match x with XArr b => DArr d b | XFun ps va => DFun d ps va | XVoid => DVoid d | XIds xs => DIds d xs end.
Definition apps (d : decl) (l : list suf) : decl := fold_left app1 l d.
Definition core (d : decl) : bool := match d with DName _ | DParen _ => true | _ => false end.
Definition anon (d : decl) : bool := match d with DName None => true | _ => false end.

Fixpoint pmeaning (s : senv) (ps : list (specs * decl)) : list (name * ty) :=
  match ps with
  | [] => []
  | (sp, p) :: ps => (declares p, adjusted (meaning s p (specified s sp))) :: pmeaning (hide s (declares p)) ps
  end.
Definition sframe (s : senv) (x : suf) : frame :=
  match x with
  | XArr b => aframe b
  | XFun ps va => FFun (pmeaning s ps) (Proto va)
  | XVoid => FFun [] (Proto false)
  | XIds xs => FFun (map (fun x => (Some x, TPending)) xs) Unknown
  end.
Fixpoint frames (s : senv) (d : decl) : list frame :=
  match d with
  | DName _ => []
  | DParen d => frames s d
  | DPtr q d => frames s d ++ [FPtr (all_quals q)]
  | DArr d b => frames s d ++ [aframe b]
  | DFun d ps va => frames s d ++ [sframe s (XFun ps va)]
  | DVoid d => frames s d ++ [sframe s XVoid]
  | DIds d xs => frames s d ++ [sframe s (XIds xs)]
  end.
Lemma each_pmeaning : forall ps s,
  (fix each (e : senv) (ps : list (specs * decl)) : list (name * ty) :=
     match ps with
     | [] => []
     | (s, p) :: ps => (declares p, adjusted (meaning e p (specified e s))) :: each (hide e (declares p)) ps
     end) s ps = pmeaning s ps.
Proof. induction ps as [|[sp p] ps IH]; intros s; cbn; [auto|]. f_equal; try apply IH. Qed.
Lemma meaning_plug : forall d s t, meaning s d t = plug (frames s d) t.
Proof.
  induction d; intros s t; cbn [meaning frames]; rewrite ?plug_app, ?IHd; auto.
Qed.

Definition wparam (p : specs * decl) : list tok := write_specs (fst p) ++ write (snd p).
Definition wsuf (x : suf) : list tok :=
  match x with
  | XArr b => write_brackets b
  | XFun ps va => Klp :: commas (map wparam ps) ++ (if va then [Kcomma; Kdots] else []) ++ [Krp]
  | XVoid => [Klp; Kbase VOID false; Krp]
  | XIds xs => Klp :: commas (map (fun x => [Kid x]) xs) ++ [Krp]
  end.
Lemma write_app1 : forall d x, write (app1 d x) = write d ++ wsuf x.
Proof.
  intros d [b|ps va| |xs]; cbn; auto. do 3 f_equal. f_equal. apply map_ext. now intros [].
Qed.
Lemma write_apps : forall l d, write (apps d l) = write d ++ concat (map wsuf l).
Proof.
  induction l as [|x l IH]; intros d; cbn [apps fold_left map concat]; [now rewrite app_nil_r|].
  change (fold_left app1 l (app1 d x)) with (apps (app1 d x) l). rewrite IH, write_app1, app_assoc. reflexivity.
Qed.
Lemma frames_apps : forall l d s, frames s (apps d l) = frames s d ++ map (sframe s) l.
Proof.
  induction l as [|x l IH]; intros d s; cbn [apps fold_left map]; [now rewrite app_nil_r|].
  change (fold_left app1 l (app1 d x)) with (apps (app1 d x) l). rewrite IH.
  destruct x; cbn [app1 frames]; now rewrite <- app_assoc.
Qed.
Lemma declares_apps : forall l d, declares (apps d l) = declares d.
Proof.
  induction l as [|x l IH]; intros d; cbn [apps fold_left]; auto.
  change (fold_left app1 l (app1 d x)) with (apps (app1 d x) l). rewrite IH. now destruct x.
Qed.

Section Main.
  Variable tag : tags.
  Hypothesis Hsizes : sizes_ok tag.
  Variable def : bool.

  Fixpoint goodps (s : senv) (seen : list name) (ps : list (specs * decl)) : bool :=
    match ps with
    | [] => true
    | (sp, p) :: ps =>
        good_specs tag s sp && good tag def def s p
        && declarable_parameter tag (meaning s p (specified s sp)) && negb (is_tvoid (meaning s p (specified s sp)))
        && fresh (declares p) seen
        && goodps (hide s (declares p)) (declares p :: seen) ps
    end.
  Fixpoint distinct (l : list nat) : bool := match l with [] => true | x :: l => negb (existsb (Nat.eqb x) l) && distinct l end.
  Definition goodx (q an : bool) (s : senv) (x : suf) : bool :=
    match x with
    | XArr b => good_brackets q b
    | XFun ps va => match ps with [] => false | _ => true end && goodps s [] ps
    | XVoid => true
    | XIds xs => match xs with [] => true | _ => negb an end &&
        forallb (fun x => match typedef s x with None => true | Some _ => false end) xs && distinct xs
    end.
  Fixpoint goods (q an : bool) (s : senv) (l : list suf) : bool :=
    match l with
    | [] => true
    | x :: l => goodx q an s x && goods false false s l
    end.
  Lemma each_goodps : forall ps s seen,
    (fix each (e : senv) (seen : list name) (ps : list (specs * decl)) : bool :=
       match ps with
       | [] => true
       | (s, p) :: ps =>
           good_specs tag e s && good tag def def e p
           && declarable_parameter tag (meaning e p (specified e s)) && negb (is_tvoid (meaning e p (specified e s)))
           && fresh (declares p) seen
           && each (hide e (declares p)) (declares p :: seen) ps
       end) s seen ps = goodps s seen ps.
  Proof. induction ps as [|[sp p] ps IH]; intros s seen; cbn; [auto|]. f_equal; try apply IH. Qed.
  Lemma good_app1 : forall p s d x, good tag def p s (app1 d x) = true ->
    direct d = true /\ good tag def p s d = true /\ goodx (p && bare d) (anon d) s x = true.
  Proof.
    intros p s d [b|ps va| |xs] H; cbn [app1 good goodx] in *.
    - apply andb_prop in H as [H H2]. apply andb_prop in H as [H H1]. auto.
    - apply andb_prop in H as [H H2]. apply andb_prop in H as [H H3]. apply andb_prop in H as [H H1]. rewrite each_goodps in H2.
      rewrite H2, H3. auto.
    - apply andb_prop in H as [H H1]. auto.
    - apply andb_prop in H as [H H4]. apply andb_prop in H as [H H3]. apply andb_prop in H as [H H2]. apply andb_prop in H as [H H1].
      split; auto. split; auto. apply andb_true_intro. split; [|exact H4]. apply andb_true_intro. split; auto.
      destruct xs; auto. destruct d as [[]| | | | | |]; auto; discriminate.
  Qed.
  Lemma good_apps : forall l p s d, good tag def p s (apps d l) = true ->
    good tag def p s d = true /\ goods (p && bare d) (anon d) s l = true.
  Proof.
    induction l as [|x l IH]; intros p s d H; cbn [goods]; auto.
    cbn [apps fold_left] in H. change (fold_left app1 l (app1 d x)) with (apps (app1 d x) l) in H.
    apply IH in H as [H1 H2]. apply good_app1 in H1 as (A & B & C).
    split; auto. rewrite C. cbn. replace (p && bare (app1 d x)) with false in H2 by (destruct x; now rewrite andb_false_r).
    replace (anon (app1 d x)) with false in H2 by now destruct x. auto.
  Qed.
  Lemma split_direct : forall d p s, good tag def p s d = true -> direct d = true ->
    exists c l, d = apps c l /\ core c = true.
  Proof.
    assert (S : forall d x p s, (forall p s, good tag def p s d = true -> direct d = true -> exists c l, d = apps c l /\ core c = true) ->
      good tag def p s (app1 d x) = true -> exists c l, app1 d x = apps c l /\ core c = true).
    { intros d x p s IH H. apply good_app1 in H as (A & B & _). destruct (IH p s B A) as (c & l & -> & Hc).
      exists c, (l ++ [x]). unfold apps. now rewrite fold_left_app. }
    induction d; intros p s Hg Hd.
    - exists (DName x), []. auto.
    - exists (DParen d), []. auto.
    - discriminate.
    - apply (S d (XArr b) p s IHd Hg).
    - apply (S d (XFun ps variadic) p s IHd Hg).
    - apply (S d XVoid p s IHd Hg).
    - apply (S d (XIds xs) p s IHd Hg).
  Qed.

  (* Only these occur. *)
  Definition fun_suf (x : suf) : bool := match x with XArr _ => false | _ => true end.
  Lemma shape : forall l s t, declarable tag (plug (map (sframe s) l) t) = true ->
    l = [] \/ (exists bs, bs <> [] /\ l = map XArr bs) \/ (exists x, fun_suf x = true /\ l = [x]).
  Proof.
    induction l as [|x l IH]; intros s t H; auto. right.
    assert (Hl : declarable tag (plug (map (sframe s) l) t) = true /\ is_fun (plug (map (sframe s) l) t) = false /\
      (fun_suf x = true -> is_arr (plug (map (sframe s) l) t) = false)).
    { cbn [map plug] in H. destruct x; cbn [sframe plug aframe] in H; cbn [declarable] in H.
      - apply andb_prop in H as [H1 H2]. apply andb_prop in H1 as [_ H1]. unfold element in H1. apply andb_prop in H1 as [H1 _].
        apply andb_prop in H1 as [_ H1]. apply negb_true_iff in H1. repeat split; auto. discriminate.
      - apply andb_prop in H as [H1 H2]. apply andb_prop in H1 as [H1 H3]. apply negb_true_iff in H1, H3. auto.
      - apply andb_prop in H as [H1 H2]. apply andb_prop in H1 as [H1 H3]. apply negb_true_iff in H1, H3. auto.
      - apply andb_prop in H as [H1 H2]. apply andb_prop in H1 as [H1 H3]. apply negb_true_iff in H1, H3. auto. }
    destruct Hl as (H1 & H2 & H3). destruct (IH s t H1) as [-> | [(bs & Hbs & ->) | (y & Hy & ->)]].
    - destruct (fun_suf x) eqn:E; [right; eauto|]. left. destruct x as [b| | |]; try discriminate. exists [b]. split; auto. discriminate.
    - destruct (fun_suf x) eqn:E.
      + destruct bs as [|b bs]; [congruence|]. specialize (H3 eq_refl). discriminate.
      + left. destruct x as [b| | |]; try discriminate. exists (b :: bs). split; auto. discriminate.
    - destruct y; discriminate.
  Qed.
  Lemma shape_param : forall l s t, declarable_parameter tag (plug (map (sframe s) l) t) = true ->
    l = [] \/ (exists bs, bs <> [] /\ l = map XArr bs) \/ (exists x, fun_suf x = true /\ l = [x]).
  Proof.
    intros [|x l] s t H; auto. destruct (fun_suf x) eqn:E.
    - apply (shape (x :: l) s t). destruct x; auto; discriminate.
    - destruct x as [b| | |]; try discriminate. cbn [map plug sframe] in H. unfold aframe in H at 1. cbn [plug declarable_parameter] in H.
      apply andb_prop in H as [H1 H2]. apply andb_prop in H1 as [H1 _]. unfold element in H1. apply andb_prop in H1 as [H1 _].
      apply andb_prop in H1 as [_ H1]. apply negb_true_iff in H1.
      right. left. destruct (shape l s t H2) as [-> | [(bs & Hbs & ->) | (y & Hy & ->)]].
      + exists [b]. split; auto. discriminate.
      + exists (b :: bs). split; auto. discriminate.
      + destruct y; discriminate.
  Qed.

  (* ---- What may be declared, with void in the place of the end ---- *)
  Definition tvoid : ty := TBasic VOID false false false.
  Lemma declarable_void : forall C t, declarable tag (plug C t) = true ->
    declarable tag (plug C tvoid) = true /\ 0 <= size tag (plug C tvoid) <= size tag (plug C t).
  Proof.
    induction C as [|f C IH]; intros t H.
    - cbn. split; auto. pose proof (size_nonneg tag Hsizes t H). lia.
    - destruct f; cbn [plug declarable size] in *.
      + apply andb_prop in H as [H1 H2]. destruct (IH t H2) as [A B]. split; [|lia]. rewrite A, andb_true_r.
        destruct C as [|[] C]; cbn in *; auto.
      + apply andb_prop in H as [H1 H2]. apply andb_prop in H1 as [H0 H1]. destruct (IH t H2) as [A B].
        rewrite A, H0, andb_true_r. cbn. unfold element in *. apply andb_prop in H1 as [H1 H3]. apply andb_prop in H1 as [H1 H4].
        assert (E : negb (unsized (plug C tvoid)) && negb (is_fun (plug C tvoid)) = true).
        { destruct C as [|[] C]; cbn in *; auto; rewrite ?H1, ?H4; auto. }
        rewrite E. cbn. destruct n as [z|]; [|split; auto; lia]. apply andb_prop in H3 as [H3 H5]. apply Z.leb_le in H3, H5.
        split; [|nia]. apply andb_true_intro. split; apply Z.leb_le; nia.
      + apply andb_prop in H as [H1 H2]. apply andb_prop in H1 as [H0 H1]. destruct (IH t H2) as [A B]. split; [|lia].
        rewrite A, andb_true_r. destruct C as [|[] C]; cbn in *; auto.
  Qed.
  Lemma declarable_void_param : forall C t, match C with FArr q _ :: _ => quiet q = true | _ => True end ->
    declarable_parameter tag (plug C t) = true -> C <> [] -> declarable tag (plug C t) = true.
  Proof.
    intros [|[] C] t Hq H Hne; try congruence; auto. cbn [plug declarable_parameter declarable] in *.
    apply andb_prop in H as [H H1]. apply andb_prop in H as [H H2]. rewrite Hq, H, H1. reflexivity.
  Qed.
  Lemma declarable_param_plug : forall C t, declarable_parameter tag (plug C t) = true -> is_arr t = false \/ C <> [] -> declarable tag t = true.
  Proof.
    intros [|[] C] t H Ha; cbn [plug] in *.
    - destruct Ha as [Ha|Ha]; [|congruence]. destruct t; auto; discriminate.
    - cbn in H. apply andb_prop in H as [_ H]. eapply declarable_plug; eauto.
    - cbn in H. apply andb_prop in H as [_ H]. eapply declarable_plug; eauto.
    - cbn in H. apply andb_prop in H as [_ H]. eapply declarable_plug; eauto.
  Qed.
  Lemma frames_bare : forall d s, (frames s d = [] <-> bare d = true) /\ is_tvoid (plug (frames s d) tvoid) = bare d.
  Proof.
    assert (S : forall C f, (C ++ [f] = [] <-> false = true) /\ is_tvoid (plug (C ++ [f]) tvoid) = false).
    { intros C f. split; [split; [intros E; destruct C; discriminate|discriminate]|]. destruct C as [|[] C]; [destruct f|..]; reflexivity. }
    induction d; intros s; cbn [frames bare]; auto; try apply S. split; [tauto|]. reflexivity.
  Qed.

  (* ---- Beginnings of what is written ---- *)
  Lemma write_noqual : forall d R, noqual R = true -> noqual (write d ++ R) = true.
  Proof.
    induction d; intros R HR; cbn [write]; try reflexivity.
    - destruct x; cbn; auto.
    - rewrite <- app_assoc. apply IHd. reflexivity.
    - rewrite <- app_assoc. apply IHd. reflexivity.
    - rewrite <- app_assoc. apply IHd. reflexivity.
    - rewrite <- app_assoc. apply IHd. reflexivity.
  Qed.
  Lemma ends_noqual : forall R, ends_here R = true -> noqual R = true.
  Proof. intros [|[] R] H; cbn in *; auto; discriminate. Qed.

  (* What the parenthesis before a declarator looks like *)
  Lemma opens_nested : forall P0 h d e s R, envd tag P0 h e s -> opens s d = true ->
    (exists y, Klp :: write d ++ R = Klp :: y) /\ nested e (Klp :: write d ++ R) = true.
  Proof.
    intros P0 h d e s R He H. split; [eauto|]. revert R. induction d; intros R; cbn [write opens] in *.
    - destruct x; [|discriminate]. cbn. destruct (typedef s n) eqn:E; [discriminate|]. now rewrite (envd_none _ _ _ _ _ _ He E).
    - reflexivity.
    - reflexivity.
    - rewrite <- app_assoc. now apply IHd.
    - rewrite <- app_assoc. destruct d as [[]| | | | | |]; try (now apply IHd); reflexivity.
    - rewrite <- app_assoc. destruct d as [[]| | | | | |]; try (now apply IHd); reflexivity.
    - rewrite <- app_assoc. destruct d as [[]| | | | | |]; try (now apply IHd); reflexivity.
  Qed.
End Main.
