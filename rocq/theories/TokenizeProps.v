(* C08: splitting a line into preprocessing tokens. *)
From Coq Require Import ZArith Lia Bool String Ascii List.
From Verif Require Import TokModel EscModel TokenizeModel TokenizeSpec TokenizeProofs TokenizeProofs2 TokenizeProofs3.
Import ListNotations.
Open Scope Z_scope.

(* For lines of ASCII characters (no NUL): if tokenising succeeds, the tokens are the C
   tokens of the line by the longest match rule (see Lexed), each with its white space count modulo
   65536; the scan always terminates; and it succeeds whenever the line consists of C tokens whose
   character constants contain a single character or escape.
   Missing from the full statement: bytes above 127, digraphs, wide literals and multi-character
   constants, for which it is false (below). *)
Theorem C08_longest_match_partial : forall c99 s, Forall (fun c => 0 < c < 128) s ->
  tokenize_line c99 s <> NoFuel /\
  (forall ts, tokenize_line c99 s = Ok ts ->
    exists items, Lexed c99 s items /\
      Forall2 (fun (it : nat * kind * list Z) t => represents c99 (snd (fst it)) (snd it) t /\
        lws t = Z.of_nat (fst (fst it)) mod 65536) items ts) /\
  (forall items, Lexed c99 s items ->
    Forall (fun it : nat * kind * list Z =>
      forall b, snd (fst it) = KChar -> snd it = 39 :: b ++ [39] -> Single b) items ->
    exists ts, tokenize_line c99 s = Ok ts).
Proof.
  intros c99 s Hs. split; [|split].
  - apply all_fuel; [lia|exact Hs].
  - intros ts H. destruct (all_sound c99 _ s ts Hs H) as (items & H1 & H2). exists items. split; [exact H1|].
    clear H1 H. induction H2 as [|[[n k] w] t l l' HI HF IH]; [apply Forall2_nil|apply Forall2_cons; [exact HI|exact IH]].
  - intros items HX HS. eapply all_complete; eauto.
Qed.
Print Assumptions C08_longest_match_partial.

(* The tokens of a line concatenate to the line, without its final white space. *)
Theorem C08_nothing_lost : forall c99 s items, Lexed c99 s items ->
  exists gaps last, List.length gaps = List.length items /\ Forall (Forall space) gaps /\ Forall space last /\
    map (@List.length Z) gaps = map (fun it => fst (fst it)) items /\
    s = List.concat (map (fun p => fst p ++ snd (snd p)) (combine gaps items)) ++ last.
Proof.
  induction 1 as [ws Hws|ws k w rest l Hws HL Hns HX IH].
  - exists [], ws. cbn. auto.
  - destruct IH as (gaps & last & H1 & H2 & H3 & H4 & H5). exists (ws :: gaps), last.
    split; [cbn; congruence|]. split; [constructor; assumption|]. split; [exact H3|]. split; [cbn; congruence|].
    cbn [combine map List.concat fst snd]. rewrite H5 at 1. rewrite <- !app_assoc. reflexivity.
Qed.
Print Assumptions C08_nothing_lost.

(* The specification leaves no choice: a line has one division into tokens. *)
Theorem C08_spec_deterministic : forall c99 s i1, Lexed c99 s i1 -> forall i2, Lexed c99 s i2 ->
  map (fun it => (fst (fst it), snd it)) i1 = map (fun it => (fst (fst it), snd it)) i2.
Proof.
  assert (ws_unique : forall a b u v, Forall space a -> Forall space b ->
    ~ match u with c :: _ => space c | [] => False end -> ~ match v with c :: _ => space c | [] => False end ->
    a ++ u = b ++ v -> a = b /\ u = v).
  { induction a as [|x a IH]; intros [|y b] u v Ha Hb Hu Hv E.
    - auto.
    - cbn in E. subst u. inversion Hb; subst. contradiction.
    - cbn in E. subst v. inversion Ha; subst. contradiction.
    - cbn in E. injection E as -> E. inversion Ha; inversion Hb; subst.
      destruct (IH b u v) as [-> ->]; auto. }
  induction 1 as [ws Hws|ws k w rest l Hws HL Hns HX IH]; intros i2 H2.
  - inversion H2 as [ws' Hw E|ws' k' w' r' l' Hw' HL' Hns' HX' E]; subst; [reflexivity|]. exfalso.
    apply Forall_app in Hws as [_ Hws]. apply Forall_app in Hws as [Hws _].
    destruct HL' as [HT _]. apply token_nonempty in HT. destruct w' as [|c w']; [congruence|].
    cbn in Hns'. inversion Hws; subst. contradiction.
  - inversion H2 as [ws' Hw E|ws' k' w' r' l' Hw' HL' Hns' HX' E]; subst.
    + exfalso. apply Forall_app in Hw as [_ Hw]. apply Forall_app in Hw as [Hw _].
      destruct HL as [HT _]. apply token_nonempty in HT. destruct w as [|c w]; [congruence|].
      cbn in Hns. inversion Hw; subst. contradiction.
    + apply ws_unique in E; auto. destruct E as [<- E].
      symmetry in E. destruct (longest_unique _ _ _ _ _ _ _ HL HL' E) as [<- <-].
      cbn [map fst snd]. f_equal. apply IH. exact HX'.
Qed.
Print Assumptions C08_spec_deterministic.

(* a line with every kind of token, x+++y and a keyword prefix *)
Example C08_instance :
  let s := chars "int x+++.5e+1>>=intx ...'\n'" ++ [34; 92; 34; 34] in
  Forall (fun c => 0 < c < 128) s /\
  match tokenize_line true s with
  | Ok ts => map (fun t => (tt t, lws t, spell t)) ts =
    [(18, 0, chars "int"); (T_IDENTIFIER, 1, chars "x"); (72, 0, chars "++"); (43, 0, chars "+");
     (T_PREP_NUMBER, 0, chars ".5e+1"); (82, 0, chars ">>="); (T_IDENTIFIER, 0, chars "intx");
     (87, 1, chars "..."); (T_PREP_CHAR, 0, chars "\n"); (T_PREP_STRING, 0, [92; 34])]
  | _ => False
  end.
Proof.
  split; [|vm_compute; reflexivity].
  apply Forall_forall. intros c Hc. vm_compute in Hc.
  repeat (destruct Hc as [<-|Hc]; [lia|]). destruct Hc.
Qed.

(* Defects. *)

(* Multi-character constants are tokens of C but are rejected. *)
Theorem C08_multichar_refuted : exists s, Token true KChar s /\ tokenize_line true s = Error.
Proof.
  exists (chars "'ab'"). split; [|vm_compute; reflexivity].
  apply (T_char true [97; 98]); [|discriminate].
  apply B_plain; [discriminate|discriminate|]. apply B_plain; [discriminate|discriminate|]. apply B_nil.
Qed.
Print Assumptions C08_multichar_refuted.

(* A byte above 127 outside a literal is used as a negative index into a table. *)
Theorem C08_high_byte_refuted : exists s, Forall (fun c => 0 < c < 256) s /\ tokenize_line true s = OutOfBounds.
Proof. exists [195]. split; [repeat constructor; lia|vm_compute; reflexivity]. Qed.
Print Assumptions C08_high_byte_refuted.

(* An unterminated string literal is scanned beyond the end of the line. *)
Theorem C08_unterminated_refuted : exists s, Forall (fun c => 0 < c < 128) s /\ tokenize_line true s = OutOfBounds.
Proof. exists [34; 97]. split; [repeat constructor; lia|vm_compute; reflexivity]. Qed.
Print Assumptions C08_unterminated_refuted.

(* The digraph for [ is split in two, and a wide string literal in an identifier and a literal
   (C99 6.4.6p3, 6.4.5). *)
Theorem C08_digraph_wide_refuted :
  (exists t1 t2, tokenize_line true (chars "<:") = Ok [t1; t2] /\ tt t1 = 60 /\ tt t2 = 58) /\
  (exists t1 t2, tokenize_line true (chars "L" ++ [34; 97; 34]) = Ok [t1; t2] /\
     tt t1 = T_IDENTIFIER /\ tt t2 = T_PREP_STRING).
Proof.
  split; do 2 eexists; (split; [vm_compute; reflexivity|split; reflexivity]).
Qed.
Print Assumptions C08_digraph_wide_refuted.

(* The white space counter has 16 bits. *)
Theorem C08_space_count_refuted : exists s t, Forall space s /\
  tokenize true (s ++ [120]) = Ok (t, []) /\ s <> [] /\ lws t = 0.
Proof.
  exists (repeat 32 (Z.to_nat 65536)).
  assert (L : List.length (repeat 32 (Z.to_nat 65536)) = Z.to_nat 65536) by apply repeat_length.
  assert (HS : Forall (fun c => isspace c = true) (repeat 32 (Z.to_nat 65536))).
  { apply Forall_forall. intros c Hc. apply repeat_spec in Hc. subst c. reflexivity. }
  assert (HS2 : Forall space (repeat 32 (Z.to_nat 65536))).
  { eapply Forall_impl; [|exact HS]. intros c Hc. apply isspace_iff, Hc. }
  revert L HS HS2. generalize (repeat 32 (Z.to_nat 65536)). intros ws L HS HS2.
  eexists. split; [exact HS2|]. split; [|split].
  - rewrite (tokenize_spec true (ws ++ [120]) ws [120]); [|apply EscProofs.span_app; [exact HS|reflexivity]].
    reflexivity.
  - intro E. subst ws. cbn in L. discriminate L.
  - cbn [lws]. rewrite L, Z2Nat.id by lia. reflexivity.
Qed.
Print Assumptions C08_space_count_refuted.
