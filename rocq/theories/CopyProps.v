(* C30: copies of objects. *)
From Coq Require Import List ZArith Bool Lia.
From Verif Require Import CopyModel.
Import ListNotations.
Open Scope Z_scope.

(* The bytes touched by parts (offset, width), in order. *)
Fixpoint count_up (n : nat) (i : Z) : list Z := match n with O => [] | S k => i :: count_up k (i + 1) end.
Definition bytes_of (l : list (Z * Z)) : list Z := flat_map (fun p => count_up (Z.to_nat (snd p)) (fst p)) l.

Lemma count_up_app : forall a b i, count_up (a + b) i = count_up a i ++ count_up b (i + Z.of_nat a).
Proof.
  induction a as [|a IH]; intros b i; cbn [Nat.add count_up app]; [f_equal; lia|].
  rewrite IH. do 3 f_equal. lia.
Qed.
Lemma chunk_bounds : forall r, 0 < r -> 1 <= chunk r <= r.
Proof.
  intros r H. unfold chunk. destruct r as [|p|p]; try lia.
  do 8 (destruct p as [p|p|]; try lia).
Qed.
Lemma moves_bytes : forall fuel i n, 0 <= i <= n -> n - i <= Z.of_nat fuel -> bytes_of (moves fuel i n) = count_up (Z.to_nat (n - i)) i.
Proof.
  induction fuel as [|f IH]; intros i n H F; cbn [moves].
  - replace (n - i) with 0 by lia. reflexivity.
  - destruct (Z.ltb_spec i n) as [L|L].
    + pose proof (chunk_bounds (n - i) ltac:(lia)) as C. unfold bytes_of. cbn [flat_map fst snd].
      fold (bytes_of (moves f (i + chunk (n - i)) n)). rewrite IH by lia.
      replace (Z.to_nat (n - i)) with (Z.to_nat (chunk (n - i)) + Z.to_nat (n - (i + chunk (n - i))))%nat by lia.
      rewrite count_up_app. do 2 f_equal. lia.
    + replace (n - i) with 0 by lia. reflexivity.
Qed.
Lemma moves_run : forall fuel i n m src dst, 0 <= i <= n -> n - i <= Z.of_nat fuel ->
  (src = dst \/ src + n <= dst \/ dst + n <= src) ->
  forall a, run_moves m src dst (moves fuel i n) a = if (dst + i <=? a) && (a <? dst + n) then m (src + (a - dst)) else m a.
Proof.
  induction fuel as [|f IH]; intros i n m src dst H F D a; cbn [moves].
  - replace (i) with n by lia. cbn. destruct (Z.leb_spec (dst + n) a), (Z.ltb_spec a (dst + n)); cbn; lia || reflexivity.
  - destruct (Z.ltb_spec i n) as [L|L].
    + pose proof (chunk_bounds (n - i) ltac:(lia)) as C. cbn [run_moves]. rewrite IH by lia. set (w := chunk (n - i)) in *.
      unfold move_bytes.
      destruct (Z.leb_spec (dst + (i + w)) a), (Z.ltb_spec a (dst + n)), (Z.leb_spec (dst + i) a); cbn [andb]; try lia;
        destruct (Z.leb_spec (dst + i) (src + (a - dst))), (Z.ltb_spec (src + (a - dst)) (dst + i + w)),
          (Z.ltb_spec a (dst + i + w)); cbn [andb]; try lia; try reflexivity; try (f_equal; lia).
    + replace i with n by lia. cbn. destruct (Z.leb_spec (dst + n) a), (Z.ltb_spec a (dst + n)); cbn; lia || reflexivity.
Qed.

(* For every size that is copied by moves, the bytes read (at %rsi) and written (at %rdi) are those of the object,
   each once; otherwise memcpy is called with the size of the object. *)
Theorem C30_bytes : forall has_memcpy n, 0 <= n ->
  match emit_memcpy has_memcpy n with
  | Moves l => bytes_of l = count_up (Z.to_nat n) 0
  | CallMemcpy k => k = n
  end.
Proof.
  intros h n H. unfold emit_memcpy. destruct ((n <=? 64) || negb h); [|reflexivity].
  rewrite moves_bytes by lia. f_equal. f_equal. lia.
Qed.
Print Assumptions C30_bytes.
Example C30_bytes_instance : emit_memcpy true 23 = Moves [(0, 8); (8, 8); (16, 4); (20, 2); (22, 1)]
  /\ emit_memcpy false 65 = Moves [(0, 8); (8, 8); (16, 8); (24, 8); (32, 8); (40, 8); (48, 8); (56, 8); (64, 1)]
  /\ emit_memcpy true 65 = CallMemcpy 65.
Proof. repeat split. Qed.

(* The moves copy the object, when it does not overlap the destination or is the destination, and change no other byte. *)
Theorem C30_copy : forall has_memcpy n l m src dst, 0 <= n -> emit_memcpy has_memcpy n = Moves l ->
  (src = dst \/ src + n <= dst \/ dst + n <= src) ->
  forall a, run_moves m src dst l a = if (dst <=? a) && (a <? dst + n) then m (src + (a - dst)) else m a.
Proof.
  intros h n l m src dst H E D a. unfold emit_memcpy in E. destruct ((n <=? 64) || negb h); [|discriminate].
  injection E as <-. rewrite moves_run by lia. rewrite Z.add_0_r. reflexivity.
Qed.
Print Assumptions C30_copy.
Example C30_copy_instance : exists l, emit_memcpy true 7 = Moves l /\ (100 + 7 <= 200 \/ 200 + 7 <= 100) /\
  map (run_moves (fun a => a) 100 200 l) [199; 200; 205; 206; 207] = [199; 100; 105; 106; 207].
Proof. eexists. split; [reflexivity|]. split; [lia|reflexivity]. Qed.

(* Objects moved to or from registers: exactly the bytes of the object, if its size modulo 8 is 0, 1, 2 or 4. *)
Lemma slices_bytes : forall fuel n i cls l, 0 <= i -> n <= 8 * (i + Z.of_nat fuel) < n + 8 -> 8 * i <= n ->
  (n mod 8 = 0 \/ n mod 8 = 1 \/ n mod 8 = 2 \/ n mod 8 = 4) ->
  slices fuel n i cls = Some l -> bytes_of l = count_up (Z.to_nat (n - 8 * i)) (8 * i).
Proof.
  induction fuel as [|f IH]; intros n i cls l I F B M H; cbn [slices] in H.
  - injection H as <-. replace (n - 8 * i) with 0 by lia. reflexivity.
  - destruct (slice n i (cls i)) as [w|] eqn:S; [|discriminate]. destruct (slices f n (i + 1) cls) as [r|] eqn:R; [|discriminate].
    injection H as <-. unfold bytes_of. cbn [flat_map fst snd]. fold (bytes_of r).
    unfold slice in S. destruct (Z.ltb_spec ((i + 1) * 8) n) as [L|L].
    + assert (w = 8) by (destruct (cls i); simpl in S; congruence). subst w.
      rewrite (IH n (i + 1) cls r) by (lia || assumption).
      replace (Z.to_nat (n - 8 * i)) with (Z.to_nat 8 + Z.to_nat (n - 8 * (i + 1)))%nat by lia. rewrite count_up_app. do 2 f_equal. lia.
    + assert (W : w = n - 8 * i).
      { assert (E : n mod 8 = n - 8 * i \/ n mod 8 = 0 /\ n = 8 * (i + 1)).
        { pose proof (Z.div_mod n 8 ltac:(lia)) as D. pose proof (Z.mod_pos_bound n 8 ltac:(lia)).
          assert (Q : n / 8 = i \/ n / 8 = i + 1) by lia. lia. }
        destruct M as [M|[M|[M|M]]]; rewrite M in S; destruct (cls i); cbn in S; try discriminate S; injection S as <-; lia. }
      destruct f; [|exfalso; cbn [slices] in R; lia]. cbn [slices] in R. injection R as <-. cbn. rewrite app_nil_r. rewrite W. reflexivity.
Qed.
Theorem C30_registers_partial : forall n cls l, 0 < n -> (n mod 8 = 0 \/ n mod 8 = 1 \/ n mod 8 = 2 \/ n mod 8 = 4) ->
  move_registers n cls = Some l -> bytes_of l = count_up (Z.to_nat n) 0.
Proof.
  intros n cls l P M H. unfold move_registers in H.
  assert (0 <= (n + 7) / 8) by (apply Z.div_pos; lia). pose proof (Z.div_mod (n + 7) 8 ltac:(lia)). pose proof (Z.mod_pos_bound (n + 7) 8 ltac:(lia)).
  apply slices_bytes in H; try lia; try assumption. rewrite H. f_equal. f_equal. lia.
Qed.
Print Assumptions C30_registers_partial.
Example C30_registers_instance : exists l, move_registers 12 (fun i => i =? 1) = Some l /\ l = [(0, 8); (8, 4)].
Proof. eexists. split; reflexivity. Qed.
(* struct { char c[3]; }: four bytes are read, and written. *)
Theorem C30_registers_refuted : exists n l, 0 < n /\ move_registers n (fun _ => false) = Some l /\ exists b, In b (bytes_of l) /\ n <= b.
Proof. exists 3, [(0, 4)]. split; [lia|]. split; [reflexivity|]. exists 3. split; [vm_compute; tauto|lia]. Qed.

(* An aggregate pushed as argument: all its bytes, each once, if its size is a multiple of 8. *)
Lemma quads_bytes : forall k i, bytes_of (quads k i) = count_up (8 * k) (8 * i).
Proof.
  induction k as [|k IH]; intro i; [reflexivity|]. unfold bytes_of. cbn [quads flat_map fst snd]. fold (bytes_of (quads k (i + 1))).
  rewrite IH. replace (8 * S k)%nat with (Z.to_nat 8 + 8 * k)%nat by lia. rewrite count_up_app. do 2 f_equal. lia.
Qed.
Theorem C30_push_partial : forall n, 0 <= n -> n mod 8 = 0 -> bytes_of (push_aggregate n) = count_up (Z.to_nat n) 0.
Proof.
  intros n P M. unfold push_aggregate. rewrite quads_bytes. f_equal.
  pose proof (Z.div_mod n 8 ltac:(lia)) as D. rewrite M in D.
  assert (E : (n + 7) / 8 = n / 8) by (symmetry; apply (Z.div_unique_pos (n + 7) 8 (n / 8) 7); lia).
  rewrite E. assert (0 <= n / 8) by (apply Z.div_pos; lia). lia.
Qed.
Print Assumptions C30_push_partial.
Example C30_push_instance : 24 mod 8 = 0 /\ push_aggregate 24 = [(0, 8); (8, 8); (16, 8)].
Proof. split; reflexivity. Qed.
(* struct { char c[17]; }: 24 bytes are read. *)
Theorem C30_push_refuted : exists n b, 0 < n /\ In b (bytes_of (push_aggregate n)) /\ n <= b.
Proof. exists 17, 23. split; [lia|]. split; [vm_compute; tauto|lia]. Qed.
