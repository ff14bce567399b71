(** C59: buffer_descriptors *)
From Coq Require Import List Arith Lia Bool.
From Verif Require Import BufdModel BufdSpec BufdProofs.
Import ListNotations.

(** After every history of a user who releases what it holds: is_allocated tells exactly what is held; allocate hands out the buffers in turn (the one numbered c mod N_BUFFERS, c the number
    handed out so far) if that one is not held, and never one that is held; otherwise the descriptor is invalid and nothing has changed *)
Theorem C59_exclusive : forall V BUFFER_SIZE N_BUFFERS fifo s held c, 0 < N_BUFFERS -> use V BUFFER_SIZE N_BUFFERS fifo s held c ->
  NoDup held /\ (forall i, In i held -> i < N_BUFFERS) /\ (forall i, is_allocated V s (Some i) = Some true <-> In i held) /\
  ((In (c mod N_BUFFERS) held /\ allocate V N_BUFFERS s = (s, None)) \/
   (~ In (c mod N_BUFFERS) held /\ exists s', allocate V N_BUFFERS s = (s', Some (c mod N_BUFFERS)) /\ memory s' = memory s)).
Proof.
  intros V BS N fifo s h c HN U. pose proof (use_inv V BS N HN fifo s h c U) as I. destruct (allocate_cases V N HN s h c I) as [A|(A & _ & s' & B & C & _)]; destruct I as (_ & _ & D & L & X);
    (split; [exact D|]; split; [exact L|]; split; [intros i; cbn; rewrite <- X; split; [intros E; injection E; auto|intros ->; reflexivity]|]); eauto 6.
Qed.
(** a user who always releases the oldest: allocate fails exactly if all N_BUFFERS are held *)
Theorem C59_fifo : forall V BUFFER_SIZE N_BUFFERS s held c, 0 < N_BUFFERS -> use V BUFFER_SIZE N_BUFFERS true s held c ->
  length held <= N_BUFFERS /\ (is_valid (snd (allocate V N_BUFFERS s)) = false <-> length held = N_BUFFERS).
Proof.
  intros V BS N s h c HN U. pose proof (use_window V BS N HN s h c U) as W. pose proof (use_inv V BS N HN true s h c U) as I. split; [eapply inv_len; eauto|].
  rewrite <- (window_full N HN h c W). destruct (allocate_cases V N HN s h c I) as [(A & ->)|(A & _ & s' & -> & _)]; cbn; split; auto; [discriminate|contradiction].
Qed.
(** any user who releases out of order: after handing out all buffers and getting back all but the first, allocate refuses although only one buffer is held *)
Theorem C59_out_of_order_refuted : forall V BUFFER_SIZE N_BUFFERS cb m, 0 < N_BUFFERS ->
  exists s, use V BUFFER_SIZE N_BUFFERS false s [0] N_BUFFERS /\ allocate V N_BUFFERS s = (s, None) /\ memory s = m /\ callback s = cb.
Proof.
  intros V BS N cb m HN.
  assert (A : forall k, k <= N -> exists s, use V BS N false s (seq 0 k) k /\ memory s = m /\ callback s = cb).
  { induction k as [|k IH]; intros Hk; [exists (construct V N cb m); split; [apply use_construct|auto]|]. destruct (IH ltac:(lia)) as (s & U & M & C).
    destruct (allocate_cases V N HN s _ _ (use_inv V BS N HN _ _ _ _ U)) as [(I & _)|(_ & _ & s' & E & M' & _)].
    - rewrite Nat.mod_small in I by lia. apply in_seq in I. lia.
    - rewrite Nat.mod_small in E by lia. exists s'. rewrite seq_S. split; [eapply use_allocate; eauto|]. split; [congruence|]. unfold allocate in E. destruct (negb _); [injection E as <- _; exact C|discriminate]. }
  assert (R : forall k s, use V BS N false s (seq 0 (S k)) N -> memory s = m -> callback s = cb -> exists s', use V BS N false s' [0] N /\ memory s' = m /\ callback s' = cb).
  { induction k as [|k IH]; intros s U M C; [eauto|]. rewrite seq_S in U. cbn [plus] in U.
    destruct (release V s (Some (S k))) as [s'|] eqn:E; [|discriminate]. pose proof (use_release V BS N false s (seq 0 (S k)) [] N s' (S k) U ltac:(discriminate) E) as U'. rewrite app_nil_r in U'.
    injection E as <-. eapply IH; [exact U'|exact M|exact C]. }
  destruct (A N ltac:(lia)) as (s & U & M & C). destruct N as [|n]; [lia|]. destruct (R n s U M C) as (s' & U' & M' & C'). exists s'. split; [exact U'|]. split; [|auto].
  destruct (allocate_cases V (S n) HN s' _ _ (use_inv V BS (S n) HN _ _ _ _ U')) as [(_ & X)|(I & _)]; [exact X|]. exfalso. apply I. left. symmetry. apply Nat.mod_same. lia.
Qed.
(** allocate(fill): as allocate, and exactly the elements of the new buffer have the value; the buffers do not overlap *)
Theorem C59_fill : forall V BUFFER_SIZE N_BUFFERS fifo s held c v s' i, 0 < N_BUFFERS -> use V BUFFER_SIZE N_BUFFERS fifo s held c ->
  allocate_fill V BUFFER_SIZE N_BUFFERS s v = (s', Some i) ->
  snd (allocate V N_BUFFERS s) = Some i /\ data BUFFER_SIZE (Some i) = Some (i * BUFFER_SIZE) /\
  (forall k, k < BUFFER_SIZE -> memory s' (i * BUFFER_SIZE + k) = v) /\
  (forall j k, j <> i -> k < BUFFER_SIZE -> memory s' (j * BUFFER_SIZE + k) = memory s (j * BUFFER_SIZE + k)) /\ i < N_BUFFERS /\ ~ In i held.
Proof.
  intros V BS N fifo s h c v s' i HN U A. pose proof (use_inv V BS N HN _ _ _ _ U) as I. rewrite fill_as in A. destruct (allocate_cases V N HN s h c I) as [(_ & E)|(X & L & s1 & E & M & _)]; rewrite E in *; [discriminate|].
  injection A as <- <-. cbn [memory snd data]. rewrite M. unfold pbuffer, fill_n. set (i := c mod N) in *. clearbody i. split; [reflexivity|]. split; [reflexivity|]. split; [|split; [|auto]].
  - intros k Hk. replace (Nat.leb (i * BS) (i * BS + k)) with true by (symmetry; apply Nat.leb_le; lia). replace (Nat.ltb (i * BS + k) (i * BS + BS)) with true by (symmetry; apply Nat.ltb_lt; lia). reflexivity.
  - intros j k Hj Hk. destruct (Nat.leb_spec (i * BS) (j * BS + k)); [|reflexivity]. destruct (Nat.ltb_spec (j * BS + k) (i * BS + BS)); [exfalso|reflexivity]. assert (j < i \/ i < j) as [|] by lia; nia.
Qed.
(** a buffer that nobody but the holder writes to keeps its contents while others come and go: neither allocate nor allocate(fill) nor the others' releases change it *)
Theorem C59_contents : forall V BUFFER_SIZE N_BUFFERS fifo s held c i, 0 < N_BUFFERS -> use V BUFFER_SIZE N_BUFFERS fifo s held c -> In i held ->
  forall k, k < BUFFER_SIZE ->
  memory (fst (allocate V N_BUFFERS s)) (i * BUFFER_SIZE + k) = memory s (i * BUFFER_SIZE + k) /\
  (forall v, memory (fst (allocate_fill V BUFFER_SIZE N_BUFFERS s v)) (i * BUFFER_SIZE + k) = memory s (i * BUFFER_SIZE + k)) /\
  (forall d s', release V s d = Some s' -> memory s' (i * BUFFER_SIZE + k) = memory s (i * BUFFER_SIZE + k)).
Proof.
  intros V BS N fifo s h c i HN U Hi k Hk. pose proof (use_inv V BS N HN _ _ _ _ U) as I. split; [|split].
  - destruct (allocate_cases V N HN s h c I) as [(_ & ->)|(_ & _ & s1 & -> & M & _)]; cbn; [reflexivity|now rewrite M].
  - intros v. destruct (allocate_fill V BS N s v) as [s' [j|]] eqn:E; cbn [fst].
    + destruct (C59_fill V BS N fifo s h c v s' j HN U E) as (_ & _ & _ & O & _ & Nj). apply O; auto. intros ->. contradiction.
    + rewrite fill_as in E. destruct (allocate_cases V N HN s h c I) as [(_ & A)|(_ & _ & s1 & A & _)]; rewrite A in E; [injection E as <-; reflexivity|discriminate].
  - intros [d|] s' E; [injection E as <-; reflexivity|discriminate].
Qed.
(** a descriptor that is released a second time, after its buffer has gone to somebody else, takes the buffer away from the new holder: the next one to ask gets the same buffer *)
Theorem C59_stale_refuted : forall V (m : nat -> V), let s0 := construct V 1 false m in
  exists s1 s2 s3 s4 s5, allocate V 1 s0 = (s1, Some 0) /\ release V s1 (Some 0) = Some s2 /\ allocate V 1 s2 = (s3, Some 0) /\ use V 1 1 true s3 [0] 2 /\
  release V s3 (Some 0) = Some s4 /\ allocate V 1 s4 = (s5, Some 0).
Proof.
  intros V m s0. set (b := mkState [true] 0 false [] m). set (f := mkState [false] 0 false [] m).
  assert (U1 : use V 1 1 true b [0] 1) by exact (use_allocate V 1 1 true s0 [] 0 b 0 (use_construct V 1 1 true false m) eq_refl).
  assert (U2 : use V 1 1 true f [] 1) by exact (use_release V 1 1 true b [] [] 1 f 0 U1 (fun _ => eq_refl) eq_refl).
  assert (U3 : use V 1 1 true b [0] 2) by exact (use_allocate V 1 1 true f [] 1 b 0 U2 eq_refl).
  exists b, f, b, f, b. repeat (split; [reflexivity|]). split; [exact U3|split; reflexivity].
Qed.

Example C59_example : let s0 := construct nat 3 true (fun _ => 0) in
  exists s1 s2, allocate_fill nat 4 3 s0 7 = (s1, Some 0) /\ allocate_fill nat 4 3 s1 8 = (s2, Some 1) /\ use nat 4 3 true s2 [0; 1] 2 /\ map (memory s2) (seq 0 9) = [7; 7; 7; 7; 8; 8; 8; 8; 0].
Proof.
  intros s0. set (s1 := fst (allocate_fill nat 4 3 s0 7)). set (s2 := fst (allocate_fill nat 4 3 s1 8)). exists s1, s2. split; [reflexivity|]. split; [reflexivity|]. split; [|reflexivity].
  exact (use_allocate_fill nat 4 3 true s1 [0] 1 s2 1 8 (use_allocate_fill nat 4 3 true s0 [] 0 s1 0 7 (use_construct nat 4 3 true true (fun _ => 0)) eq_refl) eq_refl).
Qed.
Print Assumptions C59_exclusive.
Print Assumptions C59_fifo.
Print Assumptions C59_out_of_order_refuted.
Print Assumptions C59_fill.
Print Assumptions C59_contents.
Print Assumptions C59_stale_refuted.
