(** C66: a chain of memory block allocators (imemory_block_allocator.h, fixed_sized_memory_block_allocator.h, successor.h) *)
From Coq Require Import List Arith Bool Lia Permutation.
From Verif Require Import MbaModel MbaSpec MbaProofs.
Import ListNotations.

Lemma fits_iff config c held k a size align : inv config c held -> nth_error c k = Some a -> (fits config k size align <-> fitsb a size align = true).
Proof.
  intros (_ & _ & I) N. destruct (I k a N) as (bs & al & n & C & B1 & B2 & B3 & _). unfold fits, fitsb. rewrite andb_true_iff, !Nat.leb_le, B1, B2. split.
  - intros (x & y & z & E & X & Y). rewrite C in E. injection E as -> -> ->. auto.
  - intros (X & Y). eauto 8.
Qed.
Lemma free_iff config c held k a : inv config c held -> nth_error c k = Some a -> blocks config k = length (free a) + in_use held k.
Proof. intros (_ & _ & I) N. destruct (I k a N) as (bs & al & n & C & _ & _ & _ & P). unfold blocks. rewrite C, in_use_held. apply Permutation_length in P. rewrite app_length, seq_length in P. lia. Qed.
Lemma fits_in_chain config c held k size align : inv config c held -> fits config k size align -> exists a, nth_error c k = Some a.
Proof. intros (L & _ & _) (x & y & z & E & _). destruct (nth_error c k) eqn:N; [eauto|]. apply nth_error_None in N. assert (k < length config) by (apply nth_error_Some; congruence). lia. Qed.

(** a block that is handed out fits the request, exists, is not held by anybody, and comes from the first allocator of the chain that fits and has a block left *)
Theorem C66_allocate : forall config c held size align k i c', history config c held -> allocate c size align = (Some (k, i), c') ->
  fits config k size align /\ i < blocks config k /\ ~ In (k, i) held /\ forall j, j < k -> fits config j size align -> in_use held j = blocks config j.
Proof.
  intros config c held size align k i c' H E. apply history_inv in H. pose proof (allocate_spec c size align) as S. rewrite E in S. destruct S as (a & f & N & F & Fr & _ & P). split; [apply (fits_iff _ _ _ _ _ _ _ H N), F|].
  pose proof H as (I1 & I2 & I3). destruct (I3 k a N) as (bs & al & n & C & B1 & B2 & B3 & Pm). rewrite Fr in Pm. split; [|split].
  - unfold blocks. rewrite C. assert (X : In i (seq 0 n)) by (eapply Permutation_in; [exact Pm|]; left; reflexivity). apply in_seq in X. lia.
  - intros X. apply in_held in X. assert (Nd : NoDup ((i :: f) ++ held_in held k)) by (eapply Permutation_NoDup; [apply Permutation_sym, Pm|apply seq_NoDup]). cbn in Nd. inversion Nd as [|? ? Z _]. apply Z. apply in_or_app. right. exact X.
  - intros j J G. destruct (fits_in_chain _ _ _ _ _ _ H G) as (b & Nb). rewrite (free_iff _ _ _ _ _ H Nb). rewrite (P j b J Nb); [reflexivity|]. apply (fits_iff _ _ _ _ _ _ _ H Nb), G.
Qed.
(** null exactly when every allocator of the chain that fits the request has all its blocks in use *)
Theorem C66_allocate_fails : forall config c held size align, history config c held ->
  (fst (allocate c size align) = None <-> forall k, fits config k size align -> in_use held k = blocks config k) /\ (fst (allocate c size align) = None -> snd (allocate c size align) = c).
Proof.
  intros config c held size align H. pose proof (allocate_spec c size align) as S. pose proof (history_inv _ _ _ H) as I. destruct (allocate c size align) as ([(k & i)|] & c') eqn:E; cbn [fst snd].
  - split; [|discriminate]. split; [discriminate|]. intros Q. exfalso. destruct S as (a & f & N & F & Fr & _). assert (G : fits config k size align) by (apply (fits_iff _ _ _ _ _ _ _ I N), F). specialize (Q k G). rewrite (free_iff _ _ _ _ _ I N), Fr in Q. cbn in Q. lia.
  - destruct S as (-> & S). split; [|reflexivity]. split; [|reflexivity]. intros _ k G. destruct (fits_in_chain _ _ _ _ _ _ I G) as (a & N). rewrite (free_iff _ _ _ _ _ I N). rewrite (S k a N); [reflexivity|]. apply (fits_iff _ _ _ _ _ _ _ I N), G.
Qed.
(** the blocks held are different ones, all of them owned by the chain, and never more of an allocator than it has *)
Theorem C66_held : forall config c held, history config c held -> NoDup held /\ (forall p, In p held -> is_owner_of c p = true) /\ forall k, k < length config -> in_use held k <= blocks config k.
Proof.
  intros config c held H. split; [|split].
  - clear -H. induction H as [|c held size align p c' H IH E|c held size align c' H IH E|c held p c' b H IH Hp E]; [constructor| |exact IH|apply NoDup_filter, IH]. constructor; [|exact IH]. destruct p as (k & i). apply (C66_allocate _ _ _ _ _ _ _ _ H E).
  - intros (k & i) Hp. apply history_inv in H. destruct H as (I1 & I2 & I3). apply owner_spec. cbn. pose proof (I2 _ Hp) as K. cbn in K. destruct (nth_error c k) as [a|] eqn:N; [|apply nth_error_None in N; lia]. exists a. split; [reflexivity|].
    destruct (I3 k a N) as (bs & al & n & C & B1 & B2 & B3 & P). assert (X : In i (seq 0 n)) by (eapply Permutation_in; [exact P|]; apply in_or_app; right; apply in_held; exact Hp). apply in_seq in X. lia.
  - intros k K. apply history_inv in H. pose proof H as (I1 & _ & _). destruct (nth_error c k) as [a|] eqn:N; [|apply nth_error_None in N; lia]. rewrite (free_iff _ _ _ _ _ H N). lia.
Qed.
(** is_owner_of: exactly the blocks of the chain; release: true for them, false and no effect for any other pointer; the released block may be handed out again *)
Theorem C66_owner : forall config c held p, history config c held -> is_owner_of c p = true <-> fst p < length config /\ snd p < blocks config (fst p).
Proof.
  intros config c held p H. rewrite owner_spec. apply history_inv in H. destruct H as (I1 & I2 & I3). split.
  - intros (a & N & S). destruct (I3 _ a N) as (bs & al & n & C & B1 & B2 & B3 & _). split; [apply nth_error_Some; congruence|]. unfold blocks. rewrite C. lia.
  - intros (K & S). destruct (nth_error c (fst p)) as [a|] eqn:N; [|apply nth_error_None in N; lia]. exists a. split; [reflexivity|]. destruct (I3 _ a N) as (bs & al & n & C & B1 & B2 & B3 & _). unfold blocks in S. rewrite C in S. lia.
Qed.
Theorem C66_release : forall config c held p, history config c held -> fst (release c p) = is_owner_of c p /\ (is_owner_of c p = false -> snd (release c p) = c).
Proof.
  intros config c held p H. pose proof (release_spec c p) as S. destruct (release c p) as ([|] & c'); cbn [fst snd].
  - assert (O : is_owner_of c p = true) by (apply owner_spec; destruct S as (a & N & I & _); eauto). rewrite O. split; [reflexivity|discriminate].
  - destruct S as (-> & S). destruct (is_owner_of c p) eqn:O; [|auto]. apply owner_spec in O. destruct O as (a & N & I). specialize (S a N). lia.
Qed.
Theorem C66_again : forall config c held p size align, history config c held -> In p held -> fits config (fst p) size align -> fst (allocate (snd (release c p)) size align) <> None.
Proof.
  intros config c held p size align H Hp F E. destruct (release c p) as (b & c') eqn:R. pose proof (h_release config c held p c' b H Hp R) as H'. cbn [snd] in E. apply (proj1 (C66_allocate_fails _ _ _ size align H')) with (k := fst p) in E; [|exact F].
  destruct (C66_held _ _ _ H) as (Nd & _ & B). assert (K : fst p < length config) by (destruct F as (x & y & z & N & _); apply nth_error_Some; congruence). specialize (B (fst p) K).
  assert (L : in_use (filter (fun q => negb (eq_ptr p q)) held) (fst p) < in_use held (fst p)); [|lia]. clear -Hp. unfold in_use. induction held as [|q held IH]; [destruct Hp|]. cbn [filter]. destruct (eq_ptr p q) eqn:Q; cbn [negb].
  - apply eq_ptr_iff in Q. subst q. rewrite Nat.eqb_refl. cbn [length]. clear. apply Nat.lt_succ_r. induction held as [|q held IH]; [auto|]. cbn [filter]. destruct (eq_ptr p q); cbn [negb filter]; destruct (Nat.eqb (fst q) (fst p)); cbn [length]; lia.
  - destruct Hp as [->|Hp]; [rewrite (proj2 (eq_ptr_iff p p) eq_refl) in Q; discriminate|]. cbn [filter]. specialize (IH Hp). destruct (Nat.eqb (fst q) (fst p)); cbn [length]; lia.
Qed.

(** one block of 8 bytes and two of 32; three requests of 8, then one of 16 fails; the first is released *)
Example C66_run : exists c, history [(8, 4, 1); (32, 8, 2)] c [(1, 1); (1, 0)] /\ fst (allocate c 16 8) = None /\ fst (allocate c 8 4) = Some (0, 0) /\ is_owner_of c (2, 0) = false.
Proof.
  pose proof (h_construct [(8, 4, 1); (32, 8, 2)]) as H0. cbn in H0. pose proof (h_allocate _ _ _ 8 4 _ _ H0 eq_refl) as H1. pose proof (h_allocate _ _ _ 8 4 _ _ H1 eq_refl) as H2. pose proof (h_allocate _ _ _ 8 4 _ _ H2 eq_refl) as H3.
  pose proof (h_allocate_fails _ _ _ 16 8 _ H3 eq_refl) as H4. pose proof (h_release _ _ _ (0, 0) _ _ H4 (or_intror (or_intror (or_introl eq_refl))) eq_refl) as H5. cbn in H5. eexists. split; [exact H5|]. repeat split.
Qed.
Print Assumptions C66_allocate.
Print Assumptions C66_allocate_fails.
Print Assumptions C66_held.
Print Assumptions C66_owner.
Print Assumptions C66_release.
Print Assumptions C66_again.
