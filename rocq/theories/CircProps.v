(** * Property C07: circular_buffer keeps exactly the most recent N items.
    Quantified over: element type, trivially destructible or not, every
    capacity >= 1, every history of calls. *)
From Coq Require Import List Arith Lia Bool String ZArith.
From Verif Require Import Util Slots Cmd CircModel CircSpec CircProofs.
Import ListNotations.

Lemma reach_rep T triv cap (Hc : 1 <= cap) ops seen l :
  spec_run (@circ_spec T cap) ops [] = Some (seen, l) ->
  exists c, run (exec T triv) ops (make cap) = Some (seen, c) /\ rep T triv cap c l.
Proof.
  exact (run_refines (exec T triv) (circ_spec cap) (rep T triv cap)
          (fun o s a x a' => step_refines T triv cap Hc o s a x a')
          ops (make cap) [] seen l (rep_make T triv cap Hc)).
Qed.

(** Every call observes exactly what the specification says (the specification
    only rejects operator[] with an index outside the content); no undefined
    behaviour; exactly the items in the buffer are alive. *)
Theorem C07_circular_buffer_most_recent :
  forall (T : Type) (triv : bool) (cap : nat), 1 <= cap ->
  forall (ops : list (op T)) seen l,
    spec_run (circ_spec cap) ops [] = Some (seen, l) ->
    exists c, run (exec T triv) ops (make cap) = Some (seen, c) /\
              (triv = false -> live (pbuffer c) = List.length l) /\ List.length l <= cap.
Proof.
  intros T triv cap Hc ops seen l Hs.
  destruct (reach_rep T triv cap Hc ops seen l Hs) as (c & E & R).
  exists c. split; [exact E|]. split; [|apply (c_len _ _ _ _ _ R)].
  intros Ht. eapply ring_live; [apply (c_ring _ _ _ _ _ R)|exact Ht].
Qed.
Print Assumptions C07_circular_buffer_most_recent.

(** Assignment from another buffer, of whatever capacity, keeps its most recent items. *)
Theorem C07_circular_buffer_assign :
  forall (T : Type) (triv : bool) (cap1 cap2 : nat), 1 <= cap1 -> 1 <= cap2 ->
  forall (ops1 ops2 : list (op T)) seen1 seen2 l1 l2 c1 c2,
    spec_run (circ_spec cap1) ops1 [] = Some (seen1, l1) -> run (exec T triv) ops1 (make cap1) = Some (seen1, c1) ->
    spec_run (circ_spec cap2) ops2 [] = Some (seen2, l2) -> run (exec T triv) ops2 (make cap2) = Some (seen2, c2) ->
    exists c3, assign_from T triv c2 c1 = Ok c3 tt /\ contents T c3 = Ok c3 (most_recent cap1 l2).
Proof.
  intros T triv cap1 cap2 H1 H2 ops1 ops2 seen1 seen2 l1 l2 c1 c2 S1 E1 S2 E2.
  destruct (reach_rep T triv cap1 H1 ops1 seen1 l1 S1) as (c1' & E1' & P1). rewrite E1 in E1'. injection E1' as <-.
  destruct (reach_rep T triv cap2 H2 ops2 seen2 l2 S2) as (c2' & E2' & P2). rewrite E2 in E2'. injection E2' as <-.
  unfold assign_from, cbind. destruct (clear_ok T triv cap1 H1 c1 l1 P1) as (c3 & -> & P3).
  pose proof (contents_ok T triv cap2 H2 c2 l2 P2) as Hct. unfold contents, cbind, state, lift in Hct. unfold lift.
  destruct (iterate T (buffer_size c2) c2 (cout c2)) as [l'| |]; try discriminate. injection Hct as ->.
  destruct (push_range_ok T triv cap1 H1 l2 c3 [] P3) as (c4 & E4 & P4). exists c4. split; [exact E4|].
  exact (contents_ok T triv cap1 H1 c4 _ P4).
Qed.
Print Assumptions C07_circular_buffer_assign.

(** Iterators are random access: with [iter c k] standing for begin() + k
    (the iterator reached after k increments), += / -= n, difference and order
    agree with integer arithmetic as long as they stay within begin()..end(),
    and dereferencing gives the k-th oldest item. *)
Theorem C07_circular_buffer_iterators :
  forall (T : Type) (triv : bool) (cap : nat), 1 <= cap ->
  forall (ops : list (op T)) seen l c,
    spec_run (circ_spec cap) ops [] = Some (seen, l) -> run (exec T triv) ops (make cap) = Some (seen, c) ->
    let iter k := Nat.iter k (wrap_inc (buffer_size c)) (cout c) in
    iter (List.length l) = cin c /\
    (forall k x, nth_error l k = Some x -> get (pbuffer c) (iter k) = V x) /\
    (forall k n, k <= List.length l -> (0 <= Z.of_nat k + n <= Z.of_nat (List.length l))%Z ->
       it_advance T c (iter k) n = iter (Z.to_nat (Z.of_nat k + n))) /\
    (forall j k, j <= List.length l -> k <= List.length l ->
       it_minus T c (iter j) (iter k) = (Z.of_nat j - Z.of_nat k)%Z /\
       it_lt T c (iter j) (iter k) = (j <? k)).
Proof.
  intros T triv cap H ops seen l c S E iter.
  destruct (reach_rep T triv cap H ops seen l S) as (c' & E' & P). rewrite E in E'. injection E' as <-.
  pose proof (r_o _ _ _ _ _ (c_ring _ _ _ _ _ P)) as Ho.
  assert (Hi : forall k, iter k = CircProofs.iter T cap c k).
  { unfold iter, CircProofs.iter. induction k; cbn [Nat.iter nat_rect].
    - symmetry. apply pos0. exact Ho.
    - change (nat_rect _ _ _ k) with (Nat.iter k (wrap_inc (buffer_size c)) (cout c)). rewrite IHk.
      rewrite (c_size _ _ _ _ _ P). apply winc_in; [exact H|exact Ho]. }
  split; [rewrite Hi; symmetry; apply (c_in _ _ _ _ _ P)|].
  split; [intros k x Hk; rewrite Hi; unfold CircProofs.iter; eapply ring_get; [apply (c_ring _ _ _ _ _ P)|exact Hk]|].
  split.
  - intros k n Hk Hn. rewrite !Hi. eapply it_advance_ok; eauto.
  - intros j k Hj Hk. unfold it_minus, it_lt. rewrite !Hi, !(it_index_ok T triv cap H c l) by auto.
    split; [reflexivity|]. destruct (Nat.ltb_spec j k), (Z.ltb_spec (Z.of_nat j) (Z.of_nat k)); auto; lia.
Qed.
Print Assumptions C07_circular_buffer_iterators.

(** ** Non-vacuity *)
Example history_ok :
  spec_run (circ_spec 2) [Push 1; Push 2; Push 3; Contents; RContents; Front; Back; At 1; Full; Pop; Fill 9; Contents; PopN 5; Pop; PushRange [4;5;6]; Contents; Size] [] =
  Some ([Returned RUnit; Returned RUnit; Returned RUnit; Returned (RList [2;3]); Returned (RList [3;2]);
         Returned (RVal 2); Returned (RVal 3); Returned (RVal 3); Returned (RBool true); Returned RUnit; Returned RUnit;
         Returned (RList [9]); Threw "circular_buffer_empty"; Threw "circular_buffer_empty"; Returned RUnit;
         Returned (RList [5;6]); Returned (RNat 2)], [5;6]).
Proof. vm_compute. reflexivity. Qed.
