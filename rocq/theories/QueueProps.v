(** * Property C08: etl::queue is a bounded FIFO.
    Quantified over: element type, trivially destructible or not, with or
    without ETL_CHECK_PUSH_POP, every capacity >= 1 and every history of calls
    in which the caller respects the preconditions ([fifo_spec] is not [None]). *)
From Coq Require Import List Arith Lia Bool String.
From Verif Require Import Slots Cmd QueueModel QueueSpec QueueProofs.
Import ListNotations.

(** Every call of every history returns / throws exactly what the FIFO
    specification says; no undefined behaviour; exactly the elements in the
    queue are alive (no leak, no early destruction). *)
Theorem C08_queue_fifo :
  forall (T : Type) (triv check : bool) (cap : nat), 1 <= cap ->
  forall (ops : list (op T)) seen l,
    spec_run (fifo_spec cap check) ops [] = Some (seen, l) ->
    exists q, run (exec T triv check) ops (make cap) = Some (seen, q) /\
              (triv = false -> live (p_buffer q) = List.length l).
Proof.
  intros T triv check cap Hc ops seen l Hs.
  destruct (run_refines (exec T triv check) (fifo_spec cap check) (rep T triv cap)
              (fun o s a x a' => step_refines T triv check cap Hc o s a x a')
              ops (make cap) [] seen l (rep_make T triv cap Hc) Hs) as (q & E & R).
  exists q. split; [exact E|]. intros Ht. eapply ring_live; [apply (q_ring _ _ _ _ _ R)|exact Ht].
Qed.
Print Assumptions C08_queue_fifo.

(** Copy assignment between queues of the same capacity copies the content:
    afterwards the target behaves, for every further history, as the source would. *)
Theorem C08_queue_assign_same_capacity :
  forall (T : Type) (triv check : bool) (cap : nat), 1 <= cap ->
  forall ops1 ops2 ops3 (s1 s2 s3 : list (obs (res T))) l1 l2 l3 q1 q2,
    spec_run (fifo_spec cap check) ops1 [] = Some (s1, l1) ->
    spec_run (fifo_spec cap check) ops2 [] = Some (s2, l2) ->
    spec_run (fifo_spec cap check) ops3 l2 = Some (s3, l3) ->
    run (exec T triv check) ops1 (make cap) = Some (s1, q1) ->
    run (exec T triv check) ops2 (make cap) = Some (s2, q2) ->
    exists q3 q4, assign_from T triv check q2 q1 = Ok q3 tt /\
      run (exec T triv check) ops3 q3 = Some (s3, q4).
Proof.
  intros T triv check cap Hc ops1 ops2 ops3 s1 s2 s3 l1 l2 l3 q1 q2 S1 S2 S3 R1 R2.
  destruct (run_refines (exec T triv check) (fifo_spec cap check) (rep T triv cap)
              (fun o s a x a' => step_refines T triv check cap Hc o s a x a')
              ops1 (make cap) [] s1 l1 (rep_make T triv cap Hc) S1) as (q1' & E1 & P1).
  destruct (run_refines (exec T triv check) (fifo_spec cap check) (rep T triv cap)
              (fun o s a x a' => step_refines T triv check cap Hc o s a x a')
              ops2 (make cap) [] s2 l2 (rep_make T triv cap Hc) S2) as (q2' & E2 & P2).
  rewrite R1 in E1. rewrite R2 in E2. injection E1 as <-. injection E2 as <-.
  destruct (assign_ok T triv check cap Hc q2 l2 q1 l1 P2 P1) as (q3 & E3 & P3).
  destruct (run_refines (exec T triv check) (fifo_spec cap check) (rep T triv cap)
              (fun o s a x a' => step_refines T triv check cap Hc o s a x a')
              ops3 q3 l2 s3 l3 P3 S3) as (q4 & E4 & _).
  eauto.
Qed.
Print Assumptions C08_queue_assign_same_capacity.

(** FINDING (queue.h: 547, 564): assignment through the iqueue<T> interface
    from a queue of a DIFFERENT capacity wraps the source index at the target's
    capacity.  A capacity 2 queue assigned to a capacity 4 queue reads past the
    source's storage even though the content fits. *)
Theorem C08_queue_assign_other_capacity_refuted :
  exists (q2 q4 : queue nat) (l : list nat),
    run (exec nat false false) [Push 1; Push 2; Pop; Push 3] (make 2) = Some ([Returned RUnit; Returned RUnit; Returned RUnit; Returned RUnit], q2) /\
    spec_run (fifo_spec 2 false) [Push 1; Push 2; Pop; Push 3] [] = Some ([Returned RUnit; Returned RUnit; Returned RUnit; Returned RUnit], l) /\
    q4 = make 4 /\ List.length l <= 4 /\
    assign_from nat false false q2 q4 = Bad.
Proof.
  exists (mkq 1 1 2 2 [Some 3; Some 2]), (make 4), [2; 3]. cbn. repeat split; auto; lia.
Qed.
Print Assumptions C08_queue_assign_other_capacity_refuted.

(** ** Non-vacuity: a history with wrap around, a rejected push and a rejected pop. *)
Example history_ok :
  spec_run (fifo_spec 2 true) [Push 1; Push 2; Push 3; PopInto; Push 4; Front; Back; Full; Pop; Pop; Pop; Push 5; Clear; Size] [] =
  Some ([Returned RUnit; Returned RUnit; Threw "queue_full"; Returned (RVal 1); Returned RUnit; Returned (RVal 2);
         Returned (RVal 4); Returned (RBool true); Returned RUnit; Returned RUnit; Threw "queue_empty"; Returned RUnit;
         Returned RUnit; Returned (RNat 0)], []).
Proof. vm_compute. reflexivity. Qed.
