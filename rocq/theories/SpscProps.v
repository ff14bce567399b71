(** * Properties C01, C02, C03 of etl::queue_spsc_atomic.
    Quantified over: element type, Reserved = Size+1 (any Size >= 1), every
    finite schedule of both threads at the granularity of single memory
    accesses, and every value a release/acquire load may return. *)
From Coq Require Import List Arith Lia Bool.
From Verif Require Import RA SpscModel SpscSpec SpscProofs SpscProofs2 SpscProofs3.
Import ListNotations.

(** C01: everything the consumer sees is the producer's accepted stream, in
    order, without loss or duplication.  [in_flight] is the argument of a push
    that has stored its index but not returned to its caller yet. *)
Theorem C01_spsc_fifo :
  forall (T : Type) (Reserved : nat), 2 <= Reserved ->
  forall (acts : list (act (op T))) (s : sys T (op T) (res T)),
    exec_all T Reserved acts = Next s ->
    consumes (accepted (slog s Prod) ++ in_flight s) (slog s Cons).
Proof. exact fifo. Qed.
Print Assumptions C01_spsc_fifo.

(** C02: no schedule leads to a data race, an access outside the buffer, a
    read or destruction of a dead object, or construction over a live one. *)
Theorem C02_spsc_no_undefined_behaviour :
  forall (T : Type) (Reserved : nat), 2 <= Reserved ->
  forall (acts : list (act (op T))), exec_all T Reserved acts <> Undef.
Proof.
  intros T R HR acts E. pose proof (exec_all_inv T R HR acts) as H. rewrite E in H. exact H.
Qed.
Print Assumptions C02_spsc_no_undefined_behaviour.

(** C02: never more than capacity() live objects. *)
Theorem C02_spsc_live_objects_bounded :
  forall (T : Type) (Reserved : nat), 2 <= Reserved ->
  forall acts (s : sys T (op T) (res T)),
    exec_all T Reserved acts = Next s -> live s <= capacity Reserved.
Proof. exact live_bound. Qed.
Print Assumptions C02_spsc_live_objects_bounded.

(** C02: when no call is in progress the live objects are exactly the
    accepted and not yet removed ones: nothing leaks, nothing dies early. *)
Theorem C02_spsc_live_objects_exact :
  forall (T : Type) (Reserved : nat), 2 <= Reserved ->
  forall acts (s : sys T (op T) (res T)),
    exec_all T Reserved acts = Next s ->
    scur s Prod = None -> scur s Cons = None ->
    live s + removed (slog s Cons) = length (accepted (slog s Prod)).
Proof. exact live_idle. Qed.
Print Assumptions C02_spsc_live_objects_exact.

(** C03: whenever loads return current values, a call that claims "full"
    (push returning false, full() from the push thread) or "empty" (pop/front
    failing, empty() from the pop thread) was right at some moment inside the
    call: [l1] are the calls completed before it, and the state [s1] lies
    between its invocation and its return. *)
Theorem C03_spsc_claims_truthful :
  forall (T : Type) (Reserved : nat), 2 <= Reserved ->
  forall acts (s : sys T (op T) (res T)) t o r l1 l2,
    fresh Reserved (init_sys Reserved) acts ->
    exec_all T Reserved acts = Next s ->
    slog s t = l1 ++ (o, r) :: l2 -> claims t o r = true ->
    exists a1 a2 s1, acts = a1 ++ a2 /\ exec_all T Reserved a1 = Next s1 /\
      slog s1 t = l1 /\ scur s1 t <> None /\ claim_holds (capacity Reserved) t s1.
Proof. exact truthful. Qed.
Print Assumptions C03_spsc_claims_truthful.

(** C03: size() and available() never exceed capacity() whichever thread
    asks, whatever the staleness of the loads. *)
Theorem C03_spsc_size_bounded :
  forall (T : Type) (Reserved : nat), 2 <= Reserved ->
  forall acts (s : sys T (op T) (res T)) n,
    exec_all T Reserved acts = Next s ->
    In (Size, RNat n) (slog s Prod ++ slog s Cons) \/
    In (Available, RNat n) (slog s Prod ++ slog s Cons) ->
    n <= capacity Reserved.
Proof. exact size_bound. Qed.
Print Assumptions C03_spsc_size_bounded.

(** C03: wait freedom.  A call completes after at most six of its own steps,
    whatever the other thread does, and can always take its next step. *)
Theorem C03_spsc_wait_free :
  forall (T : Type) (Reserved : nat), 2 <= Reserved ->
  forall (s s' : sys T (op T) (res T)) t o acts,
    scur s t = Some (o, code T Reserved o) ->
    run (code T Reserved) (allowed T) s acts = Next s' ->
    6 <= count_steps t acts ->
    length (slog s t) < length (slog s' t).
Proof.
  intros T R HR s s' t o acts Hc Hr Hn.
  exact (wait_free_run T R HR acts 5 s s' t o _ Hc (bounded_code T R o) Hr Hn).
Qed.
Print Assumptions C03_spsc_wait_free.

Theorem C03_spsc_never_blocked :
  forall (T : Type) (Reserved : nat), 2 <= Reserved ->
  forall acts (s : sys T (op T) (res T)) t,
    exec_all T Reserved acts = Next s -> scur s t <> None ->
    exists c s', step (code T Reserved) (allowed T) s (Step t c) = Next s'.
Proof. exact never_stuck. Qed.
Print Assumptions C03_spsc_never_blocked.

(** ** Non-vacuity: a capacity 2 queue, five pushes and four pops, one push
    failing while full, one pop reading a stale write index. *)
Fixpoint steps (t : tid) (cs : list nat) : list (act (op nat)) :=
  match cs with [] => [] | c :: r => Step t c :: steps t r end.
Definition demo : list (act (op nat)) :=
  [Invoke Prod (Push 10)] ++ steps Prod [0;0;0;0;0] ++      (* accepted *)
  [Invoke Prod (Push 11)] ++ steps Prod [1;0;0;0;0] ++      (* accepted *)
  [Invoke Prod (Push 12)] ++ steps Prod [2;0;0] ++          (* full *)
  [Invoke Cons Pop] ++ steps Cons [0;1;0;0;0;0] ++          (* 10, with a stale view of write *)
  [Invoke Prod (Push 13); Step Prod 2; Invoke Cons Pop; Step Cons 1; Step Prod 1; Step Cons 2;
   Step Prod 0; Step Cons 0; Step Cons 0; Step Prod 0; Step Cons 0; Step Cons 0; Step Prod 0] ++
  [Invoke Cons Front] ++ steps Cons [2;2;0] ++              (* stale: looks empty *)
  [Invoke Cons Front] ++ steps Cons [2;3;0;0] ++
  [Invoke Cons PopDiscard] ++ steps Cons [2;3;0;0;0] ++
  [Invoke Cons Size] ++ steps Cons [3;3;0].
Example demo_runs :
  match exec_all nat 3 demo with
  | Next s => slog s Prod = [(Push 10, RBool true); (Push 11, RBool true); (Push 12, RBool false); (Push 13, RBool true)]
     /\ slog s Cons = [(Pop, RVal (Some 10)); (Pop, RVal (Some 11)); (Front, RVal None); (Front, RVal (Some 13));
                       (PopDiscard, RBool true); (Size, RNat 0)]
     /\ live s = 0
  | _ => False
  end.
Proof. vm_compute. auto. Qed.
(** a fresh (sequentially consistent) schedule with a truthful failure *)
Example demo_fresh :
  let acts := [Invoke Prod (Push 1)] ++ steps Prod [0;0;0;0;0] ++ [Invoke Prod (Push 2)] ++ steps Prod [1;0;0] in
  fresh 2 (init_sys 2) acts /\
  match exec_all nat 2 acts with
  | Next s => slog s Prod = [(Push 1, RBool true)] ++ (Push 2, RBool false) :: []
  | _ => False end.
Proof. vm_compute. intuition. Qed.
