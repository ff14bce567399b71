(** * Model of priority_queue.h over a vector of capacity N.

    The container is the list of its elements (vector.h is modelled in Vec*.v);
    [None] of the heap functions becomes [UB].  The configuration has exceptions and
    ETL_IS_DEBUG_BUILD (assign checks its length). *)
From Coq Require Import List Arith Bool String.
From Verif Require Import Util Slots SortModel PrioSpec.
Import ListNotations.

Section PQ.
  Context {A : Type}.
  Variable compare : A -> A -> bool.
  Variable N : nat.
  Definition lift {B} (m : option B) : M B := match m with Some x => V x | None => UB end.
  (** priority_queue.h: 333-370 *)
  Definition pq_full (c : list A) : bool := Nat.eqb (List.length c) N.
  (** priority_queue.h: 154-162, 171-179, 190-198 (push and emplace); vector push_back does not check again for a non-full vector *)
  Definition pq_push (c : list A) (x : A) : M (list A) :=
    let* _ := etl_assert (negb (pq_full c)) "priority_queue_full" in lift (push_heap compare (c ++ [x])).
  (** priority_queue.h: 134-146; front() of an empty vector is undefined *)
  Definition pq_top (c : list A) : M A := lift (rd c 0).
  (** priority_queue.h: 312-318 *)
  Definition pq_pop (c : list A) : M (list A) := let* c := lift (pop_heap compare c) in V (removelast c).
  (** priority_queue.h: 324-328 *)
  Definition pq_pop_into (c : list A) : M (A * list A) := let* x := pq_top c in let* c := pq_pop c in V (x, c).
  (** priority_queue.h: 295-306 *)
  Definition pq_assign (c xs : list A) : M (list A) :=
    let* _ := etl_assert (Nat.leb (List.length xs) N) "priority_queue_full" in lift (make_heap compare xs).
  (** one call: the result and the new container; a failed assertion leaves the container as it was *)
  Definition pq_op (o : pop_t A) (c : list A) : M (pres A * list A) :=
    match o with
    | Ppush x => match pq_push c x with V c' => V (Rok, c') | X _ => V (Rfull, c) | UB => UB end
    | Ppop => let* c := pq_pop c in V (Rok, c)
    | Ptop => let* x := pq_top c in V (Rval x, c)
    | Ppop_into => let* r := pq_pop_into c in V (Rval (fst r), snd r)
    | Pclear => V (Rok, [])
    | Passign xs => match pq_assign c xs with V c' => V (Rok, c') | X _ => V (Rfull, c) | UB => UB end
    | Psize => V (Rnat (List.length c), c)
    | Pempty => V (Rbool (Nat.eqb (List.length c) 0), c)
    | Pfull => V (Rbool (pq_full c), c)
    | Pavailable => V (Rnat (N - List.length c), c)
    end.
  Fixpoint pq_ops (os : list (pop_t A)) (c : list A) : M (list (pres A) * list A) :=
    match os with
    | [] => V ([], c)
    | o :: r => let* x := pq_op o c in let* y := pq_ops r (snd x) in V (fst x :: fst y, snd y)
    end.
End PQ.
