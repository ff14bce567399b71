(** message_router_registry.h. The registry is a flat_multimap from router id to router; C17 and C51 are about that container. Here it is its sequence of elements: find, lower_bound, upper_bound, insert and
    erase are what flat_multimap.h / reference_flat_multimap.h do to that sequence. Simplification: the binary searches of algorithm.h are linear (C32 proves that they give the same position on a sorted sequence).
    [R]: addresses of routers, [rid]: get_message_router_id() of a router (it never changes). *)
From Coq Require Import List Arith Bool.
Import ListNotations.

Section Model.
Variables (R : Type) (same : R -> R -> bool) (rid : R -> nat) (MaxRouters : nat).
Definition registry : Type := list (nat * R).

(** reference_flat_multimap.h: 706-709 *)
Fixpoint lower_bound (l : registry) (id : nat) : nat := match l with [] => 0 | e :: l => if Nat.ltb (fst e) id then S (lower_bound l id) else 0 end.
(** reference_flat_multimap.h: 744-747 *)
Fixpoint upper_bound (l : registry) (id : nat) : nat := match l with [] => 0 | e :: l => if Nat.ltb id (fst e) then 0 else S (upper_bound l id) end.
(** reference_flat_multimap.h: 589-606; None: end() *)
Definition rfind (l : registry) (id : nat) : option (nat * R) :=
  match nth_error l (lower_bound l id) with Some e => if negb (Nat.ltb (fst e) id) && negb (Nat.ltb id (fst e)) then Some e else None | None => None end.
(** flat_multimap.h: 260-276, at the upper bound *)
Definition insert (l : registry) (e : nat * R) : registry := let i := upper_bound l (fst e) in firstn i l ++ e :: skipn i l.
(** flat_multimap.h: 464-479 *)
Definition erase (l : registry) (id : nat) : registry := firstn (lower_bound l id) l ++ skipn (upper_bound l id) l.

(** message_router_registry.h: 296-308 *)
Definition find (l : registry) (id : nat) : option R := match rfind l id with Some e => Some (snd e) | None => None end.
(** message_router_registry.h: 406-409 *)
Definition contains_id (l : registry) (id : nat) : bool := match find l id with Some _ => true | None => false end.
(** message_router_registry.h: 434-439 *)
Definition contains (l : registry) (r : R) : bool := match rfind l (rid r) with Some e => same (snd e) r | None => false end.
(** message_router_registry.h: 418-428; None: the null pointer *)
Definition contains_pointer (l : registry) (r : option R) : bool := match r with None => false | Some r => contains l r end.
(** message_router_registry.h: 444-447, reference_flat_multimap.h: 683-688 *)
Definition count (l : registry) (id : nat) : nat := upper_bound l id - lower_bound l id.
(** message_router_registry.h: 468-471, 460-463, 452-455, 476-479 *)
Definition size (l : registry) : nat := length l.
Definition full (l : registry) : bool := Nat.eqb (length l) MaxRouters.
Definition empty (l : registry) : bool := Nat.eqb (length l) 0.
Definition available (l : registry) : nat := MaxRouters - length l.
(** message_router_registry.h: 354-366; the second component: ETL_ASSERT_FAIL(message_router_registry_full) was not reached *)
Definition add (l : registry) (r : R) : registry * bool := if negb (full l) && negb (contains l r) then (insert l (rid r, r), true) else (l, false).
(** message_router_registry.h: 397-400 *)
Definition remove (l : registry) (id : nat) : registry := erase l id.
End Model.
