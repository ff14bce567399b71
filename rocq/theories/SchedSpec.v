(** Specification of the scheduler policies. *)
From Coq Require Import List Bool Arith Sorted Permutation.
Import ListNotations.

Section Spec.
  Variables (T Wd : Type) (request : T -> Wd -> nat) (process : T -> Wd -> Wd).
  (** running the tasks of a list one after the other *)
  Definition run_all (tr : list T) (w : Wd) : Wd := fold_left (fun w t => process t w) tr w.
  (** one pass over the tasks, each run once if it asks for work when its turn comes *)
  Inductive once : list T -> Wd -> list T -> Prop :=
  | once_nil : forall w, once [] w []
  | once_run : forall t r w tr, 0 < request t w -> once r (process t w) tr -> once (t :: r) w (t :: tr)
  | once_skip : forall t r w tr, request t w = 0 -> once r w tr -> once (t :: r) w tr.
  (** each task run until it asks for no more *)
  Inductive drained : list T -> Wd -> list T -> Prop :=
  | dr_nil : forall w, drained [] w []
  | dr_run : forall t r w tr, 0 < request t w -> drained (t :: r) (process t w) tr -> drained (t :: r) w (t :: tr)
  | dr_next : forall t r w tr, request t w = 0 -> drained r w tr -> drained (t :: r) w tr.
  (** the first task that asks for work *)
  Definition first_with_work (tasks : list T) (w : Wd) (t : T) : Prop :=
    exists a b, tasks = a ++ t :: b /\ Forall (fun u => request u w = 0) a /\ 0 < request t w.
  (** the first of the tasks that ask for most *)
  Definition most (tasks : list T) (w : Wd) (t : T) : Prop :=
    exists a b, tasks = a ++ t :: b /\ 0 < request t w /\
      Forall (fun u => request u w < request t w) a /\ Forall (fun u => request u w <= request t w) b.
  Definition no_work (tasks : list T) (w : Wd) : Prop := Forall (fun u => request u w = 0) tasks.

  (** ordered by descending priority, equal priorities in the order in which they were added *)
  Variable prio : T -> nat.
  Definition by_priority (added l : list T) : Prop :=
    Permutation added l /\ StronglySorted (fun a b => prio b <= prio a) l /\
    forall p, filter (fun t => prio t =? p) l = filter (fun t => prio t =? p) added.
End Spec.
