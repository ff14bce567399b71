(** queue_mpmc_mutex.h, queue_spsc_locked.h, queue_spsc_isr.h and queue_lockable.h. The four classes have the
    same code up to names; lines below are those of queue_mpmc_mutex.h unless a file is named. Every access
    to a shared variable is one step; threads interleave arbitrarily between steps; lock() waits until nobody
    holds the lock. size_type is not truncated: all values are at most MAX_SIZE (static_assert 679). *)
From Coq Require Import List Bool Arith.
Import ListNotations.

Section Locked.
Context {A : Type}.
Variable MAX : nat.

(** 100-103, 655: None is a slot of raw storage, Some v a constructed element *)
Record mem := mkmem { wi : nat; ri : nat; cs : nat; buf : nat -> option A }.
(** 78-81 *)
Definition mem0 : mem := mkmem 0 0 0 (fun _ => None).
(** the public operations; emplace(args...) is Push of the value constructed from the arguments *)
Inductive op := Push (v : A) | Pop | Pop_into | Clear | Empty | Full | Size | Available | Front.
(** a reference is the index of its slot *)
Inductive res := Bool (b : bool) | Popped (o : option A) | Done | Num (n : nat) | Ref (i : nat).

(** what a thread has still to do: a tree of accesses to shared variables *)
Inductive prog :=
| Ret (r : res)
| Lock (k : prog)
| Unlock (k : prog)
| GetW (k : nat -> prog) | GetR (k : nat -> prog) | GetS (k : nat -> prog)
| SetW (n : nat) (k : prog) | SetR (n : nat) (k : prog) | SetS (n : nat) (k : prog)
| Construct (i : nat) (v : A) (k : prog)
| Destroy (i : nat) (k : prog)
| Load (i : nat) (k : A -> prog)
| Stuck.

(** 88-98 *)
Definition get_next_index (index maximum : nat) : nat := if S index =? maximum then 0 else S index.
(** 425-440, 446-461, 469-586 *)
Definition push_implementation (v : A) (k : bool -> prog) : prog :=
  GetS (fun s => if s =? MAX then k false else
    GetW (fun w => Construct w v (GetW (fun w => SetW (get_next_index w MAX) (GetS (fun s => SetS (s + 1) (k true))))))).
(** 618-633 *)
Definition pop_implementation (k : bool -> prog) : prog :=
  GetS (fun s => if s =? 0 then k false else
    GetR (fun r => Destroy r (GetR (fun r => SetR (get_next_index r MAX) (GetS (fun s => SetS (s - 1) (k true))))))).
(** 592-613: the moved-from element stays constructed until the destructor call *)
Definition pop_into_implementation (k : option A -> prog) : prog :=
  GetS (fun s => if s =? 0 then k None else
    GetR (fun r => Load r (fun v => GetR (fun r => Destroy r (GetR (fun r => SetR (get_next_index r MAX) (GetS (fun s => SetS (s - 1) (k (Some v)))))))))).
(** 345-348; [fuel] is MAX_SIZE + 1 calls at most (Stuck otherwise) *)
Fixpoint clear_loop (fuel : nat) (k : prog) : prog :=
  match fuel with
  | 0 => Stuck
  | S n => pop_implementation (fun b => if b then clear_loop n k else k)
  end.
(** 360, 374, 388, 402, 640 *)
Definition body (o : op) (k : res -> prog) : prog :=
  match o with
  | Push v => push_implementation v (fun b => k (Bool b))
  | Pop => pop_implementation (fun b => k (Bool b))
  | Pop_into => pop_into_implementation (fun v => k (Popped v))
  | Clear => clear_loop (S MAX) (k Done)
  | Empty => GetS (fun s => k (Bool (s =? 0)))
  | Full => GetS (fun s => k (Bool (s =? MAX)))
  | Size => GetS (fun s => k (Num s))
  | Available => GetS (fun s => k (Num (MAX - s)))
  | Front => GetR (fun r => k (Ref r))
  end.
(** 158-167, 285-308, 313-407 and the same functions of the other classes: lock, implementation, unlock *)
Definition locked (o : op) : prog := Lock (body o (fun r => Unlock (Ret r))).
(** queue_spsc_isr.h: 65-170 (xxx_from_isr), queue_spsc_locked.h: 59-86, 211-508 (xxx_from_unlocked),
    queue_lockable.h: 67-139, 268-547 (xxx_unlocked) *)
Definition unlocked (o : op) : prog := body o Ret.

Definition upd {B} (f : nat -> B) (i : nat) (b : B) : nat -> B := fun j => if j =? i then b else f j.
(** one access; None: undefined behaviour (constructing over an element, destroying or reading raw storage),
    or not an access *)
Definition access (p : prog) (m : mem) : option (mem * prog) :=
  match p with
  | GetW k => Some (m, k (wi m))
  | GetR k => Some (m, k (ri m))
  | GetS k => Some (m, k (cs m))
  | SetW n k => Some (mkmem n (ri m) (cs m) (buf m), k)
  | SetR n k => Some (mkmem (wi m) n (cs m) (buf m), k)
  | SetS n k => Some (mkmem (wi m) (ri m) n (buf m), k)
  | Construct i v k => match buf m i with None => Some (mkmem (wi m) (ri m) (cs m) (upd (buf m) i (Some v)), k) | Some _ => None end
  | Destroy i k => match buf m i with Some _ => Some (mkmem (wi m) (ri m) (cs m) (upd (buf m) i None), k) | None => None end
  | Load i k => match buf m i with Some v => Some (m, k v) | None => None end
  | Ret _ | Lock _ | Unlock _ | Stuck => None
  end.
(** any number of accesses *)
Inductive run : prog -> mem -> mem -> prog -> Prop :=
| run_stop p m : run p m m p
| run_step p m m1 p1 m2 p2 : access p m = Some (m1, p1) -> run p1 m1 m2 p2 -> run p m m2 p2.

(** threads are numbered; an interrupt runs to completion, and only while interrupts are not disabled, that
    is while nobody holds the lock *)
Inductive who := Thread (t : nat) | Isr.
Inductive event := Call (w : who) (o : op) | Return (w : who) (r : res).
(** what each thread is doing: None outside of any call *)
Record world := mkworld { memory : mem; holder : option nat; doing : nat -> option prog }.
Definition world0 : world := mkworld mem0 None (fun _ => None).
Inductive step : world -> list event -> world -> Prop :=
| s_call w t o : doing w t = None ->
    step w [Call (Thread t) o] (mkworld (memory w) (holder w) (upd (doing w) t (Some (locked o))))
| s_lock w t k : doing w t = Some (Lock k) -> holder w = None ->
    step w [] (mkworld (memory w) (Some t) (upd (doing w) t (Some k)))
| s_unlock w t k : doing w t = Some (Unlock k) ->
    step w [] (mkworld (memory w) None (upd (doing w) t (Some k)))
| s_access w t p m p' : doing w t = Some p -> access p (memory w) = Some (m, p') ->
    step w [] (mkworld m (holder w) (upd (doing w) t (Some p')))
| s_return w t r : doing w t = Some (Ret r) ->
    step w [Return (Thread t) r] (mkworld (memory w) (holder w) (upd (doing w) t None))
| s_isr w o m r : holder w = None -> run (unlocked o) (memory w) m (Ret r) ->
    step w [Call Isr o; Return Isr r] (mkworld m (holder w) (doing w)).
(** the executions from the initial state and their visible events *)
Inductive execution : list event -> world -> Prop :=
| x_start : execution [] world0
| x_step evs w evs1 w1 : execution evs w -> step w evs1 w1 -> execution (evs ++ evs1) w1.
End Locked.
Arguments mem : clear implicits.
Arguments op : clear implicits.
Arguments res : clear implicits.
Arguments prog : clear implicits.
Arguments event : clear implicits.
Arguments world : clear implicits.
