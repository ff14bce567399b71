(** The timers of TimerModel (C25) with a tick that interrupts the calls of the application: callback_timer.h, callback_timer_atomic.h, callback_timer_interrupt.h,
    callback_timer_locked.h and the four message_timer headers. Here the lock primitives, which C25 leaves out, are modelled.
    The application runs a call as a thread of actions; between any two actions the tick handler may be called any number of times, and it runs to its end before
    the thread goes on (an interrupt, or a task of higher priority). An action is a single access of the shared data, except that a critical section is one action:
    a handler that is refused changes nothing (C56_refused_tick), so finer steps there would be observed by nobody.
    Simplifications: callbacks do not call the timer; the fields that a tick does not write are read in one action with the check they are read for. *)
From Coq Require Import List Arith Bool String ZArith.
From Verif Require Import Util Slots Cmd TimerModel.
Import ListNotations.
Local Open Scope Z_scope.

(** callback_timer.h / message_timer.h with ETL_..._USE_ATOMIC_LOCK or ETL_..._USE_INTERRUPT_LOCK; the _atomic, _interrupt and _locked headers *)
Inductive kind := Basic (interrupt_lock : bool) | Atomic | Interrupt | Locked.
Definition callback_first (k : kind) : bool := match k with Basic _ => false | _ => true end.
(** with an interrupt lock the handler is not called while the lock is held, it is pending; with a semaphore or a mutex it is called and finds out
    (callback_timer.h: 560, callback_timer_atomic.h: 162, callback_timer_locked.h: 163) *)
Definition defers (k : kind) : bool := match k with Basic b => b | Interrupt => true | _ => false end.
Definition quiet : nat -> list (nat * nat) -> prog := fun _ _ => Done.

(** a call of the application *)
Inductive thread : Type :=
| Fin (r : res)
| Act (A : Type) (c : Cmd st A) (k : A -> thread)
| Lock (k : thread)
| Unlock (k : thread).
Arguments Act {A} c k.

Section Timer.
Variable msg : bool.
Variable kd : kind.

(** callback_timer.h: 391-482, callback_timer_interrupt.h: 58-88 (guarded); message_timer.h: 347-380 *)
Definition t_register (cb : option nat) (p : Z) (r : bool) : thread :=
  Act (fun s => Ok s (registered s <? MAX s)%nat) (fun space =>
  if space then
    if msg && (match cb with None => true | _ => false end) then Fin (RId NO_TIMER) else
    Act (fun s => Ok s (find_free (arr s) 0)) (fun o =>
    match o with
    | Some i =>
      let construct := fun k : thread => Act (up i (fun _ => fresh i cb p r)) (fun _ => Act (modify (fun s => set_registered (S (registered s)) s)) (fun _ => k)) in
      match kd with Interrupt => Lock (construct (Unlock (Fin (RId i)))) | _ => construct (Fin (RId i)) end
    | None => Fin (RId NO_TIMER)
    end)
  else Fin (RId NO_TIMER)).
(** if (timer.is_active()) { lock; active_list.remove(timer.id, expired); unlock; } *)
Definition t_deactivate (id : nat) (expired : bool) (k : thread) : thread :=
  Act (rd id) (fun t => if Z.eqb (delta t) Inactive then k else Lock (Act (remove id expired) (fun _ => Unlock k))).
(** if (id_ != NO_TIMER) { if (timer.id != NO_TIMER) ... } *)
Definition t_on (id : nat) (k : thread) : thread :=
  if Nat.eqb id NO_TIMER then Fin (RBool false) else Act (rd id) (fun t => if Nat.eqb (tid t) NO_TIMER then Fin (RBool false) else k).
(** callback_timer.h: 489-515, callback_timer_atomic.h: 91-117; message_timer.h: 385-411 *)
Definition t_unregister (id : nat) : thread :=
  t_on id (t_deactivate id msg (Act (up id (fun _ => blank)) (fun _ => Act (modify (fun s => set_registered (registered s - 1) s)) (fun _ => Fin (RBool true))))).
(** callback_timer.h: 621-652, callback_timer_atomic.h: 210-241 *)
Definition t_start (id : nat) (immediate : bool) : thread :=
  t_on id (Act (rd id) (fun t => if Z.eqb (period t) Inactive then Fin (RBool false) else
    Lock (Act (let! t := rd id in
               (if Z.eqb (delta t) Inactive then ret tt else remove (tid t) false) ;;
               up id (set_delta (if immediate then 0 else period t)) ;;
               let! t := rd id in insert (tid t))
    (fun _ => Unlock (Fin (RBool true)))))).
(** callback_timer.h: 657-709, callback_timer_atomic.h: 246-298 *)
Definition t_stop (id : nat) : thread := t_on id (t_deactivate id false (Fin (RBool true))).
Definition t_set_period (id : nat) (p : Z) : thread := t_on id (t_deactivate id false (Act (up id (set_per p)) (fun _ => Fin (RBool true)))).
Definition t_set_mode (id : nat) (r : bool) : thread := t_on id (t_deactivate id false (Act (up id (set_rep r)) (fun _ => Fin (RBool true)))).
(** callback_timer.h: 536-548; the timers are constructed anew one after the other *)
Fixpoint t_blank (i n : nat) (k : thread) : thread := match n with O => k | S n => Act (up i (fun _ => blank)) (fun _ => t_blank (S i) n k) end.
Definition t_clear : thread :=
  Lock (Act list_clear (fun _ => Unlock (
  Act (fun s => Ok s (MAX s)) (fun max => t_blank 0 max (
  Act (modify (set_registered 0)) (fun _ => Fin RUnit)))))).
(** the queries of callback_timer.h take no lock (714-757), those of the other headers do (message_timer.h: 595-620, callback_timer_atomic.h: 303-328) *)
Definition bare : bool := match kd with Basic _ => negb msg | _ => false end.
Definition not_empty : Cmd st bool := has_active_timer.
Definition t_has_active : thread :=
  if bare then Act not_empty (fun b => Fin (RBool b)) else Lock (Act not_empty (fun b => Unlock (Fin (RBool b)))).
Definition front_delta : Cmd st Z := let! s := state in let! t := rd (head s) in ret (delta t).
Definition t_time_to_next : thread :=
  if bare then Act not_empty (fun b => if b then Act front_delta (fun d => Fin (RTime d)) else Fin (RTime Inactive))
  else Lock (Act (let! b := not_empty in if b then front_delta else ret Inactive) (fun d => Unlock (Fin (RTime d)))).
(** callback_timer.h: 739-757; callback_timer_atomic.h: 334-356 (the semaphore is taken twice); callback_timer_locked.h: 346-367 and _interrupt.h: 336-357
    (the lock of has_active_timer is given back before the next one). The message timers have no is_active; it is modelled as in the callback timers *)
Definition is_on (id : nat) : Cmd st res := let! t := rd id in if Nat.eqb (tid t) NO_TIMER then ret (RBool false) else ret (RBool (negb (Z.eqb (delta t) Inactive))).
Definition t_is_active (id : nat) : thread :=
  Act (fun s => Ok s (id <? MAX s)%nat) (fun valid => if valid then
    match kd with
    | Basic _ => Act not_empty (fun b => if b then Act (is_on id) (fun r => Fin r) else Fin (RBool false))
    | Atomic => Lock (Lock (Act not_empty (fun b => Unlock (if b then Act (is_on id) (fun r => Unlock (Fin r)) else Unlock (Fin (RBool false))))))
    | _ => Lock (Act not_empty (fun b => Unlock (if b then Lock (Act (is_on id) (fun r => Unlock (Fin r))) else Fin (RBool false))))
    end else Fin (RBool false)).

Definition threads (c : call) : thread :=
  match c with
  | Register cb p r => t_register cb p r
  | Unregister id => t_unregister id
  | Start id i => t_start id i
  | Stop id => t_stop id
  | SetPeriod id p => t_set_period id p
  | SetMode id r => t_set_mode id r
  | Enable b => Act (modify (set_enabled b)) (fun _ => Fin RUnit)
  | IsRunning => Act (fun s => Ok s (enabled s)) (fun b => Fin (RBool b))
  | Clear => t_clear
  | HasActive => t_has_active
  | TimeToNext => t_time_to_next
  | IsActive id => t_is_active id
  end.

Section Fuel.
(** bounds the expirations of one tick, as in C25 *)
Variable fuel : nat.
(** the handler: tick(n) with l locks held; the result of tick. callback_timer.h: 556-616, callback_timer_atomic.h: 158-205 *)
Definition handler (l : nat) (n : Z) : Cmd st bool :=
  let! s := state in
  if enabled s && negb (Nat.eqb l 0) then ret false
  else let! r := tick msg (callback_first kd) quiet fuel n in match r with RTick b _ => ret b | _ => ret false end.
Fixpoint handlers (l : nat) (ns : list Z) : Cmd st (list (Z * bool)) :=
  match ns with [] => ret [] | n :: ns => let! b := handler l n in let! r := handlers l ns in ret ((n, b) :: r) end.
(** what happens between two actions: the ticks [ns] arrive, [pend] are those held back *)
Definition point (l : nat) (pend ns : list Z) : Cmd st (list (Z * bool) * list Z) :=
  if defers kd && negb (Nat.eqb l 0) then ret ([], pend ++ ns) else let! r := handlers l (pend ++ ns) in ret (r, []).
(** the thread, with the ticks that arrive before its first, second, ... action; those that are left arrive at its end. Result: the result of the call, and
    the ticks with their results. A mutex that is locked twice is a deadlock *)
Fixpoint exec_thread (t : thread) (arrivals : list (list Z)) (pend : list Z) (l : nat) : Cmd st (res * list (Z * bool)) :=
  match t with
  | Fin r => let! (q, _) := point l pend (List.concat arrivals) in ret (r, q)
  | Act c k => let! (q, p) := point l pend (hd [] arrivals) in let! a := c in let! (r, q2) := exec_thread (k a) (tl arrivals) p l in ret (r, q ++ q2)
  | Lock k => let! (q, p) := point l pend (hd [] arrivals) in
              if match kd with Locked => negb (Nat.eqb l 0) | _ => false end then throw "deadlock" else
              let! (r, q2) := exec_thread k (tl arrivals) p (S l) in ret (r, q ++ q2)
  | Unlock k => let! (q, p) := point l pend (hd [] arrivals) in let! (r, q2) := exec_thread k (tl arrivals) p (l - 1) in ret (r, q ++ q2)
  end.
(** the calls of the application, one after the other *)
Fixpoint exec_history (h : list (call * list (list Z))) : Cmd st (list (res * list (Z * bool))) :=
  match h with
  | [] => ret []
  | (c, arrivals) :: h => let! x := exec_thread (threads c) arrivals [] 0 in let! l := exec_history h in ret (x :: l)
  end.
End Fuel.
End Timer.
