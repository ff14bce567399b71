(** scheduler.h and task.h. A task is a name; the state of the whole program outside the scheduler is
    an arbitrary type [Wd]: task_request_work (const) reads it, task_process_work changes it. The list
    of tasks does not change during a pass (a task calling add_task while it runs is not modelled). *)
From Coq Require Import List Bool Arith.
From Verif Require Import Util SortModel.
Import ListNotations.

Section Sched.
  Variables (T Wd : Type).
  Variable request : T -> Wd -> nat.      (* task_request_work, a uint32_t *)
  Variable process : T -> Wd -> Wd.       (* task_process_work *)

  (** what is observed: the tasks whose task_process_work is called, in order *)
  (** scheduler.h: 104-120 *)
  Fixpoint seq_single (tasks : list T) (w : Wd) (idle : bool) : Wd * list T * bool :=
    match tasks with
    | [] => (w, [], idle)
    | t :: r =>
        if 0 <? request t w then
          let '(w', tr, i) := seq_single r (process t w) false in (w', t :: tr, i)
        else seq_single r w idle
    end.
  (** scheduler.h: 141-145: the while loop may not end: [fuel] *)
  Fixpoint drain (fuel : nat) (t : T) (w : Wd) : option (Wd * list T) :=
    if 0 <? request t w then
      match fuel with
      | O => None
      | S f => match drain f t (process t w) with Some (w', tr) => Some (w', t :: tr) | None => None end
      end
    else Some (w, []).
  (** scheduler.h: 133-149 *)
  Fixpoint seq_multiple (fuel : nat) (tasks : list T) (w : Wd) (idle : bool) : option (Wd * list T * bool) :=
    match tasks with
    | [] => Some (w, [], idle)
    | t :: r =>
        match drain fuel t w with
        | None => None
        | Some (w1, tr1) =>
            match seq_multiple fuel r w1 (match tr1 with [] => idle | _ => false end) with
            | None => None
            | Some (w2, tr2, i) => Some (w2, tr1 ++ tr2, i)
            end
        end
    end.
  (** scheduler.h: 162-184 *)
  Fixpoint highest (tasks : list T) (w : Wd) : Wd * list T * bool :=
    match tasks with
    | [] => (w, [], true)
    | t :: r => if 0 <? request t w then (process t w, [t], false) else highest r w
    end.
  (** scheduler.h: 202-214 *)
  Fixpoint most_loop (tasks : list T) (w : Wd) (index most_index most_work : nat) (idle : bool) : nat * bool :=
    match tasks with
    | [] => (most_index, idle)
    | t :: r =>
        let n_work := request t w in
        if most_work <? n_work then most_loop r w (S index) index n_work false
        else most_loop r w (S index) most_index most_work idle
    end.
  (** scheduler.h: 195-222; None = access outside the list *)
  Definition most_work (tasks : list T) (w : Wd) : option (Wd * list T * bool) :=
    let (most_index, idle) := most_loop tasks w 0 0 0 true in
    if negb idle then
      match nth_error tasks most_index with Some t => Some (process t w, [t], idle) | None => None end
    else Some (w, [], idle).

  (** scheduler.h: 285-300; [prio] = get_task_priority; compare_priority 341-347 *)
  Variable prio : T -> nat.
  Inductive addres := Added (l : list T) | TooMany | NullTask (l : list T) | Bad.
  Definition insert_at (l : list T) (i : nat) (t : T) : list T := firstn i l ++ t :: skipn i l.
  Definition add_task (max : nat) (l : list T) (t : T) : addres :=
    if negb (List.length l =? max) then
      match upper_bound (fun v x => prio x <? prio v) l t with
      | Some i => Added (insert_at l i t)
      | None => Bad
      end
    else TooMany.
  (** scheduler.h: 308-315; None in the array = null pointer. The tasks before a failing one stay
      added: the state is part of the result (for TooMany: the list it stopped with) *)
  Fixpoint add_task_list (max : nat) (l : list T) (ts : list (option T)) : addres * list T :=
    match ts with
    | [] => (Added l, l)
    | None :: _ => (NullTask l, l)
    | Some t :: r => match add_task max l t with Added l' => add_task_list max l' r | e => (e, l) end
    end.

  (** scheduler.h: 374-396: [pass] is the policy; the events are the calls made. exit and running are
      read from the state (exit_scheduler and set_scheduler_running can be called by anything) *)
  Inductive ev := Run (t : T) | Watchdog | Idle.
  Variables (exit_ running : Wd -> bool) (watchdog idle_cb : option (Wd -> Wd)).
  Variable pass : list T -> Wd -> option (Wd * list T * bool).
  Definition opt_call (f : option (Wd -> Wd)) (e : ev) (w : Wd) : Wd * list ev :=
    match f with Some g => (g w, [e]) | None => (w, []) end.
  (** one iteration of the loop body 382-395 *)
  Definition iteration (tasks : list T) (w : Wd) : option (Wd * list ev) :=
    if running w then
      match pass tasks w with
      | None => None
      | Some (w1, tr, idle) =>
          let (w2, e2) := opt_call watchdog Watchdog w1 in
          let (w3, e3) := if idle then opt_call idle_cb Idle w2 else (w2, []) in
          Some (w3, map Run tr ++ e2 ++ e3)
      end
    else Some (w, []).
  (** the loop, [fuel] iterations at most; (state, events, finished) *)
  Fixpoint loop (fuel : nat) (tasks : list T) (w : Wd) : option (Wd * list ev * bool) :=
    if exit_ w then Some (w, [], true)
    else match fuel with
         | O => Some (w, [], false)
         | S f => match iteration tasks w with
                  | None => None
                  | Some (w1, e1) => match loop f tasks w1 with Some (w2, e2, b) => Some (w2, e1 ++ e2, b) | None => None end
                  end
         end.
End Sched.
