(** * Model of callback_timer, message_timer and their atomic / interrupt /
    locked variants (single thread; the lock primitives are no-ops).

    The eight headers share one algorithm on an intrusive delta list stored in
    the timer array.  They differ in two points, which are parameters here:
    - [msg]: message timers (message_timer.h: 398, message_timer_atomic.h: 111,
      message_timer_interrupt.h: 118, message_timer_locked.h: 115) call
      active_list.remove(id, true) in unregister_timer where callback timers
      call remove(id, false), and refuse a null router on registration
      (message_timer.h: 360);
    - [cb_first]: callback_timer_atomic/interrupt/locked.h and
      message_timer_atomic/interrupt/locked.h run the callback before
      re-inserting a repeating timer (callback_timer_locked.h: 176-189),
      callback_timer.h: 573-599 and message_timer.h: 469-480 after.

    Simplifications: the cursor [current] of the list is written and returned
    but never otherwise read, and is left out; the three kinds of callback are
    one number per registered callback; callbacks are arbitrary terminating
    programs over the API that do not call tick and do not throw. *)
From Coq Require Import List Arith Lia Bool String ZArith.
From Verif Require Import Util Slots Cmd.
Import ListNotations.
Local Open Scope Z_scope.

(** timer.h: 87-106 *)
Definition NO_TIMER : nat := 255.
Definition Inactive : Z := 4294967295.
Definition u32 (x : Z) : Z := x mod 4294967296.

(** callback_timer.h: 176-183; message_timer.h: 133-140 *)
Record timer := mkT { cbk : option nat; period : Z; delta : Z; tid : nat; prev : nat; next : nat; repeating : bool }.
(** callback_timer.h: 94-104 *)
Definition blank : timer := mkT None 0 Inactive NO_TIMER NO_TIMER NO_TIMER true.
(** callback_timer.h: 109-122 *)
Definition fresh (id : nat) (cb : option nat) (p : Z) (r : bool) : timer := mkT cb p Inactive id NO_TIMER NO_TIMER r.

Definition set_delta x t := mkT (cbk t) (period t) x (tid t) (prev t) (next t) (repeating t).
Definition set_prev x t := mkT (cbk t) (period t) (delta t) (tid t) x (next t) (repeating t).
Definition set_next x t := mkT (cbk t) (period t) (delta t) (tid t) (prev t) x (repeating t).
Definition set_per x t := mkT (cbk t) x (delta t) (tid t) (prev t) (next t) (repeating t).
Definition set_rep x t := mkT (cbk t) (period t) (delta t) (tid t) (prev t) (next t) x.

(** callback_timer.h: 787-811 and the list head/tail: 371-372;
    [log] is the sequence of (timer id, callback) invocations so far. *)
Record st := mkS { arr : list timer; head : nat; tail : nat; enabled : bool; registered : nat; log : list (nat * nat) }.
Definition MAX (s : st) : nat := List.length (arr s).
Definition set_arr x s := mkS x (head s) (tail s) (enabled s) (registered s) (log s).
Definition set_head x s := mkS (arr s) x (tail s) (enabled s) (registered s) (log s).
Definition set_tail x s := mkS (arr s) (head s) x (enabled s) (registered s) (log s).
Definition set_enabled x s := mkS (arr s) (head s) (tail s) x (registered s) (log s).
Definition set_registered x s := mkS (arr s) (head s) (tail s) (enabled s) x (log s).
Definition add_log x s := mkS (arr s) (head s) (tail s) (enabled s) (registered s) (log s ++ [x]).

(** callback_timer.h: 764-774, 827-830 *)
Definition make (max : nat) : st := mkS (repeat blank max) NO_TIMER NO_TIMER false 0 [].

(** ptimers[i] ; out of the array is undefined behaviour *)
Definition rd (i : nat) : Cmd st timer :=
  fun s => match nth_error (arr s) i with Some t => Ok s t | None => Bad end.
Definition up (i : nat) (f : timer -> timer) : Cmd st unit :=
  fun s => match nth_error (arr s) i with Some t => Ok (set_arr (upd (arr s) i (f t)) s) tt | None => Bad end.

(** callback_timer.h: 211-214 *)
Definition list_empty : Cmd st bool := let! s := state in ret (Nat.eqb (head s) NO_TIMER).

(** the while loop of insert, callback_timer.h: 236-268; returns test_id at
    its end.  Running out of [fuel] (a cyclic list) counts as [Bad]. *)
Fixpoint insert_loop (fuel : nat) (id test_id : nat) : Cmd st nat :=
  match fuel with
  | O => fun _ => Bad
  | S f =>
      if Nat.eqb test_id NO_TIMER then ret NO_TIMER
      else
        let! timer := rd id in
        let! test := rd test_id in
        if delta timer <=? delta test then
          let! s := state in
          (if Nat.eqb (tid test) (head s) then modify (set_head (tid timer)) else ret tt) ;;
          let! test := rd test_id in
          up id (set_prev (prev test)) ;;
          let! timer := rd id in
          up test_id (set_prev (tid timer)) ;;
          let! test := rd test_id in
          up id (set_next (tid test)) ;;
          let! timer := rd id in
          up test_id (fun t => set_delta (u32 (delta t - delta timer)) t) ;;
          let! timer := rd id in
          (if Nat.eqb (prev timer) NO_TIMER then ret tt
           else up (prev timer) (set_next (tid timer))) ;;
          ret test_id
        else
          up id (set_delta (u32 (delta timer - delta test))) ;;
          let! test := rd test_id in
          insert_loop f id (next test)
  end.

(** callback_timer.h: 219-280 *)
Definition insert (id : nat) : Cmd st unit :=
  let! s := state in
  if Nat.eqb (head s) NO_TIMER then
    modify (set_head id) ;;
    modify (set_tail id) ;;
    up id (set_prev NO_TIMER) ;;
    up id (set_next NO_TIMER)
  else
    let! test_id := insert_loop (S (MAX s)) id (head s) in
    if Nat.eqb test_id NO_TIMER then
      let! s := state in
      let! timer := rd id in
      up (tail s) (set_next (tid timer)) ;;
      up id (set_prev (tail s)) ;;
      up id (set_next NO_TIMER) ;;
      modify (set_tail (tid timer))
    else ret tt.

(** callback_timer.h: 283-317 *)
Definition remove (id : nat) (has_expired : bool) : Cmd st unit :=
  let! s := state in
  let! timer := rd id in
  (if Nat.eqb (head s) id then modify (set_head (next timer))
   else up (prev timer) (set_next (next timer))) ;;
  let! s := state in
  let! timer := rd id in
  (if Nat.eqb (tail s) id then modify (set_tail (prev timer))
   else up (next timer) (set_prev (prev timer))) ;;
  let! timer := rd id in
  (if has_expired then ret tt
   else if Nat.eqb (next timer) NO_TIMER then ret tt
   else up (next timer) (fun t => set_delta (u32 (delta t + delta timer)) t)) ;;
  up id (set_prev NO_TIMER) ;;
  up id (set_next NO_TIMER) ;;
  up id (set_delta Inactive).

(** callback_timer.h: 353-367 *)
Fixpoint clear_loop (fuel id : nat) : Cmd st unit :=
  match fuel with
  | O => fun _ => Bad
  | S f =>
      if Nat.eqb id NO_TIMER then ret tt
      else let! t := rd id in up id (set_next NO_TIMER) ;; clear_loop f (next t)
  end.
Definition list_clear : Cmd st unit :=
  let! s := state in
  clear_loop (S (MAX s)) (head s) ;;
  modify (set_head NO_TIMER) ;; modify (set_tail NO_TIMER).

(** ** The API *)
Inductive call :=
| Register (cb : option nat) (p : Z) (r : bool)
| Unregister (id : nat)
| Start (id : nat) (immediate : bool)
| Stop (id : nat)
| SetPeriod (id : nat) (p : Z)
| SetMode (id : nat) (r : bool)
| Enable (b : bool)
| IsRunning
| Clear
| HasActive
| TimeToNext
| IsActive (id : nat).
Inductive op := Call (c : call) | Tick (count : Z).
Inductive res :=
| RId (id : nat) | RBool (b : bool) | RUnit | RTime (t : Z)
| RTick (processed : bool) (invocations : list (nat * nat)).

(** the code run by a callback: API calls depending on earlier results *)
Inductive prog := Done | Do (c : call) (k : res -> prog).

Section Variant.
  Variable msg : bool.
  Variable cb_first : bool.
  (** behaviour of callback number c, which may depend on everything that
      happened before *)
  Variable callback : nat -> list (nat * nat) -> prog.

  (** callback_timer.h: 402-414 *)
  Fixpoint find_free (l : list timer) (i : nat) : option nat :=
    match l with
    | [] => None
    | t :: r => if Nat.eqb (tid t) NO_TIMER then Some i else find_free r (S i)
    end.
  (** callback_timer.h: 391-418, 423-450, 456-483; message_timer.h: 347-380 *)
  Definition register_timer (cb : option nat) (p : Z) (r : bool) : Cmd st res :=
    let! s := state in
    if (registered s <? MAX s)%nat then
      if msg && (match cb with None => true | _ => false end) then ret (RId NO_TIMER) else
      match find_free (arr s) 0 with
      | Some i =>
          up i (fun _ => fresh i cb p r) ;;
          modify (fun s => set_registered (S (registered s)) s) ;;
          ret (RId i)
      | None => ret (RId NO_TIMER)
      end
    else ret (RId NO_TIMER).

  (** callback_timer.h: 489-515; message_timer.h: 385-411 *)
  Definition unregister_timer (id : nat) : Cmd st res :=
    if Nat.eqb id NO_TIMER then ret (RBool false) else
    let! timer := rd id in
    if Nat.eqb (tid timer) NO_TIMER then ret (RBool false) else
    (if Z.eqb (delta timer) Inactive then ret tt else remove (tid timer) msg) ;;
    up id (fun _ => blank) ;;
    modify (fun s => set_registered (registered s - 1) s) ;;
    ret (RBool true).

  (** callback_timer.h: 621-652 *)
  Definition start (id : nat) (immediate : bool) : Cmd st res :=
    if Nat.eqb id NO_TIMER then ret (RBool false) else
    let! timer := rd id in
    if Nat.eqb (tid timer) NO_TIMER then ret (RBool false) else
    if Z.eqb (period timer) Inactive then ret (RBool false) else
    (if Z.eqb (delta timer) Inactive then ret tt else remove (tid timer) false) ;;
    up id (set_delta (if immediate then 0 else period timer)) ;;
    let! timer := rd id in
    insert (tid timer) ;;
    ret (RBool true).

  (** callback_timer.h: 657-681 *)
  Definition stop (id : nat) : Cmd st bool :=
    if Nat.eqb id NO_TIMER then ret false else
    let! timer := rd id in
    if Nat.eqb (tid timer) NO_TIMER then ret false else
    (if Z.eqb (delta timer) Inactive then ret tt else remove (tid timer) false) ;;
    ret true.

  (** callback_timer.h: 686-709 *)
  Definition set_period (id : nat) (p : Z) : Cmd st res :=
    let! b := stop id in
    if b then up id (set_per p) ;; ret (RBool true) else ret (RBool false).
  Definition set_mode (id : nat) (r : bool) : Cmd st res :=
    let! b := stop id in
    if b then up id (set_rep r) ;; ret (RBool true) else ret (RBool false).

  (** callback_timer.h: 536-548 *)
  Definition clear : Cmd st res :=
    list_clear ;;
    modify (fun s => set_arr (repeat blank (MAX s)) s) ;;
    modify (set_registered 0) ;;
    ret RUnit.

  (** callback_timer.h: 714-757 *)
  Definition has_active_timer : Cmd st bool := let! e := list_empty in ret (negb e).
  Definition time_to_next : Cmd st res :=
    let! b := has_active_timer in
    if b then let! s := state in let! t := rd (head s) in ret (RTime (delta t)) else ret (RTime Inactive).
  Definition is_active (id : nat) : Cmd st res :=
    let! s := state in
    if (id <? MAX s)%nat then
      let! b := has_active_timer in
      if b then
        let! t := rd id in
        if Nat.eqb (tid t) NO_TIMER then ret (RBool false) else ret (RBool (negb (Z.eqb (delta t) Inactive)))
      else ret (RBool false)
    else ret (RBool false).

  Definition exec_call (c : call) : Cmd st res :=
    match c with
    | Register cb p r => register_timer cb p r
    | Unregister id => unregister_timer id
    | Start id i => start id i
    | Stop id => let! b := stop id in ret (RBool b)
    | SetPeriod id p => set_period id p
    | SetMode id r => set_mode id r
    | Enable b => modify (set_enabled b) ;; ret RUnit      (* 520-523 *)
    | IsRunning => let! s := state in ret (RBool (enabled s))  (* 528-531 *)
    | Clear => clear
    | HasActive => let! b := has_active_timer in ret (RBool b)
    | TimeToNext => time_to_next
    | IsActive id => is_active id
    end.

  Fixpoint exec_prog (p : prog) : Cmd st unit :=
    match p with
    | Done => ret tt
    | Do c k => let! r := exec_call c in exec_prog (k r)
    end.

  (** callback_timer.h: 582-599 *)
  Definition invoke (i : nat) (cb : option nat) : Cmd st unit :=
    match cb with
    | None => ret tt
    | Some c => modify (add_log (i, c)) ;; let! s := state in exec_prog (callback c (log s))
    end.

  (** callback_timer.h: 575-580.  [i] is the slot the reference [timer] is
      bound to. *)
  Definition reinsert (i : nat) : Cmd st unit :=
    let! timer := rd i in
    if repeating timer then
      up i (fun t => set_delta (period t) t) ;;
      let! timer := rd i in
      insert (tid timer)
    else ret tt.

  (** callback_timer.h: 567-602; returns (count, has_active) at the loop end *)
  Fixpoint tick_loop (fuel : nat) (count : Z) : Cmd st (Z * bool) :=
    match fuel with
    | O => fun _ => Bad
    | S f =>
        let! e := list_empty in
        if e then ret (count, false) else
        let! s := state in
        let! timer := rd (head s) in
        let i := head s in
        if delta timer <=? count then
          let count := u32 (count - delta timer) in
          remove (tid timer) true ;;
          (if cb_first then
             let! timer := rd i in invoke i (cbk timer) ;; reinsert i
           else
             reinsert i ;; let! timer := rd i in invoke i (cbk timer)) ;;
          tick_loop f count
        else ret (count, true)
    end.

  (** callback_timer.h: 556-616 *)
  Definition tick (fuel : nat) (count : Z) : Cmd st res :=
    let! s := state in
    if enabled s then
      let! (count, has_active) := tick_loop fuel count in
      (if has_active then
         let! s := state in up (head s) (fun t => set_delta (u32 (delta t - count)) t)
       else ret tt) ;;
      let! s := state in ret (RTick true (log s))
    else ret (RTick false (log s)).

  Definition exec (fuel : nat) (o : op) : Cmd st res :=
    match o with
    | Call c => exec_call c
    | Tick count => tick fuel count
    end.
End Variant.
