(** What "a tick that interrupts a call has no effect that it would not have before or after the call" means. The serial executions are those of C25 (TimerModel.exec). *)
From Coq Require Import List Arith Bool ZArith.
From Verif Require Import Cmd TimerModel TisrModel.
Import ListNotations.
Local Open Scope Z_scope.
(** the ticks that were processed *)
Definition accepted (ticks : list (Z * bool)) : list Z := map fst (filter snd ticks).
Definition processed (o : obs res) : Prop := exists log, o = Returned (RTick true log).
(** [ops], with the answers [seen], are the calls in their order, each with its answer, and the processed ticks, each before or after the call it interrupted *)
Inductive serial : list (call * res * list (Z * bool)) -> list op -> list (obs res) -> Prop :=
| serial_nil : serial [] [] []
| serial_call c r ticks l before after o1 o2 ops seen :
    accepted ticks = before ++ after ->
    List.length o1 = List.length before -> Forall processed o1 -> List.length o2 = List.length after -> Forall processed o2 ->
    serial l ops seen ->
    serial ((c, r, ticks) :: l) (map Tick before ++ Call c :: map Tick after ++ ops) (o1 ++ Returned r :: o2 ++ seen).
(** calls in the scope of the theorem: ids that can have been handed out, periods of at least 1 (C25: a period of 0 never ends);
    the message timers' unregister_timer is known to be wrong without any interrupt (C25) *)
Definition allowed (msg : bool) (max : nat) (c : call) : Prop :=
  match c with
  | Register _ p _ => 1 <= p < 4294967296
  | SetPeriod id p => (id < max \/ id = NO_TIMER)%nat /\ 1 <= p < 4294967296
  | Unregister id => (id < max \/ id = NO_TIMER)%nat /\ msg = false
  | Start id _ | Stop id | SetMode id _ => (id < max \/ id = NO_TIMER)%nat
  | _ => True
  end.
(** no tick arrives at the point where a call has looked at the list and has not yet taken the lock *)
Definition window_free (msg : bool) (kd : kind) (h : call * list (list Z)) : Prop :=
  match fst h with
  | Unregister _ | Stop _ | SetPeriod _ _ | SetMode _ _ => nth 2 (snd h) [] = []
  | TimeToNext => bare msg kd = true -> nth 1 (snd h) [] = []
  | _ => True
  end.
(** or no timer ever stops by itself *)
Definition repeats (c : call) : Prop := match c with Register _ _ r => r = true | SetMode _ r => r = true | _ => True end.
