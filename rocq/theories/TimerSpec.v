(** * Specification of a set of software timers.

    A timer service is a clock: the current time, the registered timers, and
    the pending expirations (absolute due time, timer id), earliest first.
    Nothing here knows about delta lists. *)
From Coq Require Import List Arith Bool ZArith.
From Verif Require Import Cmd TimerModel.
Import ListNotations.
Local Open Scope Z_scope.

Record reg := mkR { r_cb : option nat; r_period : Z; r_repeat : bool }.
Record clock := mkC {
  now : Z;                       (* total time ticked while enabled *)
  timers : list (option reg);    (* by timer id *)
  pending : list (Z * nat);      (* (due time, id), earliest first *)
  running : bool;
  fired : list (nat * nat) }.    (* (id, callback) in order of invocation *)

Definition power_up (max : nat) : clock := mkC 0 (repeat None max) [] false [].

(** earliest first; of two timers due at the same time the one scheduled last goes first *)
Fixpoint schedule (d : Z) (i : nat) (l : list (Z * nat)) : list (Z * nat) :=
  match l with
  | [] => [(d, i)]
  | (d', i') :: r => if d <=? d' then (d, i) :: l else (d', i') :: schedule d i r
  end.
Definition cancel (i : nat) (l : list (Z * nat)) : list (Z * nat) := filter (fun e => negb (Nat.eqb (snd e) i)) l.
Definition is_pending (i : nat) (l : list (Z * nat)) : bool := existsb (fun e => Nat.eqb (snd e) i) l.

Definition with_pending p c := mkC (now c) (timers c) p (running c) (fired c).
Definition with_timer i x c := mkC (now c) (Slots.upd (timers c) i x) (pending c) (running c) (fired c).
Definition with_now t c := mkC t (timers c) (pending c) (running c) (fired c).
Definition with_running b c := mkC (now c) (timers c) (pending c) b (fired c).
Definition with_fired e c := mkC (now c) (timers c) (pending c) (running c) (fired c ++ [e]).

(** the smallest id not in use *)
Fixpoint first_free (l : list (option reg)) (i : nat) : option nat :=
  match l with [] => None | None :: _ => Some i | Some _ :: r => first_free r (S i) end.

Definition is_u32 (x : Z) : bool := (0 <=? x) && (x <? 4294967296).

Section Variant.
  Variable msg cb_first : bool.
  Variable callback : nat -> list (nat * nat) -> prog.

  (** a call on timer [id]: [f] when registered, answer false otherwise.
      [None]: the id is not one that was ever handed out (the C++ code indexes
      out of its array), or the call is made on timer [self] itself from
      its own callback in the variants that run callbacks before re-arming. *)
  Definition on_timer (self : option nat) (id : nat) (c : clock) (f : reg -> option (res * clock)) : option (res * clock) :=
    if Nat.eqb id NO_TIMER then Some (RBool false, c) else
    match nth_error (timers c) id with
    | None => None
    | Some None => Some (RBool false, c)
    | Some (Some r) =>
        if match self with Some s => Nat.eqb s id | None => false end then None else f r
    end.

  Definition spec_call (self : option nat) (k : call) (c : clock) : option (res * clock) :=
    match k with
    | Register cb p r =>
        if is_u32 p then
          if msg && (match cb with None => true | _ => false end) then Some (RId NO_TIMER, c) else
          match first_free (timers c) 0 with
          | Some i => Some (RId i, with_timer i (Some (mkR cb p r)) c)
          | None => Some (RId NO_TIMER, c)
          end
        else None
    | Unregister id =>
        on_timer self id c (fun r =>
          if msg && is_pending id (pending c) then None else
          Some (RBool true, with_timer id None (with_pending (cancel id (pending c)) c)))
    | Start id immediate =>
        on_timer self id c (fun r =>
          if r_period r =? Inactive then Some (RBool false, c) else
          let due := if immediate then now c else now c + r_period r in
          Some (RBool true, with_pending (schedule due id (cancel id (pending c))) c))
    | Stop id =>
        on_timer self id c (fun r => Some (RBool true, with_pending (cancel id (pending c)) c))
    | SetPeriod id p =>
        if is_u32 p then
          on_timer self id c (fun r =>
            Some (RBool true, with_timer id (Some (mkR (r_cb r) p (r_repeat r))) (with_pending (cancel id (pending c)) c)))
        else None
    | SetMode id m =>
        on_timer self id c (fun r =>
            Some (RBool true, with_timer id (Some (mkR (r_cb r) (r_period r) m)) (with_pending (cancel id (pending c)) c)))
    | Enable b => Some (RUnit, with_running b c)
    | IsRunning => Some (RBool (running c), c)
    | Clear =>
        match self with
        | Some _ => None
        | None => Some (RUnit, mkC (now c) (repeat None (List.length (timers c))) [] (running c) (fired c))
        end
    | HasActive => Some (RBool (match pending c with [] => false | _ => true end), c)
    | TimeToNext => Some (RTime (match pending c with [] => Inactive | (d, _) :: _ => d - now c end), c)
    | IsActive id => Some (RBool (is_pending id (pending c)), c)
    end.

  Fixpoint spec_prog (self : option nat) (p : prog) (c : clock) : option clock :=
    match p with
    | Done => Some c
    | Do k f => match spec_call self k c with Some (r, c') => spec_prog self (f r) c' | None => None end
    end.

  (** timer i expires at time d: its callback runs at that (virtual) time and
      a repeating timer is re-armed one period later *)
  Definition rearm (d : Z) (i : nat) (c : clock) : option clock :=
    match nth_error (timers c) i with
    | Some (Some r) => if r_repeat r
                       then Some (with_pending (schedule (d + r_period r) i (pending c)) c)
                       else Some c
    | _ => None
    end.
  Definition call_back (i : nat) (c : clock) : option clock :=
    match nth_error (timers c) i with
    | Some (Some r) =>
        match r_cb r with
        | None => Some c
        | Some k => let c1 := with_fired (i, k) c in
                    spec_prog (if cb_first then Some i else None) (callback k (fired c1)) c1
        end
    | _ => None
    end.
  Definition obind {A B} (x : option A) (f : A -> option B) := match x with Some a => f a | None => None end.
  Definition expire (d : Z) (i : nat) (c : clock) : option clock :=
    if cb_first then obind (call_back i c) (rearm d i) else obind (rearm d i c) (call_back i).

  (** let the time run up to [target]; [None] if more than [fuel] expirations *)
  Fixpoint elapse (fuel : nat) (target : Z) (c : clock) : option clock :=
    match fuel with
    | O => None
    | S f =>
        match pending c with
        | (d, i) :: rest =>
            if d <=? target
            then obind (expire d i (with_now d (with_pending rest c))) (elapse f target)
            else Some (with_now target c)
        | [] => Some (with_now target c)
        end
    end.

  Definition timer_spec (fuel : nat) (o : op) (c : clock) : option (obs res * clock) :=
    match o with
    | Call k => match spec_call None k c with Some (r, c') => Some (Returned r, c') | None => None end
    | Tick n =>
        if is_u32 n then
          if running c then
            match elapse fuel (now c + n) c with
            | Some c' => Some (Returned (RTick true (fired c')), c')
            | None => None
            end
          else Some (Returned (RTick false (fired c)), c)
        else None
    end.
End Variant.

(** ** Vocabulary for statements about one timer *)
(** calls that name timer [id], or clear everything *)
Definition touches (id : nat) (k : call) : bool :=
  match k with
  | Unregister i | Start i _ | Stop i | SetPeriod i _ | SetMode i _ => Nat.eqb i id
  | Clear => true
  | _ => false
  end.
Fixpoint avoids (id : nat) (p : prog) : Prop :=
  match p with Done => True | Do k f => touches id k = false /\ forall r, avoids id (f r) end.
Definition op_avoids (id : nat) (o : op) : Prop := match o with Call k => touches id k = false | Tick _ => True end.

Definition fires (id : nat) (l : list (nat * nat)) : Z := Z.of_nat (List.length (filter (fun e => Nat.eqb (fst e) id) l)).
(** total time processed by the tick calls of a history *)
Fixpoint ticked (ops : list op) (seen : list (obs res)) : Z :=
  match ops, seen with
  | Tick n :: o, Returned (RTick true _) :: s => n + ticked o s
  | _ :: o, _ :: s => ticked o s
  | _, _ => 0
  end.

