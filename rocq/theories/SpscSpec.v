(** * What a user of queue_spsc_atomic observes — specification vocabulary.
    Everything here is stated on the logs of completed calls
    (call, result) of the two threads; nothing refers to indices. *)
From Coq Require Import List Arith Bool.
From Verif Require Import RA SpscModel.
Import ListNotations.

Section Spec.
  Variable T : Type.
  Notation log := (list (op T * res T)).
  Notation state := (sys T (op T) (res T)).

  (** the values for which push returned true, in call order *)
  Fixpoint accepted (l : log) : list T :=
    match l with
    | [] => []
    | (Push x, RBool true) :: r => x :: accepted r
    | _ :: r => accepted r
    end.

  (** the number of pops that returned success *)
  Fixpoint removed (l : log) : nat :=
    match l with
    | [] => 0
    | (Pop, RVal (Some _)) :: r => S (removed r)
    | (PopDiscard, RBool true) :: r => S (removed r)
    | _ :: r => removed r
    end.

  (** the argument of a push call that has not returned yet *)
  Definition in_flight (s : state) : list T :=
    match scur s Prod with Some (Push x, _) => [x] | _ => [] end.

  (** [consumes stream l]: the log [l] is a legal way of reading [stream]:
      each successful pop returns (or discards) the next element, each
      successful front shows the next element without removing it. *)
  Fixpoint consumes (stream : list T) (l : log) : Prop :=
    match l with
    | [] => True
    | (Pop, RVal (Some v)) :: r => exists s', stream = v :: s' /\ consumes s' r
    | (PopDiscard, RBool true) :: r => exists v s', stream = v :: s' /\ consumes s' r
    | ((Front | FrontRef), RVal (Some v)) :: r => exists s', stream = v :: s' /\ consumes stream r
    | _ :: r => consumes stream r
    end.

  (** slots of the element buffer that contain a live object *)
  Definition live (s : state) : nat :=
    length (filter (fun i => match cval (cells (smem s) i) with Some _ => true | None => false end)
                   (seq 0 (nslots (smem s)))).

  (** A schedule in which every load returns the newest value (sequential
      consistency); the general theorems do not assume it. *)
  Fixpoint fresh (R : nat) (s : state) (acts : list (act (op T))) : Prop :=
    match acts with
    | [] => True
    | a :: r =>
        (match a with
         | Step t c => match scur s t with
                       | Some (_, Load l _ _) => S c = length (hist (smem s) l)
                       | _ => True
                       end
         | _ => True
         end) /\
        match step (code T R) (allowed T) s a with Next s' => fresh R s' r | _ => True end
    end.

  (** results that claim that the queue is full (producer side) or empty
      (consumer side) *)
  Definition claims (t : tid) (o : op T) (r : res T) : bool :=
    match t, o, r with
    | Prod, Push _, RBool false => true
    | Prod, Full, RBool true => true
    | Cons, (Pop | Front | FrontRef), RVal None => true
    | Cons, PopDiscard, RBool false => true
    | Cons, Empty, RBool true => true
    | _, _, _ => false
    end.

  (** the claim is true of state [s] as far as completed calls can tell:
      full : [cap] accepted values have not been removed by a completed pop
      empty: every value whose push has completed has been removed *)
  Definition claim_holds (cap : nat) (t : tid) (s : state) : Prop :=
    match t with
    | Prod => removed (slog s Cons) + cap <= length (accepted (slog s Prod))
    | Cons => length (accepted (slog s Prod)) <= removed (slog s Cons)
    end.

  Definition is_step_of (t : tid) (a : act (op T)) : bool :=
    match a with Step u _ => tid_eqb t u | _ => false end.
  Definition count_steps (t : tid) (acts : list (act (op T))) : nat :=
    length (filter (is_step_of t) acts).
End Spec.
Arguments accepted {T}. Arguments removed {T}. Arguments in_flight {T}.
Arguments consumes {T}. Arguments live {T}. Arguments fresh {T}. Arguments claims {T}. Arguments claim_holds {T}. Arguments count_steps {T}.
