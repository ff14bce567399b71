(** * Specification of a bounded FIFO queue: a list, oldest first. *)
From Coq Require Import List Arith Bool String.
From Verif Require Import Cmd QueueModel.
Import ListNotations.

(** What each call must observe when the queue contains [l], and the content
    afterwards; [None]: the caller broke a precondition (pushing to a full
    queue or popping an empty one without ETL_CHECK_PUSH_POP, or
    front/back/pop_into on an empty queue). *)
Definition fifo_spec {T} (cap : nat) (check : bool) (o : op T) (l : list T)
  : option (obs (res T) * list T) :=
  match o with
  | Push x => if List.length l <? cap then Some (Returned RUnit, l ++ [x])
              else if check then Some (Threw "queue_full", l) else None
  | Pop => match l with
           | _ :: r => Some (Returned RUnit, r)
           | [] => if check then Some (Threw "queue_empty", []) else None end
  | PopInto => match l with x :: r => Some (Returned (RVal x), r) | [] => None end
  | Front => match l with x :: _ => Some (Returned (RVal x), l) | [] => None end
  | Back => match rev l with x :: _ => Some (Returned (RVal x), l) | [] => None end
  | Clear => Some (Returned RUnit, [])
  | Size => Some (Returned (RNat (List.length l)), l)
  | Empty => Some (Returned (RBool (Nat.eqb (List.length l) 0)), l)
  | Full => Some (Returned (RBool (Nat.eqb (List.length l) cap)), l)
  | Available => Some (Returned (RNat (cap - List.length l)), l)
  end.
