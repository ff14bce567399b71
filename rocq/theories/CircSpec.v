(** * Specification of a circular buffer holding the most recent [cap] items. *)
From Coq Require Import List Arith Bool String.
From Verif Require Import Cmd CircModel.
Import ListNotations.

(** keep the [cap] most recent of a list (oldest first) *)
Definition most_recent {T} (cap : nat) (l : list T) : list T := skipn (List.length l - cap) l.

Definition circ_spec {T} (cap : nat) (o : op T) (l : list T) : option (obs (res T) * list T) :=
  match o with
  | Push x => Some (Returned RUnit, most_recent cap (l ++ [x]))
  | PushRange xs => Some (Returned RUnit, most_recent cap (l ++ xs))
  | Pop => match l with
           | _ :: r => Some (Returned RUnit, r)
           | [] => Some (Threw "circular_buffer_empty", []) end
  | PopN n => if n <=? List.length l then Some (Returned RUnit, skipn n l)
              else Some (Threw "circular_buffer_empty", [])
  | Front => match l with
             | x :: _ => Some (Returned (RVal x), l)
             | [] => Some (Threw "circular_buffer_empty", []) end
  | Back => match rev l with
            | x :: _ => Some (Returned (RVal x), l)
            | [] => Some (Threw "circular_buffer_empty", []) end
  | At i => match nth_error l i with
            | Some x => Some (Returned (RVal x), l)
            | None => None end                      (* precondition: i < size() *)
  | Clear => Some (Returned RUnit, [])
  | Fill x => Some (Returned RUnit, map (fun _ => x) l)
  | Contents => Some (Returned (RList l), l)
  | RContents => Some (Returned (RList (rev l)), l)
  | Size => Some (Returned (RNat (List.length l)), l)
  | Empty => Some (Returned (RBool (Nat.eqb (List.length l) 0)), l)
  | Full => Some (Returned (RBool (Nat.eqb (List.length l) cap)), l)
  | Available => Some (Returned (RNat (cap - List.length l)), l)
  end.
