(** Specification of the locked queues: a bounded FIFO and linearizability. *)
From Coq Require Import List Bool Arith.
From Verif Require Import LockedModel.
Import ListNotations.

Section Spec.
Context {A : Type}.
(** oldest first; [gone] counts the elements that have left: the oldest is stored in slot gone mod capacity *)
Record fifo := mkfifo { items : list A; gone : nat }.
(** one operation of a queue of the given capacity *)
Definition fifo_op (cap : nat) (q : fifo) (o : op A) : fifo * res A :=
  let n := length (items q) in
  match o with
  | Push v => if n <? cap then (mkfifo (items q ++ [v]) (gone q), Bool true) else (q, Bool false)
  | Pop => match items q with [] => (q, Bool false) | _ :: l => (mkfifo l (gone q + 1), Bool true) end
  | Pop_into => match items q with [] => (q, Popped None) | x :: l => (mkfifo l (gone q + 1), Popped (Some x)) end
  | Clear => (mkfifo [] (gone q + n), Done)
  | Empty => (q, Bool (n =? 0))
  | Full => (q, Bool (n =? cap))
  | Size => (q, Num n)
  | Available => (q, Num (cap - n))
  | Front => (q, Ref (gone q mod cap))
  end.

(** a visible history with the instants at which the operations take effect *)
Inductive mark := Visible (e : event A) | Effect (w : who) (o : op A) (r : res A).
Definition visible (l : list mark) : list (event A) := flat_map (fun x => match x with Visible e => [e] | Effect _ _ _ => [] end) l.
(** the effects, one after the other, are those of the bounded FIFO and have its results *)
Inductive legal (cap : nat) : list mark -> fifo -> Prop :=
| legal_start : legal cap [] (mkfifo [] 0)
| legal_visible l q e : legal cap l q -> legal cap (l ++ [Visible e]) q
| legal_effect l q w o q' r : legal cap l q -> fifo_op cap q o = (q', r) -> legal cap (l ++ [Effect w o r]) q'.
(** what one thread does *)
Definition mark_of (w : who) (x : mark) : bool :=
  match x with
  | Visible (Call v _) | Visible (Return v _) | Effect v _ _ =>
      match w, v with Thread a, Thread b => a =? b | Isr, Isr => true | _, _ => false end
  end.
Definition own (w : who) (l : list mark) : list mark := filter (mark_of w) l.
(** calls one after the other, each taking effect exactly once between the call and the return, with the
    result returned *)
Inductive finished (w : who) : list mark -> Prop :=
| f_none : finished w []
| f_call l o r : finished w l -> finished w (l ++ [Visible (Call w o); Effect w o r; Visible (Return w r)]).
(** ... the last call may be unfinished *)
Definition protocol (w : who) (l : list mark) : Prop :=
  exists l1, finished w l1 /\
    (l = l1 \/ (exists o, l = l1 ++ [Visible (Call w o)]) \/ (exists o r, l = l1 ++ [Visible (Call w o); Effect w o r])).
Definition linearizes (cap : nat) (marked : list mark) (evs : list (event A)) (q : fifo) : Prop :=
  visible marked = evs /\ legal cap marked q /\ forall w, protocol w (own w marked).
End Spec.
Arguments fifo : clear implicits.
Arguments mark : clear implicits.
