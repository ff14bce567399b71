(** Specification of the debouncer, from the sequence of samples. *)
From Coq Require Import List Bool Arith.
From Verif Require Import DebounceModel.
Import ListNotations.

(** number of samples, counting back from the newest (the head), that equal the newest *)
Fixpoint same (s : bool) (newest_first : list bool) : nat :=
  match newest_first with [] => 0 | x :: t => if Bool.eqb x s then S (same s t) else 0 end.
Definition streak (newest_first : list bool) : nat :=
  match newest_first with [] => 0 | s :: _ => same s newest_first end.

(** [since] holds the samples since the last report, newest first. After sample [s] the state
    changes when the streak has reached the count for that change; a count of 0 disables it.
    [has_hold], [has_repeat]: whether the class has these states at all. *)
Definition due (count streak : nat) : bool := negb (count =? 0) && (count <=? streak).
Definition next_level (v h r : nat) (l : level) (since : list bool) : level * bool :=
  match since with
  | [] => (l, false)
  | s :: _ =>
      let n := streak since in
      match l, s with
      | Off, false => (Off, false)
      | Off, true => if due v n then (On, true) else (Off, false)
      | _, false => if due v n then (Off, true) else (l, false)
      | On, true => if due h n then (Held, true) else (On, false)
      | _, true => if due r n then (Repeating, true) else (l, false)
      end
  end.
(** levels and reports for a sequence of samples *)
Fixpoint expected (v h r : nat) (l : level) (since : list bool) (samples : list bool) : level * list bool :=
  match samples with
  | [] => (l, [])
  | s :: t =>
      let (l', changed) := next_level v h r l (s :: since) in
      let (l'', reports) := expected v h r l' (if changed then [] else s :: since) t in
      (l'', changed :: reports)
  end.

(** the last [n] samples all equal [s] *)
Definition last_all (s : bool) (n : nat) (samples : list bool) : Prop :=
  exists before, samples = before ++ repeat s n.
