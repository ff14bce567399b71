(** * Model of observer.h: class observable.  The etl::vector of observer_item is a list of (observer, enabled) of at most [N] entries. *)
From Coq Require Import List Arith Bool.
From Verif Require Import ObsSpec.
Import ListNotations.
(** observer.h: 106-116: an entry of the observer list: the observer and whether it is enabled *)
Notation item := (nat * bool)%type.
(** observer.h: 121-134, 286-289: find_if over the list; the length of the list stands for end() *)
Fixpoint find_observer (x : nat) (l : list item) : nat :=
  match l with [] => 0 | i :: r => if Nat.eqb x (fst i) then 0 else S (find_observer x r) end.
Definition set_at (l : list item) (i : nat) (b : bool) : list item :=
  match nth_error l i with Some it => firstn i l ++ (fst it, b) :: skipn (S i) l | None => l end.
Section Obs.
  Variable N : nat.
  (** observer.h: 148-163 *)
  Definition add_observer (x : nat) (l : list item) : ores * list item :=
    if Nat.eqb (find_observer x l) (length l)
    then if negb (Nat.eqb (length l) N) then (Ounit, l ++ [(x, true)]) else (Ofull, l)
    else (Ounit, l).
  (** observer.h: 169-186 *)
  Definition remove_observer (x : nat) (l : list item) : bool * list item :=
    let i := find_observer x l in
    if negb (Nat.eqb i (length l)) then (true, firstn i l ++ skipn (S i) l) else (false, l).
  (** observer.h: 192-202, 207-217 *)
  Definition enable_observer (x : nat) (b : bool) (l : list item) : list item :=
    let i := find_observer x l in if negb (Nat.eqb i (length l)) then set_at l i b else l.
  (** observer.h: 240-254, 259-272: what an observer does when it is notified is [react]: further calls on the observable.
      The iterator is an index; end() is computed again each time round.  [None]: the iterator has passed the end (or fuel ran out) *)
  Variable react : nat -> list oop.
  Definition quiet_op (o : oop) (l : list item) : list item :=
    match o with
    | Oadd x => snd (add_observer x l)
    | Oremove x => snd (remove_observer x l)
    | Oenable x b => enable_observer x b l
    | Odisable x => enable_observer x false l
    | Oclear => []
    | Ocount | Onotify => l
    end.
  Fixpoint notify_loop (fuel i : nat) (l : list item) : option (list nat * list item) :=
    if Nat.eqb i (length l) then Some ([], l)
    else match fuel, nth_error l i with
         | S f, Some it =>
           if snd it
           then match notify_loop f (S i) (fold_left (fun l o => quiet_op o l) (react (fst it)) l) with Some (ns, l) => Some (fst it :: ns, l) | None => None end
           else notify_loop f (S i) l
         | _, _ => None
         end.
  Definition obs_op (o : oop) (l : list item) : option (ores * list item) :=
    match o with
    | Oadd x => Some (add_observer x l)
    | Oremove x => Some (Ob (fst (remove_observer x l)), snd (remove_observer x l))
    | Oenable x b => Some (Ounit, enable_observer x b l)
    | Odisable x => Some (Ounit, enable_observer x false l)
    | Oclear => Some (Ounit, [])
    | Ocount => Some (On (length l), l)
    | Onotify => match notify_loop (N + 1) 0 l with Some (ns, l) => Some (Onotified ns, l) | None => None end
    end.
  Fixpoint obs_ops (os : list oop) (l : list item) : option (list ores * list item) :=
    match os with
    | [] => Some ([], l)
    | o :: r => match obs_op o l with Some (x, l) => match obs_ops r l with Some (xs, l) => Some (x :: xs, l) | None => None end | None => None end
    end.
End Obs.
