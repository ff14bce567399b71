(** * Observers as a user sees them.  Independent of the code. *)
From Coq Require Import List Arith Bool.
Import ListNotations.
Inductive oop : Type := Oadd (x : nat) | Oremove (x : nat) | Oenable (x : nat) (b : bool) | Odisable (x : nat) | Oclear | Ocount | Onotify.
Inductive ores : Type := Ounit | Ofull | Ob (b : bool) | On (n : nat) | Onotified (l : list nat).
Section Obs.
  Variable N : nat.                       (** MAX_OBSERVERS *)
  (** the registered observers, in the order of registration, and which of them are enabled *)
  Record obs : Type := { registered : list nat; enabled : nat -> bool }.
  Definition known (x : nat) (s : obs) : bool := existsb (Nat.eqb x) (registered s).
  Definition set_enabled (x : nat) (b : bool) (s : obs) : obs := {| registered := registered s; enabled := fun y => if Nat.eqb y x then b else enabled s y |}.
  Definition o_step (o : oop) (s : obs) : ores * obs :=
    match o with
    | Oadd x => if known x s then (Ounit, s)
                else if length (registered s) <? N then (Ounit, set_enabled x true {| registered := registered s ++ [x]; enabled := enabled s |})
                else (Ofull, s)
    | Oremove x => (Ob (known x s), {| registered := filter (fun y => negb (Nat.eqb y x)) (registered s); enabled := enabled s |})
    | Oenable x b => (Ounit, if known x s then set_enabled x b s else s)
    | Odisable x => (Ounit, if known x s then set_enabled x false s else s)
    | Oclear => (Ounit, {| registered := []; enabled := enabled s |})
    | Ocount => (On (length (registered s)), s)
    | Onotify => (Onotified (filter (enabled s) (registered s)), s)
    end.
  Fixpoint o_steps (os : list oop) (s : obs) : list ores * obs :=
    match os with [] => ([], s) | o :: r => let (x, s) := o_step o s in let (xs, s) := o_steps r s in (x :: xs, s) end.
End Obs.
