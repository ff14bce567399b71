(** multi_range.h. The ranges of a program live in a list; a range is named by its position. V is the type of the loop values. [f] bounds the length of a
    walk along the inner pointers or the number of iterations: None means that the walk does not end within f steps. *)
From Coq Require Import List Bool Arith.
Import ListNotations.
Section Mrange.
Context {V : Type}.
(** 228-229, 517-525; stepper and compare are virtual function objects, 247-368 *)
Record range := { first : V; last : V; stepper : V -> V; compare : V -> V -> bool; current : V; has_completed : bool; inner : option nat }.
Definition set_current (c : V) (d : bool) (r : range) : range :=
  {| first := first r; last := last r; stepper := stepper r; compare := compare r; current := c; has_completed := d; inner := inner r |}.
Definition set_inner (p : option nat) (r : range) : range :=
  {| first := first r; last := last r; stepper := stepper r; compare := compare r; current := current r; has_completed := has_completed r; inner := p |}.
Definition heap := list range.
Fixpoint upd (i : nat) (x : range) (h : heap) : heap := match h, i with [], _ => [] | _ :: h, O => x :: h | y :: h, S i => y :: upd i x h end.
(** constructors, 374-430, and 186-190: has_completed is true, no inner range *)
Definition make (fi la : V) (st : V -> V) (co : V -> V -> bool) : range :=
  {| first := fi; last := la; stepper := st; compare := co; current := fi; has_completed := true; inner := None |}.

(** start, 453-462 *)
Fixpoint start (f i : nat) (h : heap) : option heap :=
  match f with
  | O => None
  | S f =>
    match nth_error h i with
    | None => None
    | Some r =>
      match (match inner r with Some j => start f j h | None => Some h end) with
      | None => None
      | Some h => match nth_error h i with Some r => Some (upd i (set_current (first r) (negb (compare r (first r) (last r))) r) h) | None => None end
      end
    end
  end.
(** step, 499-511: the new current value and has_rolled_over *)
Definition step (r : range) : V * bool :=
  let c := stepper r (current r) in
  let has_rolled_over := negb (compare r c (last r)) in
  (if has_rolled_over then first r else c, has_rolled_over).
Definition step_at (i : nat) (h : heap) : option heap :=
  match nth_error h i with Some r => let (c, d) := step r in Some (upd i (set_current c d r) h) | None => None end.
(** next, 467-484 *)
Fixpoint next (f i : nat) (h : heap) : option heap :=
  match f with
  | O => None
  | S f =>
    match nth_error h i with
    | None => None
    | Some r =>
      let h := upd i (set_current (current r) false r) h in
      match inner r with
      | None => step_at i h
      | Some j => match next f j h with
                  | None => None
                  | Some h => match nth_error h j with Some rj => if has_completed rj then step_at i h else Some h | None => None end
                  end
      end
    end
  end.
Definition completed (i : nat) (h : heap) : option bool := match nth_error h i with Some r => Some (has_completed r) | None => None end.
Definition value (i : nat) (h : heap) : option V := match nth_error h i with Some r => Some (current r) | None => None end.

(** the loop for (r.start(); !r.completed(); r.next()) { body }, the body reads the values of the ranges [ids]. The second argument counts iterations. *)
Fixpoint values (ids : list nat) (h : heap) : option (list V) :=
  match ids with [] => Some [] | i :: ids => match value i h, values ids h with Some v, Some vs => Some (v :: vs) | _, _ => None end end.
Fixpoint loop (n f i : nat) (ids : list nat) (h : heap) : option (list (list V) * heap) :=
  match n with
  | O => None
  | S n => match completed i h with
           | None => None
           | Some true => Some ([], h)
           | Some false => match values ids h, next f i h with Some vs, Some h => match loop n f i ids h with Some (l, h) => Some (vs :: l, h) | None => None end | _, _ => None end
           end
  end.
Definition iterate (n f i : nat) (ids : list nat) (h : heap) : option (list (list V) * heap) := match start f i h with Some h => loop n f i ids h | None => None end.
(** number_of_iterations, 163-173 *)
Fixpoint count_loop (n f i : nat) (count : nat) (h : heap) : option (nat * heap) :=
  match n with
  | O => None
  | S n => match completed i h with None => None | Some true => Some (count, h) | Some false => match next f i h with Some h => count_loop n f i (S count) h | None => None end end
  end.
Definition number_of_iterations (n f i : nat) (h : heap) : option (nat * heap) := match start f i h with Some h => count_loop n f i 0 h | None => None end.
(** number_of_ranges, 145-158 *)
Fixpoint count_ranges (f : nat) (p : option nat) (count : nat) (h : heap) : option nat :=
  match p with None => Some count | Some i => match f with O => None | S f => match nth_error h i with Some r => count_ranges f (inner r) (S count) h | None => None end end end.
Definition number_of_ranges (f i : nat) (h : heap) : option nat := match nth_error h i with Some r => count_ranges f (inner r) 1 h | None => None end.

(** is_valid, 195-210 *)
Fixpoint is_valid (f this : nat) (p : option nat) (h : heap) : option bool :=
  match p with
  | None => Some true
  | Some x => if Nat.eqb x this then Some false else match f with O => None | S f => match nth_error h x with Some r => is_valid f this (inner r) h | None => None end end
  end.
(** set_last, 215-226 *)
Fixpoint set_last (f x : nat) (nxt : option nat) (h : heap) : option heap :=
  match f with
  | O => None
  | S f => match nth_error h x with None => None | Some r => match inner r with Some y => set_last f y nxt h | None => Some (upd x (set_inner nxt r) h) end end
  end.
(** the outcome of a call: the ETL_ASSERT reports multi_range_circular_reference and throws *)
Inductive outcome := Done (h : heap) | Circular (h : heap).
(** insert, 78-92 *)
Definition insert (f i x : nat) (h : heap) : option outcome :=
  match is_valid f i (Some x) h with
  | None => None
  | Some false => Some (Circular h)
  | Some true => match nth_error h i with
                 | None => None
                 | Some r => match set_last f x (inner r) (upd i (set_inner (Some x) r) h) with Some h => Some (Done h) | None => None end
                 end
  end.
(** append, 97-111 *)
Fixpoint append (f i x : nat) (h : heap) : option outcome :=
  match f with
  | O => None
  | S f => match is_valid f i (Some x) h with
           | None => None
           | Some false => Some (Circular h)
           | Some true => match nth_error h i with
                          | None => None
                          | Some r => match inner r with Some j => append f j x h | None => Some (Done (upd i (set_inner (Some x) r) h)) end
                          end
           end
  end.
(** detach, 116-119 *)
Definition detach (i : nat) (h : heap) : option heap := match nth_error h i with Some r => Some (upd i (set_inner None r) h) | None => None end.
(** detach_all, 124-132 *)
Fixpoint detach_all (f i : nat) (h : heap) : option heap :=
  match f with
  | O => None
  | S f => match nth_error h i with
           | None => None
           | Some r => match (match inner r with Some j => detach_all f j h | None => Some h end) with Some h => detach i h | None => None end
           end
  end.
End Mrange.
Arguments range : clear implicits.
Arguments heap : clear implicits.
