(** What nested loops mean; only the names of the fields of a range are taken from the model. *)
From Coq Require Import List Bool Arith.
From Verif Require Import MrangeModel.
Import ListNotations.
Section Spec.
Context {V : Type}.
(** the values a single loop `for (x = first; compare(x, last); step(x))` runs through *)
Inductive runs (st : V -> V) (co : V -> bool) : V -> list V -> Prop :=
| runs_end x : co x = false -> runs st co x []
| runs_more x l : co x = true -> runs st co (st x) l -> runs st co x (x :: l).
Definition loops (r : range V) (l : list V) : Prop := runs (stepper r) (fun x => compare r x (last r)) (first r) l.
(** the nesting: i is the outermost of the ranges [l], each one is the inner range of the one before it, the last has none *)
Inductive nested (h : heap V) : nat -> list nat -> Prop :=
| nested_last i r : nth_error h i = Some r -> inner r = None -> nested h i [i]
| nested_more i r j l : nth_error h i = Some r -> inner r = Some j -> nested h j l -> nested h i (i :: l).
(** nested loops, the first list is the outermost: lexicographic order *)
Fixpoint product (vss : list (list V)) : list (list V) := match vss with [] => [[]] | vs :: r => flat_map (fun v => map (cons v) (product r)) vs end.
(** what a range is, apart from where it points and where it stands *)
Definition same_loop (r s : range V) : Prop := first r = first s /\ last r = last s /\ stepper r = stepper s /\ compare r = compare s.
End Spec.
