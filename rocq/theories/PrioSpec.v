(** * A bounded bag from which a greatest element is taken.  Independent of the code. *)
From Coq Require Import List Arith Bool Permutation.
From Verif Require Import SortSpec.
Import ListNotations.

Section Spec.
  Context {A : Type}.
  Variable lt : A -> A -> bool.
  Variable N : nat.
  Inductive pop_t : Type := Ppush (x : A) | Ppop | Ptop | Ppop_into | Pclear | Passign (xs : list A) | Psize | Pempty | Pfull | Pavailable.
  Inductive pres : Type := Rok | Rfull | Rval (x : A) | Rnat (n : nat) | Rbool (b : bool).
  (** what one call may do to the bag (a list, up to order); calls that a client must not make have no rule *)
  Inductive pstep (bag : list A) : pop_t -> pres -> list A -> Prop :=
  | s_push x bag' : List.length bag < N -> Permutation bag' (x :: bag) -> pstep bag (Ppush x) Rok bag'
  | s_push_full x bag' : List.length bag = N -> Permutation bag' bag -> pstep bag (Ppush x) Rfull bag'
  | s_top m bag' : greatest lt m bag -> Permutation bag' bag -> pstep bag Ptop (Rval m) bag'
  | s_pop m bag' : greatest lt m bag -> Permutation (m :: bag') bag -> pstep bag Ppop Rok bag'
  | s_pop_into m bag' : greatest lt m bag -> Permutation (m :: bag') bag -> pstep bag Ppop_into (Rval m) bag'
  | s_clear : pstep bag Pclear Rok []
  | s_assign xs bag' : List.length xs <= N -> Permutation bag' xs -> pstep bag (Passign xs) Rok bag'
  | s_assign_full xs bag' : List.length xs > N -> Permutation bag' bag -> pstep bag (Passign xs) Rfull bag'
  | s_size bag' : Permutation bag' bag -> pstep bag Psize (Rnat (List.length bag)) bag'
  | s_empty bag' : Permutation bag' bag -> pstep bag Pempty (Rbool (Nat.eqb (List.length bag) 0)) bag'
  | s_full bag' : Permutation bag' bag -> pstep bag Pfull (Rbool (Nat.eqb (List.length bag) N)) bag'
  | s_available bag' : Permutation bag' bag -> pstep bag Pavailable (Rnat (N - List.length bag)) bag'.
  Inductive psteps : list A -> list pop_t -> list pres -> list A -> Prop :=
  | ps_nil bag : psteps bag [] [] bag
  | ps_cons bag o r bag1 os rs bag2 : pstep bag o r bag1 -> psteps bag1 os rs bag2 -> psteps bag (o :: os) (r :: rs) bag2.
End Spec.
Arguments pop_t : clear implicits.
Arguments pres : clear implicits.
