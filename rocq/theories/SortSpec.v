(** * What sorting means.  Independent of the code. *)
From Coq Require Import List Arith Bool Permutation.
Import ListNotations.

Section Spec.
  Context {A : Type}.
  (** what the C++ standard demands of a comparison function *)
  Record strict_weak_order (lt : A -> A -> bool) : Prop := {
    swo_irrefl : forall x, lt x x = false;
    swo_trans : forall x y z, lt x y = true -> lt y z = true -> lt x z = true;
    swo_incomparable : forall x y z, lt x y = false -> lt y x = false -> lt y z = false -> lt z y = false -> lt x z = false /\ lt z x = false
  }.
  (** no later element is less than an earlier one *)
  Definition sorted (lt : A -> A -> bool) (l : list A) : Prop :=
    forall i j a b, i < j -> nth_error l i = Some a -> nth_error l j = Some b -> lt b a = false.
  Definition equivalent (lt : A -> A -> bool) (x y : A) : bool := negb (lt x y) && negb (lt y x).
  (** the elements of each class of equivalent elements stand in their original order *)
  Definition stable (lt : A -> A -> bool) (l l' : list A) : Prop := forall x, filter (equivalent lt x) l' = filter (equivalent lt x) l.
  (** a heap: no element is greater than its parent *)
  Definition heap (lt : A -> A -> bool) (l : list A) : Prop :=
    forall i p c, 0 < i -> nth_error l ((i - 1) / 2) = Some p -> nth_error l i = Some c -> lt p c = false.
  (** a greatest element *)
  Definition greatest (lt : A -> A -> bool) (m : A) (l : list A) : Prop := In m l /\ forall x, In x l -> lt m x = false.
End Spec.
