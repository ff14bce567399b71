(** * What the algorithms must deliver.  Independent of the code. *)
From Coq Require Import List Arith Bool.
Import ListNotations.

Section Spec.
  Context {A : Type}.
  (** [i] is the position of the first element that satisfies p, or the end if there is none *)
  Definition first_position (p : A -> bool) (l : list A) (i : nat) : Prop :=
    i <= List.length l /\ (forall j x, j < i -> nth_error l j = Some x -> p x = false) /\ (forall x, nth_error l i = Some x -> p x = true).
  Definition partitioned (p : A -> bool) (l : list A) : Prop :=
    exists a b, l = a ++ b /\ Forall (fun x => p x = true) a /\ Forall (fun x => p x = false) b.
  (** the elements of l from position i match the elements of s *)
  Definition occurs_at {B} (p : A -> B -> bool) (l : list A) (s : list B) (i : nat) : Prop :=
    i + List.length s <= List.length l /\ forall j x y, nth_error l (i + j) = Some x -> nth_error s j = Some y -> p x y = true.
  Definition equal_lists {B} (p : A -> B -> bool) (l : list A) (s : list B) : Prop := Forall2 (fun x y => p x y = true) l s.
  (** dictionary order: at the first difference the element of l1 is smaller, or l1 is a proper prefix (up to equivalence) *)
  Definition lexicographically_less (lt : A -> A -> bool) (l1 l2 : list A) : Prop :=
    exists a1 a2 r1 r2, l1 = a1 ++ r1 /\ l2 = a2 ++ r2 /\ Forall2 (fun x y => lt x y = false /\ lt y x = false) a1 a2 /\
      ((r1 = [] /\ r2 <> []) \/ exists x y t1 t2, r1 = x :: t1 /\ r2 = y :: t2 /\ lt x y = true).
  (** positions of least and greatest elements *)
  Definition first_least (lt : A -> A -> bool) (l : list A) (i : nat) : Prop :=
    exists m, nth_error l i = Some m /\ (forall j x, nth_error l j = Some x -> lt x m = false) /\ (forall j x, j < i -> nth_error l j = Some x -> lt m x = true).
  Definition last_greatest (lt : A -> A -> bool) (l : list A) (i : nat) : Prop :=
    exists m, nth_error l i = Some m /\ (forall j x, nth_error l j = Some x -> lt m x = false) /\ (forall j x, i < j -> nth_error l j = Some x -> lt x m = true).
  Definition first_greatest (lt : A -> A -> bool) (l : list A) (i : nat) : Prop :=
    exists m, nth_error l i = Some m /\ (forall j x, nth_error l j = Some x -> lt m x = false) /\ (forall j x, j < i -> nth_error l j = Some x -> lt x m = true).
  (** the array d with the elements [out] written from position o on *)
  Definition placed (d : list A) (o : nat) (out : list A) : list A := firstn o d ++ out ++ skipn (o + List.length out) d.
  (** the elements at positions b, ..., e-1 *)
  Definition slice (l : list A) (b e : nat) : list A := firstn (e - b) (skipn b l).
  (** operator == decides equality *)
  Definition decides_equality (eqv : A -> A -> bool) : Prop := forall x y, eqv x y = true <-> x = y.
End Spec.
