(** * What a view delivers, as lists of elements.  Independent of the code. *)
From Coq Require Import List Arith ZArith.
From Verif Require Import AlgoSpec.
Import ListNotations.

(** the range [b, e) lies in the array m and shows the elements l *)
Definition shows {A} (m : list A) (b e : nat) (l : list A) : Prop :=
  exists before after, m = before ++ l ++ after /\ b = List.length before /\ e = List.length before + List.length l.
(** the array t holds the text s and its terminator *)
Definition terminated (t s : list Z) : Prop := exists rest, t = s ++ 0%Z :: rest /\ ~ In 0%Z s.
(** z is the sign of the dictionary comparison of l with s *)
Definition three_way (l s : list Z) (z : Z) : Prop :=
  (z = 0%Z /\ l = s) \/ (z = (-1)%Z /\ lexicographically_less Z.ltb l s) \/ (z = 1%Z /\ lexicographically_less Z.ltb s l).
(** the text s stands in l at position i *)
Definition found_at (l s : list Z) (i : nat) : Prop := exists a c, l = a ++ s ++ c /\ List.length a = i.
(** the first, the last position in [lo, hi) that satisfies P; [None] if there is none *)
Definition first_in (P : nat -> Prop) (lo hi : nat) (r : option nat) : Prop :=
  match r with Some i => lo <= i < hi /\ P i /\ forall k, lo <= k < i -> ~ P k | None => forall k, lo <= k < hi -> ~ P k end.
Definition last_in (P : nat -> Prop) (lo hi : nat) (r : option nat) : Prop :=
  match r with Some i => lo <= i < hi /\ P i /\ forall k, i < k < hi -> ~ P k | None => forall k, lo <= k < hi -> ~ P k end.
(** the character at position i is (is not) one of the characters s *)
Definition char_in (l s : list Z) (i : nat) : Prop := exists c, nth_error l i = Some c /\ In c s.
Definition char_not_in (l s : list Z) (i : nat) : Prop := exists c, nth_error l i = Some c /\ ~ In c s.
