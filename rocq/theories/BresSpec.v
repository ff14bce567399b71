(** What is expected of the points of a line. D: the larger of the two distances, m: the smaller *)
From Coq Require Import ZArith List.
Local Open Scope Z_scope.

Definition dist (a b : Z) : Z := Z.abs (b - a).
Definition towards (a b : Z) : Z := if b <? a then -1 else 1.
(** the point reached after k units along the longer axis and q along the shorter *)
Definition point (fx fy lx ly : Z) (k q : Z) : Z * Z :=
  if dist fx lx <? dist fy ly then (fx + towards fx lx * q, fy + towards fy ly * k) else (fx + towards fx lx * k, fy + towards fy ly * q).
Definition major (fx fy lx ly : Z) : Z := Z.max (dist fx lx) (dist fy ly).
Definition minor (fx fy lx ly : Z) : Z := Z.min (dist fx lx) (dist fy ly).

(** a connected chain of points from the first to the last: one for every unit of the longer axis, the shorter coordinate moves by 0 or 1 each time;
    and the shorter coordinate is at most [behind / 2D] behind the exact line and at most one half before it *)
Definition chain (fx fy lx ly : Z) (behind : Z) (ps : list (Z * Z)) : Prop :=
  let D := major fx fy lx ly in let m := minor fx fy lx ly in
  exists q : Z -> Z, q 0 = 0 /\ q D = m /\
    (forall k, 0 <= k < D -> q (k + 1) = q k \/ q (k + 1) = q k + 1) /\
    (forall k, 0 <= k <= D -> - behind <= 2 * (D * q k - m * k) <= D) /\
    ps = map (fun k => point fx fy lx ly (Z.of_nat k) (q (Z.of_nat k))) (seq 0 (Z.to_nat D + 1)).
