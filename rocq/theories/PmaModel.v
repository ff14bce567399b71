(** Model of /repo/include/etl/pseudo_moving_average.h, the specialisation for integral types (107-178).
    The type T is the interval tmin .. tmax. None stands for a product or sum that T does not represent
    (undefined for the wide signed types, a wrapped value for the others). *)
From Coq Require Import ZArith List Bool.
Import ListNotations.
Open Scope Z_scope.
Section Model.
Variables (tmin tmax : Z).
Variables (SAMPLES SCALE : Z).
Definition fit (x : Z) : option Z := if (tmin <=? x) && (x <=? tmax) then Some x else None.
Definition bind (x : option Z) (f : Z -> option Z) : option Z := match x with None => None | Some a => f a end.
(** pseudo_moving_average.h: 132-135, 141-144 *)
Definition ctor (initial_value : Z) : option Z := fit (initial_value * SCALE).
Definition clear (initial_value : Z) : option Z := fit (initial_value * SCALE).
(** pseudo_moving_average.h: 150-155; / is the division of C++, which truncates *)
Definition add (average new_value : Z) : option Z :=
  bind (fit (average * SAMPLES)) (fun a1 =>
  bind (fit (SCALE * new_value)) (fun p =>
  bind (fit (a1 + p)) (fun a2 =>
  Some (Z.quot a2 (SAMPLES + 1))))).
(** pseudo_moving_average.h: 161-164 *)
Definition value (average : Z) : Z := average.
(** a history: the values in the order in which they are added, directly or through input() (63-79, 170-173) *)
Fixpoint adds (average : Z) (values : list Z) : option Z :=
  match values with [] => Some average | v :: r => bind (add average v) (fun a => adds a r) end.
Definition run (initial_value : Z) (values : list Z) : option Z := bind (ctor initial_value) (fun a => adds a values).
End Model.
