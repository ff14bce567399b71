(** * What the bit functions mean.  Independent of the code. *)
From Coq Require Import List Arith Bool ZArith.
Import ListNotations.
Local Open Scope Z_scope.

(** the integral types *)
Definition width (w : Z) : Prop := w = 8 \/ w = 16 \/ w = 32 \/ w = 64.
(** x is a value of the unsigned type of w bits *)
Definition unsigned (w x : Z) : Prop := 0 <= x < 2 ^ w.
Definition signed (w x : Z) : Prop := - 2 ^ (w - 1) <= x < 2 ^ (w - 1).
Definition bit (x i : Z) : bool := Z.testbit x i.
(** the bits of x, least significant first / most significant first *)
Definition lsb_first (w x : Z) : list bool := map (fun i => bit x (Z.of_nat i)) (seq 0 (Z.to_nat w)).
Definition msb_first (w x : Z) : list bool := rev (lsb_first w x).
(** number of ones *)
Fixpoint ones_in (l : list bool) : Z := match l with [] => 0 | true :: r => 1 + ones_in r | false :: r => ones_in r end.
Definition popcount (w x : Z) : Z := ones_in (lsb_first w x).
(** length of the initial run of [b] *)
Fixpoint run (b : bool) (l : list bool) : Z := match l with [] => 0 | c :: r => if Bool.eqb b c then 1 + run b r else 0 end.
