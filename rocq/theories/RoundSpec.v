(** Rounding of [v] to a multiple [q * s] of [s], independently of the code. *)
From Coq Require Import ZArith.
Open Scope Z_scope.
(** q*s is the least multiple not below v *)
Definition ceiling (s v q : Z) : Prop := v <= q * s /\ forall p, v <= p * s -> q <= p.
(** q*s is the greatest multiple not above v *)
Definition floor (s v q : Z) : Prop := q * s <= v /\ forall p, p * s <= v -> p <= q.
(** towards zero, away from zero *)
Definition toward_zero (s v q : Z) : Prop := (0 <= v -> floor s v q) /\ (v <= 0 -> ceiling s v q).
Definition away_from_zero (s v q : Z) : Prop := (0 <= v -> ceiling s v q) /\ (v <= 0 -> floor s v q).
(** no multiple is nearer *)
Definition nearest (s v q : Z) : Prop := forall p, Z.abs (v - q * s) <= Z.abs (v - p * s).
(** half way between two multiples *)
Definition tie (s v : Z) : Prop := exists p, 2 * (v - p * s) = s.
(** the values of the type T: signed or not, w bits *)
Definition in_type (sg : bool) (w x : Z) : Prop := if sg then - 2 ^ (w - 1) <= x < 2 ^ (w - 1) else 0 <= x < 2 ^ w.
