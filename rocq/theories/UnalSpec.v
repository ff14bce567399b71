(** What a number in memory is *)
From Coq Require Import List Bool ZArith.
From Verif Require Import BinarySpec UnalModel.
Import ListNotations.
Local Open Scope Z_scope.

(** v is a value of the signed / unsigned type of w bits *)
Definition value_of (sgn : bool) (w v : Z) : Prop := if sgn then signed w v else unsigned w v.
(** byte number j of v, 0 the least significant; for a negative v of its two's complement *)
Definition byte_of (v : Z) (j : nat) : Z := (v / 2 ^ (8 * Z.of_nat j)) mod 256.
(** m is v in the byte order E: the byte at address i is byte i, or byte SIZE - 1 - i, of v *)
Definition represents (E : endian) (w : Z) (m : list Z) (v : Z) : Prop :=
  8 * Z.of_nat (length m) = w /\ forall i, (i < length m)%nat -> nth_error m i = Some (byte_of v (match E with little => i | big => length m - 1 - i end)).
Definition bytes (m : list Z) : Prop := Forall (fun b => 0 <= b < 256) m.
