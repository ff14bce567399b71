(** Specification of pseudo_moving_average (integer types): the exact filter, with fractions.
    Each value v moves the average a to (a * N + S * v) / (N + 1). After k values the exact average is
    exact_numerator / (N + 1)^k. *)
From Coq Require Import ZArith List.
Import ListNotations.
Open Scope Z_scope.
(** values are given newest first *)
Fixpoint exact_numerator (N S initial : Z) (newest_first : list Z) : Z :=
  match newest_first with
  | [] => S * initial
  | v :: older => exact_numerator N S initial older * N + S * v * (N + 1) ^ Z.of_nat (length older)
  end.
