(** Mathematical functions, defined independently of the code. *)
From Coq Require Import ZArith List.
Import ListNotations.
Open Scope Z_scope.
(** [g] is the greatest common divisor of all of [l] *)
Definition is_gcd (g : Z) (l : list Z) : Prop := 0 <= g /\ (forall x, In x l -> (g | x)) /\ (forall d, (forall x, In x l -> (d | x)) -> (d | g)).
(** [m] is the least common multiple of all of [l] *)
Definition is_lcm (m : Z) (l : list Z) : Prop := 0 <= m /\ (forall x, In x l -> (x | m)) /\ (forall d, (forall x, In x l -> (x | d)) -> (m | d)).
Fixpoint fib (n : nat) : Z := match n with O => 0 | S m => match m with O => 1 | S k => fib m + fib k end end.
(** Pascal's triangle *)
Fixpoint binom (n k : nat) : Z := match n, k with _, O => 1 | O, S _ => 0 | S n, S k => binom n k + binom n (S k) end.
(** n (n-1) ... : k factors; 0 if k > n *)
Definition falling (n k : nat) : Z := fold_right Z.mul 1 (map (fun i => Z.of_nat n - Z.of_nat i) (seq 0 k)).
