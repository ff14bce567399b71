(** absolute.h, gcd.h, lcm.h (run time), and the compile time templates of power.h, log.h, sqrt.h, fibonacci.h, factorial.h,
    permutations.h, combinations.h: size_t and uint64_t are numbers modulo 2^64. *)
From Coq Require Import ZArith List Bool.
Import ListNotations.
Open Scope Z_scope.
Definition M64 : Z := 2 ^ 64.
(** conversion to an unsigned or signed type of [w] bits *)
Definition to_u (w x : Z) : Z := x mod 2 ^ w.
Definition to_s (w x : Z) : Z := let r := x mod 2 ^ w in if r <? 2 ^ (w - 1) then r else r - 2 ^ w.
Section Width.
Variable w : Z.                       (** the width of T *)
(** absolute.h: 43-49 (signed T): the negation is made in int (or T, if wider) and converted back; None: it overflows *)
Definition absolute (v : Z) : option Z :=
  if v <? 0 then (if (v =? - 2 ^ (w - 1)) && (32 <=? w) then None else Some (to_s w (- v))) else Some v.
(** absolute.h: 67-79 *)
Definition absolute_unsigned (v : Z) : Z :=
  if v =? - 2 ^ (w - 1) then (2 ^ w - 1) / 2 + 1 else if v <? 0 then to_u w (- v) else to_u w v.
(** gcd.h: 57-62. None: [f] used up *)
Fixpoint gcd_loop (f : nat) (a b : Z) : option Z :=
  if b =? 0 then Some a else match f with O => None | S f => gcd_loop f b (a mod b) end.
(** gcd.h: 44-65 *)
Definition gcd_u (f : nat) (a b : Z) : option Z := if (a =? 0) || (b =? 0) then Some (to_u w (a + b)) else gcd_loop f a b.
(** gcd.h: 71-85 *)
Definition gcd_s (f : nat) (a b : Z) : option Z := option_map (to_s w) (gcd_u f (absolute_unsigned a) (absolute_unsigned b)).
(** gcd.h: 92-110; [g] is gcd_u or gcd_s *)
Fixpoint gcd_rest (g : Z -> Z -> option Z) (result : Z) (rest : list Z) : option Z :=
  match rest with
  | [] => Some result
  | v :: r => match g result v with Some result => if result =? 1 then Some 1 else gcd_rest g result r | None => None end
  end.
(** lcm.h: 45-62: for w < 32 the product is taken in int, which must not overflow *)
Definition lcm_u (f : nat) (a b : Z) : option Z :=
  if (a =? 0) || (b =? 0) then Some 0 else match gcd_u f a b with Some g => Some (to_u w (a * (b / g))) | None => None end.
(** lcm.h: 68-82 *)
Definition lcm_s (f : nat) (a b : Z) : option Z := option_map (to_s w) (lcm_u f (absolute_unsigned a) (absolute_unsigned b)).
(** lcm.h: 91-111 *)
Fixpoint lcm_rest (g : Z -> Z -> option Z) (result : Z) (rest : list Z) : option Z :=
  match rest with
  | [] => Some result
  | v :: r => match g result v with Some result => if result =? 0 then Some 0 else lcm_rest g result r | None => None end
  end.
End Width.
(** power.h: 60-78 *)
Fixpoint power (nv : Z) (p : nat) : Z := match p with O => 1 | S p => (nv * power nv p) mod M64 end.
(** log.h: 54-86; [f] bounds the depth of the instantiation. None: too deep, or a division by zero *)
Fixpoint log (f : nat) (nv base : Z) : option Z :=
  if (nv =? 1) || (nv =? 0) then Some 0
  else match f with
       | O => None
       | S f => if base =? 0 then None
                else match log f (nv / base) base with Some l => Some (if base <=? nv then 1 + l else 0) | None => None end
       end.
(** log.h: 97-104 *)
Definition log2 (f : nat) (nv : Z) : option Z := log f nv 2.
(** int shifted left: None: more than the int has *)
Definition one_shl (n : Z) : option Z := if n <? 31 then Some (2 ^ n) else None.
(** power.h: 92-113 *)
Definition power_of_2_round_up (f : nat) (nv : Z) : option Z :=
  if nv =? 0 then Some 2 else match log2 f (nv - 1) with Some l => one_shl (l + 1) | None => None end.
(** power.h: 124-173 *)
Definition power_of_2_round_down (f : nat) (nv : Z) : option Z :=
  if (nv =? 0) || (nv =? 1) || (nv =? 2) then Some 2 else match log2 f (nv - 1) with Some l => one_shl l | None => None end.
(** power.h: 184-210 *)
Definition is_power_of_2 (nv : Z) : bool := if (nv =? 0) || (nv =? 1) then false else Z.land nv (nv - 1) =? 0.
(** sqrt.h: 45-61 *)
Fixpoint sqrt (f : nat) (v i : Z) : option Z :=
  if v <? (i * i) mod M64 then Some (i - 1) else match f with O => None | S f => sqrt f v (i + 1) end.
(** fibonacci.h: 49-71: the pair of two neighbouring values *)
Fixpoint fibonacci2 (n : nat) : Z * Z := match n with O => (0, 1) | S n => let (a, b) := fibonacci2 n in (b, (b + a) mod M64) end.
Definition fibonacci (n : nat) : Z := fst (fibonacci2 n).
(** factorial.h: 49-62 *)
Fixpoint factorial (n : nat) : Z := match n with O => 1 | S m => (Z.of_nat n * factorial m) mod M64 end.
(** permutations.h: 46-63: NV - 1 wraps *)
Fixpoint permutations (nv : Z) (kv : nat) : Z := match kv with O => 1 | S k => (nv * permutations ((nv - 1) mod M64) k) mod M64 end.
(** combinations.h: 48-52. None: division by zero *)
Definition combinations (nv : Z) (kv : nat) : option Z := if factorial kv =? 0 then None else Some (permutations nv kv / factorial kv).
