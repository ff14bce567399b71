(** random.h: the pseudo random number generators. uint32_t / uint64_t values are N below 2^32 / 2^64, every arithmetic result is reduced as C++ does.
    Not modelled: the default constructors (the seed is the address of the object), random_hash (its values are those of the hash class it is given). *)
From Coq Require Import NArith List.
Import ListNotations.
Local Open Scope N_scope.

Definition u32 (n : N) : N := n mod 4294967296.
Definition u64 (n : N) : N := n mod 18446744073709551616.

(** random.h: 80-153: state[0..3] *)
Record xorshift := mkX { s0 : N; s1 : N; s2 : N; s3 : N }.
(** random.h: 110-117 *)
Definition xorshift_seed (seed : N) : xorshift := mkX (u32 (seed + 3)) (u32 (seed + 5)) (u32 (seed + 7)) (u32 (seed + 11)).
(** random.h: 122-135 *)
Definition xorshift_next (x : xorshift) : xorshift * N :=
  let n := s3 x in
  let n := N.lxor n (u32 (N.shiftl n 11)) in
  let n := N.lxor n (N.shiftr n 8) in
  let n := N.lxor n (s0 x) in
  let n := N.lxor n (N.shiftr (s0 x) 19) in
  (mkX n (s0 x) (s1 x) (s2 x), n).

(** random.h: 219-224 *)
Definition lcg_a : N := 40014.
Definition lcg_m : N := 2147483563.
(** random.h: 190-194 *)
Definition lcg_seed (seed : N) : N := let seed := if N.eqb seed 0 then 1 else seed in if lcg_m <? seed then lcg_m else seed.
(** random.h: 199-204; the product is a uint32_t *)
Definition lcg_next (v : N) : N * N := let v := u32 (lcg_a * v) mod lcg_m in (v, v).

(** random.h: 297-301 *)
Definition clcg_a2 : N := 40692.
Definition clcg_m2 : N := 2147483399.
(** random.h: 262-267; both values are limited by m1 *)
Definition clcg_seed (seed : N) : N * N := (lcg_seed seed, lcg_seed seed).
(** random.h: 272-280 *)
Definition clcg_next (v : N * N) : (N * N) * N :=
  let v1 := u32 (lcg_a * fst v) mod lcg_m in
  let v2 := u32 (clcg_a2 * snd v) mod clcg_m2 in
  ((v1, v2), u32 (v1 + v2) mod N.max lcg_m clcg_m2).

(** random.h: 351-363 *)
Definition lsfr_polynomial : N := 2149580803.
Definition lsfr_next (v : N) : N * N :=
  let v := N.shiftr v 1 in
  let v := if N.eqb (N.land v 1) 1 then N.lxor v lsfr_polynomial else v in (v, v).

(** random.h: 426-432; 36969UL * (value1 & 0xFFFFUL) is an unsigned long, stored in a uint32_t *)
Definition mwc_half (a v : N) : N := u32 (a * N.land v 65535 + N.shiftr v 16).
Definition mwc_next (v : N * N) : (N * N) * N :=
  let v1 := mwc_half 36969 (fst v) in
  let v2 := mwc_half 18000 (snd v) in
  ((v1, v2), u32 (N.shiftl v1 16 + v2)).

(** random.h: 519-520 *)
Definition pcg_multiplier : N := 6364136223846793005.
Definition pcg_increment : N := 1.
(** random.h: 486-489 *)
Definition pcg_seed (seed : N) : N := N.lor seed (N.shiftl seed 32).
(** binary.h: 179-201 rotate_right(value, distance) for uint32_t *)
Definition rotate_right32 (x d : N) : N := let d := d mod 32 in if N.eqb (32 - d) 32 then x else N.lor (N.shiftr x d) (u32 (N.shiftl x (32 - d))).
(** random.h: 494-502 *)
Definition pcg_next (v : N) : N * N :=
  let count := N.shiftr v 59 in
  let v' := u64 (v * pcg_multiplier + pcg_increment) in
  let x := N.lxor v (N.shiftr v 18) in
  (v', rotate_right32 (u32 (N.shiftr x 27)) count).

(** random.h: 140-148, 209-217, 285-293, 368-376, 437-445, 507-515: the same text in every generator, n is the next number.
    None: n %= 0 *)
Definition range_of (n low high : N) : option N :=
  let r := u32 (high + 4294967296 - low + 1) in
  if N.eqb r 0 then None else Some (u32 (n mod r + low)).

(** the six generators *)
Inductive gen := Xorshift (x : xorshift) | Lcg (v : N) | Clcg (v : N * N) | Lsfr (v : N) | Mwc (v : N * N) | Pcg (v : N).
Inductive kind := KXorshift | KLcg | KClcg | KLsfr | KMwc | KPcg.
(** initialise(seed); lsfr: 343-346, mwc: 417-421 *)
Definition initialise (k : kind) (seed : N) : gen :=
  match k with
  | KXorshift => Xorshift (xorshift_seed seed) | KLcg => Lcg (lcg_seed seed) | KClcg => Clcg (clcg_seed seed)
  | KLsfr => Lsfr seed | KMwc => Mwc (seed, seed) | KPcg => Pcg (pcg_seed seed)
  end.
(** operator() *)
Definition next (g : gen) : gen * N :=
  match g with
  | Xorshift x => let (x, n) := xorshift_next x in (Xorshift x, n)
  | Lcg v => let (v, n) := lcg_next v in (Lcg v, n)
  | Clcg v => let (v, n) := clcg_next v in (Clcg v, n)
  | Lsfr v => let (v, n) := lsfr_next v in (Lsfr v, n)
  | Mwc v => let (v, n) := mwc_next v in (Mwc v, n)
  | Pcg v => let (v, n) := pcg_next v in (Pcg v, n)
  end.
Definition range (g : gen) (low high : N) : gen * option N := let (g, n) := next g in (g, range_of n low high).
