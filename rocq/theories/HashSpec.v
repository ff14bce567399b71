(** What the hash objects and checksums mean, independently of the code. *)
From Coq Require Import List Arith Bool ZArith.
From Verif Require Import BinarySpec.
Import ListNotations.
Local Open Scope Z_scope.
Definition is_byte (b : Z) : Prop := 0 <= b < 256.
(** a history of calls on one object *)
Inductive hcall := HAdd (signed_char : bool) (l : list Z) | HAdd1 (b : Z) | HReset | HValue.
Definition bytes_of (c : hcall) : list Z := match c with HAdd _ l => l | HAdd1 b => [b] | _ => [] end.
(** the bytes added since the last reset *)
Fixpoint fed (acc : list Z) (h : list hcall) : list Z := match h with [] => acc | HReset :: r => fed [] r | c :: r => fed (acc ++ bytes_of c) r end.
(** was value() called since the last reset? *)
Fixpoint was_read (b : bool) (h : list hcall) : bool := match h with [] => b | HReset :: r => was_read false r | HValue :: r => was_read true r | _ :: r => was_read b r end.
(** an add after value(), without a reset in between; an empty range counts or not *)
Fixpoint adds_after_value (empty_counts b : bool) (h : list hcall) : Prop :=
  match h with
  | [] => False
  | HReset :: r => adds_after_value empty_counts false r
  | HValue :: r => adds_after_value empty_counts true r
  | HAdd _ [] :: r => (b = true /\ empty_counts = true) \/ adds_after_value empty_counts b r
  | _ :: r => b = true \/ adds_after_value empty_counts b r
  end.
Definition total (l : list Z) : Z := fold_right Z.add 0 l.
(** x rotated left by d in a word of w bits: bit i moves to i + d *)
Definition is_rotation (w d x y : Z) : Prop := 0 <= y < 2 ^ w /\ forall i, 0 <= i < w -> bit y ((i + d) mod w) = bit x i.
(** the number of bytes that have bit i *)
Definition having (i : Z) (l : list Z) : nat := length (filter (fun b => bit b i) l).
(** MurmurHash3_x86_32, from its definition; words of 32 bits *)
Definition rotl32 (x d : Z) : Z := (x * 2 ^ d) mod 2 ^ 32 + x / 2 ^ (32 - d).
Definition murmur_k (k : Z) : Z := (rotl32 (k * 0xcc9e2d51 mod 2 ^ 32) 15 * 0x1b873593) mod 2 ^ 32.
Definition little_endian (l : list Z) : Z := fold_right (fun b n => b + 256 * n) 0 l.
Definition fmix32 (h : Z) : Z :=
  let h := Z.lxor h (h / 2 ^ 16) in
  let h := (h * 0x85ebca6b) mod 2 ^ 32 in
  let h := Z.lxor h (h / 2 ^ 13) in
  let h := (h * 0xc2b2ae35) mod 2 ^ 32 in
  Z.lxor h (h / 2 ^ 16).
Fixpoint murmur_body (h : Z) (l : list Z) {struct l} : Z :=
  match l with
  | a :: b :: c :: d :: r => murmur_body ((rotl32 (Z.lxor h (murmur_k (little_endian [a; b; c; d]))) 13 * 5 + 0xe6546b64) mod 2 ^ 32) r
  | tail => Z.lxor h (murmur_k (little_endian tail))
  end.
Definition murmur3_x86_32 (seed : Z) (l : list Z) : Z := fmix32 (Z.lxor (murmur_body seed l) (Z.of_nat (length l) mod 2 ^ 32)).
(** Pearson hashing with the table T, of which the i-th element starts at b + i *)
Definition pearson_from (T : Z -> Z) (h : Z) (l : list Z) : Z := fold_left (fun h b => T (Z.lxor h b)) l h.
Definition pearson_at (T : Z -> Z) (i : nat) (l : list Z) : Z := match l with [] => 0 | b :: r => pearson_from T (T ((b + Z.of_nat i) mod 256)) r end.
(** reset() was called at a time when bytes had been added; [data]: bytes had been added before *)
Fixpoint reset_after_data (data : bool) (h : list hcall) : bool :=
  match h with [] => false | HReset :: r => data || reset_after_data data r | c :: r => reset_after_data (data || negb (Nat.eqb (length (bytes_of c)) 0)) r end.
