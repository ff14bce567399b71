(** bloom_filter.h, over the model of bitset<WIDTH> (element type unsigned char: W = 8). *)
From Coq Require Import List Bool Arith ZArith.
From Verif Require Import Util BinaryModel BitsetModel.
Import ListNotations.
Local Open Scope nat_scope.

(** bloom_filter.h: 85-89 (WIDTH = bitset<Desired_Width>::Allocated_Bits, private/bitset_new.h: 1854-1856) *)
Definition bwid (desired : nat) : nat := nelem 8 desired * 8.
Section Bloom.
  Variable K : Type.
  (** THash1, and THash2, THash3 which may be absent (null_hash): functions to size_t *)
  Variables (h1 : K -> Z) (h2 h3 : option (K -> Z)).
  Variable desired : nat.
  (** bloom_filter.h: 176-182; etl::log2 is the floor of the logarithm (log.h: 76-88) *)
  Definition get_hash (h : K -> Z) (key : K) : nat := Z.to_nat (fold_bits (Nat.log2 (bwid desired)) (h key)).
  (** default construction of the bitset member, 185 *)
  Definition bl_new : list Z := bs_new 8 (bwid desired).
  (** bloom_filter.h: 94-97 *)
  Definition bl_clear (flags : list Z) : list Z := bs_reset_all flags.
  (** bloom_filter.h: 107-110, 112-115 *)
  Definition set_opt (h : option (K -> Z)) (key : K) (flags : list Z) : res (list Z) :=
    match h with None => Ok flags | Some f => bs_set 8 (bwid desired) flags (get_hash f key) true end.
  (** bloom_filter.h: 103-116 *)
  Definition bl_add (flags : list Z) (key : K) : res (list Z) :=
    do! f1 <- bs_set 8 (bwid desired) flags (get_hash h1 key) true;
    do! f2 <- set_opt h2 key f1;
    set_opt h3 key f2.
  (** bloom_filter.h: 130-133, 136-139 *)
  Definition test_opt (h : option (K -> Z)) (key : K) (flags : list Z) : res bool :=
    match h with None => Ok true | Some f => bs_index 8 flags (get_hash f key) end.
  (** bloom_filter.h: 123-142 *)
  Definition bl_exists (flags : list Z) (key : K) : res bool :=
    do! e1 <- bs_index 8 flags (get_hash h1 key);
    do! e2 <- test_opt h2 key flags;
    do! e3 <- test_opt h3 key flags;
    Ok (e1 && e2 && e3).
  (** bloom_filter.h: 163-166, 155-158 *)
  Definition bl_count (flags : list Z) : Z := bs_count 8 flags.
  Definition bl_usage (flags : list Z) : Z := (100 * bl_count flags / Z.of_nat (bwid desired))%Z.

  Inductive bop := Add (k : K) | Clear.
  Definition bl_op (flags : list Z) (o : bop) : res (list Z) :=
    match o with Add k => bl_add flags k | Clear => Ok (bl_clear flags) end.
  Fixpoint bl_run (flags : list Z) (os : list bop) : res (list Z) :=
    match os with [] => Ok flags | o :: r => do! f <- bl_op flags o; bl_run f r end.
End Bloom.
Arguments Add {K} k.
Arguments Clear {K}.
