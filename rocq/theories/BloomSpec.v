(** Specification of bloom_filter: the keys added since the last clear. *)
From Coq Require Import List ZArith.
From Verif Require Import BinaryModel BloomModel.
Import ListNotations.

Section Spec.
  Variable K : Type.
  (** keys added since the last clear *)
  Fixpoint live (os : list (bop K)) (acc : list K) : list K :=
    match os with [] => acc | Add k :: r => live r (k :: acc) | Clear :: r => live r [] end.
  (** the hash functions in use *)
  Definition hashes (h1 : K -> Z) (h2 h3 : option (K -> Z)) : list (K -> Z) :=
    h1 :: (match h2 with Some f => [f] | None => [] end) ++ (match h3 with Some f => [f] | None => [] end).
  (** the flag a hash function selects for a key *)
  Variable position : (K -> Z) -> K -> nat.
  (** the flag p has been marked by one of the live keys *)
  Definition marked (hs : list (K -> Z)) (keys : list K) (p : nat) : Prop :=
    exists h k, In h hs /\ In k keys /\ position h k = p.
End Spec.
