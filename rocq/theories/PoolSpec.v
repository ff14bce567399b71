(** * Specification vocabulary for pools: what the client knows. *)
From Coq Require Import ZArith List Bool.
From Verif Require Import PoolModel.
Import ListNotations.
Local Open Scope Z_scope.

Section Spec.
  Variable PS : nat.            (* sizeof(char-pointer) *)
  Variable debug : bool.
  Variables base isz max : Z.   (* address of the storage, item size, number of items *)

  (** A sensible configuration: a block can hold a pointer (generic_pool.h:
      180-190 makes the element a union with char-pointer), the storage is smaller than
      4 GiB, and it lies in the address space, not at address 0. *)
  Definition config_ok : Prop :=
    Z.of_nat PS <= isz /\ 1 <= isz /\ 1 <= max /\ isz * max < 4294967296 /\
    0 < base /\ base + isz * max < 256 ^ Z.of_nat PS.

  Definition storage (x : Z) : Prop := base <= x < base + isz * max.
  Definition block (b x : Z) : Prop := b <= x < b + isz.

  (** The client's obligations, given the blocks it currently holds:
      release only what it holds (or something that is not in the storage,
      which is diagnosed); write only to blocks it holds or outside the storage. *)
  Definition client_ok (held : list Z) (o : op) : Prop :=
    match o with
    | Allocate | ReleaseAll => True
    | Release a => In a held \/ ~ storage a
    | Write a _ => (exists b, In b held /\ block b a) \/ ~ storage a
    end.

  (** the blocks the client holds after a call *)
  Definition holds (held : list Z) (o : op) (r : res) : list Z :=
    match o, r with
    | Allocate, RAddr a => a :: held
    | Release a, RDone => remove Z.eq_dec a held
    | ReleaseAll, RDone => []
    | _, _ => held
    end.

  Inductive reach : pool -> mem -> list Z -> Prop :=
  | reach_init m : reach (make base isz max) m []
  | reach_step p m held o r p' m' :
      reach p m held -> client_ok held o -> step PS debug o p m = (r, p', m') ->
      reach p' m' (holds held o r).
End Spec.
