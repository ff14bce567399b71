(** The user of the buffers. [use fifo s held c]: s is a state reached from construction, [held] the buffers the user got and has not given back, oldest first, c the number of buffers got since
    construction or the last clear(). The user releases only what is held, and each of it once; with [fifo] always the oldest.
    clear() takes all buffers back. *)
From Coq Require Import List Arith.
From Verif Require Import BufdModel.
Import ListNotations.

Section Spec.
Variables (V : Type) (BUFFER_SIZE N_BUFFERS : nat) (fifo : bool).
Inductive use : state V -> list nat -> nat -> Prop :=
| use_construct cb m : use (construct V N_BUFFERS cb m) [] 0
| use_allocate s h c s' i : use s h c -> allocate V N_BUFFERS s = (s', Some i) -> use s' (h ++ [i]) (S c)
| use_refused s h c s' : use s h c -> allocate V N_BUFFERS s = (s', None) -> use s' h c
| use_allocate_fill s h c s' i v : use s h c -> allocate_fill V BUFFER_SIZE N_BUFFERS s v = (s', Some i) -> use s' (h ++ [i]) (S c)
| use_refused_fill s h c s' v : use s h c -> allocate_fill V BUFFER_SIZE N_BUFFERS s v = (s', None) -> use s' h c
| use_release s h1 h2 c s' i : use s (h1 ++ i :: h2) c -> (fifo = true -> h1 = []) -> release V s (Some i) = Some s' -> use s' (h1 ++ h2) c
| use_clear s h c : use s h c -> use (clear V N_BUFFERS s) [] 0
| use_notify s h c d n : use s h c -> use (notify V s d n) h c
| use_write s h c i x v : use s h c -> In i h -> i * BUFFER_SIZE <= x < (i + 1) * BUFFER_SIZE ->   (* the holder writes into its buffer *)
    use (mkState (in_use s) (next s) (callback s) (notified s) (fun y => if Nat.eqb y x then v else memory s y)) h c.
End Spec.
