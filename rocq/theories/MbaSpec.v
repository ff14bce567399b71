(** What the user of a chain of allocators knows: the blocks that are held, i.e. were allocated and not released *)
From Coq Require Import List Arith Bool.
From Verif Require Import MbaModel.
Import ListNotations.

Definition eq_ptr (p q : nat * nat) : bool := Nat.eqb (fst p) (fst q) && Nat.eqb (snd p) (snd q).
(** the calls; a block is released by its holder (releasing a block that is not held is not detected by the pool) *)
Inductive history (config : list (nat * nat * nat)) : list allocator -> list (nat * nat) -> Prop :=
| h_construct : history config (map (fun x => construct (fst (fst x)) (snd (fst x)) (snd x)) config) []
| h_allocate c held size align p c' : history config c held -> allocate c size align = (Some p, c') -> history config c' (p :: held)
| h_allocate_fails c held size align c' : history config c held -> allocate c size align = (None, c') -> history config c' held
| h_release c held p c' b : history config c held -> In p held -> release c p = (b, c') -> history config c' (filter (fun q => negb (eq_ptr p q)) held).
(** how many blocks of allocator k are held *)
Definition in_use (held : list (nat * nat)) (k : nat) : nat := length (filter (fun p => Nat.eqb (fst p) k) held).
(** allocator k of the chain: block size, alignment and number of blocks. A request fits it / it has a block left *)
Definition fits (config : list (nat * nat * nat)) (k size align : nat) : Prop := exists bs al n, nth_error config k = Some (bs, al, n) /\ size <= bs /\ align <= al.
Definition blocks (config : list (nat * nat * nat)) (k : nat) : nat := match nth_error config k with Some (_, _, n) => n | None => 0 end.
