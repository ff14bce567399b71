(** imemory_block_allocator.h, successor.h and fixed_sized_memory_block_allocator.h: a chain of allocators, each the successor of the one before it. Simplifications: the generic_pool of an allocator is the list of its
    free block numbers (C06 is about the pool itself: it hands out a block that is not in use, and takes it back); a pointer is the position of an allocator in the chain and a block number, and any pair that is not
    a block of the chain stands for a foreign pointer; every allocator of the chain is a fixed_sized_memory_block_allocator and no allocator is its own successor, directly or not. *)
From Coq Require Import List Arith Bool.
Import ListNotations.

(** fixed_sized_memory_block_allocator.h: 45-53, 113 *)
Record allocator := Alloc { Block_Size : nat; Alignment : nat; Size : nat; free : list nat }.
(** fixed_sized_memory_block_allocator.h: 57-59 *)
Definition construct (block_size alignment size : nat) : allocator := Alloc block_size alignment size (seq 0 size).
(** fixed_sized_memory_block_allocator.h: 66-78, 68-70: pool.full() is: no free block *)
Definition allocate_block (a : allocator) (required_size required_alignment : nat) : option (nat * allocator) :=
  if Nat.leb required_alignment (Alignment a) && Nat.leb required_size (Block_Size a) then match free a with [] => None | i :: f => Some (i, Alloc (Block_Size a) (Alignment a) (Size a) f) end else None.
(** fixed_sized_memory_block_allocator.h: 83-94; [mine]: the pointer lies in the storage of this allocator *)
Definition release_block (a : allocator) (mine : bool) (i : nat) : option allocator :=
  if mine && Nat.ltb i (Size a) then Some (Alloc (Block_Size a) (Alignment a) (Size a) (i :: free a)) else None.
(** fixed_sized_memory_block_allocator.h: 99-102 *)
Definition is_owner_of_block (a : allocator) (mine : bool) (i : nat) : bool := mine && Nat.ltb i (Size a).

(** imemory_block_allocator.h: 58-75, successor.h *)
Fixpoint allocate (chain : list allocator) (required_size required_alignment : nat) : option (nat * nat) * list allocator :=
  match chain with
  | [] => (None, [])
  | a :: rest => match allocate_block a required_size required_alignment with
                 | Some (i, a) => (Some (0, i), a :: rest)
                 | None => match allocate rest required_size required_alignment with (Some (k, i), rest) => (Some (S k, i), a :: rest) | (None, rest) => (None, a :: rest) end
                 end
  end.
(** imemory_block_allocator.h: 81-97 *)
Fixpoint release (chain : list allocator) (p : nat * nat) : bool * list allocator :=
  match chain with
  | [] => (false, [])
  | a :: rest => match release_block a (Nat.eqb (fst p) 0) (snd p) with
                 | Some a => (true, a :: rest)
                 | None => match fst p with 0 => (false, a :: rest) | S k => let (b, rest) := release rest (k, snd p) in (b, a :: rest) end
                 end
  end.
(** imemory_block_allocator.h: 103-119 *)
Fixpoint is_owner_of (chain : list allocator) (p : nat * nat) : bool :=
  match chain with [] => false | a :: rest => if is_owner_of_block a (Nat.eqb (fst p) 0) (snd p) then true else match fst p with 0 => false | S k => is_owner_of rest (k, snd p) end end.
