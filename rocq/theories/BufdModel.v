(** buffer_descriptors.h: a pool of N_BUFFERS buffers of BUFFER_SIZE elements, handed out through descriptors.
    The caller's memory is a function from addresses (relative to pbuffers) to values. The callback of notify is a list of the notifications it was called with.
    Simplification: in_use (volatile TFlag) is a bool; accesses are not interrupted. N_BUFFERS is at most 256 (next is a cyclic_value of uint_least8_t). *)
From Coq Require Import List Arith Bool.
Import ListNotations.

Section Model.
Variables (V : Type) (BUFFER_SIZE N_BUFFERS : nat).

(** buffer_descriptors.h: 71-155: pdesc_item: None is the null pointer, Some i the address of descriptor_items[i] *)
Definition descriptor : Type := option nat.
(** buffer_descriptors.h: 283-291 *)
Record state := mkState { in_use : list bool; next : nat; callback : bool; notified : list (descriptor * nat); memory : nat -> V }.

Fixpoint set_nth (l : list bool) (i : nat) (b : bool) : list bool := match l, i with [], _ => [] | _ :: l, O => b :: l | x :: l, S i => x :: set_nth l i b end.

(** buffer_descriptors.h: 202-210; pbuffer of item i is pbuffers + i * BUFFER_SIZE; next: the default constructor of cyclic_value gives FIRST = 0 *)
Definition construct (cb : bool) (m : nat -> V) : state := mkState (repeat false N_BUFFERS) 0 cb [] m.
Definition pbuffer (i : nat) : nat := i * BUFFER_SIZE.
(** buffer_descriptors.h: 99-103; None: the assertion fails / null is dereferenced *)
Definition data (d : descriptor) : option nat := match d with Some i => Some (pbuffer i) | None => None end.
(** buffer_descriptors.h: 114-124 *)
Definition is_allocated (s : state) (d : descriptor) : option bool := match d with Some i => Some (nth i (in_use s) false) | None => None end.
Definition is_released (s : state) (d : descriptor) : option bool := match d with Some i => Some (negb (nth i (in_use s) false)) | None => None end.
(** buffer_descriptors.h: 128-131 *)
Definition is_valid (d : descriptor) : bool := match d with Some _ => true | None => false end.
(** buffer_descriptors.h: 134-137; None: null is dereferenced *)
Definition release (s : state) (d : descriptor) : option state := match d with Some i => Some (mkState (set_nth (in_use s) i false) (next s) (callback s) (notified s) (memory s)) | None => None end.
(** buffer_descriptors.h: 219-227 *)
Definition clear (s : state) : state := mkState (repeat false N_BUFFERS) 0 (callback s) (notified s) (memory s).
(** cyclic_value.h: 183-194 operator ++ with FIRST = 0, LAST = N_BUFFERS - 1 *)
Definition advance (n : nat) : nat := if Nat.leb (N_BUFFERS - 1) n then 0 else S n.
(** buffer_descriptors.h: 248-264 *)
Definition allocate (s : state) : state * descriptor :=
  let i := next s in
  if negb (nth i (in_use s) false) then (mkState (set_nth (in_use s) i true) (advance i) (callback s) (notified s) (memory s), Some i) else (s, None).
(** algorithm.h fill_n over the buffer *)
Definition fill_n (m : nat -> V) (a n : nat) (v : V) : nat -> V := fun x => if Nat.leb a x && Nat.ltb x (a + n) then v else m x.
(** buffer_descriptors.h: 268-278 *)
Definition allocate_fill (s : state) (v : V) : state * descriptor :=
  let (s, d) := allocate s in
  match d with Some i => (mkState (in_use s) (next s) (callback s) (notified s) (fill_n (memory s) (pbuffer i) BUFFER_SIZE v), d) | None => (s, d) end.
(** buffer_descriptors.h: 237-244 *)
Definition notify (s : state) (d : descriptor) (count : nat) : state := if callback s then mkState (in_use s) (next s) (callback s) (notified s ++ [(d, count)]) (memory s) else s.
End Model.
Arguments in_use {V}. Arguments next {V}. Arguments callback {V}. Arguments notified {V}. Arguments memory {V}. Arguments mkState {V}.
