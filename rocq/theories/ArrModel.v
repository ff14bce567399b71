(** array.h: etl::array<T, SIZE>, the operations that move elements. An array is the list of the values of its SIZE elements; a position is an index (begin() + position).
    Every read and write is checked: None is an access outside the array (undefined behaviour). [after v]: what an object holds after its value v was moved out of it (after v = v where moving is copying, as for
    the arithmetic types); [self v]: what it holds after x = std::move(x). Simplification: the source of a range is a list of values that are not elements of this array. *)
From Coq Require Import List Arith Bool.
Import ListNotations.

Section Model.
Variables (T : Type) (after self : T -> T).
Definition bind {A B} (x : option A) (f : A -> option B) : option B := match x with Some a => f a | None => None end.
Notation "'let?' x ':=' e 'in' f" := (bind e (fun x => f)) (at level 200, x pattern).

(** an assignment _buffer[i] = v; array.h: 589 *)
Fixpoint upd (a : list T) (i : nat) (v : T) : list T := match a, i with [], _ => [] | _ :: t, 0 => v :: t | x :: t, S i => x :: upd t i v end.
Definition put (a : list T) (i : nat) (v : T) : option (list T) := if Nat.ltb i (length a) then Some (upd a i v) else None.
(** [*d] = etl::move of [*s] between elements of the array; algorithm.h: 294, 326 *)
Definition assign_move (a : list T) (d s : nat) : option (list T) :=
  let? v := nth_error a s in if Nat.eqb d s then put a s (self v) else let? a := put a s (after v) in put a d v.
(** parameter_t value: a reference. inl: to an object outside of the array; inr k: to element k; array.h: 88 *)
Definition rd (a : list T) (v : T + nat) : option T := match v with inl v => Some v | inr k => nth_error a k end.

(** algorithm.h: 322-330; also the index it returns *)
Fixpoint move_backward (a : list T) (sb se de : nat) : option (list T * nat) :=
  if Nat.eqb sb se then Some (a, de) else match se, de with S se, S de => let? a := assign_move a de se in move_backward a sb se de | _, _ => None end.
(** algorithm.h: 288-298; [n]: enough steps to leave the array *)
Fixpoint move_loop (n : nat) (a : list T) (sb se db : nat) : option (list T * nat) :=
  if Nat.eqb sb se then Some (a, db) else match n with S n => let? a := assign_move a db sb in move_loop n a (S sb) se (S db) | 0 => None end.
Definition move (a : list T) (sb se db : nat) : option (list T * nat) := move_loop (length a) a sb se db.
(** algorithm.h: 552-559 *)
Fixpoint fill_loop (n : nat) (a : list T) (first last : nat) (value : T + nat) : option (list T) :=
  if Nat.eqb first last then Some a else match n with S n => let? v := rd a value in let? a := put a first v in fill_loop n a (S first) last value | 0 => None end.
Definition fill_range (a : list T) (first last : nat) (value : T + nat) : option (list T) := fill_loop (length a) a first last value.
(** algorithm.h: 2293-2305; for random access iterators 2260-2270, 197-207: the same steps *)
Fixpoint copy_s (src : list T) (a : list T) (o : nat) : option (list T * nat) :=
  match src with [] => Some (a, o) | x :: src => if Nat.eqb o (length a) then Some (a, o) else let? a := put a o x in copy_s src a (S o) end.

(** array.h: 374-377 *)
Definition fill (a : list T) (value : T + nat) : option (list T) := fill_range a 0 (length a) value.
(** array.h: 401-404; the returned iterator as an index *)
Definition assign (a : list T) (src : list T) : option (list T * nat) := copy_s src a 0.
(** array.h: 414-423 *)
Definition assign_value (a : list T) (src : list T) (value : T + nat) : option (list T * nat) :=
  let? (a, p) := copy_s src a 0 in let? a := fill_range a p (length a) value in Some (a, p).
(** array.h: 440-448, 430-433 *)
Definition insert (a : list T) (p : nat) (value : T + nat) : option (list T * nat) :=
  let? (a, _) := move_backward a p (length a - 1) (length a) in let? v := rd a value in let? a := put a p v in Some (a, p).
(** array.h: 469-488, 457-460 *)
Definition insert_range (a : list T) (p : nat) (src : list T) : option (list T * nat) :=
  let space := length a - p in
  let? a := (if Nat.ltb (length src) space then let len := length a - (p + length src) in let? (a, _) := move_backward a p (p + len) (length a) in Some a else Some a) in
  let? (a, _) := copy_s src a p in Some (a, p).
(** array.h: 505-511, 495-498 *)
Definition erase (a : list T) (p : nat) : option (list T * nat) := let? (a, _) := move a (p + 1) (length a) p in Some (a, p).
(** array.h: 530-535, 519-522 *)
Definition erase_range (a : list T) (first last : nat) : option (list T * nat) := let? (a, _) := move a last (length a) first in Some (a, first).
(** array.h: 552-560, 542-545 *)
Definition erase_value (a : list T) (p : nat) (value : T + nat) : option (list T * nat) :=
  let? (a, _) := move a (p + 1) (length a) p in let? v := rd a value in let? a := put a (length a - 1) v in Some (a, p).
(** array.h: 578-586, 568-571 *)
Definition erase_range_value (a : list T) (first last : nat) (value : T + nat) : option (list T * nat) :=
  let? (a, p) := move a last (length a) first in let? a := fill_range a p (length a) value in Some (a, first).
End Model.
