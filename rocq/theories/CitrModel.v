(** circular_iterator.h over a random access (or, for ++ and --, a bidirectional or forward) iterator. An underlying iterator is its distance from itr_begin (itr_begin is 0, itr_end is [len]);
    difference_type is ptrdiff_t with 64 bits. None: undefined behaviour (division by zero, signed overflow, an iterator outside [itr_begin, itr_end]). *)
From Coq Require Import ZArith List Bool.
Import ListNotations.
Local Open Scope Z_scope.

Definition MIN : Z := - 2 ^ 63.
Definition MAX : Z := 2 ^ 63 - 1.
(** a value of difference_type *)
Definition dt (n : Z) : option Z := if (MIN <=? n) && (n <=? MAX) then Some n else None.
(** moving the underlying iterator *)
Definition move (len p : Z) : option Z := if (0 <=? p) && (p <=? len) then Some p else None.
Definition bind {A B} (x : option A) (f : A -> option B) : option B := match x with Some a => f a | None => None end.

(** circular_iterator.h: 481-489 (the same: 268-276, 359-367) *)
Definition incr (len p : Z) : option Z := bind (move len (p + 1)) (fun p => Some (if p =? len then 0 else p)).
(** circular_iterator.h: 506-520 (the same: 384-398): ++ritr makes itr_end - 1 the base *)
Definition decr (len p : Z) : option Z := if p =? 0 then move len (len - 1) else move len (p - 1).
(** circular_iterator.h: 537-577 *)
Definition plus (len p offset : Z) : option Z :=
  let length := len in
  if length =? 0 then None else
  bind (dt (Z.rem offset length)) (fun offset =>
  if offset =? 0 then Some p else
  bind (dt p) (fun from_begin => bind (dt (len - p)) (fun to_end =>
  bind (if 0 <? offset then (if offset <? to_end then dt (from_begin + offset) else dt (offset - to_end))
        else bind (dt (- offset)) (fun offset => if offset <=? from_begin then dt (from_begin - offset) else bind (dt (offset - from_begin)) (fun offset => dt (length - offset))))
  (fun offset => move len offset)))).
(** circular_iterator.h: 582-585 *)
Definition minus (len p offset : Z) : option Z := bind (dt (- offset)) (fun offset => plus len p offset).

(** one call; operator + and operator - (658-679) copy the iterator and use += and -= *)
Inductive call := Incr | Decr | Plus (n : Z) | Minus (n : Z).
Definition perform (len p : Z) (c : call) : option Z :=
  match c with Incr => incr len p | Decr => decr len p | Plus n => plus len p n | Minus n => minus len p n end.
Definition perform_all (len p : Z) (cs : list call) : option Z := fold_left (fun p c => bind p (fun p => perform len p c)) cs (Some p).
