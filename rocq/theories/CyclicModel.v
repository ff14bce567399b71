(** cyclic_value.h: a value that wraps around between a first and a last value.
    T is an integer type; the values are Z. [++value] and [--value] are only executed strictly
    inside the range, so they cannot overflow T: T's limits do not occur in the model. *)
From Coq Require Import ZArith List Bool.
From Verif Require Import Util.
Import ListNotations.
Open Scope Z_scope.

(** cyclic_value.h: 611-613 (the dynamic form; in the static form, 317, first and last are the
    template arguments) *)
Record cyc := mkcyc { cval : Z; cfirst : Z; clast : Z }.

(** cyclic_value.h: 399-411 (static: 110-122) *)
Definition c_set (c : cyc) (v : Z) : cyc :=
  mkcyc (if clast c <? v then clast c else if v <? cfirst c then cfirst c else v) (cfirst c) (clast c).
(** cyclic_value.h: 351-356 (static: 72-75) *)
Definition c_new (f l : Z) : cyc := mkcyc f f l.
(** cyclic_value.h: 365-370 (static: 82-85); value is not yet written: any bit pattern [junk] *)
Definition c_new_at (junk f l v : Z) : cyc := c_set (mkcyc junk f l) v.
(** cyclic_value.h: 388-393 *)
Definition c_set_range (c : cyc) (f l : Z) : cyc := mkcyc f f l.
(** cyclic_value.h: 416-427 (static: 127-138) *)
Definition c_to_first (c : cyc) : cyc := mkcyc (cfirst c) (cfirst c) (clast c).
Definition c_to_last (c : cyc) : cyc := mkcyc (clast c) (cfirst c) (clast c).
(** cyclic_value.h: 472-484 (static: 183-195) *)
Definition c_inc (c : cyc) : cyc :=
  mkcyc (if clast c <=? cval c then cfirst c else cval c + 1) (cfirst c) (clast c).
(** cyclic_value.h: 501-513 (static: 212-224) *)
Definition c_dec (c : cyc) : cyc :=
  mkcyc (if cval c <=? cfirst c then clast c else cval c - 1) (cfirst c) (clast c).
(** the for loops of 437-447 *)
Fixpoint c_rep (f : cyc -> cyc) (n : nat) (c : cyc) : cyc :=
  match n with O => c | S k => c_rep f k (f c) end.
(** cyclic_value.h: 433-449 (static: 144-160); n an int of 32 bits: -n overflows for the smallest
    int (undefined behaviour: None) *)
Definition c_advance (c : cyc) (n : Z) : option cyc :=
  if 0 <? n then Some (c_rep c_inc (Z.to_nat n) c)
  else if n =? - 2 ^ 31 then None
  else Some (c_rep c_dec (Z.to_nat (- n)) c).
(** cyclic_value.h: 539-545 *)
Definition c_assign (c d : cyc) : cyc := mkcyc (cval d) (cfirst d) (clast d).
(** cyclic_value.h: 251-255: static, other range *)
Definition c_assign_other (c d : cyc) : cyc := c_set c (cval d).
(** cyclic_value.h: 489-496, 518-525: the postfix forms return the old value *)
Definition c_post_inc (c : cyc) : cyc * cyc := (c_inc c, c).
Definition c_post_dec (c : cyc) : cyc * cyc := (c_dec c, c).
(** cyclic_value.h: 594-607 *)
Definition c_eq (c d : cyc) : bool := (cval c =? cval d) && (cfirst c =? cfirst d) && (clast c =? clast d).
(** cyclic_value.h: 574-581 *)
Definition c_swap (c d : cyc) : cyc * cyc := (d, c).

(** the operations of a history *)
Inductive cop :=
| OSet (v : Z) | OSetRange (f l : Z) | OFirst | OLast | OInc | ODec | OAdvance (n : Z)
| OAssign (d : cyc) | OAssignOther (d : cyc).
Definition c_op (c : cyc) (o : cop) : option cyc :=
  match o with
  | OSet v => Some (c_set c v)
  | OSetRange f l => Some (c_set_range c f l)
  | OFirst => Some (c_to_first c)
  | OLast => Some (c_to_last c)
  | OInc => Some (c_inc c)
  | ODec => Some (c_dec c)
  | OAdvance n => c_advance c n
  | OAssign d => Some (c_assign c d)
  | OAssignOther d => Some (c_assign_other c d)
  end.
Fixpoint c_run (c : cyc) (os : list cop) : option cyc :=
  match os with [] => Some c | o :: r => match c_op c o with Some c' => c_run c' r | None => None end end.
