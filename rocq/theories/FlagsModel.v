(** flags.h: etl::flags<T, MASK>. T is an unsigned type of w bits, its values are 0 <= x < 2^w; [x] & and | as Z.land and Z.lor, ~ is Z.lnot of the promoted value, and the assignment converts to T with [tr]. *)
From Coq Require Import List Bool ZArith.
From Verif Require Import BinaryModel.
Import ListNotations.
Local Open Scope Z_scope.

Section Model.
Variables (w MASK : Z).
(** flags.h: 68-81 *)
Definition ctor : Z := 0.
Definition ctor_value (pattern : Z) : Z := tr w (Z.land pattern MASK).
(** flags.h: 87-96 *)
Definition test (data pattern : Z) : bool := negb (Z.eqb (Z.land data pattern) 0).
(** flags.h: 120-133 *)
Definition set (data pattern : Z) : Z := tr w (Z.lor data (Z.land pattern MASK)).
(** flags.h: 102-116, 136-141 *)
Definition set_value (data pattern : Z) (value : bool) : Z := if value then tr w (Z.lor data (Z.land pattern MASK)) else tr w (Z.land data (Z.land (Z.lnot pattern) MASK)).
(** flags.h: 146-151; 61 *)
Definition clear (data : Z) : Z := 0.
(** flags.h: 157-170 *)
Definition reset (data pattern : Z) : Z := tr w (Z.land data (Z.lnot pattern)).
(** flags.h: 175-180 *)
Definition flip_all (data : Z) : Z := tr w (Z.land (Z.lnot data) MASK).
(** flags.h: 184-197 *)
Definition flip (data pattern : Z) : Z := tr w (Z.lxor data (Z.land pattern MASK)).
(** flags.h: 202-205 *)
Definition all (data : Z) : bool := Z.eqb data MASK.
(** flags.h: 209-218 *)
Definition all_of (data pattern : Z) : bool := Z.eqb (Z.land data (Z.land pattern MASK)) (Z.land pattern MASK).
(** flags.h: 244-247, 251-260 *)
Definition any (data : Z) : bool := negb (Z.eqb (Z.land data MASK) 0).
Definition any_of (data pattern : Z) : bool := negb (Z.eqb (Z.land data (Z.land pattern MASK)) 0).
(** flags.h: 223-226, 230-239 *)
Definition none (data : Z) : bool := Z.eqb (Z.land data MASK) 0.
Definition none_of (data pattern : Z) : bool := negb (any_of data pattern).
(** flags.h: 273-278, 331-336 *)
Definition assign (data pattern : Z) : Z := tr w (Z.land pattern MASK).
(** flags.h: 291-296, 301-306, 311-316 *)
Definition and_eq (data pattern : Z) : Z := tr w (Z.land data pattern).
Definition or_eq (data pattern : Z) : Z := tr w (Z.lor data (Z.land pattern MASK)).
Definition xor_eq (data pattern : Z) : Z := tr w (Z.lxor data (Z.land pattern MASK)).
(** flags.h: 365-368 *)
Definition equal (a b : Z) : bool := Z.eqb a b.

(** a call on a flags object *)
Inductive call := Set_ (p : Z) | SetTo (p : Z) (v : bool) | Clear | Reset (p : Z) | FlipAll | Flip (p : Z) | Assign (p : Z) | AndEq (p : Z) | OrEq (p : Z) | XorEq (p : Z).
Definition step (d : Z) (c : call) : Z :=
  match c with Set_ p => set d p | SetTo p v => set_value d p v | Clear => clear d | Reset p => reset d p | FlipAll => flip_all d | Flip p => flip d p | Assign p => assign d p | AndEq p => and_eq d p | OrEq p => or_eq d p | XorEq p => xor_eq d p end.
Definition run (calls : list call) : Z := fold_left step calls ctor.
End Model.
