(** * What a CRC is: the parametrised bit-serial algorithm (width, poly, init,
    refin = refout, xorout).  Independent of the tables. *)
From Coq Require Import List Arith Bool ZArith.
From Verif Require Import BinarySpec.
Import ListNotations.
Local Open Scope Z_scope.

(** the number whose bits are l, most significant first *)
Fixpoint of_msb (a : Z) (l : list bool) : Z := match l with [] => a | b :: r => of_msb (2 * a + (if b then 1 else 0)) r end.
(** the number with the w bits of x in the opposite order *)
Definition reflected (w x : Z) : Z := of_msb 0 (lsb_first w x).
(** one message bit through the shift register of w bits: shift up, and subtract
    the polynomial when the bit that leaves differs from the message bit *)
Definition crc_bit (w poly reg : Z) (b : bool) : Z :=
  let up := (2 * reg) mod 2 ^ w in
  if xorb (bit reg (w - 1)) b then Z.lxor up poly else up.
Definition message_bits (reflect : bool) (bytes : list Z) : list bool :=
  flat_map (fun v => if reflect then lsb_first 8 v else msb_first 8 v) bytes.
Definition crc (w poly init xorout : Z) (reflect : bool) (bytes : list Z) : Z :=
  let reg := fold_left (crc_bit w poly) (message_bits reflect bytes) init in
  Z.lxor (if reflect then reflected w reg else reg) xorout.

Definition byte (v : Z) : Prop := 0 <= v < 256.
