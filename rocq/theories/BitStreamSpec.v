(** * A bit stream as a list of bits and a position.  Independent of the code. *)
From Coq Require Import List Arith Bool ZArith.
From Verif Require Import BinarySpec.
Import ListNotations.
Local Open Scope Z_scope.

(** the buffer as bits: each byte most significant bit first *)
Definition bits_of (bytes : list Z) : list bool := flat_map (msb_first 8) bytes.
(** the bits of a field: most significant first in a big endian stream, least
    significant first in a little endian one *)
Definition field (big_endian : bool) (n v : Z) : list bool := if big_endian then msb_first n v else lsb_first n v.
(** the number with given bits, most significant first *)
Definition number (l : list bool) : Z := fold_left (fun a (b : bool) => 2 * a + (if b then 1 else 0)) l 0.
Definition field_number (big_endian : bool) (l : list bool) : Z := number (if big_endian then l else rev l).
(** the value read from a field of n bits *)
Definition as_signed (n x : Z) : Z := if x <? 2 ^ (n - 1) then x else x - 2 ^ n.

(** bits up to the end of the byte *)
Definition pad (p : nat) : nat := ((8 - p mod 8) mod 8)%nat.
(** writing [bs] at position p: the bits before p and after the last byte reached
    stay, the rest of the last byte reached is zero *)
Definition put_bits (L : list bool) (p : nat) (bs : list bool) : list bool :=
  let q := (p + List.length bs)%nat in firstn p L ++ bs ++ repeat false (pad q) ++ skipn (q + pad q) L.

(** ** Writing and reading as operations on (all bits of the buffer, position) *)
Inductive wop : Type := Wbool (b : bool) | Wint (w n v : Z) | Wrestart.
Definition wop_ok (o : wop) : Prop := match o with Wint w n v => width w /\ 1 <= n <= 255 | _ => True end.
(** a field is never wider than its type *)
Definition put_field (big_endian : bool) (o : wop) : list bool :=
  match o with Wbool b => [b] | Wint w n v => field big_endian (Z.min n w) v | Wrestart => [] end.
Definition asked (o : wop) : nat := match o with Wbool _ => 1%nat | Wint w n v => Z.to_nat n | Wrestart => 0%nat end.
Definition spec_write (big_endian : bool) (o : wop) (st : list bool * nat) : bool * (list bool * nat) :=
  let '(L, p) := st in
  match o with
  | Wrestart => (true, (L, 0%nat))
  | _ => if Nat.leb (p + asked o) (List.length L) then (true, (put_bits L p (put_field big_endian o), (p + List.length (put_field big_endian o))%nat)) else (false, (L, p))
  end.
Fixpoint spec_writes (big_endian : bool) (os : list wop) (st : list bool * nat) : list bool * (list bool * nat) :=
  match os with
  | [] => ([], st)
  | o :: r => let '(ok, st) := spec_write big_endian o st in let '(oks, st) := spec_writes big_endian r st in (ok :: oks, st)
  end.
Inductive rop : Type := Rbool | Rint (w n : Z) (is_signed : bool) | Rskip (n : Z) | Rrestart.
Definition rop_ok (o : rop) : Prop := match o with Rint w n _ => width w /\ 1 <= n <= 255 | Rskip n => 0 <= n | _ => True end.
(** what a read operation returns *)
Inductive result : Type := Nothing | Bool (b : bool) | Int (v : Z) | Done (ok : bool).
Definition spec_read (big_endian : bool) (o : rop) (L : list bool) (p : nat) : result * nat :=
  match o with
  | Rbool => match skipn p L with [] => (Nothing, p) | b :: _ => (Bool b, S p) end
  | Rint w n sgn =>
      if Nat.leb (p + Z.to_nat n) (List.length L)
      then let k := Z.min n w in
           let x := field_number big_endian (firstn (Z.to_nat k) (skipn p L)) in
           (Int (if sgn then as_signed k x else x), (p + Z.to_nat k)%nat)
      else (Nothing, p)
  | Rskip n => if Nat.leb (p + Z.to_nat n) (List.length L) then (Done true, (p + Z.to_nat n)%nat) else (Done false, p)
  | Rrestart => (Done true, 0%nat)
  end.
Fixpoint spec_reads (big_endian : bool) (os : list rop) (L : list bool) (p : nat) : list result * nat :=
  match os with
  | [] => ([], p)
  | o :: r => let '(x, p) := spec_read big_endian o L p in let '(xs, p) := spec_reads big_endian r L p in (x :: xs, p)
  end.
