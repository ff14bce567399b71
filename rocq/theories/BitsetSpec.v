(** * Specification of a bitset of N bits: the list of its N bits, bit 0 first. *)
From Coq Require Import List Bool Arith ZArith.
Import ListNotations.

Section Spec.
  Variable b : list bool.
  Definition sp_test (p : nat) : bool := nth p b false.
  Definition sp_count : nat := List.length (filter (fun x => x) b).
  Definition sp_all : bool := forallb (fun x => x) b.
  Definition sp_any : bool := existsb (fun x => x) b.
  Definition sp_none : bool := negb sp_any.
  (** the bits with position p replaced by v *)
  Definition sp_put (p : nat) (v : bool) : list bool :=
    map (fun q => if q =? p then v else sp_test q) (seq 0 (List.length b)).
  Definition sp_flip (p : nat) : list bool := sp_put p (negb (sp_test p)).
  Definition sp_fill (v : bool) : list bool := repeat v (List.length b).
  Definition sp_not : list bool := map negb b.
  Definition sp_map2 (f : bool -> bool -> bool) (c : list bool) : list bool :=
    map (fun q => f (sp_test q) (nth q c false)) (seq 0 (List.length b)).
  (** towards higher / lower positions; vacated positions are filled with 0 *)
  Definition sp_shl (s : nat) : list bool := firstn (List.length b) (repeat false s ++ b).
  Definition sp_shr (s : nat) : list bool := firstn (List.length b) (skipn s b ++ repeat false s).
  (** the least position >= p whose bit is [state] *)
  Definition sp_find (state : bool) (p : nat) : option nat :=
    find (fun q => (p <=? q) && Bool.eqb (sp_test q) state) (seq 0 (List.length b)).
  (** most significant bit first *)
  Definition sp_text {C} (zero one : C) : list C := map (fun x : bool => if x then one else zero) (rev b).
End Spec.

(** the number with these bits *)
Fixpoint sp_value (b : list bool) : Z :=
  match b with [] => 0%Z | x :: r => ((if x then 1 else 0) + 2 * sp_value r)%Z end.
(** n bits of a number *)
Definition sp_of_value (n : nat) (v : Z) : list bool := map (fun q => Z.testbit v (Z.of_nat q)) (seq 0 n).
(** a text is read most significant bit first; of a longer text the first n characters count *)
Definition sp_of_text (n : nat) (text : list bool) : list bool :=
  let t := rev (firstn n text) in t ++ repeat false (n - List.length t).
(** len bits from position p on, and their value as an unsigned / two's complement number *)
Definition sp_slice (b : list bool) (p len : nat) : list bool := firstn len (skipn p b).
Definition sp_signed (b : list bool) : Z :=
  let v := sp_value b in let n := Z.of_nat (List.length b) in
  (if v <? 2 ^ (n - 1) then v else v - 2 ^ n)%Z.
