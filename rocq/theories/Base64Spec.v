(** * RFC 4648 base 64, at the level of bits.  Independent of the code. *)
From Coq Require Import List Arith Bool ZArith.
Import ListNotations.
Local Open Scope Z_scope.

(** most significant bit first *)
Definition bits (x : Z) : list bool := map (Z.testbit x) [7; 6; 5; 4; 3; 2; 1; 0].
Definition number (l : list bool) : Z := fold_left (fun (a : Z) (b : bool) => 2 * a + (if b then 1 else 0)) l 0.

(** groups of six bits, the last one completed with zero bits *)
Fixpoint sextets (l : list bool) : list Z :=
  match l with
  | a :: b :: c :: d :: e :: f :: r => number [a; b; c; d; e; f] :: sextets r
  | [] => []
  | rest => [number (firstn 6 (rest ++ repeat false 6))]
  end.

Definition padding (n : nat) : list Z := repeat 61 ((3 - n mod 3) mod 3).
Definition rfc4648 (alphabet : list Z) (padded : bool) (data : list Z) : list Z :=
  map (fun i => nth (Z.to_nat i) alphabet 0) (sextets (concat (map bits data)))
  ++ (if padded then padding (List.length data) else []).

Definition byte (x : Z) : Prop := 0 <= x < 256.
(** 64 different characters, none of them the padding character *)
Definition alphabet_ok (t : list Z) : Prop := List.length t = 64%nat /\ NoDup t /\ ~ In 61 t.
