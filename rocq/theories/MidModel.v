(** numeric.h: midpoint. A value of a [w] bit integer type is the integer it stands for. int has 32 bits: operands of narrower types are
    promoted to int before arithmetic. None: undefined behaviour (overflow of signed arithmetic, a pointer outside of its array). *)
From Coq Require Import ZArith List Bool.
From Verif Require Import MathModel.
Open Scope Z_scope.
Section Mid.
Variable w : Z.
(** the value of an arithmetic expression whose operands have the unsigned [w] bit type: int if that is wider, modulo 2^w otherwise *)
Definition u_expr (x : Z) : option Z := if w <? 32 then (if (- 2 ^ 31 <=? x) && (x <? 2 ^ 31) then Some x else None) else Some (x mod 2 ^ w).
(** the same with operands of the signed type *)
Definition s_expr (x : Z) : option Z := let k := Z.max w 32 in if (- 2 ^ (k - 1) <=? x) && (x <? 2 ^ (k - 1)) then Some x else None.
Definition bind (x : option Z) (f : Z -> option Z) : option Z := match x with Some x => f x | None => None end.
(** numeric.h: 91-106, unsigned types *)
Definition midpoint_u (a b : Z) : option Z :=
  if b <? a then bind (u_expr (a - b)) (fun d => bind (u_expr (a - Z.shiftr d 1)) (fun r => Some (to_u w r)))
  else bind (u_expr (b - a)) (fun d => bind (u_expr (a + Z.shiftr d 1)) (fun r => Some (to_u w r))).
(** numeric.h: 112-129, signed types. In line 123 the difference is cast back to utype before the shift, in line 127 it is not. The shift of a
    negative int is the arithmetic one. *)
Definition midpoint_s (a b : Z) : option Z :=
  if b <? a then bind (u_expr (to_u w a - to_u w b)) (fun d => bind (s_expr (a - to_s w (Z.shiftr (to_u w d) 1))) (fun r => Some (to_s w r)))
  else bind (u_expr (to_u w b - to_u w a)) (fun d => bind (s_expr (a + to_s w (Z.shiftr d 1))) (fun r => Some (to_s w r))).
End Mid.
(** numeric.h: 135-149 (pointers) and 155-169 (random access iterators): the index in an array of [len] elements; one past the end may be pointed to *)
Definition midpoint_p (len : nat) (a b : nat) : option nat :=
  let r := if Nat.ltb b a then (b + (a - b) / 2)%nat else (a + (b - a) / 2)%nat in if Nat.leb r len then Some r else None.
(** numeric.h: 176-185 (forward and bidirectional iterators): b must be reachable from a; distance counts the steps, advance repeats ++ *)
Fixpoint distance (f a b : nat) : option nat :=
  if Nat.eqb a b then Some O else match f with O => None | S f => option_map S (distance f (S a) b) end.
Fixpoint advance (a n : nat) : nat := match n with O => a | S n => advance (S a) n end.
Definition midpoint_f (len : nat) (a b : nat) : option nat :=
  match distance len a b with Some d => Some (advance a (d / 2)) | None => None end.
