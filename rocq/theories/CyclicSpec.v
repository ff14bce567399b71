(** Specification of cyclic_value: a position in Z modulo the size of the range. *)
From Coq Require Import ZArith List.
From Verif Require Import CyclicModel.
Import ListNotations.
Open Scope Z_scope.

(** the number of values in the range [f..l] *)
Definition size_of (f l : Z) : Z := l - f + 1.
(** the value [n] steps after [v], going round *)
Definition around (f l v n : Z) : Z := f + (v - f + n) mod size_of f l.
(** the value of the range nearest to [v] *)
Definition nearest (f l v w : Z) : Prop :=
  f <= w <= l /\ forall u, f <= u <= l -> Z.abs (v - w) <= Z.abs (v - u).

(** arguments a caller may pass: ranges with at least one value, other objects in range, and an
    int that has a negative *)
Definition op_ok (o : cop) : Prop :=
  match o with
  | OSetRange f l => f <= l
  | OAdvance n => - 2 ^ 31 < n < 2 ^ 31
  | OAssign d | OAssignOther d => cfirst d <= cval d <= clast d
  | _ => True
  end.

(** what each operation must do, as (value, first, last) before and after *)
Definition op_spec (c c' : cyc) (o : cop) : Prop :=
  match o with
  | OSet v => nearest (cfirst c) (clast c) v (cval c') /\ cfirst c' = cfirst c /\ clast c' = clast c
  | OSetRange f l => c' = mkcyc f f l
  | OFirst => c' = mkcyc (cfirst c) (cfirst c) (clast c)
  | OLast => c' = mkcyc (clast c) (cfirst c) (clast c)
  | OInc => c' = mkcyc (around (cfirst c) (clast c) (cval c) 1) (cfirst c) (clast c)
  | ODec => c' = mkcyc (around (cfirst c) (clast c) (cval c) (-1)) (cfirst c) (clast c)
  | OAdvance n => c' = mkcyc (around (cfirst c) (clast c) (cval c) n) (cfirst c) (clast c)
  | OAssign d => c' = d
  | OAssignOther d => nearest (cfirst c) (clast c) (cval d) (cval c') /\ cfirst c' = cfirst c /\ clast c' = clast c
  end.
(** a history: every step does what is specified *)
Inductive history : cyc -> list cop -> cyc -> Prop :=
| h_nil : forall c, history c [] c
| h_cons : forall c o c' os c'', op_spec c c' o -> history c' os c'' -> history c (o :: os) c''.
