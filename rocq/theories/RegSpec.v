(** What the user of a registry knows: the routers that were accepted and not removed, in the order they were added (one may stand in it more than once) *)
From Coq Require Import List Arith Bool.
From Verif Require Import RegModel.
Import ListNotations.

Section Spec.
Variables (R : Type) (same : R -> R -> bool) (rid : R -> nat) (MaxRouters : nat).
(** [history l reg]: after some calls the registry is l, and reg are the routers added and not removed *)
Inductive history : registry R -> list R -> Prop :=
| h_construct : history [] []
| h_add l reg r l' : history l reg -> add R same rid MaxRouters l r = (l', true) -> history l' (reg ++ [r])
| h_add_refused l reg r l' : history l reg -> add R same rid MaxRouters l r = (l', false) -> history l' reg
| h_remove l reg id : history l reg -> history (remove R l id) (filter (fun r => negb (Nat.eqb (rid r) id)) reg).
(** the routers registered under an id, oldest first *)
Definition under (reg : list R) (id : nat) : list R := filter (fun r => Nat.eqb (rid r) id) reg.
(** the routers of a walk from begin() to end() *)
Definition walk (l : registry R) : list R := map snd l.
End Spec.
