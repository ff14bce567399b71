(** Model of /repo/include/etl/delegate_service.h (the primary template for run time registration, 99-214)
    and /repo/include/etl/callback_service.h. The two classes have the same code; a delegate, or a reference
    to an ifunction, is an opaque handler F. Services are objects in memory, because the default entry of
    the table is a delegate bound to the service ("*this"). The static table version
    (delegate_service.h: 49-91) is modelled by [static_call]. *)
From Coq Require Import ZArith List Bool Lia.
From Verif Require Import DsvSpec.
Import ListNotations.
Open Scope Z_scope.

Section Model.
Context {F : Type}.
Variables (RANGE OFFSET : Z).
(** an entry of the table: a user's handler, or the delegate / function_mp bound to unhandled of the service at an address *)
Inductive entry := Handler (h : F) | Unhandled (address : nat).
(** delegate_service.h: 207, 210 / callback_service.h: 152, 155 *)
Record service := mkS { unhandled_delegate : option F; lookup : list entry }.
Definition memory := nat -> option service.
Definition upd (m : memory) (k : nat) (s : option service) : memory := fun j => if Nat.eqb j k then s else m j.

(** the size_t sum Offset + Range *)
Definition limit : Z := (OFFSET + RANGE) mod 2^64.
(** delegate_service.h: 79, 145, 180 / callback_service.h: 87, 122 *)
Definition in_range (id : Z) : bool := (OFFSET <=? id) && (id <? limit).

(** array::operator[] assignment at a position; no entry there is undefined behaviour *)
Fixpoint put (l : list entry) (n : nat) (e : entry) : option (list entry) :=
  match l, n with
  | [], _ => None
  | _ :: r, O => Some (e :: r)
  | x :: r, S n' => match put r n' e with None => None | Some r' => Some (x :: r') end
  end.

(** delegate_service.h: 115-120 / callback_service.h: 57-62: the constructor *)
Definition construct (m : memory) (k : nat) : memory :=
  upd m k (Some (mkS None (repeat (Unhandled k) (Z.to_nat RANGE)))).
(** the implicit copy constructor: member by member *)
Definition copy (m : memory) (k from : nat) : option memory :=
  match m from with None => None | Some s => Some (upd m k (Some (mkS (unhandled_delegate s) (lookup s)))) end.
(** the implicit destructor *)
Definition destroy (m : memory) (k : nat) : memory := upd m k None.

(** delegate_service.h: 143-149 / callback_service.h: 85-91; the template version (128-135 / 70-77) does the same
    and refuses an id that is out of range when it is compiled *)
Definition register_delegate (m : memory) (k : nat) (id : Z) (h : F) : option memory :=
  match m k with
  | None => None
  | Some s =>
      if in_range id
      then match put (lookup s) (Z.to_nat (id - OFFSET)) (Handler h) with
           | None => None
           | Some l => Some (upd m k (Some (mkS (unhandled_delegate s) l)))
           end
      else Some m
  end.
(** delegate_service.h: 155-158 / callback_service.h: 97-100 *)
Definition register_unhandled (m : memory) (k : nat) (h : F) : option memory :=
  match m k with
  | None => None
  | Some s => Some (upd m k (Some (mkS (Some h) (lookup s))))
  end.
(** delegate_service.h: 198-204 / callback_service.h: 138-144 *)
Definition unhandled (m : memory) (k : nat) (id : Z) : option (list (F * Z)) :=
  match m k with
  | None => None
  | Some s => Some (match unhandled_delegate s with Some h => [(h, id)] | None => [] end)
  end.
(** delegate_service.h: 178-190 / callback_service.h: 120-130 (the template version, 165-172 / 107-114, is the first branch) *)
Definition call (m : memory) (k : nat) (id : Z) : option (list (F * Z)) :=
  match m k with
  | None => None
  | Some s =>
      if in_range id
      then match nth_error (lookup s) (Z.to_nat (id - OFFSET)) with
           | None => None
           | Some (Handler h) => Some [(h, id)]
           | Some (Unhandled j) => unhandled m j id
           end
      else unhandled m k id
  end.
(** delegate_service.h: 77-89: the static table *)
Definition static_call (delegates : list F) (id : Z) : option (list (F * Z)) :=
  match nth_error delegates (if in_range id then Z.to_nat (id - OFFSET) else Z.to_nat RANGE) with
  | None => None
  | Some h => Some [(h, id)]
  end.

(** a step of a program that uses any number of services *)
Inductive op := Construct (k : nat) | Copy (k from : nat) | Destroy (k : nat) | Reg (k : nat) (r : reg F).
Definition step (m : memory) (o : op) : option memory :=
  match o with
  | Construct k => Some (construct m k)
  | Copy k from => copy m k from
  | Destroy k => Some (destroy m k)
  | Reg k (Register id h) => register_delegate m k id h
  | Reg k (RegisterUnhandled h) => register_unhandled m k h
  end.
Fixpoint run (m : memory) (ops : list op) : option memory :=
  match ops with [] => Some m | o :: r => match step m o with None => None | Some m' => run m' r end end.
(** the registrations made on one service *)
Fixpoint regs_of (k : nat) (ops : list op) : list (reg F) :=
  match ops with
  | [] => []
  | Reg j r :: t => if Nat.eqb j k then r :: regs_of k t else regs_of k t
  | _ :: t => regs_of k t
  end.
(** the step begins or ends the life of a service *)
Definition renews (k : nat) (o : op) : Prop :=
  match o with Construct j | Destroy j | Copy j _ => j = k | Reg _ _ => False end.
End Model.
Arguments entry F : clear implicits.
Arguments op F : clear implicits.
Arguments memory F : clear implicits.
