(** Specification of delegate_service and callback_service: written without reference to the model.
    A history of one service is the list of its registrations, oldest first. *)
From Coq Require Import ZArith List.
Import ListNotations.
Open Scope Z_scope.

Inductive reg (F : Type) :=
  | Register (id : Z) (h : F)        (* register_delegate(id, h) / register_callback(id, h) *)
  | RegisterUnhandled (h : F).       (* register_unhandled_delegate(h) / register_unhandled_callback(h) *)
Arguments Register {F}. Arguments RegisterUnhandled {F}.

(** the last handler that was registered for an id *)
Definition is_last_for {F} (h : F) (id : Z) (hist : list (reg F)) : Prop :=
  exists before after, hist = before ++ Register id h :: after /\ forall h', ~ In (Register id h') after.
(** the last handler that was registered for unhandled ids *)
Definition is_last_unhandled {F} (h : F) (hist : list (reg F)) : Prop :=
  exists before after, hist = before ++ RegisterUnhandled h :: after /\ forall h', ~ In (RegisterUnhandled h') after.

(** what is called for an id that has no handler: the unhandled handler, if there is one, with that id *)
Definition unhandled_result {F} (hist : list (reg F)) (id : Z) (calls : list (F * Z)) : Prop :=
  (exists h, is_last_unhandled h hist /\ calls = [(h, id)]) \/
  ((forall h, ~ In (RegisterUnhandled h) hist) /\ calls = []).
(** what a service for the ids offset .. offset + range - 1 calls for an id *)
Definition call_result {F} (offset range : Z) (hist : list (reg F)) (id : Z) (calls : list (F * Z)) : Prop :=
  (offset <= id < offset + range /\ exists h, is_last_for h id hist /\ calls = [(h, id)]) \/
  ((~ offset <= id < offset + range \/ forall h, ~ In (Register id h) hist) /\ unhandled_result hist id calls).
