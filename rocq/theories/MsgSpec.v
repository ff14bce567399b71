(** * Message buses and brokers as a user sees them.  Independent of the code. *)
From Coq Require Import List Arith Bool.
Import ListNotations.
(** [Handled w m]: on_receive of router [w] is called with a message of id [m]; [Unknown w m]: its on_receive_unknown is called. *)
Inductive event : Type := Handled (who m : nat) | Unknown (who m : nat).
(** What a message router does, whatever its class: its router id, whether it consumes messages, which message ids it accepts, and the events caused by
    sending it message [m] ([recv m]), or by sending it message [m] addressed to router id [d] ([recv_to d m]). *)
Record router : Type := { rid : nat; consumer : bool; accepts : nat -> bool; recv : nat -> list event; recv_to : nat -> nat -> list event }.
Definition all_routers : nat := 253.
Definition bus_id : nat := 254.
Fixpoint remove_first (a : nat) (l : list nat) : list nat := match l with [] => [] | b :: r => if Nat.eqb a b then r else b :: remove_first a r end.
Section Network.
  Variable obj : nat -> router.           (** the router at an address *)
  Variable succ : option router.          (** the successor of the bus or broker *)
  (** ** Bus *)
  Inductive bop : Type := Bsubscribe (a : nat) | BunsubscribeId (d : nat) | BunsubscribeRouter (a : nat) | Bclear | Bsize | Baccepts (m : nat) | Bsend (m : nat) | BsendTo (d m : nat).
  Inductive bres : Type := Bunit | Btoo_many | Bb (b : bool) | Bn (n : nat) | Bevents (t : list event).
  Variable N : nat.                       (** MAX_ROUTERS *)
  (** ids ascending; routers of equal id in the order in which they subscribed *)
  Definition by_id (subs : list nat) : list nat := flat_map (fun k => filter (fun a => Nat.eqb (rid (obj a)) k) subs) (seq 0 256).
  Definition bus_events (subs : list nat) (d m : nat) : list event :=
    (if Nat.eqb d all_routers
     then flat_map (fun a => recv (obj a) m) (filter (fun a => accepts (obj a) m) (by_id subs))
     else flat_map (fun a => recv (obj a) m) (filter (fun a => Nat.eqb (rid (obj a)) d && accepts (obj a) m) subs)
          ++ flat_map (fun a => recv_to (obj a) d m) (filter (fun a => bus_id <=? rid (obj a)) (by_id subs)))
    ++ match succ with Some r => if accepts r m then recv_to r d m else [] | None => [] end.
  (** state: the subscriptions, oldest first *)
  Definition b_step (o : bop) (s : list nat) : bres * list nat :=
    match o with
    | Bsubscribe a => if negb (consumer (obj a)) then (Bb true, s) else if length s <? N then (Bb true, s ++ [a]) else (Btoo_many, s)
    | BunsubscribeId d => (Bunit, if Nat.eqb d all_routers then [] else filter (fun a => negb (Nat.eqb (rid (obj a)) d)) s)
    | BunsubscribeRouter a => (Bunit, remove_first a s)
    | Bclear => (Bunit, [])
    | Bsize => (Bn (length s), s)
    | Baccepts m => (Bb (existsb (fun a => accepts (obj a) m) s || match succ with Some r => accepts r m | None => false end), s)
    | Bsend m => (Bevents (bus_events s all_routers m), s)
    | BsendTo d m => (Bevents (bus_events s d m), s)
    end.
  Fixpoint b_steps (os : list bop) (s : list nat) : list bres * list nat :=
    match os with [] => ([], s) | o :: r => let (x, s) := b_step o s in let (xs, s) := b_steps r s in (x :: xs, s) end.
  (** ** Broker: a subscription names a router and the message ids it wants *)
  Variables (srouter : nat -> nat) (sids : nat -> list nat).
  Inductive kop : Type := Ksubscribe (s : nat) | Kunsubscribe (a : nat) | Kclear | Kempty | Kaccepts (m : nat) | Ksend (m : nat) | KsendTo (d m : nat).
  Inductive kres : Type := Kunit | Kb (b : bool) | Kevents (t : list event).
  Definition wants (s m : nat) : bool := existsb (Nat.eqb m) (sids s).
  Definition broker_events (l : list nat) (d m : nat) : list event :=
    flat_map (fun s => recv (obj (srouter s)) m) (filter (fun s => wants s m && (Nat.eqb d all_routers || Nat.eqb d (rid (obj (srouter s))))) l)
    ++ match succ with Some r => recv_to r d m | None => [] end.
  Definition k_step (o : kop) (l : list nat) : kres * list nat :=
    match o with
    | Ksubscribe s => (Kunit, if existsb (fun t => Nat.eqb (srouter t) (srouter s)) l then map (fun t => if Nat.eqb (srouter t) (srouter s) then s else t) l else l ++ [s])
    | Kunsubscribe a => (Kunit, filter (fun t => negb (Nat.eqb (srouter t) a)) l)
    | Kclear => (Kunit, [])
    | Kempty => (Kb (match l with [] => true | _ => false end), l)
    | Kaccepts m => (Kb (existsb (fun s => wants s m && accepts (obj (srouter s)) m) l || match succ with Some r => accepts r m | None => false end), l)
    | Ksend m => (Kevents (broker_events l all_routers m), l)
    | KsendTo d m => (Kevents (broker_events l d m), l)
    end.
  Fixpoint k_steps (os : list kop) (l : list nat) : list kres * list nat :=
    match os with [] => ([], l) | o :: r => let (x, l) := k_step o l in let (xs, l) := k_steps r l in (x :: xs, l) end.
End Network.
