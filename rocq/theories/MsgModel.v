(** * Model of message_router.h, message_bus.h, message_broker.h and successor.h.
    A router is its virtual interface (MsgSpec.router), so that buses, brokers and routers nest; the events a call causes are returned as a list.
    The overloads for shared_message run the same code on shared_msg.get_message() (message_bus.h: 153-156, 238-312; message_broker.h: 191-194, 236-272;
    message_router.h: 129-141).  Simplifications: handlers do not subscribe or unsubscribe while a message is delivered; the network has no cycle. *)
From Coq Require Import List Arith Bool.
From Verif Require Import SortModel MsgSpec.
Import ListNotations.
(** message_router.h: 120-126: imessage_router::receive(destination, message) *)
Definition base_recv_to (id : nat) (recv : nat -> list event) (d m : nat) : list event := if Nat.eqb d id || Nat.eqb d 253 then recv m else [].
(** message_router.h: 190-256, 268-341: null_message_router and message_producer, which hand everything to the successor *)
Definition forwarder (id : nat) (succ : option router) : router :=
  let rc m := match succ with Some r => recv r m | None => [] end in
  {| rid := id; consumer := false; accepts := fun m => match succ with Some r => accepts r m | None => false end; recv := rc; recv_to := base_recv_to id rc |}.
(** message_router.h: 409-543: message_router<TDerived, TMessageTypes...>; [types] are the ids of the message types, [who] the derived object.
    receive_message_type / accepts_type are the bodies of the fold expressions (507-543). *)
Definition plain_recv (who : nat) (types : list nat) (succ : option router) (m : nat) : list event :=
  let fix fold ts := match ts with [] => ([], false) | t :: r => if Nat.eqb t m then ([Handled who m], true) else fold r end in
  let (t, was_handled) := fold types in
  if negb was_handled then match succ with Some r => recv r m | None => [Unknown who m] end else t.
Definition plain_accepts (types : list nat) (succ : option router) (m : nat) : bool :=
  existsb (fun t => if Nat.eqb t m then true else match succ with Some r => accepts r m | None => false end) types.
Definition plain (who id : nat) (types : list nat) (succ : option router) : router :=
  {| rid := id; consumer := true; accepts := plain_accepts types succ; recv := plain_recv who types succ; recv_to := base_recv_to id (plain_recv who types succ) |}.

Section Bus.
  Variable obj : nat -> router.
  Variable succ : option router.
  Variable N : nat.
  Local Notation id a := (rid (obj a)).
  (** algorithm.h: 527-536: find over router pointers; the length stands for end() *)
  Fixpoint find_ptr (a : nat) (l : list nat) : nat := match l with [] => 0 | b :: r => if Nat.eqb b a then 0 else S (find_ptr a r) end.
  (** message_bus.h: 404-415: compare_router_id; equal_range is lower_bound and upper_bound (algorithm.h: 460-478) *)
  Definition lower_id (l : list nat) (d : nat) : option nat := lower_bound_by l (fun a => id a <? d).
  Definition upper_id (l : list nat) (d : nat) : option nat := upper_bound_by l (fun a => d <? id a).
  (** message_bus.h: 88-111 *)
  Definition bus_subscribe (a : nat) (l : list nat) : option (bres * list nat) :=
    if consumer (obj a)
    then if negb (Nat.eqb (length l) N)
         then match upper_id l (id a) with Some i => Some (Bb true, firstn i l ++ a :: skipn i l) | None => None end
         else Some (Btoo_many, l)
    else Some (Bb true, l).
  (** message_bus.h: 116-131 *)
  Definition bus_unsubscribe_id (d : nat) (l : list nat) : option (list nat) :=
    if Nat.eqb d 253 then Some []
    else match lower_id l d, upper_id l d with Some i, Some j => Some (firstn i l ++ skipn j l) | _, _ => None end.
  (** message_bus.h: 134-144 *)
  Definition bus_unsubscribe_router (a : nat) (l : list nat) : list nat :=
    let i := find_ptr a l in if negb (Nat.eqb i (length l)) then firstn i l ++ skipn (S i) l else l.
  (** message_bus.h: 171-181, 199-207: the loops that deliver *)
  Fixpoint deliver (l : list nat) (m : nat) : list event :=
    match l with [] => [] | a :: r => (if accepts (obj a) m then recv (obj a) m else []) ++ deliver r m end.
  (** message_bus.h: 216-222 *)
  Fixpoint deliver_to (l : list nat) (d m : nat) : list event :=
    match l with [] => [] | a :: r => recv_to (obj a) d m ++ deliver_to r d m end.
  (** message_bus.h: 159-234, 238-312 *)
  Definition bus_receive (l : list nat) (d m : nat) : option (list event) :=
    match (if Nat.eqb d 253 then Some (deliver l m)
           else match lower_id l d, upper_id l d, lower_id l 254 with
                | Some i, Some j, Some k => Some (deliver (firstn (j - i) (skipn i l)) m ++ deliver_to (skipn k l) d m)
                | _, _, _ => None
                end) with
    | Some t => Some (t ++ match succ with Some r => if accepts r m then recv_to r d m else [] | None => [] end)
    | None => None
    end.
  (** message_bus.h: 320-347 *)
  Definition bus_accepts (l : list nat) (m : nat) : bool :=
    existsb (fun a => accepts (obj a) m) l || match succ with Some r => accepts r m | None => false end.
  (** message_bus.h: 147-150, 350-359 *)
  Definition bus_op (o : bop) (l : list nat) : option (bres * list nat) :=
    match o with
    | Bsubscribe a => bus_subscribe a l
    | BunsubscribeId d => match bus_unsubscribe_id d l with Some l => Some (Bunit, l) | None => None end
    | BunsubscribeRouter a => Some (Bunit, bus_unsubscribe_router a l)
    | Bclear => Some (Bunit, [])
    | Bsize => Some (Bn (length l), l)
    | Baccepts m => Some (Bb (bus_accepts l m), l)
    | Bsend m => match bus_receive l 253 m with Some t => Some (Bevents t, l) | None => None end
    | BsendTo d m => match bus_receive l d m with Some t => Some (Bevents t, l) | None => None end
    end.
  Fixpoint bus_ops (os : list bop) (l : list nat) : option (list bres * list nat) :=
    match os with
    | [] => Some ([], l)
    | o :: r => match bus_op o l with Some (x, l) => match bus_ops r l with Some (xs, l) => Some (x :: xs, l) | None => None end | None => None end
    end.
  (** message_bus.h: 75-76, 376-399, 423-448: the bus seen as a router (id MESSAGE_BUS) *)
  Definition bus_router (l : list nat) : router :=
    let rt d m := match bus_receive l d m with Some t => t | None => [] end in
    {| rid := 254; consumer := true; accepts := bus_accepts l; recv := rt 253; recv_to := rt |}.
End Bus.

Section Broker.
  Variable obj : nat -> router.
  Variable succ : option router.
  Variables (srouter : nat -> nat) (sids : nat -> list nat).
  (** message_broker.h: 51-92, 386: the head node and the next pointer of every subscription object *)
  Record broker : Type := { hnext : option nat; snext : nat -> option nat }.
  (** a node pointer that is not null: [None] is &head *)
  Definition get_next (b : broker) (p : option nat) : option nat := match p with None => hnext b | Some s => snext b s end.
  Definition set_next (b : broker) (p : option nat) (q : option nat) : broker :=
    match p with None => {| hnext := q; snext := snext b |} | Some s => {| hnext := hnext b; snext := fun t => if Nat.eqb t s then q else snext b t |} end.
  (** message_broker.h: 82-90 *)
  Definition append (b : broker) (p : option nat) (sub : nat) : broker :=
    let b := set_next b (Some sub) (get_next b p) in set_next b p (Some sub).
  (** message_broker.h: 354-384; [fuel] bounds the walk *)
  Fixpoint walk (fuel : nat) (b : broker) (target : nat) (p_sub p_prev : option nat) : option (broker * option nat) :=
    match fuel, p_sub with
    | 0, _ => None
    | S f, Some s =>
      if Nat.eqb (srouter s) target
      then let b := set_next b p_prev (get_next b (Some s)) in
           let b := set_next b (Some s) None in Some (b, p_prev)
      else walk f b target (get_next b (Some s)) (get_next b p_prev)
    | S f, None => Some (b, p_prev)
    end.
  Definition initialise_insertion_point (fuel : nat) (b : broker) (target : nat) (p_new : option nat) : option broker :=
    match walk fuel b target (hnext b) None with
    | Some (b, p_prev) => match p_new with Some s => Some (append b p_prev s) | None => Some b end
    | None => None
    end.
  (** message_broker.h: 205-226 *)
  Fixpoint broker_loop (fuel : nat) (b : broker) (d m : nat) (sub : option nat) : option (list event) :=
    match fuel, sub with
    | 0, _ => None
    | S f, Some s =>
      let t := if existsb (Nat.eqb m) (sids s)
               then if Nat.eqb d 253 || Nat.eqb d (rid (obj (srouter s))) then recv (obj (srouter s)) m else []
               else [] in
      match broker_loop f b d m (snext b s) with Some r => Some (t ++ r) | None => None end
    | S f, None => Some []
    end.
  (** message_broker.h: 197-233, 236-272 *)
  Definition broker_receive (fuel : nat) (b : broker) (d m : nat) : option (list event) :=
    match (if negb (match hnext b with None => true | _ => false end) then broker_loop fuel b d m (hnext b) else Some []) with
    | Some t => Some (t ++ match succ with Some r => recv_to r d m | None => [] end)
    | None => None
    end.
  (** message_broker.h: 285-305 *)
  Fixpoint accepts_loop (fuel : nat) (b : broker) (m : nat) (sub : option nat) : option bool :=
    match fuel, sub with
    | 0, _ => None
    | S f, Some s => if existsb (Nat.eqb m) (sids s) && accepts (obj (srouter s)) m then Some true else accepts_loop f b m (snext b s)
    | S f, None => Some false
    end.
  (** message_broker.h: 280-317 *)
  Definition broker_accepts (fuel : nat) (b : broker) (m : nat) : option bool :=
    match (if negb (match hnext b with None => true | _ => false end) then accepts_loop fuel b m (hnext b) else Some false) with
    | Some true => Some true
    | Some false => Some (match succ with Some r => accepts r m | None => false end)
    | None => None
    end.
  (** message_broker.h: 174-194, 322-325, 346-349 *)
  Definition broker_op (fuel : nat) (o : kop) (b : broker) : option (kres * broker) :=
    match o with
    | Ksubscribe s => match initialise_insertion_point fuel b (srouter s) (Some s) with Some b => Some (Kunit, b) | None => None end
    | Kunsubscribe a => match initialise_insertion_point fuel b a None with Some b => Some (Kunit, b) | None => None end
    | Kclear => Some (Kunit, set_next b None None)
    | Kempty => Some (Kb (match hnext b with None => true | _ => false end), b)
    | Kaccepts m => match broker_accepts fuel b m with Some x => Some (Kb x, b) | None => None end
    | Ksend m => match broker_receive fuel b 253 m with Some t => Some (Kevents t, b) | None => None end
    | KsendTo d m => match broker_receive fuel b d m with Some t => Some (Kevents t, b) | None => None end
    end.
  Fixpoint broker_ops (fuel : nat) (os : list kop) (b : broker) : option (list kres * broker) :=
    match os with
    | [] => Some ([], b)
    | o :: r => match broker_op fuel o b with Some (x, b) => match broker_ops fuel r b with Some (xs, b) => Some (x :: xs, b) | None => None end | None => None end
    end.
End Broker.
