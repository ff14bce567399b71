(** * Model of etl::queue / etl::iqueue  (include/etl/queue.h)
    size_type indices are [nat]: line 621 statically asserts SIZE <= max(size_type),
    so no index or count can wrap.
    Not modelled: the CPP03 emplace overloads (358-441, same bodies), move
    construction as opposed to copy construction. *)
From Coq Require Import List Arith Bool String.
From Verif Require Import Slots Cmd.
Import ListNotations.

Section Queue.
  Variable T : Type.
  Variable triv : bool.       (* etl::is_trivially_destructible<T>::value *)
  Variable check : bool.      (* ETL_CHECK_PUSH_POP defined *)

  (** queue.h: 223-226, 583 *)
  Record queue := mkq { qin : nat; qout : nat; current_size : nat; CAPACITY : nat; p_buffer : buf T }.

  (** queue.h: 170-176, 628-631 *)
  Definition make (n : nat) : queue := mkq 0 0 0 n (raw n).

  (** queue.h: 117-163 *)
  Definition size (q : queue) := current_size q.
  Definition empty (q : queue) := Nat.eqb (current_size q) 0.
  Definition full (q : queue) := Nat.eqb (current_size q) (CAPACITY q).
  Definition available (q : queue) := CAPACITY q - size q.

  (** queue.h: 188-197 *)
  Definition add_in (q : queue) : queue :=
    let i := S (qin q) in
    mkq (if Nat.eqb i (CAPACITY q) then 0 else i) (qout q) (S (current_size q)) (CAPACITY q) (p_buffer q).
  (** queue.h: 202-210 *)
  Definition del_out (q : queue) : queue :=
    let i := S (qout q) in
    mkq (qin q) (if Nat.eqb i (CAPACITY q) then 0 else i) (current_size q - 1) (CAPACITY q) (p_buffer q).
  (** queue.h: 215-221 *)
  Definition index_clear (q : queue) : queue := mkq 0 0 0 (CAPACITY q) (p_buffer q).
  Definition set_buffer (q : queue) (b : buf T) : queue :=
    mkq (qin q) (qout q) (current_size q) (CAPACITY q) b.

  (** queue.h: 274-286 *)
  Definition front : Cmd queue T := let! q := state in lift (get (p_buffer q) (qout q)).
  (** queue.h: 292-304 *)
  Definition back : Cmd queue T :=
    let! q := state in
    lift (get (p_buffer q) (if Nat.eqb (qin q) 0 then CAPACITY q - 1 else qin q - 1)).

  (** queue.h: 311-318 (const&), 326-333 (&&), 342-352 (emplace) *)
  Definition push (x : T) : Cmd queue unit :=
    let! q := state in
    (if check then assert_ (negb (full q)) "queue_full" else ret tt) ;;
    let! b := lift (construct triv (p_buffer q) (qin q) x) in
    set (add_in (set_buffer q b)).

  (** queue.h: 471-478 *)
  Definition pop : Cmd queue unit :=
    let! q := state in
    (if check then assert_ (negb (empty q)) "queue_empty" else ret tt) ;;
    let! b := lift (destroy triv (p_buffer q) (qout q)) in
    set (del_out (set_buffer q b)).

  (** queue.h: 484-488 pop_into(reference) *)
  Definition pop_into : Cmd queue T := let! x := front in pop ;; ret x.

  (** queue.h: 447-464; the loop [while (current_size > 0)] runs current_size times *)
  Fixpoint clear_loop (n : nat) : Cmd queue unit :=
    match n with
    | 0 => ret tt
    | S n =>
        let! q := state in
        let! b := lift (destroy triv (p_buffer q) (qout q)) in
        set (del_out (set_buffer q b)) ;; clear_loop n
    end.
  Definition clear : Cmd queue unit :=
    let! q := state in
    if triv then set (index_clear q)
    else clear_loop (current_size q) ;;
         modify (fun q => mkq 0 0 (current_size q) (CAPACITY q) (p_buffer q)).

  (** queue.h: 538-549 clone (and 555-566 move_clone) from [other]; note line 547: the index
      into [other] wraps at THIS queue's CAPACITY *)
  Fixpoint clone_loop (other : queue) (n : nat) (index : nat) : Cmd queue unit :=
    match n with
    | 0 => ret tt
    | S n =>
        let! q := state in
        let! x := lift (get (p_buffer other) index) in
        push x ;;
        clone_loop other n (if Nat.eqb index (CAPACITY q - 1) then 0 else S index)
    end.
  (** queue.h: 506-515, 664-672 operator= from a different object *)
  Definition assign_from (other : queue) : Cmd queue unit :=
    clear ;; clone_loop other (size other) (qout other).

  Inductive op := Push (x : T) | Pop | PopInto | Front | Back | Clear | Size | Empty | Full | Available.
  Inductive res := RUnit | RVal (x : T) | RNat (n : nat) | RBool (b : bool).

  Definition exec (o : op) : Cmd queue res :=
    match o with
    | Push x => push x ;; ret RUnit
    | Pop => pop ;; ret RUnit
    | PopInto => let! x := pop_into in ret (RVal x)
    | Front => let! x := front in ret (RVal x)
    | Back => let! x := back in ret (RVal x)
    | Clear => clear ;; ret RUnit
    | Size => let! q := state in ret (RNat (size q))
    | Empty => let! q := state in ret (RBool (empty q))
    | Full => let! q := state in ret (RBool (full q))
    | Available => let! q := state in ret (RNat (available q))
    end.
End Queue.
Arguments Push {T}. Arguments Pop {T}. Arguments PopInto {T}. Arguments Front {T}. Arguments Back {T}.
Arguments Clear {T}. Arguments Size {T}. Arguments Empty {T}. Arguments Full {T}. Arguments Available {T}.
Arguments RUnit {T}. Arguments RVal {T}. Arguments RNat {T}. Arguments RBool {T}.
Arguments mkq {T}. Arguments qin {T}. Arguments qout {T}. Arguments current_size {T}. Arguments CAPACITY {T}. Arguments p_buffer {T}.
Arguments make {T}.
