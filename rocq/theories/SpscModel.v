(** * Model of etl::queue_spsc_atomic  (include/etl/queue_spsc_atomic.h)

    One thread ([Prod]) pushes, one thread ([Cons]) pops.  Each atomic load or
    store and each access to the element buffer is one step of the machine of
    RA.v.  Indices are [nat]: queue_spsc_atomic.h:541 statically asserts
    Size <= max(size_type) - 1, so Reserved = Size + 1 and every index
    (<= Reserved) fit the size type and no index computation wraps.

    Not modelled: the CPP03 emplace overloads (identical bodies, lines 272-392),
    move versus copy construction of T (a value is a value here; pop moves out
    and then destroys, lines 424-430, which is [Get] followed by [Destroy]),
    exceptions thrown by T's constructors, and clear() (lines 483-489) which is
    literally a client loop [while (pop())] of the modelled pop(). *)
From Coq Require Import List Arith Lia Bool.
From Verif Require Import RA.
Import ListNotations.

Section Spsc.
  Variable T : Type.

  (** lines 152-153: the two atomics *)
  Definition Wr : nat := 0.    (* etl::atomic<size_type> write *)
  Definition Rd : nat := 1.    (* etl::atomic<size_type> read  *)

  Inductive op :=
  | Push (x : T)       (* push(const_reference), push(rvalue_reference), emplace(...) *)
  | Pop                (* pop(reference) *)
  | PopDiscard         (* pop() *)
  | Front              (* front(reference) *)
  | FrontRef           (* if (!empty()) front()  -- the documented way to use front() *)
  | Empty | Full | Size | Available.

  Inductive res :=
  | RBool (b : bool) | RVal (v : option T) | RNat (n : nat).

  Variable Reserved : nat.      (* line 154 *)

  (** lines 139-150: get_next_index *)
  Definition get_next_index (index maximum : nat) : nat :=
    let index := S index in if Nat.eqb index maximum then 0 else index.

  Notation prg := (prog T res).

  (** lines 209-224 (push const&), 231-246 (push &&), 255-270 (emplace) *)
  Definition push (x : T) : prg :=
    Load Wr Rlx (fun write_index =>
    let next_index := get_next_index write_index Reserved in
    Load Rd Acq (fun read_index =>
    if negb (Nat.eqb next_index read_index) then
      Construct write_index x
      (Store Wr next_index Rel
      (Ret (RBool true)))
    else Ret (RBool false))).

  (** lines 411-436 : pop(reference value) *)
  Definition pop : prg :=
    Load Rd Rlx (fun read_index =>
    Load Wr Acq (fun write_index =>
    if Nat.eqb read_index write_index then Ret (RVal None)
    else
      let next_index := get_next_index read_index Reserved in
      Get read_index (fun value =>
      Destroy read_index
      (Store Rd next_index Rel
      (Ret (RVal (Some value))))))).

  (** lines 439-455 : pop() *)
  Definition pop_discard : prg :=
    Load Rd Rlx (fun read_index =>
    Load Wr Acq (fun write_index =>
    if Nat.eqb read_index write_index then Ret (RBool false)
    else
      let next_index := get_next_index read_index Reserved in
      Destroy read_index
      (Store Rd next_index Rel
      (Ret (RBool true))))).

  (** lines 394-408 : front(reference value) *)
  Definition front : prg :=
    Load Rd Rlx (fun read_index =>
    Load Wr Acq (fun write_index =>
    if Nat.eqb read_index write_index then Ret (RVal None)
    else Get read_index (fun value => Ret (RVal (Some value))))).

  (** lines 63-66 : empty()  (operands evaluated left to right) *)
  Definition empty (k : bool -> prg) : prg :=
    Load Rd Acq (fun read_index => Load Wr Acq (fun write_index =>
    k (Nat.eqb read_index write_index))).

  (** lines 460-476 : front(), guarded by the caller with empty() *)
  Definition front_ref : prg :=
    empty (fun e => if e then Ret (RVal None)
                    else Load Rd Rlx (fun read_index =>
                         Get read_index (fun value => Ret (RVal (Some value))))).

  (** lines 73-78 : full() *)
  Definition full : prg :=
    Load Wr Acq (fun w => let next_index := get_next_index w Reserved in
    Load Rd Acq (fun r => Ret (RBool (Nat.eqb next_index r)))).

  (** lines 84-101 : size() *)
  Definition size (k : nat -> prg) : prg :=
    Load Wr Acq (fun write_index => Load Rd Acq (fun read_index =>
    k (if Nat.leb read_index write_index then write_index - read_index
       else Reserved - read_index + write_index))).

  Definition code (o : op) : prg :=
    match o with
    | Push x => push x
    | Pop => pop
    | PopDiscard => pop_discard
    | Front => front
    | FrontRef => front_ref
    | Empty => empty (fun b => Ret (RBool b))
    | Full => full
    | Size => size (fun n => Ret (RNat n))
    | Available => size (fun n => Ret (RNat (Reserved - n - 1)))     (* lines 107-110 *)
    end.

  (** The usage contract: pushes from one thread, pops from the other;
      queries from either. *)
  Definition allowed (t : tid) (o : op) : bool :=
    match o, t with
    | Push _, Prod => true
    | (Pop | PopDiscard | Front | FrontRef), Cons => true
    | (Empty | Full | Size | Available), _ => true
    | _, _ => false
    end.

  (** lines 113-126: capacity(), max_size(); Reserved_Size = Size + 1, line 537 *)
  Definition capacity : nat := Reserved - 1.

  Definition exec_all (acts : list (act op)) : outcome (sys T op res) :=
    run code allowed (init_sys Reserved) acts.

End Spsc.
Arguments Push {T}. Arguments Pop {T}. Arguments PopDiscard {T}. Arguments Front {T}.
Arguments FrontRef {T}. Arguments Empty {T}. Arguments Full {T}. Arguments Size {T}. Arguments Available {T}.
Arguments RBool {T}. Arguments RVal {T}. Arguments RNat {T}.
