(** * Model of etl::circular_buffer / icircular_buffer (include/etl/circular_buffer.h)
    size_type is size_t and buffer_size = MAX_SIZE + 1 objects exist in memory,
    so the index sums (current + index, buffer_size + n) are modelled in [nat]
    without wrap.  Not modelled: repair() (1230-1239), move versus copy. *)
From Coq Require Import List Arith Bool String ZArith.
From Verif Require Import Slots Cmd.
Import ListNotations.

Section Circ.
  Variable T : Type.
  Variable triv : bool.       (* etl::is_trivially_destructible<T>::value *)

  (** circular_buffer.h: 170-172, 1088 *)
  Record circ := mkc { buffer_size : nat; cin : nat; cout : nat; pbuffer : buf T }.

  (** circular_buffer.h: 143-148, 1042-1046, 1124-1127 *)
  Definition make (max_length : nat) : circ :=
    mkc (max_length + 1) 0 0 (raw (max_length + 1)).

  (** circular_buffer.h: 97-100 *)
  Definition size (c : circ) : nat :=
    if cout c <=? cin c then cin c - cout c else buffer_size c - (cout c - cin c).
  (** circular_buffer.h: 103-106 *)
  Definition empty (c : circ) : bool := Nat.eqb (cin c) (cout c).
  Definition wrap_inc (n i : nat) : nat := if Nat.eqb (S i) n then 0 else S i.
  (** circular_buffer.h: 109-120 *)
  Definition full (c : circ) : bool := Nat.eqb (wrap_inc (buffer_size c) (cin c)) (cout c).
  (** circular_buffer.h: 123-138 *)
  Definition max_size (c : circ) : nat := buffer_size c - 1.
  Definition available (c : circ) : nat := max_size c - size c.
  (** circular_buffer.h: 151-168 *)
  Definition increment_in (c : circ) : circ := mkc (buffer_size c) (wrap_inc (buffer_size c) (cin c)) (cout c) (pbuffer c).
  Definition increment_out (c : circ) : circ := mkc (buffer_size c) (cin c) (wrap_inc (buffer_size c) (cout c)) (pbuffer c).
  Definition set_buffer (c : circ) (b : buf T) : circ := mkc (buffer_size c) (cin c) (cout c) b.

  (** circular_buffer.h: 846-862 *)
  Definition front : Cmd circ T :=
    let! c := state in assert_ (negb (empty c)) "circular_buffer_empty" ;; lift (get (pbuffer c) (cout c)).
  (** circular_buffer.h: 868-884 *)
  Definition back : Cmd circ T :=
    let! c := state in assert_ (negb (empty c)) "circular_buffer_empty" ;;
    lift (get (pbuffer c) (if Nat.eqb (cin c) 0 then buffer_size c - 1 else cin c - 1)).
  (** circular_buffer.h: 889-901 *)
  Definition at_ (index : nat) : Cmd circ T :=
    let! c := state in lift (get (pbuffer c) ((cout c + index) mod buffer_size c)).

  (** circular_buffer.h: 908-924, 932-948 *)
  Definition push (x : T) : Cmd circ unit :=
    let! c := state in
    let! b := lift (construct triv (pbuffer c) (cin c) x) in
    let c := increment_in (set_buffer c b) in
    if Nat.eqb (cin c) (cout c) then
      let! b := lift (destroy triv (pbuffer c) (cout c)) in
      set (increment_out (set_buffer c b))
    else set c.

  (** circular_buffer.h: 954-962 push(first, last) *)
  Fixpoint push_range (l : list T) : Cmd circ unit :=
    match l with [] => ret tt | x :: r => push x ;; push_range r end.

  (** circular_buffer.h: 967-973 *)
  Definition pop : Cmd circ unit :=
    let! c := state in assert_ (negb (empty c)) "circular_buffer_empty" ;;
    let! b := lift (destroy triv (pbuffer c) (cout c)) in
    set (increment_out (set_buffer c b)).
  (** circular_buffer.h: 978-984 *)
  Fixpoint pop_n (n : nat) : Cmd circ unit :=
    match n with 0 => ret tt | S n => pop ;; pop_n n end.

  (** circular_buffer.h: 989-1004; the loop [while (!empty()) pop()] with fuel *)
  Fixpoint clear_loop (fuel : nat) : Cmd circ unit :=
    let! c := state in
    if empty c then ret tt
    else match fuel with 0 => (fun _ => Bad) | S f => pop ;; clear_loop f end.
  Definition clear : Cmd circ unit :=
    if triv then modify (fun c => mkc (buffer_size c) 0 0 (pbuffer c))
    else let! c := state in clear_loop (buffer_size c).

  (** Iteration [for (it = begin(); it != end(); ++it) use *it] : begin() is out
      (749-768), end() is in (773-792), ++ is 268-279, != compares [current] (381-392). *)
  Fixpoint iterate (fuel : nat) (c : circ) (current : nat) : M (list T) :=
    if Nat.eqb current (cin c) then V []
    else match fuel with
         | 0 => UB
         | S f => let* x := get (pbuffer c) current in
                  let* l := iterate f c (wrap_inc (buffer_size c) current) in V (x :: l)
         end.
  Definition contents : Cmd circ (list T) := let! c := state in lift (iterate (buffer_size c) c (cout c)).
  (** reverse iteration: etl::reverse_iterator over -- (296-309) *)
  Definition wrap_dec (n i : nat) : nat := if Nat.eqb i 0 then n - 1 else i - 1.
  Fixpoint riterate (fuel : nat) (c : circ) (current : nat) : M (list T) :=
    if Nat.eqb current (cout c) then V []
    else match fuel with
         | 0 => UB
         | S f => let p := wrap_dec (buffer_size c) current in
                  let* x := get (pbuffer c) p in
                  let* l := riterate f c p in V (x :: l)
         end.
  Definition rcontents : Cmd circ (list T) := let! c := state in lift (riterate (buffer_size c) c (cin c)).

  (** circular_buffer.h: 1009-1012 fill: etl::fill over begin..end *)
  Fixpoint fill_loop (fuel : nat) (current : nat) (x : T) : Cmd circ unit :=
    let! c := state in
    if Nat.eqb current (cin c) then ret tt
    else match fuel with
         | 0 => (fun _ => Bad)
         | S f => let! b := lift (put (pbuffer c) current x) in
                  set (set_buffer c b) ;; fill_loop f (wrap_inc (buffer_size c) current) x
         end.
  Definition fill (x : T) : Cmd circ unit :=
    let! c := state in fill_loop (buffer_size c) (cout c) x.

  (** circular_buffer.h: 1170-1179 operator= from another buffer (of any size for
      circular_buffer_ext): clear(), then push(other.begin(), other.end()) *)
  Definition assign_from (other : circ) : Cmd circ unit :=
    clear ;; let! l := lift (iterate (buffer_size other) other (cout other)) in push_range l.

  (** ** iterator arithmetic: an iterator is its [current] index *)
  (** circular_buffer.h: 326-332 operator +=(int n); (-n is 337-340) *)
  Definition it_advance (c : circ) (current : nat) (n : Z) : nat :=
    Z.to_nat ((Z.of_nat current + (Z.of_nat (buffer_size c) + n)) mod Z.of_nat (buffer_size c)).
  (** circular_buffer.h: 1064-1078 distance(it) from begin *)
  Definition it_index (c : circ) (current : nat) : Z :=
    if current <? cout c then Z.of_nat (buffer_size c) + Z.of_nat current - Z.of_nat (cout c)
    else Z.of_nat current - Z.of_nat (cout c).
  (** circular_buffer.h: 1024-1035, 1052-1058: operator - *)
  Definition it_minus (c : circ) (lhs rhs : nat) : Z := it_index c lhs - it_index c rhs.
  (** circular_buffer.h: 395-406 operator < *)
  Definition it_lt (c : circ) (lhs rhs : nat) : bool := Z.ltb (it_index c lhs) (it_index c rhs).

  Inductive op := Push (x : T) | PushRange (l : list T) | Pop | PopN (n : nat) | Front | Back | At (i : nat)
    | Clear | Fill (x : T) | Contents | RContents | Size | Empty | Full | Available.
  Inductive res := RUnit | RVal (x : T) | RNat (n : nat) | RBool (b : bool) | RList (l : list T).

  Definition exec (o : op) : Cmd circ res :=
    match o with
    | Push x => push x ;; ret RUnit
    | PushRange l => push_range l ;; ret RUnit
    | Pop => pop ;; ret RUnit
    | PopN n => pop_n n ;; ret RUnit
    | Front => let! x := front in ret (RVal x)
    | Back => let! x := back in ret (RVal x)
    | At i => let! x := at_ i in ret (RVal x)
    | Clear => clear ;; ret RUnit
    | Fill x => fill x ;; ret RUnit
    | Contents => let! l := contents in ret (RList l)
    | RContents => let! l := rcontents in ret (RList l)
    | Size => let! c := state in ret (RNat (size c))
    | Empty => let! c := state in ret (RBool (empty c))
    | Full => let! c := state in ret (RBool (full c))
    | Available => let! c := state in ret (RNat (available c))
    end.
End Circ.
Arguments Push {T}. Arguments PushRange {T}. Arguments Pop {T}. Arguments PopN {T}. Arguments Front {T}. Arguments Back {T}.
Arguments At {T}. Arguments Clear {T}. Arguments Fill {T}. Arguments Contents {T}. Arguments RContents {T}.
Arguments Size {T}. Arguments Empty {T}. Arguments Full {T}. Arguments Available {T}.
Arguments RUnit {T}. Arguments RVal {T}. Arguments RNat {T}. Arguments RBool {T}. Arguments RList {T}.
Arguments mkc {T}. Arguments buffer_size {T}. Arguments cin {T}. Arguments cout {T}. Arguments pbuffer {T}.
Arguments make {T}.
