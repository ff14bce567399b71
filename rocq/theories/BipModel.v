(** * Model of etl::bip_buffer_spsc_atomic  (include/etl/bip_buffer_spsc_atomic.h)

    One thread ([Prod]) reserves, fills and commits spans for writing, the other ([Cons]) reserves, uses and commits spans
    for reading, on the memory machine of RA.v: every atomic load or store and every access to an element is one step.
    A client of the buffer is one operation:
    - [BWrite q d]: write_reserve / write_reserve_optimal gives the span of offset [i] and size [n]; the client constructs the
      elements [firstn n (d i n)] at its start and commits exactly these (nothing when the list is empty).
    - [BRead m k]: read_reserve(m) gives (i, n); the client reads and destroys the first [k i n] elements (at most [n]) and
      commits these.
    - [BPeek m]: read_reserve(m), the client reads all of the span and commits nothing.
    clear() (lines 447-460) destroys what it reads before it commits; so do the clients here.
    [MAX] is the largest value of size_type; [promoted] says that size_type is narrower than int, so that sums do not wrap.
    A difference that would be negative wraps.  The check failures of lines 270, 275, 283, 333 throw (the exception
    configuration) and are the result [RError].  Not modelled: clear() (its reset() needs both threads to stop). *)
From Coq Require Import List Arith Bool.
From Verif Require Import RA.
Import ListNotations.

Section Bip.
  Variable T : Type.
  Variable MAX : nat.
  Variable promoted : bool.
  Variable Reserved : nat.          (** line 344; at most MAX by the static assertion of line 509 *)

  (** lines 341-343: the atomics *)
  Definition Wr : nat := 0.
  Definition Rd : nat := 1.
  Definition La : nat := 2.

  Inductive req := Reserve (max_reserve_size : nat) | Optimal (min_reserve_size : nat).
  Inductive op :=
  | BWrite (q : req) (d : nat -> nat -> list T)
  | BRead (max_reserve_size : nat) (k : nat -> nat -> nat)
  | BPeek (max_reserve_size : nat)
  | BSize | BAvailable | BEmpty | BFull.
  Inductive res :=
  | RWrite (i n : nat) (xs : list T)      (** the span and the committed elements *)
  | RRead (i n : nat) (xs : list T)       (** the span and the elements read and committed *)
  | RPeek (i n : nat) (xs : list T)
  | RNat (n : nat) | RBool (b : bool) | RError.

  Definition add (a b : nat) : nat := if promoted then a + b else (a + b) mod (S MAX).
  Definition sub (a b : nat) : nat := if b <=? a then a - b else S MAX + a - b.

  Notation prg := (prog T res).

  (** lines 204-257: the part of get_write_reserve behind its two loads: (offset, size) *)
  Definition write_span (w r psize fallback : nat) : nat * nat :=
    if r <=? w then
      let forward := sub Reserved w in
      if psize <=? forward then (w, psize)
      else if (r <=? add forward 1) || (fallback <=? forward) then (w, forward)
      else (0, if r <=? psize then (if 0 <? r then sub r 1 else 0) else psize)
    else (w, if r <=? add w psize then sub (sub r w) 1 else psize).
  (** lines 204-207, 413-431 *)
  Definition get_write_reserve (q : req) (k : nat -> nat -> prg) : prg :=
    Load Wr Rlx (fun w => Load Rd Acq (fun r =>
    let '(i, n) := match q with
                   | Reserve m => write_span w r m MAX
                   | Optimal m => write_span w r MAX m
                   end in k i n)).
  (** lines 260-289, 438-442 *)
  Definition apply_write_reserve (i n : nat) (ok : prg) : prg :=
    if 0 <? n then
      Load Wr Rlx (fun w => Load Rd Acq (fun r =>
      if w <? r then
        if Nat.eqb i w && (add n 1 <=? r) then Store Wr (add i n) Rel ok else Ret RError
      else if Nat.eqb i w then
        if n <=? sub Reserved w then Store La (add i n) Rel (Store Wr (add i n) Rel ok) else Ret RError
      else
        if Nat.eqb i 0 && (add n 1 <=? r) then Store Wr (add i n) Rel ok else Ret RError))
    else ok.
  (** lines 292-325 *)
  Definition get_read_reserve (psize : nat) (k : nat -> nat -> prg) : prg :=
    Load Rd Rlx (fun r => Load Wr Acq (fun w =>
    let finish := fun r w => k r (if sub w r <? psize then sub w r else psize) in
    if w <? r then
      Load La Rlx (fun l => if Nat.eqb r l then finish 0 w else finish r l)
    else finish r w)).
  (** lines 328-337, 404-408 *)
  Definition apply_read_reserve (i n : nat) (ok : prg) : prg :=
    if 0 <? n then
      get_read_reserve n (fun i' n' =>
      if Nat.eqb i i' && Nat.eqb n n' then Store Rd (add i n) Rel ok else Ret RError)
    else ok.
  (** the client *)
  Fixpoint fill (i : nat) (xs : list T) (k : prg) : prg :=
    match xs with [] => k | x :: r => Construct i x (fill (S i) r k) end.
  Fixpoint take (i n : nat) (got : list T) (k : list T -> prg) : prg :=
    match n with 0 => k got | S n => Get i (fun x => Destroy i (take (S i) n (got ++ [x]) k)) end.
  Fixpoint look (i n : nat) (got : list T) (k : list T -> prg) : prg :=
    match n with 0 => k got | S n => Get i (fun x => look (S i) n (got ++ [x]) k) end.

  (** lines 117-135 size() *)
  Definition size (k : nat -> prg) : prg :=
    Load Wr Acq (fun w => Load Rd Acq (fun r =>
    if r <=? w then k (sub w r)
    else Load La Acq (fun l => k (add w (sub l r))))).
  (** lines 140-164 available() *)
  Definition available (k : nat -> prg) : prg :=
    Load Wr Acq (fun w => Load Rd Acq (fun r =>
    if r <=? w then
      let forward := sub Reserved w in
      if add forward 1 <? r then k (sub r 1) else k forward
    else k (sub (sub r w) 1))).

  Definition code (o : op) : prg :=
    match o with
    | BWrite q d =>
        get_write_reserve q (fun i n =>
        let xs := firstn n (d i n) in
        fill i xs (apply_write_reserve i (length xs) (Ret (RWrite i n xs))))
    | BRead m c =>
        get_read_reserve m (fun i n =>
        take i (Nat.min (c i n) n) [] (fun xs =>
        apply_read_reserve i (length xs) (Ret (RRead i n xs))))
    | BPeek m => get_read_reserve m (fun i n => look i n [] (fun xs => Ret (RPeek i n xs)))
    | BSize => size (fun n => Ret (RNat n))
    | BAvailable => available (fun n => Ret (RNat n))
    | BEmpty => size (fun n => Ret (RBool (Nat.eqb n 0)))              (* 100-103 *)
    | BFull => available (fun n => Ret (RBool (Nat.eqb n 0)))          (* 108-111 *)
    end.

  (** One writer thread, one reader thread; queries from either. *)
  Definition role (t : tid) (o : op) : bool :=
    match o, t with
    | BWrite _ _, Prod => true
    | (BRead _ _ | BPeek _), Cons => true
    | (BSize | BAvailable | BEmpty | BFull), _ => true
    | _, _ => false
    end.
  (** requests whose sum with an index cannot wrap: any request when size_type is narrower than int, otherwise a size that
      leaves room for the capacity below the maximum of size_type (so not write_reserve_optimal, which asks for MAX) *)
  Definition modest (o : op) : bool :=
    match o with
    | BWrite q _ => promoted || match q with Reserve m => m + Reserved <=? MAX | Optimal _ => false end
    | _ => true
    end.
  Definition exec_all (acts : list (act op)) : outcome (sys T op res) :=
    run code (fun t o => role t o && modest o) (init_sys Reserved) acts.
  (** the same without the restriction on requests *)
  Definition exec_any (acts : list (act op)) : outcome (sys T op res) := run code role (init_sys Reserved) acts.
End Bip.
Arguments BWrite {T}. Arguments BRead {T}. Arguments BPeek {T}. Arguments BSize {T}. Arguments BAvailable {T}. Arguments BEmpty {T}. Arguments BFull {T}.
Arguments RWrite {T}. Arguments RRead {T}. Arguments RPeek {T}. Arguments RNat {T}. Arguments RBool {T}. Arguments RError {T}.
