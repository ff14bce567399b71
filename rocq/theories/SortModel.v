(** * Model of the heap, rotate and sort functions of algorithm.h.

    A range [first, last) is the list of its elements; a position in it is an index.
    [None] is an access outside the range, or a loop that has not ended after [fuel]
    turns (the callers pass a fuel; the theorems show that it is enough, so [None] never
    stands for a loop that would end).  Moving an element is modelled as copying it
    (the moved-from element is never looked at before it is overwritten).
    [compare] is a function without side effects. *)
From Coq Require Import List Arith Bool.
From Verif Require Import Util Slots.
Import ListNotations.

Definition obind {A B} (m : option A) (f : A -> option B) : option B := match m with Some a => f a | None => None end.
Notation "'do' p <- m ; k" := (obind m (fun p => k)) (at level 200, p pattern, m at level 100, k at level 200).

Section Arrays.
  Context {A : Type}.
  (** first[i], and first[i] = x *)
  Definition rd (l : list A) (i : nat) : option A := nth_error l i.
  Definition wr (l : list A) (i : nat) (x : A) : option (list A) := if Nat.ltb i (List.length l) then Some (upd l i x) else None.
  (** a callee that is given the sub-range [b, e) *)
  Definition window {R} (l : list A) (b e : nat) (f : list A -> option (list A * R)) : option (list A * R) :=
    if Nat.leb b e && Nat.leb e (List.length l)
    then do (w, r) <- f (firstn (e - b) (skipn b l)); Some (firstn b l ++ w ++ skipn e l, r)
    else None.
End Arrays.

Section Sorts.
  Context {A : Type}.
  Variable compare : A -> A -> bool.

  (** algorithm.h: 924-938.  (0 - 1) / 2 is 0 in C++ as it is here *)
  Fixpoint heap_up (fuel : nat) (l : list A) (value_index top_index : nat) (value : A) : option (list A) :=
    match fuel with
    | 0 => None
    | S f =>
        let parent := (value_index - 1) / 2 in
        if Nat.ltb top_index value_index
        then do p <- rd l parent;
             if compare p value then do l <- wr l value_index p; heap_up f l parent top_index value
             else wr l value_index value
        else wr l value_index value
    end.
  (** algorithm.h: 940-966 *)
  Fixpoint heap_down (fuel : nat) (l : list A) (value_index child2nd length : nat) : option (list A * nat * nat) :=
    match fuel with
    | 0 => None
    | S f =>
        if Nat.ltb child2nd length
        then do a <- rd l child2nd; do b <- rd l (child2nd - 1);
             let c := if compare a b then child2nd - 1 else child2nd in
             do x <- rd l c; do l <- wr l value_index x; heap_down f l c (2 * (c + 1)) length
        else Some (l, value_index, child2nd)
    end.
  Definition adjust_heap (l : list A) (value_index length : nat) (value : A) : option (list A) :=
    do (l, h, child2nd) <- heap_down (S length) l value_index (2 * value_index + 2) length;
    do (l, h) <- (if Nat.eqb child2nd length then do x <- rd l (child2nd - 1); do l <- wr l h x; Some (l, child2nd - 1) else Some (l, h));
    heap_up (S h) l h value_index value.
  (** algorithm.h: 968-988 *)
  Fixpoint is_heap_loop (fuel : nat) (l : list A) (parent child n : nat) : option bool :=
    match fuel with
    | 0 => None
    | S f =>
        if Nat.ltb child n
        then do p <- rd l parent; do c <- rd l child;
             if compare p c then Some false
             else is_heap_loop f l (if Nat.even child then S parent else parent) (S child) n
        else Some true
    end.
  (** algorithm.h: 1068-1084 *)
  Definition is_heap (l : list A) : option bool := is_heap_loop (S (List.length l)) l 0 1 (List.length l).
  (** algorithm.h: 991-1002 *)
  Definition pop_heap (l : list A) : option (list A) :=
    do value <- (if Nat.eqb (List.length l) 0 then None else rd l (List.length l - 1));
    do x <- rd l 0; do l <- wr l (List.length l - 1) x;
    adjust_heap l 0 (List.length l - 1) value.
  (** algorithm.h: 1013-1021 *)
  Definition push_heap (l : list A) : option (list A) :=
    do value <- (if Nat.eqb (List.length l) 0 then None else rd l (List.length l - 1));
    heap_up (S (List.length l)) l (List.length l - 1) 0 value.
  (** algorithm.h: 1032-1057 *)
  Fixpoint make_heap_loop (l : list A) (parent : nat) : option (list A) :=
    do x <- rd l parent; do l <- adjust_heap l parent (List.length l) x;
    match parent with 0 => Some l | S p => make_heap_loop l p end.
  Definition make_heap (l : list A) : option (list A) :=
    if Nat.ltb (List.length l) 2 then Some l else make_heap_loop l ((List.length l - 2) / 2).
  (** algorithm.h: 1086-1106 *)
  Fixpoint sort_heap_loop (l : list A) (last : nat) : option (list A) :=
    match last with
    | 0 => Some l
    | S n => do (l, _) <- window l 0 last (fun w => do w <- pop_heap w; Some (w, tt)); sort_heap_loop l n
    end.
  Definition sort_heap (l : list A) : option (list A) := sort_heap_loop l (List.length l).
  (** algorithm.h: 3060-3086 *)
  Definition heap_sort (l : list A) : option (list A) :=
    do h <- is_heap l; do l <- (if h then Some l else make_heap l); sort_heap l.

  (** algorithm.h: 374-402 *)
  Fixpoint lower_bound_loop (fuel : nat) (l : list A) (less : A -> bool) (first count : nat) : option nat :=
    match fuel with
    | 0 => None
    | S f =>
        if Nat.ltb 0 count
        then let step := count / 2 in
             do x <- rd l (first + step);
             if less x then lower_bound_loop f l less (S (first + step)) (count - (step + 1)) else lower_bound_loop f l less first step
        else Some first
    end.
  (** [before x] is compare( *itr, value), of a value that may have another type than the elements *)
  Definition lower_bound_by (l : list A) (before : A -> bool) : option nat := lower_bound_loop (S (List.length l)) l before 0 (List.length l).
  (** algorithm.h: 417-445: the same loop with the test !compare(value, *itr), [after x] is compare(value, *itr) *)
  Definition upper_bound_by (l : list A) (after : A -> bool) : option nat := lower_bound_loop (S (List.length l)) l (fun x => negb (after x)) 0 (List.length l).
  Definition lower_bound (l : list A) (value : A) : option nat := lower_bound_by l (fun x => compare x value).
  Definition upper_bound (l : list A) (value : A) : option nat := upper_bound_by l (fun x => compare value x).
  (** algorithm.h: 460-478 *)
  Definition equal_range (l : list A) (value : A) : option (nat * nat) := do a <- lower_bound l value; do b <- upper_bound l value; Some (a, b).
  (** algorithm.h: 482-498 *)
  Definition binary_search (l : list A) (value : A) : option bool :=
    do i <- lower_bound l value;
    if Nat.eqb i (List.length l) then Some false else do x <- rd l i; Some (negb (compare value x)).

  (** gcd.h: 45-65, 72-85 (of non-negative arguments) *)
  Fixpoint gcd_loop (fuel a b : nat) : option nat :=
    match fuel with 0 => None | S f => if Nat.eqb b 0 then Some a else gcd_loop f b (a mod b) end.
  Definition gcd_nat (a b : nat) : option nat := if Nat.eqb a 0 || Nat.eqb b 0 then Some (a + b) else gcd_loop (S b) a b.

  (** algorithm.h: 1183-1207: one cycle, then all *)
  Fixpoint rotate_cycle (fuel : nat) (l : list A) (n m i j : nat) (temp : A) : option (list A) :=
    match fuel with
    | 0 => None
    | S f =>
        let k := j + m in
        let k := if Nat.leb n k then k - n else k in
        if Nat.eqb k i then wr l j temp else do x <- rd l k; do l <- wr l j x; rotate_cycle f l n m i k temp
    end.
  Fixpoint rotate_cycles (count : nat) (l : list A) (n m i : nat) : option (list A) :=
    match count with
    | 0 => Some l
    | S c => do temp <- rd l i; do l <- rotate_cycle n l n m i i temp; rotate_cycles c l n m (S i)
    end.
  (** algorithm.h: 1162-1260, random access iterators; returns the list and the iterator *)
  Definition rotate_random (l : list A) (middle : nat) : option (list A * nat) :=
    if Nat.eqb middle 0 || Nat.eqb middle (List.length l) then Some (l, 0)
    else do g <- gcd_nat (List.length l) middle; do l' <- rotate_cycles g l (List.length l) middle 0; Some (l', List.length l - middle).
  (** algorithm.h: 340-369: the pointer version tests b < --e, the other b != --e: the same for b <= e *)
  Fixpoint reverse_loop (fuel : nat) (l : list A) (b e : nat) : option (list A) :=
    match fuel with
    | 0 => None
    | S f =>
        if Nat.ltb (S b) e
        then do x <- rd l b; do y <- rd l (e - 1); do l <- wr l b y; do l <- wr l (e - 1) x; reverse_loop f l (S b) (e - 1)
        else Some l
    end.
  Definition reverse (l : list A) : option (list A) := reverse_loop (S (List.length l)) l 0 (List.length l).
  Definition sub_reverse (l : list A) (b e : nat) : option (list A) := do (l, _) <- window l b e (fun w => do w <- reverse w; Some (w, tt)); Some l.
  (** algorithm.h: 1262-1282, bidirectional iterators *)
  Definition rotate_bidirectional (l : list A) (middle : nat) : option (list A * nat) :=
    if Nat.eqb middle 0 || Nat.eqb middle (List.length l) then Some (l, 0)
    else do l <- sub_reverse l 0 middle; do l <- sub_reverse l middle (List.length l); do l <- sub_reverse l 0 (List.length l); Some (l, List.length l - middle).
  (** algorithm.h: 1284-1316, forward iterators *)
  Fixpoint rotate_swaps (fuel : nat) (l : list A) (first middle next : nat) : option (list A) :=
    match fuel with
    | 0 => None
    | S f =>
        if Nat.eqb first next then Some l
        else do x <- rd l first; do y <- rd l next; do l <- wr l first y; do l <- wr l next x;
             let first := S first in let next := S next in
             if Nat.eqb next (List.length l) then rotate_swaps f l first middle middle
             else if Nat.eqb first middle then rotate_swaps f l first next next
             else rotate_swaps f l first middle next
    end.
  Definition rotate_forward (l : list A) (middle : nat) : option (list A * nat) :=
    if Nat.eqb middle 0 || Nat.eqb middle (List.length l) then Some (l, 0)
    else do l' <- rotate_swaps (S (List.length l)) l 0 middle middle; Some (l', List.length l - middle).
  (** algorithm.h: 291-300, 1319-1337 *)
  Fixpoint move_down (count : nat) (l : list A) (src dst : nat) : option (list A) :=
    match count with 0 => Some l | S c => do x <- rd l src; do l <- wr l dst x; move_down c l (S src) (S dst) end.
  Definition rotate_left_by_one (l : list A) : option (list A * nat) :=
    do temp <- rd l 0; do l' <- move_down (List.length l - 1) l 1 0; do l' <- wr l' (List.length l - 1) temp; Some (l', List.length l - 1).
  Inductive iterator_category : Type := random_access | bidirectional | forward.
  Definition rotate_general (cat : iterator_category) (l : list A) (middle : nat) : option (list A * nat) :=
    match cat with random_access => rotate_random l middle | bidirectional => rotate_bidirectional l middle | forward => rotate_forward l middle end.
  (** algorithm.h: 1363-1389.  In C++20 with next(middle) == last, if constexpr (is_forward_iterator) chooses rotate_general too
      for a forward iterator; rotate_right_by_one is then used for the others (not modelled) *)
  Definition rotate (cat : iterator_category) (l : list A) (middle : nat) : option (list A * nat) :=
    if Nat.eqb 1 middle then rotate_left_by_one l else rotate_general cat l middle.

  (** algorithm.h: 2949-2957 *)
  Fixpoint insertion_loop (cat : iterator_category) (count : nat) (l : list A) (itr : nat) : option (list A) :=
    match count with
    | 0 => Some l
    | S c => do x <- rd l itr; do p <- upper_bound (firstn itr l) x;
             do (l, _) <- window l p (S itr) (fun w => rotate cat w (itr - p)); insertion_loop cat c l (S itr)
    end.
  Definition insertion_sort (cat : iterator_category) (l : list A) : option (list A) := insertion_loop cat (List.length l) l 0.

  (** algorithm.h: 2890-2929; the inner loop on k = j - i, j - 2 i, ... >= 0 *)
  Fixpoint shell_inner (fuel : nat) (l : list A) (k i : nat) : option (list A) :=
    match fuel with
    | 0 => None
    | S f =>
        do x <- rd l k; do y <- rd l (k + i);
        do l <- (if compare y x then do l <- wr l k y; wr l (k + i) x else Some l);
        if Nat.leb i k then shell_inner f l (k - i) i else Some l
    end.
  Fixpoint shell_pass (count : nat) (l : list A) (j i : nat) : option (list A) :=
    match count with 0 => Some l | S c => do l <- shell_inner (S j) l (j - i) i; shell_pass c l (S j) i end.
  Fixpoint shell_loop (fuel : nat) (l : list A) (i : nat) : option (list A) :=
    match fuel with
    | 0 => None
    | S f => if Nat.ltb 0 i then do l <- shell_pass (List.length l - i) l i i; shell_loop f l (i / 2) else Some l
    end.
  Definition shell_sort (l : list A) : option (list A) := if Nat.eqb (List.length l) 0 then Some l else shell_loop (S (List.length l)) l (List.length l / 2).
  (** algorithm.h: 2034-2073 (ETL_NOT_USING_STL) *)
  Definition sort (l : list A) : option (list A) := shell_sort l.
  Definition stable_sort (cat : iterator_category) (l : list A) : option (list A) := insertion_sort cat l.

  (** algorithm.h: 3015-3043.  get_before_last of an empty range is the position before the first: [None] *)
  Fixpoint select_min (count : nat) (l : list A) (j min : nat) : option nat :=
    match count with
    | 0 => Some min
    | S c => do x <- rd l j; do y <- rd l min; select_min c l (S j) (if compare x y then j else min)
    end.
  Fixpoint selection_loop (count : nat) (l : list A) (i : nat) : option (list A) :=
    match count with
    | 0 => Some l
    | S c => do m <- select_min (List.length l - S i) l (S i) i;
             do x <- rd l i; do y <- rd l m; do l <- wr l i y; do l <- wr l m x; selection_loop c l (S i)
    end.
  Definition selection_sort (l : list A) : option (list A) :=
    if Nat.eqb (List.length l) 0 then None else selection_loop (List.length l - 1) l 0.
End Sorts.
