(** * Model of the searching, copying and rearranging functions of algorithm.h.

    A range is the list of its elements, an iterator an index (as in SortModel.v; lower_bound, upper_bound,
    equal_range, binary_search, rotate and reverse are there).  [None] is an access outside the range or a loop that
    has not ended when its fuel is used up.  Two ranges that the caller must keep apart are two lists;
    copy, copy_backward, move, move_backward and remove work in one list (the ranges may overlap).
    Predicates, comparisons and operations have no side effects.  Where the code has an
    #if ETL_USING_STL && ETL_USING_CPP20 branch that calls std, the other branch is modelled. *)
From Coq Require Import List Arith Bool.
From Verif Require Import Util Slots SortModel.
Import ListNotations.

Section Search.
  Context {A : Type}.
  (** algorithm.h: 503-519 (find_if), 1711-1729 (find_if_not), 1906-1924 (partition_point): while (first != last) *)
  Fixpoint find_loop (count : nat) (l : list A) (p : A -> bool) (first : nat) : option nat :=
    match count with
    | 0 => Some first
    | S c => do x <- rd l first; if p x then Some first else find_loop c l p (S first)
    end.
  Definition find_if (l : list A) (p : A -> bool) : option nat := find_loop (List.length l) l p 0.
  Definition find_if_not (l : list A) (p : A -> bool) : option nat := find_loop (List.length l) l (fun x => negb (p x)) 0.
  Definition partition_point (l : list A) (p : A -> bool) : option nat := find_loop (List.length l) l (fun x => negb (p x)) 0.
  (** algorithm.h: 1990-2028 *)
  Definition all_of (l : list A) (p : A -> bool) : option bool := do i <- find_if_not l p; Some (Nat.eqb i (List.length l)).
  Definition any_of (l : list A) (p : A -> bool) : option bool := do i <- find_if l p; Some (negb (Nat.eqb i (List.length l))).
  Definition none_of (l : list A) (p : A -> bool) : option bool := do i <- find_if l p; Some (Nat.eqb i (List.length l)).
  (** algorithm.h: 587-629 (count_if; count with the test *first == value) *)
  Fixpoint count_loop (count : nat) (l : list A) (p : A -> bool) (first n : nat) : option nat :=
    match count with
    | 0 => Some n
    | S c => do x <- rd l first; count_loop c l p (S first) (if p x then S n else n)
    end.
  Definition count_if (l : list A) (p : A -> bool) : option nat := count_loop (List.length l) l p 0 0.
  (** algorithm.h: 1871-1899 *)
  Definition is_partitioned (l : list A) (p : A -> bool) : option bool :=
    do i <- find_loop (List.length l) l (fun x => negb (p x)) 0;
    do j <- find_loop (List.length l - i) l p i; Some (Nat.eqb j (List.length l)).

  (** algorithm.h: 672-709: the second range is not bounded *)
  Fixpoint equal_loop {B} (count : nat) (l1 : list A) (l2 : list B) (p : A -> B -> bool) (i : nat) : option bool :=
    match count with
    | 0 => Some true
    | S c => do x <- rd l1 i; do y <- rd l2 i; if negb (p x y) then Some false else equal_loop c l1 l2 p (S i)
    end.
  Definition equal3 {B} (l1 : list A) (l2 : list B) (p : A -> B -> bool) : option bool := equal_loop (List.length l1) l1 l2 p 0.
  (** algorithm.h: 712-749 *)
  Fixpoint equal4_loop {B} (fuel : nat) (l1 : list A) (l2 : list B) (p : A -> B -> bool) (i : nat) : option bool :=
    match fuel with
    | 0 => None
    | S f =>
        if negb (Nat.eqb i (List.length l1)) && negb (Nat.eqb i (List.length l2))
        then do x <- rd l1 i; do y <- rd l2 i; if negb (p x y) then Some false else equal4_loop f l1 l2 p (S i)
        else Some (Nat.eqb i (List.length l1) && Nat.eqb i (List.length l2))
    end.
  Definition equal4 {B} (l1 : list A) (l2 : list B) (p : A -> B -> bool) : option bool := equal4_loop (S (List.length l1)) l1 l2 p 0.
  (** algorithm.h: 755-779 *)
  Fixpoint lex_loop (fuel : nat) (compare : A -> A -> bool) (l1 l2 : list A) (i : nat) : option bool :=
    match fuel with
    | 0 => None
    | S f =>
        if negb (Nat.eqb i (List.length l1)) && negb (Nat.eqb i (List.length l2))
        then do x <- rd l1 i; do y <- rd l2 i;
             if compare x y then Some true else if compare y x then Some false else lex_loop f compare l1 l2 (S i)
        else Some (Nat.eqb i (List.length l1) && negb (Nat.eqb i (List.length l2)))
    end.
  Definition lexicographical_compare (compare : A -> A -> bool) (l1 l2 : list A) : option bool := lex_loop (S (List.length l1)) compare l1 l2 0.

  (** algorithm.h: 1111-1145: the inner loop (0: found at first, 1: end of the range, 2: mismatch), then the outer one *)
  Fixpoint search_at {B} (fuel : nat) (l : list A) (s : list B) (p : A -> B -> bool) (itr j : nat) : option nat :=
    match fuel with
    | 0 => None
    | S f =>
        if Nat.eqb j (List.length s) then Some 0
        else if Nat.eqb itr (List.length l) then Some 1
        else do x <- rd l itr; do y <- rd s j; if negb (p x y) then Some 2 else search_at f l s p (S itr) (S j)
    end.
  Fixpoint search_loop {B} (fuel : nat) (l : list A) (s : list B) (p : A -> B -> bool) (first : nat) : option nat :=
    match fuel with
    | 0 => None
    | S f =>
        do r <- search_at (S (List.length s)) l s p first 0;
        match r with 0 => Some first | 1 => Some (List.length l) | _ => search_loop f l s p (S first) end
    end.
  Definition search {B} (l : list A) (s : list B) (p : A -> B -> bool) (first : nat) : option nat := search_loop (S (List.length l)) l s p first.
  (** algorithm.h: 1395-1425 *)
  Fixpoint find_end_loop {B} (fuel : nat) (l : list A) (s : list B) (p : A -> B -> bool) (b result : nat) : option nat :=
    match fuel with
    | 0 => None
    | S f => do r <- search l s p b; if Nat.eqb r (List.length l) then Some result else find_end_loop f l s p (S r) r
    end.
  Definition find_end {B} (l : list A) (s : list B) (p : A -> B -> bool) : option nat :=
    if Nat.eqb 0 (List.length s) then Some (List.length l) else find_end_loop (S (List.length l)) l s p 0 (List.length l).

  Variable compare : A -> A -> bool.
  (** algorithm.h: 1444-1533, 1540-1571: [begin] is already past the first element *)
  Fixpoint min_loop (count : nat) (l : list A) (b m : nat) : option nat :=
    match count with
    | 0 => Some m
    | S c => do x <- rd l b; do y <- rd l m; min_loop c l (S b) (if compare x y then b else m)
    end.
  Definition min_element (l : list A) : option nat := min_loop (List.length l - 1) l 1 0.
  Fixpoint max_loop (count : nat) (l : list A) (b m : nat) : option nat :=
    match count with
    | 0 => Some m
    | S c => do x <- rd l b; do y <- rd l m; max_loop c l (S b) (if negb (compare x y) then b else m)
    end.
  Definition max_element (l : list A) : option nat := max_loop (List.length l - 1) l 1 0.
  Fixpoint minmax_loop (count : nat) (l : list A) (b m n : nat) : option (nat * nat) :=
    match count with
    | 0 => Some (m, n)
    | S c => do x <- rd l b; do y <- rd l m; do z <- rd l n;
             minmax_loop c l (S b) (if compare x y then b else m) (if compare z x then b else n)
    end.
  Definition minmax_element (l : list A) : option (nat * nat) := minmax_loop (List.length l - 1) l 1 0 0.
  (** algorithm.h: 796-833, 1594-1616, 2158-2184 *)
  Definition min (a b : A) : A := if compare a b then a else b.
  Definition max (a b : A) : A := if compare a b then b else a.
  Definition minmax (a b : A) : A * A := if compare b a then (b, a) else (a, b).
  Definition clamp (value low high : A) : A := if compare value low then low else if compare high value then high else value.
  (** algorithm.h: 1623-1704 *)
  Fixpoint sorted_until_loop (count : nat) (l : list A) (b next : nat) : option nat :=
    match count with
    | 0 => Some next
    | S c => do x <- rd l next; do y <- rd l b; if compare x y then Some next else sorted_until_loop c l (S b) (S next)
    end.
  Definition is_sorted_until (l : list A) : option nat :=
    if Nat.eqb (List.length l) 0 then Some (List.length l) else sorted_until_loop (List.length l - 1) l 0 1.
  Definition is_sorted (l : list A) : option bool := do i <- is_sorted_until l; Some (Nat.eqb i (List.length l)).
  (** algorithm.h: 2493-2539: lower_bound, then the test *it != value (or !equality( *it, value)) *)
  Definition binary_find (equality : A -> A -> bool) (l : list A) (value : A) : option nat :=
    do it <- lower_bound compare l value;
    if Nat.eqb it (List.length l) then Some it
    else do x <- rd l it; if negb (equality x value) then Some (List.length l) else Some it.

  (** algorithm.h: 1736-1864: [same] finds an earlier occurrence (operator == or the predicate, called predicate( *i, element)),
      [eqv] is operator ==, used by the counts in all four versions *)
  Fixpoint permutation_loop (count : nat) (same eqv : A -> A -> bool) (l1 l2 : list A) (i : nat) : option bool :=
    match count with
    | 0 => Some true
    | S c =>
        do x <- rd l1 i;
        do k <- find_loop i l1 (same x) 0;
        if Nat.eqb i k
        then do n <- count_loop (List.length l2) l2 (fun y => eqv y x) 0 0;
             do m <- count_loop (List.length l1 - i) l1 (fun y => eqv y x) i 0;
             if Nat.eqb n 0 || negb (Nat.eqb m n) then Some false else permutation_loop c same eqv l1 l2 (S i)
        else permutation_loop c same eqv l1 l2 (S i)
    end.
  (** [l2] is what is reachable from begin2: etl::advance(end2, distance(begin1, end1)) must stay inside it *)
  Definition is_permutation3 (same eqv : A -> A -> bool) (l1 l2 : list A) : option bool :=
    if Nat.eqb (List.length l1) 0 then Some true
    else if Nat.leb (List.length l1) (List.length l2) then permutation_loop (List.length l1) same eqv l1 (firstn (List.length l1) l2) 0 else None.
  Definition is_permutation4 (same eqv : A -> A -> bool) (l1 l2 : list A) : option bool := permutation_loop (List.length l1) same eqv l1 l2 0.
End Search.

Section Write.
  Context {A : Type}.
  (** algorithm.h: 187-208, 242-257, 282-309 (copy, copy_n, move: [move_down] of SortModel.v), in one array *)
  Definition copy (m : list A) (sb se db : nat) : option (list A * nat) := do m <- move_down (se - sb) m sb db; Some (m, db + (se - sb)).
  (** algorithm.h: 261-278, 313-338 (copy_backward, move_backward): se and de are decremented first *)
  Fixpoint back_loop (count : nat) (m : list A) (se de : nat) : option (list A) :=
    match count with 0 => Some m | S c => do x <- rd m (se - 1); do m <- wr m (de - 1) x; back_loop c m (se - 1) (de - 1) end.
  Definition copy_backward (m : list A) (sb se de : nat) : option (list A * nat) :=
    if Nat.leb (se - sb) de then do m <- back_loop (se - sb) m se de; Some (m, de - (se - sb)) else None.
  (** algorithm.h: 2189-2236: find_if, then a loop that moves down what is kept *)
  Fixpoint remove_loop (count : nat) (m : list A) (p : A -> bool) (first itr : nat) : option (list A * nat) :=
    match count with
    | 0 => Some (m, first)
    | S c => do x <- rd m itr; if negb (p x) then do m <- wr m first x; remove_loop c m p (S first) (S itr) else remove_loop c m p first (S itr)
    end.
  Definition remove_if (m : list A) (p : A -> bool) : option (list A * nat) :=
    do first <- find_if m p;
    if negb (Nat.eqb first (List.length m)) then remove_loop (List.length m - first - 1) m p first (S first) else Some (m, first).
  (** algorithm.h: 886-916 *)
  Fixpoint replace_loop (count : nat) (m : list A) (p : A -> bool) (v : A) (i : nat) : option (list A) :=
    match count with
    | 0 => Some m
    | S c => do x <- rd m i; do m <- (if p x then wr m i v else Some m); replace_loop c m p v (S i)
    end.
  Definition replace_if (m : list A) (p : A -> bool) (v : A) : option (list A) := replace_loop (List.length m) m p v 0.
  (** algorithm.h: 551-581 (fill, fill_n from position i) *)
  Fixpoint fill_n (count : nat) (m : list A) (v : A) (i : nat) : option (list A * nat) :=
    match count with 0 => Some (m, i) | S c => do m <- wr m i v; fill_n c m v (S i) end.
  (** algorithm.h: 154-171: the first count elements of two ranges *)
  Fixpoint swap_ranges (count : nat) (l1 l2 : list A) (i : nat) : option (list A * list A * nat) :=
    match count with
    | 0 => Some (l1, l2, i)
    | S c => do x <- rd l1 i; do y <- rd l2 i; do l1 <- wr l1 i y; do l2 <- wr l2 i x; swap_ranges c l1 l2 (S i)
    end.
  (** algorithm.h: 221-230 *)
  Fixpoint reverse_copy_loop (count : nat) (s : list A) (d : list A) (o : nat) : option (list A * nat) :=
    match count with 0 => Some (d, o) | S c => do x <- rd s c; do d <- wr d o x; reverse_copy_loop c s d (S o) end.
  Definition reverse_copy (s d : list A) (o : nat) : option (list A * nat) := reverse_copy_loop (List.length s) s d o.

  (** the loop of copy, copy_n, copy_if, copy_n_if, transform, transform_n and transform_if to another range:
      [f x] is what is written for x, if anything.
      algorithm.h: 853-867, 1963-1983, 2384-2409, 2640-2659, 2686-2712 *)
  Fixpoint emit_loop {B} (count : nat) (s : list A) (i : nat) (f : A -> option B) (d : list B) (o : nat) : option (list B * nat) :=
    match count with
    | 0 => Some (d, o)
    | S c => do x <- rd s i;
             match f x with
             | Some y => do d <- wr d o y; emit_loop c s (S i) f d (S o)
             | None => emit_loop c s (S i) f d o
             end
    end.
  Definition copy_if (s : list A) (p : A -> bool) (d : list A) (o : nat) := emit_loop (List.length s) s 0 (fun x => if p x then Some x else None) d o.
  Definition copy_n_if (s : list A) (n : nat) (p : A -> bool) (d : list A) (o : nat) := emit_loop n s 0 (fun x => if p x then Some x else None) d o.
  Definition transform {B} (s : list A) (f : A -> B) (d : list B) (o : nat) := emit_loop (List.length s) s 0 (fun x => Some (f x)) d o.
  Definition transform_n {B} (s : list A) (n : nat) (f : A -> B) (d : list B) (o : nat) :=
    if Nat.leb n (List.length s) then emit_loop n s 0 (fun x => Some (f x)) d o else None.
  Definition transform_if {B} (s : list A) (f : A -> B) (p : A -> bool) (d : list B) (o : nat) :=
    emit_loop (List.length s) s 0 (fun x => if p x then Some (f x) else None) d o.
  (** algorithm.h: 868-883 *)
  Fixpoint transform2_loop {B C} (count : nat) (s : list A) (s2 : list B) (i : nat) (f : A -> B -> C) (d : list C) (o : nat) : option (list C * nat) :=
    match count with
    | 0 => Some (d, o)
    | S c => do x <- rd s i; do y <- rd s2 i; do d <- wr d o (f x y); transform2_loop c s s2 (S i) f d (S o)
    end.
  Definition transform2 {B C} (s : list A) (s2 : list B) (f : A -> B -> C) (d : list C) (o : nat) := transform2_loop (List.length s) s s2 0 f d o.
  (** algorithm.h: 1931-1957 *)
  Fixpoint partition_copy_loop (count : nat) (s : list A) (i : nat) (p : A -> bool) (dt : list A) (ot : nat) (df : list A) (of : nat) : option (list A * nat * (list A * nat)) :=
    match count with
    | 0 => Some ((dt, ot), (df, of))
    | S c => do x <- rd s i;
             if p x then do dt <- wr dt ot x; partition_copy_loop c s (S i) p dt (S ot) df of
             else do df <- wr df of x; partition_copy_loop c s (S i) p dt ot df (S of)
    end.
  Definition partition_copy (s : list A) (p : A -> bool) (dt : list A) (ot : nat) (df : list A) (of : nat) := partition_copy_loop (List.length s) s 0 p dt ot df of.
  (** the bounded loop of copy_s, copy_n_s, copy_if_s, move_s and transform_s: it stops at o_end ([count] items left, output in [o, oe)).
      algorithm.h: 2284-2301, 2304-2350, 2353-2380, 2440-2467, 2615-2637 *)
  Fixpoint emit_loop_s {B} (count : nat) (s : list A) (i : nat) (f : A -> option B) (d : list B) (o oe : nat) : option (list B * nat) :=
    match count with
    | 0 => Some (d, o)
    | S c => if Nat.eqb o oe then Some (d, o)
             else do x <- rd s i;
                  match f x with
                  | Some y => do d <- wr d o y; emit_loop_s c s (S i) f d (S o) oe
                  | None => emit_loop_s c s (S i) f d o oe
                  end
    end.
  Definition copy_s_general (s d : list A) (o oe : nat) := emit_loop_s (List.length s) s 0 (@Some A) d o oe.
  (** algorithm.h: 2255-2270: random access iterators *)
  Definition copy_s_random (s d : list A) (o oe : nat) :=
    let size := if Nat.ltb (List.length s) (oe - o) then List.length s else oe - o in emit_loop size s 0 (@Some A) d o.
  Definition copy_n_s (s : list A) (n : nat) (d : list A) (o oe : nat) := emit_loop_s n s 0 (@Some A) d o oe.
  Definition copy_if_s (s : list A) (p : A -> bool) (d : list A) (o oe : nat) := emit_loop_s (List.length s) s 0 (fun x => if p x then Some x else None) d o oe.
  Definition transform_s {B} (s : list A) (f : A -> B) (d : list B) (o oe : nat) := emit_loop_s (List.length s) s 0 (fun x => Some (f x)) d o oe.
  (** algorithm.h: 2119-2152 *)
  Fixpoint accumulate_loop {B} (count : nat) (s : list A) (i : nat) (op : B -> A -> B) (sum : B) : option B :=
    match count with 0 => Some sum | S c => do x <- rd s i; accumulate_loop c s (S i) op (op sum x) end.
  Definition accumulate {B} (s : list A) (op : B -> A -> B) (sum : B) : option B := accumulate_loop (List.length s) s 0 op sum.
  (** algorithm.h: 837-849, 2542-2613 (for_each, for_each_n, for_each_if, for_each_n_if): the calls made, in order *)
  Fixpoint for_each_loop (count : nat) (s : list A) (i : nat) (p : A -> bool) (calls : list A) : option (list A * nat) :=
    match count with 0 => Some (calls, i) | S c => do x <- rd s i; for_each_loop c s (S i) p (if p x then calls ++ [x] else calls) end.
End Write.
