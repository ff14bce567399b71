(** * Lists that take their nodes from pools, as sequences.  Independent of the code. *)
From Coq Require Import List Arith Bool.
From Verif Require Import SortSpec.
Import ListNotations.
Section Spec.
  Context {A : Type}.
  (** two sorted sequences merged: an element of [ys] goes before the first element of [xs] that is greater *)
  Fixpoint merged (lt : A -> A -> bool) (xs : list A) : list A -> list A :=
    fix inner ys :=
      match xs, ys with
      | [], _ => ys
      | _, [] => xs
      | x :: xs', y :: ys' => if lt y x then y :: inner ys' else x :: merged lt xs' ys
      end.
  (** the stable sort: insertion of the elements from the last to the first, each before the first element that is not less *)
  Fixpoint insert_sorted (lt : A -> A -> bool) (x : A) (l : list A) : list A :=
    match l with [] => [x] | y :: r => if lt y x then y :: insert_sorted lt x r else x :: l end.
  Definition stable_sort (lt : A -> A -> bool) (l : list A) : list A := fold_right (insert_sorted lt) [] l.
  (** only the first of each run of neighbours that [eq] relates to it stays *)
  Fixpoint uniques (eq : A -> A -> bool) (p : A) (l : list A) : list A :=
    match l with [] => [] | x :: r => if eq p x then uniques eq p r else x :: uniques eq x r end.
  Definition ins (k : nat) (vs l : list A) : list A := firstn k l ++ vs ++ skipn k l.
  Definition cut (a b : nat) (l : list A) : list A := firstn a l ++ skipn b l.
  Definition seg (a b : nat) (l : list A) : list A := firstn (b - a) (skipn a l).

  Inductive lop : Type :=
  | LpushFront (i : nat) (v : A) | LpushBack (i : nat) (v : A) | LpopFront (i : nat) | LpopBack (i : nat)
  | Linsert (i k : nat) (v : A) | LinsertN (i k n : nat) (v : A) | LinsertRange (i k : nat) (vs : list A)
  | Lerase (i k : nat) | LeraseRange (i a b : nat) | Lresize (i n : nat) (v : A) | Lclear (i : nat)
  | LremoveIf (i : nat) (p : A -> bool) | Lunique (i : nat) (eq : A -> A -> bool) | Lreverse (i : nat) | Lsort (i : nat) (lt : A -> A -> bool)
  | Lassign (i : nat) (vs : list A) | LassignN (i n : nat) (v : A)
  | Lsplice (i k j : nat) | LspliceOne (i k j m : nat) | LspliceRange (i k j a b : nat)
  | LspliceMove (i k j : nat) | LspliceRangeMove (i k j a b : nat)
  | Lmerge (i j : nat) (lt : A -> A -> bool) | LmoveFrom (i j : nat)
  | Lfront (i : nat) | Lback (i : nat) | Lsize (i : nat) | Lempty (i : nat) | Lfull (i : nat) | Lavailable (i : nat)
  | Lforward (i : nat) | Lbackward (i : nat).
  (** [Rat x]: the iterator returned is at an element of value [x], or is end() *)
  Inductive lres : Type := Rok | Rfull | Rempty | Rat (x : option A) | Rv (x : A) | Rn (n : nat) | Rb (b : bool) | Rl (l : list A).
  (** ** [n] lists; list [i] takes its nodes from pool [pool i], which has [cap (pool i)] nodes *)
  Variable n : nat.
  Variable pool : nat -> nat.
  Variable cap : nat -> nat.
  Variable check : bool.                 (** pop_front and pop_back test for an empty list *)
  Definition lists : Type := nat -> list A.
  Definition used (s : lists) (p : nat) : nat := list_sum (map (fun i => length (s i)) (filter (fun i => Nat.eqb (pool i) p) (seq 0 n))).
  Definition room (s : lists) (i : nat) : nat := cap (pool i) - used s (pool i).
  Definition put (s : lists) (i : nat) (l : list A) : lists := fun x => if Nat.eqb x i then l else s x.
  (** as many of [vs] as there is room for, before position [k]; "full" if that is not all *)
  Definition add (s : lists) (i k : nat) (vs : list A) : lres * lists :=
    (if length vs <=? room s i then Rok else Rfull, put s i (ins k (firstn (room s i) vs) (s i))).
  (** [vs] is taken out of list [j] if list [i] had room for all of it *)
  Definition transfer (s : lists) (i k j a b : nat) (vs : list A) : lres * lists :=
    let (r, s') := add s i k vs in match r with Rok => (Rok, put s' j (cut a b (s' j))) | r => (r, s') end.
  Definition l_step (o : lop) (s : lists) : lres * lists :=
    match o with
    | LpushFront i v => add s i 0 [v]
    | LpushBack i v => add s i (length (s i)) [v]
    | LpopFront i => match s i with [] => (Rempty, s) | _ :: r => (Rok, put s i r) end
    | LpopBack i => match s i with [] => (Rempty, s) | _ => (Rok, put s i (removelast (s i))) end
    | Linsert i k v => match room s i with 0 => (Rfull, s) | _ => (Rat (Some v), put s i (ins k [v] (s i))) end
    | LinsertN i k m v => add s i k (repeat v m)
    | LinsertRange i k vs => add s i k vs
    | Lerase i k => (Rat (nth_error (s i) (S k)), put s i (cut k (S k) (s i)))
    | LeraseRange i a b => (Rat (nth_error (s i) b), put s i (cut a b (s i)))
    | Lresize i m v => if cap (pool i) <? m then (Rfull, s)
                       else if m <=? length (s i) then (Rok, put s i (firstn m (s i))) else add s i (length (s i)) (repeat v (m - length (s i)))
    | Lclear i => (Rok, put s i [])
    | LremoveIf i p => (Rok, put s i (filter (fun x => negb (p x)) (s i)))
    | Lunique i eq => (Rok, put s i (match s i with [] => [] | x :: r => x :: uniques eq x r end))
    | Lreverse i => (Rok, put s i (rev (s i)))
    | Lsort i lt => (Rok, put s i (stable_sort lt (s i)))
    | Lassign i vs => add (put s i []) i 0 vs
    | LassignN i m v => add (put s i []) i 0 (repeat v m)
    | Lsplice i k j => if Nat.eqb i j then (Rok, s) else transfer s i k j 0 (length (s j)) (s j)
    | LspliceOne i k j m =>
      if Nat.eqb i j then (Rok, put s i (if m <? k then ins (k - 1) (seg m (S m) (s i)) (cut m (S m) (s i)) else ins k (seg m (S m) (s i)) (cut m (S m) (s i))))
      else transfer s i k j m (S m) (seg m (S m) (s j))
    | LspliceRange i k j a b | LspliceRangeMove i k j a b =>
      if Nat.eqb i j then (Rok, put s i (if b <=? k then ins (k - (b - a)) (seg a b (s i)) (cut a b (s i)) else ins k (seg a b (s i)) (cut a b (s i))))
      else transfer s i k j a b (seg a b (s j))
    (** FINDING (C12_splice_rvalue_refuted): splice(to, list&&) reverses the elements *)
    | LspliceMove i k j => if Nat.eqb i j then (Rok, s)
                           else let (r, s') := add s i k (rev (firstn (room s i) (s j))) in
                                if length (s j) <=? room s i then (Rok, put s' j []) else (Rfull, s')
    | Lmerge i j lt => if Nat.eqb i j then (Rok, s)
                       else if length (s j) <=? room s i then (Rok, put (put s i (merged lt (s i) (s j))) j []) else (Rfull, put s i (merged lt (s i) (firstn (room s i) (s j))))
    | LmoveFrom i j =>
      if Nat.eqb i j then (Rok, s)
      else let s0 := put s i [] in
           if Nat.eqb (pool i) (pool j) then (Rok, put (put s0 i (s j)) j [])
           else transfer s0 i 0 j 0 (length (s j)) (s j)
    | Lfront i => (match s i with x :: _ => Rv x | [] => Rempty end, s)
    | Lback i => (match rev (s i) with x :: _ => Rv x | [] => Rempty end, s)
    | Lsize i => (Rn (length (s i)), s)
    | Lempty i => (Rb (match s i with [] => true | _ => false end), s)
    | Lfull i => (Rb (Nat.eqb (room s i) 0), s)
    | Lavailable i => (Rn (room s i), s)
    | Lforward i => (Rl (s i), s)
    | Lbackward i => (Rl (rev (s i)), s)
    end.
  (** what a caller has to respect: lists that exist, positions that exist, front() and back() of non-empty lists, pops of non-empty lists unless they test for that, orders that are orders;
      when a range is moved inside a list, the target is outside it and the range is not empty (FINDING: C12_splice_empty_range_refuted) *)
  Definition allowed (o : lop) (s : lists) : Prop :=
    match o with
    | LpopFront i | LpopBack i => i < n /\ (check = false -> s i <> [])
    | LpushFront i _ | LpushBack i _ | Lresize i _ _ | Lclear i | LremoveIf i _ | Lunique i _ | Lreverse i | Lassign i _ | LassignN i _ _
    | Lsize i | Lempty i | Lfull i | Lavailable i | Lforward i | Lbackward i => i < n
    | Linsert i k _ | LinsertN i k _ _ | LinsertRange i k _ => i < n /\ k <= length (s i)
    | Lerase i k => i < n /\ k < length (s i)
    | LeraseRange i a b => i < n /\ a <= b <= length (s i)
    | Lsort i lt => i < n /\ strict_weak_order lt
    | Lsplice i k j | LspliceMove i k j => i < n /\ j < n /\ k <= length (s i)
    | LspliceOne i k j m => i < n /\ j < n /\ k <= length (s i) /\ m < length (s j)
    | LspliceRange i k j a b | LspliceRangeMove i k j a b => i < n /\ j < n /\ k <= length (s i) /\ a <= b <= length (s j) /\ (i = j -> a < b /\ (k <= a \/ b <= k))
    | Lmerge i j _ | LmoveFrom i j => i < n /\ j < n
    | Lfront i | Lback i => i < n /\ s i <> []
    end.
  Fixpoint l_steps (os : list lop) (s : lists) : list lres * lists :=
    match os with [] => ([], s) | o :: r => let (x, s) := l_step o s in let (xs, s) := l_steps r s in (x :: xs, s) end.
  Fixpoint all_allowed (os : list lop) (s : lists) : Prop :=
    match os with [] => True | o :: r => allowed o s /\ all_allowed r (snd (l_step o s)) end.
End Spec.
Arguments lop : clear implicits.
Arguments lres : clear implicits.
