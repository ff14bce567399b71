(** * Model of list.h: ilist with its nodes in a heap of addresses.
    Lists are numbered; list [i] has its terminal node at address [term i] and takes nodes from pool [pool i], whose blocks are [blocks (pool i)].
    The free blocks of a pool are a list, used first in first out of its head and filled at its head (ipool.h: 344-404; PoolModel.v has the detail).
    [None] is undefined behaviour (a node without a value read or destroyed) or a loop that does not end; the Boolean/result part tells a thrown list_full / list_empty.
    Simplifications: a moved-from value keeps its value; int sizes in sort do not overflow; ETL_IS_DEBUG_BUILD checks are off. *)
From Coq Require Import List Arith Bool.
From Verif Require Import SortSpec ListSpec Dll.
Import ListNotations.
Local Notation "'do' x <- e ; f" := (match e with Some x => f | None => None end) (at level 200, x pattern, e at level 100, f at level 200, right associativity).
Section Model.
  Context {A : Type}.
  Variables (term pool : nat -> nat) (shared : nat -> bool) (blocks : nat -> list nat).
  Variable check : bool.                 (** ETL_CHECK_PUSH_POP *)
  Variable triv : bool.                  (** T is trivially destructible *)
  Record world : Type := { hp : links; val : nat -> option A; free : nat -> list nat }.
  Definition with_hp (w : world) (h : links) : world := {| hp := h; val := val w; free := free w |}.
  Definition set_val (w : world) (a : nat) (v : option A) : world := {| hp := hp w; val := fun x => if Nat.eqb x a then v else val w x; free := free w |}.
  Definition set_free (w : world) (p : nat) (f : list nat) : world := {| hp := hp w; val := val w; free := fun x => if Nat.eqb x p then f else free w x |}.
  Definition fuel (i : nat) : nat := S (length (blocks (pool i))).

  (** list.h: 2025-2029, 1995-2004, 2010-2019: the node's links are not initialised.  [None]: the pool is exhausted, an exception *)
  Definition alloc (w : world) (i : nat) (v : A) : option (nat * world) :=
    match free w (pool i) with [] => None | x :: r => Some (x, set_val (set_free w (pool i) r) x (Some v)) end.
  (** list.h: 2034-2040; releasing writes the pool's link over the first word of the node, its field previous (ipool.h: 386-404) *)
  Definition destroy_data_node (w : world) (i x : nat) : option world :=
    match val w x with
    | Some _ => let w := set_val w x None in
                let w := with_hp w (set_prv (hp w) x (hd 0 (free w (pool i)))) in
                Some (set_free w (pool i) (x :: free w (pool i)))
    | None => None
    end.
  (** list.h: 333-338 *)
  Definition insert_node (h : links) (position node : nat) : links := let h := join h (prv h position) node in join h node position.
  (** list.h: 1983-1990 *)
  Definition remove_node (w : world) (i x : nat) : option world :=
    destroy_data_node (with_hp w (join (hp w) (prv (hp w) x) (nxt (hp w) x))) i x.
  (** list.h: 264-285 *)
  Definition is_empty (w : world) (i : nat) : bool := Nat.eqb (nxt (hp w) (term i)) (term i).
  Definition is_full (w : world) (i : nat) : bool := match free w (pool i) with [] => true | _ => false end.
  (** list.h: 238-259 *)
  Fixpoint count_loop (f : nat) (h : links) (p stop : nat) : option nat :=
    if Nat.eqb p stop then Some 0 else match f with 0 => None | S f => do c <- count_loop f h (nxt h p) stop; Some (S c) end.
  Definition size (w : world) (i : nat) : option nat :=
    if shared i then count_loop (fuel i) (hp w) (nxt (hp w) (term i)) (term i)
    else Some (length (blocks (pool i)) - length (free w (pool i))).
  (** list.h: 499-523: ++ and --; [at_pos]: begin() advanced [k] times *)
  Fixpoint at_pos (h : links) (p k : nat) : nat := match k with 0 => p | S k => at_pos h (nxt h p) k end.
  Fixpoint back_pos (h : links) (p k : nat) : nat := match k with 0 => p | S k => back_pos h (prv h p) k end.
  Definition pos (w : world) (i k : nat) : nat := at_pos (hp w) (nxt (hp w) (term i)) k.
  (** the element an iterator of list [i] is at: [None] for end() *)
  Definition deref (w : world) (i x : nat) : option (option A) := if Nat.eqb x (term i) then Some None else do v <- val w x; Some (Some v).
  (** list.h: 838-857, 983-1002 (and emplace_front, emplace_back 859-966, 1007-1096) *)
  Definition push (w : world) (i position : nat) (v : A) : lres A * world :=
    if check && is_full w i then (Rfull, w)
    else match alloc w i v with Some (x, w) => (Rok, with_hp w (insert_node (hp w) position x)) | None => (Rfull, w) end.
  (** list.h: 971-978, 1101-1108 *)
  Definition pop (w : world) (i node : nat) : option (lres A * world) :=
    if check && is_empty w i then Some (Rempty, w) else do w <- remove_node w i node; Some (Rok, w).
  (** list.h: 1113-1136 (and emplace 1141-1224): the position of the new node is returned *)
  Definition insert (w : world) (i position : nat) (v : A) : option nat * world :=
    if is_full w i then (None, w)
    else match alloc w i v with Some (x, w) => (Some x, with_hp w (insert_node (hp w) position x)) | None => (None, w) end.
  (** list.h: 1229-1238, 1244-1254 (a range that is not in a list of this model) *)
  Fixpoint insert_values (w : world) (i position : nat) (vs : list A) : lres A * world :=
    match vs with
    | [] => (Rok, w)
    | v :: r => match insert w i position v with (Some _, w) => insert_values w i position r | (None, w) => (Rfull, w) end
    end.
  (** list.h: 1244-1254 with iterators into a list *)
  Fixpoint insert_from (f : nat) (w : world) (i position first last : nat) : option (lres A * world) :=
    if Nat.eqb first last then Some (Rok, w)
    else match f with
         | 0 => None
         | S f => if is_full w i then Some (Rfull, w)
                  else do v <- val w first;
                       match alloc w i v with
                       | Some (x, w) => let w := with_hp w (insert_node (hp w) position x) in insert_from f w i position (nxt (hp w) first) last
                       | None => Some (Rfull, w)
                       end
         end.
  (** list.h: 1259-1266 *)
  Definition erase (w : world) (i position : nat) : option (nat * world) :=
    let position := nxt (hp w) position in
    do w <- remove_node w i (prv (hp w) position); Some (position, w).
  (** list.h: 1284-1289 *)
  Fixpoint destroy_range (f : nat) (w : world) (i first last : nat) : option world :=
    if Nat.eqb first last then Some w
    else match f with 0 => None | S f => let next := nxt (hp w) first in do w <- destroy_data_node w i first; destroy_range f w i next last end.
  (** list.h: 1271-1292 *)
  Definition erase_range (w : world) (i first last : nat) : option (nat * world) :=
    let w := with_hp w (join (hp w) (prv (hp w) first) last) in
    do w <- destroy_range (fuel i) w i first last; Some (last, w).
  (** list.h: 1863-1870: the next pointer is read from the released node *)
  Fixpoint destroy_all (f : nat) (w : world) (i first last : nat) : option world :=
    if Nat.eqb first last then Some w
    else match f with 0 => None | S f => do w <- destroy_data_node w i first; destroy_all f w i (nxt (hp w) first) last end.
  (** release_all: ipool.h: 248-253.  Every value of the pool's blocks is gone *)
  Definition release_all (w : world) (p : nat) : world :=
    {| hp := hp w; val := fun x => if existsb (Nat.eqb x) (blocks p) then None else val w x; free := fun q => if Nat.eqb q p then blocks p else free w q |}.
  (** list.h: 1849-1876 *)
  Definition initialise (w : world) (i : nat) : option world :=
    do w <- (if negb (is_empty w i)
             then if triv && negb (shared i) then Some (release_all w (pool i))
                  else destroy_all (fuel i) w i (nxt (hp w) (term i)) (term i)
             else Some w);
    Some (with_hp w (join (hp w) (term i) (term i))).
  (** list.h: 1305-1326 *)
  Definition resize (w : world) (i m : nat) (v : A) : option (lres A * world) :=
    if length (blocks (pool i)) <? m then Some (Rfull, w)
    else if Nat.eqb m 0 then do w <- initialise w i; Some (Rok, w)
    else do s <- size w i;
         if m <? s then do (_, w) <- erase_range w i (back_pos (hp w) (term i) (s - m)) (term i); Some (Rok, w)
         else if s <? m then Some (insert_values w i (term i) (repeat v (m - s)))
         else Some (Rok, w).
  (** list.h: 1339-1354, 1360-1375 *)
  Fixpoint remove_loop (f : nat) (w : world) (i it : nat) (p : A -> bool) : option world :=
    if Nat.eqb it (term i) then Some w
    else match f with
         | 0 => None
         | S f => do v <- val w it;
                  if p v then do (it, w) <- erase w i it; remove_loop f w i it p else remove_loop f w i (nxt (hp w) it) p
         end.
  (** list.h: 1391-1414 *)
  Fixpoint unique_loop (f : nat) (w : world) (i i_item i_previous : nat) (eq : A -> A -> bool) : option world :=
    if Nat.eqb i_item (term i) then Some w
    else match f with
         | 0 => None
         | S f => do a <- val w i_previous; do b <- val w i_item;
                  if eq a b then do (i_item, w) <- erase w i i_item; unique_loop f w i i_item i_previous eq
                  else unique_loop f w i (nxt (hp w) i_item) i_item eq
         end.
  Definition unique (w : world) (i : nat) (eq : A -> A -> bool) : option world :=
    if is_empty w i then Some w else unique_loop (fuel i) w i (nxt (hp w) (nxt (hp w) (term i))) (nxt (hp w) (term i)) eq.
  (** list.h: 203-216 *)
  Definition swap_node (h : links) (x : nat) : links := let t := prv h x in let h := set_prv h x (nxt h x) in set_nxt h x t.
  Fixpoint reverse_loop (f : nat) (h : links) (p stop : nat) : option links :=
    if Nat.eqb p stop then Some (swap_node h p)
    else match f with 0 => None | S f => let h := swap_node h p in reverse_loop f h (prv h p) stop end.
  (** list.h: 196-217 *)
  Definition reverse (w : world) (i : nat) : option world :=
    do s <- size w i;
    if s <? 2 then Some w else do h <- reverse_loop (fuel i) (hp w) (nxt (hp w) (term i)) (term i); Some (with_hp w h).
  (** list.h: 1930-1946 *)
  Definition move_one (h : links) (to from : nat) : links :=
    if Nat.eqb from to then h
    else let h := join h (prv h from) (nxt h from) in
         let h := join h (prv h to) from in join h from to.
  (** list.h: 1952-1978 *)
  Definition move_range (h : links) (to first last : nat) : links :=
    if Nat.eqb first to || Nat.eqb last to then h
    else let final := prv h last in
         let h := join h (prv h first) last in
         let h := join h (prv h to) first in join h final to.
  (** list.h: 796-813, 818-833: the node is joined to get_tail() and the terminal node; no test but the pool's own *)
  Fixpoint assign_loop (w : world) (i : nat) (vs : list A) : lres A * world :=
    match vs with
    | [] => (Rok, w)
    | v :: r => match alloc w i v with
                | Some (x, w) => let h := join (hp w) (prv (hp w) (term i)) x in assign_loop (with_hp w (join h x (term i))) i r
                | None => (Rfull, w)
                end
    end.
  Definition assign (w : world) (i : nat) (vs : list A) : option (lres A * world) := do w <- initialise w i; Some (assign_loop w i vs).
  (** list.h: 1419-1426 *)
  Definition splice (w : world) (i to j : nat) : option (lres A * world) :=
    if negb (Nat.eqb j i)
    then do (r, w) <- insert_from (fuel j) w i to (nxt (hp w) (term j)) (term j);
         match r with Rok => do (_, w) <- erase_range w j (nxt (hp w) (term j)) (term j); Some (Rok, w) | r => Some (r, w) end
    else Some (Rok, w).
  (** list.h: 1437-1441: to = insert(to, move( *itr)), to is not advanced *)
  Fixpoint splice_move_loop (f : nat) (w : world) (i to itr stop : nat) : option (lres A * world) :=
    if Nat.eqb itr stop then Some (Rok, w)
    else match f with
         | 0 => None
         | S f => do v <- val w itr;
                  match insert w i to v with (Some x, w) => splice_move_loop f w i x (nxt (hp w) itr) stop | (None, w) => Some (Rfull, w) end
         end.
  (** list.h: 1432-1446 *)
  Definition splice_move (w : world) (i to j : nat) : option (lres A * world) :=
    if negb (Nat.eqb j i)
    then do (r, w) <- splice_move_loop (fuel j) w i to (nxt (hp w) (term j)) (term j);
         match r with Rok => do (_, w) <- erase_range w j (nxt (hp w) (term j)) (term j); Some (Rok, w) | r => Some (r, w) end
    else Some (Rok, w).
  (** list.h: 1451-1463, 1470-1483 *)
  Definition splice_one (w : world) (i to j from : nat) : option (lres A * world) :=
    if Nat.eqb j i then Some (Rok, with_hp w (move_one (hp w) to from))
    else do v <- val w from;
         match insert w i to v with
         | (Some _, w) => do (_, w) <- erase w j from; Some (Rok, w)
         | (None, w) => Some (Rfull, w)
         end.
  (** list.h: 1489-1502 *)
  Definition splice_range (w : world) (i to j first last : nat) : option (lres A * world) :=
    if Nat.eqb j i then Some (Rok, with_hp w (move_range (hp w) to first last))
    else do (r, w) <- insert_from (fuel j) w i to first last;
         match r with Rok => do (_, w) <- erase_range w j first last; Some (Rok, w) | r => Some (r, w) end.
  (** list.h: 1518-1524: to is set to the new node and then advanced *)
  Fixpoint splice_range_move_loop (f : nat) (w : world) (i to itr stop : nat) : option (lres A * world) :=
    if Nat.eqb itr stop then Some (Rok, w)
    else match f with
         | 0 => None
         | S f => do v <- val w itr;
                  match insert w i to v with (Some x, w) => splice_range_move_loop f w i (nxt (hp w) x) (nxt (hp w) itr) stop | (None, w) => Some (Rfull, w) end
         end.
  (** list.h: 1508-1528 *)
  Definition splice_range_move (w : world) (i to j first last : nat) : option (lres A * world) :=
    if Nat.eqb j i then Some (Rok, with_hp w (move_range (hp w) to first last))
    else do (r, w) <- splice_range_move_loop (fuel j) w i to first last;
         match r with Rok => do (_, w) <- erase_range w j first last; Some (Rok, w) | r => Some (r, w) end.
  (** list.h: 1558-1575, 1615-1632: the three loops, as one: each step advances this_begin or inserts one element of the other list *)
  Fixpoint merge_loop (f : nat) (w : world) (i tb te ob oe : nat) (lt : A -> A -> bool) : option (lres A * nat * nat * world) :=
    if Nat.eqb tb te || Nat.eqb ob oe then Some (Rok, tb, ob, w)
    else match f with
         | 0 => None
         | S f => do y <- val w ob; do x <- val w tb;
                  if negb (lt y x) then merge_loop f w i (nxt (hp w) tb) te ob oe lt
                  else match insert w i tb y with (Some _, w) => merge_loop f w i tb te (nxt (hp w) ob) oe lt | (None, w) => Some (Rfull, tb, ob, w) end
         end.
  (** list.h: 1543-1585, 1600-1646 *)
  Definition merge (w : world) (i j : nat) (lt : A -> A -> bool) : option (lres A * world) :=
    if negb (Nat.eqb i j) && negb (is_empty w j)
    then do (r, tb, ob, w) <- merge_loop (fuel i + fuel j) w i (nxt (hp w) (term i)) (term i) (nxt (hp w) (term j)) (term j) lt;
         match r with
         | Rok => do (r, w) <- (if Nat.eqb tb (term i) && negb (Nat.eqb ob (term j)) then insert_from (fuel j) w i (term i) ob (term j) else Some (Rok, w));
                  match r with Rok => do w <- initialise w j; Some (Rok, w) | r => Some (r, w) end
         | r => Some (r, w)
         end
    else Some (Rok, w).
  (** list.h: 1716-1725: how far the left run goes *)
  Fixpoint left_loop (k : nat) (h : links) (i_right stop : nat) : nat * nat :=
    match k with
    | 0 => (0, i_right)
    | S k => let i_right := nxt h i_right in
             if Nat.eqb i_right stop then (1, i_right) else let (s, r) := left_loop k h i_right stop in (S s, r)
    end.
  (** list.h: 1731-1774: one merge.  [f] bounds it *)
  Fixpoint sort_merge (f : nat) (w : world) (h : links) (t : nat) (lt : A -> A -> bool) (i_left left_size i_right right_size i_head i_tail : nat) : option (links * nat * nat * nat) :=
    if (0 <? left_size) || ((0 <? right_size) && negb (Nat.eqb i_right t))
    then match f with
         | 0 => None
         | S f =>
           do (i_node, i_left, left_size, i_right, right_size) <-
             (if Nat.eqb left_size 0 then Some (i_right, i_left, left_size, nxt h i_right, right_size - 1)
              else if Nat.eqb right_size 0 || Nat.eqb i_right t then Some (i_left, nxt h i_left, left_size - 1, i_right, right_size)
              else do a <- val w i_right; do b <- val w i_left;
                   if negb (lt a b) then Some (i_left, nxt h i_left, left_size - 1, i_right, right_size)
                   else Some (i_right, i_left, left_size, nxt h i_right, right_size - 1));
           let '(h, i_head, i_tail) := (if Nat.eqb i_head t then (join h i_head i_node, i_node, i_node) else (join h i_tail i_node, i_head, i_node)) in
           let h := join h i_tail t in
           sort_merge f w h t lt i_left left_size i_right right_size i_head i_tail
         end
    else Some (h, i_right, i_head, i_tail).
  (** list.h: 1709-1778: one pass; the number of merges *)
  Fixpoint sort_pass (f : nat) (w : world) (i : nat) (h : links) (t : nat) (lt : A -> A -> bool) (list_size i_left i_head i_tail : nat) : option (links * nat) :=
    if Nat.eqb i_left t then Some (h, 0)
    else match f with
         | 0 => None
         | S f => let (left_size, i_right) := left_loop list_size h i_left t in
                  do (h, i_right, i_head, i_tail) <- sort_merge (2 * fuel i) w h t lt i_left left_size i_right list_size i_head i_tail;
                  do (h, c) <- sort_pass f w i h t lt list_size i_right i_head i_tail; Some (h, S c)
         end.
  (** list.h: 1701-1788 *)
  Fixpoint sort_loop (f : nat) (w : world) (i : nat) (h : links) (lt : A -> A -> bool) (list_size : nat) : option links :=
    match f with
    | 0 => None
    | S f => do (h, merges) <- sort_pass (fuel i) w i h (term i) lt list_size (nxt h (term i)) (term i) (term i);
             if merges <=? 1 then Some h else sort_loop f w i h lt (list_size * 2)
    end.
  (** list.h: 1684-1699 *)
  Definition sort (w : world) (i : nat) (lt : A -> A -> bool) : option world :=
    do s <- size w i; if s <? 2 then Some w else do h <- sort_loop (fuel i) w i (hp w) lt 1; Some (with_hp w h).
  (** list.h: 1909-1915 *)
  Fixpoint move_loop (f : nat) (w : world) (i first last : nat) : option (lres A * world) :=
    if Nat.eqb first last then Some (Rok, w)
    else match f with
         | 0 => None
         | S f => if is_full w i then Some (Rfull, w)
                  else do v <- val w first;
                       match alloc w i v with
                       | Some (x, w) => let w := with_hp w (insert_node (hp w) (term i) x) in move_loop f w i (nxt (hp w) first) last
                       | None => Some (Rfull, w)
                       end
         end.
  (** list.h: 1882-1921 *)
  Definition move_container (w : world) (i j : nat) : option (lres A * world) :=
    if negb (Nat.eqb j i)
    then do w <- initialise w i;
         if negb (is_empty w j)
         then if Nat.eqb (pool i) (pool j)
              then let h := join (hp w) (term i) (nxt (hp w) (term j)) in
                   let h := join h (prv h (term j)) (term i) in
                   Some (Rok, with_hp w (join h (term j) (term j)))
              else do (r, w) <- move_loop (fuel j) w i (nxt (hp w) (term j)) (term j);
                   match r with Rok => do w <- initialise w j; Some (Rok, w) | r => Some (r, w) end
         else Some (Rok, w)
    else Some (Rok, w).
  (** a walk by ++ or -- from begin() or rbegin() *)
  Fixpoint walk (f : nat) (w : world) (step : nat -> nat) (p stop : nat) : option (list A) :=
    if Nat.eqb p stop then Some [] else match f with 0 => None | S f => do v <- val w p; do r <- walk f w step (step p) stop; Some (v :: r) end.

  Definition list_op (o : lop A) (w : world) : option (lres A * world) :=
    match o with
    | LpushFront i v => Some (push w i (nxt (hp w) (term i)) v)
    | LpushBack i v => Some (push w i (term i) v)
    | LpopFront i => pop w i (nxt (hp w) (term i))
    | LpopBack i => pop w i (prv (hp w) (term i))
    | Linsert i k v => match insert w i (pos w i k) v with (Some x, w) => do e <- deref w i x; Some (Rat e, w) | (None, w) => Some (Rfull, w) end
    | LinsertN i k m v => Some (insert_values w i (pos w i k) (repeat v m))
    | LinsertRange i k vs => Some (insert_values w i (pos w i k) vs)
    | Lerase i k => do (x, w) <- erase w i (pos w i k); do e <- deref w i x; Some (Rat e, w)
    | LeraseRange i a b => do (x, w) <- erase_range w i (pos w i a) (pos w i b); do e <- deref w i x; Some (Rat e, w)
    | Lresize i m v => resize w i m v
    | Lclear i => do w <- initialise w i; Some (Rok, w)
    | LremoveIf i p => do w <- remove_loop (fuel i) w i (nxt (hp w) (term i)) p; Some (Rok, w)
    | Lunique i eq => do w <- unique w i eq; Some (Rok, w)
    | Lreverse i => do w <- reverse w i; Some (Rok, w)
    | Lsort i lt => do w <- sort w i lt; Some (Rok, w)
    | Lassign i vs => assign w i vs
    | LassignN i m v => assign w i (repeat v m)
    | Lsplice i k j => splice w i (pos w i k) j
    | LspliceOne i k j m => splice_one w i (pos w i k) j (pos w j m)
    | LspliceRange i k j a b => splice_range w i (pos w i k) j (pos w j a) (pos w j b)
    | LspliceMove i k j => splice_move w i (pos w i k) j
    | LspliceRangeMove i k j a b => splice_range_move w i (pos w i k) j (pos w j a) (pos w j b)
    | Lmerge i j lt => merge w i j lt
    | LmoveFrom i j => move_container w i j
    (** list.h: 761-787 *)
    | Lfront i => do v <- val w (nxt (hp w) (term i)); Some (Rv v, w)
    | Lback i => do v <- val w (prv (hp w) (term i)); Some (Rv v, w)
    | Lsize i => do s <- size w i; Some (Rn s, w)
    | Lempty i => Some (Rb (is_empty w i), w)
    | Lfull i => Some (Rb (is_full w i), w)
    | Lavailable i => Some (Rn (length (free w (pool i))), w)
    | Lforward i => do l <- walk (fuel i) w (nxt (hp w)) (nxt (hp w) (term i)) (term i); Some (Rl l, w)
    | Lbackward i => do l <- walk (fuel i) w (prv (hp w)) (prv (hp w) (term i)) (term i); Some (Rl l, w)
    end.
  Fixpoint list_ops (os : list (lop A)) (w : world) : option (list (lres A) * world) :=
    match os with [] => Some ([], w) | o :: r => do (x, w) <- list_op o w; do (xs, w) <- list_ops r w; Some (x :: xs, w) end.
End Model.
(** the terminal nodes and the blocks of the pools are different objects; a list with its own pool shares it with no other *)
Record config_ok (n : nat) (term pool : nat -> nat) (shared : nat -> bool) (blocks : nat -> list nat) : Prop := {
  cfg_term : forall i j, i < n -> j < n -> term i = term j -> i = j;
  cfg_block : forall i p, i < n -> ~ In (term i) (blocks p);
  cfg_nodup : forall p, NoDup (blocks p);
  cfg_disjoint : forall p q x, In x (blocks p) -> In x (blocks q) -> p = q;
  cfg_shared : forall i j, i < n -> j < n -> shared i = false -> pool j = pool i -> j = i
}.
(** list.h: 349-372 (join of the terminal node with itself), 1841-1846, 2095-2099, ipool.h: 329-337: the lists have just been constructed *)
Definition constructed {A} (n : nat) (term : nat -> nat) (blocks : nat -> list nat) (w : @world A) : Prop :=
  (forall i, i < n -> nxt (hp w) (term i) = term i /\ prv (hp w) (term i) = term i) /\ forall p, free w p = blocks p.
