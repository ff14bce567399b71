(** intrusive_links.h (forward and bidirectional links), intrusive_stack.h, intrusive_queue.h and
    intrusive_list.h. A node is its address; address 0 is ETL_NULLPTR. [links] (Dll.v) holds etl_next and
    etl_previous of every node. The fields of node 0 are never meant to be used. *)
From Coq Require Import List Arith Bool.
From Verif Require Import SortSpec ListSpec Dll ListModel.
Import ListNotations.
Local Notation "'do' x <- e ; f" := (match e with Some x => f | None => None end) (at level 200, x pattern, e at level 100, f at level 200, right associativity).

(** ** bidirectional links *)
(** intrusive_links.h: 449-453 *)
Definition clear_node (h : links) (x : nat) : links := set_nxt (set_prv h x 0) x 0.
(** 457-460 *)
Definition is_linked (h : links) (x : nat) : bool := negb (prv h x =? 0) || negb (nxt h x =? 0).
(** 522-537; also 753-757 *)
Definition unlink (h : links) (x : nat) : links :=
  let h := if prv h x =? 0 then h else set_nxt h (prv h x) (nxt h x) in
  let h := if nxt h x =? 0 then h else set_prv h (nxt h x) (prv h x) in
  clear_node h x.
(** 561-566: references *)
Definition link (h : links) (lhs rhs : nat) : links := set_prv (set_nxt h lhs rhs) rhs lhs.
(** 571-583: pointers *)
Definition link_p (h : links) (lhs rhs : nat) : links :=
  let h := if lhs =? 0 then h else set_nxt h lhs rhs in
  if rhs =? 0 then h else set_prv h rhs lhs.
(** 616-628: references *)
Definition link_splice (h : links) (lhs rhs : nat) : links :=
  let h := set_nxt h rhs (nxt h lhs) in
  let h := set_prv h rhs lhs in
  let h := if nxt h lhs =? 0 then h else set_prv h (nxt h lhs) rhs in
  set_nxt h lhs rhs.
(** 635-657: pointers *)
Definition link_splice_p (h : links) (lhs rhs : nat) : links :=
  let h := if rhs =? 0 then h
           else let h := if lhs =? 0 then h else set_nxt h rhs (nxt h lhs) in set_prv h rhs lhs in
  if lhs =? 0 then h
  else let h := if nxt h lhs =? 0 then h else set_prv h (nxt h lhs) rhs in set_nxt h lhs rhs.
(** 682-701: pointer and reference *)
Definition link_splice_pr (h : links) (lhs rhs : nat) : links :=
  let h := if lhs =? 0 then h else set_nxt h rhs (nxt h lhs) in
  let h := set_prv h rhs lhs in
  if lhs =? 0 then h
  else let h := if nxt h lhs =? 0 then h else set_prv h (nxt h lhs) rhs in set_nxt h lhs rhs.
(** 706-718: references *)
Definition link_splice_range (h : links) (lhs first last : nat) : links :=
  let h := set_nxt h last (nxt h lhs) in
  let h := set_prv h first lhs in
  let h := if nxt h last =? 0 then h else set_prv h (nxt h last) last in
  set_nxt h lhs first.
(** 723-746: pointer and references *)
Definition link_splice_range_p (h : links) (lhs first last : nat) : links :=
  let h := if lhs =? 0 then set_nxt h last 0 else set_nxt h last (nxt h lhs) in
  let h := set_prv h first lhs in
  let h := if nxt h last =? 0 then h else set_prv h (nxt h last) last in
  if lhs =? 0 then h else set_nxt h lhs first.
(** 762-787 *)
Definition unlink_range (h : links) (first last : nat) : links :=
  if first =? last then unlink h first
  else
    let h := if nxt h last =? 0 then h else set_prv h (nxt h last) (prv h first) in
    let h := if prv h first =? 0 then h else clear_node (set_nxt h (prv h first) (nxt h last)) last in
    set_nxt (set_prv h first 0) last 0.
(** 810-821. None: [f] used up *)
Fixpoint link_clear_range (f : nat) (h : links) (current : nat) : option links :=
  if current =? 0 then Some h
  else match f with
       | 0 => None
       | S f => let next := nxt h current in link_clear_range f (clear_node h current) next
       end.

(** ** forward links: etl_next only *)
Definition fset (n : nat -> nat) (x v : nat) : nat -> nat := fun y => if y =? x then v else n y.
(** 180-217 *)
Definition f_link (n : nat -> nat) (lhs rhs : nat) : nat -> nat := fset n lhs rhs.
(** 224-229, 265-273 *)
Definition f_link_splice (n : nat -> nat) (lhs rhs : nat) : nat -> nat := fset (fset n rhs (n lhs)) lhs rhs.
(** 278-283 *)
Definition f_link_splice_range (n : nat -> nat) (lhs first last : nat) : nat -> nat := fset (fset n last (n lhs)) lhs first.
(** 307-319 *)
Definition unlink_after (n : nat -> nat) (node : nat) : nat * (nat -> nat) :=
  if n node =? 0 then (n node, n)
  else let unlinked := n node in (unlinked, fset (fset n node (n unlinked)) unlinked 0).
(** 324-336 *)
Definition unlink_after_range (n : nat -> nat) (before last : nat) : nat * (nat -> nat) :=
  let first := n before in
  if before =? last then (first, n) else (first, fset (fset n before (n last)) last 0).

Inductive outcome := Ok | Already_linked | Empty_error.
(** ** intrusive_stack.h. [term] is the address of terminator (its etl_next is null) *)
Record stack := mkstack { snext : nat -> nat; p_top : nat; ssize : nat }.
Section Stack.
Variable term : nat.
(** 102-110 *)
Definition s_push (s : stack) (x : nat) : outcome * stack :=
  if snext s x =? 0 then (Ok, mkstack (fset (snext s) x (p_top s)) x (ssize s + 1)) else (Already_linked, s).
(** 116-125; [check]: ETL_CHECK_PUSH_POP *)
Definition s_pop (check : bool) (s : stack) : outcome * stack :=
  if check && (ssize s =? 0) then (Empty_error, s)
  else let p_next := snext s (p_top s) in (Ok, mkstack (fset (snext s) (p_top s) 0) p_next (ssize s - 1)).
(** 143-158 *)
Fixpoint s_reverse_loop (f : nat) (n : nat -> nat) (previous current : nat) : option ((nat -> nat) * nat) :=
  if current =? term then Some (n, previous)
  else match f with
       | 0 => None
       | S f => let next := n current in s_reverse_loop f (fset n current previous) current next
       end.
Definition s_reverse (s : stack) : option stack :=
  do (n, top) <- s_reverse_loop (ssize s) (snext s) term (p_top s); Some (mkstack n top (ssize s)).
(** 163-171 *)
Fixpoint s_clear_loop (f : nat) (s : stack) : option stack :=
  if ssize s =? 0 then Some (mkstack (snext s) (p_top s) 0)
  else match f with 0 => None | S f => s_clear_loop f (snd (s_pop false s)) end.
Definition s_clear (s : stack) : option stack := s_clear_loop (ssize s) s.
End Stack.

(** ** intrusive_queue.h: terminator.etl_next is the front *)
Record queue := mkqueue { qnext : nat -> nat; p_back : nat; qsize : nat }.
Section Queue.
Variable term : nat.
(** 102-119 *)
Definition q_push (s : queue) (x : nat) : outcome * queue :=
  if qnext s x =? 0 then
    let n := if qsize s =? 0 then fset (qnext s) term x else fset (qnext s) (p_back s) x in
    (Ok, mkqueue (fset n x term) x (qsize s + 1))
  else (Already_linked, s).
(** 125-144: empty() is evaluated before the size is reduced *)
Definition q_pop (check : bool) (s : queue) : outcome * queue :=
  if check && (qsize s =? 0) then (Empty_error, s)
  else
    let p_front := qnext s term in
    let n := fset (fset (qnext s) term (qnext s p_front)) p_front 0 in
    (Ok, mkqueue n (if qsize s =? 0 then term else p_back s) (qsize s - 1)).
(** 162-170 *)
Fixpoint q_clear_loop (f : nat) (s : queue) : option queue :=
  if qsize s =? 0 then Some (mkqueue (qnext s) (p_back s) 0)
  else match f with 0 => None | S f => q_clear_loop f (snd (q_pop false s)) end.
Definition q_clear (s : queue) : option queue := q_clear_loop (qsize s) s.
End Queue.

(** ** intrusive_list.h: an object is the address of terminal_link and current_size *)
Record ilist := mkilist { trm : nat; isize : nat }.
Section IList.
Context {V : Type}.
Variable value : nat -> V.               (** the value of the object that contains the node *)
Variable fuel : nat.                     (** bound of every loop; None when it is used up *)
(** 373-377 *)
Definition initialise (h : links) (l : ilist) : links * ilist := (link h (trm l) (trm l), mkilist (trm l) 0).
(** 283-297 *)
Definition insert_link (h : links) (l : ilist) (previous x : nat) : links * ilist := (link_splice h previous x, mkilist (trm l) (isize l + 1)).
(** 323-336 *)
Definition disconnect_link (h : links) (l : ilist) (x : nat) : links * ilist := (unlink h x, mkilist (trm l) (isize l - 1)).
(** 245-256 *)
Definition i_empty (h : links) (l : ilist) : bool := nxt h (trm l) =? trm l.
(** 163-200 *)
Definition i_push_front (h : links) (l : ilist) (x : nat) : outcome * (links * ilist) :=
  if is_linked h x then (Already_linked, (h, l)) else (Ok, insert_link h l (trm l) x).
Definition i_push_back (h : links) (l : ilist) (x : nat) : outcome * (links * ilist) :=
  if is_linked h x then (Already_linked, (h, l)) else (Ok, insert_link h l (prv h (trm l)) x).
Definition i_pop_front (check : bool) (h : links) (l : ilist) : outcome * (links * ilist) :=
  if check && i_empty h l then (Empty_error, (h, l)) else (Ok, disconnect_link h l (nxt h (trm l))).
Definition i_pop_back (check : bool) (h : links) (l : ilist) : outcome * (links * ilist) :=
  if check && i_empty h l then (Empty_error, (h, l)) else (Ok, disconnect_link h l (prv h (trm l))).
(** 210-215 *)
Fixpoint clear_loop (f : nat) (h : links) (p stop : nat) : option links :=
  if p =? stop then Some h else match f with 0 => None | S f => let next := nxt h p in clear_loop f (clear_node h p) next stop end.
(** 205-218 *)
Definition i_clear (h : links) (l : ilist) : option (links * ilist) :=
  do h <- clear_loop fuel h (nxt h (trm l)) (trm l); Some (initialise h l).
(** 275-278, 223-240: the loop is that of list.h *)
Definition i_trivial (h : links) (l : ilist) : bool := (nxt h (trm l) =? trm l) || (nxt h (nxt h (trm l)) =? trm l).
Definition i_reverse (h : links) (l : ilist) : option (links * ilist) :=
  if i_trivial h l then Some (h, l) else do h <- reverse_loop fuel h (nxt h (trm l)) (trm l); Some (h, l).
(** 139-158: link_splice takes a pointer *)
Fixpoint assign_loop (h : links) (l : ilist) (p_last : nat) (xs : list nat) : links * ilist :=
  match xs with [] => (h, l) | x :: r => assign_loop (link_splice_pr h p_last x) (mkilist (trm l) (isize l + 1)) x r end.
Definition i_assign (h : links) (l : ilist) (xs : list nat) : links * ilist := let (h, l) := initialise h l in assign_loop h l (trm l) xs.
(** 771-775, 781-789 *)
Definition i_insert (h : links) (l : ilist) (position x : nat) : links * ilist := (link_splice_pr h (prv h position) x, mkilist (trm l) (isize l + 1)).
Fixpoint i_insert_range (h : links) (l : ilist) (position : nat) (xs : list nat) : links * ilist :=
  match xs with [] => (h, l) | x :: r => let (h, l) := insert_link h l (prv h position) x in i_insert_range h l position r end.
(** 794-802: the position after the erased one *)
Definition i_erase (h : links) (l : ilist) (position : nat) : nat * (links * ilist) := (nxt h position, disconnect_link h l position).
(** etl::distance of two list iterators *)
Fixpoint distance (f : nat) (h : links) (p stop : nat) : option nat :=
  if p =? stop then Some 0 else match f with 0 => None | S f => do d <- distance f h (nxt h p) stop; Some (S d) end.
(** 425-445, 821-841: link takes pointers *)
Definition i_erase_range (h : links) (l : ilist) (first last : nat) : option (nat * (links * ilist)) :=
  do d <- distance fuel h first last;
  let h := link_p h (prv h first) last in
  do h <- clear_loop fuel h first last; Some (last, (h, mkilist (trm l) (isize l - d))).
(** 382-397 *)
Fixpoint in_list (f : nat) (h : links) (p stop x : nat) : option bool :=
  if p =? stop then Some false
  else if x =? p then Some true
  else match f with 0 => None | S f => in_list f h (nxt h p) stop x end.
(** 403-420, 846-849: the next node or null *)
Definition i_erase_node (h : links) (l : ilist) (x : nat) : option (nat * (links * ilist)) :=
  do b <- in_list fuel h (nxt h (trm l)) (trm l) x;
  if b then let next := nxt h x in Some (if next =? trm l then 0 else next, disconnect_link h l x) else Some (0, (h, l)).
(** 1046-1060; 1025-1041 with equality to a value *)
Fixpoint remove_loop (f : nat) (h : links) (l : ilist) (it : nat) (p : V -> bool) : option (links * ilist) :=
  if it =? trm l then Some (h, l)
  else match f with
       | 0 => None
       | S f => if p (value it) then let '(it, (h, l)) := i_erase h l it in remove_loop f h l it p else remove_loop f h l (nxt h it) p
       end.
Definition i_remove_if (h : links) (l : ilist) (p : V -> bool) : option (links * ilist) := remove_loop fuel h l (nxt h (trm l)) p.
(** 856-880 *)
Fixpoint unique_loop (f : nat) (h : links) (l : ilist) (item previous : nat) (eq : V -> V -> bool) : option (links * ilist) :=
  if item =? trm l then Some (h, l)
  else match f with
       | 0 => None
       | S f => if eq (value previous) (value item) then let '(item, (h, l)) := i_erase h l item in unique_loop f h l item previous eq
                else unique_loop f h l (nxt h item) item eq
       end.
Definition i_unique (h : links) (l : ilist) (eq : V -> V -> bool) : option (links * ilist) :=
  if i_empty h l then Some (h, l) else unique_loop fuel h l (nxt h (nxt h (trm l))) (nxt h (trm l)) eq.
(** 915-1020: the loops are those of list.h: 1701-1788 (etl::link with references or non-null pointers is
    list.h's join); list_size (int) does not overflow *)
Definition i_sort (h : links) (l : ilist) (lt : V -> V -> bool) : option (links * ilist) :=
  if i_trivial h l then Some (h, l)
  else do h <- sort_loop (fun _ => trm l) (fun _ => 0) (fun _ => repeat 0 fuel) fuel
                 {| hp := h; val := fun x => Some (value x); free := fun _ => [] |} 0 h lt 1;
       Some (h, l).
(** 1066-1090 (two different lists) *)
Definition i_splice (h : links) (l : ilist) (position : nat) (other : ilist) : links * ilist * ilist :=
  if i_empty h other then (h, l, other)
  else
    let first := nxt h (trm other) in
    let last := prv h (trm other) in
    let l := mkilist (trm l) (isize l + isize other) in
    let before := prv h position in
    let h := link h before first in
    let h := link h last position in
    let (h, other) := initialise h other in (h, l, other).
(** 1095-1107 *)
Definition i_splice_one (h : links) (l : ilist) (position : nat) (other : ilist) (same : bool) (source : nat) : links * ilist * ilist :=
  let before := prv h position in
  let h := unlink h source in
  let h := link_splice h before source in
  if same then (h, l, other) else (h, mkilist (trm l) (isize l + 1), mkilist (trm other) (isize other - 1)).
(** 1112-1134 *)
Definition i_splice_range (h : links) (l : ilist) (position : nat) (other : ilist) (same : bool) (begin_ end_ : nat) : option (links * ilist * ilist) :=
  if i_empty h other then Some (h, l, other)
  else
    do n <- distance fuel h begin_ end_;
    let '(l, other) := if same then (l, other) else (mkilist (trm l) (isize l + n), mkilist (trm other) (isize other - n)) in
    let first := begin_ in
    let last := prv h end_ in
    let h := unlink_range h first last in
    let before := prv h position in
    Some (link_splice_range h before first last, l, other).
(** 1163-1181; the two inner loops are taken one step at a time *)
Fixpoint merge_loop (f : nat) (h : links) (tb te ob oe : nat) (lt : V -> V -> bool) : option (links * nat * nat) :=
  if (tb =? te) || (ob =? oe) then Some (h, tb, ob)
  else match f with
       | 0 => None
       | S f => if lt (value ob) (value tb)
                then let v := ob in let ob := nxt h ob in merge_loop f (link_splice h (prv h tb) v) tb te ob oe lt
                else merge_loop f h (nxt h tb) te ob oe lt
       end.
(** 1148-1193 (two different lists) *)
Definition i_merge (h : links) (l other : ilist) (lt : V -> V -> bool) : option (links * ilist * ilist) :=
  if i_empty h other then Some (h, l, other)
  else
    do (h, tb, ob) <- merge_loop fuel h (nxt h (trm l)) (trm l) (nxt h (trm other)) (trm other) lt;
    let h := if (tb =? trm l) && negb (ob =? trm other) then link_splice_range h (prv h (trm l)) ob (prv h (trm other)) else h in
    let l := mkilist (trm l) (isize l + isize other) in
    let (h, other) := initialise h other in Some (h, l, other).
End IList.
