(** * Model of forward_list.h at the level of nodes and links.

    A node is its address, 0 is ETL_NULLPTR; [t] is the address of start_node, [blocks] are the nodes of the pool.
    [nx] holds the field next of every node, [vl] the value living in it.  The free nodes are a list, used and filled at its head
    (ipool.h: 344-404, PoolModel.v); releasing a node writes the pool's own link over its first word, which is next.
    [None]: undefined behaviour (a null pointer or a node without a value used) or a loop that does not end.
    Exceptions configuration, no ETL_IS_DEBUG_BUILD checks; a failed pool allocation throws pool_no_allocation.
    Simplifications: sizes in sort are unbounded; emplace_* are insertions of the value constructed; two lists at once (move assignment,
    operator= between lists) are not modelled, but other users of a shared pool are. *)
From Coq Require Import List Arith Bool.
From Verif Require Import SortSpec ListSpec FwdSpec.
Import ListNotations.
Local Notation "'do' x <- e ; f" := (match e with Some x => f | None => None end) (at level 200, x pattern, e at level 100, f at level 200, right associativity).
Section Model.
  Context {A : Type}.
  Variable t : nat.
  Variable blocks : list nat.
  Variables check shared triv : bool.    (** ETL_CHECK_PUSH_POP; pool_is_shared; T trivially destructible *)
  Record fworld := FW { nx : nat -> nat; vl : nat -> option A; fr : list nat }.
  Definition set {B} (f : nat -> B) (a : nat) (b : B) : nat -> B := fun x => if Nat.eqb x a then b else f x.
  Definition fuel : nat := S (S (length blocks)).
  (** forward_list.h: 329-332 *)
  Definition join (w : fworld) (a b : nat) : fworld := FW (set (nx w) a b) (vl w) (fr w).
  (** 1615-1619, 1488-1508; [None]: the pool is exhausted *)
  Definition alloc (w : fworld) (v : A) : option (nat * fworld) :=
    match fr w with [] => None | x :: r => Some (x, FW (nx w) (set (vl w) x (Some v)) r) end.
  (** 1624-1629 *)
  Definition destroy (w : fworld) (x : nat) : option fworld :=
    match vl w x with Some _ => Some (FW (set (nx w) x (hd 0 (fr w))) (set (vl w) x None) (x :: fr w)) | None => None end.
  (** 311-316 *)
  Definition insert_node_after (w : fworld) (position node : nat) : fworld :=
    let w := join w node (nx w position) in join w position node.
  (** 1597-1610 *)
  Definition remove_node_after (w : fworld) (node : nat) : option fworld :=
    let p := nx w node in
    if Nat.eqb p 0 then Some w else destroy (join w node (nx w p)) p.
  (** 211-233 *)
  Definition is_empty (w : fworld) : bool := Nat.eqb (nx w t) 0.
  Definition is_full (w : fworld) : bool := match fr w with [] => true | _ => false end.
  (** 185-206 *)
  Fixpoint count_loop (f : nat) (w : fworld) (p : nat) : option nat :=
    if Nat.eqb p 0 then Some 0 else match f with 0 => None | S f => do c <- count_loop f w (nx w p); Some (S c) end.
  Definition size (w : fworld) : option nat :=
    if shared then count_loop fuel w (nx w t) else Some (length blocks - length (fr w)).
  (** 419-423: before_begin() advanced k times *)
  Fixpoint pos_from (w : fworld) (p k : nat) : option nat :=
    match k with 0 => Some p | S k => if Nat.eqb p 0 then None else pos_from w (nx w p) k end.
  Definition pos (w : fworld) (k : nat) : option nat := pos_from w t k.
  (** the element at an iterator; [None] inside is end() *)
  Definition deref (w : fworld) (x : nat) : option (option A) := if Nat.eqb x 0 then Some None else do v <- vl w x; Some (Some v).

  (** 695-704, 708-717, 725-814 *)
  Definition push_front (w : fworld) (v : A) : fres A * fworld :=
    if check && is_full w then (Rfull, w)
    else match alloc w v with Some (x, w) => (Rok, insert_node_after w t x) | None => (Rpool, w) end.
  (** 820-826 *)
  Definition pop_front (w : fworld) : option (fres A * fworld) :=
    if check && is_empty w then Some (Rempty, w) else do w <- remove_node_after w t; Some (Rok, w).
  (** 887-895, 902-991 *)
  Definition insert_after (w : fworld) (p : nat) (v : A) : option nat * fworld :=
    if is_full w then (None, w)
    else match alloc w v with Some (x, w) => (Some x, insert_node_after w p x) | None => (None, w) end.
  (** 1001-1006 *)
  Fixpoint insert_n_loop (n : nat) (w : fworld) (p : nat) (v : A) : fworld :=
    match n with
    | 0 => w
    | S n => if is_full w then w else match alloc w v with Some (x, w) => insert_n_loop n (insert_node_after w p x) p v | None => w end
    end.
  (** 997-1014 *)
  Definition insert_after_n (w : fworld) (p n : nat) (v : A) : option nat * fworld :=
    if is_full w then (None, w)
    else let w := insert_n_loop n w p v in (Some (if 0 <? n then nx w p else p), w).
  (** 1020-1037 *)
  Fixpoint insert_range_loop (vs : list A) (w : fworld) (p : nat) : fres A * fworld :=
    match vs with
    | [] => (Rok, w)
    | v :: r => match alloc w v with Some (x, w) => let w := insert_node_after w p x in insert_range_loop r w (nx w p) | None => (Rpool, w) end
    end.
  (** 1042-1075 *)
  Definition erase_after (w : fworld) (p : nat) : option (nat * fworld) :=
    if Nat.eqb p 0 then Some (p, w)
    else let n := nx w p in
         if Nat.eqb n 0 then Some (n, w)
         else let n := nx w n in do w <- remove_node_after w p; Some (n, w).
  (** 1094-1099, 1473-1478 *)
  Fixpoint destroy_loop (f : nat) (w : fworld) (p last : nat) (next : nat) : option (nat * fworld) :=
    if Nat.eqb p last then Some (next, w)
    else match f with 0 => None | S f => let next := nx w p in do w <- destroy w p; destroy_loop f w next last next end.
  (** 1080-1114 *)
  Definition erase_after_range (w : fworld) (first last : nat) : option (nat * fworld) :=
    if negb (Nat.eqb first 0) && negb (Nat.eqb first last)
    then let next := nx w first in
         do (next, w) <- destroy_loop fuel (join w first last) next last next;
         Some (if Nat.eqb next 0 then 0 else last, w)
    else Some (0, w).
  (** ipool.h: 248-253 *)
  Definition release_all (w : fworld) : fworld := FW (nx w) (fun x => if existsb (Nat.eqb x) blocks then None else vl w x) blocks.
  (** 1457-1483, 620-623 *)
  Definition initialise (w : fworld) : option fworld :=
    do w <- (if negb (is_empty w)
             then if triv && negb shared then Some (release_all w)
                  else do (_, w) <- destroy_loop fuel w (nx w t) 0 0; Some w
             else Some w);
    Some (join w t 0).
  (** 656-668 *)
  Fixpoint assign_loop (vs : list A) (w : fworld) (p_last : nat) : fres A * fworld :=
    match vs with
    | [] => (Rok, w)
    | v :: r => if is_full w then (Rfull, w)
                else match alloc w v with Some (x, w) => let w := join w p_last x in let w := join w x 0 in assign_loop r w x | None => (Rpool, w) end
    end.
  (** 647-669 *)
  Definition assign (w : fworld) (vs : list A) : option (fres A * fworld) := do w <- initialise w; Some (assign_loop vs w t).
  (** 680-689 *)
  Fixpoint assign_n_loop (f n : nat) (w : fworld) (p_last : nat) (v : A) : option (fres A * fworld) :=
    do s <- size w;
    if s <? n
    then match f with
         | 0 => None
         | S f => match alloc w v with Some (x, w) => let w := join w p_last x in let w := join w x 0 in assign_n_loop f n w x v | None => Some (Rpool, w) end
         end
    else Some (Rok, w).
  (** 674-690 *)
  Definition assign_n (w : fworld) (n : nat) (v : A) : option (fres A * fworld) :=
    if length blocks <? n then Some (Rfull, w) else do w <- initialise w; assign_n_loop fuel n w t v.
  (** 860-865 *)
  Fixpoint resize_walk (f : nat) (w : fworld) (i n i_node i_last : nat) : option (nat * nat * nat) :=
    if (i <? n) && negb (Nat.eqb i_node 0)
    then match f with 0 => None | S f => resize_walk f w (S i) n (nx w i_node) i_node end
    else Some (i, i_node, i_last).
  (** 875-879 *)
  Fixpoint resize_grow (k : nat) (w : fworld) (i_last : nat) (v : A) : fres A * fworld :=
    match k with 0 => (Rok, w) | S k => match insert_after w i_last v with (Some x, w) => resize_grow k w x v | (None, w) => (Rfull, w) end end.
  (** 841-882 *)
  Definition resize (w : fworld) (n : nat) (v : A) : option (fres A * fworld) :=
    if length blocks <? n then Some (Rfull, w)
    else if Nat.eqb n 0 then do w <- initialise w; Some (Rok, w)
    else if is_empty w then assign_n w n v
    else do (i, i_node, i_last) <- resize_walk fuel w 0 n (nx w t) 0;
         if negb (Nat.eqb i_node 0) then do (_, w) <- erase_after_range w i_last 0; Some (Rok, w)
         else Some (resize_grow (n - i) w i_last v).
  (** 1369-1386, 1392-1409 *)
  Fixpoint remove_loop (f : nat) (w : fworld) (item last_item : nat) (p : A -> bool) : option fworld :=
    if Nat.eqb item 0 then Some w
    else match f with
         | 0 => None
         | S f => do v <- vl w item;
                  if p v then do (item, w) <- erase_after w last_item; remove_loop f w item last_item p
                  else remove_loop f w (nx w item) (nx w last_item) p
         end.
  Definition remove_if (w : fworld) (p : A -> bool) : option fworld := remove_loop fuel w (nx w t) t p.
  (** 1193-1218 *)
  Fixpoint unique_loop (f : nat) (w : fworld) (last current : nat) (eq : A -> A -> bool) : option fworld :=
    if Nat.eqb current 0 then Some w
    else match f with
         | 0 => None
         | S f => do c <- vl w current; do l <- vl w last;
                  do (w, last) <- (if eq c l then do w <- remove_node_after w last; Some (w, last) else Some (w, current));
                  unique_loop f w last (nx w last) eq
         end.
  Definition unique (w : fworld) (eq : A -> A -> bool) : option fworld :=
    if is_empty w then Some w else let last := nx w t in unique_loop fuel w last (nx w last) eq.
  (** 251-258 *)
  Fixpoint reverse_loop (f : nat) (w : fworld) (p_last p_current p_next : nat) : option (nat * fworld) :=
    if Nat.eqb p_next 0 then Some (p_current, w)
    else match f with
         | 0 => None
         | S f => let p_last := p_current in let p_current := p_next in let p_next := nx w p_current in
                  let w := join w p_current p_last in reverse_loop f w p_last p_current p_next
         end.
  (** 238-261 *)
  Definition reverse (w : fworld) : option fworld :=
    do s <- size w;
    if s <? 2 then Some w
    else let p_current := nx w t in let p_next := nx w p_current in
         let w := join w p_current 0 in
         do (p_current, w) <- reverse_loop fuel w t p_current p_next; Some (join w t p_current).
  (** 1287-1297 *)
  Fixpoint left_loop (k : nat) (w : fworld) (p_right : nat) : nat * nat :=
    match k with
    | 0 => (0, p_right)
    | S k => let p_right := nx w p_right in
             if Nat.eqb p_right 0 then (1, p_right) else let (s, r) := left_loop k w p_right in (S s, r)
    end.
  (** 1303-1349 *)
  Fixpoint sort_merge (f : nat) (w : fworld) (lt : A -> A -> bool) (p_left left_size p_right right_size p_head p_tail : nat) : option (fworld * nat * nat * nat) :=
    if (0 <? left_size) || ((0 <? right_size) && negb (Nat.eqb p_right 0))
    then match f with
         | 0 => None
         | S f =>
           do (p_node, p_left, left_size, p_right, right_size) <-
             (if Nat.eqb left_size 0 then Some (p_right, p_left, left_size, nx w p_right, right_size - 1)
              else if Nat.eqb right_size 0 || Nat.eqb p_right 0 then Some (p_left, nx w p_left, left_size - 1, p_right, right_size)
              else do a <- vl w p_right; do b <- vl w p_left;
                   if negb (lt a b) then Some (p_left, nx w p_left, left_size - 1, p_right, right_size)
                   else Some (p_right, p_left, left_size, nx w p_right, right_size - 1));
           let '(w, p_head, p_tail) := (if Nat.eqb p_head t then (join w p_head p_node, p_node, p_node) else (join w p_tail p_node, p_head, p_node)) in
           let w := join w p_tail 0 in
           sort_merge f w lt p_left left_size p_right right_size p_head p_tail
         end
    else Some (w, p_right, p_head, p_tail).
  (** 1280-1353 *)
  Fixpoint sort_pass (f : nat) (w : fworld) (lt : A -> A -> bool) (list_size p_left p_head p_tail : nat) : option (fworld * nat) :=
    if Nat.eqb p_left 0 then Some (w, 0)
    else match f with
         | 0 => None
         | S f => let (left_size, p_right) := left_loop list_size w p_left in
                  do (w, p_right, p_head, p_tail) <- sort_merge (2 * fuel) w lt p_left left_size p_right list_size p_head p_tail;
                  do (w, c) <- sort_pass f w lt list_size p_right p_head p_tail; Some (w, S c)
         end.
  (** 1272-1363 *)
  Fixpoint sort_loop (f : nat) (w : fworld) (lt : A -> A -> bool) (list_size : nat) : option fworld :=
    match f with
    | 0 => None
    | S f => do (w, merges) <- sort_pass fuel w lt list_size (nx w t) t t;
             if merges <=? 1 then Some w else sort_loop f w lt (list_size * 2)
    end.
  (** 1255-1270 *)
  Definition sort (w : fworld) (lt : A -> A -> bool) : option fworld :=
    do s <- size w; if s <? 2 then Some w else sort_loop fuel w lt 1.
  (** 1120-1138 *)
  Definition move_after (w : fworld) (from_before to_before : nat) : option fworld :=
    if Nat.eqb from_before to_before then Some w
    else let p_from := nx w from_before in
         if Nat.eqb p_from 0 then None
         else let w := join w from_before (nx w p_from) in
              let w := join w p_from (nx w to_before) in
              Some (join w to_before p_from).
  (** 1166-1169 *)
  Fixpoint final_loop (f : nat) (w : fworld) (p_final p_last : nat) : option nat :=
    if Nat.eqb (nx w p_final) p_last then Some p_final
    else match f with 0 => None | S f => if Nat.eqb (nx w p_final) 0 then None else final_loop f w (nx w p_final) p_last end.
  (** 1144-1178 *)
  Definition move_after_range (w : fworld) (first_before last to_before : nat) : option fworld :=
    if Nat.eqb first_before to_before || Nat.eqb last to_before then Some w
    else let p_first := nx w first_before in
         do p_final <- final_loop fuel w first_before last;
         let w := join w first_before (nx w p_final) in
         let w := join w p_final (nx w to_before) in
         Some (join w to_before p_first).
  (** iteration from begin() to end() *)
  Fixpoint walk (f : nat) (w : fworld) (p : nat) : option (list A) :=
    if Nat.eqb p 0 then Some [] else match f with 0 => None | S f => do v <- vl w p; do r <- walk f w (nx w p); Some (v :: r) end.
  Definition ok1 (o : option fworld) : option (fres A * fworld) := do w <- o; Some (Rok, w).
  Definition at1 (o : option (nat * fworld)) : option (fres A * fworld) := do (x, w) <- o; do v <- deref w x; Some (Rat v, w).
  (** one call; positions as in FwdSpec.v *)
  Definition fwd_op (o : fop A) (w : fworld) : option (fres A * fworld) :=
    match o with
    | FpushFront v => Some (push_front w v)
    | FpopFront => pop_front w
    | FinsertAfter k v => do p <- pos w k; match insert_after w p v with (Some x, w) => at1 (Some (x, w)) | (None, w) => Some (Rfull, w) end
    | FinsertAfterN k n v => do p <- pos w k; match insert_after_n w p n v with (Some x, w) => at1 (Some (x, w)) | (None, w) => Some (Rfull, w) end
    | FinsertAfterRange k vs => do p <- pos w k; Some (insert_range_loop vs w p)
    | FeraseAfter k => do p <- pos w k; at1 (erase_after w p)
    | FeraseAfterRange a b => do p <- pos w a; do q <- pos w b; at1 (erase_after_range w p q)
    | Fresize n v => resize w n v
    | Fclear => ok1 (initialise w)
    | Fassign vs => assign w vs
    | FassignN n v => assign_n w n v
    | FremoveIf p => ok1 (remove_if w p)
    | Funique eq => ok1 (unique w eq)
    | Freverse => ok1 (reverse w)
    | Fsort lt => ok1 (sort w lt)
    | FmoveAfter f g => do p <- pos w f; do q <- pos w g; ok1 (move_after w p q)
    | FmoveAfterRange a b g => do p <- pos w a; do q <- pos w b; do r <- pos w g; ok1 (move_after_range w p q r)
    (* 628-639 *)
    | Ffront => if is_empty w then None else do v <- vl w (nx w t); Some (Rv v, w)
    | Fsize => do s <- size w; Some (Rn s, w)
    | Fempty => Some (Rb (is_empty w), w)
    | Ffull => Some (Rb (is_full w), w)
    | Favailable => Some (Rn (length (fr w)), w)
    | Fall => do l <- walk fuel w (nx w t); Some (Rl l, w)
    end.
  Fixpoint fwd_ops (os : list (fop A)) (w : fworld) : option (list (fres A) * fworld) :=
    match os with [] => Some ([], w) | o :: r => do (x, w) <- fwd_op o w; do (xs, w) <- fwd_ops r w; Some (x :: xs, w) end.
End Model.
Arguments fworld : clear implicits.
