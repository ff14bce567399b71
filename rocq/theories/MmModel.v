(** * Model of etl::multimap and etl::multiset at the level of nodes and pointers.

    include/etl/multimap.h; the functions modelled here are textually the same in include/etl/multiset.h up to casts and
    their order in the file (checked by comparing the sources without comments), where the value is the key.

    The nodes are those of AvlModel.v with one more field, the pointer to the parent; it is kept as a separate function
    [g] beside the state [s].  Pointers, sides, undefined accesses ([None]) and fuel are as in AvlModel.v; the accessors
    rc, wc, ... and the functions that do not touch the parent (the re-weighing loop, find_limit_node, allocation) are the
    ones defined there.
    The exception configuration is modelled: a failed ETL_ASSERT throws and leaves the state as it is at that point.
    Not modelled: the overloads for a transparent comparator and the rvalue and const overloads (same bodies), the hint
    argument of insert (ignored by the code), copy and move assignment (assign / element-wise insert),
    value_comp/key_comp, the reverse iterators (adaptors over the iterators modelled here). *)
From Coq Require Import List Arith Bool.
From Verif Require Import Util FlatSpec AvlModel.
Import ListNotations.

Section Mm.
  Context {E K : Type}.
  Variable key : E -> K.
  Variable lt : K -> K -> bool.      (** key_compare *)
  Variable N : nat.                  (** CAPACITY *)
  Notation st := (st E).
  Definition par := nat -> nat.      (** the field parent of each node; multimap.h: 217 *)

  (** p->parent *)
  Definition rp (s : st) (g : par) p : option nat := if al s p then Some (g p) else None.
  Definition wp (s : st) (g : par) p x : option par := if al s p then Some (fupd g p x) else None.
  (** if (x) x->parent = p *)
  Definition wpn (s : st) (g : par) x p : option par := if Nat.eqb x 0 then Some g else wp s g x p.

  (** multimap.h: 306-342 rotate_2node *)
  Definition mrotate_2node (s : st) (g : par) (l : loc) (d : side) : option (st * par) :=
    let? p := rl s l in
    let? new_root := rc s p d in
    let? x := rc s new_root (opp d) in
    let? s := wc s p d x in
    let? g := wpn s g x p in
    let? gp := rp s g p in
    let? g := wp s g new_root gp in
    let? s := wc s new_root (opp d) p in
    let? s := wd s new_root (Some (opp d)) in
    let? s := ww s p None in
    let? g := wp s g p new_root in
    let? s := wl s l new_root in
    let? s := ww s new_root None in
    Some (s, g).
  (** multimap.h: 347-398 rotate_3node *)
  Definition mrotate_3node (s : st) (g : par) (l : loc) (d : side) (third : option side) : option (st * par) :=
    let? p := rl s l in
    let? c := rc s p d in
    let? new_root := rc s c (opp d) in
    let? s := ww s c (match third with Some t => if side_eqb t d then None else Some d | None => None end) in
    let? x := rc s new_root d in
    let? s := wc s c (opp d) x in
    let? g := wpn s g x c in
    let? s := wc s new_root d c in
    let? g := wp s g c new_root in
    let? s := ww s p (match third with Some t => if side_eqb t d then Some (opp d) else None | None => None end) in
    let? y := rc s new_root (opp d) in
    let? s := wc s p d y in
    let? g := wpn s g y p in
    let? gp := rp s g p in
    let? g := wp s g new_root gp in
    let? s := wc s new_root (opp d) p in
    let? s := wd s new_root (Some (opp d)) in
    let? g := wp s g p new_root in
    let? s := wl s l new_root in
    let? s := ww s new_root None in
    Some (s, g).
  (** multimap.h: 243-301 balance_node; the loop of 249-272 is AvlModel.reweigh *)
  Definition mbalance_node n (s : st) (g : par) (l : loc) : option (st * par) :=
    let? c := rl s l in
    let? d := ri s c in
    let? x := rc s c d in
    let? s := reweigh n s x in
    let? w := rw s c in
    if oside_eqb w None then let? s := ww s c (Some d) in Some (s, g)
    else if negb (oside_eqb (Some d) w) then let? s := ww s c None in Some (s, g)
    else
      let? x := rc s c d in
      let? xd := rd s x in
      if oside_eqb w xd then mrotate_2node s g l d
      else let? y := rc s x (opp d) in
           let? yd := rd s y in
           mrotate_3node s g l d yd.
  (** multimap.h: 560-573 attach_node, 208-215 mark_as_leaf *)
  Definition mattach_node (s : st) (g : par) (parent : nat) (l : loc) (p : nat) : option (st * par) :=
    let? s := ww s p None in
    let? s := wd s p None in
    let? s := wc s p L 0 in
    let? s := wc s p R 0 in
    let? g := wp s g p parent in
    let? s := wl s l p in
    Some (set_sz s (sz s + 1), g).
  (** multimap.h: 578-612 detach_node *)
  Definition mdetach_node (s : st) (g : par) (position replacement : loc) : option (st * par) :=
    let? detached := rl s position in
    let? swap := rl s replacement in
    let? s := wl s position swap in
    let? d := ri s swap in
    let? x := rc s swap (opp d) in
    let? s := wl s replacement x in
    let? sp := rp s g swap in
    let? g := wpn s g x sp in
    let? dp := rp s g detached in
    let? g := wp s g swap dp in
    let? a := rc s detached L in
    let? s := wc s swap L a in
    let? b := rc s detached R in
    let? s := wc s swap R b in
    let? a := rc s swap L in
    let? g := wpn s g a swap in
    let? b := rc s swap R in
    let? g := wpn s g b swap in
    let? w := rw s detached in
    let? s := ww s swap w in
    Some (s, g).

  (** multimap.h: 416-427, the climbing loop of next_node ([d] = kRight), 486-497 of prev_node ([d] = kLeft) *)
  Fixpoint mclimb (n : nat) (s : st) (g : par) (parent : nat) (d : side) : option nat :=
    match n with
    | 0 => None
    | S n =>
        let position := parent in
        let? parent := rp s g position in
        if Nat.eqb parent 0 then Some parent
        else let? c := rc s parent d in
             if Nat.eqb c position then mclimb n s g parent d else Some parent
    end.
  (** multimap.h: 403-430 next_node *)
  Definition mnext_node n (s : st) (g : par) (x : nat) : option nat :=
    if Nat.eqb x 0 then Some x
    else
      let? b := rc s x R in
      if Nat.eqb b 0 then mclimb n s g x R else find_limit_node n s b L.
  (** multimap.h: 467-500 prev_node *)
  Definition mprev_node n (s : st) (g : par) (x : nat) : option nat :=
    if Nat.eqb x 0 then find_limit_node n s (rt s) R
    else
      let? a := rc s x L in
      if Nat.eqb a 0 then mclimb n s g x L else find_limit_node n s a R.

  (** multimap.h: 1651-1679 find_node *)
  Fixpoint mfind_node (n : nat) (s : st) (x : nat) (k : K) (found : nat) : option nat :=
    match n with
    | 0 => None
    | S n =>
        if Nat.eqb x 0 then Some found
        else
          let? e := re s x in
          if lt k (key e) then let? y := rc s x L in mfind_node n s y k found
          else if lt (key e) k then let? y := rc s x R in mfind_node n s y k found
          else let? y := rc s x L in mfind_node n s y k x
    end.
  (** multimap.h: 1787-1823 find_lower_node *)
  Fixpoint mfind_lower (n : nat) (s : st) (x : nat) (k : K) (lower : nat) : option nat :=
    match n with
    | 0 => None
    | S n =>
        if Nat.eqb x 0 then Some lower
        else
          let? e := re s x in
          if lt k (key e) then
            let? a := rc s x L in
            if Nat.eqb a 0 then Some x else mfind_lower n s a k x
          else if lt (key e) k then let? b := rc s x R in mfind_lower n s b k lower
          else let? a := rc s x L in mfind_lower n s a k x
    end.
  (** multimap.h: 1870-1908 find_upper_node *)
  Fixpoint mfind_upper (n m : nat) (s : st) (g : par) (x : nat) (k : K) (found : bool) (upper : nat) : option nat :=
    match n with
    | 0 => None
    | S n =>
        if Nat.eqb x 0 then Some upper
        else
          let? e := re s x in
          if lt (key e) k then let? b := rc s x R in mfind_upper n m s g b k found upper
          else if lt k (key e) then
            let? a := rc s x L in
            if negb found && negb (Nat.eqb a 0) then mfind_upper n m s g a k found x else Some x
          else
            let? y := mnext_node m s g x in mfind_upper n m s g y k true upper
    end.

  (** multimap.h: 1969-2024, the loop of insert_node: (state, parents, found, critical parent, critical) *)
  Fixpoint minsert_loop (n : nat) (s : st) (g : par) (found cp c node : nat) : option (st * par * nat * nat * nat) :=
    match n with
    | 0 => None
    | S n =>
        if Nat.eqb found 0 then Some (s, g, found, cp, c)
        else
          let? w := rw s found in
          let c := match w with Some _ => found | None => c end in
          let? en := re s node in
          let? ef := re s found in
          let d := if lt (key en) (key ef) then L else if lt (key ef) (key en) then R else R in
          let? s := wd s found (Some d) in
          let? x := rc s found d in
          if negb (Nat.eqb x 0) then
            let? wx := rw s x in
            minsert_loop n s g x (match wx with Some _ => found | None => cp end) c node
          else
            let? r := mattach_node s g found (Lch found d) node in
            let '(s, g) := r in
            let? x := rc s found d in
            Some (s, g, x, cp, c)
    end.
  (** multimap.h: 1957-2057 insert_node, called with [position] = root_node *)
  Definition minsert_node n (s : st) (g : par) (node : nat) : option (st * par * nat) :=
    if Nat.eqb (rt s) 0 then
      let? r := mattach_node s g 0 Lroot node in
      let '(s, g) := r in Some (s, g, rt s)
    else
      let? r := minsert_loop n s g (rt s) 0 (rt s) node in
      let '(s, g, found, cp, c) := r in
      let? r :=
        if Nat.eqb c 0 then Some (s, g)
        else if Nat.eqb cp 0 && Nat.eqb c (rt s) then mbalance_node n s g Lroot
        else if Nat.eqb cp 0 then Some (s, g)
        else let? d := ri s cp in mbalance_node n s g (Lch cp d) in
      let '(s, g) := r in
      Some (s, g, found).

  (** multimap.h: 2078-2094, from the node to the root, the direction of each ancestor: gives the root *)
  Fixpoint mark_path (n : nat) (s : st) (g : par) (node : nat) : option (st * nat) :=
    match n with
    | 0 => None
    | S n =>
        let? p := rp s g node in
        if Nat.eqb p 0 then Some (s, node)
        else
          let? a := rc s p L in
          let? s := wd s p (Some (if Nat.eqb a node then L else R)) in
          mark_path n s g p
    end.
  (** multimap.h: 2117-2119, 2150-2152: the node absorbs the loss of a level on its side [d] *)
  Definition absorbs (s : st) (x : nat) (d : side) : option bool :=
    let? w := rw s x in
    match w with
    | None => Some true
    | Some w => if side_eqb w (opp d) then
                  let? o := rc s x (opp d) in
                  let? ow := rw s o in
                  Some (oside_eqb ow None)
                else Some false
    end.
  (** multimap.h: 2100-2128, down to the node to be removed: (state, node reached, balance) *)
  Fixpoint to_found (n : nat) (s : st) (node found balance : nat) : option (st * nat * nat) :=
    match n with
    | 0 => None
    | S n =>
        if Nat.eqb node 0 then Some (s, node, balance)
        else if Nat.eqb node found then
          let? a := rc s node L in
          let? s := wd s node (Some (if Nat.eqb a 0 then R else L)) in
          Some (s, node, balance)
        else
          let? d := ri s node in
          let? b := absorbs s node d in
          let? y := rc s node d in
          to_found n s y found (if (b : bool) then node else balance)
    end.
  (** multimap.h: 2136-2180, down to the replacement of the node with the value [e]: (state, replacement, balance) *)
  Fixpoint to_replace (n : nat) (s : st) (node : nat) (e : E) (balance : nat) : option (st * nat * nat) :=
    match n with
    | 0 => None
    | S n =>
        if Nat.eqb node 0 then Some (s, node, balance)
        else
          let? d := ri s node in
          let? y := rc s node d in
          if Nat.eqb y 0 then Some (s, node, balance)
          else
            let? b := absorbs s node d in
            let? ey := re s y in
            let? a := rc s y L in
            let? s := wd s y (Some (if lt (key e) (key ey) then L
                                    else if lt (key ey) (key e) then R
                                    else if Nat.eqb a 0 then R else L)) in
            to_replace n s y e (if (b : bool) then node else balance)
    end.
  (** multimap.h: 2194-2258, one round of the rebalancing at the node [b] with direction [d] *)
  Definition mrebalance_node (s : st) (g : par) (b : nat) (d : side) : option (st * par) :=
    let? w := rw s b in
    match w with
    | None => let? s := ww s b (Some (opp d)) in Some (s, g)
    | Some w' =>
        if side_eqb w' d then let? s := ww s b None in Some (s, g)
        else
          let? o := rc s b (opp d) in
          let? weight := rw s o in
          let? bp := rp s g b in
          let? l := below s bp in
          if oside_eqb weight (Some d) then
            let? y := rc s o d in
            let? yw := rw s y in
            mrotate_3node s g l (opp d) yw
          else if oside_eqb weight None then
            let? r := mrotate_2node s g l (opp d) in
            let '(s, g) := r in
            let? l := below s bp in
            let? x := rl s l in
            let? s := ww s x (Some d) in
            let? s := ww s b (Some (opp d)) in
            Some (s, g)
          else mrotate_2node s g l (opp d)
    end.
  (** multimap.h: 2184-2262 *)
  Fixpoint mrebalance_loop (n : nat) (s : st) (g : par) (b : nat) : option (st * par) :=
    match n with
    | 0 => None
    | S n =>
        if Nat.eqb b 0 then Some (s, g)
        else
          let? d := ri s b in
          let? y := rc s b d in
          if Nat.eqb y 0 then Some (s, g)
          else
            let? r := mrebalance_node s g b d in
            let '(s, g) := r in
            let? d := ri s b in
            let? y := rc s b d in
            mrebalance_loop n s g y
    end.
  (** multimap.h: 2063-2292 remove_node *)
  Definition mremove_node n (s : st) (g : par) (node : nat) : option (st * par) :=
    if Nat.eqb node 0 then Some (s, g)
    else
      let found := node in
      let? e := re s found in
      let? r := mark_path n s g node in
      let '(s, node) := r in
      let? r := to_found n s node found (rt s) in
      let '(s, node, balance) := r in
      let? r := to_replace n s node e balance in
      let '(s, node, balance) := r in
      let? r := mrebalance_loop n s g balance in
      let '(s, g) := r in
      let? fp := rp s g found in
      let? np := rp s g node in
      let? r :=
        if negb (Nat.eqb fp 0) then
          let? df := ri s fp in
          let? dn := ri s np in
          mdetach_node s g (Lch fp df) (Lch np dn)
        else if negb (Nat.eqb np 0) then
          let? dn := ri s np in
          mdetach_node s g Lroot (Lch np dn)
        else mdetach_node s g Lroot Lroot in
      let '(s, g) := r in
      let s := set_sz s (sz s - 1) in
      let? s := release s found in
      Some (s, g).

  (** ** the interface; an iterator is the address of a node, the end is the null pointer.
      Iterator arguments and results are reported by the number of increments of begin(), as in MapModel.v *)
  Definition mfuel := N + N + 4.
  Definition sp := (st * par)%type.
  (** multimap.h: 979-982 begin *)
  Definition mm_begin (q : sp) : option nat := find_limit_node mfuel (fst q) (rt (fst q)) L.
  (** multimap.h: 786-790, 897-901 operator ++ of the iterator *)
  Definition mm_next (q : sp) (x : nat) : option nat := mnext_node mfuel (fst q) (snd q) x.
  Fixpoint mm_advance (n : nat) (q : sp) (x : nat) : option nat :=
    match n with 0 => Some x | S n => let? y := mm_next q x in mm_advance n q y end.
  Definition mm_iter (q : sp) (i : nat) : option nat := let? b := mm_begin q in mm_advance i q b.
  (** etl::distance(begin(), it) *)
  Fixpoint mm_distance (n : nat) (q : sp) (x to : nat) : option nat :=
    match n with
    | 0 => None
    | S n => if Nat.eqb x to then Some 0
             else if Nat.eqb x 0 then None
             else let? y := mm_next q x in let? d := mm_distance n q y to in Some (S d)
    end.
  Definition mm_pos (q : sp) (x : nat) : option nat := let? b := mm_begin q in mm_distance mfuel q b x.
  (** for (it = begin(); it != end(); ++it) use *it *)
  Fixpoint mm_walk (n : nat) (q : sp) (x : nat) : option (list E) :=
    match n with
    | 0 => None
    | S n => if Nat.eqb x 0 then Some []
             else let? e := re (fst q) x in let? y := mm_next q x in let? r := mm_walk n q y in Some (e :: r)
    end.
  Definition mm_contents (q : sp) : option (list E) := let? b := mm_begin q in mm_walk mfuel q b.
  (** for (it = end(); it != begin(); ) use *--it; multimap.h: 799-803, 910-914 operator -- *)
  Fixpoint mm_back (n : nat) (q : sp) (x b : nat) : option (list E) :=
    match n with
    | 0 => None
    | S n => if Nat.eqb x b then Some []
             else let? y := mprev_node mfuel (fst q) (snd q) x in let? e := re (fst q) y in
                  let? r := mm_back n q y b in Some (e :: r)
    end.
  Definition mm_backwards (q : sp) : option (list E) := let? b := mm_begin q in mm_back mfuel q 0 b.

  (** multimap.h: 133-177 full *)
  Definition mm_full (q : sp) : bool := Nat.eqb (sz (fst q)) N.
  (** multimap.h: 1279-1294 insert: [None] in the result is the exception multimap_full *)
  Definition mm_insert (q : sp) (e : E) : option (sp * option nat) :=
    if mm_full q then Some (q, None)
    else
      let? r := allocate (fst q) e in
      let '(s, node) := r in
      let? r := minsert_node mfuel s (snd q) node in
      let '(s, g, x) := r in
      Some ((s, g), Some x).
  (** multimap.h: 1354-1361 insert of a range.  The flag says that the exception was thrown. *)
  Fixpoint mm_insert_all (q : sp) (es : list E) : option (sp * bool) :=
    match es with
    | [] => Some (q, false)
    | e :: r => let? q := mm_insert q e in
                match q with (q, None) => Some (q, true) | (q, Some _) => mm_insert_all q r end
    end.
  (** multimap.h: 1165-1178 erase(iterator) *)
  Definition mm_erase_at (q : sp) (x : nat) : option (sp * nat) :=
    let? nxt := mm_next q x in
    let? q := mremove_node mfuel (fst q) (snd q) x in
    Some (q, nxt).
  (** multimap.h: 1189-1195, 1228-1231: erase from [first] to [last]; gives the number of calls *)
  Fixpoint mm_erase_range (n : nat) (q : sp) (first last : nat) : option (sp * nat) :=
    match n with
    | 0 => None
    | S n => if Nat.eqb first last then Some (q, 0)
             else let? r := mm_erase_at q first in
                  let '(q, first) := r in
                  let? r := mm_erase_range n q first last in
                  let '(q, c) := r in Some (q, S c)
    end.
  (** multimap.h: 1528-1536 initialise (clear, 1089-1092) *)
  Definition mm_clear (q : sp) : option sp :=
    let? b := mm_begin q in let? r := mm_erase_range mfuel q b 0 in Some (fst r).
  (** multimap.h: 1241-1244 find *)
  Definition mm_find (q : sp) (k : K) : option nat := mfind_node mfuel (fst q) (rt (fst q)) k 0.
  (** multimap.h: 1369-1372 lower_bound, 1409-1412 upper_bound *)
  Definition mm_lower (q : sp) (k : K) : option nat := mfind_lower mfuel (fst q) (rt (fst q)) k 0.
  Definition mm_upper (q : sp) (k : K) : option nat := mfind_upper mfuel mfuel (fst q) (snd q) (rt (fst q)) k false 0.
  (** multimap.h: 1596-1609, the loop of count_nodes *)
  Fixpoint mm_count_loop (n : nat) (q : sp) (k : K) (lower upper : nat) : option nat :=
    match n with
    | 0 => None
    | S n => if Nat.eqb lower upper then Some 0
             else
               let? e := re (fst q) lower in
               let? y := mm_next q lower in
               let? c := mm_count_loop n q k y upper in
               Some (if negb (lt k (key e)) && negb (lt (key e) k) then S c else c)
    end.

  Definition mm_op (o : fop E K) (q : sp) : option (fres E * sp) :=
    match o with
    | Finsert e =>
        let? r := mm_insert q e in
        match r with
        | (q, None) => Some (Rfull, q)
        | (q, Some x) => let? i := mm_pos q x in Some (Ritb i true, q)
        end
    | Femplace _ | Fat _ | Findex _ => None                  (* there is no such function *)
    | FinsertRange es =>
        let? r := mm_insert_all q es in let '(q, f) := r in Some (if (f : bool) then Rfull else Runit, q)
    | Fassign es =>                                          (* multimap.h: 1080-1084 *)
        let? q := mm_clear q in
        let? r := mm_insert_all q es in let '(q, f) := r in Some (if (f : bool) then Rfull else Runit, q)
    | FeraseKey k =>                                         (* multimap.h: 1183-1199 *)
        let? x := mm_lower q k in
        let? y := mm_upper q k in
        let? r := mm_erase_range mfuel q x y in
        let '(q, c) := r in Some (Rn c, q)
    | FeraseAt i =>
        let? x := mm_iter q i in
        let? r := mm_erase_at q x in
        let '(q, y) := r in let? j := mm_pos q y in Some (Rit j, q)
    | FeraseRange a b =>                                     (* multimap.h: 1226-1234 *)
        let? x := mm_iter q a in
        let? y := mm_iter q b in
        let? r := mm_erase_range mfuel q x y in
        let '(q, _) := r in
        let? j := mm_pos q y in Some (Rit j, q)
    | Fclear => let? q := mm_clear q in Some (Runit, q)
    | Ffind k => let? x := mm_find q k in let? i := mm_pos q x in Some (Rit i, q)
    | Fcontains k => let? x := mm_find q k in Some (Rb (negb (Nat.eqb x 0)), q)          (* multimap.h: 1500-1503 *)
    | Fcount k =>                                            (* multimap.h: 1099-1102, 1589-1613 count_nodes *)
        let? x := mm_lower q k in
        let? y := mm_upper q k in
        let? c := mm_count_loop mfuel q k x y in Some (Rn c, q)
    | FlowerBound k => let? x := mm_lower q k in let? i := mm_pos q x in Some (Rit i, q)
    | FupperBound k => let? x := mm_upper q k in let? i := mm_pos q x in Some (Rit i, q)
    | FequalRange k =>                                       (* multimap.h: 1117-1121 *)
        let? x := mm_lower q k in
        let? y := mm_upper q k in
        let? i := mm_pos q x in let? j := mm_pos q y in Some (Rrange i j, q)
    | Fcontents => let? l := mm_contents q in Some (Rl l, q)
    | Fsize => Some (Rn (sz (fst q)), q)
    | Fempty => Some (Rb (Nat.eqb (sz (fst q)) 0), q)
    | Ffull => Some (Rb (mm_full q), q)
    | Favailable => Some (Rn (N - sz (fst q)), q)
    end.
  Fixpoint mm_ops (os : list (fop E K)) (q : sp) : option (list (fres E) * sp) :=
    match os with
    | [] => Some ([], q)
    | o :: r => let? p := mm_op o q in let '(x, q) := p in
                let? p := mm_ops r q in let '(xs, q) := p in Some (x :: xs, q)
    end.
  (** the constructor, multimap.h: 226-231, 1519-1523; the nodes of the pool are [pool], whatever their fields hold *)
  Definition mm_new (c : nat -> side -> nat) (w d : nat -> option side) (e : nat -> E) (g : par) (pool : list nat) : sp :=
    (mkst c w d e (fun _ => false) 0 0 pool, g).
End Mm.
