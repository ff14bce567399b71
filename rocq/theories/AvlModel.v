(** * Model of the balanced tree of etl::map / etl::set at the level of nodes and pointers.

    include/etl/map.h; the functions modelled here are textually the same in
    include/etl/set.h (checked by comparing the sources without comments), where
    the value is the key.

    A pointer is a number, 0 is the null pointer.  [side] is kLeft / kRight;
    the fields weight and dir hold [Some side] or [None] for kNeither.
    [al s p] says that the node [p] is currently allocated from the pool;
    dereferencing any other pointer is undefined ([None]).  Using a dir that is
    kNeither as an index is undefined.  Loops carry fuel; running out of it is
    also [None], so a result [Some] shows termination.

    Locations ([Node*&] parameters) are [Lroot] or a child field of a node. *)
From Coq Require Import List Arith Lia Bool.
From Verif Require Import Util.
Import ListNotations.

Inductive side := L | R.
Definition opp (d : side) : side := match d with L => R | R => L end.
Definition side_eqb (a b : side) : bool := match a, b with L, L | R, R => true | _, _ => false end.
(** equality of two fields of type uint_least8_t holding kLeft, kRight or kNeither *)
Definition oside_eqb (a b : option side) : bool :=
  match a, b with None, None => true | Some x, Some y => side_eqb x y | _, _ => false end.

Definition obind {A B} (m : option A) (f : A -> option B) : option B :=
  match m with Some a => f a | None => None end.
Notation "'let?' p := m 'in' k" := (obind m (fun p => k))
  (at level 200, p pattern, m at level 100, k at level 200).

Section Avl.
  Context {E K : Type}.
  Variable key : E -> K.
  Variable lt : K -> K -> bool.      (** key_compare *)

  (** map.h: 192-224 Node / Data_Node; 450-452 current_size, root_node; the pool *)
  Record st := mkst {
    ch : nat -> side -> nat;           (** children[kLeft], children[kRight] *)
    wt : nat -> option side;           (** weight *)
    dr : nat -> option side;           (** dir *)
    el : nat -> E;                     (** value *)
    al : nat -> bool;                  (** allocated from the pool *)
    rt : nat;                          (** root_node *)
    sz : nat;                          (** current_size *)
    fr : list nat }.                   (** free nodes of the pool, next to be allocated first *)

  Definition fupd {B} (f : nat -> B) (p : nat) (x : B) : nat -> B := fun q => if Nat.eqb q p then x else f q.
  Definition cupd (f : nat -> side -> nat) (p : nat) (d : side) (x : nat) : nat -> side -> nat :=
    fun q e => if Nat.eqb q p && side_eqb e d then x else f q e.
  Definition set_ch s p d x := mkst (cupd (ch s) p d x) (wt s) (dr s) (el s) (al s) (rt s) (sz s) (fr s).
  Definition set_wt s p w := mkst (ch s) (fupd (wt s) p w) (dr s) (el s) (al s) (rt s) (sz s) (fr s).
  Definition set_dr s p d := mkst (ch s) (wt s) (fupd (dr s) p d) (el s) (al s) (rt s) (sz s) (fr s).
  Definition set_el s p x := mkst (ch s) (wt s) (dr s) (fupd (el s) p x) (al s) (rt s) (sz s) (fr s).
  Definition set_rt s x := mkst (ch s) (wt s) (dr s) (el s) (al s) x (sz s) (fr s).
  Definition set_sz s n := mkst (ch s) (wt s) (dr s) (el s) (al s) (rt s) n (fr s).
  Definition set_pool s a f := mkst (ch s) (wt s) (dr s) (el s) a (rt s) (sz s) f.

  (** p->children[d], p->weight, p->dir, and p->dir used as an index *)
  Definition rc s p d : option nat := if al s p then Some (ch s p d) else None.
  Definition rw s p : option (option side) := if al s p then Some (wt s p) else None.
  Definition rd s p : option (option side) := if al s p then Some (dr s p) else None.
  Definition ri s p : option side := if al s p then dr s p else None.
  Definition re s p : option E := if al s p then Some (el s p) else None.
  Definition wc s p d x : option st := if al s p then Some (set_ch s p d x) else None.
  Definition ww s p w : option st := if al s p then Some (set_wt s p w) else None.
  Definition wd s p d : option st := if al s p then Some (set_dr s p d) else None.

  Inductive loc := Lroot | Lch (p : nat) (d : side).
  Definition rl s l : option nat := match l with Lroot => Some (rt s) | Lch p d => rc s p d end.
  Definition wl s l x : option st := match l with Lroot => Some (set_rt s x) | Lch p d => wc s p d x end.

  (** map.h: 1548-1552, 1497-1503 allocate_data_node: the pool hands out a node
      whose other fields are whatever they were (C18 is about the pool itself) *)
  Definition allocate s x : option (st * nat) :=
    match fr s with
    | [] => None
    | p :: f => Some (set_el (set_pool s (fupd (al s) p true) f) p x, p)
    end.
  (** map.h: 1557-1562 destroy_data_node *)
  Definition release s p : option st :=
    if al s p then Some (set_pool s (fupd (al s) p false) (p :: fr s)) else None.

  (** map.h: 310-335 rotate_2node.  [position] is read once: the location it
      names is not one of the fields written before the last assignment. *)
  Definition rotate_2node s (l : loc) (d : side) : option st :=
    let? p := rl s l in
    let? new_root := rc s p d in
    let? x := rc s new_root (opp d) in
    let? s := wc s p d x in
    let? s := wc s new_root (opp d) p in
    let? s := ww s p None in
    let? s := wl s l new_root in
    ww s new_root None.
  (** map.h: 340-375 rotate_3node *)
  Definition rotate_3node s (l : loc) (d : side) (third : option side) : option st :=
    let? p := rl s l in
    let? c := rc s p d in
    let? new_root := rc s c (opp d) in
    let? s := ww s c (match third with Some t => if side_eqb t d then None else Some d | None => None end) in
    let? x := rc s new_root d in
    let? s := wc s c (opp d) x in
    let? s := wc s new_root d c in
    let? s := ww s p (match third with Some t => if side_eqb t d then Some (opp d) else None | None => None end) in
    let? y := rc s new_root (opp d) in
    let? s := wc s p d y in
    let? s := wc s new_root (opp d) p in
    let? s := wl s l new_root in
    ww s new_root None.
  (** map.h: 252-276, the loop of balance_node *)
  Fixpoint reweigh (n : nat) s (x : nat) : option st :=
    match n with
    | 0 => None
    | S n =>
        if Nat.eqb x 0 then Some s
        else
          let? d := rd s x in
          match d with
          | Some d =>
              let? w := rw s x in
              let? s := ww s x (if oside_eqb w (Some (opp d)) then None else Some d) in
              let? y := rc s x d in
              reweigh n s y
          | None => Some s
          end
    end.
  (** map.h: 247-305 balance_node *)
  Definition balance_node n s (l : loc) : option st :=
    let? c := rl s l in
    let? d := ri s c in
    let? x := rc s c d in
    let? s := reweigh n s x in
    let? w := rw s c in
    match w with
    | None => ww s c (Some d)
    | Some w =>
        if side_eqb d w then
          let? x := rc s c d in
          let? xd := rd s x in
          if oside_eqb (Some w) xd then rotate_2node s l d
          else let? g := rc s x (opp d) in
               let? gd := rd s g in
               rotate_3node s l d gd
        else ww s c None
    end.
  (** map.h: 381-392 find_limit_node *)
  Fixpoint find_limit_node (n : nat) s (x : nat) (d : side) : option nat :=
    match n with
    | 0 => None
    | S n => if Nat.eqb x 0 then Some x
             else let? y := rc s x d in if Nat.eqb y 0 then Some x else find_limit_node n s y d
    end.
  (** map.h: 414-424 attach_node, 213-219 mark_as_leaf *)
  Definition attach_node s (l : loc) (p : nat) : option st :=
    let? s := ww s p None in
    let? s := wd s p None in
    let? s := wc s p L 0 in
    let? s := wc s p R 0 in
    let? s := wl s l p in
    Some (set_sz s (sz s + 1)).
  (** map.h: 429-448 detach_node *)
  Definition detach_node s (position replacement : loc) : option st :=
    let? detached := rl s position in
    let? swap := rl s replacement in
    let? s := wl s position swap in
    let? d := ri s swap in
    let? x := rc s swap (opp d) in
    let? s := wl s replacement x in
    let? a := rc s detached L in
    let? s := wc s swap L a in
    let? b := rc s detached R in
    let? s := wc s swap R b in
    let? w := rw s detached in
    ww s swap w.

  (** map.h: 1567-1595 find_node *)
  Fixpoint find_node (n : nat) s (x : nat) (k : K) : option nat :=
    match n with
    | 0 => None
    | S n =>
        if Nat.eqb x 0 then Some 0
        else
          let? e := re s x in
          if lt k (key e) then let? y := rc s x L in find_node n s y k
          else if lt (key e) k then let? y := rc s x R in find_node n s y k
          else Some x
    end.
  (** map.h: 1747-1789 find_parent_node *)
  Fixpoint find_parent_loop (n : nat) s (x node : nat) : option nat :=
    match n with
    | 0 => None
    | S n =>
        if Nat.eqb x 0 then Some 0
        else
          let? a := rc s x L in
          let? b := rc s x R in
          if negb (Nat.eqb a node) && negb (Nat.eqb b node) then
            let? en := re s node in
            let? ex := re s x in
            if lt (key en) (key ex) then find_parent_loop n s a node
            else if lt (key ex) (key en) then find_parent_loop n s b node
            else None  (* the loop would not end: position does not change *)
          else Some x
    end.
  Definition find_parent_node n s (x node : nat) : option nat :=
    if negb (Nat.eqb x 0) && negb (Nat.eqb node 0) && negb (Nat.eqb x node) then find_parent_loop n s x node
    else Some 0.
  (** map.h: 1701-1741 find_node by node: gives the node held by the location found *)
  Fixpoint find_ref_loop (n : nat) s (x node : nat) : option nat :=
    match n with
    | 0 => None
    | S n =>
        if Nat.eqb x 0 then Some (rt s)
        else
          let? a := rc s x L in
          let? b := rc s x R in
          if Nat.eqb a node then Some a
          else if Nat.eqb b node then Some b
          else
            let? en := re s node in
            let? ex := re s x in
            if lt (key en) (key ex) then find_ref_loop n s a node
            else if lt (key ex) (key en) then find_ref_loop n s b node
            else Some (rt s)
    end.
  (** map.h: 1842-1878 find_lower_node *)
  Fixpoint find_lower_loop (n : nat) s (x : nat) (k : K) (lower : nat) : option nat :=
    match n with
    | 0 => None
    | S n =>
        if Nat.eqb x 0 then Some lower
        else
          let? e := re s x in
          if lt k (key e) then
            let? a := rc s x L in
            if Nat.eqb a 0 then Some x else find_lower_loop n s a k x
          else if lt (key e) k then let? b := rc s x R in find_lower_loop n s b k lower
          else let? a := rc s x L in find_lower_loop n s a k x
    end.
  (** map.h: 1925-1958 find_upper_node *)
  Fixpoint find_upper_loop (n : nat) s (x : nat) (k : K) (upper : nat) : option nat :=
    match n with
    | 0 => None
    | S n =>
        if Nat.eqb x 0 then Some upper
        else
          let? e := re s x in
          if lt k (key e) then let? a := rc s x L in find_upper_loop n s a k x
          else if lt (key e) k then let? b := rc s x R in find_upper_loop n s b k upper
          else
            let? b := rc s x R in
            if Nat.eqb b 0 then Some upper else find_limit_node n s b L
    end.
  (** map.h: 2129-2139, the climbing loop of next_node ([d] = kRight) and
      2199-2209 of prev_node ([d] = kLeft) *)
  Fixpoint climb (n m : nat) s (parent : nat) (d : side) : option nat :=
    match n with
    | 0 => None
    | S n =>
        let position := parent in
        let? parent := find_parent_node m s (rt s) position in
        if Nat.eqb parent 0 then Some parent
        else let? c := rc s parent d in
             if Nat.eqb c position then climb n m s parent d else Some parent
    end.
  (** map.h: 2115-2141 next_node *)
  Definition next_node n s (x : nat) : option nat :=
    if Nat.eqb x 0 then Some x
    else
      let? b := rc s x R in
      if Nat.eqb b 0 then climb n n s x R else find_limit_node n s b L.
  (** map.h: 2179-2212 prev_node *)
  Definition prev_node n s (x : nat) : option nat :=
    if Nat.eqb x 0 then find_limit_node n s (rt s) R
    else
      let? a := rc s x L in
      if Nat.eqb a 0 then climb n n s x L else find_limit_node n s a R.

  (** map.h: 2014-2078, the loop of insert_node: (state, found, critical parent, critical) *)
  Fixpoint insert_loop (n : nat) s (found cp c node : nat) : option (st * nat * nat * nat) :=
    match n with
    | 0 => None
    | S n =>
        if Nat.eqb found 0 then Some (s, found, cp, c)
        else
          let? w := rw s found in
          let c := match w with Some _ => found | None => c end in
          let? en := re s node in
          let? ef := re s found in
          let go := fun d =>
            let? s := wd s found (Some d) in
            let? x := rc s found d in
            if Nat.eqb x 0 then
              let? s := attach_node s (Lch found d) node in
              let? x := rc s found d in
              Some (s, x, cp, c)
            else
              let? wx := rw s x in
              insert_loop n s x (match wx with Some _ => found | None => cp end) c node in
          if lt (key en) (key ef) then go L
          else if lt (key ef) (key en) then go R
          else
            let? s := wd s found None in
            let? s := release s node in
            Some (s, found, cp, 0)
    end.
  (** map.h: 2002-2110 insert_node, called with [position] = root_node *)
  Definition insert_node n s (node : nat) : option (st * nat) :=
    if Nat.eqb (rt s) 0 then
      let? s := attach_node s Lroot node in Some (s, rt s)
    else
      let? r := insert_loop n s (rt s) 0 (rt s) node in
      let '(s, found, cp, c) := r in
      let? s :=
        if Nat.eqb c 0 then Some s
        else if Nat.eqb cp 0 && Nat.eqb c (rt s) then balance_node n s Lroot
        else if Nat.eqb cp 0 then Some s
        else let? d := ri s cp in balance_node n s (Lch cp d) in
      Some (s, found).

  (** map.h: 2261-2316, step 1 of remove_node *)
  Record rm := mkrm { found_parent : nat; found : nat; replace_parent : nat; replace : nat;
                      balance_parent : nat; balance : nat }.
  Fixpoint remove_loop (n : nat) s (k : K) (v : rm) : option (st * rm) :=
    match n with
    | 0 => None
    | S n =>
        let x := replace v in
        if Nat.eqb x 0 then Some (s, v)
        else
          let? e := re s x in
          let? a := rc s x L in
          let '(d, v) :=
            if lt k (key e) then (L, v)
            else if lt (key e) k then (R, v)
            else (if Nat.eqb a 0 then R else L,
                  mkrm (replace_parent v) x (replace_parent v) x (balance_parent v) (balance v)) in
          let? s := wd s x (Some d) in
          let? y := rc s x d in
          if Nat.eqb y 0 then Some (s, v)
          else
            let? w := rw s x in
            let? absorb :=
              match w with
              | None => Some true
              | Some w => if side_eqb w (opp d) then
                            let? o := rc s x (opp d) in
                            let? ow := rw s o in
                            Some (oside_eqb ow None)
                          else Some false
              end in
            let v := if (absorb : bool)
                     then mkrm (found_parent v) (found v) (replace_parent v) x (replace_parent v) x else v in
            remove_loop n s k (mkrm (found_parent v) (found v) x y (balance_parent v) (balance v))
    end.
  (** the location of the node below [p] on the path, root_node if [p] is null *)
  Definition below s (p : nat) : option loc :=
    if Nat.eqb p 0 then Some Lroot else let? d := ri s p in Some (Lch p d).
  (** map.h: 2329-2403, one round of step 2 of remove_node at the node [b]: gives the new found_parent *)
  Definition rebalance_node s (fp f bp b : nat) (d : side) : option (st * nat) :=
    let? w := rw s b in
              match w with
              | None => let? s := ww s b (Some (opp d)) in Some (s, fp)
              | Some w' =>
                  if side_eqb w' d then let? s := ww s b None in Some (s, fp)
                  else
                    let? o := rc s b (opp d) in
                    let? weight := rw s o in
                    let? l := below s bp in
                    let? s :=
                      if oside_eqb weight (Some d) then
                        let? g := rc s o d in
                        let? gw := rw s g in
                        rotate_3node s l (opp d) gw
                      else if oside_eqb weight None then
                        let? s := rotate_2node s l (opp d) in
                        let? x := rl s l in
                        let? s := ww s x (Some d) in
                        ww s b (Some (opp d))
                      else rotate_2node s l (opp d) in
                    if Nat.eqb b f then
                      let? fp := rl s l in
                      let? c := rc s fp L in
                      let? s := wd s fp (Some (if Nat.eqb c f then L else R)) in
                      Some (s, fp)
                    else Some (s, fp)
              end.
  (** map.h: 2322-2408, step 2 of remove_node: gives the new found_parent *)
  Fixpoint rebalance_loop (n : nat) s (fp f bp b : nat) : option (st * nat) :=
    match n with
    | 0 => None
    | S n =>
        if Nat.eqb b 0 then Some (s, fp)
        else
          let? d := ri s b in
          let? y := rc s b d in
          if Nat.eqb y 0 then Some (s, fp)
          else
            let? r := rebalance_node s fp f bp b d in
            let '(s, fp) := r in
            let? y := rc s b d in
            rebalance_loop n s fp f b y
    end.
  (** map.h: 2256-2444 remove_node, called with [position] = root_node *)
  Definition remove_node n s (k : K) : option (st * nat) :=
    let? r := remove_loop n s k (mkrm 0 0 0 (rt s) 0 (rt s)) in
    let '(s, v) := r in
    if Nat.eqb (found v) 0 then Some (s, 0)
    else
      let? r := rebalance_loop n s (found_parent v) (found v) (balance_parent v) (balance v) in
      let '(s, fp) := r in
      let? pos := below s fp in
      let? rep := if negb (Nat.eqb fp 0) || negb (Nat.eqb (replace_parent v) 0)
                  then let? d := ri s (replace_parent v) in Some (Lch (replace_parent v) d)
                  else Some Lroot in
      let? s := detach_node s pos rep in
      let s := set_sz s (sz s - 1) in
      let? s := release s (found v) in
      Some (s, found v).
End Avl.
Arguments st : clear implicits.
