(** * Model of the interface of etl::map and etl::set over the balanced tree of AvlModel.v

    include/etl/map.h and include/etl/set.h.  An iterator is the address of a node, the end is the null pointer.
    To compare with a specification by positions, an iterator argument is given as the number of increments of begin()
    that reach it, and an iterator result is reported as the number of increments of begin() after which it is met.
    The exception configuration is modelled: a failed ETL_ASSERT throws and leaves the state as it is at that point.
    [fuel] bounds the loops; running out of it is [None].
    Not modelled: the overloads for a transparent comparator (same bodies), the rvalue overloads (same bodies),
    value_comp/key_comp, the reverse iterators (adaptors over the iterators modelled here). *)
From Coq Require Import List Arith Bool.
From Verif Require Import Util FlatSpec AvlModel.
Import ListNotations.

Section Map.
  Context {E K : Type}.
  Variable key : E -> K.
  Variable lt : K -> K -> bool.
  Variable N : nat.            (** CAPACITY *)
  Variable fl : flavour.       (** set or map *)
  Variable mk : K -> E.        (** value_type(key, mapped_type()) *)
  Notation st := (st E).
  Definition fuel := S (S N).

  (** map.h: 827-839 begin; set.h: 839-851 *)
  Definition m_begin (s : st) : option nat := find_limit_node fuel s (rt s) L.
  (** map.h: 632-637, 744-749 operator ++ of the iterator (2115-2141 next_node) *)
  Definition m_next (s : st) (x : nat) : option nat := next_node key lt fuel s x.
  Fixpoint m_advance (n : nat) (s : st) (x : nat) : option nat :=
    match n with 0 => Some x | S n => let? y := m_next s x in m_advance n s y end.
  (** an iterator argument *)
  Definition m_iter (s : st) (i : nat) : option nat := let? b := m_begin s in m_advance i s b.
  (** how an iterator result is reported: etl::distance(begin(), it) *)
  Fixpoint m_distance (n : nat) (s : st) (x to : nat) : option nat :=
    match n with
    | 0 => None
    | S n => if Nat.eqb x to then Some 0
             else if Nat.eqb x 0 then None
             else let? y := m_next s x in let? d := m_distance n s y to in Some (S d)
    end.
  Definition m_pos (s : st) (x : nat) : option nat := let? b := m_begin s in m_distance fuel s b x.
  (** for (it = begin(); it != end(); ++it) use *it *)
  Fixpoint m_walk (n : nat) (s : st) (x : nat) : option (list E) :=
    match n with
    | 0 => None
    | S n => if Nat.eqb x 0 then Some []
             else let? e := re s x in let? y := m_next s x in let? r := m_walk n s y in Some (e :: r)
    end.
  Definition m_contents (s : st) : option (list E) := let? b := m_begin s in m_walk fuel s b.

  (** map.h: 133-177 size, empty, full, available; set.h: 134-178 *)
  Definition m_full (s : st) : bool := Nat.eqb (sz s) N.
  (** map.h: 1169-1172 find; set.h: 1074-1077 *)
  Definition m_find (s : st) (k : K) : option nat := find_node key lt fuel s (rt s) k.

  (** what an insertion gives *)
  Inductive ins := Full | Node (x : nat) (inserted : bool).
  (** map.h: 1216-1223: allocate a node with the value, insert_node *)
  Definition m_add (s : st) (e : E) : option (st * ins) :=
    let? r := allocate s e in
    let '(s, node) := r in
    let? r := insert_node key lt fuel s node in
    let '(s, x) := r in
    Some (s, Node x (Nat.eqb x node)).
  (** map.h: 1207-1224 insert; set.h: 1112-1140 insert, which looks for the key when full *)
  Definition m_insert (s : st) (e : E) : option (st * ins) :=
    match fl with
    | Map_ => if m_full s then Some (s, Full) else m_add s e
    | Set_ => if m_full s then
                let? x := m_find s (key e) in
                if Nat.eqb x 0 then Some (s, Full) else Some (s, Node x false)
              else m_add s e
    end.
  (** map.h: 1308-1315 insert of a range; set.h: 1257-1264.  The flag says that the exception was thrown. *)
  Fixpoint m_insert_all (s : st) (es : list E) : option (st * bool) :=
    match es with
    | [] => Some (s, false)
    | e :: r => let? q := m_insert s e in
                match q with (s, Full) => Some (s, true) | (s, Node _ _) => m_insert_all s r end
    end.
  (** map.h: 1120-1130 erase(iterator); set.h: 1025-1035 *)
  Definition m_erase_at (s : st) (x : nat) : option (st * nat) :=
    let? ref := find_ref_loop key lt fuel s (rt s) x in
    let? nxt := m_next s ref in
    let? e := re s x in
    let? r := remove_node key lt fuel s (key e) in
    let '(s, _) := r in Some (s, nxt).
  (** map.h: 1154-1162 erase(first, last); set.h: 1059-1067 *)
  Fixpoint m_erase_range (n : nat) (s : st) (first last : nat) : option st :=
    match n with
    | 0 => None
    | S n => if Nat.eqb first last then Some s
             else let? r := m_erase_at s first in let '(s, first) := r in m_erase_range n s first last
    end.
  (** map.h: 1482-1490 initialise (clear, 1053-1056); set.h: 1393-1401 *)
  Definition m_clear (s : st) : option st := let? b := m_begin s in m_erase_range fuel s b 0.

  Definition m_op (o : fop E K) (s : st) : option (fres E * st) :=
    match o with
    | Finsert e =>
        let? r := m_insert s e in
        match r with
        | (s, Full) => Some (Rfull, s)
        | (s, Node x b) => let? i := m_pos s x in Some (Ritb i b, s)
        end
    | Femplace _ => None                                     (* there is no emplace *)
    | FinsertRange es =>
        let? r := m_insert_all s es in let '(s, f) := r in Some (if (f : bool) then Rfull else Runit, s)
    | Fassign es =>                                          (* map.h: 1044-1048; set.h: 940-944 *)
        let? s := m_clear s in
        let? r := m_insert_all s es in let '(s, f) := r in Some (if (f : bool) then Rfull else Runit, s)
    | FeraseKey k =>                                         (* map.h: 1135-1139; set.h: 1040-1044 *)
        let? r := remove_node key lt fuel s k in
        let '(s, f) := r in Some (Rn (if Nat.eqb f 0 then 0 else 1), s)
    | FeraseAt i =>
        let? x := m_iter s i in
        let? r := m_erase_at s x in
        let '(s, y) := r in let? j := m_pos s y in Some (Rit j, s)
    | FeraseRange a b =>
        let? x := m_iter s a in
        let? y := m_iter s b in
        let? s := m_erase_range fuel s x y in
        let? j := m_pos s y in Some (Rit j, s)
    | Fclear => let? s := m_clear s in Some (Runit, s)
    | Ffind k => let? x := m_find s k in let? i := m_pos s x in Some (Rit i, s)
    | Fcontains k => let? x := m_find s k in Some (Rb (negb (Nat.eqb x 0)), s)           (* map.h: 1454-1457; set.h: 1365-1368 *)
    | Fcount k => let? x := m_find s k in Some (Rn (if Nat.eqb x 0 then 0 else 1), s)    (* map.h: 1063-1066; set.h: 959-962 *)
    | FlowerBound k => let? x := find_lower_loop key lt fuel s (rt s) k 0 in let? i := m_pos s x in Some (Rit i, s)   (* map.h: 1323-1326, 1842-1878 *)
    | FupperBound k => let? x := find_upper_loop key lt fuel s (rt s) k 0 in let? i := m_pos s x in Some (Rit i, s)   (* map.h: 1363-1366, 1925-1958 *)
    | FequalRange k =>                                       (* map.h: 1081-1085; set.h: 977-981 *)
        let? x := find_lower_loop key lt fuel s (rt s) k 0 in
        let? y := find_upper_loop key lt fuel s (rt s) k 0 in
        let? i := m_pos s x in let? j := m_pos s y in Some (Rrange i j, s)
    | Fat k =>                                               (* map.h: 986-993; a set has no at *)
        match fl with
        | Set_ => None
        | Map_ => let? x := m_find s k in
                  if Nat.eqb x 0 then Some (Rout_of_bounds, s) else let? e := re s x in Some (Re e, s)
        end
    | Findex k =>                                            (* map.h: 956-978; a set has no operator[] *)
        match fl with
        | Set_ => None
        | Map_ => let? x := m_find s k in
                  if negb (Nat.eqb x 0) then let? e := re s x in Some (Re e, s)
                  else if m_full s then Some (Rfull, s)
                  else let? r := m_add s (mk k) in
                       match r with
                       | (s, Full) => Some (Rfull, s)
                       | (s, Node x _) => let? e := re s x in Some (Re e, s)
                       end
        end
    | Fcontents => let? l := m_contents s in Some (Rl l, s)
    | Fsize => Some (Rn (sz s), s)
    | Fempty => Some (Rb (Nat.eqb (sz s) 0), s)
    | Ffull => Some (Rb (m_full s), s)
    | Favailable => Some (Rn (N - sz s), s)
    end.
  Fixpoint m_ops (os : list (fop E K)) (s : st) : option (list (fres E) * st) :=
    match os with
    | [] => Some ([], s)
    | o :: r => let? q := m_op o s in let '(x, s) := q in
                let? q := m_ops r s in let '(xs, s) := q in Some (x :: xs, s)
    end.
  (** map.h: 1473-1479: the constructor; the nodes of the pool are [pool], whatever their fields hold *)
  Definition m_new (c : nat -> side -> nat) (w d : nat -> option side) (e : nat -> E) (pool : list nat) : st :=
    mkst c w d e (fun _ => false) 0 0 pool.
End Map.
