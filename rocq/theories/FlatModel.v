(** * Model of flat_set.h, flat_map.h, flat_multiset.h, flat_multimap.h and the reference_flat_*.h beneath them.

    The lookup vector holds addresses of blocks of the storage pool (a list; vector.h is modelled in Vec*.v).
    A block of the pool is [None] when it is free and [Some e] when it holds the element e.  [pick] is which free
    block pool::allocate hands out (PoolModel.v and C06 are about that); allocation and construction
    happen together, and so do destruction and release.  A search first reads all elements: in the code it reads only
    some of them, so a dangling pointer is reported more often here than there.
    The configuration has exceptions and ETL_IS_DEBUG_BUILD; a failed assertion returns [Rfull] or [Rout_of_bounds]. *)
From Coq Require Import List Arith Bool String.
From Verif Require Import Util Slots SortModel SortSpec FlatSpec PrioModel.
Import ListNotations.

Section Flat.
  Context {E K : Type}.
  Variable key : E -> K.
  Variable compare : K -> K -> bool.
  Variable N : nat.
  Variable unique : bool.
  Variable fl : flavour.
  Variable mk : K -> E.
  Variable triv : bool.                          (** etl::is_trivially_destructible<value_type> *)
  Variable pick : list (option E) -> option nat. (** the free block that allocate() returns *)

  Record flat : Type := { lookup : list nat; store : list (option E) }.
  Fixpoint deref (s : list (option E)) (lk : list nat) : M (list E) :=
    match lk with [] => V [] | p :: r => let* e := get s p in let* es := deref s r in V (e :: es) end.
  Definition elements (f : flat) : M (list E) := deref (store f) (lookup f).
  Definition size (f : flat) : nat := List.length (lookup f).
  (** flat_map.h: 939-945; reference_flat_map.h: 933-940 *)
  Definition full (f : flat) : bool := Nat.eqb (size f) N.

  (** reference_flat_map.h: 777-850 (flat_map.h: 766-838), reference_flat_set.h *)
  Definition f_lower (f : flat) (k : K) : M nat := let* es := elements f in lift (lower_bound_by es (fun e => compare (key e) k)).
  Definition f_upper (f : flat) (k : K) : M nat := let* es := elements f in lift (upper_bound_by es (fun e => compare k (key e))).
  (** reference_flat_map.h: 853-896: upper_bound(i_lower, end(), key) *)
  Definition f_equal_range (f : flat) (k : K) : M (nat * nat) :=
    let* a := f_lower f k in
    let* es := elements f in
    let* b := lift (upper_bound_by (skipn a es) (fun e => compare k (key e))) in V (a, a + b).
  Definition keys_are_equal (k1 k2 : K) : bool := negb (compare k1 k2) && negb (compare k2 k1).
  (** the element at a position of the lookup *)
  Definition elem (f : flat) (i : nat) : M E := match nth_error (lookup f) i with Some p => get (store f) p | None => UB end.
  (** reference_flat_map.h: 664-755, 898-913; the multi versions are the same *)
  Definition f_find (f : flat) (k : K) : M nat :=
    let* i := f_lower f k in
    if negb (Nat.eqb i (size f))
    then let* e := elem f i in V (if keys_are_equal (key e) k then i else size f)
    else V (size f).
  (** reference_flat_map.h: 758-774; reference_flat_multimap.h: 679-699 *)
  Definition f_count (f : flat) (k : K) : M nat :=
    if unique then let* i := f_find f k in V (if Nat.eqb i (size f) then 0 else 1)
    else let* r := f_equal_range f k in V (snd r - fst r).

  (** storage.allocate, placement new *)
  Definition make (f : flat) (e : E) : M (flat * nat) :=
    match pick (store f) with
    | Some p => match nth_error (store f) p with
                | Some None => V ({| lookup := lookup f; store := upd (store f) p (Some e) |}, p)
                | _ => UB
                end
    | None => UB
    end.
  (** ~value_type(), storage.release *)
  Definition drop (s : list (option E)) (p : nat) : M (list (option E)) :=
    match nth_error s p with Some (Some _) => V (upd s p None) | _ => UB end.
  (** reference_flat_map.h: 984-1013, reference_flat_set.h: 870-899, reference_flat_multimap.h: 909-929, reference_flat_multiset.h: 884-910 *)
  Definition insert_at (f : flat) (i p : nat) : M (fres E * flat) :=
    if Nat.eqb i (size f)
    then if full f then V (Rfull, f)
         else V (Ritb (size f) true, {| lookup := lookup f ++ [p]; store := store f |})
    else let* x := elem f i in let* e := get (store f) p in
         if negb unique || negb (keys_are_equal (key x) (key e))
         then if full f then V (Rfull, f)
              else V (Ritb i true, {| lookup := firstn i (lookup f) ++ p :: skipn i (lookup f); store := store f |})
         else V (Ritb i false, f).
  (** flat_map.h: 335-351, 1024-1046; flat_set.h: 230-275; flat_multimap.h: 256-297; flat_multiset.h: 226-267 *)
  Definition f_insert (f : flat) (e : E) : M (fres E * flat) :=
    if unique
    then let* i := f_lower f (key e) in
         let* new := (if Nat.eqb i (size f) then V true else let* x := elem f i in V (compare (key e) (key x))) in
         if new : bool
         then if full f then V (Rfull, f) else let* fp := make f e in insert_at (fst fp) i (snd fp)
         else V (Ritb i false, f)
    else if full f then V (Rfull, f)
         else let* i := f_upper f (key e) in let* fp := make f e in insert_at (fst fp) i (snd fp).
  (** flat_map.h: 429-457; flat_set.h: 329-358; flat_multimap.h: 365-382; flat_multiset.h: 322-336.
      The element is made before the search; the search does not see it *)
  Definition f_emplace (f : flat) (e : E) : M (fres E * flat) :=
    if full f then V (Rfull, f)
    else let* fp := make f e in
         let f := fst fp in
         if unique
         then let* i := f_lower f (key e) in
              let* new := (if Nat.eqb i (size f) then V true else let* x := elem f i in V (compare (key e) (key x))) in
              if new : bool then insert_at f i (snd fp)
              else let* s := drop (store f) (snd fp) in
                   V (Ritb (match fl with Set_ => size f | Map_ => i end) false, {| lookup := lookup f; store := s |})
         else let* i := f_upper f (key e) in insert_at f i (snd fp).
  (** flat_map.h: 407-416, 315-332 *)
  Fixpoint f_insert_all (f : flat) (es : list E) : M (fres E * flat) :=
    match es with
    | [] => V (Runit, f)
    | e :: r => let* rf := f_insert f e in match fst rf with Rfull => V rf | _ => f_insert_all (snd rf) r end
    end.
  (** flat_map.h: 664-680 *)
  Fixpoint drop_all (s : list (option E)) (ps : list nat) : M (list (option E)) :=
    match ps with [] => V s | p :: r => let* s := drop s p in drop_all s r end.
  Definition f_erase_range (f : flat) (a b : nat) : M flat :=
    if Nat.leb a b && Nat.leb b (size f)
    then let* s := drop_all (store f) (firstn (b - a) (skipn a (lookup f))) in
         V {| lookup := firstn a (lookup f) ++ skipn b (lookup f); store := s |}
    else UB.
  (** flat_map.h: 636-658 *)
  Definition f_erase_at (f : flat) (i : nat) : M flat :=
    match nth_error (lookup f) i with
    | Some p => let* s := drop (store f) p in V {| lookup := firstn i (lookup f) ++ skipn (S i) (lookup f); store := s |}
    | None => UB
    end.
  (** flat_map.h: 592-634; flat_multimap.h: 461-498 *)
  Definition f_erase_key (f : flat) (k : K) : M (nat * flat) :=
    if unique
    then let* i := f_find f k in
         if Nat.eqb i (size f) then V (0, f) else let* f := f_erase_at f i in V (1, f)
    else let* r := f_equal_range f k in
         if Nat.eqb (fst r) (size f) then V (0, f) else let* f := f_erase_range f (fst r) (snd r) in V (snd r - fst r, f).
  (** flat_map.h: 682-705 *)
  Definition f_clear (f : flat) : M flat :=
    let* s := (if triv then V (repeat None (List.length (store f))) else drop_all (store f) (lookup f)) in V {| lookup := []; store := s |}.
  (** flat_map.h: 252-268, 1049-1075 *)
  Definition f_index (f : flat) (k : K) : M (fres E * flat) :=
    let* i := f_lower f k in
    let* new := (if Nat.eqb i (size f) then V true else let* x := elem f i in V (compare k (key x))) in
    if new : bool
    then if full f then V (Rfull, f)
         else let* fp := make f (mk k) in let* r := insert_at (fst fp) i (snd fp) in let* e := elem (snd r) i in V (Re e, snd r)
    else let* e := elem f i in V (Re e, f).
  (** reference_flat_map.h: 464-518 *)
  Definition f_at (f : flat) (k : K) : M (fres E) :=
    let* i := f_lower f k in
    if Nat.eqb i (size f) then V Rout_of_bounds
    else let* e := elem f i in V (if keys_are_equal (key e) k then Re e else Rout_of_bounds).

  Definition f_op (o : fop E K) (f : flat) : M (fres E * flat) :=
    match o with
    | Finsert e => f_insert f e
    | Femplace e => f_emplace f e
    | FinsertRange es => f_insert_all f es
    | Fassign es => if Nat.leb (List.length es) N then let* f := f_clear f in f_insert_all f es else V (Rfull, f)
    | FeraseKey k => let* r := f_erase_key f k in V (Rn (fst r), snd r)
    | FeraseAt i => let* f := f_erase_at f i in V (Rit i, f)
    | FeraseRange a b => let* f := f_erase_range f a b in V (Rit a, f)
    | Fclear => let* f := f_clear f in V (Runit, f)
    | Ffind k => let* i := f_find f k in V (Rit i, f)
    | Fcontains k => let* i := f_find f k in V (Rb (negb (Nat.eqb i (size f))), f)
    | Fcount k => let* n := f_count f k in V (Rn n, f)
    | FlowerBound k => let* i := f_lower f k in V (Rit i, f)
    | FupperBound k => let* i := f_upper f k in V (Rit i, f)
    | FequalRange k => let* r := f_equal_range f k in V (Rrange (fst r) (snd r), f)
    | Fat k => let* r := f_at f k in V (r, f)
    | Findex k => f_index f k
    | Fcontents => let* es := elements f in V (Rl es, f)
    | Fsize => V (Rn (size f), f)
    | Fempty => V (Rb (Nat.eqb (size f) 0), f)
    | Ffull => V (Rb (full f), f)
    | Favailable => V (Rn (N - size f), f)
    end.
  Fixpoint f_ops (os : list (fop E K)) (f : flat) : M (list (fres E) * flat) :=
    match os with
    | [] => V ([], f)
    | o :: r => let* x := f_op o f in let* y := f_ops r (snd x) in V (fst x :: fst y, snd y)
    end.
  Definition f_new : flat := {| lookup := []; store := repeat None N |}.
End Flat.
