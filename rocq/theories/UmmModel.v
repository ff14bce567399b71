(** * Model of etl::unordered_multimap and etl::unordered_multiset at the level of nodes and links

    include/etl/unordered_multimap.h, include/etl/unordered_multiset.h (same code; insert of the set also gives [true]).
    The state and the operations on buckets, nodes, marks and iterators are those of UmModel.v: the private functions and
    iterators of the two headers are the same text (unordered_multimap.h: 224-246, 332-420, 940-1016, 1087-1113,
    1483-1515, 1539-1621; unordered_multiset.h: 991-1067, 1476-1615).
    Not modelled: load_factor, the bucket interface, transparent-key and rvalue overloads (same bodies), moves. *)
From Coq Require Import List Arith Bool.
From Verif Require Import Util AvlModel UmModel UmmSpec.
Import ListNotations.

Section Umm.
  Context {E K : Type}.
  Variable key : E -> K.
  Variable keq : K -> K -> bool.
  Variable hash : K -> nat.
  Variable B N : nat.
  Notation ust := (ust E).
  Notation bucket := (bucket hash B).

  (** unordered_multimap.h: 687-750 insert; unordered_multiset.h: 678-741; [None] in the answer: unordered_multimap_full.
      720-733: the walk compares key_equal_function(key of the node, key of the new element) *)
  Definition mm_insert (s : ust) (e : E) : option (ust * option (nat * nat)) :=
    if ufull s then Some (s, None)
    else
      let b := bucket (key e) in
      let? em := bempty B s b in
      if (em : bool) then                                                 (* 703-716 *)
        let? r := ualloc s e in
        let '(s, x) := r in
        let? s := ins_after B s b (Start b) x in
        let s := adjust_ins N s b in
        let? h := lnext B s (Start b) in Some (s, Some (b, h))
      else                                                                (* 720-746 *)
        let? h := lnext B s (Start b) in
        let? r := scan key (fun k k' => keq k' k) B (ufuel N) s (Start b) h (key e) in
        let '(p, _) := r in
        let? r := ualloc s e in
        let '(s, x) := r in
        let? s := ins_after B s b p x in
        let s := adjust_ins N s b in
        let? y := lnext B s p in Some (s, Some (b, y)).
  (** unordered_multimap.h: 856-863; the flag: an insert reported full *)
  Fixpoint mm_insert_all (s : ust) (es : list E) : option (ust * bool) :=
    match es with
    | [] => Some (s, false)
    | e :: r => let? q := mm_insert s e in match q with (s, None) => Some (s, true) | (s, Some _) => mm_insert_all s r end
    end.

  (** the argument of erase(const_key_reference): a key of the caller, or a reference to the key of an element *)
  Inductive karg := Kval (k : K) | Kof (x : nat).
  Definition kread (s : ust) (a : karg) : option K :=
    match a with Kval k => Some k | Kof x => let? e := ure s x in Some (key e) end.
  (** unordered_multimap.h: 877-894: erase every node of the bucket with the key *)
  Fixpoint mm_erase_loop (n : nat) (s : ust) (b : nat) (p : lnk) (x : nat) (a : karg) (cnt : nat) : option (ust * nat) :=
    match n with
    | 0 => None
    | S n =>
        if Nat.eqb x 0 then Some (s, cnt)
        else
          let? e := ure s x in
          let? k := kread s a in
          if keq (key e) k then
            let? r := delete_node B N s b p x in
            let '(s, _) := r in
            let? y := lnext B s p in mm_erase_loop n s b p y a (S cnt)
          else
            let? p' := lnext B s p in
            let? y := lnext B s (Lnode x) in mm_erase_loop n s b (Lnode p') y a cnt
    end.
  (** unordered_multimap.h: 870-897 *)
  Definition mm_erase_key (s : ust) (a : karg) : option (ust * nat) :=
    let? k := kread s a in
    let? h := lnext B s (Start (bucket k)) in
    mm_erase_loop (ufuel N) s (bucket k) (Start (bucket k)) h a 0.

  (** unordered_multimap.h: 1043-1047, 1241-1244 while ((l != end()) && key_equal_function(key, l->first)) { ++l; ++n; } *)
  Fixpoint eq_run (n : nat) (s : ust) (i : nat * nat) (k : K) (cnt : nat) : option ((nat * nat) * nat) :=
    match n with
    | 0 => None
    | S n => if Nat.eqb (snd i) (snd (it_end s)) then Some (i, cnt)
             else let? e := ure s (snd i) in
                  if keq k (key e) then let? j := it_next B s i in eq_run n s j k (S cnt) else Some (i, cnt)
    end.
  (** unordered_multimap.h: 1032-1051 count *)
  Definition mm_count (s : ust) (k : K) : option nat :=
    let? f := um_find key keq hash B N s k in
    if Nat.eqb (snd f) (snd (it_end s)) then Some 0
    else let? l := it_next B s f in let? r := eq_run (ufuel N) s l k 1 in Some (snd r).
  (** unordered_multimap.h: 1232-1248 equal_range *)
  Definition mm_equal_range (s : ust) (k : K) : option ((nat * nat) * (nat * nat)) :=
    let? f := um_find key keq hash B N s k in
    if Nat.eqb (snd f) (snd (it_end s)) then Some (f, f)
    else let? l := it_next B s f in let? r := eq_run (ufuel N) s l k 1 in Some (f, fst r).

  Definition to_end (s : ust) (i : nat * nat) : option (list E) := it_walk B (ufuel N) s i (snd (it_end s)).
  (** the iterator the caller got by incrementing begin() [i] times; end() when that meets nothing *)
  Definition mm_nth (s : ust) (i : nat) : option (nat * nat) := it_nth B s i.
  Definition mm_op (o : mop E K) (s : ust) : option (mres E * ust) :=
    match o with
    | Minsert e => let? r := mm_insert s e in
                   match r with
                   | (s, None) => Some (Mfull_error, s)
                   | (s, Some i) => let? l := to_end s i in Some (Mrest l, s)
                   end
    | MinsertRange es => let? r := mm_insert_all s es in let '(s, f) := r in Some (if (f : bool) then Mfull_error else Munit, s)
    | Massign es =>                                              (* 665-680, without the check of debug builds *)
        let? s := um_clear B N s in
        let? r := mm_insert_all s es in let '(s, f) := r in Some (if (f : bool) then Mfull_error else Munit, s)
    | MeraseKey k => let? r := mm_erase_key s (Kval k) in let '(s, n) := r in Some (Mn n, s)
    | MeraseAt i => let? it := mm_nth s i in
                    let? r := um_erase_at B N s it in let '(s, j) := r in let? l := to_end s j in Some (Mrest l, s)
    | MeraseRange i j =>
        let? f := mm_nth s i in
        let? l := (if Nat.eqb j (usize N s) then Some (it_end s) else mm_nth s j) in
        let? r := um_erase_range B N s f l in let '(s, j) := r in let? l := to_end s j in Some (Mrest l, s)
    | Mclear => let? s := um_clear B N s in Some (Munit, s)                                            (* 1022-1025 *)
    | Mfind k => let? i := um_find key keq hash B N s k in let? l := to_end s i in Some (Mrest l, s)
    | Mcontains k => let? i := um_find key keq hash B N s k in Some (Mb (negb (Nat.eqb (snd i) (snd (it_end s)))), s)   (* 1448-1451 *)
    | Mcount k => let? n := mm_count s k in Some (Mn n, s)
    | MequalRange k => let? r := mm_equal_range s k in let? l := it_walk B (ufuel N) s (fst r) (snd (snd r)) in Some (Ml l, s)
    | Mcontents => let? l := u_contents B N s in Some (Ml l, s)
    | Msize => Some (Mn (usize N s), s)
    | Mempty => Some (Mb (uempty N s), s)
    | Mfull => Some (Mb (ufull s), s)
    | Mavailable => Some (Mn (List.length (ufr s)), s)
    end.
  Fixpoint mm_ops (os : list (mop E K)) (s : ust) : option (list (mres E) * ust) :=
    match os with
    | [] => Some ([], s)
    | o :: r => let? q := mm_op o s in let '(x, s) := q in
                let? q := mm_ops r s in let '(xs, s) := q in Some (x :: xs, s)
    end.
End Umm.
