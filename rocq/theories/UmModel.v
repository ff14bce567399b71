(** * Model of etl::unordered_map and etl::unordered_set at the level of nodes and links

    include/etl/unordered_map.h, include/etl/unordered_set.h (same code but for insert, operator[] and at) and the parts
    of include/etl/intrusive_forward_list.h they use.  A bucket is an intrusive forward list: a start link, a count, and
    the links of the nodes.  All buckets share one terminator link (intrusive_forward_list.h: 259), the address 0 here.
    A pointer to a bucket is its index; [B] is number_of_buckets, so the index [B] is pbuckets_end.
    [al] says which nodes are allocated; using the link or value of any other node is undefined ([None]), so is using a
    bucket that does not exist.  Loops carry fuel; running out of it is [None].
    The exception configuration is modelled.  Not modelled: load_factor, the bucket interface, transparent-key and
    rvalue overloads (same bodies), move assignment. *)
From Coq Require Import List Arith Bool.
From Verif Require Import Util FlatSpec UmSpec AvlModel.
Import ListNotations.

Section Um.
  Context {E K : Type}.
  Variable key : E -> K.
  Variable keq : K -> K -> bool.
  Variable hash : K -> nat.
  Variable B N : nat.
  Variable fl : flavour.
  Variable mk : K -> E.

  (** unordered_map.h: 1867-1877; intrusive_forward_list.h: 258-261 *)
  Record ust := mkust {
    uhd : nat -> nat;                  (** start.etl_next of a bucket *)
    ucnt : nat -> nat;                 (** current_size of a bucket *)
    unx : nat -> nat;                  (** etl_next of a node *)
    uel : nat -> E;
    ual : nat -> bool;
    ufr : list nat;                    (** free nodes of the pool *)
    ufst : nat; ulst : nat }.          (** first, last *)
  Definition bset s h c n := mkust h c n (uel s) (ual s) (ufr s) (ufst s) (ulst s).
  Definition mset s f l := mkust (uhd s) (ucnt s) (unx s) (uel s) (ual s) (ufr s) f l.
  Definition pset s e a f := mkust (uhd s) (ucnt s) (unx s) e a f (ufst s) (ulst s).

  (** a local iterator that can be inserted after: before_begin() of a bucket or a node *)
  Inductive lnk := Start (b : nat) | Lnode (x : nat).
  Definition lnext s (p : lnk) : option nat :=
    match p with Start b => if b <? B then Some (uhd s b) else None | Lnode x => if ual s x then Some (unx s x) else None end.
  Definition setnext s (p : lnk) (y : nat) : option ust :=
    match p with
    | Start b => if b <? B then Some (bset s (fupd (uhd s) b y) (ucnt s) (unx s)) else None
    | Lnode x => if ual s x then Some (bset s (uhd s) (ucnt s) (fupd (unx s) x y)) else None
    end.
  Definition ure s x : option E := if ual s x then Some (uel s x) else None.
  Definition bempty s b : option bool := if b <? B then Some (Nat.eqb (ucnt s b) 0) else None.

  (** unordered_map.h: 1779-1783 allocate_data_node (the pool reports an error when it is empty), node->clear() and the
      construction of the value: 988-990 *)
  Definition ualloc s (e : E) : option (ust * nat) :=
    match ufr s with
    | [] => None
    | p :: f => Some (pset (bset s (uhd s) (ucnt s) (fupd (unx s) p 0)) (fupd (uel s) p e) (fupd (ual s) p true) f, p)
    end.
  (** intrusive_forward_list.h: 715-721 insert_after, 290-295; intrusive_links.h: 225-229 *)
  Definition ins_after s b (p : lnk) (x : nat) : option ust :=
    let? n := lnext s p in
    let? s := setnext s (Lnode x) n in
    let? s := setnext s p x in
    if b <? B then Some (bset s (uhd s) (fupd (ucnt s) b (ucnt s b + 1)) (unx s)) else None.
  (** intrusive_forward_list.h: 743-757 erase_after, 300-310; intrusive_links.h: 308-318: gives the link after the erased one *)
  Definition era_after s b (p : lnk) : option (ust * nat) :=
    let? x := lnext s p in
    if Nat.eqb x 0 then Some (s, 0)
    else
      let? y := lnext s (Lnode x) in
      let? s := setnext s p y in
      let? s := setnext s (Lnode x) 0 in
      if b <? B then Some (bset s (uhd s) (fupd (ucnt s) b (ucnt s b - 1)) (unx s), y) else None.

  (** unordered_map.h: 1577-1611 *)
  Definition usize s : nat := N - List.length (ufr s).
  Definition uempty s : bool := Nat.eqb (usize s) 0.
  Definition ufull s : bool := match ufr s with [] => true | _ => false end.
  (** unordered_map.h: 599-602 *)
  Definition bucket (k : K) : nat := hash k mod B.

  (** unordered_map.h: 1788-1806 *)
  Definition adjust_ins s b : ust :=
    if Nat.eqb (usize s) 1 then mset s b b
    else if b <? ufst s then mset s b (ulst s)
    else if ulst s <? b then mset s (ufst s) b
    else s.
  (** unordered_map.h: 1823-1826 while (first->empty()) ++first *)
  Fixpoint skip_empty (n : nat) s (b : nat) : option nat :=
    match n with 0 => None | S n => let? e := bempty s b in if (e : bool) then skip_empty n s (S b) else Some b end.
  (** unordered_map.h: 1836-1844 *)
  Fixpoint find_last (n : nat) s (b pend l : nat) : option nat :=
    match n with
    | 0 => None
    | S n => if Nat.eqb b pend then Some l
             else let? e := bempty s b in find_last n s (S b) pend (if (e : bool) then l else b)
    end.
  (** unordered_map.h: 1811-1847 *)
  Definition adjust_era s b : option ust :=
    if uempty s then Some (mset s 0 0)
    else if Nat.eqb b (ufst s) then let? f := skip_empty (S B) s (ufst s) in Some (mset s f (ulst s))
    else if Nat.eqb b (ulst s) then let? l := find_last (S B) s (ufst s) (ulst s) (ufst s) in Some (mset s (ufst s) l)
    else Some s.
  (** unordered_map.h: 1852-1861 delete_data_node *)
  Definition delete_node s b (p : lnk) (x : nat) : option (ust * nat) :=
    let? r := era_after s b p in
    let '(s, y) := r in
    if ual s x then
      let? s := adjust_era (pset s (uel s) (fupd (ual s) x false) (x :: ufr s)) b in
      Some (s, y)
    else None.

  (** unordered_map.h: 1173-1181, 1004-1017: walk the bucket until the key is met *)
  Fixpoint scan (n : nat) s (p : lnk) (x : nat) (k : K) : option (lnk * nat) :=
    match n with
    | 0 => None
    | S n => if Nat.eqb x 0 then Some (p, 0)
             else let? e := ure s x in
                  if keq k (key e) then Some (p, x) else let? y := lnext s (Lnode x) in scan n s (Lnode x) y k
    end.
  Definition ufuel := S N.
  Definition scan_bucket s (k : K) : option (lnk * nat) :=
    let? h := lnext s (Start (bucket k)) in scan ufuel s (Start (bucket k)) h k.

  (** ** iterators: (bucket, node).  unordered_map.h: 306-309: only the nodes are compared *)
  Definition it_end s : nat * nat := (ulst s, 0).                                           (* 545-548 *)
  Definition it_begin s : option (nat * nat) := let? h := lnext s (Start (ufst s)) in Some (ufst s, h).   (* 491-494 *)
  (** unordered_map.h: 232-236 the next bucket that is not empty, or pbuckets_end *)
  Fixpoint next_bucket (n : nat) s (b : nat) : option nat :=
    match n with
    | 0 => None
    | S n => if Nat.eqb b B then Some b else let? e := bempty s b in if (e : bool) then next_bucket n s (S b) else Some b
    end.
  (** unordered_map.h: 224-246 operator ++ *)
  Definition it_bump s (b y : nat) : option (nat * nat) :=
    if Nat.eqb y 0 then
      let? b := next_bucket (S B) s (S b) in
      if Nat.eqb b B then Some (b, y) else let? h := lnext s (Start b) in Some (b, h)
    else Some (b, y).
  Definition it_next s (i : nat * nat) : option (nat * nat) := let? y := lnext s (Lnode (snd i)) in it_bump s (fst i) y.
  Fixpoint it_walk (n : nat) s (i : nat * nat) (e : nat) : option (list E) :=
    match n with
    | 0 => None
    | S n => if Nat.eqb (snd i) e then Some []
             else let? x := ure s (snd i) in let? j := it_next s i in let? r := it_walk n s j e in Some (x :: r)
    end.
  (** for (it = begin(); it != end(); ++it) use *it *)
  Definition u_contents s : option (list E) := let? b := it_begin s in it_walk ufuel s b (snd (it_end s)).
  (** begin() incremented [i] times *)
  Fixpoint it_advance (n : nat) s (i : nat * nat) : option (nat * nat) :=
    match n with 0 => Some i | S n => let? j := it_next s i in it_advance n s j end.
  Definition it_nth s (i : nat) : option (nat * nat) := let? b := it_begin s in it_advance i s b.

  (** unordered_map.h: 1347-1374 find *)
  Definition um_find s (k : K) : option (nat * nat) :=
    let? r := scan_bucket s k in
    let '(_, x) := r in Some (if Nat.eqb x 0 then it_end s else (bucket k, x)).
  Inductive uins := UFull | UIns (i : nat * nat) (b : bool).
  (** unordered_map.h: 978-1038, unordered_set.h: 699-755: the part of insert behind the capacity check *)
  Definition um_add s (e : E) : option (ust * uins) :=
    let? r := scan_bucket s (key e) in
    let '(p, x) := r in
    if Nat.eqb x 0 then
      let? r := ualloc s e in
      let '(s, x) := r in
      let? s := ins_after s (bucket (key e)) p x in
      Some (adjust_ins s (bucket (key e)), UIns (bucket (key e), x) true)
    else Some (s, UIns (it_end s) false).
  (** unordered_map.h: 969-1039 insert; unordered_set.h: 679-756 *)
  Definition um_insert s (e : E) : option (ust * uins) :=
    match fl with
    | Map_ => if ufull s then Some (s, UFull) else um_add s e
    | Set_ => if ufull s then
                let? i := um_find s (key e) in
                if Nat.eqb (snd i) (snd (it_end s)) then Some (s, UFull) else Some (s, UIns i false)
              else um_add s e
    end.
  (** unordered_map.h: 1152-1159 *)
  Fixpoint um_insert_all s (es : list E) : option (ust * bool) :=
    match es with
    | [] => Some (s, false)
    | e :: r => let? q := um_insert s e in
                match q with (s, UFull) => Some (s, true) | (s, UIns _ _) => um_insert_all s r end
    end.
  (** unordered_map.h: 709-745 operator[]: a new node goes to the front of the bucket; [None] in the answer: the pool is empty *)
  Definition um_index s (k : K) : option (ust * option E) :=
    let? r := scan_bucket s k in
    let '(_, x) := r in
    if Nat.eqb x 0 then
      match ualloc s (mk k) with
      | None => Some (s, None)
      | Some (s, x) =>
          let? s := ins_after s (bucket k) (Start (bucket k)) x in
          let s := adjust_ins s (bucket k) in
          let? h := lnext s (Start (bucket k)) in
          let? e := ure s h in Some (s, Some e)
      end
    else let? e := ure s x in Some (s, Some e).
  (** unordered_map.h: 1166-1191 erase(key) *)
  Definition um_erase_key s (k : K) : option (ust * nat) :=
    let? r := scan_bucket s k in
    let '(p, x) := r in
    if Nat.eqb x 0 then Some (s, 0)
    else let? r := delete_node s (bucket k) p x in let '(s, _) := r in Some (s, 1).
  (** unordered_map.h: 1243-1246 while (iprevious->etl_next != &*icurrent) ++iprevious *)
  Fixpoint find_prev (n : nat) s (p : lnk) (x : nat) : option lnk :=
    match n with
    | 0 => None
    | S n => let? y := lnext s p in if Nat.eqb y x then Some p else find_prev n s (Lnode y) x
    end.
  (** unordered_map.h: 1232-1251 erase(iterator) *)
  Definition um_erase_at s (i : nat * nat) : option (ust * (nat * nat)) :=
    let? j := it_next s i in
    let? p := find_prev ufuel s (Start (fst i)) (snd i) in
    let? r := delete_node s (fst i) p (snd i) in
    let '(s, _) := r in Some (s, j).
  (** unordered_map.h: 1722-1756 initialise (clear); intrusive_forward_list.h: 149-162: every bucket is emptied, every node released *)
  Fixpoint collect (n : nat) s (x : nat) : option (list nat) :=
    match n with
    | 0 => None
    | S n => if Nat.eqb x 0 then Some [] else let? y := lnext s (Lnode x) in let? r := collect n s y in Some (x :: r)
    end.
  Fixpoint collect_all (m : nat) s (b : nat) : option (list nat) :=
    match m with
    | 0 => Some []
    | S m => let? e := bempty s b in
             let? h := lnext s (Start b) in
             let? a := if (e : bool) then Some [] else collect ufuel s h in
             let? r := collect_all m s (S b) in Some (a ++ r)
    end.
  Definition um_clear s : option ust :=
    if uempty s then Some (mset s 0 0)
    else
      let? xs := collect_all B s 0 in
      let emptied := fun (f : nat -> nat) (b : nat) => if (b <? B) && negb (Nat.eqb (ucnt s b) 0) then 0 else f b in
      Some (mset (pset (bset s (emptied (uhd s)) (emptied (ucnt s)) (fun x => if existsb (Nat.eqb x) xs then 0 else unx s x))
                       (uel s) (fun x => if existsb (Nat.eqb x) xs then false else ual s x) (xs ++ ufr s)) 0 0).
  (** unordered_map.h: 1260-1309 erase(first, last) *)
  Fixpoint erase_loop (n : nat) s (b : nat) (p : lnk) (x pend e : nat) : option ust :=
    match n with
    | 0 => None
    | S n =>
        if Nat.eqb x e && Nat.eqb b pend then Some s
        else
          let? r := delete_node s b p x in
          let '(s, x) := r in
          if Nat.eqb x e && Nat.eqb b pend then Some s
          else if Nat.eqb x 0 then
            let? b := skip_empty (S B) s (S b) in
            let? h := lnext s (Start b) in
            erase_loop n s b (Start b) h pend e
          else erase_loop n s b p x pend e
    end.
  Definition um_erase_range s (first last : nat * nat) : option (ust * (nat * nat)) :=
    let? b := it_begin s in
    if Nat.eqb (snd first) (snd b) && Nat.eqb (snd last) (snd (it_end s)) then
      let? s := um_clear s in Some (s, it_end s)
    else
      let? p := find_prev ufuel s (Start (fst first)) (snd first) in
      let? s := erase_loop ufuel s (fst first) p (snd first) (fst last) (snd last) in
      let? y := lnext s p in
      let? i := it_bump s (fst first) y in
      Some (s, i).

  Definition deref s (i : nat * nat) : option (option E) :=
    if Nat.eqb (snd i) 0 then Some None else let? e := ure s (snd i) in Some (Some e).
  Definition um_op (o : uop E K) s : option (ures E * ust) :=
    match o with
    | Uinsert e => let? r := um_insert s e in
                   match r with
                   | (s, UFull) => Some (Ufull_error, s)
                   | (s, UIns i b) => let? x := deref s i in Some (Uitb x b, s)
                   end
    | UinsertRange es => let? r := um_insert_all s es in let '(s, f) := r in Some (if (f : bool) then Ufull_error else Uunit, s)
    | Uassign es =>                                                  (* 947-962, without the check of debug builds *)
        let? s := um_clear s in
        let? r := um_insert_all s es in let '(s, f) := r in Some (if (f : bool) then Ufull_error else Uunit, s)
    | UeraseKey k => let? r := um_erase_key s k in let '(s, n) := r in Some (Un n, s)
    | UeraseFound k => let? i := um_find s k in let? r := um_erase_at s i in let '(s, _) := r in Some (Uunit, s)
    | Uclear => let? s := um_clear s in Some (Uunit, s)
    | Ufind k => let? i := um_find s k in let? x := deref s i in Some (Uit x, s)
    | Ucontains k => let? i := um_find s k in Some (Ub (negb (Nat.eqb (snd i) (snd (it_end s)))), s)               (* 1687-1690 *)
    | Ucount k => let? i := um_find s k in Some (Un (if Nat.eqb (snd i) (snd (it_end s)) then 0 else 1), s)        (* 1324-1327 *)
    | UequalRange k =>                                                                                              (* 1492-1503 *)
        let? f := um_find s k in
        let? l := if Nat.eqb (snd f) (snd (it_end s)) then Some f else it_next s f in
        let? r := it_walk ufuel s f (snd l) in Some (Ul r, s)
    | Uat k => match fl with                                                                                        (* 799-826 *)
               | Set_ => None
               | Map_ => let? r := scan_bucket s k in
                         let '(_, x) := r in
                         if Nat.eqb x 0 then Some (Urange_error, s) else let? e := ure s x in Some (Ue e, s)
               end
    | Uindex k => match fl with
                  | Set_ => None
                  | Map_ => let? r := um_index s k in
                            match r with (s, Some e) => Some (Ue e, s) | (s, None) => Some (Ualloc_error, s) end
                  end
    | Ucontents => let? l := u_contents s in Some (Ul l, s)
    | Usize => Some (Un (usize s), s)
    | Uempty => Some (Ub (uempty s), s)
    | Ufull => Some (Ub (ufull s), s)
    | Uavailable => Some (Un (List.length (ufr s)), s)
    end.
  Fixpoint um_ops (os : list (uop E K)) s : option (list (ures E) * ust) :=
    match os with
    | [] => Some ([], s)
    | o :: r => let? q := um_op o s in let '(x, s) := q in
                let? q := um_ops r s in let '(xs, s) := q in Some (x :: xs, s)
    end.
  (** unordered_map.h: 1708-1717: the constructor *)
  Definition um_new (n : nat -> nat) (e : nat -> E) (pool : list nat) : ust :=
    mkust (fun _ => 0) (fun _ => 0) n e (fun _ => false) pool 0 0.
End Um.
Arguments ust : clear implicits.
