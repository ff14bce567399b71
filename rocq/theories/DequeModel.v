(** * Model of etl::ideque / etl::deque (include/etl/deque.h).

    The elements live in a ring of [R] = BUFFER_SIZE = CAPACITY + 1 slots of
    uninitialised storage (Slots.v).  Iterators are slot indices.  [triv] =
    is_trivially_destructible<T>, [chk] = ETL_CHECK_PUSH_POP defined, [mv x] /
    [smv x] = the (unspecified) value of an object after it was moved from /
    move-assigned to itself, [SZ] = modulus of size_t.  The debug count is not
    modelled.  Pop of an empty deque without the check is [Bad]. *)
From Coq Require Import List Arith Lia Bool String.
From Verif Require Import VecModel.
From Verif Require Import Util Slots Cmd DequeSpec.
Import ListNotations.

Section Deque.
  Context {T : Type}.
  Variables (triv chk : bool) (mv smv : T -> T) (SZ R : nat).

  Record dq := mkdq { db : buf T; bg : nat; en : nat; sz : nat }.
  Definition cap := R - 1.
  (** deque.h: 2147-2151 and deque<T, N> constructor 2395-2399 *)
  Definition create : dq := mkdq (raw R) 0 0 0.

  (** ** iterators *)
  (** deque.h: 277-282, 624-629 operator ++ *)
  Definition inc (i : nat) : nat := if i =? R - 1 then 0 else i + 1.
  (** deque.h: 326-331, 673-678 operator -- *)
  Definition dec (i : nat) : nat := if i =? 0 then R - 1 else i - 1.
  (** deque.h: 294-307 operator += (non negative offset) *)
  Definition plus (i n : nat) : nat :=
    if n =? 0 then i else if R - 1 <? i + n then i + n - R else i + n.
  (** deque.h: 310-323 operator -= (non negative offset) *)
  Definition minus (i n : nat) : nat := if n =? 0 then i else if i <? n then i + R - n else i - n.
  (** deque.h: 2322-2337 distance(other): distance from _begin *)
  Definition dist1 (d : dq) (i : nat) : nat := if i <? bg d then R + i - bg d else i - bg d.
  (** deque.h: 2310-2317 distance(first, last); operator - of iterators
      (2086-2097).  Simplification: natural subtraction; the code only uses it on
      ranges that are in order. *)
  Definition dist (d : dq) (i j : nat) : nat := dist1 d j - dist1 d i.
  (** deque.h: 409-420 operator < of iterators *)
  Definition it_lt (d : dq) (i j : nat) : bool := dist1 d i <? dist1 d j.

  (** ** element creation and destruction *)
  (** deque.h: 2242-2248 create_element_front(value); 2265-2271 (move: the source
      is outside the deque) *)
  Definition create_front (a : arg T) : Cmd dq unit :=
    let! d := state in
    let b := dec (bg d) in
    let! x := lift (rd (db d) a) in
    let! m := lift (construct triv (db d) b x) in
    set (mkdq m b (en d) (sz d + 1)).
  (** deque.h: 2253-2259 create_element_back(value); 2276-2282 *)
  Definition create_back (a : arg T) : Cmd dq unit :=
    let! d := state in
    let! x := lift (rd (db d) a) in
    let! m := lift (construct triv (db d) (en d) x) in
    set (mkdq m (bg d) (inc (en d)) (sz d + 1)).
  (** deque.h: 2216-2225 the do loop: construct at [item], [item + 1], ... *)
  Fixpoint create_at (xs : list (arg T)) (item : nat) : Cmd dq unit :=
    match xs with
    | [] => ret tt
    | a :: r =>
        let! d := state in
        let! x := lift (rd (db d) a) in
        let! m := lift (construct triv (db d) item x) in
        set (mkdq m (bg d) (en d) (sz d + 1)) ;; create_at r (inc item)
    end.
  (** deque.h: 2206-2226 create_element_front(n, from); [xs] are the [n] objects
      the iterator [from] runs over *)
  Definition create_front_n (xs : list (arg T)) : Cmd dq unit :=
    match xs with
    | [] => ret tt
    | _ => let! d := state in
           let b := minus (bg d) (List.length xs) in
           set (mkdq (db d) b (en d) (sz d)) ;; create_at xs b
    end.
  (** the objects an iterator into this deque runs over: *i, *(i + 1), ... *)
  Fixpoint refs (n i : nat) : list (arg T) :=
    match n with 0 => [] | S n => Ref i :: refs n (inc i) end.
  (** deque.h: 2288-2294 destroy_element_front *)
  Definition destroy_front : Cmd dq unit :=
    let! d := state in
    let! m := lift (destroy triv (db d) (bg d)) in
    let! _ := lift (if sz d =? 0 then UB else V tt) in
    set (mkdq m (inc (bg d)) (en d) (sz d - 1)).
  (** deque.h: 2299-2305 destroy_element_back *)
  Definition destroy_back : Cmd dq unit :=
    let! d := state in
    let e := dec (en d) in
    let! m := lift (destroy triv (db d) e) in
    let! _ := lift (if sz d =? 0 then UB else V tt) in
    set (mkdq m (bg d) e (sz d - 1)).
  (** for (i = 0; i < n; ++i) c *)
  Fixpoint rep (n : nat) (c : Cmd dq unit) : Cmd dq unit :=
    match n with 0 => ret tt | S n => c ;; rep n c end.
  (** for each object of an external range *)
  Fixpoint each (xs : list T) (c : T -> Cmd dq unit) : Cmd dq unit :=
    match xs with [] => ret tt | x :: r => c x ;; each r c end.
  (** deque.h: 2156-2173 initialise; clear() 979-982 *)
  Definition initialise : Cmd dq unit :=
    let! d := state in
    (if triv then set (mkdq (db d) (bg d) (en d) 0) else rep (sz d) destroy_back) ;;
    let! d := state in set (mkdq (db d) 0 0 (sz d)).

  (** ** algorithms on deque iterators *)
  (** algorithm.h: 290-300 move.  Out of fuel (the loop runs round the whole ring)
      means that last is not reachable in the ring. *)
  Fixpoint move_loop (fuel : nat) (b : buf T) (s e d : nat) : M (buf T) :=
    if s =? e then V b
    else match fuel with
         | 0 => UB
         | S f => let* b1 := masg mv smv b d s in move_loop f b1 (inc s) e (inc d)
         end.
  (** algorithm.h: 321-329 move_backward *)
  Fixpoint move_back_loop (fuel : nat) (b : buf T) (s e d : nat) : M (buf T) :=
    if s =? e then V b
    else match fuel with
         | 0 => UB
         | S f => let* b1 := masg mv smv b (dec d) (dec e) in move_back_loop f b1 s (dec e) (dec d)
         end.
  Definition moves (s e d : nat) : Cmd dq unit :=
    let! q := state in let! m := lift (move_loop R (db q) s e d) in set (mkdq m (bg q) (en q) (sz q)).
  Definition moves_back (s e d : nat) : Cmd dq unit :=
    let! q := state in let! m := lift (move_back_loop R (db q) s e d) in set (mkdq m (bg q) (en q) (sz q)).
  (** *i = value *)
  Definition assign_at (i : nat) (a : arg T) : Cmd dq unit :=
    let! d := state in
    let! x := lift (rd (db d) a) in
    let! m := lift (put (db d) i x) in
    set (mkdq m (bg d) (en d) (sz d)).
  (** algorithm.h: 571-580 fill_n *)
  Fixpoint fill_n (n i : nat) (a : arg T) : Cmd dq unit :=
    match n with 0 => ret tt | S n => assign_at i a ;; fill_n n (inc i) a end.
  (** algorithm.h copy, from an external range *)
  Fixpoint copy_in (xs : list T) (i : nat) : Cmd dq unit :=
    match xs with [] => ret tt | x :: r => assign_at i (Val x) ;; copy_in r (inc i) end.
  (** algorithm.h: 551-558 fill *)
  Fixpoint fill_loop (fuel i e : nat) (a : arg T) : Cmd dq unit :=
    if i =? e then ret tt
    else match fuel with
         | 0 => lift UB
         | S f => assign_at i a ;; fill_loop f (inc i) e a
         end.

  (** ** member functions *)
  (** deque.h: 158-204 size, empty, full, max_size, available *)
  Definition size (d : dq) : nat := sz d.
  Definition empty (d : dq) : bool := sz d =? 0.
  Definition full (d : dq) : bool := sz d =? cap.
  Definition available (d : dq) : nat := cap - sz d.

  (** deque.h: 1758-1764 push_back(const T&); 1772-1778 push_back(T&&);
      1787-1797 emplace_back *)
  Definition push_back (a : arg T) : Cmd dq unit :=
    let! d := state in assert_ (negb chk || negb (full d)) "deque_full" ;; create_back a.
  (** deque.h: 1890-1896 pop_back *)
  Definition pop_back : Cmd dq unit :=
    let! d := state in assert_ (negb chk || negb (empty d)) "deque_empty" ;; destroy_back.
  (** deque.h: 1902-1908, 1916-1922, 1931-1941 push_front, emplace_front *)
  Definition push_front (a : arg T) : Cmd dq unit :=
    let! d := state in assert_ (negb chk || negb (full d)) "deque_full" ;; create_front a.
  (** deque.h: 2045-2051 pop_front *)
  Definition pop_front : Cmd dq unit :=
    let! d := state in assert_ (negb chk || negb (empty d)) "deque_empty" ;; destroy_front.

  (** deque.h: 999-1043 insert(position, value); 1052-1097 (move) *)
  Definition insert (position : nat) (a : arg T) : Cmd dq nat :=
    let! d := state in
    assert_ (negb (full d)) "deque_full" ;;
    if position =? bg d then
      create_front a ;; let! d := state in ret (bg d)
    else if position =? en d then
      create_back a ;; let! d := state in ret (minus (en d) 1)
    else if dist d (bg d) position <? dist d position (minus (en d) 1) then
      create_front (Ref (bg d)) ;;
      let! d := state in
      moves (plus (bg d) 1) position (bg d) ;;
      assign_at (dec position) a ;;
      ret (dec position)
    else
      create_back (Ref (minus (en d) 1)) ;;
      let! d := state in
      moves_back position (minus (en d) 2) (minus (en d) 1) ;;
      assign_at position a ;;
      ret position.
  (** (the old object is destroyed and a new one created in its place) *)
  Definition renew (i : nat) (x : T) : Cmd dq unit :=
    let! d := state in
    let! m := lift (destroy triv (db d) i) in
    let! m' := lift (construct triv m i x) in
    set (mkdq m' (bg d) (en d) (sz d)).
  (** deque.h: 1106-1163 emplace(position, args); the new element is [x] *)
  Definition emplace (position : nat) (x : T) : Cmd dq nat :=
    let! d := state in
    assert_ (negb (full d)) "deque_full" ;;
    if position =? bg d then
      create_front (Val x) ;; let! d := state in ret (bg d)
    else if position =? en d then
      create_back (Val x) ;; let! d := state in ret (minus (en d) 1)
    else if dist d (bg d) position <? dist d position (minus (en d) 1) then
      create_front (Ref (bg d)) ;;
      let! d := state in
      moves (plus (bg d) 1) position (bg d) ;;
      renew (dec position) x ;;
      ret (dec position)
    else
      create_back (Ref (minus (en d) 1)) ;;
      let! d := state in
      moves_back position (minus (en d) 2) (minus (en d) 1) ;;
      renew position x ;;
      ret position.
  (** deque.h: 1485-1489: create_element_front( *from); --from *)
  Fixpoint front_copies (n from : nat) : Cmd dq unit :=
    match n with 0 => ret tt | S n => create_front (Ref from) ;; front_copies n (dec from) end.
  (** deque.h: 1520-1524, 1627-1631: create_element_back( *from); ++from *)
  Fixpoint back_copies (n from : nat) : Cmd dq unit :=
    match n with 0 => ret tt | S n => create_back (Ref from) ;; back_copies n (inc from) end.
  (** deque.h: 1435-1535 insert(position, n, value) *)
  Definition insert_n (pos n : nat) (a : arg T) : Cmd dq nat :=
    let! d := state in
    assert_ ((sz d + n) mod SZ <=? cap) "deque_full" ;;
    if pos =? bg d then
      rep n (create_front a) ;; let! d := state in ret (bg d)
    else if pos =? en d then
      rep n (create_back a) ;; let! d := state in ret (minus (en d) n)
    else if dist d (bg d) pos <=? sz d / 2 then
      let n_move := dist d (bg d) pos in
      let n_create_copy := Nat.min n n_move in
      let n_create_new := if n_create_copy <? n then n - n_create_copy else 0 in
      let n_copy_new := if n_create_new <? n then n - n_create_new else 0 in
      let n_copy_old := n_move - n_create_copy in
      let from := minus (plus (bg d) n_create_copy) 1 in
      rep n_create_new (create_front a) ;;
      front_copies n_create_copy from ;;
      let! d := state in
      let from := minus pos n_copy_old in
      moves from (plus from n_copy_old) (plus (bg d) n_create_copy) ;;
      fill_n n_copy_new (minus pos n_create_copy) a ;;
      ret (plus (bg d) n_move)
    else
      let n_move := dist d pos (en d) in
      let n_create_copy := Nat.min n n_move in
      let n_create_new := if n_create_copy <? n then n - n_create_copy else 0 in
      let n_copy_new := if n_create_new <? n then n - n_create_new else 0 in
      let n_copy_old := n_move - n_create_copy in
      rep n_create_new (create_back a) ;;
      back_copies n_create_copy (plus pos n_copy_old) ;;
      moves_back pos (plus pos n_copy_old) (plus (plus pos n) n_copy_old) ;;
      fill_n n_copy_new pos a ;;
      ret pos.
  (** deque.h: 1544-1643 insert(position, first, last), source outside the deque *)
  Definition insert_range (pos : nat) (xs : list T) : Cmd dq nat :=
    let n := List.length xs in
    let! d := state in
    assert_ (sz d + n <=? cap) "deque_full" ;;
    if pos =? bg d then
      create_front_n (map Val xs) ;; let! d := state in ret (bg d)
    else if pos =? en d then
      each xs (fun x => create_back (Val x)) ;; let! d := state in ret (minus (en d) n)
    else if dist d (bg d) pos <? sz d / 2 then
      let n_move := dist d (bg d) pos in
      let n_create_copy := Nat.min n n_move in
      let n_create_new := if n_create_copy <? n then n - n_create_copy else 0 in
      let n_copy_new := if n_create_new <? n then n - n_create_new else 0 in
      let n_copy_old := n_move - n_create_copy in
      create_front_n (map Val (firstn n_create_new xs)) ;;
      let! d := state in
      create_front_n (refs n_create_copy (plus (bg d) n_create_new)) ;;
      let! d := state in
      let from := minus pos n_copy_old in
      moves from (plus from n_copy_old) (plus (bg d) n_create_copy) ;;
      copy_in (firstn n_copy_new (skipn n_create_new xs)) (minus pos n_create_copy) ;;
      ret (plus (bg d) n_move)
    else
      let n_move := dist d pos (en d) in
      let n_create_copy := Nat.min n n_move in
      let n_create_new := if n_create_copy <? n then n - n_create_copy else 0 in
      let n_copy_new := if n_create_new <? n then n - n_create_new else 0 in
      let n_copy_old := n_move - n_create_copy in
      each (firstn n_create_new (skipn (n - n_create_new) xs)) (fun x => create_back (Val x)) ;;
      back_copies n_create_copy (plus pos n_copy_old) ;;
      moves_back pos (plus pos n_copy_old) (plus (plus pos n) n_copy_old) ;;
      copy_in (firstn n_copy_new xs) pos ;;
      ret pos.
  (** deque.h: 1650-1684 erase(position) *)
  Definition erase (pos : nat) : Cmd dq nat :=
    let! d := state in
    assert_ (dist1 d pos <=? sz d) "deque_out_of_bounds" ;;
    if pos =? bg d then
      destroy_front ;; let! d := state in ret (bg d)
    else if pos =? minus (en d) 1 then
      destroy_back ;; let! d := state in ret (en d)
    else if dist d (bg d) pos <? sz d / 2 then
      moves_back (bg d) pos (plus pos 1) ;; destroy_front ;; ret (inc pos)
    else
      moves (plus pos 1) (en d) pos ;; destroy_back ;; ret pos.
  (** deque.h: 1692-1751 erase(first, last) *)
  Definition erase_range (first last : nat) : Cmd dq nat :=
    let! d := state in
    assert_ ((dist1 d first <=? sz d) && (dist1 d last <=? sz d)) "deque_out_of_bounds" ;;
    let length := dist d first last in
    if first =? bg d then
      rep length destroy_front ;; let! d := state in ret (bg d)
    else if first =? minus (en d) length then
      rep length destroy_back ;; let! d := state in ret (en d)
    else if dist d (bg d) first <? sz d / 2 then
      moves_back (bg d) first (plus first length) ;; rep length destroy_front ;; ret (plus first length)
    else
      moves (plus first length) (en d) first ;; rep length destroy_back ;; ret first.
  (** deque.h: 2059-2082 resize *)
  Definition resize (n : nat) (a : arg T) : Cmd dq unit :=
    let! d := state in
    assert_ (n <=? cap) "deque_full" ;;
    if n <? sz d then rep (sz d - n) destroy_back
    else rep (n - sz d) (create_back a).
  (** deque.h: 778-789 assign(n, value), value outside the deque *)
  Definition assign_n (n : nat) (x : T) : Cmd dq unit :=
    assert_ (n <=? cap) "deque_full" ;; initialise ;; rep n (create_back (Val x)).
  (** deque.h: 759-770 assign(first, last); 2102-2110 copy assignment *)
  Definition assign_range (xs : list T) : Cmd dq unit :=
    initialise ;; each xs (fun x => push_back (Val x)).
  (** deque.h: 988-991 fill *)
  Definition fill (x : T) : Cmd dq unit :=
    let! d := state in fill_loop R (bg d) (en d) (Val x).

  (** ** element access *)
  (** deque.h: 796-820 at *)
  Definition at_ (i : nat) : Cmd dq T :=
    let! d := state in
    assert_ (i <? sz d) "deque_out_of_bounds" ;; lift (get (db d) (plus (bg d) i)).
  (** deque.h: 825-843 operator [] *)
  Definition index (i : nat) : Cmd dq T := let! d := state in lift (get (db d) (plus (bg d) i)).
  (** deque.h: 849-861 front *)
  Definition front : Cmd dq T := let! d := state in lift (get (db d) (bg d)).
  (** deque.h: 867-879 back *)
  Definition back : Cmd dq T := let! d := state in lift (get (db d) (minus (en d) 1)).
  (** for (i = begin(); i != end(); ++i) use( *i) *)
  Fixpoint walk (fuel : nat) (b : buf T) (i e : nat) : M (list T) :=
    if i =? e then V []
    else match fuel with
         | 0 => UB
         | S f => let* x := get b i in let* r := walk f b (inc i) e in V (x :: r)
         end.
  Definition iterate : Cmd dq (list T) := let! d := state in lift (walk R (db d) (bg d) (en d)).
  (** for (i = rbegin(); i != rend(); ++i) use( *i): reverse_iterator
      dereferences the element before its base *)
  Fixpoint rwalk (fuel : nat) (b : buf T) (i e : nat) : M (list T) :=
    if i =? e then V []
    else match fuel with
         | 0 => UB
         | S f => let* x := get b (dec i) in let* r := rwalk f b (dec i) e in V (x :: r)
         end.
  Definition riterate : Cmd dq (list T) := let! d := state in lift (rwalk R (db d) (en d) (bg d)).

End Deque.
Arguments dq : clear implicits.

(** deque.h: 2116-2132 move assignment; the state is the pair (left, right), of
    BUFFER_SIZE [R] and [Rr].  push_back( *itr moved) reads its argument only
    when the element is created. *)
Section Move.
  Context {T : Type}.
  Variables (triv chk : bool) (mv : T -> T) (R Rr : nat).
  Definition on_left {A} (c : Cmd (dq T) A) : Cmd (dq T * dq T) A :=
    fun s => match c (fst s) with Ok l a => Ok (l, snd s) a | Ex l e => Ex (l, snd s) e | Bad => Bad end.
  Definition on_right {A} (c : Cmd (dq T) A) : Cmd (dq T * dq T) A :=
    fun s => match c (snd s) with Ok r a => Ok (fst s, r) a | Ex r e => Ex (fst s, r) e | Bad => Bad end.
  Fixpoint drain (fuel : nat) (i : nat) : Cmd (dq T * dq T) unit :=
    let! q := state in
    let r := snd q in
    if i =? en r then ret tt
    else match fuel with
         | 0 => lift UB
         | S f => let! x := lift (get (db r) i) in
                  on_left (push_back triv chk R (Val x)) ;;
                  let! rb := lift (put (db r) i (mv x)) in
                  on_right (set (mkdq rb (bg r) (en r) (sz r))) ;;
                  drain f (inc Rr i)
         end.
  Definition move_assign : Cmd (dq T * dq T) unit :=
    on_left (initialise triv R) ;;
    let! q := state in drain Rr (bg (snd q)) ;; on_right (initialise triv Rr).
End Move.

(** The operations of DequeSpec, with positions given as begin() + p, and
    returned iterators reported as distances from begin(). *)
Section Exec.
  Context {T : Type}.
  Variables (triv chk : bool) (mv smv : T -> T) (SZ R : nat).
  Definition unit_ (c : Cmd (dq T) unit) : Cmd (dq T) (dres T) := c ;; ret RUnit.
  Definition at_pos (p : nat) (c : nat -> Cmd (dq T) nat) : Cmd (dq T) (dres T) :=
    let! d := state in
    let! i := c (plus R (bg d) p) in
    let! d := state in ret (RPos (dist R d (bg d) i)).
  Definition exec (o : dop T) : Cmd (dq T) (dres T) :=
    match o with
    | PushBack x => unit_ (push_back triv chk R (Val x))
    | PushFront x => unit_ (push_front triv chk R (Val x))
    | PopBack => unit_ (pop_back triv chk R)
    | PopFront => unit_ (pop_front triv chk R)
    | Insert p x => at_pos p (fun i => insert triv mv smv R i (Val x))
    | Emplace p x => at_pos p (fun i => emplace triv mv smv R i x)
    | InsertN p n x => at_pos p (fun i => insert_n triv mv smv SZ R i n (Val x))
    | InsertRange p xs => at_pos p (fun i => insert_range triv mv smv R i xs)
    | Erase p => at_pos p (erase triv mv smv R)
    | EraseRange p q =>
        let! d := state in at_pos p (fun i => erase_range triv mv smv R i (plus R (bg d) q))
    | Resize n x => unit_ (resize triv R n (Val x))
    | AssignN n x => unit_ (assign_n triv R n x)
    | AssignRange xs => unit_ (assign_range triv chk R xs)
    | Fill x => unit_ (fill R x)
    | Clear => unit_ (initialise triv R)
    | At i => let! x := at_ R i in ret (RElem x)
    | Index i => let! x := index R i in ret (RElem x)
    | Front => let! x := front in ret (RElem x)
    | Back => let! x := back R in ret (RElem x)
    | Iterate => let! l := iterate R in ret (RList l)
    | ReverseIterate => let! l := riterate R in ret (RList l)
    | Size => let! d := state in ret (RNat (size d))
    | Available => let! d := state in ret (RNat (available R d))
    | IsEmpty => let! d := state in ret (RBool (empty d))
    | IsFull => let! d := state in ret (RBool (full R d))
    end.
End Exec.
