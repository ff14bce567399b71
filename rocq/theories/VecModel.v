(** * Model of etl::ivector / etl::vector (include/etl/vector.h).

    The buffer is [cap] slots of uninitialised storage (Slots.v); the pointer
    pair (p_buffer, p_end) is the buffer and the index [vn] of p_end.
    Iterators are indices.  [triv] = is_trivially_destructible<T>, [chk] =
    ETL_CHECK_PUSH_POP defined, [dbg] = ETL_IS_DEBUG_BUILD.  [mv x] is the
    (unspecified) value left in an object after it was moved from, [smv x] the
    (unspecified) value of an object after it was move-assigned to itself.
    [SZ] is the modulus of size_t.  The debug count is not modelled. *)
From Coq Require Import List Arith Lia Bool String.
From Verif Require Import Util Slots VecSpec.
Import ListNotations.

(** A (const) reference parameter: to an object outside the vector, or to
    element [i] of the vector itself. *)
Inductive arg (T : Type) := Val (x : T) | Ref (i : nat).
Arguments Val {T}. Arguments Ref {T}.

Section Vec.
  Context {T : Type}.
  Variables (triv chk dbg : bool) (mv smv : T -> T) (SZ cap : nat).

  Record vec := mkvec { vb : buf T; vn : nat }.

  (** outcome of a member function: normal, exception thrown (ETL_ASSERT,
      error_handler.h: 303-365) with the object as it was left, undefined. *)
  Inductive res (A : Type) := Ok (v : vec) (a : A) | Exc (e : string) (v : vec) | Und.
  Arguments Ok {A}. Arguments Exc {A}. Arguments Und {A}.

  (** run a buffer operation (which never throws) *)
  Definition onbuf {A} (m : M (buf T)) (k : buf T -> res A) : res A :=
    match m with V b => k b | _ => Und end.

  (** reading through a const reference parameter *)
  Definition rd (b : buf T) (a : arg T) : M T := match a with Val x => V x | Ref i => get b i end.

  (** ** memory.h / algorithm.h loops *)
  (** memory.h: 185-231 uninitialized_fill_n *)
  Fixpoint uninit_fill_n (n : nat) (b : buf T) (i : nat) (a : arg T) : M (buf T) :=
    match n with
    | 0 => V b
    | S k => let* x := rd b a in let* b1 := construct triv b i x in uninit_fill_n k b1 (i + 1) a
    end.
  (** memory.h: 237-330 uninitialized_copy, from a source outside the vector *)
  Fixpoint uninit_copy (xs : list T) (b : buf T) (i : nat) : M (buf T) :=
    match xs with
    | [] => V b
    | x :: r => let* b1 := construct triv b i x in uninit_copy r b1 (i + 1)
    end.
  (** memory.h: 385-470 uninitialized_move (both ranges in the buffer) *)
  Fixpoint uninit_move (k : nat) (b : buf T) (s d : nat) : M (buf T) :=
    match k with
    | 0 => V b
    | S k => let* x := get b s in let* b1 := construct triv b d x in
             let* b2 := put b1 s (mv x) in uninit_move k b2 (s + 1) (d + 1)
    end.
  (** *d = etl::move( *s) *)
  Definition masg (b : buf T) (d s : nat) : M (buf T) :=
    let* x := get b s in
    if Nat.eqb d s then put b s (smv x)
    else let* b1 := put b d x in put b1 s (mv x).
  (** algorithm.h: 284-300 move *)
  Fixpoint amove (k : nat) (b : buf T) (s d : nat) : M (buf T) :=
    match k with 0 => V b | S k => let* b1 := masg b d s in amove k b1 (s + 1) (d + 1) end.
  (** algorithm.h: 315-330 move_backward: [k] elements ending before [se], to
      the range ending before [de] *)
  Fixpoint move_backward (k : nat) (b : buf T) (se de : nat) : M (buf T) :=
    match k with 0 => V b | S k => let* b1 := masg b (de - 1) (se - 1) in move_backward k b1 (se - 1) (de - 1) end.
  (** algorithm.h: 546-580 fill_n *)
  Fixpoint fill_n (n : nat) (b : buf T) (i : nat) (a : arg T) : M (buf T) :=
    match n with
    | 0 => V b
    | S k => let* x := rd b a in let* b1 := put b i x in fill_n k b1 (i + 1) a
    end.
  (** algorithm.h: 190-205 copy, from a source outside the vector *)
  Fixpoint acopy (xs : list T) (b : buf T) (i : nat) : M (buf T) :=
    match xs with [] => V b | x :: r => let* b1 := put b i x in acopy r b1 (i + 1) end.
  (** memory.h: 1078-1125 destroy / destroy_n *)
  Fixpoint destroy_n (k : nat) (b : buf T) (i : nat) : M (buf T) :=
    match k with 0 => V b | S k => let* b1 := destroy triv b i in destroy_n k b1 (i + 1) end.

  (** ** members *)
  (** vector.h: 1022-1030 constructor *)
  Definition create : vec := mkvec (raw cap) 0.
  (** vector.h: 978-1007 *)
  Definition size (v : vec) := vn v.
  Definition empty (v : vec) := Nat.eqb (vn v) 0.
  Definition full (v : vec) := Nat.eqb (vn v) cap.
  Definition available (v : vec) := cap - vn v.
  (** vector.h: 302-317 at *)
  Definition at_ (v : vec) (i : nat) : res T :=
    if i <? size v then match get (vb v) i with V x => Ok v x | _ => Und end
    else Exc "vector_out_of_bounds" v.
  (** vector.h: 281-293 operator[] (no check) *)
  Definition index (v : vec) (i : nat) : res T :=
    match get (vb v) i with V x => Ok v x | _ => Und end.
  (** vector.h: 270-274 reserve *)
  Definition reserve (v : vec) (n : nat) : res unit :=
    if n <=? cap then Ok v tt else Exc "vector_out_of_bounds" v.
  (** vector.h: 1032-1037 initialise; 417-420 clear; also the destructor of vector<T, N> *)
  Definition initialise (v : vec) : res unit :=
    onbuf (destroy_n (vn v) (vb v) 0) (fun b => Ok (mkvec b 0) tt).
  Definition clear := initialise.
  (** vector.h: 1069-1087 create_back *)
  Definition create_back (v : vec) (a : arg T) : res unit :=
    match rd (vb v) a with
    | V x => onbuf (construct triv (vb v) (vn v) x) (fun b => Ok (mkvec b (vn v + 1)) tt)
    | _ => Und
    end.
  (** vector.h: 1093-1099 destroy_back *)
  Definition destroy_back (v : vec) : res unit :=
    match vn v with
    | 0 => Und
    | S n => onbuf (destroy triv (vb v) n) (fun b => Ok (mkvec b n) tt)
    end.
  (** vector.h: 222-240 resize *)
  Definition resize (v : vec) (new : nat) (a : arg T) : res unit :=
    if new <=? cap then
      if size v <? new then
        onbuf (uninit_fill_n (new - size v) (vb v) (vn v) a) (fun b => Ok (mkvec b new) tt)
      else
        let delta := size v - new in
        onbuf (destroy_n delta (vb v) (vn v - delta)) (fun b => Ok (mkvec b new) tt)
    else Exc "vector_full" v.
  (** vector.h: 382-396 assign(first, last): the length is checked only in a debug build *)
  Definition assign_range (v : vec) (xs : list T) : res unit :=
    if negb dbg || (List.length xs <=? cap) then
      match initialise v with
      | Ok v1 _ => onbuf (uninit_copy xs (vb v1) 0) (fun b => Ok (mkvec b (List.length xs)) tt)
      | Exc e v1 => Exc e v1 | Und => Und
      end
    else Exc "vector_full" v.
  (** vector.h: 404-412 assign(n, value) *)
  Definition assign_n (v : vec) (n : nat) (a : arg T) : res unit :=
    if n <=? cap then
      match initialise v with
      | Ok v1 _ => onbuf (uninit_fill_n n (vb v1) 0 a) (fun b => Ok (mkvec b n) tt)
      | Exc e v1 => Exc e v1 | Und => Und
      end
    else Exc "vector_full" v.
  (** vector.h: 425-428 fill *)
  Definition fill (v : vec) (a : arg T) : res unit :=
    onbuf (fill_n (vn v) (vb v) 0 a) (fun b => Ok (mkvec b (vn v)) tt).
  (** vector.h: 435-455 push_back (copy and move) *)
  Definition push_back (v : vec) (a : arg T) : res unit :=
    if chk && full v then Exc "vector_full" v else create_back v a.
  (** vector.h: 465-474 emplace_back *)
  Definition emplace_back (v : vec) (a : arg T) : res unit :=
    if chk && full v then Exc "vector_full" v else create_back v a.
  (** vector.h: 565-571 pop_back *)
  Definition pop_back (v : vec) : res unit :=
    if chk && empty v then Exc "vector_empty" v else destroy_back v.
  (** vector.h: 579-597 insert(position, const_reference) *)
  Definition insert (v : vec) (p : nat) (a : arg T) : res nat :=
    if full v then Exc "vector_full" v
    else if Nat.eqb p (vn v) then
      match create_back v a with Ok v1 _ => Ok v1 p | Exc e v1 => Exc e v1 | Und => Und end
    else
      match create_back v (Ref (vn v - 1)) with
      | Ok v1 _ =>
          onbuf (move_backward (vn v1 - 2 - p) (vb v1) (vn v1 - 2) (vn v1 - 1)) (fun b2 =>
          match rd b2 a with
          | V x => onbuf (put b2 p x) (fun b3 => Ok (mkvec b3 (vn v1)) p)
          | _ => Und
          end)
      | Exc e v1 => Exc e v1 | Und => Und
      end.
  (** vector.h: 606-624 insert(position, rvalue_reference), from an object outside the vector *)
  Definition insert_move (v : vec) (p : nat) (x : T) : res nat :=
    if full v then Exc "vector_full" v
    else if Nat.eqb p (vn v) then
      match create_back v (Val x) with Ok v1 _ => Ok v1 p | Exc e v1 => Exc e v1 | Und => Und end
    else
      onbuf (uninit_move 1 (vb v) (vn v - 1) (vn v)) (fun b1 =>
      onbuf (move_backward (vn v - 1 - p) b1 (vn v - 1) (vn v)) (fun b2 =>
      onbuf (put b2 p x) (fun b3 => Ok (mkvec b3 (vn v + 1)) p))).
  (** vector.h: 632-656 emplace *)
  Definition emplace (v : vec) (p : nat) (a : arg T) : res nat :=
    if full v then Exc "vector_full" v
    else if Nat.eqb p (vn v) then
      match rd (vb v) a with
      | V x => onbuf (construct triv (vb v) p x) (fun b => Ok (mkvec b (vn v + 1)) p)
      | _ => Und
      end
    else
      match create_back v (Ref (vn v - 1)) with
      | Ok v1 _ =>
          onbuf (move_backward (vn v1 - 2 - p) (vb v1) (vn v1 - 2) (vn v1 - 1)) (fun b2 =>
          onbuf (destroy triv b2 p) (fun b3 =>
          match rd b3 a with
          | V x => onbuf (construct triv b3 p x) (fun b4 => Ok (mkvec b4 (vn v1)) p)
          | _ => Und
          end))
      | Exc e v1 => Exc e v1 | Und => Und
      end.

  (** vector.h: 780-810 and 837-867: making room for [n] elements at [p];
      returns the buffer and (construct_new_n, copy_new_n) *)
  Definition make_room (v : vec) (p n : nat) : M (buf T * nat * nat) :=
    let insert_end := (p + n) mod SZ in
    let beyond := size v <? insert_end in
    let copy_old_n := if beyond then 0 else size v - p - n in
    let construct_old_n := if beyond then size v - p else n in
    let p_construct_old := if beyond then insert_end else vn v in
    let copy_new_n := construct_old_n in
    let construct_new_n := n - copy_new_n in
    let* b1 := uninit_move construct_old_n (vb v) (vn v - construct_old_n) p_construct_old in
    let* b2 := move_backward copy_old_n b1 (p + copy_old_n) (insert_end + copy_old_n) in
    V (b2, construct_new_n, copy_new_n).
  (** vector.h: 774-820 insert(position, n, value) *)
  Definition insert_n (v : vec) (p n : nat) (a : arg T) : res unit :=
    if (size v + n) mod SZ <=? cap then
      match make_room v p n with
      | V (b2, construct_new_n, copy_new_n) =>
          onbuf (uninit_fill_n construct_new_n b2 (vn v) a) (fun b3 =>
          onbuf (fill_n copy_new_n b3 p a) (fun b4 => Ok (mkvec b4 (vn v + n)) tt))
      | _ => Und
      end
    else Exc "vector_full" v.
  (** vector.h: 831-877 insert(position, first, last), range outside the vector *)
  Definition insert_range (v : vec) (p : nat) (xs : list T) : res unit :=
    if (size v + List.length xs) mod SZ <=? cap then
      match make_room v p (List.length xs) with
      | V (b2, construct_new_n, copy_new_n) =>
          onbuf (uninit_copy (firstn construct_new_n (skipn copy_new_n xs)) b2 (vn v)) (fun b3 =>
          onbuf (acopy (firstn copy_new_n xs) b3 p) (fun b4 => Ok (mkvec b4 (vn v + List.length xs)) tt))
      | _ => Und
      end
    else Exc "vector_full" v.
  (** vector.h: 884-905 erase(position) *)
  Definition erase (v : vec) (p : nat) : res nat :=
    onbuf (amove (vn v - (p + 1)) (vb v) (p + 1) p) (fun b1 =>
    match destroy_back (mkvec b1 (vn v)) with Ok v2 _ => Ok v2 p | Exc e v2 => Exc e v2 | Und => Und end).
  (** vector.h: 915-936 erase(first, last) *)
  Definition erase_range (v : vec) (p q : nat) : res nat :=
    if Nat.eqb p 0 && Nat.eqb q (vn v) then
      match clear v with Ok v1 _ => Ok v1 p | Exc e v1 => Exc e v1 | Und => Und end
    else
      onbuf (amove (vn v - q) (vb v) q p) (fun b1 =>
      onbuf (destroy_n (q - p) b1 (vn v - (q - p))) (fun b2 => Ok (mkvec b2 (vn v - (q - p))) p)).
  (** vector.h: 941-949 operator=(const ivector&), [rhs] another vector *)
  Fixpoint read_all (k : nat) (b : buf T) (i : nat) : M (list T) :=
    match k with 0 => V [] | S k => let* x := get b i in let* r := read_all k b (i + 1) in V (x :: r) end.
  Definition copy_assign (v rhs : vec) : res unit :=
    match read_all (vn rhs) (vb rhs) 0 with V xs => assign_range v xs | _ => Und end.
  (** vector.h: 955-971 operator=(ivector&&), [rhs] another vector: the result
      also gives what is left of [rhs] *)
  Fixpoint push_all (k : nat) (v rhs : vec) (i : nat) : res vec :=
    match k with
    | 0 => Ok v rhs
    | S k =>
        match get (vb rhs) i with
        | V x => match push_back v (Val x) with
                 | Ok v1 _ => match put (vb rhs) i (mv x) with
                              | V b => push_all k v1 (mkvec b (vn rhs)) (i + 1)
                              | _ => Und
                              end
                 | Exc e v1 => Exc e v1
                 | Und => Und
                 end
        | _ => Und
        end
    end.
  Definition move_assign (v rhs : vec) : res vec :=
    match clear v with
    | Ok v1 _ =>
        match push_all (vn rhs) v1 rhs 0 with
        | Ok v2 rhs2 => match initialise rhs2 with Ok rhs3 _ => Ok v2 rhs3 | _ => Und end
        | Exc e v2 => Exc e v2
        | Und => Und
        end
    | Exc e v1 => Exc e v1
    | Und => Und
    end.

  (** ** one operation, with a position as result where the member returns an iterator *)
  Definition noret (r : res unit) : res (option nat) :=
    match r with Ok v _ => Ok v None | Exc e v => Exc e v | Und => Und end.
  Definition ret (r : res nat) : res (option nat) :=
    match r with Ok v p => Ok v (Some p) | Exc e v => Exc e v | Und => Und end.
  Definition step (v : vec) (o : vop T) : res (option nat) :=
    match o with
    | OpPushBack x => noret (push_back v (Val x))
    | OpEmplaceBack x => noret (emplace_back v (Val x))
    | OpPopBack => noret (pop_back v)
    | OpInsert p x => ret (insert v p (Val x))
    | OpInsertMove p x => ret (insert_move v p x)
    | OpEmplace p x => ret (emplace v p (Val x))
    | OpInsertN p n x => noret (insert_n v p n (Val x))
    | OpInsertRange p xs => noret (insert_range v p xs)
    | OpErase p => ret (erase v p)
    | OpEraseRange p q => ret (erase_range v p q)
    | OpResize n x => noret (resize v n (Val x))
    | OpAssignN n x => noret (assign_n v n (Val x))
    | OpAssignRange xs => noret (assign_range v xs)
    | OpFill x => noret (fill v (Val x))
    | OpClear => noret (clear v)
    end.
  (** a history; an exception is caught by the caller, who carries on *)
  Fixpoint run (v : vec) (os : list (vop T)) : option vec :=
    match os with
    | [] => Some v
    | o :: r => match step v o with Ok v1 _ | Exc _ v1 => run v1 r | Und => None end
    end.
End Vec.
Arguments vec : clear implicits.
Arguments res : clear implicits.
Arguments Ok {T A}. Arguments Exc {T A}. Arguments Und {T A}.
