(** * Model of etl::ibasic_string  (include/etl/basic_string.h)

    A string is its buffer of [cap + 1] characters, the size and the two flags.  A write or read beyond the buffer, and a
    pointer formed beyond its end, is [Undef].  An ETL_ASSERT that fails throws (exception configuration); the string is then
    as [Throw] says.  Configuration: ETL_HAS_STRING_TRUNCATION_CHECKS and ETL_HAS_STRING_CLEAR_AFTER_USE are 1 and
    ETL_HAS_ERROR_ON_STRING_TRUNCATION is 0, the defaults of platform.h 180-200.
    size_type is size_t; [MAX] is its largest value, npos; sums and differences of size_type wrap.
    The source of an operation is another object: operations on a string and itself are not modelled (assign tests for it,
    line 665, the others do not). *)
From Coq Require Import List Arith Bool.
Import ListNotations.

Section Str.
  Variable T : Type.
  Variable z : T.                    (** the null character *)
  Variable is_z : T -> bool.         (** comparison with it *)
  Variable MAX : nat.

  Record str := mkstr { cap : nat; sz : nat; buf : nat -> T; tr : bool; sec : bool }.   (* 322-327, 2606 *)
  Inductive out (A : Type) := Done (a : A) | Throw (s : str) | Undef.
  Arguments Done {A}. Arguments Throw {A}. Arguments Undef {A}.
  Definition bind {A B} (o : out A) (f : A -> out B) : out B :=
    match o with Done a => f a | Throw s => Throw s | Undef => Undef end.
  Notation "'do' x <- a ; b" := (bind a (fun x => b)) (at level 100, x name, a at level 60, b at level 100, right associativity).

  Definition npos : nat := MAX.                                             (* 181 *)
  Definition add (a b : nat) : nat := (a + b) mod (S MAX).
  Definition sub (a b : nat) : nat := if b <=? a then a - b else S MAX + a - b.

  Definition set_sz (s : str) (n : nat) : str := mkstr (cap s) n (buf s) (tr s) (sec s).
  Definition set_tr (s : str) (b : bool) : str := mkstr (cap s) (sz s) (buf s) b (sec s).      (* 309-312 *)
  Definition set_sec (s : str) : str := mkstr (cap s) (sz s) (buf s) (tr s) true.              (* 280-283 *)
  Definition set_buf (s : str) (b : nat -> T) : str := mkstr (cap s) (sz s) b (tr s) (sec s).
  Definition upd (b : nat -> T) (i : nat) (v : T) : nat -> T := fun j => if j =? i then v else b j.

  (** p_buffer[i] = v *)
  Definition put (s : str) (i : nat) (v : T) : out str := if i <=? cap s then Done (set_buf s (upd (buf s) i v)) else Undef.
  (** etl::fill on pointers into the buffer, algorithm.h 739-748 *)
  Fixpoint fill_loop (b : nat -> T) (i n : nat) (v : T) : nat -> T :=
    match n with 0 => b | S n => fill_loop (upd b i v) (S i) n v end.
  Definition fill (s : str) (first last : nat) (v : T) : out str :=
    if (first <=? last) && (last <=? S (cap s)) then Done (set_buf s (fill_loop (buf s) first (last - first) v)) else Undef.
  (** etl::copy: ascending *)
  Fixpoint copy_loop (b : nat -> T) (i n d : nat) : nat -> T :=
    match n with 0 => b | S n => copy_loop (upd b d (b i)) (S i) n (S d) end.
  Definition copy (s : str) (first last d : nat) : out str :=
    if (first <=? last) && (last <=? S (cap s)) && (d + (last - first) <=? S (cap s))
    then Done (set_buf s (copy_loop (buf s) first (last - first) d)) else Undef.
  (** etl::copy_backward: descending, [d] is the end of the destination *)
  Fixpoint copy_back_loop (b : nat -> T) (last n d : nat) : nat -> T :=
    match n with 0 => b | S n => copy_back_loop (upd b (d - 1) (b (last - 1))) (last - 1) n (d - 1) end.
  Definition copy_backward (s : str) (first last d : nat) : out str :=
    if (first <=? last) && (last <=? S (cap s)) && (last - first <=? d) && (d <=? S (cap s))
    then Done (set_buf s (copy_back_loop (buf s) last (last - first) d)) else Undef.

  (** lines 2588-2596: memory_clear_range(&p_buffer[current_size], &p_buffer[CAPACITY]) *)
  Definition cleanup (s : str) : out str := if sec s then fill s (sz s) (cap s) z else Done s.
  (** lines 2525-2533, and clear() 764-767 *)
  Definition initialise (s : str) : out str :=
    do s <- cleanup (set_sz s 0); do s <- put s 0 z; Done (set_tr s false).

  (** A range of characters elsewhere: [rd k] is the k-th; [None] lies outside the object. *)
  Notation reader := (nat -> option T).

  (** lines 2642-2675; the debug test of the iterators is left out: the range has [n] elements *)
  Fixpoint assign_loop (rd : reader) (k n : nat) (s : str) : out (str * nat) :=
    match n with
    | 0 => Done (s, 0)
    | S n' =>
        if sz s =? cap s then Done (s, n)
        else match rd k with
             | None => Undef
             | Some x => do s <- put s (sz s) x; assign_loop rd (S k) n' (set_sz s (S (sz s)))
             end
    end.
  Definition assign_impl (rd : reader) (n : nat) (truncated secure : bool) (s : str) : out str :=
    do s <- initialise s;
    do p <- assign_loop rd 0 n s;
    let '(s, rest) := p in
    do s <- put s (sz s) z;
    let s := set_tr s (negb (rest =? 0) || truncated) in
    cleanup (if secure then set_sec s else s).

  (** sources: an iterator range, a view or a pointer with a length; a null terminated text; another string; a part of it *)
  Inductive source := Chars (l : list T) | CStr (l : list T) | Whole (o : str) | Sub (o : str) (p n : nat).
  (** etl::strlen *)
  Fixpoint strlen (l : list T) : option nat :=
    match l with [] => None | x :: r => if is_z x then Some 0 else option_map S (strlen r) end.
  (** the characters of another string; those behind its end are still in its buffer *)
  Definition read_str (o : str) (p : nat) : reader := fun k => if p + k <=? cap o then Some (buf o (p + k)) else None.

  (** lines 663-734 *)
  Definition assign (src : source) (s : str) : out str :=
    match src with
    | Chars l => assign_impl (nth_error l) (length l) false false s
    | CStr l => match strlen l with None => Undef | Some n => assign_impl (nth_error l) n false false s end
    | Whole o => assign_impl (read_str o 0) (sz o) (tr o) (sec o) s
    | Sub o p n =>
        let n := if n =? npos then sub (sz o) p else n in
        if p <=? sz o then
          if p + n <=? S (cap o) then assign_impl (read_str o p) n (tr o) (sec o) s else Undef
        else Throw s
    end.
  (** lines 742-759 *)
  Definition assign_n (n : nat) (v : T) (s : str) : out str :=
    do s <- initialise s;
    let s := set_tr s (cap s <? n) in
    let n := Nat.min n (cap s) in
    do s <- fill s 0 n v;
    put (set_sz s n) n z.
  (** lines 477-501 *)
  Definition resize (n : nat) (v : T) (s : str) : out str :=
    let s := if cap s <? n then set_tr s true else s in
    let n := Nat.min n (cap s) in
    do s <- (if sz s <? n then fill s (sz s) n v else Done s);
    do s <- put (set_sz s n) n z;
    cleanup s.
  (** lines 524-530 *)
  Definition uninitialized_resize (n : nat) (s : str) : out str :=
    let n := Nat.min n (cap s) in put (set_sz s n) n z.
  (** lines 774-791 *)
  Definition push_back (v : T) (s : str) : out str :=
    if sz s =? cap s then Done (set_tr s true)
    else do s <- put s (sz s) v; put (set_sz s (S (sz s))) (S (sz s)) z.
  (** lines 797-803 *)
  Definition pop_back (s : str) : out str :=
    if sz s =? 0 then Done s else put (set_sz s (sz s - 1)) (sz s - 1) z.

  (** lines 902-946: with the position returned *)
  Definition insert_char (pos : nat) (v : T) (s : str) : out (str * nat) :=
    do s <- (if sz s <? cap s then
               if pos =? sz s then do s <- put s pos v; Done (set_sz s (S (sz s)))
               else let s := set_sz s (S (sz s)) in
                    do s <- copy_backward s pos (sz s - 1) (sz s); put s pos v
             else
               do s <- (if pos =? sz s then Done s
                        else do s <- copy_backward s pos (sz s - 1) (sz s); put s pos v);
               Done (set_tr s true));
    do s <- put s (sz s) z; Done (s, pos).
  (** lines 954-1031 *)
  Definition insert_fill (pos n : nat) (v : T) (s : str) : out (str * nat) :=
    if n =? 0 then Done (s, pos)
    else if cap s <=? pos then Done (set_tr s true, pos)
    else
      do s <- (if cap s <=? add pos n then
                 let s := if cap s <? add (sz s) n then set_tr s true else s in
                 let s := set_sz s (cap s) in
                 fill s pos (sz s) v
               else
                 let to_position := add pos n in
                 let remaining := sz s - pos in
                 let max_shift := sub (sub (cap s) pos) n in
                 let shift := Nat.min max_shift remaining in
                 let s := if cap s <? add (add pos n) remaining then set_tr (set_sz s (cap s)) true else set_sz s (add (sz s) n) in
                 do s <- copy_backward s pos (pos + shift) (to_position + shift);
                 fill s pos (pos + n) v);
      do s <- put s (sz s) z; Done (s, pos).
  (** the loops of lines 1082-1085 and 1116-1119 *)
  Fixpoint write_loop (rd : reader) (k n pos : nat) (s : str) : out str :=
    match n with
    | 0 => Done s
    | S n => match rd k with None => Undef | Some x => do s <- put s pos x; write_loop rd (S k) n (S pos) s end
    end.
  (** lines 1041-1125: [position_] moves with the characters written *)
  Definition insert_range (pos : nat) (rd : reader) (n : nat) (s : str) : out (str * nat) :=
    if n =? 0 then Done (s, pos)
    else if cap s <=? pos then Done (set_tr s true, pos)
    else
      do p <- (if cap s <=? add pos n then
                 let s := if cap s <? add (sz s) n then set_tr s true else s in
                 let s := set_sz s (cap s) in
                 do s <- write_loop rd 0 (sz s - pos) pos s; Done (s, sz s)
               else
                 let to_position := add pos n in
                 let remaining := sz s - pos in
                 let max_shift := sub (sub (cap s) pos) n in
                 let shift := Nat.min max_shift remaining in
                 let s := if cap s <? add (add pos n) remaining then set_tr (set_sz s (cap s)) true else set_sz s (add (sz s) n) in
                 do s <- copy_backward s pos (pos + shift) (to_position + shift);
                 do s <- write_loop rd 0 n pos s; Done (s, pos + n));
      let '(s, pos) := p in
      do s <- put s (sz s) z; Done (s, pos).
  Definition drop {A} (o : out (str * A)) : out str := do p <- o; Done (fst p).
  Definition inherit (o s : str) : str := if tr o then set_tr s true else s.      (* 1150-1159 *)

  (** lines 1144-1260: insert(size_type position, …) *)
  Definition insert_at (pos : nat) (src : source) (s : str) : out str :=
    if pos <=? sz s then
      match src with
      | Chars l => drop (insert_range pos (nth_error l) (length l) s)
      | CStr l => match strlen l with None => Undef | Some n => drop (insert_range pos (nth_error l) n s) end
      | Whole o => do s <- drop (insert_range pos (read_str o 0) (sz o) s); Done (inherit o s)
      | Sub o p n =>
          if p <=? sz o then
            let n := if (n =? npos) || (sz o <? add p n) then sub (sz o) p else n in
            if p + n <=? S (cap o) then
              do s <- drop (insert_range pos (read_str o p) n s); Done (inherit o s)
            else Undef
          else Throw s
      end
    else Throw s.
  (** lines 1268-1274 *)
  Definition insert_fill_at (pos n : nat) (v : T) (s : str) : out str :=
    if pos <=? sz s then drop (insert_fill pos n v s) else Throw s.
  (** lines 809-895, operator += *)
  Definition append (src : source) (s : str) : out str :=
    match src with
    | Sub o p n => if p <=? sz o then insert_at (sz s) src s else Throw s
    | Whole o => do s <- drop (insert_range (sz s) (read_str o 0) (sz o) s); Done (inherit o s)
    | Chars l => drop (insert_range (sz s) (nth_error l) (length l) s)
    | CStr l => insert_at (sz s) src s
    end.
  Definition append_fill (n : nat) (v : T) (s : str) : out str := insert_fill_at (sz s) n v s.   (* 868-872 *)

  (** lines 1328-1346 *)
  Definition erase_range (first last : nat) (s : str) : out str :=
    if first =? last then Done s
    else do s <- copy s last (sz s) first;
         let n := sub (sz s) (sub last first) in
         do s <- put (set_sz s n) n z; cleanup s.
  (** lines 1282-1290 *)
  Definition erase (pos n : nat) (s : str) : out str :=
    let n := Nat.min n (sub (sz s) pos) in
    if pos + n <=? S (cap s) then erase_range pos (pos + n) s else Undef.
  (** lines 1297-1318 *)
  Definition erase_one (pos : nat) (s : str) : out str :=
    do s <- copy s (S pos) (sz s) pos;
    let n := sub (sz s) 1 in
    put (set_sz s n) n z.

  (** lines 1649-1686, 1745-1813, 1836-1850: replace(position, length, …) *)
  Definition replace_at (pos n : nat) (src : source) (s : str) : out str :=
    if pos <=? sz s then
      match src with
      | Sub o p m =>
          if p <=? sz o then
            let n := Nat.min n (sub (sz s) pos) in
            let m := Nat.min m (sub (sz o) p) in
            do s <- erase pos n s; do s <- insert_at pos (Sub o p m) s; Done (inherit o s)
          else Throw s
      | _ =>
          let n := Nat.min n (sub (sz s) pos) in
          do s <- erase pos n s; insert_at pos src s
      end
    else Throw s.
  (** lines 1873-1887 *)
  Definition replace_fill_at (pos n m : nat) (v : T) (s : str) : out str :=
    if pos <=? sz s then
      let n := Nat.min n (sub (sz s) pos) in
      do s <- erase pos n s; insert_fill_at pos m v s
    else Throw s.
  (** lines 1694-1740, 1818-1831, 1855-1868, 1910-1924: replace(first, last, …) *)
  Definition replace_range (first last : nat) (src : source) (s : str) : out str :=
    do s <- erase_range first last s;
    match src with
    | Chars l => drop (insert_range first (nth_error l) (length l) s)
    | CStr l => match strlen l with None => Undef | Some n => drop (insert_range first (nth_error l) n s) end
    | Whole o => do s <- drop (insert_range first (read_str o 0) (sz o) s); Done (inherit o s)
    | Sub _ _ _ => Undef      (* there is no such overload *)
    end.
  (** lines 1892-1905 *)
  Definition replace_range_fill (first last m : nat) (v : T) (s : str) : out str :=
    do s <- erase_range first last s; drop (insert_fill first m v s).

  (** lines 2488-2494, 2501-2509 *)
  Definition initialize_free_space (s : str) : out str := fill (set_tr s false) (sz s) (S (cap s)) z.
  (** [poke i v]: the C function that writes into the buffer through data() *)
  Definition poke (i : nat) (v : T) (s : str) : out str := put s i v.
  Fixpoint strlen_buf (b : nat -> T) (i n : nat) : nat := match n with 0 => i | S n => if is_z (b i) then i else strlen_buf b (S i) n end.
  Definition trim_to_terminator (s : str) : out str :=
    let s := set_tr s (negb (is_z (buf s (cap s)))) in
    do s <- put s (cap s) z;
    Done (set_sz s (strlen_buf (buf s) 0 (cap s))).

  (** the operations *)
  Inductive op :=
  | OAssign (src : source) | OAssignFill (n : nat) (v : T) | OClear | OResize (n : nat) (v : T)
  | OPush (v : T) | OPop
  | OAppend (src : source) | OAppendFill (n : nat) (v : T)
  | OInsert (pos : nat) (src : source) | OInsertFill (pos n : nat) (v : T)        (** by position *)
  | OInsertChar (it : nat) (v : T) | OInsertIt (it : nat) (l : list T) | OInsertItFill (it n : nat) (v : T)   (** by iterator *)
  | OErase (pos n : nat) | OEraseOne (it : nat) | OEraseRange (first last : nat)
  | OReplace (pos n : nat) (src : source) | OReplaceFill (pos n m : nat) (v : T)
  | OReplaceIt (first last : nat) (src : source) | OReplaceItFill (first last m : nat) (v : T)
  | OSecure | OClearTruncated.
  Definition apply (o : op) (s : str) : out str :=
    match o with
    | OAssign src => assign src s | OAssignFill n v => assign_n n v s
    | OClear => initialise s
    | OResize n v => resize n v s
    | OPush v => push_back v s | OPop => pop_back s
    | OAppend src => append src s | OAppendFill n v => append_fill n v s
    | OInsert p src => insert_at p src s | OInsertFill p n v => insert_fill_at p n v s
    | OInsertChar p v => drop (insert_char p v s)
    | OInsertIt p l => drop (insert_range p (nth_error l) (length l) s)
    | OInsertItFill p n v => drop (insert_fill p n v s)
    | OErase p n => erase p n s | OEraseOne p => erase_one p s | OEraseRange f l => erase_range f l s
    | OReplace p n src => replace_at p n src s | OReplaceFill p n m v => replace_fill_at p n m v s
    | OReplaceIt f l src => replace_range f l src s | OReplaceItFill f l m v => replace_range_fill f l m v s
    | OSecure => Done (set_sec s)
    | OClearTruncated => Done (set_tr s false)               (* 270-273 *)
    end.
  (** A new string: lines 2516-2520, string.h constructors call initialise(); the rest of the buffer is arbitrary. *)
  Definition fresh (c : nat) (b : nat -> T) : str := mkstr c 0 (upd b 0 z) false false.
  Fixpoint run (s : str) (l : list op) : out str :=
    match l with [] => Done s | o :: r => match apply o s with Done s => run s r | Throw s => run s r | Undef => Undef end end.
End Str.
Arguments Done {T A}. Arguments Throw {T A}. Arguments Undef {T A}.
Arguments mkstr {T}. Arguments cap {T}. Arguments sz {T}. Arguments buf {T}. Arguments tr {T}. Arguments sec {T}.
Arguments Chars {T}. Arguments CStr {T}. Arguments Whole {T}. Arguments Sub {T}.
Arguments OAssign {T}. Arguments OAssignFill {T}. Arguments OClear {T}. Arguments OResize {T}. Arguments OPush {T}. Arguments OPop {T}.
Arguments OAppend {T}. Arguments OAppendFill {T}. Arguments OInsert {T}. Arguments OInsertFill {T}. Arguments OInsertChar {T}. Arguments OInsertIt {T}. Arguments OInsertItFill {T}.
Arguments OErase {T}. Arguments OEraseOne {T}. Arguments OEraseRange {T}. Arguments OReplace {T}. Arguments OReplaceFill {T}. Arguments OReplaceIt {T}. Arguments OReplaceItFill {T}.
Arguments OSecure {T}. Arguments OClearTruncated {T}.
