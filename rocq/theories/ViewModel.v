(** * Model of etl::basic_string_view (string_view.h) and etl::span (span.h).

    A view points into one array object: [m] is the array, a pointer into it is an offset 0 .. length m.
    Characters are their numeric values (Z); the terminator is 0.  [UB]: a pointer outside the array is formed, an
    element outside the array is read, or an algorithm is given a range whose end cannot be reached.
    [W] is the number of values of size_t.  Positions and counts are natural numbers (npos is one of them: every
    comparison the code makes is between numbers without arithmetic on npos); npos as a result is [None].
    A second view (the text looked for) has its own array.  Not modelled: hash, operator<<, reverse iterators as objects. *)
From Coq Require Import List Arith Bool ZArith String.
From Verif Require Import Util Slots SortModel AlgoSpec AlgoModel.
Import ListNotations.

(** string_view.h: 857-858: mbegin, mend; null pointers both (119-123) *)
Record view := View { isnull : bool; vb : nat; ve : nat }.
Definition null_view : view := View true 0 0.

Definition of_opt {A} (o : option A) : M A := match o with Some a => V a | None => UB end.
(** p + k inside the array *)
Definition padd {A} (m : list A) (p k : nat) : M nat := if Nat.leb (p + k) (List.length m) then V (p + k) else UB.
Definition psub (p k : nat) : M nat := if Nat.leb k p then V (p - k) else UB.
(** the elements an algorithm sees that is called with the iterators b, e *)
Definition range {A} (m : list A) (b e : nat) : M (list A) :=
  if Nat.leb b e && Nat.leb e (List.length m) then V (slice m b e) else UB.
Definition load {A} (m : list A) (i : nat) : M A := of_opt (nth_error m i).

Section View.
  Variable W : nat.
  (** string_view.h: 273-276: static_cast<size_t>(mend - mbegin) *)
  Definition size (v : view) : nat := if Nat.leb (vb v) (ve v) then ve v - vb v else W - (vb v - ve v).
  (** string_view.h: 265-268 *)
  Definition empty (v : view) : bool := Nat.eqb (vb v) (ve v).
  (** string_view.h: 173-184 *)
  Definition front (m : list Z) (v : view) : M Z := load m (vb v).
  Definition back (m : list Z) (v : view) : M Z := let* p := psub (ve v) 1 in load m p.
  (** string_view.h: 325-328 *)
  Definition index (m : list Z) (v : view) (i : nat) : M Z := load m (vb v + i).
  (** string_view.h: 333-338 *)
  Definition at_ (m : list Z) (v : view) (i : nat) : M Z :=
    let* _ := etl_assert (negb (isnull v)) "string_view_uninitialised" in
    let* _ := etl_assert (Nat.ltb i (size v)) "string_view_bounds" in
    load m (vb v + i).
  (** string_view.h: 354-366: the destination is the array d, from offset o on *)
  Fixpoint copy_loop (count : nat) (m : list Z) (p : nat) (d : list Z) (o : nat) : M (list Z) :=
    match count with
    | 0 => V d
    | S c => let* x := load m p in if Nat.ltb o (List.length d) then copy_loop c m (S p) (upd d o x) (S o) else UB
    end.
  Definition copy (m : list Z) (v : view) (d : list Z) (o count position : nat) : M (list Z * nat) :=
    if Nat.ltb position (size v)
    then let n := Nat.min count (size v - position) in
         let* b := padd m (vb v) position in let* e := padd m b n in let* d := copy_loop (e - b) m b d o in V (d, n)
    else V (d, 0).
  (** string_view.h: 371-383 *)
  Definition substr (m : list Z) (v : view) (position count : nat) : M view :=
    if Nat.ltb position (size v)
    then let n := Nat.min count (size v - position) in
         let* b := padd m (vb v) position in let* e := padd m b n in V (View false b e)
    else V null_view.
  (** string_view.h: 388-399 *)
  Definition remove_prefix (m : list Z) (v : view) (n : nat) : M view := let* b := padd m (vb v) n in V (View (isnull v) b (ve v)).
  Definition remove_suffix (m : list Z) (v : view) (n : nat) : M view := let* e := psub (ve v) n in V (View (isnull v) (vb v) e).

  (** string_view.h: 809-853 *)
  Definition op_eq (m : list Z) (v : view) (m2 : list Z) (v2 : view) : M bool :=
    if Nat.eqb (size v) (size v2)
    then let* a := range m (vb v) (ve v) in let* b := range m2 (vb v2) (List.length m2) in of_opt (equal3 a b Z.eqb)
    else V false.
  Definition op_lt (m : list Z) (v : view) (m2 : list Z) (v2 : view) : M bool :=
    let* a := range m (vb v) (ve v) in let* b := range m2 (vb v2) (ve v2) in of_opt (lexicographical_compare Z.ltb a b).
  Definition op_ne m v m2 v2 : M bool := let* b := op_eq m v m2 v2 in V (negb b).
  Definition op_gt m v m2 v2 : M bool := op_lt m2 v2 m v.
  Definition op_le m v m2 v2 : M bool := let* b := op_gt m v m2 v2 in V (negb b).
  Definition op_ge m v m2 v2 : M bool := let* b := op_lt m v m2 v2 in V (negb b).
  (** string_view.h: 404-419 *)
  Definition compare (m : list Z) (v : view) (m2 : list Z) (v2 : view) : M Z :=
    let* e := op_eq m v m2 v2 in
    if e then V 0%Z else let* g := op_gt m v m2 v2 in V (if g then 1%Z else (-1)%Z).
  Definition compare_at m v position count m2 v2 : M Z := let* u := substr m v position count in compare m u m2 v2.
  Definition compare_at2 m v position1 count1 m2 v2 position2 count2 : M Z :=
    let* u := substr m v position1 count1 in let* u2 := substr m2 v2 position2 count2 in compare m u m2 u2.
  (** string_view.h: 421-452: text is a pointer to the start of the array t *)
  Fixpoint text_loop (fuel : nat) (m : list Z) (i e : nat) (t : list Z) (j : nat) : M (nat * nat * option Z) :=
    match fuel with
    | 0 => UB
    | S f =>
        if Nat.eqb i e then V (i, j, None)
        else let* c := load t j in
             if Z.eqb c 0 then V (i, j, None)
             else let* x := load m i in
                  if Z.ltb x c then V (i, j, Some (-1)%Z) else if Z.ltb c x then V (i, j, Some 1%Z) else text_loop f m (S i) e t (S j)
    end.
  Definition compare_text (m : list Z) (v : view) (t : list Z) : M Z :=
    let* (i, j, r) := text_loop (S (List.length m)) m (vb v) (ve v) t 0 in
    match r with
    | Some z => V z
    | None =>
        if Nat.eqb i (ve v) then (let* c := load t j in if Z.eqb c 0 then V 0%Z else V (-1)%Z) else V 1%Z
    end.
  (** char_traits.h: 140-153 *)
  Fixpoint strlen_loop (fuel : nat) (t : list Z) (i : nat) : M nat :=
    match fuel with 0 => UB | S f => let* c := load t i in if Z.eqb c 0 then V i else strlen_loop f t (S i) end.
  Definition strlen (t : list Z) : M nat := strlen_loop (S (List.length t)) t 0.
  (** string_view.h: 136-140 *)
  Definition of_text (t : list Z) : M view := let* n := strlen t in V (View false 0 n).
  (** string_view.h: 454-462 *)
  Definition compare_text_at m v position count t : M Z := let* u := substr m v position count in compare_text m u t.
  Definition compare_text_n m v position count1 t count2 : M Z :=
    let* u := substr m v position count1 in compare m u t (View false 0 count2).

  (** string_view.h: 467-484 *)
  Definition starts_with m v m2 v2 : M bool :=
    if Nat.leb (size v2) (size v) then let* z := compare_at m v 0 (size v2) m2 v2 in V (Z.eqb z 0) else V false.
  Definition starts_with_char m v c : M bool := if empty v then V false else let* x := front m v in V (Z.eqb x c).
  Definition starts_with_text m v t : M bool :=
    let* n := strlen t in if Nat.leb n (size v) then let* z := compare_text_at m v 0 n t in V (Z.eqb z 0) else V false.
  (** string_view.h: 489-507: npos is a count that no size exceeds: here the size of the view *)
  Definition ends_with m v m2 v2 : M bool :=
    if Nat.leb (size v2) (size v) then let* z := compare_at m v (size v - size v2) (size v) m2 v2 in V (Z.eqb z 0) else V false.
  Definition ends_with_char m v c : M bool := if empty v then V false else let* x := back m v in V (Z.eqb x c).
  Definition ends_with_text m v t : M bool :=
    let* n := strlen t in if Nat.leb n (size v) then let* z := compare_text_at m v (size v - n) n t in V (Z.eqb z 0) else V false.

  (** string_view.h: 512-529 *)
  Definition find (m : list Z) (v : view) (m2 : list Z) (v2 : view) (position : nat) : M (option nat) :=
    if Nat.ltb (size v) (size v2) then V None
    else let* b := padd m (vb v) position in
         let* l := range m b (ve v) in let* s := range m2 (vb v2) (ve v2) in
         let* r := of_opt (search l s Z.eqb 0) in
         if Nat.eqb (b + r) (ve v) then V None else V (Some (b + r - vb v)).
  (** string_view.h: 549-571 *)
  Definition rfind (m : list Z) (v : view) (m2 : list Z) (v2 : view) (position : nat) : M (option nat) :=
    if Nat.ltb (size v) (size v2) then V None
    else let position := Nat.min position (size v) in
         let* e := padd m (vb v) position in
         let* l := range m (vb v) e in let* s := range m2 (vb v2) (ve v2) in
         let* r := of_opt (find_end l s Z.eqb) in
         if Nat.eqb (vb v + r) (ve v) then V None else V (Some r).
  (** string_view.h: 601-607, 692-699: is c one of view[j], view[j+1], ... *)
  Fixpoint member_loop (count : nat) (m2 : list Z) (v2 : view) (c : Z) (j : nat) : M bool :=
    match count with 0 => V false | S k => let* y := index m2 v2 j in if Z.eqb c y then V true else member_loop k m2 v2 c (S j) end.
  Definition member m2 v2 c : M bool := member_loop (size v2) m2 v2 c 0.
  (** string_view.h: 591-612 (want = true), 680-709 (want = false): for (i = position; i < lengthtext; ++i) *)
  Fixpoint first_loop (count : nat) (want : bool) m v m2 v2 (i : nat) : M (option nat) :=
    match count with
    | 0 => V None
    | S k => let* c := index m v i in let* f := member m2 v2 c in
             if Bool.eqb f want then V (Some i) else first_loop k want m v m2 v2 (S i)
    end.
  Definition find_first (want : bool) m v m2 v2 (position : nat) : M (option nat) :=
    if Nat.ltb position (size v) then first_loop (size v - position) want m v m2 v2 position else V None.
  Definition find_first_of := find_first true.
  Definition find_first_not_of := find_first false.
  (** string_view.h: 632-660 (want = true), 729-765 (want = false): while (it != rend()) { ...; ++it; --position; };
      [k] is the distance from it to rend(), which is position + 1 *)
  Fixpoint last_loop (k : nat) (want : bool) m v m2 v2 : M (option nat) :=
    match k with
    | 0 => V None
    | S position => let* c := index m v position in let* f := member m2 v2 c in
             if Bool.eqb f want then V (Some position) else last_loop position want m v m2 v2
    end.
  Definition find_last (want : bool) m v m2 v2 (position : nat) : M (option nat) :=
    if empty v then V None else last_loop (S (Nat.min position (size v - 1))) want m v m2 v2.
  Definition find_last_of := find_last true.
  Definition find_last_not_of := find_last false.
  (** string_view.h: 785-804 *)
  Definition contains m v m2 v2 : M bool := let* r := find m v m2 v2 0 in V (match r with Some _ => true | None => false end).
  (** string_view.h: 531-534, 573-576, 541-544: a character, a text *)
  Definition find_char m v c position := find m v [c] (View false 0 1) position.
  Definition rfind_char m v c position := rfind m v [c] (View false 0 1) position.
  Definition find_text m v t position : M (option nat) := let* v2 := of_text t in find m v t v2 position.
  Definition contains_char m v c : M bool := contains m v [c] (View false 0 1).
  Definition contains_text m v t : M bool := let* v2 := of_text t in contains m v t v2.
End View.

(** ** span, dynamic extent (span.h: 448-819): pbegin, pend *)
Section Span.
  Context {A : Type}.
  Record dspan := DSpan { db : nat; de : nat }.
  (** span.h: 678-695 *)
  Definition d_size (s : dspan) : nat := de s - db s.
  Definition d_empty (s : dspan) : bool := Nat.eqb (db s) (de s).
  (** span.h: 718-741, 574-583 *)
  Definition d_at (m : list A) (s : dspan) (i : nat) : M A :=
    let* _ := etl_assert (Nat.ltb i (d_size s)) "array_out_of_range" in load m (db s + i).
  Definition d_index (m : list A) (s : dspan) (i : nat) : M A := load m (db s + i).
  Definition d_front (m : list A) (s : dspan) : M A := load m (db s).
  Definition d_back (m : list A) (s : dspan) : M A := let* p := psub (de s) 1 in load m p.
  (** span.h: 745-758 *)
  Definition d_first (m : list A) (s : dspan) (count : nat) : M dspan := let* e := padd m (db s) count in V (DSpan (db s) e).
  (** span.h: 762-775 *)
  Definition d_last (m : list A) (s : dspan) (count : nat) : M dspan := let* b := psub (de s) count in V (DSpan b (de s)).
  (** span.h: 779-813; [None] is dynamic_extent *)
  Definition d_subspan (m : list A) (s : dspan) (offset : nat) (count : option nat) : M dspan :=
    let* b := padd m (db s) offset in
    match count with
    | None => V (DSpan b (de s))
    | Some c => let* e := padd m b c in V (DSpan b e)
    end.
  (** span.h: 848-885 *)
  Definition d_same (s1 s2 : dspan) : bool := Nat.eqb (db s1) (db s2) && Nat.eqb (d_size s1) (d_size s2).
  Definition d_equal (eqv : A -> A -> bool) (m : list A) (s1 s2 : dspan) : M bool :=
    if (d_empty s1 && d_empty s2) || d_same s1 s2 then V true
    else let* a := range m (db s1) (de s1) in let* b := range m (db s2) (de s2) in of_opt (equal4 a b eqv).

  (** ** span of fixed extent (span.h: 62-432): only pbegin is kept; the extent is part of the type *)
  Record fspan := FSpan { fb : nat; extent : nat }.
  (** span.h: 87-110: a pointer and a size, two iterators: the size and the end are not looked at *)
  Definition f_make (ext b e : nat) : fspan := FSpan b ext.
  (** span.h: 559-566 (conversion to a span of dynamic extent) *)
  Definition to_dynamic (m : list A) (s : fspan) : M dspan := let* e := padd m (fb s) (extent s) in V (DSpan (fb s) e).
  (** span.h: 314-337 *)
  Definition f_at (m : list A) (s : fspan) (i : nat) : M A :=
    let* _ := etl_assert (Nat.ltb i (extent s)) "array_out_of_range" in load m (fb s + i).
  Definition f_back (m : list A) (s : fspan) : M A := let* e := padd m (fb s) (extent s) in let* p := psub e 1 in load m p.
  (** span.h: 343-377: the template versions are compiled only if COUNT <= Extent ([None]: rejected) *)
  Definition f_first_t (m : list A) (s : fspan) (count : nat) : option (M fspan) :=
    if Nat.leb count (extent s) then Some (let* e := padd m (fb s) count in V (f_make count (fb s) e)) else None.
  Definition f_first (m : list A) (s : fspan) (count : nat) : M dspan := let* e := padd m (fb s) count in V (DSpan (fb s) e).
  Definition f_last_t (m : list A) (s : fspan) (count : nat) : option (M fspan) :=
    if Nat.leb count (extent s) then Some (let* e := padd m (fb s) (extent s) in let* b := psub e count in V (f_make count b e)) else None.
  Definition f_last (m : list A) (s : fspan) (count : nat) : M dspan :=
    let* e := padd m (fb s) (extent s) in let* b := psub e count in V (DSpan b e).
  (** span.h: 381-427 *)
  Definition f_subspan_t (m : list A) (s : fspan) (offset : nat) (count : option nat) : option (M fspan) :=
    if Nat.leb offset (extent s) && match count with Some c => Nat.leb c (extent s - offset) | None => true end
    then Some (let* b := padd m (fb s) offset in
               match count with
               | None => V (f_make (extent s - offset) b (fb s + extent s))
               | Some c => V (f_make c b (b + c))
               end)
    else None.
  Definition f_subspan (m : list A) (s : fspan) (offset : nat) (count : option nat) : M dspan :=
    let* b := padd m (fb s) offset in
    match count with
    | None => let* e := padd m (fb s) (extent s) in V (DSpan b e)
    | Some c => let* e := padd m b c in V (DSpan b e)
    end.
End Span.
