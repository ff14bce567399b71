(** * Model of the searching and comparing members of etl::ibasic_string (basic_string.h).

    A string is its buffer of capacity + 1 characters and its size (StrModel.v models the members that change it);
    the text looked for lies in an array of its own.  [W] is the number of values of size_t; positions and lengths are
    natural numbers below it, npos as a result is [None].  [UB] as in ViewModel.v: a pointer outside the array is formed,
    a character outside it is read, or a search is given a range whose end cannot be reached.
    The overloads for a character in the find_first_of family do what the general ones do for a text of length 1. *)
From Coq Require Import List Arith Bool ZArith String.
From Verif Require Import Util Slots SortModel AlgoSpec AlgoModel ViewModel.
Import ListNotations.

(** basic_string.h: 2606 (p_buffer), string_base current_size *)
Record str := Str { sbuf : list Z; sn : nat }.
Section StrFind.
  Variable W : nat.
  (** basic_string.h: 2680-2698 *)
  Definition find_impl (s : str) (t : list Z) (first last sz pos : nat) : M (option nat) :=
    if Nat.ltb (sn s) (Nat.modulo (pos + sz) W) then V None
    else let* b := padd (sbuf s) 0 pos in
         let* l := range (sbuf s) b (sn s) in let* n := range t first last in
         let* r := of_opt (search l n Z.eqb 0) in
         if Nat.eqb (b + r) (sn s) then V None else V (Some (b + r)).
  (** basic_string.h: 1390-1429 *)
  Definition find_str (s u : str) (pos : nat) : M (option nat) := find_impl s (sbuf u) 0 (sn u) (sn u) pos.
  Definition find_view (s : str) (t : list Z) (v : view) (pos : nat) : M (option nat) := find_impl s t (vb v) (ve v) (size W v) pos.
  Definition find_text (s : str) (t : list Z) (pos : nat) : M (option nat) := let* sz := strlen t in find_impl s t 0 sz sz pos.
  Definition find_text_n (s : str) (t : list Z) (pos n : nat) : M (option nat) := let* sz := strlen t in find_impl s t 0 n sz pos.
  (** basic_string.h: 1436-1448 *)
  Definition find_char (s : str) (c : Z) (position : nat) : M (option nat) :=
    let* b := padd (sbuf s) 0 position in
    let* l := range (sbuf s) b (sn s) in
    let* i := of_opt (find_if l (fun x => Z.eqb x c)) in
    if negb (Nat.eqb (b + i) (sn s)) then V (Some (b + i)) else V None.
  (** basic_string.h: 2703-2728: from rbegin() + pos to rend() the characters size()-pos-1, ..., 1, 0 are seen *)
  Definition rfind_impl (s : str) (t : list Z) (first last sz pos : nat) : M (option nat) :=
    if Nat.ltb (sn s) sz then V None
    else
      let pos := if Nat.leb (sn s) pos then sn s else pos in
      let pos := sn s - pos in
      let* l := range (sbuf s) 0 (sn s - pos) in let* n := range t first last in
      let* r := of_opt (search (rev l) (rev n) Z.eqb 0) in
      if Nat.eqb r (List.length l) then V None else V (Some (sn s - sz - (pos + r))).
  (** basic_string.h: 1455-1497; the overload for a view has the default position 0 (1466) *)
  Definition rfind_str (s u : str) (pos : nat) : M (option nat) := rfind_impl s (sbuf u) 0 (sn u) (sn u) pos.
  Definition rfind_view (s : str) (t : list Z) (v : view) (pos : nat) : M (option nat) := rfind_impl s t (vb v) (ve v) (size W v) pos.
  Definition rfind_view_default (s : str) (t : list Z) (v : view) : M (option nat) := rfind_view s t v 0.
  Definition rfind_text (s : str) (t : list Z) (pos : nat) : M (option nat) := let* sz := strlen t in rfind_impl s t 0 sz sz pos.
  Definition rfind_text_n (s : str) (t : list Z) (pos n : nat) : M (option nat) := rfind_impl s t 0 n n pos.
  (** basic_string.h: 1504-1523 *)
  Definition rfind_char (s : str) (c : Z) (position : nat) : M (option nat) :=
    let position := if Nat.leb (sn s) position then sn s else position in
    let position := sn s - position in
    let* l := range (sbuf s) 0 (sn s - position) in
    let* i := of_opt (find_if (rev l) (fun x => Z.eqb x c)) in
    if negb (Nat.eqb i (List.length l)) then V (Some (sn s - (position + i) - 1)) else V None.

  (** basic_string.h: 2548-2583 *)
  Fixpoint cmp_loop (fuel : nat) (m : list Z) (first1 last1 : nat) (t : list Z) (first2 last2 : nat) : M Z :=
    match fuel with
    | 0 => UB
    | S f =>
        if negb (Nat.eqb first1 last1) && negb (Nat.eqb first2 last2)
        then let* x := load m first1 in let* y := load t first2 in
             if Z.ltb x y then V (-1)%Z else if Z.ltb y x then V 1%Z else cmp_loop f m (S first1) last1 t (S first2) last2
        else V (if Nat.eqb first1 last1 && Nat.eqb first2 last2 then 0%Z else if Nat.eqb first1 last1 then (-1)%Z else 1%Z)
    end.
  Definition cmp (m : list Z) (first1 last1 : nat) (t : list Z) (first2 last2 : nat) : M Z :=
    cmp_loop (S (List.length m)) m first1 last1 t first2 last2.
  (** basic_string.h: 1929-1947, 2017-2023 *)
  Definition compare_str (s u : str) : M Z := cmp (sbuf s) 0 (sn s) (sbuf u) 0 (sn u).
  Definition compare_view (s : str) (t : list Z) (v : view) : M Z := cmp (sbuf s) 0 (sn s) t (vb v) (ve v).
  Definition compare_text (s : str) (t : list Z) : M Z := let* n := strlen t in cmp (sbuf s) 0 (sn s) t 0 n.
  (** basic_string.h: 1952-1963 *)
  Definition compare_pos_str (s : str) (position length : nat) (u : str) : M Z :=
    let* _ := etl_assert (Nat.leb position (sn s)) "string_out_of_bounds" in
    let length := Nat.min length (sn s - position) in
    let* b := padd (sbuf s) 0 position in let* e := padd (sbuf s) b length in cmp (sbuf s) b e (sbuf u) 0 (sn u).
  (** basic_string.h: 1980-2012 *)
  Definition compare_pos_str2 (s : str) (position length : nat) (u : str) (subposition sublength : nat) : M Z :=
    let* _ := etl_assert (Nat.leb position (sn s)) "string_out_of_bounds" in
    let* _ := etl_assert (Nat.leb subposition (sn u)) "string_out_of_bounds" in
    let length := Nat.min length (sn s - position) in let sublength := Nat.min sublength (sn u - subposition) in
    let* b := padd (sbuf s) 0 position in let* e := padd (sbuf s) b length in
    let* b2 := padd (sbuf u) 0 subposition in let* e2 := padd (sbuf u) b2 sublength in cmp (sbuf s) b e (sbuf u) b2 e2.
  (** basic_string.h: 1969-1975, 2028-2045: neither position nor length is looked at *)
  Definition compare_pos_raw (s : str) (position length : nat) (t : list Z) (first2 last2 : nat) : M Z :=
    let* b := padd (sbuf s) 0 position in let* e := padd (sbuf s) b length in cmp (sbuf s) b e t first2 last2.
  Definition compare_pos_view (s : str) (position length : nat) (t : list Z) (v : view) : M Z := compare_pos_raw s position length t (vb v) (ve v).
  Definition compare_pos_text (s : str) (position length : nat) (t : list Z) : M Z := let* n := strlen t in compare_pos_raw s position length t 0 n.
  Definition compare_pos_text_n (s : str) (position length : nat) (t : list Z) (n : nat) : M Z := compare_pos_raw s position length t 0 n.
  (** basic_string.h: 1561-1641 *)
  Definition starts_with_str (s u : str) : M bool := let* z := compare_pos_str s 0 (sn u) u in V (Z.eqb z 0).
  Definition starts_with_view (s : str) (t : list Z) (v : view) : M bool := let* z := compare_pos_view s 0 (size W v) t v in V (Z.eqb z 0).
  Definition starts_with_text (s : str) (t : list Z) : M bool := let* n := strlen t in let* z := compare_pos_text_n s 0 n t n in V (Z.eqb z 0).
  Definition ends_with_str (s u : str) : M bool :=
    if Nat.ltb (sn s) (sn u) then V false else let* z := compare_pos_str s (sn s - sn u) (sn u) u in V (Z.eqb z 0).
  Definition ends_with_view (s : str) (t : list Z) (v : view) : M bool :=
    if Nat.ltb (sn s) (size W v) then V false else let* z := compare_pos_view s (sn s - size W v) (size W v) t v in V (Z.eqb z 0).
  Definition ends_with_text (s : str) (t : list Z) : M bool :=
    let* n := strlen t in
    if Nat.ltb (sn s) n then V false else let* z := compare_pos_text_n s (sn s - n) n t n in V (Z.eqb z 0).
  (** basic_string.h: 2052-2123 (find_first_of), 2224-2302 (not_of), 2129-2218 (find_last_of), 2308-2402 (not_of): s, position, n:
      the loops are those of string_view.h (ViewModel.v) over p_buffer[0 .. size()) and s[0 .. n) *)
  Definition as_view (s : str) : view := View false 0 (sn s).
  Definition find_first_s (want : bool) (s : str) (t : list Z) (position n : nat) : M (option nat) :=
    find_first W want (sbuf s) (as_view s) t (View false 0 n) position.
  Definition find_last_s (want : bool) (s : str) (t : list Z) (position n : nat) : M (option nat) :=
    find_last W want (sbuf s) (as_view s) t (View false 0 n) position.
  (** basic_string.h: 1528-1556 *)
  Definition contains_text (s : str) (t : list Z) : M bool := let* r := find_text s t 0 in V (match r with Some _ => true | None => false end).
  Definition contains_char (s : str) (c : Z) : M bool := let* r := find_char s c 0 in V (match r with Some _ => true | None => false end).
End StrFind.
