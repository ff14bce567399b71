(** * Model of etl::multi_span (multi_span.h).

    The span list is a list of the contents of the spans; an element pointer is null ([None]) or the pair (span, offset).
    [UB]: a pointer is moved outside the span it points into, a null pointer is moved or read, a span outside the span list is used.
    Simplification: the memory of two spans is told apart by the span's number (the code only compares pointers
    into the current span); const_iterator is the same code as iterator (266-463). *)
From Coq Require Import List Arith Bool.
From Verif Require Import Util Slots ViewModel.
Import ListNotations.

Section Mspan.
  Context {A : Type}.
  Variable spans : list (list A).
  Definition n_spans : nat := List.length spans.
  (** multi_span.h: 258-260 *)
  Record iter := Iter { cur : nat; val : option (nat * nat) }.
  (** the span number c of the list *)
  Definition span_at (c : nat) : M (list A) := load spans c.
  (** while ((p_current_span != p_span_list->end()) && p_current_span->empty()) ++p_current_span; *)
  Fixpoint skip_empty (fuel : nat) (c : nat) : M nat :=
    match fuel with
    | 0 => UB
    | S f => if Nat.eqb c n_spans then V c else let* s := span_at c in match s with [] => skip_empty f (S c) | _ => V c end
    end.
  (** multi_span.h: 235-256 *)
  Definition make (c : nat) : M iter :=
    if negb (Nat.eqb c n_spans)
    then let* c := skip_empty (S n_spans) c in
         if negb (Nat.eqb c n_spans) then V (Iter c (Some (c, 0))) else V (Iter c None)
    else V (Iter c None).
  (** multi_span.h: 535-562 *)
  Definition begin_ : M iter := make 0.
  Definition end_ : M iter := make n_spans.
  (** multi_span.h: 215-226 *)
  Definition ptr_eqb (p q : option (nat * nat)) : bool :=
    match p, q with Some (a, b), Some (c, d) => Nat.eqb a c && Nat.eqb b d | None, None => true | _, _ => false end.
  Definition it_eqb (i j : iter) : bool := Nat.eqb (cur i) (cur j) && ptr_eqb (val i) (val j).
  (** multi_span.h: 183-194 *)
  Definition deref (i : iter) : M A := match val i with Some (s, o) => let* l := span_at s in load l o | None => UB end.
  (** multi_span.h: 99-124 *)
  Definition incr (i : iter) : M iter :=
    if negb (Nat.eqb (cur i) n_spans)
    then match val i with
         | None => UB
         | Some (k, o) =>
             let* l := span_at k in
             let* o := padd l o 1 in
             let* c := span_at (cur i) in
             if Nat.eqb k (cur i) && Nat.eqb o (List.length c)
             then let* c := skip_empty (S n_spans) (S (cur i)) in
                  if negb (Nat.eqb c n_spans) then V (Iter c (Some (c, 0))) else V (Iter c None)
             else V (Iter (cur i) (Some (k, o)))
         end
    else V i.
  (** do { --p_current_span; } while ((p_current_span != p_span_list->begin()) && p_current_span->empty()); *)
  Fixpoint back_empty (c : nat) : M nat :=
    match c with
    | 0 => UB
    | S p => if negb (Nat.eqb p 0) then (let* s := span_at p in match s with [] => back_empty p | _ => V p end) else V p
    end.
  (** p_value = p_current_span->end(); --p_value; *)
  Definition before_end (c : nat) : M iter := let* s := span_at c in let* o := psub (List.length s) 1 in V (Iter c (Some (c, o))).
  (** multi_span.h: 137-168 *)
  Definition decr (i : iter) : M iter :=
    if Nat.eqb (cur i) n_spans
    then let* c := psub (cur i) 1 in before_end c
    else
      let* s := span_at (cur i) in
      let at_start := ptr_eqb (val i) (Some (cur i, 0)) in
      if negb (Nat.eqb (cur i) 0) || negb at_start
      then if at_start
           then let* c := back_empty (cur i) in before_end c
           else match val i with Some (k, o) => let* o := psub o 1 in V (Iter (cur i) (Some (k, o))) | None => UB end
      else V (Iter (cur i) None).
  (** multi_span.h: 599-613: span_list[index] is read before index is compared *)
  Fixpoint index_loop (fuel : nat) (i c : nat) : M (nat * nat) :=
    match fuel with
    | 0 => UB
    | S f => let* s := span_at c in
             if Nat.leb (List.length s) i && Nat.ltb c n_spans then index_loop f (i - List.length s) (S c) else V (i, c)
    end.
  Definition index_ (i : nat) : M A :=
    let* (i, c) := index_loop (S (S n_spans)) i 0 in let* s := span_at c in load s i.
  (** multi_span.h: 618-630 *)
  Fixpoint size_loop (l : list (list A)) (total : nat) : nat :=
    match l with [] => total | s :: r => size_loop r (total + List.length s) end.
  Definition msize : nat := size_loop spans 0.
  (** multi_span.h: 635-645 *)
  Definition mempty : bool := match spans with [] => true | _ => Nat.eqb msize 0 end.
  (** n times ++, n times -- *)
  Fixpoint advance (n : nat) (i : iter) : M iter := match n with 0 => V i | S k => let* j := incr i in advance k j end.
End Mspan.
