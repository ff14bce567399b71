(** * Bounded hash multimaps and multisets.  Independent of the code.

    The state is the list of elements in the order in which iteration meets them.  Nothing is said about that order but
    this: elements with equal keys are met one after the other, and a new element is met before the older ones with
    the same key.  An iterator result is reported as the list of the elements met from it to the end. *)
From Coq Require Import List Arith Bool.
Import ListNotations.

Section Spec.
  Context {E K : Type}.
  Variable key : E -> K.
  Variable keq : K -> K -> bool.     (** key equality *)
  Variable N : nat.                  (** capacity *)

  Inductive mop : Type :=
  | Minsert (e : E) | MinsertRange (es : list E) | Massign (es : list E)
  | MeraseKey (k : K)
  | MeraseAt (i : nat)               (** erase(iterator): the [i]-th element met *)
  | MeraseRange (i j : nat)          (** erase(first, last): the elements met at [i] up to [j], [j] not included *)
  | Mclear
  | Mfind (k : K) | Mcontains (k : K) | Mcount (k : K) | MequalRange (k : K)
  | Mcontents | Msize | Mempty | Mfull | Mavailable.
  Inductive mres : Type :=
  | Mrest (l : list E) | Mn (n : nat) | Mb (b : bool) | Ml (l : list E) | Munit | Mfull_error.

  Definition same_key (k : K) (e : E) : bool := keq k (key e).
  Definition matching (k : K) (l : list E) : list E := filter (same_key k) l.
  Definition others (k : K) (l : list E) : list E := filter (fun e => negb (same_key k e)) l.
  Definition has (k : K) (l : list E) : bool := existsb (same_key k) l.
  (** from the first element with the key *)
  Fixpoint from_key (k : K) (l : list E) : list E :=
    match l with [] => [] | e :: r => if same_key k e then l else from_key k r end.
  (** elements with equal keys are met one after the other *)
  Definition grouped (l : list E) : Prop :=
    forall l1 x l2 y l3, l = l1 ++ x :: l2 ++ y :: l3 -> keq (key x) (key y) = true -> forall z, In z l2 -> keq (key x) (key z) = true.
  (** where a new element may go: before the older ones with its key *)
  Definition added (e : E) (l l' : list E) (rest : list E) : Prop :=
    exists l1 l2, l = l1 ++ l2 /\ l' = l1 ++ e :: l2 /\ rest = e :: l2 /\ has (key e) l1 = false.
  Inductive adds : list E -> list E -> bool -> list E -> Prop :=
  | adds_nil l : adds [] l true l
  | adds_full e es l : List.length l = N -> adds (e :: es) l false l
  | adds_one e es l l1 rest b l2 : List.length l < N -> added e l l1 rest -> adds es l1 b l2 -> adds (e :: es) l b l2.

  (** what a caller must respect: iterators are within the contents; see C50 for why a range may only end at an element
      unless it is everything *)
  Definition m_pre (o : mop) (l : list E) : Prop :=
    match o with
    | MeraseAt i => i < List.length l
    | MeraseRange i j => i <= j /\ (j < List.length l \/ (i = 0 /\ j = List.length l))
    | _ => True
    end.
  Definition m_step (o : mop) (l : list E) (r : mres) (l' : list E) : Prop :=
    match o with
    | Minsert e => if List.length l <? N then exists rest, added e l l' rest /\ r = Mrest rest else r = Mfull_error /\ l' = l
    | MinsertRange es => exists b, adds es l b l' /\ r = if (b : bool) then Munit else Mfull_error
    | Massign es => exists b, adds es [] b l' /\ r = if (b : bool) then Munit else Mfull_error
    | MeraseKey k => r = Mn (List.length (matching k l)) /\ l' = others k l
    | MeraseAt i => r = Mrest (skipn (S i) l) /\ l' = firstn i l ++ skipn (S i) l
    | MeraseRange i j => r = Mrest (skipn j l) /\ l' = firstn i l ++ skipn j l
    | Mclear => r = Munit /\ l' = []
    | Mfind k => r = Mrest (from_key k l) /\ l' = l
    | Mcontains k => r = Mb (has k l) /\ l' = l
    | Mcount k => r = Mn (List.length (matching k l)) /\ l' = l
    | MequalRange k => r = Ml (matching k l) /\ l' = l
    | Mcontents => r = Ml l /\ l' = l
    | Msize => r = Mn (List.length l) /\ l' = l
    | Mempty => r = Mb (List.length l =? 0) /\ l' = l
    | Mfull => r = Mb (List.length l =? N) /\ l' = l
    | Mavailable => r = Mn (N - List.length l) /\ l' = l
    end.
  Fixpoint m_run (os : list mop) (l : list E) (rs : list mres) (l' : list E) : Prop :=
    match os, rs with
    | [], [] => l' = l
    | o :: os, r :: rs => m_pre o l /\ exists l1, m_step o l r l1 /\ m_run os l1 rs l'
    | _, _ => False
    end.
End Spec.
Arguments mop : clear implicits.
Arguments mres : clear implicits.
