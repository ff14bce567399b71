(** * C31: the sort algorithms sort *)
From Coq Require Import List Arith Bool Permutation Lia.
From Verif Require Import Util Slots SortModel SortSpec HeapProofs SortProofs SortProofs2.
Import ListNotations.

(** For every comparison function that is a strict weak order, and every range: the function ends,
    accesses only elements of the range, and leaves a sorted permutation of it. *)
Theorem C31_shell_sort : forall (A : Type) (lt : A -> A -> bool) (l : list A), strict_weak_order lt ->
  exists l', shell_sort lt l = Some l' /\ Permutation l' l /\ sorted lt l'.
Proof. intros A lt l O. now apply shell_sort_ok. Qed.
Print Assumptions C31_shell_sort.
Theorem C31_sort : forall (A : Type) (lt : A -> A -> bool) (l : list A), strict_weak_order lt ->
  exists l', sort lt l = Some l' /\ Permutation l' l /\ sorted lt l'.
Proof. intros A lt l O. now apply shell_sort_ok. Qed.
Theorem C31_heap_sort : forall (A : Type) (lt : A -> A -> bool) (l : list A), strict_weak_order lt ->
  exists l', heap_sort lt l = Some l' /\ Permutation l' l /\ sorted lt l'.
Proof. intros A lt l O. now apply heap_sort_ok. Qed.
Print Assumptions C31_heap_sort.
Theorem C31_sort_heap : forall (A : Type) (lt : A -> A -> bool) (l : list A), strict_weak_order lt -> heap lt l ->
  exists l', sort_heap lt l = Some l' /\ Permutation l' l /\ sorted lt l'.
Proof. intros A lt l O. now apply sort_heap_ok. Qed.
Theorem C31_make_heap : forall (A : Type) (lt : A -> A -> bool) (l : list A), strict_weak_order lt ->
  exists l', make_heap lt l = Some l' /\ Permutation l' l /\ heap lt l'.
Proof. intros A lt l O. now apply make_heap_ok. Qed.
Theorem C31_is_heap : forall (A : Type) (lt : A -> A -> bool) (l : list A), exists b, is_heap lt l = Some b /\ (b = true <-> heap lt l).
Proof. intros. apply is_heap_ok. Qed.
(** insertion_sort (and stable_sort, which is insertion_sort) moreover keeps the order of equivalent elements;
    for forward, bidirectional and random access iterators (three different rotate functions). *)
Theorem C31_insertion_sort_stable : forall (A : Type) (lt : A -> A -> bool) (cat : iterator_category) (l : list A), strict_weak_order lt ->
  exists l', insertion_sort lt cat l = Some l' /\ Permutation l' l /\ sorted lt l' /\ stable lt l l'.
Proof. intros A lt cat l O. now apply insertion_sort_ok. Qed.
Print Assumptions C31_insertion_sort_stable.
Theorem C31_stable_sort : forall (A : Type) (lt : A -> A -> bool) (cat : iterator_category) (l : list A), strict_weak_order lt ->
  exists l', stable_sort lt cat l = Some l' /\ Permutation l' l /\ sorted lt l' /\ stable lt l l'.
Proof. intros A lt cat l O. now apply insertion_sort_ok. Qed.
(** selection_sort sorts every non-empty range *)
Theorem C31_selection_sort : forall (A : Type) (lt : A -> A -> bool) (l : list A), strict_weak_order lt -> l <> [] ->
  exists l', selection_sort lt l = Some l' /\ Permutation l' l /\ sorted lt l'.
Proof. intros A lt l O N. now apply selection_sort_ok. Qed.
Print Assumptions C31_selection_sort.
(** FINDING: selection_sort of an empty range computes the iterator before the first and runs from first up to it *)
Theorem C31_selection_sort_empty_refuted : forall (A : Type) (lt : A -> A -> bool), selection_sort lt [] = None.
Proof. reflexivity. Qed.
(** shell_sort does not keep the order of equivalent elements (sort does not promise it) *)
Theorem C31_shell_sort_not_stable : exists (lt : nat * nat -> nat * nat -> bool) l l', strict_weak_order lt /\ shell_sort lt l = Some l' /\ ~ stable lt l l'.
Proof.
  exists (fun a b => fst a <? fst b), [(1, 0); (1, 1); (0, 0); (5, 0)], [(0, 0); (1, 1); (1, 0); (5, 0)].
  split; [|split; [vm_compute; reflexivity|]].
  - constructor; intros; rewrite ?Nat.ltb_lt, ?Nat.ltb_ge in *; try lia. 
  - intros H. specialize (H (1, 5)). vm_compute in H. discriminate.
Qed.

(** consequences that name no helper: for numbers, sorted means non-decreasing *)
Lemma nat_swo : strict_weak_order Nat.ltb.
Proof. constructor; intros; rewrite ?Nat.ltb_lt, ?Nat.ltb_ge in *; try lia. Qed.
Example ex_sorts : forall f, In f [shell_sort Nat.ltb; heap_sort Nat.ltb; selection_sort Nat.ltb; insertion_sort Nat.ltb random_access; insertion_sort Nat.ltb bidirectional; insertion_sort Nat.ltb forward] ->
  f [3; 1; 4; 1; 5; 9; 2; 6; 5; 3; 5] = Some [1; 1; 2; 3; 3; 4; 5; 5; 5; 6; 9].
Proof. intros f H. repeat destruct H as [<-|H]; try (vm_compute; reflexivity). destruct H. Qed.
(** a strict weak order in which different elements are equivalent *)
Example ex_stable : strict_weak_order (fun a b : nat * nat => fst a <? fst b) /\
  insertion_sort (fun a b : nat * nat => fst a <? fst b) random_access [(2, 0); (1, 0); (2, 1); (1, 1); (0, 7); (1, 2)] = Some [(0, 7); (1, 0); (1, 1); (1, 2); (2, 0); (2, 1)].
Proof. split; [|vm_compute; reflexivity]. constructor; intros; rewrite ?Nat.ltb_lt, ?Nat.ltb_ge in *; try lia. Qed.
