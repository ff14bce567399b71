(** * C42: multi_span. *)
From Coq Require Import List Arith Bool Lia.
From Verif Require Import Util Slots ViewModel ViewProofs MspanModel MspanProofs.
Import ListNotations.

(** size(), empty(), operator[] *)
Theorem C42_multi_span_size_index : forall (A : Type) (spans : list (list A)),
  msize spans = List.length (concat spans) /\ (mempty spans = true <-> concat spans = []) /\
  (forall i x, nth_error (concat spans) i = Some x -> index_ spans i = V x).
Proof.
  intros A spans. conj.
  - apply msize_ok.
  - unfold mempty. destruct spans as [|s r] eqn:E; [now split|]. rewrite <- E. rewrite Nat.eqb_eq, msize_ok. split; [apply length_zero_iff_nil|intros ->; reflexivity].
  - intros i x Hx. assert (i < List.length (concat spans)) as L by (apply nth_error_Some; congruence).
    destruct (index_ok_ spans i spans [] (S (S (n_spans spans))) eq_refl L) as (y & Hy & R); [unfold n_spans; lia|]. unfold index_. cbn [List.length] in R. rewrite R. congruence.
Qed.
Print Assumptions C42_multi_span_size_index.
(** FINDING: operator[] with i >= size() reads the span list behind its end before it stops, whatever the spans are *)
Theorem C42_multi_span_index_refuted : forall (A : Type) (spans : list (list A)) i, List.length (concat spans) <= i -> index_ spans i = UB.
Proof. intros A spans i H. unfold index_. rewrite (index_bad spans spans [] _ i eq_refl H). reflexivity. Qed.
Print Assumptions C42_multi_span_index_refuted.
(** k increments from begin() reach the k-th element of the concatenation, for any spans (empty ones included);
    end() is reached after exactly size() of them, and not before *)
Theorem C42_multi_span_forward : forall (A : Type) (spans : list (list A)),
  exists b e, begin_ spans = V b /\ end_ spans = V e /\
    forall k, k <= List.length (concat spans) -> exists i, advance spans k b = V i /\
      (it_eqb i e = true <-> k = List.length (concat spans)) /\
      (forall x, nth_error (concat spans) k = Some x -> deref spans i = V x).
Proof.
  intros A spans. destruct (begin_ok spans) as (b & Eb & Sb). exists b, (Iter (List.length spans) None). conj; [exact Eb|apply end_ok|].
  intros k Hk. destruct (advance_ok spans k 0 b Sb Hk) as (i & Ei & Si). cbn in Si. exists i. conj; [exact Ei| |].
  - rewrite it_eqb_ok. symmetry. exact (proj2 (stands_bound spans k i Si)).
  - intros x Hx. exact (deref_ok spans k i x Si Hx).
Qed.
Print Assumptions C42_multi_span_forward.
(** -- undoes ++ at every position from 1 to size() - 1; at end() it does so exactly when the last span is not empty *)
Theorem C42_multi_span_backward_exact : forall (A : Type) (spans : list (list A)) b k, begin_ spans = V b -> S k <= List.length (concat spans) ->
  exists i j, advance spans (S k) b = V i /\ advance spans k b = V j /\
    ((S k < List.length (concat spans) \/ last spans [] <> []) -> decr spans i = V j) /\
    (S k = List.length (concat spans) -> last spans [] = [] -> decr spans i = UB).
Proof.
  intros A spans b k Eb Hk. destruct (begin_ok spans) as (b' & Eb' & Sb). assert (b' = b) as -> by congruence.
  destruct (advance_ok spans (S k) 0 b Sb Hk) as (i & Ei & Si). destruct (advance_ok spans k 0 b Sb ltac:(lia)) as (j & Ej & Sj). cbn [Nat.add] in Si, Sj. exists i, j. conj; [exact Ei|exact Ej| |].
  - intros Hl. destruct (decr_ok spans k i Si Hl) as (j' & -> & Sj'). f_equal. exact (stands_fun spans k j' j Sj' Sj).
  - intros E Hl. pose proof (proj1 (proj2 (stands_bound spans (S k) i Si)) E) as ->. exact (decr_end_bad spans Hl).
Qed.
Print Assumptions C42_multi_span_backward_exact.
(** FINDING: so a reverse iteration over spans of which the last is empty begins outside *)
Theorem C42_multi_span_backward_refuted : exists (spans : list (list nat)) e, concat spans = [1; 2; 3] /\ end_ spans = V e /\ decr spans e = UB.
Proof. exists [[1; 2]; []; [3]; []], (Iter 4 None). conj; reflexivity. Qed.
Print Assumptions C42_multi_span_backward_refuted.
Example mspan_ex : exists b, begin_ [[]; [1; 2]; []; [3]] = V b /\ exists i j, advance [[]; [1; 2]; []; [3]] 2 b = V i /\ decr [[]; [1; 2]; []; [3]] i = V j /\ deref [[]; [1; 2]; []; [3]] i = V 3 /\ deref [[]; [1; 2]; []; [3]] j = V 2.
Proof. eexists. split; [reflexivity|]. do 2 eexists. conj; reflexivity. Qed.
