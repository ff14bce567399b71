(** * C32: the algorithms of algorithm.h deliver what they promise *)
From Coq Require Import List Arith Bool Lia Permutation.
From Verif Require Import Util Slots SortModel SortSpec HeapProofs SortProofs SortProofs2 AlgoModel AlgoSpec AlgoProofs.
Import ListNotations.

(** ** binary searches (no precondition is needed for them to end inside the range) *)
Lemma spec_partitioned {A} (p : A -> bool) l : AlgoSpec.partitioned p l -> SortProofs.partitioned p l.
Proof.
  intros (a & b & -> & Ha & Hb) i j x y Hij Hx Hy Py. destruct (Nat.lt_ge_cases i (List.length a)) as [H|H].
  - rewrite nth_error_app1 in Hx by lia. rewrite Forall_forall in Ha. apply Ha. eapply nth_error_In; exact Hx.
  - rewrite nth_error_app2 in Hy by lia. rewrite Forall_forall in Hb. rewrite Hb in Py; [discriminate|]. eapply nth_error_In; exact Hy.
Qed.
Lemma bound_split {A} (p : A -> bool) l : AlgoSpec.partitioned p l -> exists r, lower_bound_by l p = Some r /\ r <= List.length l /\
  Forall (fun x => p x = true) (firstn r l) /\ Forall (fun x => p x = false) (skipn r l).
Proof.
  intros Hp. destruct (bound_by_ok p l) as (r & E & L & Q). apply spec_partitioned in Hp. destruct (Q Hp) as (Q1 & Q2). exists r. conj; try assumption.
  - apply Forall_forall. intros x Hx. apply In_nth_error in Hx as (i & Hi). rewrite nth_error_firstn in Hi. destruct (Nat.ltb_spec i r); [|discriminate]. eapply Q1; eauto.
  - apply Forall_forall. intros x Hx. apply In_nth_error in Hx as (i & Hi). rewrite nth_error_skipn in Hi. apply (Q2 (r + i)); [lia|exact Hi].
Qed.
Lemma sorted_partitioned_lt {A} (lt : A -> A -> bool) l v : strict_weak_order lt -> sorted lt l -> AlgoSpec.partitioned (fun x => lt x v) l /\ AlgoSpec.partitioned (fun x => negb (lt v x)) l.
Proof.
  intros O. induction l as [|x l IH]; intros Hs.
  - split; exists [], []; conj; try reflexivity; constructor.
  - apply sorted_cons in Hs as (Hs & Hb). destruct (IH Hs) as ((a & b & E & Fa & Fb) & (a' & b' & E' & Fa' & Fb')).
    assert (forall y, In y l -> lt y x = false) as Kb. { intros y Hy. apply (Hb x y); [now left|exact Hy]. }
    split.
    + destruct (lt x v) eqn:Ex.
      * exists (x :: a), b. conj; [now rewrite E| |exact Fb]. constructor; assumption.
      * exists [], (x :: l). conj; [reflexivity|constructor|]. constructor; [exact Ex|]. apply Forall_forall. intros y Hy.
        exact (nlt_trans lt O v x y Ex (Kb y Hy)).
    + destruct (lt v x) eqn:Ex.
      * exists [], (x :: l). conj; [reflexivity|constructor|]. constructor; [now rewrite Ex|]. apply Forall_forall. intros y Hy. apply negb_false_iff.
        exact (lt_nlt_trans lt O v x y Ex (Kb y Hy)).
      * exists (x :: a'), b'. conj; [now rewrite E'| |exact Fb']. constructor; [now rewrite Ex|assumption].
Qed.
Theorem C32_lower_bound : forall (A : Type) (lt : A -> A -> bool) (l : list A) (v : A), AlgoSpec.partitioned (fun x => lt x v) l ->
  exists r, lower_bound lt l v = Some r /\ r <= List.length l /\ Forall (fun x => lt x v = true) (firstn r l) /\ Forall (fun x => lt x v = false) (skipn r l).
Proof. intros A lt l v H. apply (bound_split _ _ H). Qed.
Print Assumptions C32_lower_bound.
Theorem C32_upper_bound : forall (A : Type) (lt : A -> A -> bool) (l : list A) (v : A), AlgoSpec.partitioned (fun x => negb (lt v x)) l ->
  exists r, upper_bound lt l v = Some r /\ r <= List.length l /\ Forall (fun x => lt v x = false) (firstn r l) /\ Forall (fun x => lt v x = true) (skipn r l).
Proof.
  intros A lt l v H. destruct (bound_split _ _ H) as (r & E & L & F1 & F2). exists r. conj; try assumption.
  - eapply Forall_impl; [|exact F1]. cbn. intros x. apply negb_true_iff.
  - eapply Forall_impl; [|exact F2]. cbn. intros x. apply negb_false_iff.
Qed.
(** on a sorted range both preconditions hold; equal_range is exactly the block of elements equivalent to v *)
Theorem C32_equal_range : forall (A : Type) (lt : A -> A -> bool) (l : list A) (v : A), strict_weak_order lt -> sorted lt l ->
  exists a b, equal_range lt l v = Some (a, b) /\ a <= b <= List.length l /\
    Forall (fun x => lt x v = true) (firstn a l) /\ Forall (fun x => equivalent lt x v = true) (slice l a b) /\ Forall (fun x => lt v x = true) (skipn b l).
Proof.
  intros A lt l v O Hs. destruct (sorted_partitioned_lt lt l v O Hs) as (P1 & P2). unfold equal_range.
  destruct (C32_lower_bound A lt l v P1) as (a & Ea & La & A1 & A2). destruct (C32_upper_bound A lt l v P2) as (b & Eb & Lb & B1 & B2). rewrite Ea, Eb. cbn [obind].
  assert (a <= b) as Hab.
  { destruct (Nat.le_gt_cases a b) as [|C]; [assumption|]. exfalso. destruct (rd_lt l b) as (x & Hx); [lia|]. unfold rd in Hx.
    assert (lt x v = true) as K1. { rewrite Forall_forall in A1. apply A1. apply (nth_error_In _ b). rewrite nth_error_firstn. now replace (b <? a) with true by (symmetry; apply Nat.ltb_lt; lia). }
    assert (lt v x = true) as K2. { rewrite Forall_forall in B2. apply B2. apply (nth_error_In _ 0). rewrite nth_error_skipn, Nat.add_0_r. exact Hx. }
    rewrite (lt_asym lt O _ _ K1) in K2. discriminate. }
  exists a, b. conj; try assumption; try reflexivity.
  apply Forall_forall. intros x Hx. apply In_nth_error in Hx as (i & Hi). rewrite nth_slice in Hi by lia. destruct (Nat.ltb_spec i (b - a)); [|discriminate].
  unfold equivalent. apply andb_true_iff. rewrite !negb_true_iff. rewrite Forall_forall in A2, B1. split.
  - apply A2. apply (nth_error_In _ i). now rewrite nth_error_skipn.
  - apply B1. apply (nth_error_In _ (a + i)). rewrite nth_error_firstn. now replace (a + i <? b) with true by (symmetry; apply Nat.ltb_lt; lia).
Qed.
Theorem C32_binary_search : forall (A : Type) (lt : A -> A -> bool) (l : list A) (v : A), strict_weak_order lt -> sorted lt l ->
  exists b, binary_search lt l v = Some b /\ (b = true <-> exists x, In x l /\ equivalent lt x v = true).
Proof.
  intros A lt l v O Hs. destruct (sorted_partitioned_lt lt l v O Hs) as (P1 & P2). unfold binary_search.
  destruct (C32_lower_bound A lt l v P1) as (a & Ea & La & A1 & A2). rewrite Ea. cbn [obind]. rewrite Forall_forall in A1, A2. unfold equivalent.
  destruct (Nat.eqb_spec a (List.length l)) as [->|N].
  - exists false. split; [reflexivity|]. split; [discriminate|]. intros (x & Hx & He). rewrite firstn_all in A1. rewrite (A1 x Hx) in He. discriminate.
  - destruct (rd_lt l a) as (x & Hx); [lia|]. rewrite Hx. cbn [obind]. unfold rd in Hx.
    assert (lt x v = false) as K. { apply A2. apply (nth_error_In _ 0). rewrite nth_error_skipn, Nat.add_0_r. exact Hx. }
    eexists. split; [reflexivity|]. split.
    + intros E. exists x. split; [eapply nth_error_In; exact Hx|]. now rewrite K, E.
    + intros (y & Hy & He). apply andb_true_iff in He as (E1 & E2). apply negb_true_iff in E1, E2. apply negb_true_iff.
      apply In_nth_error in Hy as (i & Hi). assert (a <= i) as Hai.
      { destruct (Nat.le_gt_cases a i); [assumption|]. exfalso. rewrite (A1 y) in E1; [discriminate|]. apply (nth_error_In _ i). rewrite nth_error_firstn. now replace (i <? a) with true by (symmetry; apply Nat.ltb_lt; lia). }
      destruct (Nat.eq_dec i a) as [->|]; [congruence|]. assert (lt y x = false) as Kyx by (apply (Hs a i x y); [lia|exact Hx|exact Hi]).
      exact (nlt_trans lt O x y v Kyx E2).
Qed.
(** binary_find with operator < and ==: the value is found iff it is there, at its first position *)
Theorem C32_binary_find : forall (A : Type) (lt eqv : A -> A -> bool) (l : list A) (v : A), strict_weak_order lt -> sorted lt l ->
  (forall x y, eqv x y = true <-> equivalent lt x y = true) ->
  exists r, binary_find lt eqv l v = Some r /\ first_position (fun x => equivalent lt x v) l r.
Proof.
  intros A lt eqv l v O Hs He. destruct (sorted_partitioned_lt lt l v O Hs) as (P1 & P2). unfold binary_find.
  destruct (C32_lower_bound A lt l v P1) as (a & Ea & La & A1 & A2). rewrite Ea. cbn [obind]. rewrite Forall_forall in A1, A2.
  assert (forall j y, j < a -> nth_error l j = Some y -> equivalent lt y v = false) as Kl.
  { intros j y Hj Hy. unfold equivalent. rewrite (A1 y); [reflexivity|]. apply (nth_error_In _ j). rewrite nth_error_firstn. now replace (j <? a) with true by (symmetry; apply Nat.ltb_lt; lia). }
  destruct (Nat.eqb_spec a (List.length l)) as [->|N].
  - eexists. split; [reflexivity|]. repeat split; [lia|exact Kl|]. intros x Hx. apply nth_error_lt in Hx. lia.
  - destruct (rd_lt l a) as (x & Hx); [lia|]. rewrite Hx. cbn [obind]. unfold rd in Hx. destruct (eqv x v) eqn:E; cbn [negb].
    + apply He in E. eexists. split; [reflexivity|]. repeat split; [lia|exact Kl|]. intros y Hy. congruence.
    + eexists. split; [reflexivity|]. apply first_position_end. intros y Hy. apply In_nth_error in Hy as (i & Hi).
      destruct (Nat.lt_ge_cases i a) as [C|C]; [exact (Kl i y C Hi)|].
      assert (lt x v = false) as K. { apply A2. apply (nth_error_In _ 0). rewrite nth_error_skipn, Nat.add_0_r. exact Hx. }
      assert (lt v x = true) as Kx. { apply not_false_is_true. intros C1. assert (eqv x v = true); [|congruence]. apply He. unfold equivalent. now rewrite K, C1. }
      unfold equivalent. destruct (Nat.eq_dec i a) as [->|]; [assert (y = x) as -> by congruence; rewrite Kx; now rewrite andb_false_r|].
      assert (lt y x = false) as Kyx by (apply (Hs a i x y); [lia|exact Hx|exact Hi]). rewrite (lt_nlt_trans lt O v x y Kx Kyx). now rewrite andb_false_r.
Qed.
Print Assumptions C32_binary_find.

(** ** linear searches, counts *)
Theorem C32_find : forall (A : Type) (p : A -> bool) (l : list A),
  (exists i, find_if l p = Some i /\ first_position p l i) /\
  (exists i, find_if_not l p = Some i /\ first_position (fun x => negb (p x)) l i) /\
  (exists i, partition_point l p = Some i /\ first_position (fun x => negb (p x)) l i) /\
  all_of l p = Some (forallb p l) /\ any_of l p = Some (existsb p l) /\ none_of l p = Some (negb (existsb p l)) /\
  count_if l p = Some (List.length (filter p l)) /\
  (exists b, is_partitioned l p = Some b /\ (b = true <-> AlgoSpec.partitioned p l)).
Proof.
  intros A p l. conj; [apply find_if_ok|apply (find_if_ok (fun x => negb (p x)))|apply (find_if_ok (fun x => negb (p x)))|apply all_ok|apply any_ok|apply none_ok|apply count_if_ok|apply is_partitioned_ok].
Qed.
Print Assumptions C32_find.

(** ** comparisons of two ranges *)
Theorem C32_equal : forall (A B : Type) (p : A -> B -> bool) (l1 : list A) (l2 rest : list B),
  (List.length l1 = List.length l2 -> exists b, equal3 l1 (l2 ++ rest) p = Some b /\ (b = true <-> equal_lists p l1 l2)) /\
  (exists b, equal4 l1 l2 p = Some b /\ (b = true <-> equal_lists p l1 l2)).
Proof.
  intros A B p l1 l2 rest. split.
  - intros L. exact (equal_loop_ok p l1 [] l2 [] rest eq_refl L).
  - exact (equal4_loop_ok p l1 (S (List.length l1)) [] l2 [] ltac:(lia) eq_refl).
Qed.
Theorem C32_lexicographical_compare : forall (A : Type) (lt : A -> A -> bool) (l1 l2 : list A), strict_weak_order lt ->
  exists b, lexicographical_compare lt l1 l2 = Some b /\ (b = true <-> lexicographically_less lt l1 l2).
Proof.
  intros A lt l1 l2 O. exact (lex_loop_ok lt l1 (S (List.length l1)) [] l2 [] ltac:(lia) eq_refl (lt_asym lt O)).
Qed.
Print Assumptions C32_lexicographical_compare.
(** the first occurrence of a pattern, or the end *)
Theorem C32_search : forall (A B : Type) (p : A -> B -> bool) (l : list A) (s : list B),
  exists r, search l s p 0 = Some r /\ (forall k, k < r -> ~ occurs_at p l s k) /\ (occurs_at p l s r \/ (r = List.length l /\ forall k, ~ occurs_at p l s k)).
Proof.
  intros A B p l s. destruct (search_loop_ok p l s (S (List.length l)) 0) as (r & E & L & _ & N & D); [lia|lia|]. exists r. conj.
  - exact E.
  - intros k Hk. apply N. lia.
  - destruct D as [D|(-> & Hs)]; [now left|]. right. split; [reflexivity|]. intros k Ho. pose proof (proj1 Ho). apply (N k); [|exact Ho]. destruct s; [congruence|cbn in *; lia].
Qed.
(** the last occurrence of a pattern that is not empty, or the end *)
Theorem C32_find_end : forall (A B : Type) (p : A -> B -> bool) (l : list A) (s : list B),
  exists r, find_end l s p = Some r /\
    (s = [] -> r = List.length l) /\
    (s <> [] -> (occurs_at p l s r /\ forall k, r < k -> ~ occurs_at p l s k) \/ (r = List.length l /\ forall k, ~ occurs_at p l s k)).
Proof.
  intros A B p l s. unfold find_end. destruct s as [|y s].
  - cbn. exists (List.length l). conj; try reflexivity. congruence.
  - cbn [List.length Nat.eqb]. destruct (find_end_loop_ok p l (y :: s)) with (fuel := S (List.length l)) (b := 0) (result := List.length l) as (r & E & H); [discriminate|lia|lia|left; split; [reflexivity|lia]|].
    exists r. conj; [exact E|discriminate|]. intros _. tauto.
Qed.
Print Assumptions C32_find_end.

(** ** least and greatest *)
Theorem C32_min_element : forall (A : Type) (lt : A -> A -> bool) (l : list A), strict_weak_order lt ->
  exists r, min_element lt l = Some r /\ (l = [] -> r = 0) /\ (l <> [] -> first_least lt l r).
Proof.
  intros A lt [|x t] O.
  - exists 0. conj; try reflexivity. congruence.
  - destruct (one_first_least lt O (x :: t) x t eq_refl) as (H & _). destruct (min_loop_ok lt O (x :: t) (List.length t) 1 0) as (r & E & Hr); [cbn; lia|exact H|].
    exists r. conj; [|discriminate|intros _; exact Hr]. unfold min_element. cbn [List.length]. rewrite Nat.sub_succ, Nat.sub_0_r. exact E.
Qed.
(** the last of the greatest elements *)
Theorem C32_max_element : forall (A : Type) (lt : A -> A -> bool) (l : list A), strict_weak_order lt ->
  exists r, max_element lt l = Some r /\ (l = [] -> r = 0) /\ (l <> [] -> last_greatest lt l r).
Proof.
  intros A lt [|x t] O.
  - exists 0. conj; try reflexivity. congruence.
  - destruct (one_first_least lt O (x :: t) x t eq_refl) as (_ & H & _). destruct (max_loop_ok lt O (x :: t) (List.length t) 1 0) as (r & E & Hr); [cbn; lia|exact H|].
    exists r. conj; [|discriminate|intros _; exact Hr]. unfold max_element. cbn [List.length]. rewrite Nat.sub_succ, Nat.sub_0_r. exact E.
Qed.
Theorem C32_minmax_element : forall (A : Type) (lt : A -> A -> bool) (l : list A), strict_weak_order lt ->
  exists r s, minmax_element lt l = Some (r, s) /\ (l = [] -> r = 0 /\ s = 0) /\ (l <> [] -> first_least lt l r /\ first_greatest lt l s).
Proof.
  intros A lt [|x t] O.
  - exists 0, 0. conj; try reflexivity; try congruence. split; reflexivity.
  - destruct (one_first_least lt O (x :: t) x t eq_refl) as (H & _ & H'). destruct (minmax_loop_ok lt O (x :: t) (List.length t) 1 0 0) as (r & s & E & Hr); [cbn; lia|exact H|exact H'|].
    exists r, s. conj; [|discriminate|intros _; exact Hr]. unfold minmax_element. cbn [List.length]. rewrite Nat.sub_succ, Nat.sub_0_r. exact E.
Qed.
Print Assumptions C32_minmax_element.
(** FINDING: the C++ standard says max_element returns the first, minmax_element the last of the greatest elements; the code does the opposite *)
Theorem C32_max_element_first_refuted : exists (lt : nat * nat -> nat * nat -> bool) l r, strict_weak_order lt /\ max_element lt l = Some r /\ ~ first_greatest lt l r.
Proof.
  exists (fun a b => fst a <? fst b), [(1, 0); (1, 1)], 1. conj.
  - constructor; intros; rewrite ?Nat.ltb_lt, ?Nat.ltb_ge in *; lia.
  - vm_compute. reflexivity.
  - intros (m & H & H1 & H2). specialize (H2 0 (1, 0) ltac:(lia) eq_refl). cbn in H. injection H as <-. discriminate.
Qed.
Theorem C32_minmax_element_last_refuted : exists (lt : nat * nat -> nat * nat -> bool) l r s, strict_weak_order lt /\ minmax_element lt l = Some (r, s) /\ ~ last_greatest lt l s.
Proof.
  exists (fun a b => fst a <? fst b), [(1, 0); (1, 1)], 0, 0. conj.
  - constructor; intros; rewrite ?Nat.ltb_lt, ?Nat.ltb_ge in *; lia.
  - vm_compute. reflexivity.
  - intros (m & H & H1 & H2). specialize (H2 1 (1, 1) ltac:(lia) eq_refl). cbn in H. injection H as <-. discriminate.
Qed.
(** min and max of two values, clamp.  For equivalent values min gives the second (std::min gives the first) *)
Theorem C32_min_max_clamp : forall (A : Type) (lt : A -> A -> bool), strict_weak_order lt -> forall a b : A,
  (AlgoModel.min lt a b = a \/ AlgoModel.min lt a b = b) /\ lt a (AlgoModel.min lt a b) = false /\ lt b (AlgoModel.min lt a b) = false /\
  (AlgoModel.max lt a b = a \/ AlgoModel.max lt a b = b) /\ lt (AlgoModel.max lt a b) a = false /\ lt (AlgoModel.max lt a b) b = false /\
  (equivalent lt a b = true -> AlgoModel.min lt a b = b /\ AlgoModel.max lt a b = a) /\
  (minmax lt a b = (a, b) \/ minmax lt a b = (b, a)) /\ lt (snd (minmax lt a b)) (fst (minmax lt a b)) = false /\
  (forall v, lt b a = false -> lt (clamp lt v a b) a = false /\ lt b (clamp lt v a b) = false /\ (lt v a = false -> lt b v = false -> clamp lt v a b = v)).
Proof.
  intros A lt O a b. unfold AlgoModel.min, AlgoModel.max, minmax, clamp, equivalent. pose proof (nlt_refl lt O) as I. pose proof (lt_asym lt O) as As.
  destruct (lt a b) eqn:E1, (lt b a) eqn:E2; cbn [fst snd negb andb]; conj; auto; try discriminate; try (apply As in E1; congruence).
  all: intros v Hab; try discriminate; destruct (lt v a) eqn:E3, (lt b v) eqn:E4; conj; auto; try discriminate; congruence.
Qed.
Print Assumptions C32_min_max_clamp.

(** ** sortedness, permutations *)
Theorem C32_is_sorted : forall (A : Type) (lt : A -> A -> bool) (l : list A), strict_weak_order lt ->
  (exists r, is_sorted_until lt l = Some r /\ r <= List.length l /\ sorted lt (firstn r l) /\ (r < List.length l -> ~ sorted lt (firstn (S r) l))) /\
  (exists b, is_sorted lt l = Some b /\ (b = true <-> sorted lt l)).
Proof. intros A lt l O. split; [now apply is_sorted_until_ok|now apply is_sorted_ok]. Qed.
(** [eqv] is operator ==, [same] operator == or a predicate that agrees with it *)
Theorem C32_is_permutation : forall (A : Type) (same eqv : A -> A -> bool), decides_equality eqv -> decides_equality same -> forall l1 l2 rest : list A,
  List.length l1 = List.length l2 ->
  (exists b, is_permutation3 same eqv l1 (l2 ++ rest) = Some b /\ (b = true <-> Permutation l1 l2)) /\
  (exists b, is_permutation4 same eqv l1 l2 = Some b /\ (b = true <-> Permutation l1 l2)).
Proof.
  intros A same eqv E Hs l1 l2 rest L. destruct (is_permutation4_ok eqv E same l1 l2 Hs) as (b & Hb & Hbs). rewrite (occ_sub_perm eqv E l1 l2 L) in Hbs. split; [|eauto].
  exists b. split; [|exact Hbs]. rewrite <- Hb. unfold is_permutation3, is_permutation4. destruct (Nat.eqb_spec (List.length l1) 0) as [Z|N].
  - destruct l1; [reflexivity|discriminate].
  - replace (Nat.leb (List.length l1) (List.length (l2 ++ rest))) with true by (symmetry; apply Nat.leb_le; rewrite app_length; lia).
    now rewrite L, firstn_app, firstn_all, Nat.sub_diag, app_nil_r.
Qed.
Print Assumptions C32_is_permutation.
(** FINDING: the version with both ends does not look at the length of the second range *)
Theorem C32_is_permutation_lengths_refuted : exists l1 l2 : list nat, is_permutation4 Nat.eqb Nat.eqb l1 l2 = Some true /\ ~ Permutation l1 l2.
Proof. exists [1], [1; 2]. split; [vm_compute; reflexivity|]. intros P. apply Permutation_length in P. discriminate. Qed.
(** FINDING: the versions with a predicate still count with operator == *)
Theorem C32_is_permutation_predicate_refuted : exists (same : nat -> nat -> bool) (l1 l2 : list nat),
  (forall x, same x x = true) /\ (forall x y, same x y = same y x) /\ (forall x y z, same x y = true -> same y z = true -> same x z = true) /\
  equal_lists same l1 l2 /\ is_permutation4 same Nat.eqb l1 l2 = Some false /\ is_permutation3 same Nat.eqb l1 l2 = Some false.
Proof.
  exists (fun x y => x mod 2 =? y mod 2), [1], [3]. conj; try (vm_compute; reflexivity).
  - intros. apply Nat.eqb_refl.
  - intros. apply Nat.eqb_sym.
  - intros x y z. rewrite !Nat.eqb_eq. congruence.
  - repeat constructor.
Qed.

(** ** copying and rearranging *)
(** copy, move and copy_backward, move_backward within one array, with the overlaps that the standard allows *)
Theorem C32_copy : forall (A : Type) (m : list A) sb se db, sb <= se -> se <= List.length m -> db + (se - sb) <= List.length m -> db <= sb \/ se <= db ->
  copy m sb se db = Some (placed m db (slice m sb se), db + (se - sb)).
Proof. intros. now apply copy_ok. Qed.
Theorem C32_copy_backward : forall (A : Type) (m : list A) sb se de, sb <= se -> se <= List.length m -> se - sb <= de -> de <= List.length m -> se <= de \/ de <= sb ->
  copy_backward m sb se de = Some (placed m (de - (se - sb)) (slice m sb se), de - (se - sb)).
Proof. intros. now apply copy_backward_ok. Qed.
Theorem C32_remove_if : forall (A : Type) (p : A -> bool) (m : list A), exists m' n, remove_if m p = Some (m', n) /\ List.length m' = List.length m /\
  firstn n m' = filter (fun x => negb (p x)) m /\ n = List.length (filter (fun x => negb (p x)) m).
Proof. intros A p m. destruct (remove_if_ok p m) as (m' & E & L & F). exists m', (List.length (filter (fun x => negb (p x)) m)). conj; try assumption. reflexivity. Qed.
Print Assumptions C32_remove_if.
Theorem C32_replace_fill_swap : forall (A : Type),
  (forall (p : A -> bool) v m, replace_if m p v = Some (map (fun x => if p x then v else x) m)) /\
  (forall (v : A) n m i, i + n <= List.length m -> fill_n n m v i = Some (placed m i (repeat v n), i + n)) /\
  (forall (l1 l2 e1 e2 : list A), List.length l1 = List.length l2 -> swap_ranges (List.length l1) (l1 ++ e1) (l2 ++ e2) 0 = Some (l2 ++ e1, l1 ++ e2, List.length l1)) /\
  (forall (s d : list A) o, o + List.length s <= List.length d -> reverse_copy s d o = Some (placed d o (rev s), o + List.length s)) /\
  (forall l : list A, reverse l = Some (rev l)).
Proof.
  intros A. conj.
  - intros p v m. exact (replace_loop_ok p v m []).
  - intros. now apply fill_n_ok.
  - intros l1 l2 e1 e2 L. exact (swap_ranges_ok l1 l2 [] [] e1 e2 L eq_refl).
  - intros s d o H. unfold reverse_copy. pose proof (reverse_copy_ok s [] d o H) as K. now rewrite app_nil_r in K.
  - apply reverse_ok.
Qed.
(** the bounded and the filtering copies into another range *)
Theorem C32_copies : forall (A B : Type) (f : A -> B) (p : A -> bool) (s : list A) (d : list A) (db : list B) (o oe : nat),
  (o + List.length (filter p s) <= List.length d -> copy_if s p d o = Some (placed d o (filter p s), o + List.length (filter p s))) /\
  (forall n, n <= List.length s -> o + List.length (filter p (firstn n s)) <= List.length d ->
     copy_n_if s n p d o = Some (placed d o (filter p (firstn n s)), o + List.length (filter p (firstn n s)))) /\
  (o + List.length s <= List.length db -> transform s f db o = Some (placed db o (map f s), o + List.length s)) /\
  (forall n, n <= List.length s -> o + n <= List.length db -> transform_n s n f db o = Some (placed db o (map f (firstn n s)), o + n)) /\
  (o + List.length (filter p s) <= List.length db -> transform_if s f p db o = Some (placed db o (map f (filter p s)), o + List.length (filter p s))) /\
  (o <= oe -> oe <= List.length d ->
     copy_s_general s d o oe = Some (placed d o (firstn (oe - o) s), o + List.length (firstn (oe - o) s)) /\
     copy_s_random s d o oe = Some (placed d o (firstn (oe - o) s), o + List.length (firstn (oe - o) s)) /\
     copy_if_s s p d o oe = Some (placed d o (firstn (oe - o) (filter p s)), o + List.length (firstn (oe - o) (filter p s))) /\
     (forall n, n <= List.length s -> copy_n_s s n d o oe = Some (placed d o (firstn (oe - o) (firstn n s)), o + List.length (firstn (oe - o) (firstn n s))))) /\
  (o <= oe -> oe <= List.length db -> transform_s s f db o oe = Some (placed db o (firstn (oe - o) (map f s)), o + List.length (firstn (oe - o) (map f s)))).
Proof.
  intros A B f p s d db o oe.
  assert (forall {C} (g : A -> option C) (dc : list C) n oc, n <= List.length s -> oc + List.length (outputs g (firstn n s)) <= List.length dc ->
    emit_loop n s 0 g dc oc = Some (placed dc oc (outputs g (firstn n s)), oc + List.length (outputs g (firstn n s)))) as K1.
  { intros C g dc n oc Hn Ho. pose proof (emit_loop_ok g (firstn n s) [] (skipn n s) dc oc Ho) as K. cbn [app List.length] in K. rewrite firstn_skipn, firstn_length_le in K by lia. exact K. }
  assert (forall {C} (g : A -> option C) (dc : list C) n o oe, n <= List.length s -> o <= oe -> oe <= List.length dc ->
    emit_loop_s n s 0 g dc o oe = Some (placed dc o (firstn (oe - o) (outputs g (firstn n s))), o + List.length (firstn (oe - o) (outputs g (firstn n s))))) as K2.
  { intros C g dc n oc oec Hn H1 H2. pose proof (emit_loop_s_ok g (firstn n s) [] (skipn n s) dc oc oec H1 H2) as K. cbn [app List.length] in K. rewrite firstn_skipn, firstn_length_le in K by lia. exact K. }
  assert (forall l, outputs (@Some A) l = l) as Ki. { intros l. unfold outputs. induction l as [|x l IH]; [reflexivity|]. cbn. now rewrite IH. }
  assert (forall l, outputs (fun x => if p x then Some x else None) l = filter p l) as Kf by (intros; apply outputs_filter).
  conj.
  - intros H. unfold copy_if. rewrite K1; rewrite ?firstn_all, ?Kf; try lia. reflexivity.
  - intros n Hn H. unfold copy_n_if. rewrite K1; rewrite ?Kf; try lia. reflexivity.
  - intros H. unfold transform. rewrite K1; rewrite ?firstn_all, ?outputs_map, ?map_length; try lia. reflexivity.
  - intros n Hn H. unfold transform_n. replace (Nat.leb n (List.length s)) with true by (symmetry; apply Nat.leb_le; lia).
    rewrite K1; rewrite ?outputs_map, ?map_length, ?firstn_length_le; try lia. reflexivity.
  - intros H. unfold transform_if. rewrite K1; rewrite ?firstn_all, ?outputs_map_filter, ?map_length; try lia. reflexivity.
  - intros H1 H2. unfold copy_s_general, copy_s_random, copy_if_s. conj.
    + rewrite K2; rewrite ?firstn_all, ?Ki; try lia. reflexivity.
    + destruct (Nat.ltb_spec (List.length s) (oe - o)) as [C|C].
      * rewrite K1; rewrite ?firstn_all, ?Ki; try lia. rewrite (firstn_all2 s) by lia. reflexivity.
      * rewrite K1; rewrite ?Ki; try (rewrite firstn_length_le; lia); try lia. reflexivity.
    + rewrite K2; rewrite ?firstn_all, ?Kf; try lia. reflexivity.
    + intros n Hn. unfold copy_n_s. rewrite K2; rewrite ?Ki; try lia. reflexivity.
  - intros H1 H2. unfold transform_s. rewrite K2; rewrite ?firstn_all, ?outputs_map; try lia. reflexivity.
Qed.
Print Assumptions C32_copies.
Theorem C32_partition_copy_transform2_accumulate : forall (A B C : Type),
  (forall (p : A -> bool) (s dt df : list A) ot of, ot + List.length (filter p s) <= List.length dt -> of + List.length (filter (fun x => negb (p x)) s) <= List.length df ->
     partition_copy s p dt ot df of = Some ((placed dt ot (filter p s), ot + List.length (filter p s)),
       (placed df of (filter (fun x => negb (p x)) s), of + List.length (filter (fun x => negb (p x)) s)))) /\
  (forall (f : A -> B -> C) (s : list A) (s2 e2 : list B) (d : list C) o, List.length s = List.length s2 -> o + List.length s <= List.length d ->
     transform2 s (s2 ++ e2) f d o = Some (placed d o (map (fun xy => f (fst xy) (snd xy)) (combine s s2)), o + List.length s)) /\
  (forall (op : B -> A -> B) (s : list A) sum, accumulate s op sum = Some (fold_left op s sum)) /\
  (forall (p : A -> bool) (s e : list A), for_each_loop (List.length s) (s ++ e) 0 p [] = Some (filter p s, List.length s)).
Proof.
  intros A B C. conj.
  - intros p s dt df ot of H1 H2. exact (partition_copy_ok p s [] dt df ot of H1 H2).
  - intros f s s2 e2 d o L H. exact (transform2_ok f s s2 [] [] e2 d o L eq_refl H).
  - intros op s sum. exact (accumulate_loop_ok op s [] sum).
  - intros p s e. exact (for_each_loop_ok p s [] e []).
Qed.
(** rotate: the elements, for the three iterator categories; the returned iterator is the new position of the first element unless middle = first *)
Theorem C32_rotate : forall (A : Type) (cat : iterator_category) (l : list A) (m : nat), m <= List.length l ->
  exists r, rotate cat l m = Some (skipn m l ++ firstn m l, r) /\ (0 < m -> r = List.length l - m).
Proof.
  intros A cat l m H. eexists. split; [apply rotate_ok, H|]. intros Hm. destruct (Nat.eqb_spec m 0); [lia|reflexivity].
Qed.
Print Assumptions C32_rotate.
(** FINDING: rotate(first, first, last) returns first; the standard says last *)
Theorem C32_rotate_result_refuted : forall (A : Type) (cat : iterator_category) (l : list A), rotate cat l 0 = Some (l, 0).
Proof. intros A cat l. rewrite rotate_ok by lia. cbn. now rewrite app_nil_r. Qed.

(** ** The hypotheses are met *)
Example ex_algos :
  equal_range Nat.ltb [1; 2; 2; 2; 5] 2 = Some (1, 4) /\ binary_find Nat.ltb Nat.eqb [1; 2; 2; 5] 5 = Some 3 /\
  find_end [1; 2; 1; 2; 1] [1; 2] Nat.eqb = Some 2 /\ search [1; 2; 1; 2; 1] [2; 1] Nat.eqb 0 = Some 1 /\
  remove_if [1; 2; 3; 4; 5] Nat.even = Some ([1; 3; 5; 4; 5], 3) /\
  copy [1; 2; 3; 4; 5] 1 4 0 = Some ([2; 3; 4; 4; 5], 3) /\ copy_backward [1; 2; 3; 4; 5] 0 3 5 = Some ([1; 2; 1; 2; 3], 2) /\
  is_permutation4 Nat.eqb Nat.eqb [1; 2; 1] [2; 1; 1] = Some true /\ is_permutation4 Nat.eqb Nat.eqb [1; 2; 1] [2; 2; 1] = Some false /\
  copy_if_s [1; 2; 3; 4; 6] Nat.even [0; 0; 0; 0] 1 3 = Some ([0; 2; 4; 0], 3) /\
  rotate forward [1; 2; 3; 4; 5] 2 = Some ([3; 4; 5; 1; 2], 3).
Proof. conj; vm_compute; reflexivity. Qed.
Example ex_eqb_decides : decides_equality Nat.eqb. Proof. intros x y. apply Nat.eqb_eq. Qed.
