(** * C50: unordered_multimap and unordered_multiset

    For every hash function that respects key equality (constant functions included: total collision), every number of
    buckets, capacity and history. *)
From Coq Require Import List Arith Lia Bool.
From Verif Require Import Util FlatSpec UmSpec AvlModel UmModel UmProps UmmSpec UmmModel UmmProofs.
Import ListNotations.

(** The caller keeps the preconditions: each call's iterators are within the contents that iteration meets just before it. *)
Definition respects {E K : Type} (key : E -> K) (keq : K -> K -> bool) (hash : K -> nat) (B N : nat) (s0 : ust E) (os : list (mop E K)) : Prop :=
  forall os1 o os2 rs s l, os = os1 ++ o :: os2 -> mm_ops key keq hash B N os1 s0 = Some (rs, s) -> u_contents B N s = Some l -> m_pre o l.

(** Every history of calls is defined and is a run of the specification on the list that iteration meets; afterwards
    elements with equal keys are met one after the other, and size() is the number of elements, at most the capacity. *)
Theorem C50_history : forall {E K : Type} (key : E -> K) (keq : K -> K -> bool) (hash : K -> nat) (B N : nat) n e pool,
  0 < B -> hashable keq hash -> hash_pool N pool ->
  forall os, respects key keq hash B N (um_new n e pool) os ->
  exists rs s l, mm_ops key keq hash B N os (um_new n e pool) = Some (rs, s) /\ u_contents B N s = Some l /\
    m_run key keq N os [] rs l /\ grouped key keq l /\ usize N s = List.length l /\ List.length l <= N.
Proof.
  intros E K key keq hash B N n e pool HB HH (P1 & P2 & P3) os.
  assert (G : forall os s l, rep key keq hash B N s l -> respects key keq hash B N s os ->
    exists rs s' l', mm_ops key keq hash B N os s = Some (rs, s') /\ m_run key keq N os l rs l' /\ rep key keq hash B N s' l').
  { clear os. induction os as [|o os IH]; intros s l R HR; cbn [mm_ops].
    - exists [], s, l. cbn. auto.
    - assert (HP : m_pre o l) by (apply (HR [] o os [] s l); auto; eapply rep_contents; eauto).
      destruct (op_ok key keq hash B N HB HH o s l R HP) as (r & s1 & l1 & H1 & H2 & R1). rewrite H1. cbn [obind].
      destruct (IH s1 l1 R1) as (rs & s' & l' & -> & H3 & R').
      { intros os1 o' os2 rs s2 l2 -> H4 H5. apply (HR (o :: os1) o' os2 (r :: rs) s2 l2); auto. cbn [mm_ops]. rewrite H1. cbn [obind]. rewrite H4. reflexivity. }
      cbn [obind]. exists (r :: rs), s', l'. conj; auto. cbn. split; auto. exists l1. auto. }
  intros HR. destruct (G os _ [] (new_rep key keq hash B N HB n e pool P1 P2 P3) HR) as (rs & s & l & H1 & H2 & R). exists rs, s, l.
  destruct (rep_len key keq hash B N s l R) as (L1 & L2 & _). conj; auto.
  - eapply rep_contents; eauto.
  - destruct R as (bk & _ & _ & R). eapply gr_grouped; eauto.
Qed.

(** ** what fails *)
Definition mm_case (os : list (mop (nat * nat) nat)) := mm_ops fst Nat.eqb (fun k => k) 4 5 os (um_new (fun _ => 0) (fun _ => (0, 0)) [4; 2; 7; 1; 9]).
(** "erase(it->first) erases every element with the key of it": the reference becomes dangling when the element goes, and
    the keys of the elements behind it are compared with it. *)
Theorem C50_erase_own_key_refuted : ~ (forall os rs s i, mm_case os = Some (rs, s) -> it_nth 4 s 0 = Some i -> snd i <> 0 -> mm_erase_key fst Nat.eqb (fun k => k) 4 5 s (Kof (snd i)) <> None).
Proof. intros H. specialize (H [Minsert (3, 1); Minsert (3, 2)]). vm_compute in H. eapply H; try reflexivity. discriminate. Qed.
(** "a range may end at end()": if last marks an empty bucket the loop runs into the destroyed nodes or off the array *)
Theorem C50_erase_to_end_refuted : ~ (forall os rs s i, mm_case os = Some (rs, s) -> it_nth 4 s 1 = Some i -> snd i <> 0 -> um_erase_range 4 5 s i (it_end s) <> None).
Proof.
  intros H. specialize (H [Minsert (0, 1); Minsert (3, 2); Minsert (7, 3); MeraseKey 3]). vm_compute in H.
  eapply H; try reflexivity. discriminate.
Qed.

(** ** a concrete case: total collision (every key in bucket 1 of 3) *)
Definition mm_demo : list (mop (nat * nat) nat) :=
  [Minsert (5, 1); Minsert (3, 2); Minsert (5, 3); Minsert (3, 4); Minsert (5, 5); Minsert (1, 1); Mcontents; Mcount 5; MequalRange 3; Mfind 3; MeraseAt 1; MeraseRange 0 2;
   Mcontents; MinsertRange [(3, 6); (7, 7)]; Mcontents; MeraseKey 3; Mcontents; MeraseRange 0 1; Massign [(9, 9); (8, 8); (9, 7)]; Mcontents; Mavailable].
Definition mm_case1 os := mm_ops fst Nat.eqb (fun _ => 1) 3 5 os (um_new (fun _ => 0) (fun _ => (0, 0)) [4; 2; 7; 1; 9]).
Example C50_case_respects : respects fst Nat.eqb (fun _ => 1) 3 5 (um_new (fun _ => 0) (fun _ => (0, 0)) [4; 2; 7; 1; 9]) mm_demo.
Proof.
  intros os1 o os2 rs s l HE H1 H2.
  assert (C : forall i, i < 22 -> firstn i mm_demo = os1 -> nth i mm_demo Mclear = o -> m_pre o l).
  { intros i Hi <- <-. do 22 (destruct i as [|i]; [vm_compute in H1; injection H1 as <- <-; vm_compute in H2; injection H2 as <-; cbn; lia|]). lia. }
  apply (C (List.length os1)).
  - apply (f_equal (@List.length _)) in HE. rewrite app_length in HE. cbn in HE. lia.
  - rewrite HE. now rewrite firstn_app, firstn_all, Nat.sub_diag, firstn_O, app_nil_r.
  - rewrite HE. rewrite app_nth2, Nat.sub_diag by lia. reflexivity.
Qed.
Example C50_case_model : option_map (fun q => (nth 5 (fst q) Munit, skipn 6 (fst q))) (mm_case1 mm_demo) =
  Some (Mfull_error,
       [Ml [(5, 5); (5, 3); (5, 1); (3, 4); (3, 2)]; Mn 3; Ml [(3, 4); (3, 2)]; Mrest [(3, 4); (3, 2)]; Mrest [(5, 1); (3, 4); (3, 2)]; Mrest [(3, 4); (3, 2)];
        Ml [(3, 4); (3, 2)]; Munit; Ml [(3, 6); (3, 4); (3, 2); (7, 7)]; Mn 3; Ml [(7, 7)]; Mrest []; Munit; Ml [(9, 7); (9, 9); (8, 8)]; Mn 2]).
Proof. vm_compute. reflexivity. Qed.
Print Assumptions C50_history.
Print Assumptions C50_erase_own_key_refuted.
Print Assumptions C50_erase_to_end_refuted.
