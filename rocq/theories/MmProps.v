(** * C51: multimap and multiset *)
From Coq Require Import List Arith Bool Lia.
From Verif Require Import Util SortSpec HeapProofs FlatSpec FlatProofs AvlModel AvlTree AvlIns AvlDel AvlRem AvlFind MapProps MmModel MmSpec MmTree MmIns MmRem3 MmFind MmProofs.
Import ListNotations.

(** Every history of calls covered by MmSpec.v gives, call by call, the results of the sorted list in which equal keys stand in
    the order of their insertion; no operation dereferences a node that is not in use or fails to end; iteration forwards and
    backwards gives the contents, which are ascending by key; size() is exact, never above the capacity; the nodes in use and the
    free nodes of the pool add up: no leak. *)
Theorem C51_history : forall {E K : Type} (key : E -> K) (lt : K -> K -> bool) (N : nat) c w d e g pool,
  strict_weak_order lt -> good_pool N pool ->
  forall os rs l, u_ops key lt N os [] = Some (rs, l) ->
  exists q, mm_ops key lt N os (mm_new c w d e g pool) = Some (rs, q) /\
    mm_contents N q = Some l /\ mm_backwards N q = Some (rev l) /\ ordered key lt false l /\
    sz (fst q) = List.length l /\ List.length l <= N /\ List.length (fr (fst q)) + List.length l = N.
Proof.
  intros E K key lt N c w d e g pool O (P1 & P2 & P3) os rs l H.
  destruct (uops_ok key lt O N os _ [] rs l (unew_ok key lt N c w d e g pool P1 P2 P3) H) as (q & Es & Hi).
  exists q. split; [exact Es|]. split; [eapply ucontents_ok; eauto|]. split; [eapply ubackwards_ok; eauto|].
  pose proof Hi as [t Ht]. split; [eapply ui_ordered; eauto|].
  split; [eapply usz_ok; eauto|]. split; [eapply ui_le; eauto|]. rewrite <- (ui_len _ _ _ _ _ _ Ht). apply Ht.
Qed.

(** The height balance (the predicate avl of MapProps.v, read off the node fields) and the parent pointers after every history:
    the root has no parent, the parent of every other node is the node it hangs below. *)
Theorem C51_balanced : forall {E K : Type} (key : E -> K) (lt : K -> K -> bool) (N : nat) c w d e g pool,
  strict_weak_order lt -> good_pool N pool ->
  forall os rs l q, u_ops key lt N os [] = Some (rs, l) -> mm_ops key lt N os (mm_new c w d e g pool) = Some (rs, q) ->
  exists h, avl (fst q) (rt (fst q)) h (List.length l) /\
    fib (h + 2) <= List.length l + 1 /\ h <= 2 * Nat.log2 (List.length l + 1) + 1 /\
    (rt (fst q) <> 0 -> snd q (rt (fst q)) = 0) /\
    (forall x dir, al (fst q) x = true -> ch (fst q) x dir <> 0 -> snd q (ch (fst q) x dir) = x /\ al (fst q) (ch (fst q) x dir) = true).
Proof.
  intros E K key lt N c w d e g pool O (P1 & P2 & P3) os rs l q H Hs.
  destruct (uops_ok key lt O N os _ [] rs l (unew_ok key lt N c w d e g pool P1 P2 P3) H) as (q1 & Es & [t Ht]). rewrite Hs in Es. injection Es as <-.
  pose proof (ui_wf _ _ _ _ _ _ Ht) as W. pose proof (mw_po _ _ _ _ _ W) as [HR HN H0 HP].
  assert (A : avl (fst q) (rt (fst q)) (hgt t) (List.length l)).
  { rewrite <- (ui_len _ _ _ _ _ _ Ht). apply avl_of_bal; auto. apply W. }
  exists (hgt t). split; [exact A|]. pose proof (avl_fib _ _ _ _ A) as FB. split; [exact FB|]. split; [|split].
  - pose proof (fib_pow (hgt t)) as FP. assert (hgt t / 2 <= Nat.log2 (List.length l + 1)).
    { apply Nat.log2_le_pow2; lia. }
    pose proof (Nat.div_mod_eq (hgt t) 2). pose proof (Nat.mod_upper_bound (hgt t) 2). lia.
  - intros Hr. destruct t; cbn in HR, HP; [congruence|]. destruct HR as (-> & _). tauto.
  - intros x dir Hx Hc. apply (mw_al _ _ _ _ _ W) in Hx. destruct (in_split_tree t x Hx) as (C & a & b & ->).
    destruct (proj1 (rep_plug _ _ _) HR) as (y & _ & HX). destruct HX as (-> & Ax & Ha & Hb).
    pose proof (proj1 (prep_plug _ _ _) HP) as ((_ & Pa & Pb) & _).
    assert (G : forall u, rep (fst q) (ch (fst q) x dir) u -> prep (snd q) x u -> snd q (ch (fst q) x dir) = x /\ al (fst q) (ch (fst q) x dir) = true).
    { intros u Hu Pu. destruct u; cbn in Hu; [congruence|]. destruct Hu as (-> & Au & _). cbn in Pu. tauto. }
    destruct dir; [apply (G a)|apply (G b)]; auto.
Qed.

(** The elements do not move: a node in use keeps its element when others are inserted, and when other nodes are erased. *)
Theorem C51_elements_do_not_move : forall {E K : Type} (key : E -> K) (lt : K -> K -> bool) (N : nat) c w d e g pool,
  strict_weak_order lt -> good_pool N pool ->
  forall os rs l q, u_ops key lt N os [] = Some (rs, l) -> mm_ops key lt N os (mm_new c w d e g pool) = Some (rs, q) ->
  (forall e1 q' r x, mm_insert key lt N q e1 = Some (q', r) -> al (fst q) x = true -> re (fst q') x = re (fst q) x /\ r <> Some x) /\
  (forall i x y, mm_iter N q i = Some x -> first_of_its_key key lt i l = true -> al (fst q) y = true -> y <> x ->
     exists q' z, mm_erase_at key lt N q x = Some (q', z) /\ re (fst q') y = re (fst q) y /\ al (fst q') x = false).
Proof.
  intros E K key lt N c w d e g pool O (P1 & P2 & P3) os rs l q H Hs.
  destruct (uops_ok key lt O N os _ [] rs l (unew_ok key lt N c w d e g pool P1 P2 P3) H) as (q1 & Es & [t Ht]). rewrite Hs in Es. injection Es as <-.
  pose proof (ui_wf _ _ _ _ _ _ Ht) as W. pose proof (ui_fuel _ _ _ _ _ _ Ht) as F. split.
  - intros e1 q' r x Hi Hx. pose proof Hx as Hx'. apply (mw_al _ _ _ _ _ W) in Hx. unfold mm_insert in Hi. destruct (mm_full N q).
    { injection Hi as <- <-. split; [reflexivity|discriminate]. }
    destruct (allocate (fst q) e1) as [[s0 p]|] eqn:EA; cbn [obind] in Hi; [|discriminate].
    destruct (minsert_ok key lt O (mfuel N) (fst q) (snd q) t s0 p e1 W EA ltac:(lia)) as (s' & g' & l1 & l2 & t' & EI & E1 & E2 & W' & Ee & Hel & Hfr & Np & Lo & Up).
    rewrite EI in Hi. cbn [obind] in Hi. injection Hi as <- <-. cbn [fst]. split; [|congruence].
    assert (Ix : In x (ino t')) by (rewrite E2, in_app_iff; rewrite E1, in_app_iff in Hx; cbn; tauto).
    apply (mw_al _ _ _ _ _ W') in Ix. unfold re. now rewrite Ix, Hx', Hel.
  - intros i x y Hi Hf Hy Hne. pose proof (ui_len _ _ _ _ _ _ Ht) as HT.
    assert (Hil : i < List.length l) by (apply nth_error_Some; unfold first_of_its_key in Hf; destruct (nth_error l i); [discriminate|discriminate Hf]).
    rewrite (uiter_ok key lt N q t l i Ht) in Hi by lia. injection Hi as Hi. pose proof (MapProofs.skipn_split (ino t) i) as Es.
    destruct (skipn i (ino t)) as [|x' l2] eqn:E2.
    { exfalso. apply (f_equal (@List.length _)) in E2. rewrite skipn_length in E2. cbn in E2. lia. }
    cbn in Hi. subst x'. unfold mm_erase_at. erewrite unext_at by eauto. cbn [obind].
    destruct (mremove_ok key lt O (mfuel N) (fst q) (snd q) t x _ l2 W ltac:(lia) Es) as (s' & g' & t' & ER & E3 & W' & Hel & Hfr).
    { intros z Hz. eapply (first_lt key lt O N q t l _ x l2 Ht Es); cbn; auto. now rewrite MapProofs.firstn_len by lia. }
    rewrite ER. cbn [obind]. eexists _, _. split; [reflexivity|]. cbn [fst].
    pose proof Hy as Hy'. apply (mw_al _ _ _ _ _ W) in Hy. split.
    + assert (Iy : In y (ino t')) by (rewrite E3, in_app_iff; rewrite Es, in_app_iff in Hy; cbn in Hy; intuition congruence).
      apply (mw_al _ _ _ _ _ W') in Iy. unfold re. now rewrite Iy, Hy', Hel.
    + destruct (mw_free _ _ _ _ _ W') as [_ G]. apply G. rewrite Hfr. cbn. auto.
Qed.

(** FINDING: erase(iterator) at an element that is not the first of its key may break the order: remove_node descends from the
    node by comparing keys, so below a node with equal keys on its left it can take a node from the wrong place.  After inserting
    (1,a) (1,b) (1,c) (0,d) and erasing the iterator to (1,b), the iteration gives (1,a) (0,d) (1,c). *)
Theorem C51_erase_any_iterator_refuted :
  ~ (forall (N i : nat) pool os rs q l, good_pool N pool -> (forall o, In o os -> exists e, o = Finsert e) ->
       mm_ops fst Nat.ltb N os (mm_new (fun _ _ => 0) (fun _ => None) (fun _ => None) (fun _ => (0, 0)) (fun _ => 0) pool) = Some (rs, q) ->
       mm_contents N q = Some l -> i < List.length l ->
       exists q', mm_op fst Nat.ltb N (FeraseAt i) q = Some (Rit i, q') /\ mm_contents N q' = Some (firstn i l ++ skipn (S i) l)).
Proof.
  intros H.
  assert (G : good_pool 5 [4; 2; 7; 1; 9]) by apply C14_case_pool.
  set (os := [Finsert (1, 10); Finsert (1, 11); Finsert (1, 12); Finsert (0, 13)] : list (fop (nat * nat) nat)).
  assert (Ho : forall o, In o os -> exists e, o = Finsert e) by (intros o [<-|[<-|[<-|[<-|[]]]]]; eauto).
  destruct (mm_ops fst Nat.ltb 5 os (mm_new (fun _ _ => 0) (fun _ => None) (fun _ => None) (fun _ => (0, 0)) (fun _ => 0) [4; 2; 7; 1; 9])) as [[rs q]|] eqn:E1; [|vm_compute in E1; discriminate].
  assert (E3 : mm_contents 5 q = Some [(0, 13); (1, 10); (1, 11); (1, 12)]).
  { change q with (snd (rs, q)). apply (f_equal (option_map snd)) in E1. cbn [option_map snd] in E1. vm_compute in E1. injection E1 as <-. vm_compute. reflexivity. }
  destruct (H 5 2 _ _ _ q _ G Ho E1 E3 ltac:(cbn; lia)) as (q' & E4 & E5).
  assert (E6 : mm_contents 5 q' = Some [(1, 10); (0, 13); (1, 12)]).
  { apply (f_equal (option_map snd)) in E1. cbn [option_map snd] in E1. vm_compute in E1. injection E1 as <-.
    apply (f_equal (option_map snd)) in E4. cbn [option_map snd] in E4. vm_compute in E4. injection E4 as <-. vm_compute. reflexivity. }
  rewrite E6 in E5. discriminate.
Qed.

(** ** a concrete case *)
Definition mcase_ops : list (fop (nat * nat) nat) :=
  [Finsert (5, 1); Finsert (3, 2); Finsert (5, 3); Finsert (3, 4); Finsert (5, 5); Finsert (1, 6); Fcount 5; FequalRange 5; Ffind 5; FlowerBound 4; FupperBound 3;
   FeraseAt 0; Fcontents; FeraseKey 3; FinsertRange [(5, 7); (4, 8); (9, 9)]; Fcontents; FeraseRange 1 3; Fcontents; Fassign [(2, 0); (1, 0); (2, 1)]; Fcontents; Favailable].
Definition mcase_res : list (fres (nat * nat)) :=
  [Ritb 0 true; Ritb 0 true; Ritb 2 true; Ritb 1 true; Ritb 4 true; Rfull; Rn 3; Rrange 2 5; Rit 2; Rit 2; Rit 2;
   Rit 0; Rl [(3, 4); (5, 1); (5, 3); (5, 5)]; Rn 1; Rfull; Rl [(4, 8); (5, 1); (5, 3); (5, 5); (5, 7)]; Rit 1; Rl [(4, 8); (5, 5); (5, 7)]; Runit; Rl [(1, 0); (2, 0); (2, 1)]; Rn 2].
Example C51_case_spec : u_ops fst Nat.ltb 5 mcase_ops [] = Some (mcase_res, [(1, 0); (2, 0); (2, 1)]).
Proof. reflexivity. Qed.
Example C51_case_model : option_map fst (mm_ops fst Nat.ltb 5 mcase_ops (mm_new (fun _ _ => 77) (fun _ => Some R) (fun _ => None) (fun _ => (0, 0)) (fun _ => 3) [4; 2; 7; 1; 9])) = Some mcase_res.
Proof. vm_compute. reflexivity. Qed.

Print Assumptions C51_history.
Print Assumptions C51_balanced.
Print Assumptions C51_elements_do_not_move.
Print Assumptions C51_erase_any_iterator_refuted.
