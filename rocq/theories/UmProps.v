(** * C16: unordered_map and unordered_set behave as finite maps

    For every hash function that respects key equality (constant functions included: total collision), every number of
    buckets, capacity and history. *)
From Coq Require Import List Arith Lia Bool Permutation.
From Verif Require Import Util FlatSpec UmSpec AvlModel UmModel UmProofs UmOps.
Import ListNotations.

(** a pool of [N] nodes at distinct addresses, none of them null; whatever the nodes hold *)
Definition hash_pool (N : nat) (pool : list nat) : Prop := NoDup pool /\ List.length pool = N /\ ~ In 0 pool.

(** Every operation of every history gives the result of the finite map specification (elements listed in some order);
    afterwards iteration meets every element exactly once, no two have the same key, and size() is their number. *)
Theorem C16_history : forall {E K : Type} (key : E -> K) (keq : K -> K -> bool) (hash : K -> nat) (B N : nat) (fl : flavour) (mk : K -> E) n e pool,
  0 < B -> hashable keq hash -> (forall k, key (mk k) = k) -> hash_pool N pool ->
  forall os rs l, u_ops key keq N fl mk os [] = Some (rs, l) ->
  exists rs' s, um_ops key keq hash B N fl mk os (um_new n e pool) = Some (rs', s) /\ Forall2 same_result rs' rs /\
    (exists c, u_contents B N s = Some c /\ Permutation c l) /\ distinct key keq l /\ usize N s = List.length l /\ List.length l <= N.
Proof.
  intros E K key keq hash B N fl mk n e pool HB HH Hmk (P1 & P2 & P3) os rs l H.
  destruct (ops_ok key keq hash B N fl mk HB HH Hmk os _ [] rs l (new_rep key keq hash B N HB n e pool P1 P2 P3) H) as (rs' & s & Hs & F & R).
  exists rs', s. split; auto. split; auto. pose proof (rep_distinct key keq hash B N s l R) as D. destruct R as (bk & R). split; [|split; auto].
  - exists (map (uel s) (all B bk)). split; [eapply contents_ok; apply R|apply R].
  - pose proof (vc _ _ _ _ _ _ _ (proj1 R)) as C. rewrite (usize_ok _ _ _ _ _ _ C), (rep_len _ _ _ _ _ _ _ _ R). split; auto. rewrite <- (rep_len _ _ _ _ _ _ _ _ R). pose proof (ipool _ _ _ _ _ _ C). lia.
Qed.

(** erase(iterator) in a container reached by any history: the iterator that met the element removes it and nothing else,
    the order of the others does not change, and the result is an iterator from which the rest is met. *)
Theorem C16_erase_iterator : forall {E K : Type} (key : E -> K) (keq : K -> K -> bool) (hash : K -> nat) (B N : nat) (fl : flavour) (mk : K -> E) n e pool,
  0 < B -> hashable keq hash -> (forall k, key (mk k) = k) -> hash_pool N pool ->
  forall os rs l s rs', u_ops key keq N fl mk os [] = Some (rs, l) -> um_ops key keq hash B N fl mk os (um_new n e pool) = Some (rs', s) ->
  forall l1 x l2, u_contents B N s = Some (l1 ++ x :: l2) ->
  exists i s' j, it_nth B s (List.length l1) = Some i /\ deref s i = Some (Some x) /\ um_erase_at B N s i = Some (s', j) /\
    u_contents B N s' = Some (l1 ++ l2) /\ it_walk B (ufuel N) s' j (snd (it_end s')) = Some l2 /\ usize N s' = List.length (l1 ++ l2).
Proof.
  intros E K key keq hash B N fl mk n e pool HB HH Hmk (P1 & P2 & P3) os rs l s rs' H Hs l1 x l2 HC.
  destruct (ops_ok key keq hash B N fl mk HB HH Hmk os _ [] rs l (new_rep key keq hash B N HB n e pool P1 P2 P3) H) as (rs1 & s1 & Es & F & R). rewrite Hs in Es. injection Es as <- <-.
  destruct R as (bk & V & P). rewrite (contents_ok key keq hash B N s bk V) in HC. injection HC as HC.
  apply map_eq_app in HC. destruct HC as (a & b & Ha & Hl1 & Hb). apply map_eq_cons in Hb. destruct Hb as (z & c & -> & Hx & Hc).
  destruct (nth_ok key keq hash B N s bk a (z :: c) V Ha) as (i & Hi & Ri).
  destruct (erase_at_ok key keq hash B N s bk i a z c V Ha Ri) as (s' & j & bk' & He & V' & Hu & HA' & Rj).
  assert (Ll : List.length l1 = List.length a) by (rewrite <- Hl1; apply map_length).
  exists i, s', j. rewrite Ll. pose proof (vc _ _ _ _ _ _ _ V') as C'. conj; auto.
  - pose proof (rest_hd _ _ _ _ Ri) as Rh. cbn in Rh. destruct i as [ib ix]. cbn in Rh. subst ix. rewrite <- Hx. apply (deref_ok key keq hash B N s bk); [right; exists l; split; auto|]. rewrite Ha, in_app_iff. cbn. auto.
  - rewrite (contents_ok key keq hash B N s' bk' V'), HA', Hu, map_app. congruence.
  - rewrite (walk_ok key hash B N s' bk' (snd (it_end s')) C' c _ j []); [rewrite Hu; congruence|now rewrite app_nil_r|reflexivity| |].
    + cbn. apply (nz_all key hash B N s' bk'); auto. intros w Hw. rewrite HA', in_app_iff. auto.
    + unfold ufuel. pose proof (ipool _ _ _ _ _ _ C') as Q. rewrite HA', app_length in Q. lia.
  - rewrite (usize_ok _ _ _ _ _ _ C'), HA'. subst l1 l2. rewrite !app_length, !map_length. reflexivity.
Qed.

(** erase(first, last) where [last] points at an element removes the elements from [first] up to it. *)
Theorem C16_erase_range : forall {E K : Type} (key : E -> K) (keq : K -> K -> bool) (hash : K -> nat) (B N : nat) (fl : flavour) (mk : K -> E) n e pool,
  0 < B -> hashable keq hash -> (forall k, key (mk k) = k) -> hash_pool N pool ->
  forall os rs l s rs', u_ops key keq N fl mk os [] = Some (rs, l) -> um_ops key keq hash B N fl mk os (um_new n e pool) = Some (rs', s) ->
  forall l1 l2 x l3, u_contents B N s = Some (l1 ++ l2 ++ x :: l3) ->
  exists first last s' j, it_nth B s (List.length l1) = Some first /\ it_nth B s (List.length (l1 ++ l2)) = Some last /\
    um_erase_range B N s first last = Some (s', j) /\ u_contents B N s' = Some (l1 ++ x :: l3) /\
    it_walk B (ufuel N) s' j (snd (it_end s')) = Some (x :: l3) /\ usize N s' = List.length (l1 ++ x :: l3).
Proof.
  intros E K key keq hash B N fl mk n e pool HB HH Hmk (P1 & P2 & P3) os rs l s rs' H Hs l1 l2 x l3 HC.
  destruct (ops_ok key keq hash B N fl mk HB HH Hmk os _ [] rs l (new_rep key keq hash B N HB n e pool P1 P2 P3) H) as (rs1 & s1 & Es & F & R). rewrite Hs in Es. injection Es as <- <-.
  destruct R as (bk & V & P). rewrite (contents_ok key keq hash B N s bk V) in HC. injection HC as HC.
  apply map_eq_app in HC. destruct HC as (a & b & Ha & Hl1 & Hb). apply map_eq_app in Hb. destruct Hb as (a2 & b2 & -> & Hl2 & Hb). apply map_eq_cons in Hb. destruct Hb as (z & c & -> & Hx & Hc).
  destruct (nth_ok key keq hash B N s bk a (a2 ++ z :: c) V Ha) as (i & Hi & Ri).
  destruct (nth_ok key keq hash B N s bk (a ++ a2) (z :: c) V) as (j & Hj & Rj); [now rewrite <- app_assoc|].
  destruct (erase_range_ok key keq hash B N HB s bk i j a a2 z c V Ha Ri Rj) as (s' & bk' & k & He & V' & Hu & HA' & Rk).
  assert (Ll : List.length l1 = List.length a) by (rewrite <- Hl1; apply map_length).
  assert (Ll2 : List.length (l1 ++ l2) = List.length (a ++ a2)) by (rewrite <- Hl1, <- Hl2, <- map_app; apply map_length).
  exists i, j, s', k. rewrite Ll, Ll2. pose proof (vc _ _ _ _ _ _ _ V') as C'. conj; auto.
  - rewrite (contents_ok key keq hash B N s' bk' V'), HA', Hu, map_app. cbn. congruence.
  - rewrite (walk_ok key hash B N s' bk' (snd (it_end s')) C' (z :: c) _ k []); [rewrite Hu; cbn; congruence|now rewrite app_nil_r|reflexivity| |].
    + cbn [it_end snd]. apply (nz_all key hash B N s' bk'); auto. intros w Hw. rewrite HA', in_app_iff. auto.
    + unfold ufuel. pose proof (ipool _ _ _ _ _ _ C') as Q. rewrite HA', app_length in Q. lia.
  - rewrite (usize_ok _ _ _ _ _ _ C'), HA'. subst l1 l3. rewrite !app_length, map_length. cbn. now rewrite map_length.
Qed.

(** ** findings *)
Definition case_new := um_new (fun _ => 77) (fun _ => (0, 0)) [4; 2; 7; 1; 9].
Notation case_ops os := (um_ops fst Nat.eqb (fun k => k) 4 5 Map_ (fun k : nat => (k, 0)) os case_new).
(** "erase(it, end()) removes the elements from it on": after 3 and 7 (one bucket) and 0 are inserted and 3 is erased, the
    mark of the last bucket is wrong and erase of the element 7 up to end() runs off the array of buckets. *)
Theorem C16_erase_to_end_refuted : ~ (forall os rs s i, case_ops os = Some (rs, s) -> it_nth 4 s 1 = Some i -> snd i <> 0 -> um_erase_range 4 5 s i (it_end s) <> None).
Proof.
  intros H. specialize (H [Uinsert (0, 1); Uinsert (3, 2); Uinsert (7, 3); UeraseKey 3]). vm_compute in H.
  eapply H; try reflexivity. discriminate.
Qed.
(** "an end iterator reached by incrementing serves as the end of a range": it is equal to end() but erase runs off the array. *)
Theorem C16_erase_to_incremented_end_refuted : ~ (forall os rs s i j, case_ops os = Some (rs, s) -> it_nth 4 s 1 = Some i -> it_nth 4 s 2 = Some j -> snd j = snd (it_end s) -> um_erase_range 4 5 s i j <> None).
Proof. intros H. specialize (H [Uinsert (0, 1); Uinsert (3, 2)]). vm_compute in H. eapply H; reflexivity. Qed.
(** "insert of a key that is present gives an iterator to the element with that key": it gives end(). *)
Theorem C16_insert_present_iterator_refuted : ~ (forall os rs s e i b s', case_ops os = Some (rs, s) -> um_insert fst Nat.eqb (fun k => k) 4 5 Map_ s e = Some (s', UIns i b) -> snd i <> snd (it_end s')).
Proof. intros H. eapply (H [Uinsert (3, 2)] _ _ (3, 5)); [vm_compute; reflexivity|vm_compute; reflexivity|reflexivity]. Qed.
(** "insert of a key that is present never reports full" fails for unordered_map. *)
Theorem C16_insert_present_never_full_refuted : ~ (forall os rs s e l, case_ops os = Some (rs, s) -> u_contents 4 5 s = Some l -> In (fst e) (map fst l) -> um_insert fst Nat.eqb (fun k => k) 4 5 Map_ s e <> Some (s, UFull)).
Proof.
  intros H. eapply (H [UinsertRange [(0, 0); (1, 1); (2, 2); (3, 3); (4, 4)]] _ _ (3, 5)); [vm_compute; reflexivity|vm_compute; reflexivity|cbn; auto 10|reflexivity].
Qed.

(** ** a concrete case: total collision (every key in bucket 1 of 3) and an ordinary hash *)
Definition demo_ops : list (uop (nat * nat) nat) :=
  [Uinsert (5, 1); Uinsert (3, 2); Uinsert (1, 3); Uinsert (5, 9); Uindex 4; UinsertRange [(2, 2); (6, 6)]; Uinsert (3, 0); Ufind 4;
   UeraseKey 3; Ufind 3; Uat 8; UeraseFound 5; Ucontents; Uassign [(9, 9); (8, 8); (7, 7)]; UequalRange 8; Ucontents; Uavailable].
Example C16_case_pool : hash_pool 5 [4; 2; 7; 1; 9].
Proof. unfold hash_pool. repeat split; [|cbn; intuition discriminate]. repeat constructor; cbn; intuition discriminate. Qed.
Example C16_case_hash : hashable Nat.eqb (fun _ => 1).
Proof. constructor; intros; rewrite ?Nat.eqb_eq in *; auto; congruence. Qed.
Example C16_case_spec : exists rs, u_ops fst Nat.eqb 5 Map_ (fun k => (k, 0)) demo_ops [] = Some (rs, [(9, 9); (8, 8); (7, 7)]) /\ nth 3 rs Uunit = Uitb None false /\ nth 5 rs Uunit = Ufull_error.
Proof. eexists. split; [vm_compute; reflexivity|]. split; reflexivity. Qed.
Example C16_case_model : option_map (fun q => skipn 12 (fst q)) (um_ops fst Nat.eqb (fun _ => 1) 3 5 Map_ (fun k => (k, 0)) demo_ops case_new) =
  Some [Ul [(4, 0); (1, 3); (2, 2)]; Uunit; Ul [(8, 8)]; Ul [(9, 9); (8, 8); (7, 7)]; Un 2].
Proof. vm_compute. reflexivity. Qed.
Example C16_case_model2 : option_map (fun q => skipn 12 (fst q)) (case_ops demo_ops) =
  Some [Ul [(4, 0); (1, 3); (2, 2)]; Uunit; Ul [(8, 8)]; Ul [(8, 8); (9, 9); (7, 7)]; Un 2].
Proof. vm_compute. reflexivity. Qed.

Print Assumptions C16_history.
Print Assumptions C16_erase_iterator.
Print Assumptions C16_erase_range.
Print Assumptions C16_erase_to_end_refuted.
Print Assumptions C16_erase_to_incremented_end_refuted.
Print Assumptions C16_insert_present_iterator_refuted.
Print Assumptions C16_insert_present_never_full_refuted.
