(** C53: a histogram counts every added key exactly once, under that key, in every history of adds, clears, copies and assignments. *)
From Coq Require Import ZArith List Bool Lia Sorted Permutation.
From Verif Require Import Util HistModel HistSpec HistProofs.
Import ListNotations.
Open Scope Z_scope.

(** every program over histograms of one type does what the same program over bags does, and is undefined exactly where that is (a key outside of
    the range, or a first key that is not known) *)
Theorem C53_history : forall (n : nat) (w : Z) (fixed : option Z), 1 <= w -> forall os,
  match s_run n w fixed os [] with
  | Some (rs, bs) => exists st, run n w fixed os [] = Some (rs, st) /\
      Forall2 (fun h b => contents h = cells n w b) st bs /\
      (* as long as fewer than 2^w keys were added, the cells add up to the number of keys *)
      Forall (fun b => Z.of_nat (List.length (items b)) < 2 ^ w -> fold_right Z.add 0 (cells n w b) = Z.of_nat (List.length (items b))) bs
  | None => run n w fixed os [] = None
  end.
Proof.
  intros n w fixed Hw os. pose proof (run_ok n w fixed Hw os [] [] (Forall2_nil _)) as H. destruct (s_run n w fixed os []) as [(rs & bs)|]; [|exact H].
  destruct H as (st & E & F). exists st. conj; [exact E| |].
  - clear E. induction F as [|h b st bs (R1 & R2 & R3) F IH]; constructor; auto.
  - clear E. induction F as [|h b st bs (R1 & R2 & R3) F IH]; constructor; auto. intros Hl. now apply sum_cells.
Qed.

(** a histogram whose first key is part of its type: what is read for a key is the number of times the key was added since the last clear, and a copy
    or an assigned histogram reads the same for every key *)
Theorem C53_copies : forall (n : nat) (w f : Z), 1 <= w -> forall ks ks' k,
  Forall (fun x => f <= x < f + Z.of_nat n) ks -> Forall (fun x => f <= x < f + Z.of_nat n) ks' -> f <= k < f + Z.of_nat n ->
  let r := occurrences k ks mod 2 ^ w in
  exists st, run n w (Some f) [New 0 ks; New 0 ks'; Copy 0; Assign 1 0; Read 0 k; Read 1 k; Read 2 k] [] = Some ([Runit; Runit; Runit; Runit; Rv r; Rv r; Rv r], st).
Proof.
  intros n w f Hw ks ks' k F F' Hk r.
  assert (HO : forall (it : list Z) l, Forall (fun x => f <= x < f + Z.of_nat n) l -> offsets n {| from := Some f; items := it |} l = Some (map (fun x => x - f) l)).
  { intros it l. induction 1; cbn [offsets map]; [reflexivity|]. rewrite IHForall. unfold offset. cbn [from]. rewrite (proj2 (Z.leb_le _ _)), (proj2 (Z.ltb_lt _ _)) by lia. reflexivity. }
  assert (HC : occurrences (k - f) (map (fun x => x - f) ks) = occurrences k ks).
  { clear. induction ks; [reflexivity|]. cbn [map]. rewrite !occ_cons, IHks. destruct (Z.eq_dec (a - f) (k - f)), (Z.eq_dec a k); lia. }
  pose proof (C53_history n w (Some f) Hw [New 0 ks; New 0 ks'; Copy 0; Assign 1 0; Read 0 k; Read 1 k; Read 2 k]) as H.
  assert (OF : forall it, offset n {| from := Some f; items := it |} k = Some (k - f)).
  { intros it. unfold offset. cbn [from]. rewrite (proj2 (Z.leb_le f k)), (proj2 (Z.ltb_lt (k - f) _)) by lia. reflexivity. }
  cbn [s_run s_step] in H. unfold put in H. rewrite !HO in H by assumption. cbn [app nth_error set items from] in H. rewrite !OF in H. cbn [items] in H. rewrite HC in H. fold r in H.
  destruct H as (st & E & _). exists st. exact E.
Qed.

(** FINDING: the histogram whose first key is given to the constructor. A copy does not know the first key (start_index is left uninitialised, lines
    296-309): reading it is undefined. An assigned histogram keeps its own first key (314-330): it reports the counts under other keys. *)
Theorem C53_run_time_start_refuted :
  ~ (forall n w ks s k, 1 <= w -> Forall (fun x => s <= x < s + Z.of_nat n) ks -> s <= k < s + Z.of_nat n ->
       exists r st, run n w None [New s ks; Copy 0; Read 1 k] [] = Some (r, st)) /\
  ~ (forall n w ks s t k r st, 1 <= w -> Forall (fun x => s <= x < s + Z.of_nat n) ks -> s <= k < s + Z.of_nat n ->
       run n w None [New s ks; New t []; Assign 1 0; Read 1 k] [] = Some ([Runit; Runit; Runit; Rv r], st) -> r = occurrences k ks mod 2 ^ w).
Proof.
  split; intros H.
  - destruct (H 3%nat 8 [10] 10 10 ltac:(lia) ltac:(repeat constructor; lia) ltac:(lia)) as (r & st & E). discriminate E.
  - specialize (H 3%nat 8 [11] 10 11 11 0 _ ltac:(lia) ltac:(repeat constructor; lia) ltac:(lia) eq_refl). discriminate H.
Qed.

(** every history of a sparse_histogram: the results, and after it the elements by key *)
Theorem C53_sparse_history : forall (N : nat) (w : Z), 1 <= w -> forall os,
  exists l, sp_run N w os [] = (fst (ss_run N w os []), l) /\
    let ks := snd (ss_run N w os []) in
    NoDup (map fst l) /\ (forall k c, In (k, c) l <-> In k ks /\ c = occurrences k ks mod 2 ^ w) /\ List.length l = distinct ks.
Proof.
  intros N w Hw os. destruct (sp_run_ok N w Hw os [] []) as (l & E & R). { unfold srel. conj; [constructor|reflexivity|reflexivity]. }
  exists l. split; [exact E|]. cbv zeta. destruct R as (D & L & T). conj; [exact D| |exact (srel_len w _ _ (conj D (conj L T)))].
  intros k c. split.
  - intros I. assert (Hl : look k l = Some (k, c)).
    { clear -D I. induction l as [|(x & d) l IH]; cbn [look] in *; [destruct I|]. inversion D; subst. destruct I as [I|I].
      - injection I as -> ->. now rewrite Z.eqb_refl.
      - destruct (Z.eqb_spec x k); [|auto]. subst. exfalso. apply H1. change k with (fst (k, c)). apply (in_map fst). exact I. }
    rewrite L in Hl. destruct (in_dec Z.eq_dec k (snd (ss_run N w os []))); [|discriminate]. injection Hl as <-. auto.
  - intros (I & ->). specialize (L k). destruct (in_dec Z.eq_dec k (snd (ss_run N w os []))); [|tauto]. clear -L.
    induction l as [|(x & d) l IH]; cbn [look] in L; [discriminate|]. destruct (Z.eqb_spec x k); [|right; auto]. injection L as -> <-. now left.
Qed.

(** the elements of a sparse_histogram are kept in order of the keys *)
Definition ascending_keys (l : list (Z * Z)) : Prop := forall i j x y, (i < j)%nat -> nth_error l i = Some x -> nth_error l j = Some y -> fst x < fst y.
Theorem C53_sparse_sorted : forall (N : nat) (w : Z) os, ascending_keys (snd (sp_run N w os [])).
Proof.
  intros N w os.
  assert (G : forall l, ascending_keys l <-> StronglySorted Z.lt (map fst l)).
  { intros l. induction l as [|x l IH]; cbn [map].
    - split; [constructor|]. intros _ [|i] j; discriminate || (intros; destruct j; discriminate).
    - split.
      + intros A. constructor; [apply IH; intros i j; intros; apply (A (S i) (S j)); auto; lia|]. apply Forall_map. apply Forall_forall. intros y Hy. apply In_nth_error in Hy as (i & Hi). apply (A O (S i)); auto; lia.
      + intros A. inversion A as [|? ? A1 A2]; subst. intros [|i] [|j] a c Hij Ha Hc; try lia; cbn in *.
        * injection Ha as <-. rewrite Forall_map in A2. rewrite Forall_forall in A2. apply A2. eapply nth_error_In; eauto.
        * apply (proj2 IH A1 i j); auto; lia. }
  assert (P : forall k l, look k l = None -> StronglySorted Z.lt (map fst l) -> StronglySorted Z.lt (map fst (place w k l))).
  { intros k l. induction l as [|(x & c) l IH]; cbn [place look map fst]; intros Hl Hs.
    - repeat constructor.
    - destruct (Z.eqb_spec x k); [discriminate|]. inversion Hs as [|? ? S1 S2]; subst. destruct (Z.ltb_spec k x); cbn [map fst].
      + constructor; [exact Hs|]. constructor; [assumption|]. eapply Forall_impl; [|exact S2]. cbn. lia.
      + constructor; [auto|]. apply Forall_forall. intros y Hy. apply (Permutation_in _ (Permutation_map fst (place_perm w k l))) in Hy. cbn [map fst] in Hy.
        destruct Hy as [<-|Hy]; [lia|]. rewrite Forall_forall in S2. auto. }
  assert (A : forall k l l', sp_add N w k l = Some l' -> StronglySorted Z.lt (map fst l) -> StronglySorted Z.lt (map fst l')).
  { intros k l l'. unfold sp_add. destruct (look k l) eqn:E; [intros [= <-]; now rewrite hit_fst|]. destruct (Nat.ltb _ _); [|discriminate]. intros [= <-]. auto. }
  assert (B : forall ks l, StronglySorted Z.lt (map fst l) -> StronglySorted Z.lt (map fst (snd (sp_add_all N w ks l)))).
  { induction ks as [|k ks IH]; intros l Hl; cbn [sp_add_all]; [exact Hl|]. destruct (sp_add N w k l) eqn:E; [apply IH; eauto|exact Hl]. }
  assert (R : forall os l, StronglySorted Z.lt (map fst l) -> StronglySorted Z.lt (map fst (snd (sp_run N w os l)))).
  { clear os. induction os as [|o os IH]; intros l Hl; cbn [sp_run]; [exact Hl|]. destruct (sp_step N w o l) as (r, l') eqn:E.
    assert (Hl' : StronglySorted Z.lt (map fst l')).
    { destruct o; cbn [sp_step] in E; try (injection E as <- <-; exact Hl).
      - specialize (B ks l Hl). destruct (sp_add_all N w ks l) as ([] & l2); injection E as <- <-; exact B.
      - destruct (sp_add N w k l) eqn:Ea; injection E as <- <-; eauto.
      - injection E as <- <-. constructor. }
    specialize (IH l' Hl'). destruct (sp_run N w os l') as (rs, l2). exact IH. }
  apply G. apply R. constructor.
Qed.

(** FINDING: iterating over a sparse_histogram from begin() to end() visits nothing (end() and cend() return the beginning, lines 482-493); count() is
    computed in the count type (581): 256 keys in a sparse_histogram with uint8_t counts count as none. *)
Theorem C53_sparse_iteration_refuted :
  ~ (forall N w os, 1 <= w -> let l := snd (sp_run N w os []) in sp_contents l = l) /\
  ~ (forall N w os, 1 <= w -> let ks := snd (ss_run N w os []) in
       (forall k, occurrences k ks < 2 ^ w) -> sp_count w (snd (sp_run N w os [])) = Z.of_nat (List.length ks)).
Proof.
  split; intros H.
  - specialize (H 1%nat 8 [SAdd 5] ltac:(lia)). discriminate H.
  - specialize (H 2%nat 1 [SAdd 1; SAdd 2] ltac:(lia)). cbv zeta in H. assert (0 = 2) as C; [|discriminate C]. apply H. intros k.
    change (snd (ss_run 2 1 [SAdd 1; SAdd 2] [])) with [2; 1]. rewrite !occ_cons. change (occurrences k []) with 0. destruct (Z.eq_dec 2 k), (Z.eq_dec 1 k); lia.
Qed.

(** concrete cases *)
Example ex_dense : run 3 8 (Some 10) [New 0 [10; 11; 11]; Copy 0; Add 0 12; Read 0 11; Count 0; Contents 0; Count 1; Read 1 12; Clear 0; Contents 0] [] =
  Some ([Runit; Runit; Runit; Rv 2; Rv 4; Rl [1; 2; 1]; Rv 3; Rv 0; Runit; Rl [0; 0; 0]], [ {| start := Some 10; acc := [0; 0; 0] |}; {| start := Some 10; acc := [1; 2; 0] |} ]).
Proof. reflexivity. Qed.
Example ex_sparse : fst (sp_run 2 8 [SAddRange [5; 3; 5]; SRead 5; SRead 4; SAdd 9; SSize; SCount; SContents] []) = [Sunit; Se (5, 2); Se (0, 0); Sfull; Sn 2; Sn 3; Sl []].
Proof. reflexivity. Qed.
Print Assumptions C53_history.
Print Assumptions C53_copies.
Print Assumptions C53_run_time_start_refuted.
Print Assumptions C53_sparse_history.
Print Assumptions C53_sparse_sorted.
Print Assumptions C53_sparse_iteration_refuted.
