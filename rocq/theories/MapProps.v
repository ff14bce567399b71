(** * C14, C15: map and set *)
From Coq Require Import List Arith Bool Lia.
From Verif Require Import Util SortSpec HeapProofs FlatSpec FlatProofs AvlModel AvlTree AvlIns AvlDel AvlRem AvlFind MapModel MapSpec MapProofs.
Import ListNotations.

(** A pool of [N] distinct nodes; the fields of its nodes may hold anything. *)
Definition good_pool (N : nat) (pool : list nat) : Prop := NoDup pool /\ ~ In 0 pool /\ List.length pool = N.

(** Every history of calls the client may make gives, call by call, the results of the sorted list of MapSpec.v; no
    operation dereferences a node that is not in use or fails to end; iteration gives the contents in strictly ascending
    order; size() is exact, never above the capacity; the nodes in use and the free nodes of the pool add up: no leak. *)
Theorem C14_history : forall {E K : Type} (key : E -> K) (lt : K -> K -> bool) (N : nat) (fl : flavour) (mk : K -> E) c w d e pool,
  strict_weak_order lt -> (forall k, key (mk k) = k) -> good_pool N pool ->
  forall os rs l, t_ops key lt N fl mk os [] = Some (rs, l) ->
  exists s, m_ops key lt N fl mk os (m_new c w d e pool) = Some (rs, s) /\
    m_contents key lt N s = Some l /\ ordered key lt true l /\ sz s = List.length l /\ List.length l <= N /\
    List.length (fr s) + List.length l = N.
Proof.
  intros E K key lt N fl mk c w d e pool O Hmk (P1 & P2 & P3) os rs l H.
  destruct (mops_ok key lt O N fl mk Hmk os _ [] rs l (new_ok key lt N c w d e pool P1 P2 P3) H) as (s & Es & Hi).
  exists s. split; [exact Es|]. split; [now apply contents_ok|]. pose proof Hi as [t Ht]. split; [eapply mi_ordered; eauto|].
  split; [eapply sz_ok; eauto|]. split; [eapply mi_le; eauto|]. rewrite <- (mi_len _ _ _ _ _ _ Ht). apply Ht.
Qed.

(** Decrementing from end() visits the contents backwards: [n] decrements from end() reach the element at position
    [size() - n], and a decrement undoes an increment. *)
Fixpoint retreat {E K} (key : E -> K) lt N (n : nat) (s : st E) (x : nat) : option nat :=
  match n with 0 => Some x | S n => let? y := prev_node key lt (fuel N) s x in retreat key lt N n s y end.
Theorem C14_reverse_iteration : forall {E K : Type} (key : E -> K) (lt : K -> K -> bool) (N : nat) (fl : flavour) (mk : K -> E) c w d e pool,
  strict_weak_order lt -> (forall k, key (mk k) = k) -> good_pool N pool ->
  forall os rs l s, t_ops key lt N fl mk os [] = Some (rs, l) -> m_ops key lt N fl mk os (m_new c w d e pool) = Some (rs, s) ->
  forall n, n <= List.length l -> exists x, retreat key lt N n s 0 = Some x /\ m_iter key lt N s (List.length l - n) = Some x /\
    (0 < n -> re s x = nth_error l (List.length l - n)).
Proof.
  intros E K key lt N fl mk c w d e pool O Hmk (P1 & P2 & P3) os rs l s H Hs n Hn.
  destruct (mops_ok key lt O N fl mk Hmk os _ [] rs l (new_ok key lt N c w d e pool P1 P2 P3) H) as (s1 & Es & [t Ht]). rewrite Hs in Es. injection Es as <-.
  pose proof (mi_len _ _ _ _ _ _ Ht) as HL. pose proof (mi_wf _ _ _ _ _ _ Ht) as W. pose proof (mi_fuel _ _ _ _ _ _ Ht) as F.
  exists (hd 0 (skipn (List.length l - n) (ino t))). split; [|split].
  - assert (G : forall m B A, ino t = A ++ B -> m <= List.length A -> retreat key lt N m s (hd 0 B) = Some (hd 0 (skipn (List.length A - m) (ino t)))).
    { clear - O W F. induction m as [|m IH]; intros B A EA Hm; cbn [retreat].
      - rewrite Nat.sub_0_r, EA, skipn_app, skipn_all, Nat.sub_diag. reflexivity.
      - destruct A as [|a0 A0] using rev_ind; [cbn in Hm; lia|]. clear IHA0. rewrite app_length in *. cbn in Hm.
        assert (Ep : prev_node key lt (fuel N) s (hd 0 B) = Some a0).
        { destruct B as [|b B]; cbn [hd].
          - rewrite (prev_end_ok key lt (fuel N) s t W F), EA, app_nil_r, last_last. reflexivity.
          - rewrite (prev_ok key lt O (fuel N) s t (A0 ++ [a0]) b B W F EA), last_last. reflexivity. }
        rewrite Ep. cbn [obind]. replace (List.length A0 + List.length [a0] - S m) with (List.length A0 - m) by (cbn; lia).
        apply (IH (a0 :: B) A0); [now rewrite EA, <- app_assoc|lia]. }
    rewrite <- HL. apply (G n [] (ino t)); [now rewrite app_nil_r|lia].
  - eapply iter_ok; eauto. lia.
  - intros Hp. set (i := List.length l - n) in *. assert (Hi : i < List.length l) by (unfold i; lia).
    pose proof (firstn_skipn i (ino t)) as Es. destruct (skipn i (ino t)) as [|x q] eqn:Eq.
    { exfalso. apply (f_equal (@List.length _)) in Eq. rewrite skipn_length in Eq. cbn in Eq. lia. }
    cbn [hd]. assert (Ix : In x (ino t)) by (rewrite <- Es, in_app_iff; cbn; auto). unfold re. rewrite (al_in _ _ _ _ _ W Ix).
    rewrite <- (mi_map _ _ _ _ _ _ Ht), <- Es, map_app. cbn [map]. rewrite nth_error_app2; rewrite map_length, firstn_length; [|lia].
    replace (i - Nat.min i (List.length (ino t))) with 0 by lia. reflexivity.
Qed.

(** Iterators, and references to elements, stay valid: adding or removing other keys does not move an element. *)
Theorem C14_elements_do_not_move : forall {E K : Type} (key : E -> K) (lt : K -> K -> bool) (N : nat) (fl : flavour) (mk : K -> E) c w d e pool,
  strict_weak_order lt -> (forall k, key (mk k) = k) -> good_pool N pool ->
  forall os rs l s k x, t_ops key lt N fl mk os [] = Some (rs, l) -> m_ops key lt N fl mk os (m_new c w d e pool) = Some (rs, s) ->
  m_find key lt N s k = Some x -> x <> 0 ->
  forall o r s', m_op key lt N fl mk o s = Some (r, s') ->
  (match o with Finsert _ => True | FeraseKey k' => equivalent lt k' k = false | _ => False end) ->
  m_find key lt N s' k = Some x /\ re s' x = re s x.
Proof.
  intros E K key lt N fl mk c w d e pool O Hmk (P1 & P2 & P3) os rs l s k x H Hs Hf Hx o r s' Ho Hk.
  destruct (mops_ok key lt O N fl mk Hmk os _ [] rs l (new_ok key lt N c w d e pool P1 P2 P3) H) as (s1 & Es & [t Ht]). rewrite Hs in Es. injection Es as <-.
  destruct (nview key lt O N s t l k Ht) as (P & M & Q & Ei & LM & V). pose proof Hf as Hf0. rewrite (mfind_ok key lt O N s t l k P M Q Ht Ei V) in Hf. injection Hf as <-.
  destruct M as [|m M]; [cbn in Hx; congruence|]. cbn [hd] in *.
  assert (Im : In m (ino t)) by (rewrite Ei, !in_app_iff; cbn; auto). destruct V as (_ & _ & Fm & _). pose proof (F_in _ _ _ Fm m (or_introl eq_refl)) as Gm. cbn in Gm.
  (* wherever the node still is, it is found *)
  assert (Found : forall s2 t2, wft key lt s2 t2 -> List.length (ino t2) < fuel N -> In m (ino t2) -> el s2 m = el s m -> m_find key lt N s2 k = Some m /\ re s2 m = re s m).
  { intros s2 t2 W2 F2 I2 E2. split.
    - unfold m_find. pose proof (hgt_ino t2). rewrite (find_node_ok key lt O k t2 (fuel N) s2 _); [|lia|apply W2|apply W2|apply W2].
      destruct (find (fun z => equivalent lt (K_of key s2 z) k) (ino t2)) as [z|] eqn:Ez.
      + apply find_some in Ez. destruct Ez as [Iz Ez]. unfold equivalent, K_of in Ez. apply andb_true_iff in Ez. destruct Ez as [Z1 Z2]. apply negb_true_iff in Z1, Z2.
        f_equal. apply (asc_unique key lt s2 (ino t2)); auto; [apply W2|]. unfold K_of. rewrite E2. destruct Gm as [G1 G2].
        split; apply not_true_is_false; intros G.
        * apply (lt_nlt_trans lt O) with (z := k) in G; auto. congruence.
        * apply (lt_nlt_trans lt O) with (z := k) in G; auto. congruence.
      + pose proof (find_none _ _ Ez m I2) as Ef. cbn in Ef. unfold equivalent, K_of in Ef. rewrite E2 in Ef. destruct Gm as [G1 G2]. rewrite G1, G2 in Ef. discriminate.
    - unfold re. rewrite (al_in _ _ _ _ _ W2 I2), (al_in _ _ _ _ _ (mi_wf _ _ _ _ _ _ Ht) Im), E2. reflexivity. }
  pose proof (mi_wf _ _ _ _ _ _ Ht) as W. pose proof (mi_fuel _ _ _ _ _ _ Ht) as F. pose proof (mi_pool _ _ _ _ _ _ Ht) as HP.
  destruct o as [e0| | | |k0| | | | | | | | | | | | | | | | ]; try contradiction; cbn [m_op] in Ho.
  - (* insert *)
    assert (Add : forall r0 s2, m_add key lt N s e0 = Some (s2, r0) -> m_find key lt N s2 k = Some m /\ re s2 m = re s m).
    { intros r0 s2. unfold m_add. destruct (allocate s e0) as [[sa p]|] eqn:EA; cbn [obind]; [|discriminate].
      destruct (insert_ok key lt (swo_trans lt O) (fuel N) s t sa p e0 W EA F) as (s3 & y & EI & C). rewrite EI. cbn [obind]. intros [= <- <-].
      destruct C as [(_ & _ & _ & W' & Hel & Hfr)|(l1 & l2 & t' & E1 & -> & E2 & W' & Ee & Hel & Hfr & Np & _)].
      - apply (Found s3 t); auto.
      - apply (Found s3 t'); auto.
        + rewrite E2, app_length. rewrite E1, app_length in HP. rewrite Hfr in HP. unfold fuel. cbn in *. lia.
        + rewrite E2, in_app_iff. rewrite E1, in_app_iff in Im. cbn. tauto. }
    destruct (m_insert key lt N fl s e0) as [[s2 q]|] eqn:EI; cbn [obind] in Ho; [|discriminate].
    assert (s' = s2). { destruct q; [congruence|]. destruct (m_pos key lt N s2 x); cbn in Ho; congruence. } subst s2.
    unfold m_insert in EI. destruct fl; destruct (m_full N s).
    + destruct (m_find key lt N s (key e0)) as [y|]; cbn [obind] in EI; [|discriminate]. destruct (Nat.eqb y 0); injection EI as <- <-; auto.
    + eapply Add; eauto.
    + injection EI as <- <-. auto.
    + eapply Add; eauto.
  - (* erase by key *)
    destruct (remove_ok key lt O (fuel N) s t k0 W F) as (s2 & f & ER & C). rewrite ER in Ho. cbn [obind] in Ho. injection Ho as <- <-.
    destruct C as [(_ & _ & W' & Hel & Hfr)|(l1 & l2 & t' & Hf & E1 & E2 & Eq & W' & Hel & Hfr)].
    + apply (Found s2 t); auto. now rewrite Hel.
    + apply (Found s2 t'); auto; [|  |now rewrite Hel].
      * rewrite E2, app_length. rewrite E1, app_length in HP. unfold fuel. cbn in *. lia.
      * rewrite E2, in_app_iff. rewrite E1, in_app_iff in Im. destruct Im as [I|[I|I]]; auto. exfalso. subst f.
        destruct Eq as [Q1 Q2]. destruct Gm as [G1 G2]. unfold K_of in Q1, Q2.
        assert (equivalent lt k0 k = true); [|congruence]. unfold equivalent. apply andb_true_iff. split; apply negb_true_iff; apply not_true_is_false; intros G.
        -- apply (lt_nlt_trans lt O) with (z := key (el s m)) in G; auto. congruence.
        -- apply (lt_nlt_trans lt O) with (z := key (el s m)) in G; auto. congruence.
Qed.

(** FINDING: inserting a key that is already there fails with map_full when the map is full, although nothing would be
    added; for a set it gives the position of the element. *)
Theorem C14_insert_present_never_fails_refuted :
  ~ (forall N (l : list (nat * nat)) e, ordered fst Nat.ltb true l -> List.length l <= N -> present fst Nat.ltb (fst e) l = true ->
       fst (t_insert fst Nat.ltb N Map_ e l) = Ritb (before fst Nat.ltb (fst e) l) false).
Proof.
  intros H. specialize (H 1 [(5, 0)] (5, 1)). cbv in H. assert (Rfull = Ritb 0 false :> fres (nat * nat)) as C; [|discriminate].
  apply H; [|lia|reflexivity]. intros [|[|i]] [|[|j]] a b Hij Ha Hb; cbn in *; try discriminate; lia.
Qed.
Theorem C14_set_insert_present : forall {E K : Type} (key : E -> K) (lt : K -> K -> bool) N e l, present key lt (key e) l = true ->
  t_insert key lt N Set_ e l = (Ritb (before key lt (key e) l) false, l).
Proof. intros E K key lt N e l H. unfold t_insert, s_insert. now rewrite H. Qed.

(** ** C15.  A height balanced tree, read off the node fields: [avl s p h n] says that below [p] hangs a tree of height [h]
    with [n] nodes, all in use, in which the heights of two siblings differ by at most one and the stored weight is exact. *)
Inductive avl {E} (s : st E) : nat -> nat -> nat -> Prop :=
| avl_null : avl s 0 0 0
| avl_node p h1 n1 h2 n2 : p <> 0 -> al s p = true -> avl s (ch s p L) h1 n1 -> avl s (ch s p R) h2 n2 ->
    match wt s p with None => h1 = h2 | Some L => h1 = h2 + 1 | Some R => h2 = h1 + 1 end ->
    avl s p (1 + Nat.max h1 h2) (1 + n1 + n2).
Fixpoint fib (n : nat) : nat := match n with 0 => 0 | S m => match m with 0 => 1 | S k => fib k + fib m end end.

Lemma avl_of_bal {E} (s : st E) t : forall x, al s 0 = false -> rep s x t -> bal (wt s) t -> avl s x (hgt t) (List.length (ino t)).
Proof.
  induction t as [|l IHl p r IHr]; intros x H0 HR HB; cbn in *.
  - subst x. constructor.
  - destruct HR as (-> & Ap & Hl & Hr). destruct HB as (Bl & Br & Bp).
    replace (List.length (ino l ++ p :: ino r)) with (1 + List.length (ino l) + List.length (ino r)) by (rewrite app_length; cbn; lia).
    apply (avl_node s p (hgt l) (List.length (ino l)) (hgt r) (List.length (ino r))); auto; [congruence|]. unfold wg in Bp. destruct (wt s p) as [[]|]; auto.
Qed.
Lemma fib_step n : fib (S (S n)) = fib n + fib (S n). Proof. reflexivity. Qed.
Lemma fib_mono a b : a <= b -> fib a <= fib b.
Proof. induction 1; auto. destruct m as [|m]; [cbn in *; lia|]. rewrite fib_step. lia. Qed.
Lemma avl_fib {E} (s : st E) p h n : avl s p h n -> fib (h + 2) <= n + 1.
Proof.
  induction 1 as [|p h1 n1 h2 n2 Hp Ha H1 IH1 H2 IH2 Hw]; [cbn; lia|].
  assert (G : exists m, Nat.max h1 h2 = m /\ fib (m + 2) + fib (m + 1) <= n1 + n2 + 2).
  { exists (Nat.max h1 h2). split; auto. destruct (wt s p) as [[]|].
    - replace (Nat.max h1 h2) with h1 by lia. subst h1. replace (h2 + 1 + 1) with (h2 + 2) by lia. lia.
    - replace (Nat.max h1 h2) with h2 by lia. subst h2. replace (h1 + 1 + 1) with (h1 + 2) by lia. lia.
    - replace (Nat.max h1 h2) with h1 by lia. subst h2. pose proof (fib_mono (h1 + 1) (h1 + 2)). lia. }
  destruct G as (m & -> & G). replace (1 + m + 2) with (S (S (m + 1))) by lia. rewrite fib_step. replace (S (m + 1)) with (m + 2) by lia. lia.
Qed.
Lemma fib_pow h : 2 ^ (h / 2) <= fib (h + 2).
Proof.
  assert (G : forall k, 2 ^ k <= fib (2 * k + 2)).
  { induction k as [|k IH]; [cbn; lia|]. replace (2 * S k + 2) with (S (S (2 * k + 2))) by lia. rewrite fib_step. pose proof (fib_mono (2 * k + 2) (S (2 * k + 2))).
    rewrite Nat.pow_succ_r'. lia. }
  etransitivity; [apply G|]. apply fib_mono. pose proof (Nat.div_mod_eq h 2). lia.
Qed.

(** After every history the tree is balanced with exact weights, it holds exactly the elements, its height is bounded by the
    Fibonacci bound (hence by twice the logarithm), and a look-up ends after that many steps. *)
Theorem C15_balanced : forall {E K : Type} (key : E -> K) (lt : K -> K -> bool) (N : nat) (fl : flavour) (mk : K -> E) c w d e pool,
  strict_weak_order lt -> (forall k, key (mk k) = k) -> good_pool N pool ->
  forall os rs l s, t_ops key lt N fl mk os [] = Some (rs, l) -> m_ops key lt N fl mk os (m_new c w d e pool) = Some (rs, s) ->
  exists h, avl s (rt s) h (List.length l) /\
    fib (h + 2) <= List.length l + 1 /\ h <= 2 * Nat.log2 (List.length l + 1) + 1 /\
    (forall k, find_node key lt (h + 1) s (rt s) k = m_find key lt N s k) /\
    (forall k, find_lower_loop key lt (h + 1) s (rt s) k 0 = find_lower_loop key lt (fuel N) s (rt s) k 0) /\
    (forall k, m_find key lt N s k <> None).
Proof.
  intros E K key lt N fl mk c w d e pool O Hmk (P1 & P2 & P3) os rs l s H Hs.
  destruct (mops_ok key lt O N fl mk Hmk os _ [] rs l (new_ok key lt N c w d e pool P1 P2 P3) H) as (s1 & Es & [t Ht]). rewrite Hs in Es. injection Es as <-.
  pose proof (mi_wf _ _ _ _ _ _ Ht) as W. pose proof (mi_fuel _ _ _ _ _ _ Ht) as F. pose proof (hgt_ino t) as HH.
  assert (A : avl s (rt s) (hgt t) (List.length l)) by (rewrite <- (mi_len _ _ _ _ _ _ Ht); apply avl_of_bal; apply W).
  exists (hgt t). split; [exact A|]. pose proof (avl_fib _ _ _ _ A) as FB. split; [exact FB|]. split; [|split; [|split]].
  - pose proof (fib_pow (hgt t)) as FP. assert (hgt t / 2 <= Nat.log2 (List.length l + 1)).
    { apply Nat.log2_le_pow2; lia. }
    pose proof (Nat.div_mod_eq (hgt t) 2). pose proof (Nat.mod_upper_bound (hgt t) 2). lia.
  - intros k. unfold m_find. rewrite !(find_node_ok key lt O k t _ s _); auto; try apply W; lia.
  - intros k. rewrite !(find_lower_ok key lt O k t _ s _); auto; try apply W; lia.
  - intros k. unfold m_find. rewrite (find_node_ok key lt O k t _ s _); auto; try apply W; try lia. discriminate.
Qed.

(** ** a concrete case: a pool of five nodes, pairs ordered by their first component *)
Example C14_case_pool : good_pool 5 [4; 2; 7; 1; 9].
Proof. unfold good_pool. repeat split; [|cbn; intuition discriminate]. repeat constructor; cbn; intuition discriminate. Qed.
Definition case_ops : list (fop (nat * nat) nat) :=
  [Finsert (5, 1); Finsert (3, 2); Finsert (1, 3); Finsert (5, 9); Findex 4; FinsertRange [(2, 2); (6, 6)]; Finsert (3, 0); FupperBound 3;
   FeraseKey 3; FlowerBound 3; Fat 8; FeraseAt 1; Fcontents; Fassign [(9, 9); (8, 8); (7, 7)]; FequalRange 8; FeraseRange 0 2; Fcontents; Favailable].
Definition case_res : list (fres (nat * nat)) :=
  [Ritb 0 true; Ritb 0 true; Ritb 0 true; Ritb 2 false; Re (4, 0); Rfull; Rfull; Rit 3;
   Rn 1; Rit 2; Rout_of_bounds; Rit 1; Rl [(1, 3); (4, 0); (5, 1)]; Runit; Rrange 1 2; Rit 0; Rl [(9, 9)]; Rn 4].
Example C14_case_spec : t_ops fst Nat.ltb 5 Map_ (fun k => (k, 0)) case_ops [] = Some (case_res, [(9, 9)]).
Proof. reflexivity. Qed.
Example C14_case_model : option_map fst (m_ops fst Nat.ltb 5 Map_ (fun k => (k, 0)) case_ops (m_new (fun _ _ => 77) (fun _ => Some R) (fun _ => None) (fun _ => (0, 0)) [4; 2; 7; 1; 9])) = Some case_res.
Proof. vm_compute. reflexivity. Qed.
Example C14_case_iterator : exists rs s x, m_ops fst Nat.ltb 5 Map_ (fun k => (k, 0)) [Finsert (5, 1); Finsert (3, 2); Finsert (1, 3)] (m_new (fun _ _ => 77) (fun _ => Some R) (fun _ => None) (fun _ => (0, 0)) [4; 2; 7; 1; 9]) = Some (rs, s) /\
  m_find fst Nat.ltb 5 s 3 = Some x /\ x <> 0 /\ rt s = 2 /\ retreat fst Nat.ltb 5 2 s 0 = Some 2.
Proof. eexists _, _, _. split; [vm_compute; reflexivity|]. vm_compute. repeat split; discriminate. Qed.

Print Assumptions C14_history.
Print Assumptions C14_reverse_iteration.
Print Assumptions C14_elements_do_not_move.
Print Assumptions C14_insert_present_never_fails_refuted.
Print Assumptions C14_set_insert_present.
Print Assumptions C15_balanced.
