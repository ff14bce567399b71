(** * Arrays, orders and heaps *)
From Coq Require Import List Arith Bool Permutation Lia.
From Verif Require Import Util Slots SortModel SortSpec.
Import ListNotations.

Section Arr.
  Context {A : Type}.
  Implicit Types l : list A.
  Lemma rd_lt l i : i < List.length l -> exists x, rd l i = Some x.
  Proof. intros H. unfold rd. destruct (nth_error l i) eqn:E; [eauto|]. apply nth_error_None in E. lia. Qed.
  Lemma wr_ok l i x : i < List.length l -> wr l i x = Some (upd l i x).
  Proof. intros H. unfold wr. now rewrite (proj2 (Nat.ltb_lt _ _) H). Qed.
  Lemma rd_upd_same l i x : i < List.length l -> rd (upd l i x) i = Some x. Proof. apply upd_same. Qed.
  Lemma rd_upd_other l i j x : i <> j -> rd (upd l i x) j = rd l j. Proof. apply upd_other. Qed.
  Lemma nth_error_skipn l n i : nth_error (skipn n l) i = nth_error l (n + i).
  Proof. revert l; induction n as [|n IH]; intros l; [reflexivity|]. destruct l; [now destruct i|]. cbn. apply IH. Qed.
  Lemma nth_error_firstn l n i : nth_error (firstn n l) i = if i <? n then nth_error l i else None.
  Proof.
    revert l i; induction n as [|n IH]; intros l i; [now destruct i|]. destruct l as [|x l]; [destruct (i <? S n); destruct i; reflexivity|].
    destruct i as [|i]; [reflexivity|]. cbn [firstn nth_error]. rewrite IH. reflexivity.
  Qed.
  Lemma upd_id l i x : nth_error l i = Some x -> upd l i x = l.
  Proof.
    intros H. apply nth_error_ext; intros j. destruct (Nat.eq_dec i j) as [->|N]; [|now rewrite upd_other].
    rewrite upd_same; [now symmetry|]. now apply nth_error_lt in H.
  Qed.
  Lemma upd_upd l i x y : upd (upd l i x) i y = upd l i y.
  Proof.
    apply nth_error_ext; intros j. rewrite !upd_nth, upd_length. destruct (Nat.eqb i j); reflexivity.
  Qed.
  (** swapping two elements is a permutation *)
  Lemma swap_perm l i j a b : nth_error l i = Some a -> nth_error l j = Some b -> Permutation (upd (upd l i b) j a) l.
  Proof.
    intros Hi Hj. apply Permutation_sym, Permutation_nth_error. pose proof (nth_error_lt _ _ _ Hi) as Li. pose proof (nth_error_lt _ _ _ Hj) as Lj. split.
    { now rewrite !upd_length. }
    exists (fun k => if Nat.eqb k i then j else if Nat.eqb k j then i else k). split.
    - intros x y. destruct (Nat.eqb_spec x i), (Nat.eqb_spec y i), (Nat.eqb_spec x j), (Nat.eqb_spec y j); lia.
    - intros k. rewrite upd_nth, upd_length, upd_nth. 
      rewrite (Nat.eqb_sym j k), (Nat.eqb_sym i k).
      destruct (Nat.eqb_spec k i) as [E1|Ni], (Nat.eqb_spec k j) as [E2|Nj]; try reflexivity; (replace (k <? List.length l) with true by (symmetry; apply Nat.ltb_lt; lia)); congruence.
  Qed.
  (** moving an element into the hole moves the hole *)
  Lemma hole_perm l i j x y : i < List.length l -> i <> j -> nth_error l j = Some y -> Permutation (upd (upd l i y) j x) (upd l i x).
  Proof.
    intros Li N Hj.
    assert (E : upd (upd l i y) j x = upd (upd (upd l i x) i y) j x) by now rewrite upd_upd.
    rewrite E. apply swap_perm; [now apply upd_same|now rewrite upd_other].
  Qed.
End Arr.

Section Order.
  Context {A : Type}.
  Variable lt : A -> A -> bool.
  Hypothesis O : strict_weak_order lt.
  Lemma lt_asym x y : lt x y = true -> lt y x = false.
  Proof. intros H. destruct (lt y x) eqn:E; [|reflexivity]. pose proof (swo_trans _ O _ _ _ H E). now rewrite (swo_irrefl _ O) in *. Qed.
  (** y is not less than x *)
  Lemma nlt_trans x y z : lt y x = false -> lt z y = false -> lt z x = false.
  Proof.
    intros H1 H2. destruct (lt z x) eqn:E; [|reflexivity].
    destruct (lt x y) eqn:E1. { pose proof (swo_trans _ O _ _ _ E E1). congruence. }
    destruct (lt y z) eqn:E2. { pose proof (swo_trans _ O _ _ _ E2 E). congruence. }
    destruct (swo_incomparable _ O x y z E1 H1 E2 H2). congruence.
  Qed.
  Lemma nlt_refl x : lt x x = false. Proof. apply (swo_irrefl _ O). Qed.
  Lemma lt_nlt_trans x y z : lt x y = true -> lt z y = false -> lt x z = true.
  Proof. intros H1 H2. destruct (lt x z) eqn:E; [reflexivity|]. rewrite (nlt_trans y z x) in H1; [discriminate|assumption|assumption]. Qed.
  Lemma equivalent_sym x y : equivalent lt x y = equivalent lt y x.
  Proof. unfold equivalent. apply andb_comm. Qed.
End Order.

Section Heaps.
  Context {A : Type}.
  Variable lt : A -> A -> bool.
  Hypothesis O : strict_weak_order lt.
  Notation par i := ((i - 1) / 2).
  Lemma par_lt i : 0 < i -> par i < i.
  Proof. intros H. apply Nat.div_lt_upper_bound; lia. Qed.
  Lemma par_child i : 0 < i -> i = 2 * par i + 1 \/ i = 2 * par i + 2.
  Proof. intros H. pose proof (Nat.div_mod (i - 1) 2 ltac:(lia)). pose proof (Nat.mod_upper_bound (i - 1) 2 ltac:(lia)). lia. Qed.
  Lemma par_of1 i : par (2 * i + 1) = i.
  Proof. replace (2 * i + 1 - 1) with (i * 2) by lia. apply Nat.div_mul. lia. Qed.
  Lemma par_of2 i : par (2 * i + 2) = i.
  Proof. replace (2 * i + 2 - 1) with (1 + i * 2) by lia. rewrite Nat.div_add by lia. reflexivity. Qed.

  (** the pair (parent i, i) is in order *)
  Definition ok (l : list A) (i : nat) : Prop := forall p c, rd l (par i) = Some p -> rd l i = Some c -> lt p c = false.
  (** descendants of top *)
  Inductive desc (top : nat) : nat -> Prop :=
  | desc_top : desc top top
  | desc_child h c : desc top h -> 0 < c -> par c = h -> desc top c.
  Lemma desc_le top h : desc top h -> top <= h.
  Proof. induction 1 as [|h c D IH C E]; [lia|]. pose proof (par_lt c C). lia. Qed.
  Lemma desc_par top h : desc top h -> top < h -> desc top (par h).
  Proof. intros D L. inversion D; subst; [lia|assumption]. Qed.

  Section Sift.
    Variables (n top : nat).
    Record hole_inv (l : list A) (h : nat) (bound : A -> Prop) : Prop := {
      hi_len : n <= List.length l;
      hi_h : h < n;
      hi_desc : desc top h;
      hi_ok : forall i, 0 < i < n -> top <= par i -> i <> h -> par i <> h -> ok l i;
      hi_up : forall c x p, 0 < c < n -> par c = h -> top < h -> rd l c = Some x -> rd l (par h) = Some p -> lt p x = false;
      hi_val : forall c x, 0 < c < n -> par c = h -> rd l c = Some x -> bound x
    }.

    Lemma heap_up_ok : forall fuel l h v, h < fuel -> hole_inv l h (fun x => lt v x = false) ->
      exists l', heap_up lt fuel l h top v = Some l' /\ List.length l' = List.length l /\ Permutation l' (upd l h v) /\
        (forall i, n <= i -> nth_error l' i = nth_error l i) /\
        (forall i, 0 < i < n -> top <= par i -> ok l' i) /\ (forall i, i < top -> nth_error l' i = nth_error l i).
    Proof.
      induction fuel as [|f IH]; intros l h v F I; [lia|]. destruct I as [IL IH0 ID IO IU IV].
      assert (Fin : (top < h -> forall p, rd l (par h) = Some p -> lt p v = false) ->
        exists l', wr l h v = Some l' /\ List.length l' = List.length l /\ Permutation l' (upd l h v) /\
        (forall i, n <= i -> nth_error l' i = nth_error l i) /\
        (forall i, 0 < i < n -> top <= par i -> ok l' i) /\ (forall i, i < top -> nth_error l' i = nth_error l i)).
      { intros Up. exists (upd l h v). rewrite wr_ok by lia. conj; [reflexivity|apply upd_length|reflexivity| | |].
        - intros i Hi. apply upd_other. lia.
        - intros i Hi Ht p c Hp Hc. destruct (Nat.eq_dec i h) as [->|N1].
          + rewrite rd_upd_same in Hc by lia. injection Hc as <-.
            pose proof (par_lt h ltac:(lia)). rewrite rd_upd_other in Hp by lia. apply (Up ltac:(lia) _ Hp).
          + rewrite rd_upd_other in Hc by lia. destruct (Nat.eq_dec (par i) h) as [E|N2].
            * rewrite E, rd_upd_same in Hp by lia. injection Hp as <-. eapply IV; eauto.
            * rewrite rd_upd_other in Hp by lia. eapply IO; eauto.
        - intros i Hi. apply upd_other. apply desc_le in ID. lia. }
      cbn [heap_up]. destruct (Nat.ltb_spec top h) as [L|L]; [|apply Fin; lia].
      pose proof (par_lt h ltac:(lia)) as PL. destruct (rd_lt l (par h)) as [p Hp]; [lia|]. rewrite Hp; cbn [obind].
      destruct (lt p v) eqn:C; [|apply Fin; intros _ q Hq; congruence].
      rewrite wr_ok by lia. cbn [obind].
      pose proof (desc_par top h ID L) as ID'. pose proof (desc_le _ _ ID') as TP.
      destruct (IH (upd l h p) (par h) v) as (l' & E & Ln & Pm & Hi & Ho & Hl); [lia| |].
      { constructor.
        - rewrite upd_length; lia.
        - lia.
        - assumption.
        - intros i Hi Ht N1 N2 q c Hq Hc. destruct (Nat.eq_dec i h) as [->|N]; [congruence|].
          rewrite rd_upd_other in Hc by lia. destruct (Nat.eq_dec (par i) h) as [E|N3].
          + rewrite E, rd_upd_same in Hq by lia. injection Hq as <-. eapply IU; eauto.
          + rewrite rd_upd_other in Hq by lia. eapply IO; eauto.
        - intros c x q Hc Ec Ht Hx Hq.
          rewrite rd_upd_other in Hq by (pose proof (par_lt (par h)); lia).
          assert (okp : lt q p = false).
          { eapply (IO (par h)); eauto; try lia. pose proof (desc_par top _ ID' Ht) as D2. apply desc_le in D2. exact D2.
            pose proof (par_lt (par h)); lia. }
          destruct (Nat.eq_dec c h) as [->|N].
          + rewrite rd_upd_same in Hx by lia. now injection Hx as <-.
          + rewrite rd_upd_other in Hx by lia.
            assert (okc : lt p x = false). { eapply (IO c); eauto; try lia. congruence. }
            eapply nlt_trans; eauto.
        - intros c x Hc Ec Hx. destruct (Nat.eq_dec c h) as [->|N].
          + rewrite rd_upd_same in Hx by lia. injection Hx as <-. now apply lt_asym.
          + rewrite rd_upd_other in Hx by lia.
            assert (okc : lt p x = false). { eapply (IO c); eauto; try lia. congruence. }
            eapply nlt_trans; [exact O|exact okc|]. now apply lt_asym. }
      exists l'. conj.
      - exact E.
      - now rewrite Ln, upd_length.
      - rewrite Pm. apply hole_perm; [lia|lia|exact Hp].
      - intros i Hi'. rewrite Hi by assumption. apply upd_other. lia.
      - exact Ho.
      - intros i Hi'. rewrite Hl by assumption. apply upd_other. lia.
    Qed.

    (** moving the larger child c of the hole h up *)
    Lemma down_step l h c x : hole_inv l h (fun _ => True) -> 0 < c < n -> par c = h -> rd l c = Some x ->
      (forall d y, 0 < d < n -> par d = h -> rd l d = Some y -> lt x y = false) ->
      hole_inv (upd l h x) c (fun _ => True).
    Proof.
      intros [IL IH0 ID IO IU _] Hc Ec Hx Mx. assert (h < c) by (pose proof (par_lt c); lia). pose proof (desc_le _ _ ID) as Dt. constructor.
      - rewrite upd_length; lia.
      - lia.
      - eapply desc_child; eauto; lia.
      - intros i Hi Ht N1 N2 q y Hq Hy. destruct (Nat.eq_dec i h) as [->|N].
        + rewrite rd_upd_same in Hy by lia. injection Hy as <-. pose proof (par_lt h ltac:(lia)). rewrite rd_upd_other in Hq by lia.
          eapply (IU c); eauto; lia.
        + rewrite rd_upd_other in Hy by lia. destruct (Nat.eq_dec (par i) h) as [E|N3].
          * rewrite E, rd_upd_same in Hq by lia. injection Hq as <-. eapply Mx; eauto.
          * rewrite rd_upd_other in Hq by lia. eapply IO; eauto.
      - intros d y p Hd Ed _ Hy Hp. rewrite Ec, rd_upd_same in Hp by lia. injection Hp as <-.
        rewrite rd_upd_other in Hy by (pose proof (par_lt d); lia). eapply (IO d); eauto; try lia.
        + pose proof (par_lt d); lia.
        + now rewrite Ed.
      - trivial.
    Qed.

    Lemma heap_down_ok : forall fuel l h v, n < fuel + h -> hole_inv l h (fun _ => True) ->
      exists l' h' c', heap_down lt fuel l h (2 * h + 2) n = Some (l', h', c') /\ hole_inv l' h' (fun _ => True) /\ c' = 2 * h' + 2 /\ n <= c' /\
        List.length l' = List.length l /\ Permutation (upd l' h' v) (upd l h v) /\
        (forall i, n <= i -> nth_error l' i = nth_error l i) /\ (forall i, i < top -> nth_error l' i = nth_error l i).
    Proof.
      induction fuel as [|f IH]; intros l h v F I; [pose proof (hi_h _ _ _ I); lia|].
      cbn [heap_down]. destruct (Nat.ltb_spec (2 * h + 2) n) as [L|L].
      - pose proof (hi_len _ _ _ I) as IL. pose proof (hi_h _ _ _ I) as Hh. pose proof (desc_le _ _ (hi_desc _ _ _ I)) as Ht.
        destruct (rd_lt l (2 * h + 2)) as [a Ha]; [lia|]. destruct (rd_lt l (2 * h + 2 - 1)) as [b Hb]; [lia|]. rewrite Ha, Hb; cbn [obind].
        set (c := if lt a b then 2 * h + 2 - 1 else 2 * h + 2).
        assert (Hc : exists x, rd l c = Some x /\ 0 < c < n /\ par c = h /\ c > h /\ (forall d y, 0 < d < n -> par d = h -> rd l d = Some y -> lt x y = false)).
        { assert (Ch : forall d y, 0 < d < n -> par d = h -> rd l d = Some y -> y = a \/ y = b).
          { intros d y Hd Ed Hy. destruct (par_child d ltac:(lia)) as [E|E]; rewrite Ed in E.
            - right. replace (2 * h + 2 - 1) with d in Hb by lia. congruence.
            - left. rewrite <- E in Ha. congruence. }
          subst c. destruct (lt a b) eqn:C.
          - exists b. conj; try lia; try assumption. { replace (2 * h + 2 - 1) with (2 * h + 1) by lia. apply par_of1. }
            intros d y Hd Ed Hy. destruct (Ch d y Hd Ed Hy) as [->| ->]; [now apply lt_asym|now apply nlt_refl].
          - exists a. conj; try lia; try assumption. { apply par_of2. }
            intros d y Hd Ed Hy. destruct (Ch d y Hd Ed Hy) as [->| ->]; [now apply nlt_refl|assumption]. }
        destruct Hc as (x & Hx & Hc & Ec & Hgt & Mx). rewrite Hx; cbn [obind]. rewrite wr_ok by lia. cbn [obind].
        replace (2 * (c + 1)) with (2 * c + 2) by lia.
        destruct (IH (upd l h x) c v) as (l' & h' & c' & E & I' & Ec' & Nc & Ln & Pm & Hi & Hl); [lia|now apply down_step|].
        exists l', h', c'. conj; try assumption.
        + now rewrite Ln, upd_length.
        + rewrite Pm. apply hole_perm; [lia|lia|exact Hx].
        + intros i Hi'. rewrite Hi by assumption. apply upd_other. lia.
        + intros i Hi'. rewrite Hl by assumption. apply upd_other. lia.
      - exists l, h, (2 * h + 2). conj; try reflexivity; try assumption.
    Qed.
  End Sift.

  (** adjust_heap at top, when everything below top is in order *)
  Lemma adjust_heap_ok l top n v : top < n -> n <= List.length l -> (forall i, 0 < i < n -> top < par i -> ok l i) ->
    exists l', adjust_heap lt l top n v = Some l' /\ List.length l' = List.length l /\ Permutation l' (upd l top v) /\
      (forall i, n <= i -> nth_error l' i = nth_error l i) /\ (forall i, i < top -> nth_error l' i = nth_error l i) /\
      (forall i, 0 < i < n -> top <= par i -> ok l' i).
  Proof.
    intros Ht Hn Hok. unfold adjust_heap.
    assert (I : hole_inv n top l top (fun _ => True)).
    { constructor; try lia; try trivial; [constructor|]. intros i Hi H1 H2 H3. apply Hok; lia. }
    destruct (heap_down_ok n top (S n) l top v ltac:(lia) I) as (l1 & h & c & E & I1 & Ec & Nc & Ln & Pm & Hi & Hl).
    rewrite E; cbn [obind]. 
    assert (Fin : exists l2 h2, (if Nat.eqb c n then do x <- rd l1 (c - 1); do l2 <- wr l1 h x; Some (l2, c - 1) else Some (l1, h)) = Some (l2, h2) /\
      hole_inv n top l2 h2 (fun x => lt v x = false) /\ List.length l2 = List.length l1 /\ Permutation (upd l2 h2 v) (upd l1 h v) /\
      (forall i, n <= i -> nth_error l2 i = nth_error l1 i) /\ (forall i, i < top -> nth_error l2 i = nth_error l1 i)).
    { pose proof (hi_len _ _ _ _ _ I1) as IL. pose proof (hi_h _ _ _ _ _ I1) as Hh. pose proof (desc_le _ _ (hi_desc _ _ _ _ _ I1)) as Dt.
      destruct (Nat.eqb_spec c n) as [En|Nn].
      - destruct (rd_lt l1 (c - 1)) as [x Hx]; [lia|]. rewrite Hx; cbn [obind]. rewrite wr_ok by lia. cbn [obind]. do 2 eexists. split; [reflexivity|].
        assert (Pc : par (c - 1) = h) by (replace (c - 1) with (2 * h + 1) by lia; apply par_of1).
        conj.
        + assert (D : hole_inv n top (upd l1 h x) (c - 1) (fun _ => True)).
          { apply down_step; try assumption; try lia. intros d y Hd Ed Hy. destruct (par_child d ltac:(lia)) as [Q|Q]; rewrite Ed in Q; [|lia].
            replace (c - 1) with d in Hx by lia. rewrite Hx in Hy. injection Hy as <-. now apply nlt_refl. }
          destruct D as [D1 D2 D3 D4 D5 _]. constructor; try assumption.
          intros d y Hd Ed Hy. destruct (par_child d ltac:(lia)) as [Q|Q]; rewrite Ed in Q; lia.
        + apply upd_length.
        + apply hole_perm; [lia|lia|exact Hx].
        + intros i Hi'. apply upd_other. lia.
        + intros i Hi'. apply upd_other. lia.
      - exists l1, h. conj; try reflexivity. destruct I1 as [D1 D2 D3 D4 D5 _]. constructor; try assumption.
        intros d y Hd Ed Hy. destruct (par_child d ltac:(lia)) as [Q|Q]; rewrite Ed in Q; lia. }
    destruct Fin as (l2 & h2 & E2 & I2 & Ln2 & Pm2 & Hi2 & Hl2). rewrite E2. cbn [obind].
    destruct (heap_up_ok n top (S h2) l2 h2 v ltac:(lia) I2) as (l3 & E3 & Ln3 & Pm3 & Hi3 & Ho3 & Hl3).
    exists l3. conj.
    - exact E3.
    - congruence.
    - now rewrite Pm3, Pm2, Pm.
    - intros i Hi'. rewrite Hi3, Hi2, Hi by assumption. reflexivity.
    - intros i Hi'. rewrite Hl3, Hl2, Hl by assumption. reflexivity.
    - exact Ho3.
  Qed.

  Lemma heap_ok l : heap lt l <-> (forall i, 0 < i < List.length l -> ok l i).
  Proof.
    split.
    - intros H i Hi p c Hp Hc. apply (H i); [lia|exact Hp|exact Hc].
    - intros H i p c Hi Hp Hc. pose proof (nth_error_lt _ _ _ Hc). apply (H i); [lia|exact Hp|exact Hc].
  Qed.

  (** the root of a heap is a greatest element *)
  Lemma heap_root l x : heap lt l -> nth_error l 0 = Some x -> greatest lt x l.
  Proof.
    intros H Hx. split; [now apply nth_error_In in Hx|]. intros y Hy. apply In_nth_error in Hy as [i Hi]. revert y Hi.
    induction i as [i IH] using lt_wf_ind. intros y Hi. destruct (Nat.eq_dec i 0) as [->|N].
    - rewrite Hx in Hi. injection Hi as <-. now apply nlt_refl.
    - pose proof (par_lt i ltac:(lia)) as P. destruct (rd_lt l (par i)) as [p Hp]; [apply nth_error_lt in Hi; lia|].
      pose proof (IH (par i) P p Hp) as Q. pose proof (H i p y ltac:(lia) Hp Hi) as R. eapply nlt_trans; eauto.
  Qed.

  Lemma push_heap_ok l x : heap lt l -> exists l', push_heap lt (l ++ [x]) = Some l' /\ Permutation l' (l ++ [x]) /\ heap lt l'.
  Proof.
    intros H. unfold push_heap. rewrite app_length; cbn [List.length]. rewrite Nat.add_1_r. cbn [Nat.eqb]. replace (S (List.length l) - 1) with (List.length l) by lia.
    unfold rd at 1. rewrite nth_error_app2, Nat.sub_diag by lia. cbn [nth_error obind].
    assert (I : hole_inv (S (List.length l)) 0 (l ++ [x]) (List.length l) (fun y => lt x y = false)).
    { constructor; try lia.
      - rewrite app_length; cbn; lia.
      - clear. induction (List.length l) as [n IH] using lt_wf_ind. destruct (Nat.eq_dec n 0) as [->|N]; [constructor|].
        eapply desc_child with (h := par n); [apply IH, par_lt; lia|lia|reflexivity].
      - intros i Hi _ N1 N2 p c Hp Hc. unfold rd in *. pose proof (par_lt i ltac:(lia)). rewrite nth_error_app1 in Hp, Hc by lia. apply (H i); [lia|exact Hp|exact Hc].
      - intros c y p Hc Ec. pose proof (par_lt c ltac:(lia)). lia.
      - intros c y Hc Ec. pose proof (par_lt c ltac:(lia)). lia. }
    destruct (heap_up_ok (S (List.length l)) 0 (S (S (List.length l))) (l ++ [x]) (List.length l) x ltac:(lia) I) as (l' & E & Ln & Pm & _ & Ho & _).
    exists l'. conj; [exact E| |].
    - rewrite upd_id in Pm; [exact Pm|]. rewrite nth_error_app2, Nat.sub_diag by lia. reflexivity.
    - apply heap_ok. rewrite Ln, app_length; cbn [List.length]. intros i Hi. apply Ho; lia.
  Qed.

  Lemma firstn_perm_fix (l l' : list A) n : Permutation l' l -> (forall i, n <= i -> nth_error l' i = nth_error l i) -> Permutation (firstn n l') (firstn n l).
  Proof.
    intros P H. assert (E : skipn n l' = skipn n l).
    { apply nth_error_ext; intros i. rewrite !nth_error_skipn. apply H. lia. }
    rewrite <- (firstn_skipn n l'), <- (firstn_skipn n l), E in P. now apply Permutation_app_inv_r in P.
  Qed.

  Lemma pop_heap_ok l x : heap lt l -> nth_error l 0 = Some x ->
    exists l', pop_heap lt l = Some (l' ++ [x]) /\ Permutation (x :: l') l /\ heap lt l' /\ greatest lt x l.
  Proof.
    intros H Hx. pose proof (heap_root l x H Hx) as G. pose proof (nth_error_lt _ _ _ Hx) as L. unfold pop_heap.
    replace (Nat.eqb (List.length l) 0) with false by (symmetry; apply Nat.eqb_neq; lia).
    destruct (rd_lt l (List.length l - 1)) as [v Hv]; [lia|]. rewrite Hv. cbn [obind]. unfold rd at 1. rewrite Hx; cbn [obind]. rewrite wr_ok by lia. cbn [obind].
    set (n := List.length l - 1) in *. set (l1 := upd l n x). assert (L1 : List.length l1 = List.length l) by apply upd_length. rewrite L1. fold n.
    assert (Last : forall l', List.length l' = List.length l -> nth_error l' n = Some x -> l' = firstn n l' ++ [x]).
    { intros l' Ll Hn. rewrite <- (firstn_skipn n l') at 1. f_equal. rewrite (skipn_nth _ _ _ Hn). f_equal. apply skipn_all2. lia. }
    destruct (Nat.eq_dec n 0) as [Z|NZ].
    - (* one element *)
      assert (v = x) by (rewrite Z in Hv; unfold rd in Hv; congruence). subst v.
      destruct l as [|y [|? ?]]; cbn in *; try lia. injection Hx as ->. exists []. conj; try assumption; try reflexivity.
      intros i p c Hi _ Hc. destruct i; cbn in Hc; congruence.
    - destruct (adjust_heap_ok l1 0 n v) as (l2 & E & Ln & Pm & Hi & _ & Ho); [lia|lia| |].
      { intros i Hi Hp p c. pose proof (par_lt i ltac:(lia)). subst l1. rewrite !rd_upd_other by lia. intros Q1 Q2. apply (H i); [lia|exact Q1|exact Q2]. }
      assert (P2 : Permutation l2 l). { rewrite Pm. subst l1. apply Permutation_trans with (upd (upd l 0 v) n x).
        - apply Permutation_refl'. apply nth_error_ext; intros k. rewrite !upd_nth, !upd_length.
          destruct (Nat.eqb_spec 0 k), (Nat.eqb_spec n k); try reflexivity; lia.
        - apply swap_perm; assumption. }
      assert (Hn : nth_error l2 n = Some x). { rewrite Hi by lia. subst l1. apply upd_same. lia. }
      exists (firstn n l2). rewrite E. pose proof (Last l2 ltac:(congruence) Hn) as Eq. conj.
      + now rewrite <- Eq.
      + rewrite <- P2. rewrite Eq at 2. apply Permutation_cons_append.
      + apply heap_ok. rewrite firstn_length, Nat.min_l by lia. intros i Hi' p c Hp Hc. unfold rd in *. pose proof (par_lt i ltac:(lia)).
        assert (F : forall j, j < n -> nth_error (firstn n l2) j = nth_error l2 j).
        { intros j Hj. rewrite Eq at 2. rewrite nth_error_app1; [reflexivity|]. rewrite firstn_length. lia. }
        rewrite F in Hp, Hc by lia. apply (Ho i); [lia|lia|exact Hp|exact Hc].
      + exact G.
  Qed.

  Lemma make_heap_loop_ok : forall parent l, parent < List.length l -> (forall i, 0 < i < List.length l -> parent < par i -> ok l i) ->
    exists l', make_heap_loop lt l parent = Some l' /\ Permutation l' l /\ heap lt l'.
  Proof.
    induction parent as [|p IH]; intros l L H; cbn [make_heap_loop]; (destruct (rd_lt l _ L) as [x Hx]; rewrite Hx; cbn [obind];
      destruct (adjust_heap_ok l _ (List.length l) x L (le_n _) H) as (l1 & E & Ln & Pm & _ & _ & Ho); rewrite E; cbn [obind]; rewrite (upd_id l _ x Hx) in Pm).
    - exists l1. conj; [reflexivity|assumption|]. apply heap_ok. rewrite Ln. intros i Hi. apply Ho; lia.
    - destruct (IH l1) as (l2 & E2 & P2 & H2); [lia| |exists l2; conj; [assumption|now rewrite P2|assumption]].
      rewrite Ln. intros i Hi Hp. apply Ho; lia.
  Qed.
  Lemma make_heap_ok l : exists l', make_heap lt l = Some l' /\ Permutation l' l /\ heap lt l'.
  Proof.
    unfold make_heap. destruct (Nat.ltb_spec (List.length l) 2) as [L|L].
    - exists l. conj; try reflexivity. intros i p c Hi _ Hc. apply nth_error_lt in Hc. lia.
    - apply make_heap_loop_ok; [apply Nat.div_lt_upper_bound; lia|].
      intros i Hi Hp. exfalso. enough (par i <= (List.length l - 2) / 2) by lia. apply Nat.div_le_mono; lia.
  Qed.

  Lemma is_heap_loop_ok l : forall fuel child, List.length l < fuel + child -> 0 < child -> 0 < fuel ->
    exists b, is_heap_loop lt fuel l (par child) child (List.length l) = Some b /\ (b = true <-> forall i, child <= i < List.length l -> ok l i).
  Proof.
    induction fuel as [|f IH]; intros child F C P; [lia|]. cbn [is_heap_loop].
    destruct (Nat.ltb_spec child (List.length l)) as [L|L].
    - pose proof (par_lt child C). destruct (rd_lt l (par child)) as [p Hp]; [lia|]. destruct (rd_lt l child) as [c Hc]; [lia|]. rewrite Hp, Hc; cbn [obind].
      destruct (lt p c) eqn:E.
      + exists false. split; [reflexivity|]. split; [discriminate|]. intros H0. specialize (H0 child ltac:(lia) p c Hp Hc). congruence.
      + replace (if Nat.even child then S (par child) else par child) with (par (S child)).
        * destruct (IH (S child)) as (b & Eb & Hb); [lia|lia|lia|]. exists b. split; [exact Eb|]. rewrite Hb. split.
          -- intros H0 i Hi. destruct (Nat.eq_dec i child) as [->|N]; [|apply H0; lia]. intros p' c' Hp' Hc'. congruence.
          -- intros H0 i Hi. apply H0; lia.
        * replace (S child - 1) with child by lia. destruct (par_child child C) as [Q|Q]; destruct (Nat.even child) eqn:Ev.
          -- rewrite Q in Ev. rewrite Nat.even_add, Nat.even_mul in Ev. discriminate.
          -- rewrite Q at 1. replace (2 * par child + 1) with (1 + par child * 2) by lia. rewrite Nat.div_add by lia. reflexivity.
          -- rewrite Q at 1. replace (2 * par child + 2) with (S (par child) * 2) by lia. now rewrite Nat.div_mul by lia.
          -- rewrite Q in Ev. rewrite Nat.even_add, Nat.even_mul in Ev. discriminate.
    - exists true. split; [reflexivity|]. split; [|reflexivity]. intros _ i Hi. lia.
  Qed.
  Lemma is_heap_ok l : exists b, is_heap lt l = Some b /\ (b = true <-> heap lt l).
  Proof.
    unfold is_heap. destruct (is_heap_loop_ok l (S (List.length l)) 1 ltac:(lia) ltac:(lia) ltac:(lia)) as (b & E & H). exists b.
    split; [exact E|]. rewrite H, heap_ok. split; intros Q i Hi; apply Q; lia.
  Qed.
End Heaps.
