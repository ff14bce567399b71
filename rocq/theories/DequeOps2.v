(** * Each deque operation agrees with the specification, continued *)
From Coq Require Import List Arith Lia Bool String.
From Verif Require Import VecModel.
From Verif Require Import Util Slots Cmd DequeSpec DequeModel DequeProofs DequeOps.
Import ListNotations.

Section P.
  Context {T : Type}.
  Variables (triv chk : bool) (mv smv : T -> T) (SZ R : nat).
  Implicit Types (d : dq T) (l xs : list T).
  Notation ix o k := ((o + k) mod R).
  Notation dr := (dr triv R).
  Notation gives := (gives triv R).
  Notation quiet := (forall x, smv x = x).
  Ltac lens := autorewrite with dql; cbn [List.length].
  Ltac lensin H := autorewrite with dql in H; cbn [List.length] in H.
  Ltac run1 H := rewrite (bind_ok _ _ _ _ _ H).
  Ltac st := rewrite (bind_ok state _ _ _ _ eq_refl).
  Ltac ass := rewrite (bind_ok (assert_ true _) _ _ _ _ eq_refl).

  (** the four counters of the block insertions *)
  Lemma counters n m : let k := Nat.min n m in
    (if k <? n then n - k else 0) = n - k /\ (if n - k <? n then n - (n - k) else 0) = k.
  Proof. cbn zeta. cmp; lia. Qed.

  Lemma skipn_repeat (x : T) n m : skipn n (repeat x m) = repeat x (m - n).
  Proof. revert m. induction n; intros [|m]; cbn; auto. Qed.
  Lemma firstn_repeat (x : T) n m : firstn n (repeat x m) = repeat x (Nat.min n m).
  Proof. revert m. induction n; intros [|m]; cbn; auto. now rewrite IHn. Qed.

  Lemma insert_n_ok d o l p n x : dr d o l -> p <= List.length l -> List.length l + n < R ->
    List.length l + n < SZ -> (n = 0 -> quiet \/ p = 0 \/ p = List.length l) ->
    gives d (insert_n triv mv smv SZ R (ix o p) n (Val x) d) p (ins l p (repeat x n)).
  Proof.
    intros D Hp HL HZ Q. pose proof (dr_o _ _ _ _ _ D) as Ho. unfold insert_n. st.
    rewrite (d_sz _ _ _ _ _ D), Nat.mod_small by lia. unfold cap.
    destruct (Nat.leb_spec (List.length l + n) (R - 1)); [|lia]. ass.
    rewrite (pos_eqb_bg _ _ _ _ _ _ D Hp), (pos_eqb_en _ _ _ _ _ _ D Hp).
    destruct (Nat.eqb_spec p 0) as [->|N0].
    { destruct (rep_create_front triv R n d o l x D ltac:(lia)) as (d1 & o1 & E1 & D1 & H1). run1 E1.
      exists d1, (bg d1), o1. conj; auto. rewrite (d_bg _ _ _ _ _ D1). symmetry. apply ix0. eapply dr_o; eauto. }
    destruct (Nat.eqb_spec p (List.length l)) as [->|N1].
    { destruct (rep_create_back triv R n d o l x D ltac:(lia)) as (d1 & E1 & D1). run1 E1.
      exists d1, (minus R (en d1) n), o. conj; auto.
      - unfold ins. rewrite firstn_all, skipn_all, app_nil_r. exact D1.
      - rewrite (d_en _ _ _ _ _ D1). lens. rewrite minus_ix by lia. f_equal; lia. }
    assert (Ebg : bg d = ix o 0) by (rewrite (d_bg _ _ _ _ _ D), ix0; auto).
    rewrite Ebg, (d_en _ _ _ _ _ D).
    rewrite !(dist_ix _ _ _ _ _ _ _ D) by lia. rewrite Nat.sub_0_r.
    assert (Q' : n = 0 -> quiet) by (intros E; destruct (Q E) as [|[|]]; auto; contradiction).
    destruct (_ <=? _).
    - destruct (counters n p) as [C1 C2]. cbn zeta in *. set (k := Nat.min n p) in *. rewrite C1, C2. clear C1 C2.
      assert (Hk : k <= n /\ k <= p) by (unfold k; lia).
      destruct (rep_create_front triv R (n - k) d o l x D ltac:(lia)) as (d1 & o1 & E1 & D1 & H1). run1 E1.
      pose proof (dr_o _ _ _ _ _ D1) as Ho1.
      destruct (front_copies_ok triv R k d1 o1 _ (n - k) (minus R (plus R (ix o 0) k) 1) D1) as (d2 & o2 & E2 & D2 & H2).
      { lens; lia. } { lens; lia. }
      { intros Hk0. rewrite plus_ix, minus_ix by lia. rewrite <- (H1 (0 + k - 1)). f_equal; lia. }
      run1 E2. st. pose proof (dr_o _ _ _ _ _ D2) as Ho2.
      assert (Hs : forall j, ix o j = ix o2 (n + j)).
      { intros j. rewrite <- H1, <- H2. f_equal. lia. }
      assert (Ebg2 : bg d2 = ix o2 0) by (rewrite (d_bg _ _ _ _ _ D2), ix0; auto).
      rewrite Ebg2, (Hs p). rewrite !minus_ix by lia. rewrite !plus_ix by lia.
      rewrite skipn_app, firstn_app in D2. rewrite !skipn_repeat, !Nat.sub_diag, !repeat_length, !Nat.sub_diag in D2.
      cbn [repeat firstn skipn app List.length Nat.add] in D2. rewrite firstn_nil in D2. cbn [app] in D2. rewrite Nat.sub_0_r in D2.
      set (l2 := firstn k l ++ repeat x (n - k) ++ l) in *.
      assert (Hl2 : List.length l2 = n + List.length l) by (unfold l2; lens; lia).
      destruct (moves_ok triv mv smv R d2 o2 l2 (n + p - (p - k)) (p - k) k D2 ltac:(lia) ltac:(lia)) as (d3 & E3 & D3).
      cbn [Nat.add] in *. run1 E3.
      destruct (fill_n_ok triv R k x d3 o2 _ (n + p - k) D3) as (d4 & E4 & D4); [lens; lia|]. run1 E4.
      eexists _, _, o2. conj; [reflexivity| |reflexivity].
      pose proof (block_left mv smv l p (repeat x n)) as BL. cbn zeta in BL. rewrite repeat_length in BL. fold k in BL.
      rewrite <- BL by (auto; lia). rewrite skipn_repeat, firstn_repeat.
      replace (n - (n - k)) with k by lia. replace (Nat.min (n - k) n) with (n - k) by lia. exact D4.
    - destruct (counters n (List.length l - p)) as [C1 C2]. cbn zeta in *. set (k := Nat.min n (List.length l - p)) in *. rewrite C1, C2. clear C1 C2.
      assert (Hk : k <= n /\ k <= List.length l - p) by (unfold k; lia).
      destruct (rep_create_back triv R (n - k) d o l x D ltac:(lia)) as (d1 & E1 & D1). run1 E1.
      rewrite !plus_ix by lia.
      destruct (back_copies_ok triv R k d1 o _ (p + (List.length l - p - k)) D1) as (d2 & E2 & D2); [lens; lia..|]. run1 E2.
      destruct (moves_back_ok triv mv smv R d2 o _ p (List.length l - p - k) (p + n + (List.length l - p - k)) D2) as (d3 & E3 & D3); [lens; lia..|]. run1 E3.
      destruct (fill_n_ok triv R k x d3 o _ p D3) as (d4 & E4 & D4); [lens; lia|]. run1 E4.
      eexists _, _, o. conj; [reflexivity| |reflexivity].
      pose proof (block_right mv smv l p (repeat x n)) as BL. cbn zeta in BL. rewrite repeat_length in BL. fold k in BL.
      rewrite <- BL by (auto; lia). rewrite skipn_repeat, firstn_repeat.
      replace (Nat.min k n) with k by lia. exact D4.
  Qed.

  Lemma map_val_args (xs : list T) o l : forall k a v, nth_error (map Val xs) k = Some a -> nth_error xs k = Some v ->
     a = Val v \/ exists p, a = Ref (ix o p) /\ nth_error l p = Some v.
  Proof. intros k a v Ea Ev. rewrite nth_error_map, Ev in Ea. cbn in Ea. injection Ea as <-. auto. Qed.

  Lemma insert_range_ok d o l p xs : dr d o l -> p <= List.length l -> List.length l + List.length xs < R ->
    (xs = [] -> quiet \/ p = 0 \/ p = List.length l) ->
    gives d (insert_range triv mv smv R (ix o p) xs d) p (ins l p xs).
  Proof.
    intros D Hp HL Q. pose proof (dr_o _ _ _ _ _ D) as Ho. unfold insert_range. st.
    set (n := List.length xs) in *.
    rewrite (d_sz _ _ _ _ _ D). unfold cap.
    destruct (Nat.leb_spec (List.length l + n) (R - 1)); [|lia]. ass.
    rewrite (pos_eqb_bg _ _ _ _ _ _ D Hp), (pos_eqb_en _ _ _ _ _ _ D Hp).
    destruct (Nat.eqb_spec p 0) as [->|N0].
    { destruct (create_front_n_ok triv R (map Val xs) xs d o l D (map_length _ _) ltac:(fold n; lia) (map_val_args xs o l)) as (d1 & o1 & E1 & D1 & H1).
      run1 E1. exists d1, (bg d1), o1. conj; auto. rewrite (d_bg _ _ _ _ _ D1). symmetry. apply ix0. eapply dr_o; eauto. }
    destruct (Nat.eqb_spec p (List.length l)) as [->|N1].
    { destruct (each_create_back triv R xs d o l D ltac:(fold n; lia)) as (d1 & E1 & D1). run1 E1.
      exists d1, (minus R (en d1) n), o. conj; auto.
      - unfold ins. rewrite firstn_all, skipn_all, app_nil_r. exact D1.
      - rewrite (d_en _ _ _ _ _ D1). lens. fold n. rewrite minus_ix by lia. f_equal; lia. }
    assert (Ebg : bg d = ix o 0) by (rewrite (d_bg _ _ _ _ _ D), ix0; auto).
    rewrite Ebg, (d_en _ _ _ _ _ D).
    rewrite !(dist_ix _ _ _ _ _ _ _ D) by lia. rewrite Nat.sub_0_r.
    assert (Q' : n = 0 -> quiet).
    { intros E. destruct (Q (proj1 (length_zero_iff_nil _) E)) as [|[|]]; auto; contradiction. }
    destruct (_ <? _).
    - destruct (counters n p) as [C1 C2]. cbn zeta in *. set (k := Nat.min n p) in *. rewrite C1, C2. clear C1 C2.
      assert (Hk : k <= n /\ k <= p) by (unfold k; lia).
      destruct (create_front_n_ok triv R (map Val (firstn (n - k) xs)) (firstn (n - k) xs) d o l D (map_length _ _)
                  ltac:(rewrite firstn_length; fold n; lia) (map_val_args _ o l)) as (d1 & o1 & E1 & D1 & H1).
      run1 E1. st. pose proof (dr_o _ _ _ _ _ D1) as Ho1.
      assert (Hf : List.length (firstn (n - k) xs) = n - k) by (rewrite firstn_length; fold n; lia).
      rewrite Hf in H1.
      assert (Ebg1 : plus R (bg d1) (n - k) = ix o1 (n - k)).
      { rewrite (d_bg _ _ _ _ _ D1). rewrite <- (ix0 R o1) at 1 by auto. rewrite plus_ix by lia. f_equal; lia. }
      rewrite Ebg1.
      destruct (create_front_n_ok triv R (refs R k (ix o1 (n - k))) (firstn k l) d1 o1 _ D1) as (d2 & o2 & E2 & D2 & H2).
      { rewrite refs_len, firstn_length. lia. }
      { rewrite firstn_length, app_length, Hf. lia. }
      { intros j a v Ea Ev. right. exists (n - k + j). split; [now apply (nth_refs R k o1 (n - k) j a Ho1)|].
        rewrite nth_firstn_if in Ev. destruct (Nat.ltb_spec j k); [|discriminate].
        rewrite nth_app_if, Hf. destruct (Nat.ltb_spec (n - k + j) (n - k)); [lia|]. rewrite <- Ev. f_equal; lia. }
      run1 E2. st. pose proof (dr_o _ _ _ _ _ D2) as Ho2.
      assert (Hs : forall j, ix o j = ix o2 (n + j)).
      { intros j. rewrite <- H1, <- H2. rewrite firstn_length. f_equal; lia. }
      assert (Ebg2 : bg d2 = ix o2 0) by (rewrite (d_bg _ _ _ _ _ D2), ix0; auto).
      rewrite Ebg2, (Hs p). rewrite !minus_ix by lia. rewrite !plus_ix by lia.
      set (l2 := firstn k l ++ firstn (n - k) xs ++ l) in *.
      assert (Hl2 : List.length l2 = n + List.length l) by (unfold l2; lens; fold n; lia).
      destruct (moves_ok triv mv smv R d2 o2 l2 (n + p - (p - k)) (p - k) k D2 ltac:(lia) ltac:(lia)) as (d3 & E3 & D3).
      cbn [Nat.add] in *. run1 E3.
      assert (Hc : firstn k (skipn (n - k) xs) = skipn (n - k) xs) by (apply firstn_all2; rewrite skipn_length; fold n; lia).
      rewrite Hc.
      destruct (copy_in_ok triv R (skipn (n - k) xs) d3 o2 _ (n + p - k) D3) as (d4 & E4 & D4); [lens; fold n; lia|]. run1 E4.
      eexists _, _, o2. conj; [reflexivity| |reflexivity].
      pose proof (block_left mv smv l p xs) as BL. cbn zeta in BL. fold n k in BL.
      rewrite <- BL by (auto; lia). exact D4.
    - destruct (counters n (List.length l - p)) as [C1 C2]. cbn zeta in *. set (k := Nat.min n (List.length l - p)) in *. rewrite C1, C2. clear C1 C2.
      assert (Hk : k <= n /\ k <= List.length l - p) by (unfold k; lia).
      replace (n - (n - k)) with k by lia.
      assert (Hc : firstn (n - k) (skipn k xs) = skipn k xs) by (apply firstn_all2; rewrite skipn_length; fold n; lia).
      rewrite Hc.
      destruct (each_create_back triv R (skipn k xs) d o l D ltac:(rewrite skipn_length; fold n; lia)) as (d1 & E1 & D1). run1 E1.
      rewrite !plus_ix by lia.
      destruct (back_copies_ok triv R k d1 o _ (p + (List.length l - p - k)) D1) as (d2 & E2 & D2); [lens; fold n; lia..|]. run1 E2.
      destruct (moves_back_ok triv mv smv R d2 o _ p (List.length l - p - k) (p + n + (List.length l - p - k)) D2) as (d3 & E3 & D3); [lens; fold n; lia..|]. run1 E3.
      destruct (copy_in_ok triv R (firstn k xs) d3 o _ p D3) as (d4 & E4 & D4); [lens; fold n; lia|]. run1 E4.
      eexists _, _, o. conj; [reflexivity| |reflexivity].
      pose proof (block_right mv smv l p xs) as BL. cbn zeta in BL. fold n k in BL.
      rewrite <- BL by (auto; lia). exact D4.
  Qed.

  (** erasing [p, q): list level *)
  Lemma del_left l p q : p <= q -> q <= List.length l -> (p = q -> quiet) ->
    skipn (q - p) (lmove_back mv smv p l p q) = del l p q.
  Proof.
    intros Hp Hq Q. apply ext_lt; [lens; rewrite del_length by lia; lia|]. intros t Ht. lensin Ht.
    rewrite nth_skipn_add, nth_del by lia. destruct (Nat.eq_dec p q) as [->|N].
    - rewrite lmove_back_self by auto. rewrite Nat.sub_diag, Nat.add_0_r. now destruct (t <? q).
    - destruct (Nat.ltb_spec t p).
      + rewrite lmove_back_at by lia. f_equal; lia.
      + rewrite lmove_back_out by lia. f_equal; lia.
  Qed.
  Lemma del_right l p q : p <= q -> q <= List.length l -> (p = q -> quiet) ->
    firstn (List.length l - (q - p)) (lmove mv smv (List.length l - q) l q p) = del l p q.
  Proof.
    intros Hp Hq Q. apply ext_lt; [lens; rewrite del_length by lia; lia|]. intros t Ht. lensin Ht.
    rewrite nth_firstn_if, nth_del by lia. destruct (Nat.ltb_spec t (List.length l - (q - p))); [|lia].
    destruct (Nat.eq_dec p q) as [->|N].
    - rewrite lmove_self by auto. rewrite Nat.sub_diag, Nat.add_0_r. now destruct (t <? q).
    - destruct (Nat.ltb_spec t p).
      + rewrite lmove_out by lia. reflexivity.
      + rewrite lmove_at by lia. f_equal; lia.
  Qed.
  Lemma erase_range_ok d o l p q : dr d o l -> p <= q -> q <= List.length l ->
    (p = q -> quiet \/ p = 0 \/ p = List.length l) ->
    gives d (erase_range triv mv smv R (ix o p) (ix o q) d) p (del l p q).
  Proof.
    intros D Hp Hq Q. pose proof (dr_o _ _ _ _ _ D) as Ho. pose proof (d_lt _ _ _ _ _ D) as HL. unfold erase_range. st.
    rewrite !(dist1_ix _ _ _ _ _ _ D) by lia. rewrite (d_sz _ _ _ _ _ D).
    destruct (Nat.leb_spec p (List.length l)); [|lia]. destruct (Nat.leb_spec q (List.length l)); [|lia]. cbn [andb]. ass.
    rewrite !(dist_ix _ _ _ _ _ _ _ D) by lia.
    rewrite (pos_eqb_bg _ _ _ _ _ p D ltac:(lia)).
    destruct (Nat.eqb_spec p 0) as [->|N0].
    { rewrite Nat.sub_0_r. destruct (rep_destroy_front triv R q d o l D Hq) as (d1 & o1 & E1 & D1 & H1). run1 E1.
      exists d1, (bg d1), o1. conj; auto. rewrite (d_bg _ _ _ _ _ D1). symmetry. apply ix0. eapply dr_o; eauto. }
    rewrite (d_en _ _ _ _ _ D). rewrite minus_ix by lia. rewrite ix_eqb by lia.
    destruct (Nat.eqb_spec p (List.length l - (q - p))) as [N1|N1].
    { assert (q = List.length l) by lia. subst q.
      destruct (rep_destroy_back triv R (List.length l - p) d o l D ltac:(lia)) as (d1 & E1 & D1). run1 E1.
      replace (List.length l - (List.length l - p)) with p in D1 by lia.
      exists d1, (en d1), o. conj; auto.
      - unfold del. rewrite skipn_all, app_nil_r. exact D1.
      - rewrite (d_en _ _ _ _ _ D1), firstn_length. f_equal; lia. }
    assert (Q' : p = q -> quiet) by (intros E; destruct (Q E) as [|[|]]; auto; lia).
    assert (Ebg : bg d = ix o 0) by (rewrite (d_bg _ _ _ _ _ D), ix0; auto).
    rewrite Ebg. rewrite (dist_ix _ _ _ _ _ _ _ D) by lia. rewrite plus_ix by lia. replace (p + (q - p)) with q by lia.
    destruct (_ <? _).
    - destruct (moves_back_ok triv mv smv R d o l 0 p q D) as (d1 & E1 & D1); [lia..|]. cbn [Nat.add] in E1, D1. run1 E1.
      destruct (rep_destroy_front triv R (q - p) d1 o _ D1) as (d2 & o2 & E2 & D2 & H2); [lens; lia|]. run1 E2.
      eexists _, _, o2. conj; [reflexivity| |].
      + rewrite <- del_left by auto. exact D2.
      + rewrite H2. f_equal; lia.
    - pose proof (moves_ok triv mv smv R d o l q (List.length l - q) p D) as HM.
      destruct HM as (d1 & E1 & D1); [lia..|].
      replace (q + (List.length l - q)) with (List.length l) in E1 by lia. run1 E1.
      destruct (rep_destroy_back triv R (q - p) d1 o _ D1) as (d2 & E2 & D2); [lens; lia|]. run1 E2.
      rewrite lmove_len in D2.
      eexists _, _, o. conj; [reflexivity| |reflexivity].
      rewrite <- del_right by auto. exact D2.
  Qed.
  Lemma erase_ok d o l p : dr d o l -> p < List.length l ->
    gives d (erase triv mv smv R (ix o p) d) p (del l p (p + 1)).
  Proof.
    intros D Hp. pose proof (dr_o _ _ _ _ _ D) as Ho. pose proof (d_lt _ _ _ _ _ D) as HL. unfold erase. st.
    rewrite !(dist1_ix _ _ _ _ _ _ D) by lia. rewrite (d_sz _ _ _ _ _ D).
    destruct (Nat.leb_spec p (List.length l)); [|lia]. ass.
    rewrite (pos_eqb_bg _ _ _ _ _ p D ltac:(lia)).
    destruct (Nat.eqb_spec p 0) as [->|N0].
    { destruct l as [|x l]; [cbn in Hp; lia|]. destruct (destroy_front_ok triv R d o l x D) as (d1 & E1 & D1). run1 E1.
      exists d1, (bg d1), (inc R o). conj; auto. rewrite (d_bg _ _ _ _ _ D1). symmetry. apply ix0. eapply dr_o; eauto. }
    rewrite (d_en _ _ _ _ _ D). rewrite minus_ix by lia. rewrite ix_eqb by lia.
    destruct (Nat.eqb_spec p (List.length l - 1)) as [N1|N1].
    { destruct (rep_destroy_back triv R 1 d o l D ltac:(lia)) as (d1 & E1 & D1). cbn [rep] in E1.
      assert (E1' : destroy_back triv R d = Ok d1 tt).
      { unfold cbind, ret in E1. destruct (destroy_back triv R d) as [? []| |]; congruence. }
      run1 E1'. exists d1, (en d1), o. conj; auto.
      - unfold del. rewrite N1 at 2. replace (List.length l - 1 + 1) with (List.length l) by lia.
        rewrite skipn_all, app_nil_r, N1. exact D1.
      - rewrite (d_en _ _ _ _ _ D1), firstn_length. f_equal; lia. }
    assert (Ebg : bg d = ix o 0) by (rewrite (d_bg _ _ _ _ _ D), ix0; auto).
    rewrite Ebg. rewrite (dist_ix _ _ _ _ _ _ _ D) by lia. rewrite plus_ix by lia. rewrite inc_ix by auto.
    destruct (_ <? _).
    - destruct (moves_back_ok triv mv smv R d o l 0 p (p + 1) D) as (d1 & E1 & D1); [lia..|]. cbn [Nat.add] in E1, D1. run1 E1.
      destruct (rep_destroy_front triv R 1 d1 o _ D1) as (d2 & o2 & E2 & D2 & H2); [lens; lia|]. cbn [rep] in E2.
      assert (E2' : destroy_front triv R d1 = Ok d2 tt).
      { unfold cbind, ret in E2. destruct (destroy_front triv R d1) as [? []| |]; congruence. }
      run1 E2'. eexists _, _, o2. conj; [reflexivity| |].
      + rewrite <- (del_left l p (p + 1)) by lia. replace (p + 1 - p) with 1 by lia. exact D2.
      + rewrite H2. f_equal; lia.
    - pose proof (moves_ok triv mv smv R d o l (p + 1) (List.length l - (p + 1)) p D) as HM.
      destruct HM as (d1 & E1 & D1); [lia..|].
      replace (p + 1 + (List.length l - (p + 1))) with (List.length l) in E1 by lia. run1 E1.
      destruct (rep_destroy_back triv R 1 d1 o _ D1) as (d2 & E2 & D2); [lens; lia|]. cbn [rep] in E2.
      assert (E2' : destroy_back triv R d1 = Ok d2 tt).
      { unfold cbind, ret in E2. destruct (destroy_back triv R d1) as [? []| |]; congruence. }
      run1 E2'. rewrite lmove_len in D2.
      eexists _, _, o. conj; [reflexivity| |reflexivity].
      rewrite <- (del_right l p (p + 1)) by lia. replace (p + 1 - p) with 1 by lia. exact D2.
  Qed.

  (** *** element access *)
  Lemma walk_ok k : forall fuel d o l i, dr d o l -> i + k = List.length l -> k <= fuel ->
    walk R fuel (db d) (ix o i) (ix o (i + k)) = V (skipn i l).
  Proof.
    induction k; intros fuel d o l i D Hi Hf; pose proof (dr_o _ _ _ _ _ D) as Ho; pose proof (d_lt _ _ _ _ _ D).
    - rewrite Nat.add_0_r in *. rewrite Hi, skipn_all. destruct fuel; cbn [walk]; now rewrite Nat.eqb_refl.
    - destruct fuel as [|fuel]; [lia|]. cbn [walk]. rewrite ix_eqb by lia. destruct (Nat.eqb_spec i (i + S k)); [lia|].
      destruct (nth_error l i) as [x|] eqn:Ex; [|apply nth_error_None in Ex; lia].
      rewrite (dr_get _ _ _ _ _ _ _ D Ex). cbn [bind]. rewrite inc_ix by auto.
      replace (i + S k) with (S i + k) by lia. rewrite (IHk fuel d o l (S i)) by (auto; lia). cbn [bind].
      now rewrite (skipn_nth _ _ _ Ex).
  Qed.
  Lemma rwalk_ok k : forall fuel d o l, dr d o l -> k <= List.length l -> k <= fuel ->
    rwalk R fuel (db d) (ix o k) (ix o 0) = V (rev (firstn k l)).
  Proof.
    induction k; intros fuel d o l D Hk Hf; pose proof (dr_o _ _ _ _ _ D) as Ho; pose proof (d_lt _ _ _ _ _ D).
    - destruct fuel; cbn [rwalk]; now rewrite Nat.eqb_refl.
    - destruct fuel as [|fuel]; [lia|]. cbn [rwalk]. rewrite ix_eqb by lia. destruct (Nat.eqb_spec (S k) 0); [lia|].
      rewrite dec_ix by lia. replace (S k - 1) with k by lia.
      destruct (nth_error l k) as [x|] eqn:Ex; [|apply nth_error_None in Ex; lia].
      rewrite (dr_get _ _ _ _ _ _ _ D Ex). cbn [bind]. rewrite (IHk fuel d o l) by (auto; lia). cbn [bind].
      rewrite (firstn_S_nth _ _ _ Ex), rev_app_distr. reflexivity.
  Qed.
  Lemma push_back_ok d o l x : dr d o l -> S (List.length l) < R ->
    exists d', push_back triv chk R (Val x) d = Ok d' tt /\ dr d' o (l ++ [x]).
  Proof.
    intros D HL. destruct (create_back_ok triv R d o l (Val x) x D eq_refl HL) as (d1 & E1 & D1). exists d1. conj; auto.
    unfold push_back. st. rewrite (full_eq _ _ _ _ _ D).
    destruct (Nat.eqb_spec (List.length l) (R - 1)); [lia|]. cbn [negb]. rewrite orb_true_r. ass. exact E1.
  Qed.
  Lemma push_back_full d o l x : dr d o l -> chk = true -> List.length l = R - 1 ->
    push_back triv chk R (Val x) d = Ex d "deque_full".
  Proof.
    intros D HC HL. unfold push_back. st. rewrite (full_eq _ _ _ _ _ D), HC, HL, Nat.eqb_refl. reflexivity.
  Qed.
  Lemma each_push_back xs : forall d o l, dr d o l ->
    (chk = true \/ List.length l + List.length xs < R) ->
    if List.length l + List.length xs <? R
    then exists d', each xs (fun x => push_back triv chk R (Val x)) d = Ok d' tt /\ dr d' o (l ++ xs)
    else exists d', each xs (fun x => push_back triv chk R (Val x)) d = Ex d' "deque_full" /\ dr d' o (l ++ firstn (R - 1 - List.length l) xs).
  Proof.
    induction xs as [|x xs IH]; intros d o l D HC; pose proof (d_lt _ _ _ _ _ D) as HL; cbn [each List.length] in *.
    - destruct (Nat.ltb_spec (List.length l + 0) R); [|lia]. exists d. rewrite app_nil_r. conj; auto.
    - destruct (Nat.eq_dec (List.length l) (R - 1)) as [Ef|Ef].
      + destruct HC as [HC|HC]; [|lia]. destruct (Nat.ltb_spec (List.length l + S (List.length xs)) R); [lia|].
        exists d. unfold cbind at 1. rewrite (push_back_full _ _ _ _ D HC Ef). conj; auto.
        replace (R - 1 - List.length l) with 0 by lia. cbn [firstn]. now rewrite app_nil_r.
      + destruct (push_back_ok _ _ _ x D ltac:(lia)) as (d1 & E1 & D1). run1 E1.
        specialize (IH d1 o _ D1). rewrite app_length in IH. cbn [List.length] in IH.
        replace (List.length l + 1 + List.length xs) with (List.length l + S (List.length xs)) in IH by lia.
        specialize (IH HC).
        destruct (Nat.ltb_spec (List.length l + S (List.length xs)) R); destruct IH as (d2 & E2 & D2).
        * exists d2. rewrite <- app_assoc in D2. conj; auto.
        * exists d2. rewrite <- app_assoc in D2. conj; auto.
          replace (R - 1 - List.length l) with (S (R - 1 - (List.length l + 1))) by lia. exact D2.
  Qed.

  (** *** one step *)
  Definition rel (x : obs (dres T)) l' (r : Out (dq T) (dres T)) : Prop :=
    match r with
    | Ok d' v => x = Returned v /\ exists o', dr d' o' l'
    | Ex d' e => x = Threw e /\ exists o', dr d' o' l'
    | Bad => False
    end.
  Lemma at_pos_ok d o l p c l' : dr d o l -> p <= List.length l ->
    (exists p', p' <= List.length l' /\ p' = p) -> gives d (c (ix o p) d) p l' -> rel (Returned (RPos p)) l' (at_pos R p c d).
  Proof.
    intros D Hp (p' & Hp' & ->) (d' & i & o' & E & D' & Hi). unfold at_pos. st.
    pose proof (dr_o _ _ _ _ _ D) as Ho. pose proof (d_lt _ _ _ _ _ D).
    pose proof (dr_o _ _ _ _ _ D') as Ho'. pose proof (d_lt _ _ _ _ _ D').
    replace (plus R (bg d) p) with (ix o p).
    - run1 E. st. unfold ret, rel. split; [|eauto]. f_equal. f_equal.
      rewrite (d_bg _ _ _ _ _ D'). rewrite Hi. rewrite <- (ix0 R o' Ho') at 1.
      rewrite (dist_ix _ _ _ _ _ _ _ D') by lia. lia.
    - rewrite (d_bg _ _ _ _ _ D). rewrite <- (ix0 R o Ho) at 2. rewrite plus_ix by lia. f_equal; lia.
  Qed.
  Lemma unit_ok (c : Cmd (dq T) unit) d d' o' l' : c d = Ok d' tt -> dr d' o' l' -> rel (Returned RUnit) l' (unit_ c d).
  Proof. intros E D. unfold unit_. run1 E. unfold ret, rel. eauto. Qed.
  Lemma unit_ex (c : Cmd (dq T) unit) d d' e o' l' : c d = Ex d' e -> dr d' o' l' -> rel (Threw e) l' (unit_ c d).
  Proof. intros E D. unfold unit_, cbind. rewrite E. unfold rel. eauto. Qed.

  Theorem exec_ok d o l op : dr d o l -> allowed (R - 1) SZ chk quiet op l ->
    rel (fst (spec (R - 1) op l)) (snd (spec (R - 1) op l)) (exec triv chk mv smv SZ R op d).
  Proof.
    intros D A. pose proof (dr_o _ _ _ _ _ D) as Ho. pose proof (d_lt _ _ _ _ _ D) as HL. pose proof (d_sz _ _ _ _ _ D) as Hs.
    destruct op; cbn [spec exec allowed] in *; unfold fits; autorewrite with dql; cbn [List.length].
    - (* PushBack *) destruct (Nat.leb_spec (List.length l + 1) (R - 1)); cbn [fst snd].
      + destruct (create_back_ok triv R d o l (Val x) x D eq_refl ltac:(lia)) as (d1 & E1 & D1).
        eapply unit_ok; [|exact D1]. unfold push_back. st. rewrite (full_eq _ _ _ _ _ D).
        destruct (Nat.eqb_spec (List.length l) (R - 1)); [lia|]. cbn [negb]. rewrite orb_true_r. ass. exact E1.
      + eapply unit_ex; [|exact D]. unfold push_back. st. rewrite (full_eq _ _ _ _ _ D).
        destruct (Nat.eqb_spec (List.length l) (R - 1)); [|lia]. destruct A as [->|A]; [reflexivity|lia].
    - (* PushFront *) destruct (Nat.leb_spec (S (List.length l)) (R - 1)); cbn [fst snd].
      + destruct (create_front_ok triv R d o l (Val x) x D eq_refl ltac:(lia)) as (d1 & E1 & D1).
        eapply unit_ok; [|exact D1]. unfold push_front. st. rewrite (full_eq _ _ _ _ _ D).
        destruct (Nat.eqb_spec (List.length l) (R - 1)); [lia|]. cbn [negb]. rewrite orb_true_r. ass. exact E1.
      + eapply unit_ex; [|exact D]. unfold push_front. st. rewrite (full_eq _ _ _ _ _ D).
        destruct (Nat.eqb_spec (List.length l) (R - 1)); [|lia]. destruct A as [->|A]; [reflexivity|lia].
    - (* PopBack *) destruct l as [|y l'] eqn:El.
      + cbn [fst snd]. eapply unit_ex; [|exact D]. unfold pop_back. st. rewrite (empty_eq _ _ _ _ _ D). cbn [List.length Nat.eqb].
        destruct A as [->|A]; [reflexivity|congruence].
      + rewrite <- El in *. cbn [fst snd].
        destruct (exists_last (l := l)) as (l1 & z & El1); [rewrite El; discriminate|]. rewrite El1 in D |- *.
        destruct (destroy_back_ok triv R d o l1 z D) as (d1 & E1 & D1). rewrite removelast_last.
        eapply unit_ok; [|exact D1]. unfold pop_back. st. rewrite (empty_eq _ _ _ _ _ D).
        rewrite app_length. cbn [List.length]. destruct (Nat.eqb_spec (List.length l1 + 1) 0); [lia|]. cbn [negb]. rewrite orb_true_r. ass. exact E1.
    - (* PopFront *) destruct l as [|y l'].
      + cbn [fst snd]. eapply unit_ex; [|exact D]. unfold pop_front. st. rewrite (empty_eq _ _ _ _ _ D). cbn [List.length Nat.eqb].
        destruct A as [->|A]; [reflexivity|congruence].
      + cbn [fst snd tl]. destruct (destroy_front_ok triv R d o l' y D) as (d1 & E1 & D1).
        eapply unit_ok; [|exact D1]. unfold pop_front. st. rewrite (empty_eq _ _ _ _ _ D).
        cbn [List.length Nat.eqb negb]. rewrite orb_true_r. ass. exact E1.
    - (* Insert *) destruct (Nat.leb_spec (List.length l + 1) (R - 1)); cbn [fst snd].
      + apply (at_pos_ok d o l p (fun i => insert triv mv smv R i (Val x)) _ D A); [exists p; rewrite ins_length; cbn; lia|]. apply insert_ok; auto. lia.
      + unfold at_pos. st. unfold insert, cbind, state, assert_. rewrite (full_eq _ _ _ _ _ D).
        destruct (Nat.eqb_spec (List.length l) (R - 1)); [|lia]. cbn [negb]. unfold rel. eauto.
    - (* Emplace *) destruct (Nat.leb_spec (List.length l + 1) (R - 1)); cbn [fst snd].
      + apply (at_pos_ok d o l p (fun i => emplace triv mv smv R i x) _ D A); [exists p; rewrite ins_length; cbn; lia|]. apply emplace_ok; auto. lia.
      + unfold at_pos. st. unfold emplace, cbind, state, assert_. rewrite (full_eq _ _ _ _ _ D).
        destruct (Nat.eqb_spec (List.length l) (R - 1)); [|lia]. cbn [negb]. unfold rel. eauto.
    - (* InsertN *) destruct A as (A & Az & Aq). destruct (Nat.leb_spec (List.length l + n) (R - 1)); cbn [fst snd].
      + apply (at_pos_ok d o l p (fun i => insert_n triv mv smv SZ R i n (Val x)) _ D A); [exists p; rewrite ins_length; lia|]. apply insert_n_ok; auto. lia.
      + unfold at_pos. st. unfold insert_n, cbind, state, assert_. rewrite Hs, Nat.mod_small by lia. unfold cap.
        destruct (Nat.leb_spec (List.length l + n) (R - 1)); [lia|]. unfold rel. eauto.
    - (* InsertRange *) destruct A as (A & Aq). destruct (Nat.leb_spec (List.length l + List.length xs) (R - 1)); cbn [fst snd].
      + apply (at_pos_ok d o l p (fun i => insert_range triv mv smv R i xs) _ D A); [exists p; rewrite ins_length; lia|]. apply insert_range_ok; auto. lia.
      + unfold at_pos. st. unfold insert_range, cbind, state, assert_. rewrite Hs. unfold cap.
        destruct (Nat.leb_spec (List.length l + List.length xs) (R - 1)); [lia|]. unfold rel. eauto.
    - (* Erase *) cbn [fst snd]. apply (at_pos_ok d o l p (erase triv mv smv R) _ D ltac:(lia)); [exists p; rewrite del_length by lia; lia|].
      now apply erase_ok.
    - (* EraseRange *) destruct A as (A & Aq). cbn [fst snd]. st.
      apply (at_pos_ok d o l p (fun i => erase_range triv mv smv R i (plus R (bg d) q)) _ D ltac:(lia)); [exists p; rewrite del_length by lia; lia|].
      replace (plus R (bg d) q) with (ix o q); [apply erase_range_ok; auto; lia|].
      rewrite (d_bg _ _ _ _ _ D). rewrite <- (ix0 R o Ho) at 2. rewrite plus_ix by lia. f_equal; lia.
    - (* Resize *) destruct (Nat.leb_spec (Nat.min n (List.length l) + (n - List.length l)) (R - 1)); cbn [fst snd].
      + assert (Hn : n <= R - 1) by lia.
        destruct (Nat.lt_ge_cases n (List.length l)).
        * destruct (rep_destroy_back triv R (List.length l - n) d o l D ltac:(lia)) as (d1 & E1 & D1).
          replace (List.length l - (List.length l - n)) with n in D1 by lia.
          replace (n - List.length l) with 0 by lia. cbn [repeat]. rewrite app_nil_r.
          eapply unit_ok; [|exact D1]. unfold resize. st. rewrite Hs. unfold cap.
          destruct (Nat.leb_spec n (R - 1)); [|lia]. ass. destruct (Nat.ltb_spec n (List.length l)); [|lia]. exact E1.
        * destruct (rep_create_back triv R (n - List.length l) d o l x D ltac:(lia)) as (d1 & E1 & D1).
          rewrite firstn_all2 by lia. eapply unit_ok; [|exact D1]. unfold resize. st. rewrite Hs. unfold cap.
          destruct (Nat.leb_spec n (R - 1)); [|lia]. ass. destruct (Nat.ltb_spec n (List.length l)); [lia|]. exact E1.
      + eapply unit_ex; [|exact D]. unfold resize. st. unfold cap.
        destruct (Nat.leb_spec n (R - 1)); [lia|]. reflexivity.
    - (* AssignN *) destruct (Nat.leb_spec n (R - 1)); cbn [fst snd].
      + destruct (initialise_ok triv R d o l D) as (d1 & E1 & D1).
        destruct (rep_create_back triv R n d1 0 [] x D1 ltac:(cbn; lia)) as (d2 & E2 & D2).
        eapply unit_ok; [|exact D2]. unfold assign_n. unfold cap. destruct (Nat.leb_spec n (R - 1)); [|lia]. ass. run1 E1. exact E2.
      + eapply unit_ex; [|exact D]. unfold assign_n, cap. destruct (Nat.leb_spec n (R - 1)); [lia|]. reflexivity.
    - (* AssignRange *) destruct (initialise_ok triv R d o l D) as (d1 & E1 & D1).
      pose proof (each_push_back xs d1 0 [] D1) as HE. cbn [List.length Nat.add app] in HE. rewrite Nat.sub_0_r in HE.
      destruct (Nat.leb_spec (List.length xs) (R - 1)); cbn [fst snd].
      + destruct (Nat.ltb_spec (List.length xs) R); [|lia]. destruct HE as (d2 & E2 & D2); [right; lia|].
        eapply unit_ok; [|exact D2]. unfold assign_range. run1 E1. exact E2.
      + destruct (Nat.ltb_spec (List.length xs) R); [lia|]. destruct HE as (d2 & E2 & D2); [destruct A; [auto|lia]|].
        eapply unit_ex; [|exact D2]. unfold assign_range. run1 E1. exact E2.
    - (* Fill *) cbn [fst snd].
      destruct (fill_loop_ok triv R (List.length l) R d o l 0 x D eq_refl ltac:(lia)) as (d1 & E1 & D1).
      cbn [Nat.add] in E1. rewrite ix0 in E1 by auto.
      replace (map (fun _ => x) l) with (lcopy (repeat x (List.length l)) l 0).
      + eapply unit_ok; [|exact D1]. unfold fill. st. rewrite (d_bg _ _ _ _ _ D), (d_en _ _ _ _ _ D). exact E1.
      + apply ext_lt; [lens; lia|]. intros t Ht. lensin Ht. rewrite nth_lcopy by (lens; lia). lens.
        rewrite nth_error_map, nth_error_repeat_if. destruct (nth_error l t) eqn:E; [|apply nth_error_None in E; lia].
        cmp; cbn [andb option_map]; try lia; reflexivity.
    - (* Clear *) cbn [fst snd]. destruct (initialise_ok triv R d o l D) as (d1 & E1 & D1). eapply unit_ok; eauto.
    - (* At *) unfold at_. unfold cbind at 1. unfold cbind at 1. unfold state. rewrite Hs. unfold assert_.
      destruct (nth_error l i) as [x|] eqn:Ei; cbn [fst snd].
      + pose proof (nth_error_lt _ _ _ Ei). destruct (Nat.ltb_spec i (List.length l)); [|lia]. unfold cbind.
        rewrite (d_bg _ _ _ _ _ D). rewrite <- (ix0 R o Ho) at 1. rewrite plus_ix by lia. cbn [Nat.add].
        rewrite (dr_get _ _ _ _ _ _ _ D Ei). unfold lift, ret, rel. eauto.
      + apply nth_error_None in Ei. destruct (Nat.ltb_spec i (List.length l)); [lia|]. unfold cbind, rel. eauto.
    - (* Index *) unfold index. unfold cbind, state.
      destruct (nth_error l i) as [x|] eqn:Ei; cbn [fst snd].
      + rewrite (d_bg _ _ _ _ _ D). rewrite <- (ix0 R o Ho) at 1. rewrite plus_ix by lia. cbn [Nat.add].
        rewrite (dr_get _ _ _ _ _ _ _ D Ei). unfold lift, ret, rel. eauto.
      + apply nth_error_None in Ei. lia.
    - (* Front *) destruct l as [|x l]; [congruence|]. cbn [fst snd]. unfold front, cbind, state.
      rewrite (d_bg _ _ _ _ _ D). rewrite <- (ix0 R o Ho) at 1. rewrite (dr_get triv R d o (x :: l) 0 x D eq_refl). unfold lift, ret, rel. eauto.
    - (* Back *) destruct (exists_last A) as (l1 & z & El1). rewrite El1 in D |- *. rewrite rev_app_distr. cbn [rev app fst snd].
      unfold back, cbind, state. rewrite (d_en _ _ _ _ _ D). rewrite minus_ix by (rewrite ?app_length; cbn [List.length]; lia).
      rewrite app_length. cbn [List.length]. replace (List.length l1 + 1 - 1) with (List.length l1) by lia.
      rewrite (dr_get triv R d o (l1 ++ [z]) (List.length l1) z D).
      + unfold lift, ret, rel. eauto.
      + rewrite nth_error_app2, Nat.sub_diag by lia. reflexivity.
    - (* Iterate *) cbn [fst snd]. unfold iterate, cbind, state. rewrite (d_bg _ _ _ _ _ D), (d_en _ _ _ _ _ D).
      rewrite <- (ix0 R o Ho) at 1. pose proof (walk_ok (List.length l) R d o l 0 D eq_refl ltac:(lia)) as EW. cbn [Nat.add skipn] in EW. rewrite EW. unfold lift, ret, rel. eauto.
    - (* ReverseIterate *) cbn [fst snd]. unfold riterate, cbind, state. rewrite (d_bg _ _ _ _ _ D), (d_en _ _ _ _ _ D).
      rewrite <- (ix0 R o Ho) at 2. rewrite (rwalk_ok (List.length l) R d o l D ltac:(lia) ltac:(lia)). rewrite firstn_all.
      unfold lift, ret, rel. eauto.
    - cbn [fst snd]. unfold cbind, state, ret, rel, size. rewrite Hs. eauto.
    - cbn [fst snd]. unfold cbind, state, ret, rel, available, cap. rewrite Hs. eauto.
    - cbn [fst snd]. unfold cbind, state, ret, rel. rewrite (empty_eq _ _ _ _ _ D). eauto.
    - cbn [fst snd]. unfold cbind, state, ret, rel. rewrite (full_eq _ _ _ _ _ D). eauto.
  Qed.
End P.
