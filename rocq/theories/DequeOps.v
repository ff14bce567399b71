(** * Each deque operation agrees with the specification *)
From Coq Require Import List Arith Lia Bool String.
From Verif Require Import VecModel.
From Verif Require Import Util Slots Cmd DequeSpec DequeModel DequeProofs.
Import ListNotations.

Global Hint Rewrite @lmove_len @lmove_back_len @lcopy_len @upd_length @ins_length @app_length @repeat_length
  @firstn_length @skipn_length @map_length : dql.

Section P.
  Context {T : Type}.
  Variables (triv chk : bool) (mv smv : T -> T) (SZ R : nat).
  Implicit Types (d : dq T) (l xs : list T).
  Notation ix o k := ((o + k) mod R).
  Notation dr := (dr triv R).
  Notation quiet := (forall x, smv x = x).

  Ltac lens := autorewrite with dql; cbn [List.length].
  Ltac lensin H := autorewrite with dql in H; cbn [List.length] in H.
  Ltac run1 H := rewrite (bind_ok _ _ _ _ _ H).

  Lemma full_eq d o l : dr d o l -> full R d = (List.length l =? R - 1).
  Proof. intros D. unfold full, cap. now rewrite (d_sz _ _ _ _ _ D). Qed.
  Lemma empty_eq d o l : dr d o l -> empty d = (List.length l =? 0).
  Proof. intros D. unfold empty. now rewrite (d_sz _ _ _ _ _ D). Qed.

  (** the part common to insert and emplace: [put1] writes the new element *)
  Lemma ins_left d o l p x (put1 : nat -> Cmd (dq T) unit) :
    dr d o l -> 0 < p < List.length l -> S (List.length l) < R ->
    (forall d o l k, dr d o l -> k < List.length l -> exists d', put1 (ix o k) d = Ok d' tt /\ dr d' o (upd l k x)) ->
    exists d' i o',
      (create_front triv R (Ref (bg d)) ;;
       let! d := state in
       moves mv smv R (plus R (bg d) 1) (ix o p) (bg d) ;;
       put1 (dec R (ix o p)) ;; ret (dec R (ix o p))) d = Ok d' i
      /\ dr d' o' (ins l p [x]) /\ i = ix o' p.
  Proof.
    intros D Hp HL HP. pose proof (dr_o _ _ _ _ _ D) as Ho.
    destruct l as [|x0 l0] eqn:El; [cbn in Hp; lia|]. rewrite <- El in *.
    assert (E0 : nth_error l 0 = Some x0) by now rewrite El.
    assert (Er : rd (db d) (Ref (bg d)) = V x0).
    { rewrite (d_bg _ _ _ _ _ D). rewrite <- (ix0 R o Ho) at 1. eapply dr_rd; eauto. }
    destruct (create_front_ok triv R d o l _ x0 D Er ltac:(lia)) as (d1 & E1 & D1). run1 E1.
    set (o1 := dec R o) in *. assert (Ho1 : o1 < R) by (apply dec_lt; auto).
    rewrite (bind_ok state _ _ _ _ eq_refl). rewrite (d_bg _ _ _ _ _ D1).
    assert (Ep : ix o p = ix o1 (S p)) by (symmetry; apply ix_dec; auto). rewrite Ep.
    assert (Ep2 : plus R o1 1 = ix o1 1) by (rewrite <- (ix0 R o1 Ho1) at 1; rewrite plus_ix; auto; lia).
    rewrite Ep2.
    destruct (moves_ok triv mv smv R d1 o1 _ 1 p 0 D1) as (d2 & E2 & D2); [cbn [List.length]; lia..|].
    rewrite ix0 in E2 by auto. replace (1 + p) with (S p) in E2 by lia. run1 E2.
    rewrite dec_ix by lia. replace (S p - 1) with p by lia.
    destruct (HP d2 o1 _ p D2) as (d3 & E3 & D3); [lens; lia|]. run1 E3.
    exists d3, (ix o1 p), o1. conj; auto.
    match type of D3 with dr _ _ ?a => replace (ins l p [x]) with a; [exact D3|] end.
    apply ext_lt; [lens; lia|]. intros t Ht. lensin Ht.
    rewrite nth_upd_if by (lens; lia). rewrite nth_ins by lia. cbn [List.length].
    destruct (Nat.eqb_spec t p); [subst; rewrite Nat.sub_diag; cmp; try lia; reflexivity|].
    destruct (Nat.ltb_spec t p).
    - rewrite lmove_at by (cbn [List.length]; lia). rewrite nth_cons_if. cmp; try lia; f_equal; lia.
    - rewrite lmove_out by lia. rewrite nth_cons_if. cmp; try lia; f_equal; lia.
  Qed.
  Lemma ins_right d o l p x (put1 : nat -> Cmd (dq T) unit) :
    dr d o l -> 0 < p < List.length l -> S (List.length l) < R ->
    (forall d o l k, dr d o l -> k < List.length l -> exists d', put1 (ix o k) d = Ok d' tt /\ dr d' o (upd l k x)) ->
    exists d' i o',
      (create_back triv R (Ref (minus R (en d) 1)) ;;
       let! d := state in
       moves_back mv smv R (ix o p) (minus R (en d) 2) (minus R (en d) 1) ;;
       put1 (ix o p) ;; ret (ix o p)) d = Ok d' i
      /\ dr d' o' (ins l p [x]) /\ i = ix o' p.
  Proof.
    intros D Hp HL HP. pose proof (dr_o _ _ _ _ _ D) as Ho.
    set (n := List.length l) in *.
    destruct (nth_error l (n - 1)) as [xn|] eqn:En; [|apply nth_error_None in En; lia].
    assert (Er : rd (db d) (Ref (minus R (en d) 1)) = V xn).
    { rewrite (d_en _ _ _ _ _ D). rewrite minus_ix by lia. eapply dr_rd; eauto. }
    destruct (create_back_ok triv R d o l _ xn D Er ltac:(lia)) as (d1 & E1 & D1). run1 E1.
    rewrite (bind_ok state _ _ _ _ eq_refl). rewrite (d_en _ _ _ _ _ D1), app_length. fold n. cbn [List.length].
    rewrite !minus_ix by lia.
    destruct (moves_back_ok triv mv smv R d1 o _ p (n - 1 - p) n D1) as (d2 & E2 & D2); [rewrite ?app_length; fold n; cbn [List.length]; lia..|].
    replace (p + (n - 1 - p)) with (n - 1) in * by lia.
    replace (n + 1 - 2) with (n - 1) by lia. replace (n + 1 - 1) with n by lia. run1 E2.
    destruct (HP d2 o _ p D2) as (d3 & E3 & D3); [lens; lia|]. run1 E3.
    exists d3, (ix o p), o. conj; auto.
    match type of D3 with dr _ _ ?a => replace (ins l p [x]) with a; [exact D3|] end.
    apply ext_lt; [lens; fold n; lia|]. intros t Ht. lensin Ht. fold n in Ht.
    rewrite nth_upd_if by (lens; lia). rewrite nth_ins by lia. cbn [List.length].
    destruct (Nat.eqb_spec t p); [subst; rewrite Nat.sub_diag; cmp; try lia; reflexivity|].
    destruct (Nat.ltb_spec p t).
    - destruct (Nat.lt_ge_cases t n).
      + rewrite lmove_back_at by (lens; fold n; lia). rewrite nth_app_if. fold n. cmp; try lia; f_equal; lia.
      + rewrite lmove_back_out by lia. rewrite nth_app_if. fold n. replace t with n by lia. rewrite Nat.sub_diag.
        cbn [nth_error]. rewrite <- En. cmp; try lia; f_equal; lia.
    - rewrite lmove_back_out by lia. rewrite nth_app_if. fold n. cmp; try lia; f_equal; lia.
  Qed.

  (** the result of a call that returns a position *)
  Definition gives d (r : Out (dq T) nat) p l' : Prop :=
    exists d' i o', r = Ok d' i /\ dr d' o' l' /\ i = ix o' p.

  Lemma front_gives d o l x : dr d o l -> S (List.length l) < R ->
    gives d ((create_front triv R (Val x) ;; let! d := state in ret (bg d)) d) 0 (ins l 0 [x]).
  Proof.
    intros D HL. destruct (create_front_ok triv R d o l (Val x) x D eq_refl HL) as (d1 & E1 & D1).
    run1 E1. exists d1, (bg d1), (dec R o). unfold cbind, state, ret. conj; auto.
    rewrite (d_bg _ _ _ _ _ D1). symmetry. apply ix0. eapply dr_o; eauto.
  Qed.
  Lemma back_gives d o l x : dr d o l -> S (List.length l) < R ->
    gives d ((create_back triv R (Val x) ;; let! d := state in ret (minus R (en d) 1)) d) (List.length l) (ins l (List.length l) [x]).
  Proof.
    intros D HL. destruct (create_back_ok triv R d o l (Val x) x D eq_refl HL) as (d1 & E1 & D1).
    pose proof (dr_o _ _ _ _ _ D). run1 E1. exists d1, (minus R (en d1) 1), o. unfold cbind, state, ret. conj; auto.
    - unfold ins. rewrite firstn_all, skipn_all, app_nil_r. exact D1.
    - rewrite (d_en _ _ _ _ _ D1), app_length. cbn [List.length]. rewrite minus_ix by lia. f_equal; lia.
  Qed.
  Lemma pos_eqb_bg d o l p : dr d o l -> p <= List.length l -> (ix o p =? bg d) = (p =? 0).
  Proof.
    intros D Hp. pose proof (dr_o _ _ _ _ _ D). pose proof (d_lt _ _ _ _ _ D). rewrite (d_bg _ _ _ _ _ D).
    rewrite <- (ix0 R o) at 2 by auto. apply ix_eqb; lia.
  Qed.
  Lemma pos_eqb_en d o l p : dr d o l -> p <= List.length l -> (ix o p =? en d) = (p =? List.length l).
  Proof.
    intros D Hp. pose proof (dr_o _ _ _ _ _ D). pose proof (d_lt _ _ _ _ _ D). rewrite (d_en _ _ _ _ _ D). apply ix_eqb; lia.
  Qed.
  Lemma insert_ok d o l p x : dr d o l -> p <= List.length l -> S (List.length l) < R ->
    gives d (insert triv mv smv R (ix o p) (Val x) d) p (ins l p [x]).
  Proof.
    intros D Hp HL. unfold insert. rewrite (bind_ok state _ _ _ _ eq_refl).
    rewrite (full_eq _ _ _ D). destruct (Nat.eqb_spec (List.length l) (R - 1)); [lia|]. cbn [negb].
    rewrite (bind_ok (assert_ true _) _ _ _ _ eq_refl).
    rewrite (pos_eqb_bg _ _ _ _ D Hp), (pos_eqb_en _ _ _ _ D Hp).
    destruct (Nat.eqb_spec p 0) as [->|N0]; [now apply (front_gives d o)|].
    destruct (Nat.eqb_spec p (List.length l)) as [->|N1]; [now apply (back_gives d o)|].
    destruct (_ <? _).
    - apply (ins_left d o l p x (fun i => assign_at i (Val x))); auto; [lia|].
      intros. now apply (assign_at_ok triv R) .
    - apply (ins_right d o l p x (fun i => assign_at i (Val x))); auto; [lia|].
      intros. now apply (assign_at_ok triv R).
  Qed.
  Lemma emplace_ok d o l p x : dr d o l -> p <= List.length l -> S (List.length l) < R ->
    gives d (emplace triv mv smv R (ix o p) x d) p (ins l p [x]).
  Proof.
    intros D Hp HL. unfold emplace. rewrite (bind_ok state _ _ _ _ eq_refl).
    rewrite (full_eq _ _ _ D). destruct (Nat.eqb_spec (List.length l) (R - 1)); [lia|]. cbn [negb].
    rewrite (bind_ok (assert_ true _) _ _ _ _ eq_refl).
    rewrite (pos_eqb_bg _ _ _ _ D Hp), (pos_eqb_en _ _ _ _ D Hp).
    destruct (Nat.eqb_spec p 0) as [->|N0]; [now apply (front_gives d o)|].
    destruct (Nat.eqb_spec p (List.length l)) as [->|N1]; [now apply (back_gives d o)|].
    destruct (_ <? _).
    - apply (ins_left d o l p x (fun i => renew triv i x)); auto; [lia|].
      intros. now apply (renew_ok triv R).
    - apply (ins_right d o l p x (fun i => renew triv i x)); auto; [lia|].
      intros. now apply (renew_ok triv R).
  Qed.

  (** inserting a block: list level *)
  Lemma block_left l p xs (n := List.length xs) :
    0 < p <= List.length l -> (n = 0 -> quiet) ->
    let k := Nat.min n p in
    lcopy (skipn (n - k) xs) (lmove mv smv (p - k) (firstn k l ++ firstn (n - k) xs ++ l) (n + p - (p - k)) k) (n + p - k)
    = ins l p xs.
  Proof.
    intros Hp Q k. assert (Hk : k <= n /\ k <= p) by (unfold k; lia).
    apply ext_lt; [lens; fold n; lia|]. intros t Ht. lensin Ht. fold n in Ht.
    rewrite nth_lcopy by (lens; fold n; lia). rewrite nth_ins by lia. lens. fold n.
    replace (n - (n - k)) with k by lia.
    destruct ((n + p - k <=? t) && (t <? n + p - k + k)) eqn:Eb.
    - apply andb_true_iff in Eb as [Ea Eb]. apply Nat.leb_le in Ea. apply Nat.ltb_lt in Eb.
      rewrite nth_skipn_add. destruct (Nat.ltb_spec t p); [unfold k in *; lia|].
      destruct (Nat.ltb_spec t (p + n)); [f_equal; lia|lia].
    - apply andb_false_iff in Eb. rewrite Nat.leb_gt, Nat.ltb_ge in Eb.
      destruct (Nat.eq_dec n 0) as [Hn0|Hn].
      + replace k with 0 by lia. rewrite Hn0. cbn [Nat.sub firstn app Nat.add].
        replace (p - (p - 0)) with 0 by lia. rewrite lmove_self by auto.
        assert (Ex : firstn 0 xs = []) by reflexivity.
        cmp; try lia; f_equal; lia.
      + destruct (Nat.lt_ge_cases t k) as [Htk|Htk].
        * rewrite lmove_out by lia. rewrite !nth_app_if, nth_firstn_if. lens.
          cmp; try lia; reflexivity.
        * destruct (Nat.lt_ge_cases t p) as [Htp|Htp].
          -- rewrite lmove_at by (lens; fold n; lia). rewrite !nth_app_if, !nth_firstn_if.
             lens. fold n. cmp; try lia; f_equal; lia.
          -- destruct (Nat.lt_ge_cases t (n + p - k)) as [Ht2|Ht2].
             ++ (* new elements created in front: only when k = p *)
                assert (Hkp : k = p \/ k = n) by (unfold k; lia). destruct Hkp as [Hkp|Hkp]; [|lia].
                replace (p - k) with 0 by lia. cbn [lmove].
                rewrite !nth_app_if, !nth_firstn_if. lens. fold n. cmp; try lia; f_equal; lia.
             ++ rewrite lmove_out by lia. rewrite !nth_app_if, !nth_firstn_if. lens. fold n. cmp; try lia; f_equal; lia.
  Qed.
  Lemma block_right l p xs (n := List.length xs) (m := List.length l - p) :
    p <= List.length l -> (n = 0 -> quiet) ->
    let k := Nat.min n m in
    lcopy (firstn k xs)
      (lmove_back mv smv (m - k)
         ((l ++ skipn k xs) ++ firstn k (skipn (p + (m - k)) (l ++ skipn k xs))) (p + (m - k)) (p + n + (m - k))) p
    = ins l p xs.
  Proof.
    intros Hp Q k. assert (Hk : k <= n /\ k <= m) by (unfold k; lia). unfold m in *.
    apply ext_lt; [lens; fold n; lia|]. intros t Ht. lensin Ht. fold n in Ht.
    rewrite nth_lcopy by (lens; fold n; lia). rewrite nth_ins by lia. lens. fold n.
    replace (Nat.min k n) with k by lia.
    destruct ((p <=? t) && (t <? p + k)) eqn:Eb.
    - apply andb_true_iff in Eb as [Ea Eb]. apply Nat.leb_le in Ea. apply Nat.ltb_lt in Eb.
      rewrite nth_firstn_if. cmp; try lia; f_equal; lia.
    - apply andb_false_iff in Eb. rewrite Nat.leb_gt, Nat.ltb_ge in Eb.
      destruct (Nat.eq_dec n 0) as [Hn0|Hn].
      + replace k with 0 in * by lia. rewrite Hn0. rewrite Nat.add_0_r. rewrite lmove_back_self by auto.
        rewrite !nth_app_if. lens. fold n. cmp; try lia; f_equal; lia.
      + destruct (Nat.lt_ge_cases t p) as [Htp|Htp].
        * rewrite lmove_back_out by lia. rewrite !nth_app_if. lens. fold n. cmp; try lia; reflexivity.
        * destruct (Nat.lt_ge_cases t (p + n)) as [Ht2|Ht2].
          -- assert (Hkp : k = m \/ k = n) by (unfold k; lia). unfold m in Hkp.
             destruct Hkp as [Hkp|Hkp]; [|lia].
             replace (List.length l - p - k) with 0 by lia. cbn [lmove_back].
             rewrite !nth_app_if, nth_skipn_add. lens. fold n. cmp; try lia; f_equal; lia.
          -- destruct (Nat.lt_ge_cases t (p + n + (List.length l - p - k))) as [Ht3|Ht3].
             ++ rewrite lmove_back_at by (lens; fold n; lia). rewrite !nth_app_if. lens. fold n. cmp; try lia; f_equal; lia.
             ++ rewrite lmove_back_out by lia. rewrite !nth_app_if, nth_firstn_if, !nth_skipn_add, nth_app_if. lens. fold n.
                cmp; try lia; f_equal; lia.
  Qed.
End P.
