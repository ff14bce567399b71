From Coq Require Import List Arith Lia Bool String.
From Verif Require Import Util Slots Cmd QueueModel QueueSpec.
Import ListNotations.

Lemma wrap_next R i : i < R -> (if Nat.eqb (S i) R then 0 else S i) = (i + 1) mod R.
Proof.
  intros H. destruct (Nat.eqb_spec (S i) R) as [E|E].
  - replace (i + 1) with (0 + 1 * R) by lia. rewrite Nat.mod_add by lia. symmetry; apply Nat.mod_small; lia.
  - rewrite Nat.mod_small by lia. lia.
Qed.
Lemma wrap_prev R o n : o < R -> 0 < n -> n <= R ->
  (if Nat.eqb ((o + n) mod R) 0 then R - 1 else (o + n) mod R - 1) = (o + (n - 1)) mod R.
Proof.
  intros Ho Hn Hr. destruct (Nat.eq_dec n R) as [->|Hne].
  - assert (E : (o + R) mod R = o).
    { replace (o + R) with (o + 1 * R) by lia. rewrite Nat.mod_add by lia. apply Nat.mod_small; lia. }
    rewrite E. rewrite mod_in by lia. destruct (Nat.eqb_spec o 0), (Nat.ltb_spec (o + (R - 1)) R); lia.
  - rewrite !mod_in by lia.
    destruct (Nat.ltb_spec (o + n) R), (Nat.ltb_spec (o + (n - 1)) R); try lia;
    match goal with |- context [Nat.eqb ?a 0] => destruct (Nat.eqb_spec a 0) end; lia.
Qed.
Lemma rev_cons_last {A} (l : list A) x r : rev l = x :: r -> l = rev r ++ [x].
Proof. intros H. rewrite <- (rev_involutive l), H. reflexivity. Qed.

Section P.
  Variable T : Type.
  Variables triv check : bool.
  Variable cap : nat.
  Hypothesis Hcap : 1 <= cap.

  Record rep (q : queue T) (l : list T) : Prop := {
    q_ring : ring triv cap (p_buffer q) (qout q) l;
    q_cap : CAPACITY q = cap;
    q_cur : current_size q = List.length l;
    q_in : qin q = (qout q + List.length l) mod cap }.

  Lemma rep_make : rep (make cap) [].
  Proof.
    constructor; cbn; auto.
    - apply ring_raw. lia.
    - symmetry. apply Nat.mod_small. lia.
  Qed.

  Lemma mod_shift o n : 0 < cap -> ((o + 1) mod cap + n) mod cap = (o + S n) mod cap.
  Proof. intros. rewrite Nat.add_mod_idemp_l by lia. f_equal. lia. Qed.

  Lemma push_ok q l x : rep q l -> List.length l < cap ->
    exists q', push T triv check x q = Ok q' tt /\ rep q' (l ++ [x]).
  Proof.
    intros [R1 R2 R3 R4] Hl. unfold push, cbind, state.
    assert (E : (if check then assert_ (negb (full T q)) "queue_full" else ret tt) q = Ok q tt).
    { destruct check; [|reflexivity]. unfold assert_, full. rewrite R3, R2.
      destruct (Nat.eqb_spec (List.length l) cap); [lia|reflexivity]. }
    rewrite E. rewrite R4.
    destruct (ring_push triv cap _ _ l x R1 Hl) as (b' & Eb & Rb). unfold lift. rewrite Eb.
    unfold set. eexists. split; [reflexivity|].
    pose proof (r_o _ _ _ _ _ R1) as Ho.
    constructor; cbn -[Nat.eqb]; rewrite ?app_length; cbn -[Nat.eqb]; auto; try lia.
    rewrite R4, R2. rewrite wrap_next by (apply mod_lt; auto).
    rewrite Nat.add_mod_idemp_l by lia. f_equal. lia.
  Qed.

  Lemma push_full q l x : rep q l -> List.length l = cap ->
    push T triv true x q = Ex q "queue_full".
  Proof.
    intros [R1 R2 R3 R4] Hl. unfold push, cbind, state, assert_, full. rewrite R3, R2, Hl, Nat.eqb_refl. reflexivity.
  Qed.

  Lemma del_ok q x l : rep q (x :: l) ->
    get (p_buffer q) (qout q) = V x /\
    exists b', destroy triv (p_buffer q) (qout q) = V b' /\ rep (del_out T (set_buffer T q b')) l.
  Proof.
    intros [R1 R2 R3 R4]. destruct (ring_pop triv cap _ _ _ _ R1) as (Eg & b' & Eb & Rb).
    split; [exact Eg|]. exists b'. split; [exact Eb|].
    pose proof (r_o _ _ _ _ _ R1) as Ho.
    constructor; cbn [del_out set_buffer qin qout current_size CAPACITY p_buffer]; auto.
    - rewrite R2, wrap_next by auto. exact Rb.
    - rewrite R3. cbn. lia.
    - rewrite R2, wrap_next, mod_shift by lia. rewrite R4. reflexivity.
  Qed.

  Lemma pop_ok q x l : rep q (x :: l) -> exists q', pop T triv check q = Ok q' tt /\ rep q' l.
  Proof.
    intros R. destruct (del_ok q x l R) as (_ & b' & Eb & R'). unfold pop, cbind, state.
    assert (E : (if check then assert_ (negb (empty T q)) "queue_empty" else ret tt) q = Ok q tt).
    { destruct check; [|reflexivity]. unfold assert_, empty. rewrite (q_cur _ _ R). reflexivity. }
    rewrite E. unfold lift, set. rewrite Eb. eauto.
  Qed.

  Lemma front_ok q x l : rep q (x :: l) -> front T q = Ok q x.
  Proof. intros R. destruct (del_ok q x l R) as (Eg & _). unfold front, cbind, state, lift. now rewrite Eg. Qed.

  Lemma back_ok q x l : rep q (l ++ [x]) -> back T q = Ok q x.
  Proof.
    intros [R1 R2 R3 R4]. unfold back, cbind, state, lift.
    pose proof (r_o _ _ _ _ _ R1) as Ho. pose proof (r_cap _ _ _ _ _ R1) as Hc.
    rewrite app_length in *. cbn in *. rewrite R2, R4, wrap_prev by lia.
    destruct (ring_pop_back triv cap _ _ _ _ R1) as (Eg & _).
    replace (List.length l + 1 - 1) with (List.length l) by lia. now rewrite Eg.
  Qed.

  Lemma clear_loop_ok : forall l q, rep q l -> exists q', clear_loop T triv (List.length l) q = Ok q' tt /\ rep q' [].
  Proof.
    induction l as [|x l IH]; intros q R; cbn [List.length clear_loop].
    - exists q. split; [reflexivity|exact R].
    - destruct (del_ok q x l R) as (_ & b' & Eb & R'). unfold cbind, state, lift. rewrite Eb. cbn [set].
      destruct (IH _ R') as (q' & Eq & R2). unfold set. exists q'. split; [exact Eq|exact R2].
  Qed.

  Lemma clear_ok q l : rep q l -> exists q', clear T triv q = Ok q' tt /\ rep q' [].
  Proof.
    intros R. pose proof R as [R1 R2 R3 R4]. unfold clear, cbind, state. destruct triv eqn:Et.
    - unfold set, index_clear. eexists. split; [reflexivity|]. rewrite <- Et in *.
      constructor; cbn; auto. 
      + constructor; cbn; try lia. apply (r_len _ _ _ _ _ R1).
        * intros []; discriminate.
        * congruence.
      + symmetry. apply Nat.mod_small; lia.
    - rewrite R3. rewrite <- Et in *. destruct (clear_loop_ok l q R) as (q' & E & R'). rewrite E.
      unfold modify. eexists. split; [reflexivity|]. destruct R' as [S1 S2 S3 S4].
      constructor; cbn; auto.
      + destruct S1 as [A1 A2 A3 A4 A5]. constructor; cbn; try lia; auto.
        * intros [] y; discriminate.
        * intros Ht k Hk. destruct (mod_surj cap (qout q') k A2 ltac:(lia)) as (j & Hj & Ej).
          rewrite Nat.mod_small by lia. rewrite <- Ej. apply A5; auto. cbn. lia.
      + symmetry. apply Nat.mod_small; lia.
  Qed.

  Lemma step_refines o q l x l' : rep q l -> fifo_spec cap check o l = Some (x, l') ->
    match exec T triv check o q with
    | Ok q' r => x = Returned r /\ rep q' l'
    | Ex q' e => x = Threw e /\ rep q' l'
    | Bad => False
    end.
  Proof.
    intros R Hs. pose proof (q_cur _ _ R) as Hcur. pose proof (q_cap _ _ R) as Hcp.
    pose proof (r_cap _ _ _ _ _ (q_ring _ _ R)) as Hle.
    destruct o; cbn [fifo_spec exec] in *; unfold cbind.
    - destruct (Nat.ltb_spec (List.length l) cap).
      + injection Hs as <- <-. destruct (push_ok q l x0 R H) as (q' & -> & R'). cbn. auto.
      + destruct check eqn:Ec; [|discriminate]. injection Hs as <- <-.
        rewrite (push_full q l x0 R) by lia. cbn. auto.
    - destruct l as [|y l].
      + destruct check eqn:Ec; [|discriminate]. injection Hs as <- <-.
        unfold pop, cbind, state, assert_, empty. rewrite Hcur. cbn. auto.
      + injection Hs as <- <-. destruct (pop_ok q y l R) as (q' & -> & R'). cbn. auto.
    - destruct l as [|y l]; [discriminate|]. injection Hs as <- <-.
      unfold pop_into, cbind. rewrite (front_ok q y l R). destruct (pop_ok q y l R) as (q' & -> & R'). cbn. auto.
    - destruct l as [|y l]; [discriminate|]. injection Hs as <- <-. rewrite (front_ok q y l R). cbn. auto.
    - destruct (rev l) as [|y r] eqn:Er; [discriminate|]. injection Hs as <- <-.
      pose proof R as R0. rewrite (rev_cons_last _ _ _ Er) in R0. rewrite (back_ok _ _ _ R0). cbn. auto.
    - injection Hs as <- <-. destruct (clear_ok q l R) as (q' & -> & R'). cbn. auto.
    - injection Hs as <- <-. cbn. unfold size. rewrite Hcur. auto.
    - injection Hs as <- <-. cbn. unfold empty. rewrite Hcur. auto.
    - injection Hs as <- <-. cbn. unfold full. rewrite Hcur, Hcp. auto.
    - injection Hs as <- <-. cbn. unfold available, size. rewrite Hcur, Hcp. auto.
  Qed.

  Lemma clone_ok : forall l1 l0 other q l2,
    rep other (l0 ++ l1) -> rep q l2 -> List.length l2 + List.length l1 <= cap ->
    exists q', clone_loop T triv check other (List.length l1) ((qout other + List.length l0) mod cap) q = Ok q' tt /\ rep q' (l2 ++ l1).
  Proof.
    induction l1 as [|x l1 IH]; intros l0 other q l2 Ro Rq Hl.
    - cbn. rewrite app_nil_r. exists q. split; [reflexivity|exact Rq].
    - cbn [List.length clone_loop]. unfold cbind, state, lift.
      pose proof (q_ring _ _ Ro) as Rr.
      rewrite (ring_get triv cap _ _ _ (List.length l0) x Rr) by (rewrite nth_error_app2, Nat.sub_diag by lia; reflexivity).
      cbn in Hl. destruct (push_ok q l2 x Rq ltac:(lia)) as (q1 & -> & R1).
      pose proof (r_o _ _ _ _ _ Rr) as Ho.
      assert (En : (if Nat.eqb ((qout other + List.length l0) mod cap) (CAPACITY q - 1) then 0
                    else S ((qout other + List.length l0) mod cap)) = (qout other + List.length (l0 ++ [x])) mod cap).
      { rewrite (q_cap _ _ Rq). rewrite app_length. cbn.
        replace (qout other + (List.length l0 + 1)) with (qout other + List.length l0 + 1) by lia.
        rewrite <- (Nat.add_mod_idemp_l (qout other + List.length l0) 1 cap) by lia. rewrite <- wrap_next by (apply mod_lt; auto).
        pose proof (mod_lt cap (qout other) (List.length l0) Ho).
        match goal with |- (if Nat.eqb ?a ?b then _ else _) = (if Nat.eqb ?c ?d then _ else _) =>
          destruct (Nat.eqb_spec a b), (Nat.eqb_spec c d) end; lia. }
      rewrite En. replace (l2 ++ x :: l1) with ((l2 ++ [x]) ++ l1) by (rewrite <- app_assoc; reflexivity).
      apply IH; auto.
      + rewrite <- app_assoc. exact Ro.
      + rewrite app_length. cbn. lia.
  Qed.

  Lemma assign_ok other l q l2 : rep other l -> rep q l2 ->
    exists q', assign_from T triv check other q = Ok q' tt /\ rep q' l.
  Proof.
    intros Ro Rq. unfold assign_from, cbind. destruct (clear_ok q l2 Rq) as (q1 & -> & R1).
    unfold size. rewrite (q_cur _ _ Ro).
    destruct (clone_ok l [] other q1 [] Ro R1) as (q' & E & R').
    - cbn. apply (r_cap _ _ _ _ _ (q_ring _ _ Ro)).
    - cbn in E. pose proof (r_o _ _ _ _ _ (q_ring _ _ Ro)). rewrite Nat.add_0_r, Nat.mod_small in E by lia. eauto.
  Qed.
End P.
