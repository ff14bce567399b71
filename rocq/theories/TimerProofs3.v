(** * tick() refines the passing of time *)
From Coq Require Import List Arith Lia Bool String ZArith Sorted.
From Verif Require Import Util Slots Cmd TimerModel TimerSpec TimerProofs TimerProofs2.
Import ListNotations.
Local Open Scope Z_scope.

Section Variant.
  Variable msg cb_first : bool.
  Variable callback : nat -> list (nat * nat) -> prog.

  Lemma spec_call_now self k c r c' : spec_call msg self k c = Some (r, c') -> now c' = now c.
  Proof.
    assert (W : forall id f, (forall r0 x, f r0 = Some x -> now (snd x) = now c) -> on_timer self id c f = Some (r, c') -> now c' = now c).
    { intros id f Hf. unfold on_timer. destruct (Nat.eqb id NO_TIMER); [intros E; injection E as <- <-; auto|].
      destruct (nth_error (timers c) id) as [[r0|]|]; [|intros E; injection E as <- <-; auto|discriminate].
      destruct (match self with Some s => (s =? id)%nat | None => false end); [discriminate|]. intros E. apply (Hf _ _ E). }
    destruct k; cbn; try (intros E; injection E as <- <-; reflexivity).
    - destruct (is_u32 p); [|discriminate]. destruct (msg && _); [intros E; injection E as <- <-; reflexivity|].
      destruct (first_free _ _); intros E; injection E as <- <-; reflexivity.
    - apply W. intros r0 x. destruct (msg && _); [discriminate|]. intros E; injection E as <-; reflexivity.
    - apply W. intros r0 x. destruct (r_period r0 =? Inactive); intros E; injection E as <-; reflexivity.
    - apply W. intros r0 x E; injection E as <-; reflexivity.
    - destruct (is_u32 p); [|discriminate]. apply W. intros r0 x E; injection E as <-; reflexivity.
    - apply W. intros r1 x E; injection E as <-; reflexivity.
    - destruct self; [discriminate|]. intros E; injection E as <- <-; reflexivity.
  Qed.
  Lemma spec_prog_now self p : forall c c', spec_prog msg self p c = Some c' -> now c' = now c.
  Proof.
    induction p as [|k f IH]; intros c c' H; cbn in H; [injection H as <-; auto|].
    destruct (spec_call msg self k c) as [[r c1]|] eqn:E; [|discriminate].
    apply spec_call_now in E. rewrite (IH _ _ _ H). exact E.
  Qed.

  (** calls made from the callback of timer i in the callback-first variants leave timer i alone *)
  Lemma spec_call_keeps i k c r c' x : nth_error (timers c) i = Some (Some x) -> ~ In i (ids (pending c)) ->
    spec_call msg (Some i) k c = Some (r, c') ->
    nth_error (timers c') i = Some (Some x) /\ ~ In i (ids (pending c')).
  Proof.
    intros Hi Hn.
    assert (W : forall id f, (forall r0 y, id <> i -> f r0 = Some y -> nth_error (timers (snd y)) i = Some (Some x) /\ ~ In i (ids (pending (snd y)))) ->
       on_timer (Some i) id c f = Some (r, c') -> nth_error (timers c') i = Some (Some x) /\ ~ In i (ids (pending c'))).
    { intros id f Hf. unfold on_timer. destruct (Nat.eqb id NO_TIMER); [intros E; injection E as <- <-; auto|].
      destruct (nth_error (timers c) id) as [[r0|]|]; [|intros E; injection E as <- <-; auto|discriminate].
      destruct (Nat.eqb_spec i id); [discriminate|]. intros E. apply (Hf _ _ ltac:(congruence) E). }
    assert (C : forall id, ~ In i (ids (cancel id (pending c)))) by (intros id E; apply cancel_in in E; tauto).
    destruct k; cbn; try (intros E; injection E as <- <-; cbn; auto).
    - destruct (is_u32 p); [|discriminate]. destruct (msg && _); [intros E; injection E as <- <-; auto|].
      destruct (first_free _ _) as [j|] eqn:Ef; intros E; injection E as <- <-; cbn; auto.
      apply first_free_spec in Ef. rewrite Nat.sub_0_r in Ef. rewrite upd_other by (intros ->; destruct Ef; congruence). auto.
    - apply W. intros r0 y Hne. destruct (msg && _); [discriminate|]. intros E; injection E as <-. cbn.
      rewrite upd_other by auto. auto.
    - apply W. intros r0 y Hne. destruct (r_period r0 =? Inactive); intros E; injection E as <-; cbn; auto.
      split; auto. intros E. apply schedule_ids in E. destruct E as [E|E]; [congruence|]. apply (C _ E).
    - apply W. intros r0 y Hne E; injection E as <-; cbn. auto.
    - destruct (is_u32 p); [|discriminate]. apply W. intros r0 y Hne E; injection E as <-; cbn. rewrite upd_other by auto. auto.
    - apply W. intros r1 y Hne E; injection E as <-; cbn. rewrite upd_other by auto. auto.
    - discriminate.
  Qed.
  Lemma spec_prog_keeps i x p : forall c c', nth_error (timers c) i = Some (Some x) -> ~ In i (ids (pending c)) ->
    spec_prog msg (Some i) p c = Some c' -> nth_error (timers c') i = Some (Some x) /\ ~ In i (ids (pending c')).
  Proof.
    induction p as [|k f IH]; intros c c' H1 H2 H; cbn in H; [injection H as <-; auto|].
    destruct (spec_call msg (Some i) k c) as [[r c1]|] eqn:E; [|discriminate].
    destruct (spec_call_keeps i k c r c1 x H1 H2 E). eauto.
  Qed.

  Lemma invoke_ok s c i t r c' : rep s c -> nth_error (arr s) i = Some t -> nth_error (timers c) i = Some (Some r) ->
    call_back msg cb_first callback i c = Some c' ->
    exists s', invoke msg callback i (cbk t) s = Ok s' tt /\ rep s' c'.
  Proof.
    intros R Ht Hr H. unfold call_back in H. rewrite Hr in H.
    pose proof (p_slot _ _ R _ _ Ht) as S. unfold slot_ok in S. rewrite Hr in S. destruct S as [S _].
    assert (cbk t = r_cb r) as -> by (unfold static in S; congruence).
    unfold invoke. destruct (r_cb r) as [k|].
    - unfold cbind at 1, modify. unfold cbind, state.
      assert (R1 : rep (add_log (i, k) s) (with_fired (i, k) c)).
      { destruct R. split; auto. cbn. congruence. }
      rewrite (p_log _ _ R1). eapply prog_ok; eauto.
    - injection H as <-. exists s. auto.
  Qed.

  Lemma rearm_ok s c d i r c' : rep s c -> now c = d -> nth_error (timers c) i = Some (Some r) -> r_period r <> Inactive ->
    ~ In i (ids (pending c)) -> rearm d i c = Some c' -> exists s', reinsert i s = Ok s' tt /\ rep s' c'.
  Proof.
    intros R Hd Hr Hp Hn H. unfold rearm in H. rewrite Hr in H.
    destruct (rep_rd _ _ _ _ R Hr) as (t & Ht & S). unfold slot_ok in S. rewrite Hr in S. destruct S as (S1 & S2 & S3).
    unfold reinsert. step (rd_ok _ _ _ Ht).
    assert (repeating t = r_repeat r) as -> by (unfold static in S1; congruence).
    destruct (r_repeat r).
    - injection H as <-.
      match goal with |- context [cbind (up i ?F) _ ?S] => rewrite (cbind_ok _ _ _ _ _ (up_ok i F S _ Ht)) end.
      assert (Hpt : period t = r_period r) by (unfold static in S1; congruence). rewrite Hpt.
      assert (T2 : nth_error (arr (set_arr (upd (arr s) i (set_delta (r_period r) t)) s)) i = Some (set_delta (r_period r) t)).
      { cbn. apply upd_same, nth_error_Some. congruence. }
      step (rd_ok _ _ _ T2).
      assert (tid (set_delta (r_period r) t) = i) as -> by (cbn; unfold static in S1; congruence).
      destruct (insert_rep s c i t r (d + r_period r) R Hn Ht Hr Hp ltac:(unfold Inactive in *; lia)) as (s' & E & R').
      replace (d + r_period r - now c) with (r_period r) in E by lia. exists s'. auto.
    - injection H as <-. exists s. auto.
  Qed.

  Lemma rearm_now d i c c' : rearm d i c = Some c' -> now c' = now c /\ timers c' = timers c.
  Proof.
    unfold rearm. destruct (nth_error (timers c) i) as [[r|]|]; try discriminate.
    destruct (r_repeat r); intros E; injection E as <-; auto.
  Qed.
  Lemma call_back_now i c c' : call_back msg cb_first callback i c = Some c' -> now c' = now c.
  Proof.
    unfold call_back. destruct (nth_error (timers c) i) as [[r|]|]; try discriminate.
    destruct (r_cb r); [|intros E; injection E as <-; auto]. intros E. apply spec_prog_now in E. exact E.
  Qed.

  Lemma expire_ok s c d i r c' : rep s c -> now c = d -> nth_error (timers c) i = Some (Some r) -> r_period r <> Inactive ->
    ~ In i (ids (pending c)) -> expire msg cb_first callback d i c = Some c' ->
    now c' = d /\
    exists s', (if cb_first then let! timer := rd i in invoke msg callback i (cbk timer) ;; reinsert i
                else reinsert i ;; let! timer := rd i in invoke msg callback i (cbk timer)) s = Ok s' tt /\ rep s' c'.
  Proof.
    intros R Hd Hr Hp Hn H. unfold expire in H.
    destruct (rep_rd _ _ _ _ R Hr) as (t & Ht & _).
    destruct cb_first eqn:Ecb.
    - destruct (call_back msg true callback i c) as [c1|] eqn:E1; cbn in H; [|discriminate].
      rewrite <- Ecb in E1. pose proof (call_back_now _ _ _ E1) as Hn1.
      destruct (invoke_ok s c i t r c1 R Ht Hr E1) as (s1 & X1 & R1).
      destruct (rearm_now _ _ _ _ H) as [Hn2 _]. split; [congruence|].
      step (rd_ok _ _ _ Ht). step X1.
      assert (K : nth_error (timers c1) i = Some (Some r) /\ ~ In i (ids (pending c1))).
      { unfold call_back in E1. rewrite Hr, Ecb in E1. destruct (r_cb r); [|injection E1 as <-; auto].
        eapply spec_prog_keeps; [| |exact E1]; auto. }
      destruct K as [K1 K2]. apply (rearm_ok s1 c1 d i r); auto. congruence.
    - destruct (rearm d i c) as [c1|] eqn:E1; cbn in H; [|discriminate].
      destruct (rearm_now _ _ _ _ E1) as [Hn1 Ht1].
      destruct (rearm_ok s c d i r c1 R Hd Hr Hp Hn E1) as (s1 & X1 & R1). step X1.
      rewrite <- Ecb in H. pose proof (call_back_now _ _ _ H) as Hn2. split; [congruence|].
      rewrite <- Ht1 in Hr. destruct (rep_rd _ _ _ _ R1 Hr) as (t1 & Ht1' & _). step (rd_ok _ _ _ Ht1').
      eapply invoke_ok; eauto.
  Qed.

  Lemma tick_loop_ok : forall fuel s c target c',
    rep s c -> 0 <= target - now c < 4294967296 ->
    elapse msg cb_first callback fuel target c = Some c' ->
    exists s1 c1, tick_loop msg cb_first callback fuel (target - now c) s = Ok s1 (target - now c1, match pending c1 with [] => false | _ => true end) /\
       rep s1 c1 /\ c' = with_now target c1 /\ now c1 <= target /\ sorted target (pending c1).
  Proof.
    induction fuel as [|f IH]; intros s c target c' R Ht H; cbn in H; [discriminate|].
    cbn [tick_loop]. unfold list_empty. unfold cbind at 1 2. cbn [state]. unfold ret at 1. rewrite (p_head _ _ R).
    destruct (pending c) as [|[d i] rest] eqn:El; cbn [hd_id].
    - injection H as <-. cbn. exists s, c. rewrite El. cbn. conj; auto; try lia. constructor; constructor.
    - destruct (Nat.eqb_spec i NO_TIMER) as [->|]; [exfalso; apply (rep_no _ _ R); rewrite El; left; reflexivity|].
      unfold cbind at 1. cbn [state].
      pose proof (p_seg _ _ R) as Hs. rewrite El in Hs. destruct Hs as [(t & T1 & T2 & _) _].
      rewrite (p_head _ _ R), El. cbn [hd_id]. step (rd_ok _ _ _ T1).
      pose proof (p_sort _ _ R) as So. rewrite El in So. destruct (sorted_mid [] _ _ _ _ So) as [Q1 Q2]. cbn in Q1.
      rewrite T2. destruct (Z.leb_spec d target) as [Hle|Hgt].
      + destruct (Z.leb_spec (d - now c) (target - now c)) as [_|]; [|lia].
        assert (Hin : In i (ids (pending c))) by (rewrite El; left; reflexivity).
        destruct (p_pend _ _ R _ Hin) as (r & Hr & Hp).
        assert (tid t = i) as ->.
        { pose proof (p_slot _ _ R _ _ T1) as S. unfold slot_ok in S. rewrite Hr in S. destruct S as [S _]. unfold static in S. congruence. }
        destruct (expire_rep s c d i rest R El) as (s1 & E1 & R1). step E1.
        destruct (expire msg cb_first callback d i (with_now d (with_pending rest c))) as [c2|] eqn:E2; cbn in H; [|discriminate].
        assert (Hni : ~ In i (ids rest)) by (pose proof (p_nd _ _ R) as N; rewrite El in N; inversion_clear N; auto).
        destruct (expire_ok s1 _ d i r c2 R1 eq_refl Hr Hp Hni E2) as (Hn2 & s2 & X2 & R2). step X2.
        rewrite u32_id by lia. replace (target - now c - (d - now c)) with (target - now c2) by lia.
        apply IH; auto. lia.
      + destruct (Z.leb_spec (d - now c) (target - now c)) as [|_]; [lia|].
        injection H as <-. exists s, c. rewrite El. conj; auto; try lia.
        unfold sorted in *. cbn in *. inversion_clear So as [|? ? S1 S2]. constructor; auto. constructor. lia.
  Qed.

  Lemma step_refines fuel : forall o s c x c', rep s c -> timer_spec msg cb_first callback fuel o c = Some (x, c') ->
    match exec msg cb_first callback fuel o s with
    | Ok s' r => x = Returned r /\ rep s' c'
    | Ex s' e => x = Threw e /\ rep s' c'
    | Bad => False
    end.
  Proof.
    intros [k|n] s c x c' R H; cbn in *.
    - destruct (spec_call msg None k c) as [[r c1]|] eqn:E; [|discriminate]. injection H as <- <-.
      pose proof (call_ok msg callback k s c _ R E) as Q. unfold call_sim in Q.
      destruct (exec_call msg k s); try contradiction. cbn in Q. destruct Q as [-> Q]. auto.
    - destruct (is_u32 n) eqn:Hn; [|discriminate]. apply is_u32_spec in Hn. unfold tick. unfold cbind at 1. cbn [state].
      rewrite (p_en _ _ R). destruct (running c).
      + destruct (elapse msg cb_first callback fuel (now c + n) c) as [c1|] eqn:E; [|discriminate]. injection H as <- <-.
        destruct (tick_loop_ok fuel s c (now c + n) c1 R ltac:(lia) E) as (s1 & c2 & X & R2 & -> & Hle & So).
        replace (now c + n - now c) with n in X by lia. rewrite X. cbn beta iota.
        assert (L : exists s3, (if match pending c2 with [] => false | _ => true end then
             let! s0 := state in up (head s0) (fun t => set_delta (u32 (delta t - (now c + n - now c2))) t) else ret tt) s1 = Ok s3 tt /\
             rep s3 (with_now (now c + n) c2)).
        { destruct (pending c2) as [|[d i] rest] eqn:El.
          - exists s1. split; [reflexivity|]. destruct R2. rewrite El in *. split; cbn; rewrite ?El; auto.
          - unfold cbind at 1. cbn [state]. rewrite (p_head _ _ R2), El. cbn [hd_id].
            pose proof (p_seg _ _ R2) as Hs. rewrite El in Hs. destruct Hs as [(t & T1 & T2 & T3 & T4) Hs2].
            rewrite (up_ok _ _ _ _ T1). eexists. split; [reflexivity|].
            pose proof (p_due _ _ R2) as Du. rewrite El in Du. inversion_clear Du as [|? ? D1 D2]. cbn in D1.
            destruct (sorted_mid [] _ _ _ _ So) as [Q1 Q2]. cbn in Q1.
            rewrite T2, u32_id by (unfold Inactive in *; lia).
            replace (d - now c2 - (now c + n - now c2)) with (d - (now c + n)) by lia.
            pose proof (p_nd _ _ R2) as Nd. rewrite El in Nd. cbn in Nd. inversion_clear Nd as [|? ? N1 N2].
            apply (rep_links s1 c2 (ids ((d, i) :: rest))); rewrite ?El; auto.
            + apply (similar_upd _ _ _ t); auto. left. reflexivity.
            + intros k Hk. apply (p_pend _ _ R2). rewrite El. exact Hk.
            + intros k u Hu Hk Hnn. contradiction.
            + constructor; auto.
            + constructor; [cbn; lia|]. eapply Forall_impl; [|exact D2]. cbn. intros. lia.
            + split; [|apply seg_upd; auto]. eexists. split; [apply upd_same, nth_error_Some; congruence|]. cbn. auto.
            + rewrite (p_head _ _ R2), El. reflexivity.
            + rewrite (p_tail _ _ R2), El. reflexivity. }
        destruct L as (s3 & X3 & R3). step X3. unfold cbind, state, ret. split; [|exact R3].
        now rewrite (p_log _ _ R3).
      + injection H as <- <-. cbn. split; [|exact R]. now rewrite (p_log _ _ R).
  Qed.
End Variant.
