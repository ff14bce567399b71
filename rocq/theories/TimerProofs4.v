(** * Consequences: how often a timer fires, chunking of time, termination *)
From Coq Require Import List Arith Lia Bool String ZArith Sorted.
From Verif Require Import Util Slots Cmd TimerModel TimerSpec TimerProofs TimerProofs2 TimerProofs3.
Import ListNotations.
Local Open Scope Z_scope.

Lemma fires_app id l1 l2 : fires id (l1 ++ l2) = fires id l1 + fires id l2.
Proof. unfold fires. rewrite filter_app, app_length. lia. Qed.


Section Count.
  Variable msg cb_first : bool.
  Variable callback : nat -> list (nat * nat) -> prog.
  Variable id : nat.
  Hypothesis Hcb : forall k h, avoids id (callback k h).

  Lemma cancel_other j l d : j <> id -> In (d, id) (cancel j l) <-> In (d, id) l.
  Proof.
    intros H. unfold cancel. rewrite filter_In. cbn. destruct (Nat.eqb_spec id j); [congruence|]. cbn. tauto.
  Qed.
  Lemma schedule_other j l d e : j <> id -> In (d, id) (schedule e j l) <-> In (d, id) l.
  Proof. intros H. rewrite schedule_in. split; [intros [E|E]; [congruence|auto]|auto]. Qed.

  (** what a call that does not touch [id] preserves *)
  Definition same_timer (c c' : clock) : Prop :=
    (forall r, nth_error (timers c) id = Some (Some r) -> nth_error (timers c') id = Some (Some r)) /\
    (forall d, In (d, id) (pending c') <-> In (d, id) (pending c)) /\
    fires id (fired c') = fires id (fired c) /\ now c' = now c.

  Lemma same_refl c : same_timer c c.
  Proof. unfold same_timer. conj; auto. intros; tauto. Qed.
  Lemma same_trans a b c : same_timer a b -> same_timer b c -> same_timer a c.
  Proof.
    intros (A1 & A2 & A3 & A4) (B1 & B2 & B3 & B4). unfold same_timer. conj; auto; try congruence.
    intros d. rewrite B2, A2. tauto.
  Qed.

  Lemma call_same self k c r c' : touches id k = false -> spec_call msg self k c = Some (r, c') -> same_timer c c'.
  Proof.
    intros Ht H.
    assert (W : forall j f, j <> id -> (forall r0 x, f r0 = Some x -> same_timer c (snd x)) -> on_timer self j c f = Some (r, c') -> same_timer c c').
    { intros j f Hj Hf. unfold on_timer. destruct (Nat.eqb j NO_TIMER); [intros E; injection E as <- <-; apply same_refl|].
      destruct (nth_error (timers c) j) as [[r0|]|]; [|intros E; injection E as <- <-; apply same_refl|discriminate].
      destruct (match self with Some s => Nat.eqb s j | None => false end); [discriminate|].
      intros E. apply (Hf _ _ E). }
    destruct k; cbn in *; try discriminate; try (apply Nat.eqb_neq in Ht); try (injection H as <- <-; exact (same_refl c)).
    - destruct (is_u32 p); [|discriminate]. destruct (msg && _); [injection H as <- <-; apply same_refl|]. destruct (first_free (timers c) 0) as [j|] eqn:E; injection H as <- <-; [|apply same_refl].
      apply first_free_spec in E. rewrite Nat.sub_0_r in E. destruct E as [_ E]. unfold same_timer. cbn. conj; auto.
      + intros r9 Hr. rewrite upd_other; auto. intros ->. congruence.
      + intros; tauto.
    - revert H. apply W; auto. intros rr x. destruct (msg && _); [discriminate|]. intros E. injection E as <-. unfold same_timer. cbn. conj; auto.
      + intros r1 Hr. rewrite upd_other; auto.
      + intros. apply cancel_other; auto.
    - revert H. apply W; auto. intros rr x. destruct (r_period rr =? Inactive); intros E; injection E as <-; [apply same_refl|].
      unfold same_timer. cbn. conj; auto. intros. rewrite schedule_other, cancel_other by auto. tauto.
    - revert H. apply W; auto. intros rr x E. injection E as <-. unfold same_timer. cbn. conj; auto. intros. apply cancel_other; auto.
    - destruct (is_u32 p); [|discriminate]. revert H. apply W; auto. intros rr x E. injection E as <-. unfold same_timer. cbn. conj; auto.
      + intros r1 Hr. rewrite upd_other; auto.
      + intros. apply cancel_other; auto.
    - revert H. apply W; auto. intros rr x E. injection E as <-. unfold same_timer. cbn. conj; auto.
      + intros r1 Hr. rewrite upd_other; auto.
      + intros. apply cancel_other; auto.
  Qed.
  Lemma prog_same self p : forall c c', avoids id p -> spec_prog msg self p c = Some c' -> same_timer c c'.
  Proof.
    induction p as [|k f IH]; intros c c' A H; cbn in *; [injection H as <-; apply same_refl|].
    destruct (spec_call msg self k c) as [[r c1]|] eqn:E; [|discriminate]. destruct A as [A1 A2].
    eapply same_trans; [eapply call_same; eauto|eauto].
  Qed.

  (** registration survives *)
  Definition still (r : reg) (c : clock) : Prop := nth_error (timers c) id = Some (Some r).
  Lemma call_back_still r i c c' : still r c -> call_back msg cb_first callback i c = Some c' -> still r c'.
  Proof.
    intros K H. unfold call_back in H. destruct (nth_error (timers c) i) as [[x|]|]; try discriminate.
    destruct (r_cb x) as [k|]; [|injection H as <-; exact K].
    destruct (prog_same _ _ _ _ (Hcb _ _) H) as (S & _). apply S. exact K.
  Qed.
  Lemma rearm_still r d i c c' : still r c -> rearm d i c = Some c' -> still r c'.
  Proof. intros K H. unfold still. destruct (rearm_now _ _ _ _ H) as [_ ->]. exact K. Qed.
  Lemma elapse_still r : forall fuel target c c', still r c -> elapse msg cb_first callback fuel target c = Some c' -> still r c'.
  Proof.
    induction fuel as [|f IH]; intros target c c' K H; cbn [elapse] in H; [discriminate|].
    destruct (pending c) as [|[d i] rest]; [injection H as <-; exact K|].
    destruct (d <=? target); [|injection H as <-; exact K].
    destruct (expire msg cb_first callback d i (with_now d (with_pending rest c))) as [c2|] eqn:E2; cbn [obind] in H; [|discriminate].
    apply (IH _ _ _) with (2 := H). pose proof (call_back_still r) as CS. unfold expire in E2.
    destruct cb_first.
    - destruct (call_back msg true callback i (with_now d (with_pending rest c))) as [c1|] eqn:E3; cbn in E2; [|discriminate].
      apply (rearm_still r _ _ _ _) with (2 := E2). apply (CS _ _ _) with (2 := E3). exact K.
    - destruct (rearm d i (with_now d (with_pending rest c))) as [c1|] eqn:E3; cbn in E2; [|discriminate].
      apply (CS _ _ _) with (2 := E2). apply (rearm_still r _ _ _ _) with (2 := E3). exact K.
  Qed.
  Lemma run_still r fuel : forall ops c seen c', still r c -> Forall (op_avoids id) ops ->
    spec_run (timer_spec msg cb_first callback fuel) ops c = Some (seen, c') -> still r c'.
  Proof.
    induction ops as [|o ops IH]; intros c seen c' K Av H; cbn [spec_run] in H; [injection H as <- <-; exact K|].
    destruct (timer_spec msg cb_first callback fuel o c) as [[x c1]|] eqn:E; [|discriminate].
    destruct (spec_run (timer_spec msg cb_first callback fuel) ops c1) as [[l c2]|] eqn:E2; [|discriminate]. injection H as <- <-.
    inversion_clear Av as [|? ? Av1 Av2]. apply (IH c1 l c2) with (3 := E2); auto.
    destruct o as [k|m]; cbn in E.
    - destruct (spec_call msg None k c) as [[r1 c3]|] eqn:E3; [|discriminate]. injection E as <- <-.
      destruct (call_same _ _ _ _ _ Av1 E3) as (S & _). apply S. exact K.
    - destruct (is_u32 m); [|discriminate]. destruct (running c).
      + destruct (elapse msg cb_first callback fuel (now c + m) c) as [c3|] eqn:E3; [|discriminate]. injection E as <- <-.
        eapply elapse_still; eauto.
      + injection E as <- <-. exact K.
  Qed.

  Variable r : reg.
  Variable k0 : nat.
  Hypothesis Hk0 : r_cb r = Some k0.
  Variable t0 : Z.      (* time of the start *)
  Variable base : Z.    (* firings before the start *)
  Hypothesis Hper : 1 <= r_period r.
  Let p := r_period r.

  (** timer [id] was started at t0 and fired n times since *)
  Record ticking (c : clock) (n : Z) : Prop := {
    k_reg : nth_error (timers c) id = Some (Some r);
    k_fired : fires id (fired c) = base + n;
    k_n : 0 <= n;
    k_due : forall d, In (d, id) (pending c) <-> d = t0 + p * (n + 1) /\ (r_repeat r = true \/ n = 0);
    k_once : r_repeat r = false -> n <= 1;
    k_now : t0 + p * n <= now c }.

  Lemma ticking_same c c' n : same_timer c c' -> ticking c n -> ticking c' n.
  Proof.
    intros (A1 & A2 & A3 & A4) [B1 B2 B3 B4 B5 B6]. split; auto; try congruence. intros d. rewrite A2. apply B4.
  Qed.

  Lemma same_with_fired c i k : i <> id -> same_timer c (with_fired (i, k) c).
  Proof.
    intros H. unfold same_timer. cbn. conj; auto; [intros; tauto|]. rewrite fires_app. unfold fires at 2. cbn.
    destruct (Nat.eqb_spec i id); [congruence|]. cbn. lia.
  Qed.

  Lemma call_back_other i c c' : i <> id -> call_back msg cb_first callback i c = Some c' -> same_timer c c'.
  Proof.
    intros Hi H. unfold call_back in H. destruct (nth_error (timers c) i) as [[x|]|]; try discriminate.
    destruct (r_cb x) as [k|]; [|injection H as <-; apply same_refl].
    eapply same_trans; [apply same_with_fired; exact Hi|]. eapply prog_same; [|exact H]. apply Hcb.
  Qed.
  Lemma rearm_other d i c c' : i <> id -> rearm d i c = Some c' -> same_timer c c'.
  Proof.
    intros Hi H. unfold rearm in H. destruct (nth_error (timers c) i) as [[x|]|]; try discriminate.
    destruct (r_repeat x); injection H as <-; [|apply same_refl].
    unfold same_timer. cbn. conj; auto. intros. apply schedule_other. auto.
  Qed.

  Lemma elapse_ticking : forall fuel c n target c' s,
    rep s c -> 0 <= target - now c < 4294967296 -> ticking c n ->
    elapse msg cb_first callback fuel target c = Some c' ->
    exists n', ticking c' n' /\ now c' = target /\ (r_repeat r = true \/ n' = 0 -> target < t0 + p * (n' + 1)).
  Proof.
    induction fuel as [|f IH]; intros c n target c' s R Hb K H; cbn [elapse] in H; [discriminate|].
    destruct (pending c) as [|[d i] rest] eqn:El.
    - injection H as <-. exists n. split; [|split; [reflexivity|]].
      + destruct K. split; auto. cbn. lia.
      + intros Hc. exfalso. destruct K as [_ _ _ K4 _ _].
        assert (In (t0 + p * (n + 1), id) (pending c)) by (apply K4; auto). rewrite El in H. contradiction.
    - pose proof (p_sort _ _ R) as So. rewrite El in So. destruct (sorted_mid [] _ _ _ _ So) as [Q1 Q2]. cbn in Q1.
      destruct (Z.leb_spec d target) as [Hle|Hgt].
      + assert (Hin : In i (ids (pending c))) by (rewrite El; left; reflexivity).
        destruct (p_pend _ _ R _ Hin) as (x & Hx & Hp).
        destruct (expire_rep s c d i rest R El) as (s1 & E1 & R1).
        destruct (expire msg cb_first callback d i (with_now d (with_pending rest c))) as [c2|] eqn:E2; cbn [obind] in H; [|discriminate].
        pose proof (p_nd _ _ R) as Nd. rewrite El in Nd. cbn in Nd. inversion_clear Nd as [|? ? Hni Nd2].
        destruct (expire_ok msg cb_first callback s1 _ d i x c2 R1 eq_refl Hx Hp Hni E2) as (Hn2 & s2 & X2 & R2).
        assert (exists n2, ticking c2 n2) as (n2 & K2).
        { destruct (Nat.eq_dec i id) as [->|Hi].
          - (* our timer expires *)
            exists (n + 1). destruct K as [K1 K2 K3 K4 K5 K6]. assert (x = r) by congruence. subst x.
            assert (Hd : In (d, id) (pending c)) by (rewrite El; left; reflexivity). apply K4 in Hd. destruct Hd as [Hd Hc].
            assert (Hnr : forall d', ~ In (d', id) rest).
            { intros d' E. apply Hni. apply in_map_iff. exists (d', id). auto. }
            assert (Re : forall a b, rearm d id a = Some b -> nth_error (timers a) id = Some (Some r) -> (forall d', ~ In (d', id) (pending a)) ->
               timers b = timers a /\ fired b = fired a /\ now b = now a /\
               (forall d', In (d', id) (pending b) <-> (d' = d + p /\ r_repeat r = true))).
            { intros a b E3 Ha Hna. unfold rearm in E3. rewrite Ha in E3.
              destruct (r_repeat r); injection E3 as <-; cbn; conj; auto; intros d'.
              - rewrite schedule_in. split; [intros [E|E]; [injection E as ->; auto|exfalso; eapply Hna; eauto]|intros [-> _]; left; reflexivity].
              - split; [intros E; exfalso; eapply Hna; eauto|intros [_ E]; discriminate]. }
            assert (Cb : forall a b, call_back msg cb_first callback id a = Some b -> nth_error (timers a) id = Some (Some r) ->
               same_timer (with_fired (id, k0) a) b).
            { intros a b E3 Ha. unfold call_back in E3. rewrite Ha, Hk0 in E3. eapply prog_same; [apply Hcb|exact E3]. }
            assert (F : nth_error (timers c2) id = Some (Some r) /\ fires id (fired c2) = fires id (fired c) + 1 /\
               now c2 = d /\ (forall d', In (d', id) (pending c2) <-> (d' = d + p /\ r_repeat r = true))).
            { assert (F1 : forall a, fires id (fired (with_fired (id, k0) a)) = fires id (fired a) + 1).
              { intros a. cbn. rewrite fires_app. unfold fires at 2. cbn. rewrite Nat.eqb_refl. cbn. lia. }
              unfold expire in E2. destruct cb_first.
              - destruct (call_back msg true callback id (with_now d (with_pending rest c))) as [c1|] eqn:E3; cbn in E2; [|discriminate].
                destruct (Cb _ _ E3 K1) as (S1 & S2 & S3 & S4).
                destruct (Re _ _ E2) as (G1 & G2 & G3 & G4); [apply S1; exact K1|intros d' E; apply S2 in E; eapply Hnr; exact E|].
                rewrite G1, G2, G3. split; [apply S1; exact K1|split; [rewrite S3, F1; reflexivity|split; [rewrite S4; reflexivity|exact G4]]].
              - destruct (rearm d id (with_now d (with_pending rest c))) as [c1|] eqn:E3; cbn in E2; [|discriminate].
                destruct (Re _ _ E3 K1 Hnr) as (G1 & G2 & G3 & G4).
                destruct (Cb _ _ E2) as (S1 & S2 & S3 & S4); [rewrite G1; exact K1|].
                split; [apply S1; cbn; rewrite G1; exact K1|split; [rewrite S3, F1, G2; reflexivity|split; [rewrite S4; exact G3|]]].
                intros d'. rewrite S2. apply G4. }
            destruct F as (F1 & F2 & F3 & F4). split; auto.
            + rewrite F2, K2. lia.
            + lia.
            + intros d'. rewrite F4. split.
              * intros [-> E]. split; [rewrite Hd; fold p; lia|auto].
              * intros [-> [E|E]]; [split; [rewrite Hd; lia|exact E]|lia].
            + intros E. destruct Hc as [Hc|Hc]; [congruence|lia].
            + rewrite F3. lia.
          - exists n. assert (Sm : same_timer (with_now d (with_pending rest c)) c2).
            { assert (CO : forall a b, call_back msg cb_first callback i a = Some b -> same_timer a b) by (intros; eapply call_back_other; eauto).
              unfold expire in E2. destruct cb_first.
              - destruct (call_back msg true callback i (with_now d (with_pending rest c))) as [c1|] eqn:E3; cbn in E2; [|discriminate].
                eapply same_trans; [eapply CO; eauto|eapply rearm_other; eauto].
              - destruct (rearm d i (with_now d (with_pending rest c))) as [c1|] eqn:E3; cbn in E2; [|discriminate].
                eapply same_trans; [eapply rearm_other; eauto|eapply CO; eauto]. }
            apply (ticking_same _ _ _ Sm). destruct K as [K1 K2 K3 K4 K5 K6]. split; auto; cbn; [|lia].
            intros d'. rewrite <- K4, El. cbn. split; [auto|intros [E|E]; [congruence|auto]]. }
        eapply IH; eauto. lia.
      + injection H as <-. exists n. destruct K as [K1 K2 K3 K4 K5 K6]. split; [|split; [reflexivity|]].
        * split; auto. cbn. lia.
        * intros Hc. assert (Hin : In (t0 + p * (n + 1), id) (pending c)) by (apply K4; auto). rewrite El in Hin.
          destruct Hin as [E|Hin]; [injection E as -> _; lia|].
          unfold sorted in Q2. apply Sorted_StronglySorted in Q2; [|intros a b0 e; lia]. inversion_clear Q2 as [|? ? SS SF].
          rewrite Forall_forall in SF. assert (d <= t0 + p * (n + 1)); [|lia].
          apply SF. apply in_map_iff. eexists; split; [|exact Hin]. reflexivity.
  Qed.

  Definition settled (c : clock) (n : Z) : Prop :=
    ticking c n /\ (r_repeat r = true \/ n = 0 -> now c < t0 + p * (n + 1)).

  Lemma run_settled fuel : forall ops c n seen c' s,
    rep s c -> settled c n -> Forall (op_avoids id) ops ->
    spec_run (timer_spec msg cb_first callback fuel) ops c = Some (seen, c') ->
    exists n', settled c' n' /\ now c' = now c + ticked ops seen.
  Proof.
    induction ops as [|o ops IH]; intros c n seen c' s R St Av H; cbn [spec_run] in H.
    - injection H as <- <-. exists n. cbn. split; [exact St|lia].
    - destruct (timer_spec msg cb_first callback fuel o c) as [[x c1]|] eqn:E; [|discriminate].
      destruct (spec_run (timer_spec msg cb_first callback fuel) ops c1) as [[l c2]|] eqn:E2; [|discriminate]. injection H as <- <-.
      pose proof (step_refines msg cb_first callback fuel o s c x c1 R E) as Q.
      assert (exists s1, rep s1 c1) as (s1 & R1).
      { destruct (exec msg cb_first callback fuel o s); [destruct Q; eauto|destruct Q; eauto|contradiction]. }
      inversion_clear Av as [|? ? Av1 Av2].
      assert (exists n1, settled c1 n1 /\ now c1 = now c + match o, x with Tick m, Returned (RTick true _) => m | _, _ => 0 end) as (n1 & St1 & Hn1).
      { destruct St as [K L]. destruct o as [k|m]; cbn in E.
        - destruct (spec_call msg None k c) as [[r1 c3]|] eqn:E3; [|discriminate]. injection E as <- <-.
          pose proof (call_same None _ _ _ _ Av1 E3) as Sm. exists n. split.
          + split; [eapply ticking_same; eauto|]. destruct Sm as (_ & _ & _ & ->). exact L.
          + destruct Sm as (_ & _ & _ & ->). lia.
        - destruct (is_u32 m) eqn:Hm; [|discriminate]. apply is_u32_spec in Hm. destruct (running c).
          + destruct (elapse msg cb_first callback fuel (now c + m) c) as [c3|] eqn:E3; [|discriminate]. injection E as <- <-.
            destruct (elapse_ticking fuel c n (now c + m) c3 s R ltac:(lia) K E3) as (n1 & K1 & Hn & L1).
            exists n1. split; [split; [exact K1|rewrite Hn; exact L1]|exact Hn].
          + injection E as <- <-. exists n. split; [split; auto|lia]. }
      destruct (IH c1 n1 l c2 s1 R1 St1 Av2 E2) as (n2 & St2 & Hn2). exists n2. split; [exact St2|].
      rewrite Hn2, Hn1. destruct o as [k|m]; cbn; [lia|]. destruct x as [[| | | |b ?]|]; cbn; try lia. destruct b; lia.
  Qed.

  Lemma start_settled c c1 : still r c -> t0 = now c -> base = fires id (fired c) ->
    spec_call msg None (Start id false) c = Some (RBool true, c1) -> settled c1 0 /\ now c1 = t0 /\ fired c1 = fired c.
  Proof.
    intros K Et Eb H. cbn in H. unfold on_timer in H. destruct (Nat.eqb id NO_TIMER); [discriminate|]. rewrite K in H.
    destruct (r_period r =? Inactive); [discriminate|]. injection H as <-. cbn. conj; auto. unfold settled. cbn. fold p.
    assert (1 <= p) by exact Hper. split; [|intros; lia].
    split; cbn; auto; try lia. intros d. rewrite schedule_in. split.
    - intros [E|E]; [injection E as ->; split; [fold p; lia|auto]|].
      exfalso. unfold cancel in E. apply filter_In in E. cbn in E. rewrite Nat.eqb_refl in E. destruct E; discriminate.
    - intros [-> _]. left. f_equal. fold p. lia.
  Qed.

  Lemma settled_count c n : settled c n -> fires id (fired c) - base = if r_repeat r then (now c - t0) / p else if t0 + p <=? now c then 1 else 0.
  Proof.
    intros [[K1 K2 K3 K4 K5 K6] L]. rewrite K2. replace (base + n - base) with n by lia.
    assert (Hp : 1 <= p) by exact Hper.
    destruct (r_repeat r).
    - specialize (L (or_introl eq_refl)). apply Z.div_unique with (r := now c - t0 - p * n); nia.
    - specialize (K5 eq_refl). destruct (Z.leb_spec (t0 + p) (now c)).
      + destruct (Z.eq_dec n 0) as [->|]; [specialize (L (or_intror eq_refl)); lia|lia].
      + nia.
  Qed.
End Count.

(** ** chunking of time *)
Section Chunk.
  Variable msg cb_first : bool.
  Variable callback : nat -> list (nat * nat) -> prog.
  Notation el := (elapse msg cb_first callback).

  Lemma elapse_mono f : forall f' target c c', (f <= f')%nat -> el f target c = Some c' -> el f' target c = Some c'.
  Proof.
    induction f as [|f IH]; intros f' target c c' Hf H; cbn in H; [discriminate|].
    destruct f' as [|f']; [lia|]. cbn. destruct (pending c) as [|[d i] rest]; auto.
    destruct (d <=? target); auto. destruct (expire msg cb_first callback d i (with_now d (with_pending rest c))); cbn in *; [|discriminate].
    apply IH; auto. lia.
  Qed.
  Lemma elapse_join : forall f1 f2 t1 t2 c c1 c2, t1 <= t2 -> el f1 t1 c = Some c1 -> el f2 t2 c1 = Some c2 ->
    el (f1 + f2) t2 c = Some c2.
  Proof.
    induction f1 as [|f1 IH]; intros f2 t1 t2 c c1 c2 Ht H1 H2; cbn in H1; [discriminate|].
    cbn. destruct (pending c) as [|[d i] rest] eqn:El.
    - injection H1 as <-. destruct f2 as [|f2]; [discriminate|]. cbn in H2. rewrite El in H2. injection H2 as <-. reflexivity.
    - destruct (Z.leb_spec d t1) as [L|G].
      + destruct (Z.leb_spec d t2); [|lia].
        destruct (expire msg cb_first callback d i (with_now d (with_pending rest c))) as [c3|]; cbn in *; [|discriminate]. eapply (IH f2 t1 t2); eauto.
      + injection H1 as <-. apply (elapse_mono f2) with (f' := S (f1 + f2)) in H2; [|lia].
        cbn in H2. rewrite El in H2. destruct (Z.leb_spec d t2).
        * replace (with_now d (with_pending rest (with_now t1 c))) with (with_now d (with_pending rest c)) in H2 by reflexivity. exact H2.
        * injection H2 as <-. reflexivity.
  Qed.
End Chunk.

(** ** termination without re-entrant callbacks *)
Section Term.
  Variable msg cb_first : bool.
  Variable callback : nat -> list (nat * nat) -> prog.
  Hypothesis Hcb : forall k h, callback k h = Done.
  (** number of expirations of the pending entry e before target *)
  Definition budget (c : clock) (target : Z) (e : Z * nat) : nat :=
    if fst e <=? target then
      match nth_error (timers c) (snd e) with
      | Some (Some r) => if r_repeat r then Z.to_nat (target - fst e) + 1 else 1
      | _ => 1
      end%nat
    else 0%nat.
  Definition total (c : clock) (target : Z) (l : list (Z * nat)) : nat := list_sum (map (budget c target) l).

  Lemma total_schedule c target d i l : total c target (schedule d i l) = (budget c target (d, i) + total c target l)%nat.
  Proof.
    unfold total. induction l as [|[e j] l IH]; [cbn; lia|]. cbn [schedule]. destruct (d <=? e); [reflexivity|].
    cbn [map list_sum fold_right] in *. unfold list_sum in *. cbn. lia.
  Qed.

  Lemma elapse_total target : forall m c s, (total c target (pending c) <= m)%nat -> rep s c ->
    (forall i r, nth_error (timers c) i = Some (Some r) -> 1 <= r_period r) ->
    0 <= target - now c < 4294967296 ->
    exists c', elapse msg cb_first callback (S m) target c = Some c'.
  Proof.
    induction m as [|m IH]; intros c s Hm R Hp Hb; cbn [elapse]; destruct (pending c) as [|[d i] rest] eqn:El; try (eexists; reflexivity);
      (destruct (Z.leb_spec d target) as [L|G]; [|eexists; reflexivity]).
    - exfalso. unfold total in Hm. cbn in Hm. unfold budget at 1 in Hm. cbn in Hm. destruct (Z.leb_spec d target); [|lia].
      destruct (nth_error (timers c) i) as [[r|]|]; try (destruct (r_repeat r)); lia.
    - assert (Hin : In i (ids (pending c))) by (rewrite El; left; reflexivity).
      destruct (p_pend _ _ R _ Hin) as (r & Hr & Hne).
      destruct (expire_rep s c d i rest R El) as (s1 & E1 & R1).
      pose proof (p_nd _ _ R) as Nd. rewrite El in Nd. cbn in Nd. inversion_clear Nd as [|? ? Hni Nd2].
      pose proof (p_sort _ _ R) as So. rewrite El in So. destruct (sorted_mid [] _ _ _ _ So) as [Q1 Q2]. cbn in Q1.
      set (c1 := with_now d (with_pending rest c)) in *.
      assert (exists c2, expire msg cb_first callback d i c1 = Some c2 /\ timers c2 = timers c /\ now c2 = d /\
         (total c target (pending c2) <= m)%nat) as (c2 & E2 & T2 & N2 & M2).
      { assert (Cb : forall c3, nth_error (timers c3) i = Some (Some r) -> exists c4, call_back msg cb_first callback i c3 = Some c4 /\ timers c4 = timers c3 /\ now c4 = now c3 /\ pending c4 = pending c3).
        { intros c3 H3. unfold call_back. rewrite H3. destruct (r_cb r); [rewrite Hcb; cbn|]; eexists; split; reflexivity || auto. }
        assert (Re : forall c3, nth_error (timers c3) i = Some (Some r) -> pending c3 = rest -> now c3 = d -> timers c3 = timers c -> exists c4, rearm d i c3 = Some c4 /\ timers c4 = timers c3 /\ now c4 = now c3 /\
             (total c target (pending c4) <= m)%nat).
        { intros c3 H3 P3 N3 T3. unfold rearm. rewrite H3. unfold total in Hm. cbn [map list_sum fold_right] in Hm. unfold budget at 1 in Hm. cbn [fst snd] in Hm.
          destruct (Z.leb_spec d target); [|lia]. rewrite Hr in Hm. pose proof (Hp _ _ Hr).
          destruct (r_repeat r) eqn:Er; eexists; (split; [reflexivity|]); cbn; conj; auto; rewrite ?P3.
          - pose proof (total_schedule c target (d + r_period r) i rest) as TS. unfold total, list_sum in TS. rewrite TS. clear TS. unfold budget at 1. cbn [fst snd]. rewrite Hr, Er. unfold total.
            destruct (Z.leb_spec (d + r_period r) target); unfold list_sum in *; lia.
          - unfold total, list_sum in *. lia. }
        unfold expire. destruct cb_first.
        - destruct (Cb c1 Hr) as (c3 & -> & A & B & C). cbn. destruct (Re c3) as (c4 & -> & A' & B' & C'); try (rewrite ?A, ?B, ?C; auto; fail).
          exists c4. conj; auto; [rewrite A', A; reflexivity|rewrite B', B; reflexivity].
        - destruct (Re c1 Hr eq_refl eq_refl eq_refl) as (c3 & -> & A & B & C). cbn.
          destruct (Cb c3) as (c4 & -> & A' & B' & C'); [rewrite A; exact Hr|].
          exists c4. conj; auto; [rewrite A', A; reflexivity|rewrite B', B; reflexivity|rewrite C'; exact C]. }
      destruct (expire_ok msg cb_first callback s1 _ d i r c2 R1 eq_refl Hr Hne Hni E2) as (_ & s2 & _ & R2).
      rewrite E2. cbn. apply (IH c2 s2); auto.
      + unfold total, budget in *. rewrite T2. exact M2.
      + intros j r'. rewrite T2. apply Hp.
      + lia.
  Qed.

  (** positive periods are an invariant *)
  Lemma spec_pos fuel o c x c' :
    match o with Call (Register _ p _) | Call (SetPeriod _ p) => 1 <= p | _ => True end ->
    timer_spec msg cb_first callback fuel o c = Some (x, c') ->
    (forall i r, nth_error (timers c) i = Some (Some r) -> 1 <= r_period r) ->
    (forall i r, nth_error (timers c') i = Some (Some r) -> 1 <= r_period r).
  Proof.
    intros Hp H P0.
    assert (U : forall j o0, (forall r, o0 = Some r -> 1 <= r_period r) -> forall l, (forall i r, nth_error l i = Some (Some r) -> 1 <= r_period r) ->
        forall i r, nth_error (upd l j o0) i = Some (Some r) -> 1 <= r_period r).
    { intros j o0 Ho l Hl i r E. destruct (Nat.eq_dec i j) as [->|Hij].
      - destruct (Nat.lt_ge_cases j (List.length l)) as [L|G].
        + rewrite upd_same in E by exact L. injection E as ->. auto.
        + rewrite (proj2 (nth_error_None _ _)) in E; [discriminate|]. rewrite upd_length. exact G.
      - rewrite upd_other in E by auto. eauto. }
    destruct o as [k|n].
    - cbn in H. destruct (spec_call msg None k c) as [[r1 c1]|] eqn:E; [|discriminate]. injection H as <- <-.
      assert (W : forall j f, (forall r x, nth_error (timers c) j = Some (Some r) -> f r = Some x -> forall i r, nth_error (timers (snd x)) i = Some (Some r) -> 1 <= r_period r) ->
         on_timer None j c f = Some (r1, c1) -> forall i r, nth_error (timers c1) i = Some (Some r) -> 1 <= r_period r).
      { intros j f Hf. unfold on_timer. destruct (Nat.eqb j NO_TIMER); [intros Ea; injection Ea as <- <-; exact P0|].
        destruct (nth_error (timers c) j) as [[r0|]|] eqn:Ej; [|intros Ea; injection Ea as <- <-; exact P0|discriminate].
        intros Ea. apply (Hf _ _ eq_refl Ea). }
      destruct k; cbn in E; try (injection E as <- <-; exact P0).
      + destruct (is_u32 p); [|discriminate]. destruct (msg && _); [injection E as <- <-; exact P0|].
        destruct (first_free (timers c) 0); injection E as <- <-; [|exact P0]. cbn. apply U; auto. intros r9 E9. injection E9 as <-. exact Hp.
      + revert E. apply W. intros r9 x9 E9. destruct (msg && _); [discriminate|]. intros E8. injection E8 as <-. cbn. apply U; auto. discriminate.
      + revert E. apply W. intros r9 x9 E9. destruct (r_period r9 =? Inactive); intros E8; injection E8 as <-; exact P0.
      + revert E. apply W. intros r9 x9 E9 E8. injection E8 as <-. exact P0.
      + destruct (is_u32 p); [|discriminate]. revert E. apply W. intros r9 x9 E9 E8. injection E8 as <-. cbn. apply U; auto. intros r7 E7. injection E7 as <-. exact Hp.
      + revert E. apply W. intros r9 x9 E9 E8. injection E8 as <-. cbn. apply U; auto. intros r7 E7. injection E7 as <-. cbn. eauto.
      + injection E as <- <-. cbn. intros i r9 E9. apply nth_error_In, repeat_spec in E9. discriminate.
    - cbn in H. destruct (is_u32 n); [|discriminate]. destruct (running c); [|injection H as <- <-; exact P0].
      destruct (elapse msg cb_first callback fuel (now c + n) c) as [c1|] eqn:E; [|discriminate]. injection H as <- <-.
      enough (T : timers c1 = timers c) by (rewrite T; exact P0).
      clear - E Hcb. revert c1 E. generalize (now c + n) as t. intros t. revert c. induction fuel as [|f IH]; intros c c1 E; cbn [elapse] in E; [discriminate|].
      destruct (pending c) as [|[d i] rest]; [injection E as <-; reflexivity|].
      destruct (d <=? t); [|injection E as <-; reflexivity].
      destruct (expire msg cb_first callback d i (with_now d (with_pending rest c))) as [c2|] eqn:E2; cbn [obind] in E; [|discriminate].
      rewrite (IH _ _ E). clear - E2 Hcb.
      assert (CB : forall a b, call_back msg cb_first callback i a = Some b -> timers b = timers a).
      { intros a b Ea. unfold call_back in Ea. destruct (nth_error (timers a) i) as [[q|]|]; try discriminate.
        destruct (r_cb q); [rewrite Hcb in Ea; cbn in Ea|]; injection Ea as <-; reflexivity. }
      assert (RB : forall a b, rearm d i a = Some b -> timers b = timers a) by (intros a b Ea; apply (rearm_now _ _ _ _ Ea)).
      unfold expire in E2. destruct cb_first.
      + destruct (call_back msg true callback i (with_now d (with_pending rest c))) as [a|] eqn:E3; cbn in E2; [|discriminate].
        rewrite (RB _ _ E2), (CB _ _ E3). reflexivity.
      + destruct (rearm d i (with_now d (with_pending rest c))) as [a|] eqn:E3; cbn in E2; [|discriminate].
        rewrite (CB _ _ E2), (RB _ _ E3). reflexivity.
  Qed.
End Term.
