(** Interrupted calls: every call takes effect at one point *)
From Coq Require Import List Arith Lia Bool String ZArith Sorted.
From Verif Require Import Util Slots Cmd TimerModel TimerSpec TimerProofs TimerProofs2 TimerProofs3 TimerProofs4 TisrModel TisrSpec TisrProofs TisrProofs2.
Import ListNotations.
Local Open Scope Z_scope.

Section Timer.
Variable msg : bool.
Variable kd : kind.
Notation cb := (callback_first kd).
Notation passes := (passes msg kd).
Notation Good := (Good msg kd).
Notation Before := (Before msg kd).
Notation After := (After msg kd).
Notation Done_ok := (Done_ok msg kd).
Notation closed := (closed msg kd).
Definition all_repeat := all_regs (fun r => r_repeat r = true).
Definition id_ok (id : nat) (c : clock) : Prop := (id < List.length (timers c) \/ id = NO_TIMER)%nat.

Ltac gact c0 := eapply (g_act msg kd rep (Before c0)); eauto using (tickable_rep msg kd), (closed_before msg kd).

(** if (id_ != NO_TIMER && timer.id != NO_TIMER) *)
Lemma on_ok id k c0 kk arr s : rep s c0 -> sane c0 -> id_ok id c0 -> Fine [] arr ->
  (forall c1, (id = NO_TIMER \/ nth_error (timers c1) id = Some None) -> spec_call msg None kk c1 = Some (RBool false, c1)) ->
  (forall s1 c1 pre1 r, rep s1 c1 -> sane c1 -> Before c0 pre1 c1 -> id <> NO_TIMER -> nth_error (timers c0) id = Some (Some r) -> Fine [] (tl arr) ->
     Good k (tl arr) [] 0 s1 pre1 (Done_ok c0 kk)) ->
  Good (t_on id k) arr [] 0 s [] (Done_ok c0 kk).
Proof.
  intros R Sa Hid F No Yes. unfold t_on. destruct (Nat.eqb_spec id NO_TIMER) as [->|Hne].
  - eapply (finish msg kd); eauto. eapply effect; [apply before_nil|]. apply No. auto.
  - eapply (g_act msg kd rep (Before c0)); eauto using (tickable_rep msg kd), (closed_before msg kd), (before_nil msg kd).
    intros s1 c1 pre1 ns R1 Sa1 B1 P1 _ F1. pose proof (after_timers _ _ _ _ _ B1) as T1. destruct Hid as [Hid|]; [|contradiction].
    destruct (nth_error (timers c0) id) as [o|] eqn:Eo; [|apply nth_error_None in Eo; lia].
    assert (E1 : nth_error (timers c1) id = Some o) by congruence. destruct (rep_rd _ _ _ _ R1 E1) as (t & Ht & S). exists s1, t. split; [apply rd_ok; exact Ht|].
    unfold slot_ok in S. rewrite E1 in S. destruct o as [r|].
    + destruct S as (S1 & _). assert (tid t = id) as -> by (unfold static in S1; congruence). destruct (Nat.eqb_spec id NO_TIMER); [contradiction|]. eapply Yes; eauto.
    + subst t. cbn [tid blank]. rewrite Nat.eqb_refl. eapply (finish msg kd); eauto. eapply effect; eauto.
Qed.
(** the part that stop, unregister, set_period and set_mode share; [Ph]: the call has taken effect *)
Lemma deactivate id k c0 kk arr s c1 pre1 r Ph : rep s c1 -> sane c1 -> Before c0 pre1 c1 -> id <> NO_TIMER -> nth_error (timers c0) id = Some (Some r) -> Fine [] arr ->
  (hd [] (tl arr) = [] \/ all_repeat c0) -> closed Ph ->
  (forall pre c, Before c0 pre c -> Ph pre (with_pending (cancel id (pending c)) c)) ->
  (forall s2 c2 pre2 arr2, rep s2 c2 -> sane c2 -> Ph pre2 c2 -> ~ In id (ids (pending c2)) -> nth_error (timers c2) id = Some (Some r) -> List.length (timers c2) = List.length (timers c0) ->
     (forall p, Fine p arr2 -> Good k arr2 p 0 s2 pre2 (Done_ok c0 kk))) ->
  Good (t_deactivate id false k) arr [] 0 s pre1 (Done_ok c0 kk).
Proof.
  intros R Sa B Hne Hr F W Cl Ef K. unfold t_deactivate. gact c0. intros s2 c2 pre2 ns R2 Sa2 B2 P2 _ F2.
  pose proof (after_timers _ _ _ _ _ B2) as T2. assert (E2 : nth_error (timers c2) id = Some (Some r)) by congruence.
  destruct (rep_rd _ _ _ _ R2 E2) as (t & Ht & _). exists s2, t. split; [apply rd_ok; exact Ht|]. rewrite (active_iff _ _ _ _ _ R2 Ht E2).
  destruct (is_pending id (pending c2)) eqn:Ep; cbn [negb].
  - eapply (g_lock msg kd rep (Before c0)); eauto using (tickable_rep msg kd), (closed_before msg kd). intros s3 c3 pre3 ns3 R3 Sa3 B3 P3 W3 F3.
    apply is_pending_in in Ep.
    assert (In3 : In id (ids (pending c3))).
    { destruct W as [W|W].
      - rewrite (W3 W eq_refl) in P3. inversion P3; subst. exact Ep.
      - destruct (passes_keep _ _ _ _ _ P3) as (_ & _ & _ & X). apply X; auto. exact (sane_same _ _ _ T2 W). }
    pose proof (after_timers _ _ _ _ _ B3) as T3. destruct (remove_rep _ _ _ R3 In3) as (s4 & E4 & R4).
    eapply (l_act msg kd (Before c0)); eauto using (closed_before msg kd). intros pre4 p4 B4 F4. exists s4, tt. split; [exact E4|].
    eapply (l_unlock msg kd Ph Cl); eauto. intros pre5 p5 B5 F5. apply (K s4 (with_pending (cancel id (pending c3)) c3)); cbn; auto.
    + apply (cancel_not_in quiet).
    + congruence.
    + congruence.
  - assert (~ In id (ids (pending c2))) as Np by (rewrite <- is_pending_in; congruence).
    eapply K; eauto.
    + pose proof (Ef _ _ B2) as X. rewrite cancel_notin in X by exact Np. destruct c2; exact X.
    + congruence.
Qed.

Lemma ref_true id c r : nth_error (timers c) id = Some (Some r) -> id <> NO_TIMER -> forall f, on_timer None id c f = f r.
Proof. intros E H f. unfold on_timer. destruct (Nat.eqb_spec id NO_TIMER); [contradiction|]. now rewrite E. Qed.
Lemma ref_false id c f : (id = NO_TIMER \/ nth_error (timers c) id = Some None) -> on_timer None id c f = Some (RBool false, c).
Proof. intros [->|E]; unfold on_timer; [now rewrite Nat.eqb_refl|]. rewrite E. destruct (Nat.eqb id NO_TIMER); reflexivity. Qed.

Lemma stop_thread id arr s c : rep s c -> sane c -> id_ok id c -> Fine [] arr -> (nth 2 arr [] = [] \/ all_repeat c) -> Good (t_stop id) arr [] 0 s [] (Done_ok c (Stop id)).
Proof.
  intros R Sa Hid F W. eapply on_ok; eauto.
  - intros c1 H. cbn [spec_call]. apply ref_false, H.
  - intros s1 c1 pre1 r R1 Sa1 B1 Hne Hr F1. eapply (deactivate _ _ _ _ _ _ _ _ r (After c (Stop id) (RBool true))); eauto using (closed_after msg kd).
    + destruct W as [W|W]; [left|auto]. destruct arr as [|? [|? [|? ?]]]; auto.
    + intros pre d B. eapply effect; [exact B|]. cbn [spec_call]. apply (ref_true _ _ r); [|exact Hne]. rewrite (after_timers _ _ _ _ _ B). exact Hr.
    + intros. eapply (finish msg kd); eauto.
Qed.
(** a call that deactivates a timer and then changes its slot *)
Definition half (c0 : clock) (kk : call) (id : nat) (o : option reg) (pre : list (Z * bool)) (c : clock) : Prop := After c0 kk (RBool true) pre (with_timer id o c) /\ ~ In id (ids (pending c)).
Lemma closed_half c0 kk id o : closed (half c0 kk id o).
Proof.
  intros pre c q c1 (A & N) P1 A1. destruct (passes_keep _ _ _ _ _ P1) as (_ & _ & X & _). destruct (X id N) as (X1 & X2). split; [|exact X1].
  eapply (closed_after msg kd); [exact A|apply X2|]. exact A1.
Qed.
Lemma half_start c0 kk id o r pre c : Before c0 pre c -> nth_error (timers c0) id = Some (Some r) -> 
  (forall c, nth_error (timers c) id = Some (Some r) -> spec_call msg None kk c = Some (RBool true, with_timer id o (with_pending (cancel id (pending c)) c))) ->
  half c0 kk id o pre (with_pending (cancel id (pending c)) c).
Proof. intros B Hr S. split; [|cbn; apply (cancel_not_in quiet)]. eapply effect; [exact B|]. apply S. rewrite (after_timers _ _ _ _ _ B). exact Hr. Qed.

(** changing the slot of a timer that is not pending *)
Lemma change_slot s c id r f r' : rep s c -> ~ In id (ids (pending c)) -> nth_error (timers c) id = Some (Some r) ->
  (forall t, static t = (r_cb r, r_period r, id, r_repeat r) -> static (f t) = (r_cb r', r_period r', id, r_repeat r') /\ delta (f t) = delta t) ->
  0 <= r_period r' < 4294967296 ->
  exists s', up id f s = Ok s' tt /\ rep s' (with_timer id (Some r') c).
Proof.
  intros R N Hr Hf Hp. destruct (rep_rd _ _ _ _ R Hr) as (t & Ht & S). unfold slot_ok in S. rewrite Hr in S. destruct S as (S1 & S2 & S3). destruct (Hf t S1) as (H1 & H2).
  eexists. split; [apply up_ok; exact Ht|]. apply (rep_slot s c id (Some r) (Some r') (f t) (registered s)); auto.
  - conj; auto; try lia. rewrite H2. auto.
  - pose proof (count_some_upd _ _ _ (Some r') Hr) as Q. cbn [is_some] in Q. rewrite (p_reg _ _ R). lia.
Qed.
Lemma sane_upd c id r : sane c -> 1 <= r_period r -> sane (with_timer id (Some r) c).
Proof.
  intros Sa Hp j q. cbn. rewrite upd_nth. destruct (Nat.eqb id j); [|apply Sa]. destruct (j <? _)%nat; [|discriminate]. intros [= <-]. exact Hp.
Qed.
Lemma change_thread kk id f g arr s c : rep s c -> sane c -> id_ok id c -> Fine [] arr -> (nth 2 arr [] = [] \/ all_repeat c) ->
  (forall c1, (id = NO_TIMER \/ nth_error (timers c1) id = Some None) -> spec_call msg None kk c1 = Some (RBool false, c1)) ->
  (forall c r, nth_error (timers c) id = Some (Some r) -> id <> NO_TIMER -> spec_call msg None kk c = Some (RBool true, with_timer id (Some (g r)) (with_pending (cancel id (pending c)) c))) ->
  (forall t r, static t = (r_cb r, r_period r, id, r_repeat r) -> static (f t) = (r_cb (g r), r_period (g r), id, r_repeat (g r)) /\ delta (f t) = delta t) ->
  (forall r, 1 <= r_period r < 4294967296 -> 1 <= r_period (g r) < 4294967296) ->
  Good (t_on id (t_deactivate id false (Act (up id f) (fun _ => Fin (RBool true))))) arr [] 0 s [] (Done_ok c kk).
Proof.
  intros R Sa Hid F W No Yes Hf Hg. eapply on_ok; eauto. intros s1 c1 pre1 r R1 Sa1 B1 Hne Hr F1.
  eapply (deactivate _ _ _ _ _ _ _ _ r (half c kk id (Some (g r)))); eauto using closed_half.
  - destruct W as [W|W]; [left|auto]. destruct arr as [|? [|? [|? ?]]]; auto.
  - intros pre d B. eapply half_start; eauto.
  - intros s2 c2 pre2 arr2 R2 Sa2 H2 N2 Hr2 L2 p Fp. eapply (g_act msg kd rep (half c kk id (Some (g r)))); eauto using (tickable_rep msg kd), closed_half.
    intros s3 c3 pre3 ns R3 Sa3 (A3 & N3) P3 _ F3. assert (Hr3 : nth_error (timers c3) id = Some (Some r)) by (destruct (passes_keep _ _ _ _ _ P3) as (T & _); congruence).
    destruct (rep_rd _ _ _ _ R3 Hr3) as (t & Ht & S). unfold slot_ok in S. rewrite Hr3 in S. destruct S as (_ & S2 & _).
    assert (1 <= r_period (g r) < 4294967296) as Hp by (apply Hg; pose proof (Sa3 _ _ Hr3); cbn beta in *; lia).
    destruct (change_slot s3 c3 id r f (g r) R3 N3 Hr3) as (s4 & E4 & R4); [intros; apply Hf; auto|lia|]. exists s4, tt. split; [exact E4|].
    eapply (finish msg kd); [exact R4|apply sane_upd; auto; lia|exact A3|exact F3].
Qed.
Lemma set_period_thread id p arr s c : rep s c -> sane c -> id_ok id c -> Fine [] arr -> 1 <= p < 4294967296 -> (nth 2 arr [] = [] \/ all_repeat c) ->
  Good (t_set_period id p) arr [] 0 s [] (Done_ok c (SetPeriod id p)).
Proof.
  intros R Sa Hid F Hp W. assert (U : is_u32 p = true) by (apply is_u32_spec; lia).
  apply (change_thread (SetPeriod id p) id (set_per p) (fun r => mkR (r_cb r) p (r_repeat r))); auto.
  - intros c1 H. cbn [spec_call]. rewrite U. apply ref_false, H.
  - intros c1 r Hr Hne. cbn [spec_call]. rewrite U. now apply (ref_true _ _ r).
  - intros t r H. unfold static in *. cbn. split; congruence.
Qed.
Lemma set_mode_thread id b arr s c : rep s c -> sane c -> id_ok id c -> Fine [] arr -> (nth 2 arr [] = [] \/ all_repeat c) ->
  Good (t_set_mode id b) arr [] 0 s [] (Done_ok c (SetMode id b)).
Proof.
  intros R Sa Hid F W.
  apply (change_thread (SetMode id b) id (set_rep b) (fun r => mkR (r_cb r) (r_period r) b)); auto.
  - intros c1 H. cbn [spec_call]. apply ref_false, H.
  - intros c1 r Hr Hne. cbn [spec_call]. now apply (ref_true _ _ r).
  - intros t r H. unfold static in *. cbn. split; congruence.
Qed.
Lemma sane_none c id : sane c -> sane (with_timer id None c).
Proof. intros Sa j q. cbn. rewrite upd_nth. destruct (Nat.eqb id j); [|apply Sa]. destruct (j <? _)%nat; discriminate. Qed.
Lemma off_intro s c s' m : rep s' c -> s = set_registered m s' -> off m s c.
Proof. intros. exists s'. auto. Qed.

Lemma unregister_thread id arr s c : msg = false -> rep s c -> sane c -> id_ok id c -> Fine [] arr -> (nth 2 arr [] = [] \/ all_repeat c) ->
  Good (t_unregister msg id) arr [] 0 s [] (Done_ok c (Unregister id)).
Proof.
  intros Hm R Sa Hid F W. unfold t_unregister. replace (t_deactivate id msg) with (t_deactivate id false) by (f_equal; congruence). eapply on_ok; eauto.
  { intros c1 H. cbn [spec_call]. apply ref_false, H. }
  intros s1 c1 pre1 r R1 Sa1 B1 Hne Hr F1.
  eapply (deactivate _ _ _ _ _ _ _ _ r (half c (Unregister id) id None)); eauto using closed_half.
  - destruct W as [W|W]; [left|auto]. destruct arr as [|? [|? [|? ?]]]; auto.
  - intros pre d B. eapply half_start; eauto. intros c2 H2. cbn [spec_call]. rewrite (ref_true _ _ r H2 Hne). rewrite Hm. reflexivity.
  - intros s2 c2 pre2 arr2 R2 Sa2 H2 N2 Hr2 L2 p Fp. eapply (g_act msg kd rep (half c (Unregister id) id None)); eauto using (tickable_rep msg kd), closed_half.
    intros s3 c3 pre3 ns R3 Sa3 (A3 & N3) P3 _ F3. assert (Hr3 : nth_error (timers c3) id = Some (Some r)) by (destruct (passes_keep _ _ _ _ _ P3) as (T & _); congruence).
    destruct (rep_rd _ _ _ _ R3 Hr3) as (t & Ht & S). eexists _, tt. split; [apply up_ok; exact Ht|].
    set (n := (registered s3 - 1)%nat).
    assert (Cn : n = count_some (upd (timers c3) id None)).
    { pose proof (count_some_upd _ _ _ None Hr3) as Q. cbn [is_some] in Q. unfold n. rewrite (p_reg _ _ R3). lia. }
    pose proof (rep_slot s3 c3 id (Some r) None blank n R3 Hr3 N3 eq_refl Cn) as R4.
    assert (O4 : off (registered s3) (set_arr (upd (TimerModel.arr s3) id blank) s3) (with_timer id None c3)).
    { eapply off_intro; [exact R4|]. reflexivity. }
    eapply (g_act msg kd (off (registered s3)) (After c (Unregister id) (RBool true))); [apply tickable_off|apply closed_after|exact O4|apply sane_none, Sa3|exact A3|exact F3|].
    intros s5 c5 pre5 ns5 (s6 & R6 & ->) Sa5 A5 P5 _ F5. destruct (passes_keep _ _ _ _ _ P5) as (T5 & _).
    exists (set_registered n s6), tt. split; [reflexivity|]. eapply (finish msg kd); eauto.
    replace (set_registered n s6) with s6; [exact R6|]. rewrite Cn. change (upd (timers c3) id None) with (timers (with_timer id None c3)). rewrite <- T5, <- (p_reg _ _ R6). destruct s6; reflexivity.
Qed.
End Timer.
