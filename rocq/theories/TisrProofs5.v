(** Interrupted calls: clear, the switches and the queries; then whole histories *)
From Coq Require Import List Arith Lia Bool String ZArith Sorted.
From Verif Require Import Util Slots Cmd TimerModel TimerSpec TimerProofs TimerProofs2 TimerProofs3 TimerProofs4 TisrModel TisrSpec TisrProofs TisrProofs2 TisrProofs3 TisrProofs4.
Import ListNotations.
Local Open Scope Z_scope.

Section Timer.
Variable msg : bool.
Variable kd : kind.
Notation cb := (callback_first kd).
Notation passes := (passes msg kd).
Notation Good := (Good msg kd).
Notation Before := (Before msg kd).
Notation After := (After msg kd).
Notation Done_ok := (Done_ok msg kd).
Notation closed := (closed msg kd).

Lemma enable_thread b arr s c : rep s c -> sane c -> Fine [] arr -> Good (Act (modify (set_enabled b)) (fun _ => Fin RUnit)) arr [] 0 s [] (Done_ok c (Enable b)).
Proof.
  intros R Sa F. eapply (g_act msg kd rep (Before c)); eauto using (tickable_rep msg kd), (closed_before msg kd), (before_nil msg kd).
  intros s1 c1 pre1 ns R1 Sa1 B1 P1 _ F1. eexists _, tt. split; [reflexivity|].
  assert (A1 : After c (Enable b) RUnit pre1 (with_running b c1)) by (eapply effect; [exact B1|reflexivity]).
  apply (finish msg kd) with (with_running b c1); [|exact Sa1|exact A1|exact F1]. destruct R1. split; auto.
Qed.
Lemma running_thread arr s c : rep s c -> sane c -> Fine [] arr -> Good (Act (fun s => Ok s (enabled s)) (fun b => Fin (RBool b))) arr [] 0 s [] (Done_ok c IsRunning).
Proof.
  intros R Sa F. apply (read_end msg kd); auto. intros s1 c1 R1 _. exists (enabled s1). split; [reflexivity|]. cbn. now rewrite (p_en _ _ R1).
Qed.
(** a query under the lock *)
Lemma locked_query {A} (act : Cmd st A) (g : A -> res) kk arr s c : rep s c -> sane c -> Fine [] arr ->
  (forall s1 c1, rep s1 c1 -> timers c1 = timers c -> exists a, act s1 = Ok s1 a /\ spec_call msg None kk c1 = Some (g a, c1)) ->
  Good (Lock (Act act (fun a => Unlock (Fin (g a))))) arr [] 0 s [] (Done_ok c kk).
Proof.
  intros R Sa F K. eapply (g_lock msg kd rep (Before c)); eauto using (tickable_rep msg kd), (closed_before msg kd), (before_nil msg kd). intros s3 c3 pre3 ns3 R3 Sa3 B3 P3 W3 F3.
  destruct (K s3 c3 R3 (after_timers _ _ _ _ _ B3)) as (a & E & Sp).
  eapply (l_act msg kd (Before c)); eauto using (closed_before msg kd). intros pre4 p4 B4 F4. exists s3, a. split; [exact E|].
  eapply (l_unlock msg kd (After c kk (g a))); eauto using (closed_after msg kd); [eapply effect; eauto|]. intros pre6 p6 A6 F6. eapply (finish msg kd); eauto.
Qed.
Definition nonempty (c : clock) : bool := match pending c with [] => false | _ => true end.
Lemma not_empty_ok s c : rep s c -> not_empty s = Ok s (nonempty c).
Proof.
  intros R. unfold not_empty, nonempty, has_active_timer, list_empty, cbind, state, ret. rewrite (p_head _ _ R). f_equal. destruct (pending c) as [|[d j] r] eqn:El; cbn; [reflexivity|].
  destruct (Nat.eqb_spec j NO_TIMER) as [->|]; [|reflexivity]. exfalso. apply (rep_no _ _ R). rewrite El. left. reflexivity.
Qed.
Lemma front_ok s c : rep s c -> nonempty c = true -> exists d, front_delta s = Ok s d /\ spec_call msg None TimeToNext c = Some (RTime d, c).
Proof.
  intros R N. unfold nonempty in N. cbn [spec_call]. destruct (pending c) as [|[d j] r] eqn:El; [discriminate|]. exists (d - now c). split; [|reflexivity].
  pose proof (p_seg _ _ R) as Hs. rewrite El in Hs. destruct Hs as [(t & T1 & T2 & _) _].
  unfold front_delta. unfold cbind at 1. cbn [state]. rewrite (p_head _ _ R), El. cbn [hd_id]. unfold cbind. rewrite (rd_ok _ _ _ T1). unfold ret. congruence.
Qed.
Lemma is_on_ok s c id : rep s c -> (id < List.length (timers c))%nat -> is_on id s = Ok s (RBool (is_pending id (pending c))).
Proof.
  intros R Hi. unfold is_on. destruct (nth_error (timers c) id) as [o|] eqn:Eo; [|apply nth_error_None in Eo; lia].
  destruct (rep_rd _ _ _ _ R Eo) as (t & Ht & S). unfold slot_ok in S. rewrite Eo in S. unfold cbind. rewrite (rd_ok _ _ _ Ht). destruct o as [r'|].
  - destruct S as (S1 & _). assert (tid t = id) as -> by (unfold static in S1; congruence).
    destruct (Nat.eqb_spec id NO_TIMER) as [E|]; [pose proof (p_max _ _ R); unfold NO_TIMER in E; lia|].
    rewrite (active_iff _ _ _ _ _ R Ht Eo), negb_involutive. reflexivity.
  - subst t. cbn. unfold ret. do 2 f_equal. destruct (is_pending id (pending c)) eqn:E; [|reflexivity].
    apply is_pending_in in E. destruct (p_pend _ _ R _ E) as (r0 & E0 & _). congruence.
Qed.
Lemma not_pending c id : nonempty c = false -> is_pending id (pending c) = false.
Proof. unfold nonempty. destruct (pending c); [reflexivity|discriminate]. Qed.

Lemma has_active_thread arr s c : rep s c -> sane c -> Fine [] arr -> Good (t_has_active msg kd) arr [] 0 s [] (Done_ok c HasActive).
Proof.
  intros R Sa F. assert (K : forall s1 c1, rep s1 c1 -> timers c1 = timers c -> exists a, not_empty s1 = Ok s1 a /\ spec_call msg None HasActive c1 = Some (RBool a, c1)).
  { intros s1 c1 R1 _. exists (nonempty c1). split; [apply not_empty_ok, R1|reflexivity]. }
  unfold t_has_active. destruct (bare msg kd); [apply (read_end msg kd); auto|apply locked_query; auto].
Qed.
Lemma time_thread arr s c : rep s c -> sane c -> Fine [] arr -> (bare msg kd = true -> nth 1 arr [] = [] \/ all_repeat c) -> Good (t_time_to_next msg kd) arr [] 0 s [] (Done_ok c TimeToNext).
Proof.
  intros R Sa F W. unfold t_time_to_next. destruct (bare msg kd) eqn:Eb.
  - eapply (g_act msg kd rep (Before c)); eauto using (tickable_rep msg kd), (closed_before msg kd), (before_nil msg kd). intros s1 c1 pre1 ns R1 Sa1 B1 P1 _ F1.
    exists s1, (nonempty c1). split; [apply not_empty_ok, R1|]. destruct (nonempty c1) eqn:En.
    + eapply (g_act msg kd rep (Before c)); eauto using (tickable_rep msg kd), (closed_before msg kd). intros s2 c2 pre2 ns2 R2 Sa2 B2 P2 W2 F2.
      assert (N2 : nonempty c2 = true).
      { destruct (W eq_refl) as [W1|W1].
        - rewrite W2 in P2; auto. { inversion P2; subst; exact En. } destruct arr as [|? [|? ?]]; auto.
        - destruct (passes_keep _ _ _ _ _ P2) as (_ & _ & _ & X). unfold nonempty in *. destruct (pending c1) as [|[d j] l] eqn:El; [discriminate|].
          specialize (X (sane_same _ _ _ (after_timers _ _ _ _ _ B1) W1) j ltac:(left; reflexivity)). destruct (pending c2); [contradiction|reflexivity]. }
      destruct (front_ok s2 c2 R2 N2) as (d & E & Sp). exists s2, d. split; [exact E|]. eapply (finish msg kd); eauto. eapply effect; eauto.
    + eapply (finish msg kd); eauto. eapply effect; eauto. cbn. unfold nonempty in En. destruct (pending c1); [reflexivity|discriminate].
  - apply locked_query; auto. intros s1 c1 R1 _. unfold cbind at 1. rewrite (not_empty_ok _ _ R1). destruct (nonempty c1) eqn:En.
    + apply front_ok; auto.
    + exists Inactive. split; [reflexivity|]. cbn. unfold nonempty in En. destruct (pending c1); [reflexivity|discriminate].
Qed.
Lemma is_active_thread id arr s c : rep s c -> sane c -> Fine [] arr -> Good (t_is_active kd id) arr [] 0 s [] (Done_ok c (IsActive id)).
Proof.
  intros R Sa F. unfold t_is_active. eapply (g_act msg kd rep (Before c)); eauto using (tickable_rep msg kd), (closed_before msg kd), (before_nil msg kd).
  intros s1 c1 pre1 ns R1 Sa1 B1 P1 _ F1. eexists s1, _. split; [reflexivity|].
  assert (Lm : MAX s1 = List.length (timers c)) by (unfold MAX; rewrite (p_len _ _ R1), (after_timers _ _ _ _ _ B1); reflexivity). rewrite Lm.
  destruct (Nat.ltb_spec id (List.length (timers c))) as [Hi|Hi].
  2:{ eapply (finish msg kd); eauto. eapply effect; eauto. cbn. do 3 f_equal. destruct (is_pending id (pending c1)) eqn:E; [|reflexivity].
      apply is_pending_in in E. destruct (p_pend _ _ R1 _ E) as (r & Hr & _). rewrite (after_timers _ _ _ _ _ B1) in Hr. apply nth_error_None in Hi. congruence. }
  assert (Le : forall pre d, Before c pre d -> (id < List.length (timers d))%nat) by (intros pre d B; rewrite (after_timers _ _ _ _ _ B); exact Hi).
  assert (No : forall pre d, Before c pre d -> nonempty d = false -> After c (IsActive id) (RBool false) pre d).
  { intros pre d B En. eapply effect; [exact B|]. cbn. now rewrite (not_pending _ _ En). }
  assert (Yes : forall pre d, Before c pre d -> After c (IsActive id) (RBool (is_pending id (pending d))) pre d) by (intros pre d B; eapply effect; [exact B|reflexivity]).
  assert (Two : Good (Lock (Act not_empty (fun b => Unlock (if b then Lock (Act (is_on id) (fun r => Unlock (Fin r))) else Fin (RBool false))))) (tl arr) [] 0 s1 pre1 (Done_ok c (IsActive id))).
  { eapply (g_lock msg kd rep (Before c)); eauto using (tickable_rep msg kd), (closed_before msg kd). intros s3 c3 pre3 ns3 R3 Sa3 B3 P3 W3 F3.
    eapply (l_act msg kd (Before c)); eauto using (closed_before msg kd). intros pre4 p4 B4 F4. exists s3, (nonempty c3). split; [apply not_empty_ok, R3|]. destruct (nonempty c3) eqn:En.
    - eapply (l_unlock msg kd (Before c)); eauto using (closed_before msg kd). intros pre5 p5 B5 F5.
      eapply (g_lock msg kd rep (Before c)); eauto using (tickable_rep msg kd), (closed_before msg kd). intros s6 c6 pre6 ns6 R6 Sa6 B6 P6 W6 F6.
      eapply (l_act msg kd (Before c)); eauto using (closed_before msg kd). intros pre7 p7 B7 F7. eexists s6, _. split; [apply is_on_ok; eauto|].
      eapply (l_unlock msg kd (After c (IsActive id) _)); [apply closed_after|apply Yes; exact B7|exact F7|]. intros pre8 p8 A8 F8. eapply (finish msg kd); eauto.
    - eapply (l_unlock msg kd (After c (IsActive id) (RBool false))); eauto using (closed_after msg kd). intros pre5 p5 B5 F5. eapply (finish msg kd); eauto. }
  destruct kd eqn:Ek; try exact Two; rewrite <- Ek in *.
  - eapply (g_act msg kd rep (Before c)); eauto using (tickable_rep msg kd), (closed_before msg kd). intros s2 c2 pre2 ns2 R2 Sa2 B2 P2 W2 F2.
    exists s2, (nonempty c2). split; [apply not_empty_ok, R2|]. destruct (nonempty c2) eqn:En; [|eapply (finish msg kd); eauto].
    eapply (g_act msg kd rep (Before c)); eauto using (tickable_rep msg kd), (closed_before msg kd). intros s3 c3 pre3 ns3 R3 Sa3 B3 P3 W3 F3.
    eexists s3, _. split; [apply is_on_ok; eauto|]. eapply (finish msg kd); eauto.
  - eapply (g_lock msg kd rep (Before c)); eauto using (tickable_rep msg kd), (closed_before msg kd). intros s3 c3 pre3 ns3 R3 Sa3 B3 P3 W3 F3.
    assert (NL : kd <> Locked) by (rewrite Ek; discriminate).
    eapply (l_lock msg kd (Before c)); eauto using (closed_before msg kd). intros pre4 p4 B4 F4.
    eapply (l_act msg kd (Before c)); eauto using (closed_before msg kd). intros pre5 p5 B5 F5. exists s3, (nonempty c3). split; [apply not_empty_ok, R3|].
    eapply (l_unlock msg kd (Before c)); eauto using (closed_before msg kd). intros pre6 p6 B6 F6. destruct (nonempty c3) eqn:En.
    + eapply (l_act msg kd (Before c)); eauto using (closed_before msg kd). intros pre7 p7 B7 F7. eexists s3, _. split; [apply is_on_ok; eauto|].
      eapply (l_unlock msg kd (After c (IsActive id) _)); [apply closed_after|apply Yes; exact B7|exact F7|]. intros pre8 p8 A8 F8. eapply (finish msg kd); eauto.
    + eapply (l_unlock msg kd (After c (IsActive id) (RBool false))); eauto using (closed_after msg kd). intros pre8 p8 A8 F8. eapply (finish msg kd); eauto.
Qed.

(** ** clear *)
Definition wiped (n i : nat) (s : st) : Prop := tail s = NO_TIMER /\ List.length (arr s) = n /\ forall j, (j < i)%nat -> nth_error (arr s) j = Some blank.
Lemma clear_thread arr s c : rep s c -> sane c -> Fine [] arr -> Good t_clear arr [] 0 s [] (Done_ok c Clear).
Proof.
  intros R Sa F. unfold t_clear.
  eapply (g_lock msg kd rep (Before c)); eauto using (tickable_rep msg kd), (closed_before msg kd), (before_nil msg kd). intros s1 c1 pre1 ns1 R1 Sa1 B1 P1 W1 F1.
  eapply (l_act msg kd (Before c)); eauto using (closed_before msg kd). intros pre2 p2 B2 F2.
  set (n := List.length (timers c1)). set (c2 := mkC (now c1) (repeat None n) [] (running c1) (fired c1)).
  assert (A2 : After c Clear RUnit pre2 c2) by (eapply effect; [exact B2|reflexivity]).
  assert (E2 : exists s2, list_clear s1 = Ok s2 tt /\ idle (wiped n 0) s2 c2).
  { unfold list_clear.
    destruct (clear_loop_ok (List.length (TimerModel.arr s1)) (pending c1) (S (MAX s1)) s1 NO_TIMER (now c1) (p_seg _ _ R1) (p_nd _ _ R1) (rep_no _ _ R1)) as (s' & E & A & B & C); auto.
    { pose proof (p_seg _ _ R1) as Q. apply seg_length in Q; [|apply R1]. unfold MAX. lia. }
    unfold cbind at 1. cbn [state]. rewrite (p_head _ _ R1). unfold cbind at 1. rewrite E. eexists. split; [reflexivity|].
    unfold idle, wiped, c2. cbn. conj; auto; try lia.
    - rewrite A. apply (p_len _ _ R1).
    - rewrite B. apply R1.
    - rewrite C. apply R1.
    - f_equal. unfold MAX. cbn. rewrite A. unfold n. symmetry. apply (p_len _ _ R1). }
  destruct E2 as (s2 & E2 & I2). exists s2, tt. split; [exact E2|].
  eapply (l_unlock msg kd (After c Clear RUnit)); eauto using (closed_after msg kd). intros pre3 p3 A3 F3.
  assert (Sa2 : sane c2).
  { intros i r. cbn. intros H. exfalso. apply nth_error_In in H. apply repeat_spec in H. discriminate. }
  assert (Hn : (n <= 254)%nat) by apply R1.
  eapply (g_act msg kd (idle (wiped n 0)) (After c Clear RUnit)); [apply tickable_idle|apply closed_after|exact I2|exact Sa2|exact A3|exact F3|].
  intros s4 c4 pre4 ns4 I4 Sa4 A4 P4 _ F4. eexists s4, _. split; [reflexivity|].
  assert (Mx : MAX s4 = n) by (unfold MAX; apply I4). rewrite Mx.
  assert (G : forall m i arr s pre c4, (i + m = n)%nat -> idle (wiped n i) s c4 -> sane c4 -> After c Clear RUnit pre c4 -> Fine [] arr ->
     Good (t_blank i m (Act (modify (set_registered 0)) (fun _ => Fin RUnit))) arr [] 0 s pre (Done_ok c Clear)).
  { clear - Hn. induction m as [|m IH]; intros i arr s pre c4 Hi I4 Sa4 A4 F4; cbn [t_blank].
    - replace i with n in * by lia.
      eapply (g_act msg kd (idle (wiped n n)) (After c Clear RUnit)); [apply tickable_idle|apply closed_after|exact I4|exact Sa4|exact A4|exact F4|].
      intros s5 c5 pre5 ns5 ((T5 & L5 & B5) & H5 & En5 & Lo5 & Pe5 & Ti5) Sa5 A5 P5 _ F5. eexists _, tt. split; [reflexivity|].
      eapply (finish msg kd); [|exact Sa5|exact A5|exact F5]. unfold MAX in Ti5. rewrite L5 in Ti5.
      split; cbn; auto; try (rewrite ?Ti5, ?Pe5, ?repeat_length; auto; lia).
      1:{ intros j t Ht. assert (Hj : (j < n)%nat) by (rewrite <- L5; apply nth_error_Some; congruence). rewrite (B5 j Hj) in Ht. injection Ht as <-.
        unfold slot_ok. rewrite Ti5, nth_error_repeat by exact Hj. reflexivity. }
      all: rewrite ?Pe5, ?Ti5; cbn; try (symmetry; apply count_none); try (intros j []); repeat constructor.
    - eapply (g_act msg kd (idle (wiped n i)) (After c Clear RUnit)); [apply tickable_idle|apply closed_after|exact I4|exact Sa4|exact A4|exact F4|].
      intros s5 c5 pre5 ns5 ((T5 & L5 & B5) & H5 & En5 & Lo5 & Pe5 & Ti5) Sa5 A5 P5 _ F5.
      destruct (nth_error (TimerModel.arr s5) i) as [t|] eqn:Et; [|apply nth_error_None in Et; lia].
      eexists _, tt. split; [exact (up_ok i (fun _ => blank) s5 t Et)|].
      apply (IH (S i) _ _ _ c5); auto; [lia|]. unfold idle, wiped, MAX. cbn. rewrite upd_length. conj; auto.
      intros j Hj. rewrite upd_nth. destruct (Nat.eqb_spec i j) as [->|]; [|apply B5; lia]. destruct (Nat.ltb_spec j (List.length (TimerModel.arr s5))); [reflexivity|lia]. }
  eapply G; eauto.
Qed.
End Timer.
