(** Interrupted calls: the calls that change the list under the lock, and the queries *)
From Coq Require Import List Arith Lia Bool String ZArith Sorted.
From Verif Require Import Util Slots Cmd TimerModel TimerSpec TimerProofs TimerProofs2 TimerProofs3 TimerProofs4 TisrModel TisrSpec TisrProofs TisrProofs2 TisrProofs3.
Import ListNotations.
Local Open Scope Z_scope.

Section Timer.
Variable msg : bool.
Variable kd : kind.
Notation cb := (callback_first kd).
Notation passes := (passes msg kd).
Notation Good := (Good msg kd).
Notation Before := (Before msg kd).
Notation After := (After msg kd).
Notation Done_ok := (Done_ok msg kd).
Notation closed := (closed msg kd).

(** the locked part of start *)
Lemma start_body s c id r (immediate : bool) : rep s c -> nth_error (timers c) id = Some (Some r) -> r_period r <> Inactive ->
  exists s', (let! t := rd id in
               (if Z.eqb (delta t) Inactive then ret tt else remove (tid t) false) ;;
               up id (set_delta (if immediate then 0 else period t)) ;;
               let! t := rd id in insert (tid t)) s = Ok s' tt /\
     rep s' (with_pending (schedule (if immediate then now c else now c + r_period r) id (cancel id (pending c))) c).
Proof.
  intros R Hr Hne. destruct (rep_rd _ _ id (Some r) R Hr) as (t & Ht & S). unfold slot_ok in S. rewrite Hr in S. destruct S as (S0 & Hper & _).
  assert (Hp : period t = r_period r) by (unfold static in S0; congruence).
  destruct (deactivate_ok s c id t r R Ht Hr) as (s' & E & R').
  destruct (rep_rd _ _ id (Some r) R' Hr) as (t' & Ht' & S'). unfold slot_ok in S'. cbn in S'. rewrite Hr in S'. destruct S' as (S1 & S2 & S3).
  set (dl := if immediate then 0 else r_period r).
  assert (T2 : nth_error (arr (set_arr (upd (arr s') id (set_delta dl t')) s')) id = Some (set_delta dl t')).
  { cbn. apply upd_same, nth_error_Some. congruence. }
  assert (tid (set_delta dl t') = id) as Hid by (cbn; unfold static in S1; congruence).
  assert (Hbound : 0 <= dl <= Inactive - 1) by (unfold dl, Inactive in *; destruct immediate; lia).
  destruct (insert_rep s' _ id t' r (now c + dl) R' (cancel_not_in quiet _ _) Ht' Hr Hne ltac:(cbn; lia)) as (s2 & E2 & R2).
  cbn [now with_pending] in E2. replace (now c + dl - now c) with dl in E2 by lia.
  exists s2. split.
  - rewrite (cbind_ok _ _ _ _ _ (rd_ok _ _ _ Ht)). rewrite (cbind_ok _ _ _ _ _ E). rewrite Hp. fold dl.
    rewrite (cbind_ok _ _ _ _ _ (up_ok id (set_delta dl) _ _ Ht')). rewrite (cbind_ok _ _ _ _ _ (rd_ok _ _ _ T2)), Hid. exact E2.
  - replace (if immediate then now c else now c + r_period r) with (now c + dl) by (unfold dl; destruct immediate; lia). exact R2.
Qed.
Lemma start_thread id b arr s c : rep s c -> sane c -> id_ok id c -> Fine [] arr -> Good (t_start id b) arr [] 0 s [] (Done_ok c (Start id b)).
Proof.
  intros R Sa Hid F. unfold t_start. eapply on_ok; eauto.
  { intros c1 H. cbn [spec_call]. apply ref_false, H. }
  intros s1 c1 pre1 r R1 Sa1 B1 Hne Hr F1. eapply (g_act msg kd rep (Before c)); eauto using (tickable_rep msg kd), (closed_before msg kd).
  intros s2 c2 pre2 ns R2 Sa2 B2 P2 _ F2. assert (Hr2 : nth_error (timers c2) id = Some (Some r)) by (rewrite (after_timers _ _ _ _ _ B2); exact Hr).
  destruct (rep_rd _ _ id (Some r) R2 Hr2) as (t & Ht & S). unfold slot_ok in S. rewrite Hr2 in S. destruct S as (S0 & Hper & _).
  assert (Hp : period t = r_period r) by (unfold static in S0; congruence). exists s2, t. split; [apply rd_ok, Ht|]. rewrite Hp.
  destruct (Z.eqb_spec (r_period r) Inactive) as [Hi|Hi].
  - eapply (finish msg kd); eauto. eapply effect; eauto. cbn [spec_call]. rewrite (ref_true _ _ r Hr2 Hne), Hi. reflexivity.
  - eapply (g_lock msg kd rep (Before c)); eauto using (tickable_rep msg kd), (closed_before msg kd). intros s3 c3 pre3 ns3 R3 Sa3 B3 P3 W3 F3.
    assert (Hr3 : nth_error (timers c3) id = Some (Some r)) by (rewrite (after_timers _ _ _ _ _ B3); exact Hr).
    destruct (start_body s3 c3 id r b R3 Hr3 Hi) as (s4 & E4 & R4).
    eapply (l_act msg kd (Before c)); eauto using (closed_before msg kd). intros pre4 p4 B4 F4. exists s4, tt. split; [exact E4|].
    assert (A4 : After c (Start id b) (RBool true) pre4 (with_pending (schedule (if b then now c3 else now c3 + r_period r) id (cancel id (pending c3))) c3)).
    { eapply effect; [exact B4|]. cbn [spec_call]. rewrite (ref_true _ _ r Hr3 Hne). destruct (Z.eqb_spec (r_period r) Inactive); [contradiction|reflexivity]. }
    eapply (l_unlock msg kd (After c (Start id b) (RBool true))); eauto using (closed_after msg kd). intros pre5 p5 A5 F5. eapply (finish msg kd); eauto.
Qed.

(** ** register_timer *)
Lemma register_thread o p b arr s c : rep s c -> sane c -> Fine [] arr -> 1 <= p < 4294967296 -> Good (t_register msg kd o p b) arr [] 0 s [] (Done_ok c (Register o p b)).
Proof.
  intros R Sa F Hp. assert (U : is_u32 p = true) by (apply is_u32_spec; lia). unfold t_register.
  eapply (g_act msg kd rep (Before c)); eauto using (tickable_rep msg kd), (closed_before msg kd), (before_nil msg kd). intros s1 c1 pre1 ns R1 Sa1 B1 P1 _ F1.
  eexists s1, _. split; [reflexivity|].
  assert (Lt : (registered s1 <? MAX s1)%nat = (count_some (timers c1) <? List.length (timers c1))%nat) by (rewrite (p_reg _ _ R1); unfold MAX; rewrite (p_len _ _ R1); reflexivity).
  rewrite Lt. pose proof (count_some_le (timers c1)) as Le. destruct (Nat.ltb_spec (count_some (timers c1)) (List.length (timers c1))) as [Hlt|Hge].
  2:{ eapply (finish msg kd); eauto. eapply effect; eauto. cbn [spec_call]. rewrite U. destruct (msg && _); [reflexivity|].
      assert (first_free (timers c1) 0 = None) as -> by (apply first_free_none; lia). reflexivity. }
  destruct (msg && match o with None => true | _ => false end) eqn:Em.
  { eapply (finish msg kd); eauto. eapply effect; eauto. cbn [spec_call]. rewrite U, Em. reflexivity. }
  eapply (g_act msg kd rep (Before c)); eauto using (tickable_rep msg kd), (closed_before msg kd). intros s2 c2 pre2 ns2 R2 Sa2 B2 P2 _ F2.
  eexists s2, _. split; [reflexivity|]. rewrite (find_free_spec _ _ R2). destruct (first_free (timers c2) 0) as [i|] eqn:Ef.
  2:{ eapply (finish msg kd); eauto. eapply effect; eauto. cbn [spec_call]. rewrite U, Em, Ef. reflexivity. }
  pose proof Ef as Ef2. apply first_free_spec in Ef2 as (_ & Ei). rewrite Nat.sub_0_r in Ei.
  (* constructing the timer in state s3 with clock c3 *)
  assert (Step : forall s3 c3 pre3, rep s3 c3 -> sane c3 -> Before c pre3 c3 ->
     exists s4, up i (fun _ => fresh i o p b) s3 = Ok s4 tt /\ off (registered s3) s4 (with_timer i (Some (mkR o p b)) c3) /\ registered s3 = count_some (timers c3) /\
       count_some (upd (timers c3) i (Some (mkR o p b))) = S (count_some (timers c3)) /\ sane (with_timer i (Some (mkR o p b)) c3) /\
       After c (Register o p b) (RId i) pre3 (with_timer i (Some (mkR o p b)) c3)).
  { intros s3 c3 pre3 R3 Sa3 B3. assert (T3 : timers c3 = timers c2) by (rewrite (after_timers _ _ _ _ _ B3), (after_timers _ _ _ _ _ B2); reflexivity).
    assert (E3 : nth_error (timers c3) i = Some None) by (rewrite T3; exact Ei). destruct (rep_rd _ _ _ _ R3 E3) as (t & Ht & _).
    assert (N3 : ~ In i (ids (pending c3))) by (intros X; destruct (p_pend _ _ R3 _ X) as (r' & E' & _); congruence).
    pose proof (count_some_upd _ _ _ (Some (mkR o p b)) E3) as Q. cbn [is_some] in Q. 
    assert (Cn : count_some (upd (timers c3) i (Some (mkR o p b))) = S (count_some (timers c3))) by lia.
    eexists. split; [exact (up_ok i (fun _ => fresh i o p b) _ _ Ht)|]. conj; auto.
    - eapply off_intro; [apply (rep_slot s3 c3 i None (Some (mkR o p b)) (fresh i o p b) (S (count_some (timers c3))) R3 E3 N3)|reflexivity]; [|lia]. cbn. conj; auto; lia.
    - apply R3.
    - apply sane_upd; auto. cbn. lia.
    - eapply effect; [exact B3|]. cbn [spec_call]. rewrite U, Em, T3, Ef. reflexivity. }
  assert (Count : forall s4 c3 m, off m s4 (with_timer i (Some (mkR o p b)) c3) -> m = count_some (timers c3) -> count_some (upd (timers c3) i (Some (mkR o p b))) = S (count_some (timers c3)) ->
     forall c4, timers c4 = timers (with_timer i (Some (mkR o p b)) c3) -> forall s5, off m s5 c4 -> rep (set_registered (S (registered s5)) s5) c4).
  { intros s4 c3 m O4 -> C3 c4 T4 s5 (s6 & R6 & ->). cbn [registered set_registered]. replace (set_registered _ _) with s6; [exact R6|].
    assert (registered s6 = S (count_some (timers c3))) by (rewrite (p_reg _ _ R6), T4; exact C3). destruct s6; cbn in *. unfold set_registered. cbn. congruence. }
  assert (Open : Good (Act (up i (fun _ => fresh i o p b)) (fun _ => Act (modify (fun s => set_registered (S (registered s)) s)) (fun _ => Fin (RId i)))) (tl (tl arr)) [] 0 s2 pre2 (Done_ok c (Register o p b))).
  { eapply (g_act msg kd rep (Before c)); eauto using (tickable_rep msg kd), (closed_before msg kd). intros s3 c3 pre3 ns3 R3 Sa3 B3 P3 _ F3.
    destruct (Step s3 c3 pre3 R3 Sa3 B3) as (s4 & E4 & O4 & C4 & D4 & S4 & A4). exists s4, tt. split; [exact E4|].
    eapply (g_act msg kd (off (registered s3)) (After c (Register o p b) (RId i))); [apply tickable_off|apply closed_after|exact O4|exact S4|exact A4|exact F3|].
    intros s5 c5 pre5 ns5 O5 Sa5 A5 P5 _ F5. destruct (passes_keep _ _ _ _ _ P5) as (T5 & _). eexists _, tt. split; [reflexivity|].
    eapply (finish msg kd); [|exact Sa5|exact A5|exact F5]. eapply Count; eauto. }
  destruct kd eqn:Ek; try exact Open.
  rewrite <- Ek in *.
  eapply (g_lock msg kd rep (Before c)); eauto using (tickable_rep msg kd), (closed_before msg kd). intros s3 c3 pre3 ns3 R3 Sa3 B3 P3 W3 F3.
  eapply (l_act msg kd (Before c)); eauto using (closed_before msg kd). intros pre4 p4 B4 F4.
  destruct (Step s3 c3 pre4 R3 Sa3 B4) as (s4 & E4 & O4 & C4 & D4 & S4 & A4). exists s4, tt. split; [exact E4|].
  eapply (l_act msg kd (After c (Register o p b) (RId i))); eauto using (closed_after msg kd). intros pre5 p5 A5 F5. eexists _, tt. split; [reflexivity|].
  eapply (l_unlock msg kd (After c (Register o p b) (RId i))); eauto using (closed_after msg kd). intros pre6 p6 A6 F6.
  eapply (finish msg kd); [|exact S4|exact A6|exact F6]. eapply Count; eauto.
Qed.
End Timer.
