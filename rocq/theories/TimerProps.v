(** * Property C25: software timers (callback_timer, message_timer and their
    atomic / interrupt / locked variants).
    Quantified over: the header ([msg], [cb_first]), the number of timers
    (<= 254), what every callback does (any program over the API, depending on
    everything that was invoked before), and every history of calls. *)
From Coq Require Import List Arith Lia Bool String ZArith Sorted.
From Verif Require Import Util Slots Cmd TimerModel TimerSpec TimerProofs TimerProofs2 TimerProofs3 TimerProofs4.
Import ListNotations.
Local Open Scope Z_scope.

(** The delta list behaves like a clock with a sorted table of absolute due
    times: all results and all callback invocations, in order, agree. *)
Theorem C25_timer_refines_clock :
  forall (msg cb_first : bool) (callback : nat -> list (nat * nat) -> prog) (fuel max : nat), (max <= 254)%nat ->
  forall ops seen c,
    spec_run (timer_spec msg cb_first callback fuel) ops (power_up max) = Some (seen, c) ->
    exists s, run (exec msg cb_first callback fuel) ops (make max) = Some (seen, s) /\ log s = fired c.
Proof.
  intros msg cb_first callback fuel max Hm ops seen c H.
  destruct (run_refines (exec msg cb_first callback fuel) (timer_spec msg cb_first callback fuel) rep
     (step_refines msg cb_first callback fuel) ops _ _ seen c (rep_make max Hm) H) as (s & E & R).
  exists s. split; [exact E|apply (p_log _ _ R)].
Qed.
Print Assumptions C25_timer_refines_clock.

(** Timer [id] is registered with period p >= 1, started, and then left alone by
    the application and by every callback.  Whatever else happens (other timers
    registered, started, stopped, unregistered; callbacks of any kind; ticks of
    any sizes; enable / disable), the number of its invocations since the start
    is exactly D / p when repeating, and 1 iff D >= p when single shot, where D is
    the total time of the processed ticks since the start. *)
Theorem C25_timer_fires_exactly :
  forall (msg cb_first : bool) (callback : nat -> list (nat * nat) -> prog) (fuel max : nat), (max <= 254)%nat ->
  forall (id k : nat) (p : Z) (rep : bool) before mid after seen0 seenm seen c0 c1 c2,
    1 <= p ->
    (forall j h, avoids id (callback j h)) ->
    Forall (op_avoids id) mid -> Forall (op_avoids id) after ->
    spec_run (timer_spec msg cb_first callback fuel) before (power_up max) = Some (seen0, c0) ->
    spec_run (timer_spec msg cb_first callback fuel)
       (Call (Register (Some k) p rep) :: mid ++ [Call (Start id false)]) c0 =
       Some (Returned (RId id) :: seenm ++ [Returned (RBool true)], c1) ->
    spec_run (timer_spec msg cb_first callback fuel) after c1 = Some (seen, c2) ->
    exists s0 s1 s2,
      run (exec msg cb_first callback fuel) before (make max) = Some (seen0, s0) /\
      run (exec msg cb_first callback fuel) (Call (Register (Some k) p rep) :: mid ++ [Call (Start id false)]) s0 =
        Some (Returned (RId id) :: seenm ++ [Returned (RBool true)], s1) /\
      run (exec msg cb_first callback fuel) after s1 = Some (seen, s2) /\
      fires id (log s2) - fires id (log s1) =
        (let D := ticked after seen in if rep then D / p else if p <=? D then 1 else 0).
Proof.
  intros msg cb_first callback fuel max Hm id k p rpt before mid after seen0 seenm seen c0 c1 c2 Hp Hcb Am Aa H0 H1 H2.
  pose proof (step_refines msg cb_first callback fuel) as St.
  destruct (run_refines _ _ rep St _ _ _ _ _ (rep_make max Hm) H0) as (s0 & E0 & R0).
  destruct (run_refines _ _ rep St _ _ _ _ _ R0 H1) as (s1 & E1 & R1).
  destruct (run_refines _ _ rep St _ _ _ _ _ R1 H2) as (s2 & E2 & R2).
  exists s0, s1, s2. conj; auto.
  cbn [spec_run] in H1.
  destruct (timer_spec msg cb_first callback fuel (Call (Register (Some k) p rpt)) c0) as [[x ca]|] eqn:Ea; [|discriminate].
  destruct (spec_run (timer_spec msg cb_first callback fuel) (mid ++ [Call (Start id false)]) ca) as [[l cb]|] eqn:Eb; [|discriminate].
  injection H1 as -> -> ->.
  assert (Sp : forall (l1 : list op) l2 (a : clock) sn b, spec_run (timer_spec msg cb_first callback fuel) (l1 ++ l2) a = Some (sn, b) ->
     exists sn1 sn2 m, sn = sn1 ++ sn2 /\ spec_run (timer_spec msg cb_first callback fuel) l1 a = Some (sn1, m) /\
       spec_run (timer_spec msg cb_first callback fuel) l2 m = Some (sn2, b)).
  { clear. induction l1 as [|o l1 IH]; intros l2 a sn b H; cbn [app spec_run] in *.
    - exists [], sn, a. auto.
    - destruct (timer_spec msg cb_first callback fuel o a) as [[x a1]|]; [|discriminate].
      destruct (spec_run (timer_spec msg cb_first callback fuel) (l1 ++ l2) a1) as [[l b1]|] eqn:E; [|discriminate].
      injection H as <- <-. destruct (IH _ _ _ _ E) as (sn1 & sn2 & m & -> & E1 & E2). exists (x :: sn1), sn2, m.
      rewrite E1. auto. }
  assert (K : nth_error (timers ca) id = Some (Some (mkR (Some k) p rpt))).
  { cbn in Ea. destruct (is_u32 p); [|discriminate]. replace (msg && false) with false in Ea by (destruct msg; reflexivity).
    destruct (first_free (timers c0) 0) as [j|] eqn:Ef.
    - injection Ea as <- <-. apply first_free_spec in Ef. rewrite Nat.sub_0_r in Ef. destruct Ef as [_ Ef]. cbn.
      apply upd_same. apply nth_error_Some. congruence.
    - injection Ea as <- <-. exfalso.
      (* the id would be NO_TIMER, which cannot be started *)
      destruct (Sp _ _ _ _ _ Eb) as (sn1 & sn2 & cm & Es & _ & Ex). cbn in Ex. injection Ex as <- <-.
      apply app_inj_tail in Es. destruct Es as [_ Es]. discriminate. }
  destruct (Sp _ _ _ _ _ Eb) as (sn1 & sn2 & cm & Es & Em & Ex). cbn [spec_run] in Ex.
  pose proof (run_still msg cb_first callback id Hcb _ fuel _ _ _ _ K Am Em) as Km.
  destruct (timer_spec msg cb_first callback fuel (Call (Start id false)) cm) as [[x cs]|] eqn:Eq; [|discriminate].
  injection Ex as <- <-. apply app_inj_tail in Es. destruct Es as [_ <-].
  unfold timer_spec in Eq. destruct (spec_call msg None (Start id false) cm) as [[y cz]|] eqn:Ez; [|discriminate].
  injection Eq as -> ->.
  destruct (start_settled msg id (mkR (Some k) p rpt) (now cm) (fires id (fired cm)) Hp cm cs Km eq_refl eq_refl Ez) as (S1 & S2 & S3).
  destruct (run_settled msg cb_first callback id Hcb (mkR (Some k) p rpt) k eq_refl (now cm) (fires id (fired cm)) fuel
             after cs 0 seen c2 s1 R1 S1 Aa H2) as (n' & S4 & Hn).
  pose proof (settled_count id (mkR (Some k) p rpt) _ _ Hp _ _ S4) as Q. cbn in Q.
  rewrite (p_log _ _ R2), (p_log _ _ R1), S3, Q, Hn, S2. cbn.
  replace (now cm + ticked after seen - now cm) with (ticked after seen) by lia.
  destruct rpt; [reflexivity|]. destruct (Z.leb_spec (now cm + p) (now cm + ticked after seen)), (Z.leb_spec p (ticked after seen)); auto; lia.
Qed.
Print Assumptions C25_timer_fires_exactly.

(** Time may be chunked: one tick of a + b does what a tick of a followed by a
    tick of b does, at once and for the whole future ([fuel] only bounds the
    number of expirations inside one tick). *)
Theorem C25_tick_chunking :
  forall (msg cb_first : bool) (callback : nat -> list (nat * nat) -> prog) (fuel max : nat), (max <= 254)%nat ->
  forall before after a b seen0 l1 l2 seen c,
    0 <= a -> 0 <= b -> a + b < 4294967296 ->
    spec_run (timer_spec msg cb_first callback fuel) (before ++ Tick a :: Tick b :: after) (power_up max) =
      Some (seen0 ++ Returned (RTick true l1) :: Returned (RTick true l2) :: seen, c) ->
    List.length seen0 = List.length before ->
    (exists s, run (exec msg cb_first callback fuel) (before ++ Tick a :: Tick b :: after) (make max) =
      Some (seen0 ++ Returned (RTick true l1) :: Returned (RTick true l2) :: seen, s)) /\
    (exists s, run (exec msg cb_first callback (fuel + fuel)) (before ++ Tick (a + b) :: after) (make max) =
      Some (seen0 ++ Returned (RTick true l2) :: seen, s)).
Proof.
  intros msg cb_first callback fuel max Hm before after a b seen0 l1 l2 seen c Ha Hb Hab H Hl. split.
  - destruct (C25_timer_refines_clock msg cb_first callback fuel max Hm _ _ _ H) as (s & E & _). eauto.
  - assert (Mono : forall ops c0 sn c1, spec_run (timer_spec msg cb_first callback fuel) ops c0 = Some (sn, c1) ->
       spec_run (timer_spec msg cb_first callback (fuel + fuel)) ops c0 = Some (sn, c1)).
    { induction ops as [|o ops IH]; intros c0 sn c1 E; cbn [spec_run] in *; [exact E|].
      destruct (timer_spec msg cb_first callback fuel o c0) as [[x c2]|] eqn:E1; [|discriminate].
      replace (timer_spec msg cb_first callback (fuel + fuel) o c0) with (Some (x, c2)).
      - destruct (spec_run (timer_spec msg cb_first callback fuel) ops c2) as [[y c3]|] eqn:E2; [|discriminate].
        rewrite (IH _ _ _ E2). exact E.
      - symmetry. destruct o as [k|n]; [exact E1|]. cbn in *. destruct (is_u32 n); [|discriminate]. destruct (running c0); [|exact E1].
        destruct (elapse msg cb_first callback fuel (now c0 + n) c0) as [c3|] eqn:E3; [|discriminate].
        rewrite (elapse_mono msg cb_first callback fuel (fuel + fuel) _ _ _ (Nat.le_add_r _ _) E3). exact E1. }
    enough (H' : spec_run (timer_spec msg cb_first callback (fuel + fuel)) (before ++ Tick (a + b) :: after) (power_up max) =
       Some (seen0 ++ Returned (RTick true l2) :: seen, c)).
    { destruct (C25_timer_refines_clock msg cb_first callback (fuel + fuel) max Hm _ _ _ H') as (s & E & _). eauto. }
    revert seen0 Hl H. generalize (power_up max). induction before as [|o before IH]; intros c0 seen0 Hl H.
    + destruct seen0; [|discriminate]. cbn [app spec_run] in H |- *. cbn [timer_spec] in H |- *.
      assert (Ua : is_u32 a = true) by (apply is_u32_spec; lia). assert (Ub : is_u32 b = true) by (apply is_u32_spec; lia).
      assert (Uab : is_u32 (a + b) = true) by (apply is_u32_spec; lia). rewrite Ua, Uab in *.
      destruct (running c0) eqn:Er.
      * destruct (elapse msg cb_first callback fuel (now c0 + a) c0) as [c1|] eqn:E1; [|discriminate]. rewrite Ub in H.
        destruct (running c1) eqn:Er1.
        -- assert (N : now c1 = now c0 + a).
           { clear - E1. revert E1. generalize (now c0 + a) as t. intros t. revert c0. induction fuel as [|f IHf]; intros c0 E; cbn in E; [discriminate|].
             destruct (pending c0) as [|[d i] rest]; [injection E as <-; reflexivity|].
             destruct (d <=? t); [|injection E as <-; reflexivity].
             destruct (expire msg cb_first callback d i _) as [c2|]; cbn in E; [|discriminate]. eauto. }
           destruct (elapse msg cb_first callback fuel (now c1 + b) c1) as [c2|] eqn:E2; [|discriminate].
           rewrite N in E2. rewrite Z.add_assoc.
           rewrite (elapse_join _ _ _ fuel fuel (now c0 + a) (now c0 + a + b) c0 c1 c2) by (assumption || lia).
           destruct (spec_run (timer_spec msg cb_first callback fuel) after c2) as [[y c3]|] eqn:E3; [|discriminate].
           rewrite (Mono _ _ _ _ E3). injection H as _ <- <- <-. reflexivity.
        -- destruct (spec_run (timer_spec msg cb_first callback fuel) after c1) as [[y c3]|]; discriminate.
      * destruct (is_u32 b); [|discriminate]. rewrite Er in H. destruct (spec_run (timer_spec msg cb_first callback fuel) after c0) as [[y c3]|]; discriminate.
    + destruct seen0 as [|x seen0]; [discriminate|]. cbn [app spec_run] in H |- *.
      destruct (timer_spec msg cb_first callback fuel o c0) as [[x' c1]|] eqn:E1; [|discriminate].
      pose proof (Mono [o] c0 [x'] c1) as M1. cbn [spec_run] in M1. rewrite E1 in M1. specialize (M1 eq_refl).
      destruct (timer_spec msg cb_first callback (fuel + fuel) o c0) as [[x2 c2]|]; [|discriminate]. injection M1 as -> ->.
      destruct (spec_run (timer_spec msg cb_first callback fuel) (before ++ Tick a :: Tick b :: after) c1) as [[y c3]|] eqn:E3; [|discriminate].
      injection H as -> -> ->. rewrite (IH c1 seen0); auto.
Qed.
Print Assumptions C25_tick_chunking.

(** Every tick terminates when periods are positive and callbacks do not call
    back into the timer service. *)
Theorem C25_tick_terminates :
  forall (msg cb_first : bool) (callback : nat -> list (nat * nat) -> prog) (fuel max : nat), (max <= 254)%nat ->
  (forall k h, callback k h = Done) ->
  forall ops seen c n s,
    Forall (fun o => match o with Call (Register _ p _) | Call (SetPeriod _ p) => 1 <= p | _ => True end) ops ->
    spec_run (timer_spec msg cb_first callback fuel) ops (power_up max) = Some (seen, c) ->
    run (exec msg cb_first callback fuel) ops (make max) = Some (seen, s) ->
    0 <= n < 4294967296 ->
    exists fuel' s' b l, exec msg cb_first callback fuel' (Tick n) s = Ok s' (RTick b l).
Proof.
  intros msg cb_first callback fuel max Hm Hcb ops seen c n s Hpos H Hr Hn.
  destruct (run_refines _ _ rep (step_refines msg cb_first callback fuel) _ _ _ _ _ (rep_make max Hm) H) as (s' & E & R).
  rewrite Hr in E. injection E as <-.
  assert (Pos : forall i r, nth_error (timers c) i = Some (Some r) -> 1 <= r_period r).
  { assert (P0 : forall i r, nth_error (timers (power_up max)) i = Some (Some r) -> 1 <= r_period r).
    { cbn. intros i r E. apply nth_error_In, repeat_spec in E. discriminate. }
    clear Hr R Hm. revert seen H P0. generalize (power_up max). induction ops as [|o ops IH]; intros c0 seen H P0; cbn [spec_run] in H.
    - injection H as <- <-. exact P0.
    - destruct (timer_spec msg cb_first callback fuel o c0) as [[x c1]|] eqn:E1; [|discriminate].
      destruct (spec_run (timer_spec msg cb_first callback fuel) ops c1) as [[y c2]|] eqn:E2; [|discriminate]. injection H as <- <-.
      inversion_clear Hpos as [|? ? Hp1 Hp2]. apply (IH Hp2 c1 y E2). clear IH E2 Hp2.
      pose proof (spec_pos msg cb_first callback Hcb fuel) as SP. eapply SP; eauto. }
  destruct (running c) eqn:Er.
  - destruct (elapse_total msg cb_first callback Hcb (now c + n) _ c s (Nat.le_refl _) R Pos ltac:(lia)) as (c' & Ec).
    set (f := S _) in Ec. exists f.
    pose proof (step_refines msg cb_first callback f (Tick n) s c (Returned (RTick true (fired c'))) c' R) as St.
    cbn [timer_spec] in St. rewrite Er, Ec in St. replace (is_u32 n) with true in St by (symmetry; apply is_u32_spec; exact Hn).
    specialize (St eq_refl). destruct (exec msg cb_first callback f (Tick n) s) as [s2 r2| |]; [|destruct St; discriminate|contradiction].
    destruct St as [St _]. injection St as <-. eauto.
  - exists 0%nat. cbn. unfold tick, cbind, state. rewrite (p_en _ _ R), Er. unfold ret. eauto.
Qed.
Print Assumptions C25_tick_terminates.

(** one iteration of the loop of tick: [inl] = go on, [inr] = leave *)
Definition tick_body (msg cb_first : bool) callback (count : Z) : Cmd st (Z + Z * bool) :=
  let! e := list_empty in
  if e then ret (inr (count, false)) else
  let! s := state in
  let! timer := rd (head s) in
  let i := head s in
  if delta timer <=? count then
    let count := u32 (count - delta timer) in
    remove (tid timer) true ;;
    (if cb_first then
       let! timer := rd i in invoke msg callback i (cbk timer) ;; reinsert i
     else
       reinsert i ;; let! timer := rd i in invoke msg callback i (cbk timer)) ;;
    ret (inl count)
  else ret (inr (count, true)).
Lemma tick_loop_S msg cb_first callback f count s s' count' :
  tick_body msg cb_first callback count s = Ok s' (inl count') ->
  tick_loop msg cb_first callback (S f) count s = tick_loop msg cb_first callback f count' s'.
Proof.
  cbn [tick_loop]. unfold tick_body, cbind. destruct (list_empty s) as [s1 e| |]; try discriminate. destruct e; [discriminate|].
  unfold state. destruct (rd (head s1) s1) as [s2 t| |]; try discriminate. destruct (delta t <=? count); [|discriminate].
  destruct (remove (tid t) true s2) as [s3 u| |]; try discriminate.
  match goal with |- match ?m with _ => _ end = _ -> _ => destruct m as [s4 u'| |] end; try discriminate.
  unfold ret. intros H. injection H as <- <-. reflexivity.
Qed.

(** FINDING (callback_timer.h: 567-602 and the other seven headers): a
    repeating timer of period 0 makes tick loop forever, whatever the tick
    (even tick(0)): no number of iterations is enough. *)
Theorem C25_zero_period_diverges_refuted :
  forall (msg cb_first : bool), exists s,
    run (exec msg cb_first (fun _ _ => Done) 0) [Call (Register (Some 0%nat) 0 true); Call (Start 0 false); Call (Enable true)] (make 1) =
      Some ([Returned (RId 0); Returned (RBool true); Returned RUnit], s) /\
    forall fuel n, 0 <= n < 4294967296 -> exec msg cb_first (fun _ _ => Done) fuel (Tick n) s = Bad.
Proof.
  intros msg cb_first. eexists. split; [destruct msg; vm_compute; reflexivity|].
  intros fuel n Hn.
  set (S0 := fun l => mkS [mkT (Some 0%nat) 0 0 0 255 255 true] 0 0 true 1 l).
  assert (I : forall l, tick_body msg cb_first (fun _ _ => Done) n (S0 l) = Ok (S0 (l ++ [(0, 0)%nat])) (inl n)).
  { intros l. unfold tick_body, list_empty, cbind, state, ret, rd. cbn. destruct (Z.leb_spec 0 n) as [_|]; [|lia].
    replace (u32 (n - 0)) with n by (unfold u32; rewrite Z.sub_0_r, Z.mod_small; lia).
    destruct cb_first; reflexivity. }
  assert (L : forall f l, tick_loop msg cb_first (fun _ _ => Done) f n (S0 l) = Bad).
  { induction f as [|f IH]; intros l; [reflexivity|]. rewrite (tick_loop_S _ _ _ _ _ _ _ _ (I l)). apply IH. }
  unfold exec, tick, cbind, state. change (enabled (S0 [])) with true. cbn iota. cbv beta. rewrite L. reflexivity.
Qed.
Print Assumptions C25_zero_period_diverges_refuted.

(** FINDING (message_timer.h: 398 and the three message_timer_* variants):
    unregister_timer removes an active timer as if it had expired, so the time it
    still had to run is taken away from every later timer.  A (period 5) and B
    (period 10) start together; A is unregistered; B is delivered 5 units after
    its start instead of 10.  The callback timers do not have the defect. *)
Definition unregister_history : list op :=
  [Call (Register (Some 0%nat) 5 false); Call (Register (Some 1%nat) 10 false); Call (Enable true);
   Call (Start 0 false); Call (Start 1 false); Call (Unregister 0); Tick 5].
Theorem C25_message_timer_unregister_refuted :
  forall cb_first, exists s,
    run (exec true cb_first (fun _ _ => Done) 10) unregister_history (make 2) =
    Some ([Returned (RId 0); Returned (RId 1); Returned RUnit; Returned (RBool true); Returned (RBool true); Returned (RBool true);
           Returned (RTick true [(1%nat, 1%nat)])], s).
Proof. intros [|]; eexists; vm_compute; reflexivity. Qed.
Print Assumptions C25_message_timer_unregister_refuted.
Theorem C25_callback_timer_unregister :
  forall cb_first, exists s,
    run (exec false cb_first (fun _ _ => Done) 10) unregister_history (make 2) =
    Some ([Returned (RId 0); Returned (RId 1); Returned RUnit; Returned (RBool true); Returned (RBool true); Returned (RBool true);
           Returned (RTick true [])], s).
Proof. intros [|]; eexists; vm_compute; reflexivity. Qed.

(** FINDING (callback_timer_atomic/_interrupt/_locked.h, e.g.
    callback_timer_locked.h: 176-189, and the message_timer ones): the callback
    runs before a repeating timer is re-inserted.  stop() of the timer from its
    own callback returns true and has no effect: the timer keeps firing.  In
    callback_timer.h it stops. *)
Definition stop_self : nat -> list (nat * nat) -> prog := fun _ _ => Do (Stop 0) (fun _ => Done).
Definition self_history : list op :=
  [Call (Register (Some 0%nat) 5 true); Call (Enable true); Call (Start 0 false); Tick 5; Tick 5; Tick 5].
Theorem C25_stop_in_own_callback_refuted :
  forall msg, exists s,
    run (exec msg true stop_self 10) self_history (make 2) =
    Some ([Returned (RId 0); Returned RUnit; Returned (RBool true);
           Returned (RTick true [(0, 0)]%nat); Returned (RTick true [(0, 0); (0, 0)]%nat); Returned (RTick true [(0, 0); (0, 0); (0, 0)]%nat)], s).
Proof. intros [|]; eexists; vm_compute; reflexivity. Qed.
Print Assumptions C25_stop_in_own_callback_refuted.
Theorem C25_stop_in_own_callback :
  forall msg, exists s,
    run (exec msg false stop_self 10) self_history (make 2) =
    Some ([Returned (RId 0); Returned RUnit; Returned (RBool true);
           Returned (RTick true [(0, 0)]%nat); Returned (RTick true [(0, 0)]%nat); Returned (RTick true [(0, 0)]%nat)], s).
Proof. intros [|]; eexists; vm_compute; reflexivity. Qed.

(** FINDING (same headers): start() of a repeating timer from its own callback
    inserts it into the active list, and the code after the callback inserts it
    again: it becomes its own successor with a delta of 0, and the tick never
    ends (no number of iterations is enough).  In callback_timer.h the
    restart works: one invocation per period. *)
Definition start_self : nat -> list (nat * nat) -> prog := fun _ _ => Do (Start 0 false) (fun _ => Done).
Definition start_history : list op := [Call (Register (Some 0%nat) 5 true); Call (Enable true); Call (Start 0 false)].
Theorem C25_start_in_own_callback_refuted :
  forall msg, exists s,
    run (exec msg true start_self 0) start_history (make 1) =
      Some ([Returned (RId 0); Returned RUnit; Returned (RBool true)], s) /\
    forall fuel, exec msg true start_self fuel (Tick 5) s = Bad.
Proof.
  intros msg. eexists. split; [destruct msg; vm_compute; reflexivity|].
  intros fuel.
  set (S0 := fun l => mkS [mkT (Some 0%nat) 5 0 0 0 0 true] 0 0 true 1 l).
  assert (I : forall l, tick_body msg true start_self 0 (S0 l) = Ok (S0 (l ++ [(0, 0)%nat])) (inl 0))
    by (intros; destruct msg; vm_compute; reflexivity).
  assert (L : forall f l, tick_loop msg true start_self f 0 (S0 l) = Bad).
  { induction f as [|f IH]; intros l; [reflexivity|]. rewrite (tick_loop_S _ _ _ _ _ _ _ _ (I l)). apply IH. }
  destruct fuel as [|f]; [reflexivity|].
  assert (I0 : tick_body msg true start_self 5 (mkS [mkT (Some 0%nat) 5 5 0 255 255 true] 0 0 true 1 []) =
               Ok (S0 [(0, 0)%nat]) (inl 0)) by (destruct msg; vm_compute; reflexivity).
  pose proof (tick_loop_S _ _ _ f _ _ _ _ I0) as I1. rewrite L in I1.
  unfold exec, tick, cbind, state. cbn [enabled]. rewrite I1. reflexivity.
Qed.
Print Assumptions C25_start_in_own_callback_refuted.
Theorem C25_start_in_own_callback :
  forall msg, exists s,
    run (exec msg false start_self 10) (start_history ++ [Tick 5; Tick 4; Tick 1; Tick 10]) (make 1) =
    Some ([Returned (RId 0); Returned RUnit; Returned (RBool true);
           Returned (RTick true [(0, 0)]%nat); Returned (RTick true [(0, 0)]%nat); Returned (RTick true [(0, 0); (0, 0)]%nat);
           Returned (RTick true [(0, 0); (0, 0); (0, 0); (0, 0)]%nat)], s).
Proof. intros [|]; eexists; vm_compute; reflexivity. Qed.

(** ** Non-vacuity *)
(** three timers, callbacks that restart and stop other timers, ticks crossing
    several expirations, disable / enable *)
Definition demo_cb : nat -> list (nat * nat) -> prog :=
  fun k h => match k with
             | 1%nat => Do (IsActive 0) (fun r => match r with RBool true => Do (Stop 0) (fun _ => Done) | _ => Do (Start 0 false) (fun _ => Done) end)
             | _ => Done
             end.
Definition demo : list op :=
  [Call (Register (Some 1%nat) 7 true); Tick 3; Call (Start 0 false); Call (Register (Some 2%nat) 3 false);
   Call (Start 1 true); Tick 3; Call (Enable true); Tick 8; Call TimeToNext; Call (Stop 1); Tick 20; Call (Unregister 1); Tick 5].
Example demo_fires_hyps :
  forall cb_first, exists seen0 c0 seenm c1 seen c2,
    spec_run (timer_spec false cb_first demo_cb 50) [Call (Register (Some 0%nat) 2 true)] (power_up 4) = Some (seen0, c0) /\
    spec_run (timer_spec false cb_first demo_cb 50) (Call (Register (Some 3%nat) 4 true) :: [Call (Start 0 false); Call (Enable true); Tick 5] ++ [Call (Start 1 false)]) c0 =
      Some (Returned (RId 1) :: seenm ++ [Returned (RBool true)], c1) /\
    spec_run (timer_spec false cb_first demo_cb 50) [Call (Register (Some 1%nat) 3 true); Call (Start 2 false); Tick 10; Call (Enable false); Tick 100; Call (Enable true); Tick 11] c1 = Some (seen, c2) /\
    ticked [Call (Register (Some 1%nat) 3 true); Call (Start 2 false); Tick 10; Call (Enable false); Tick 100; Call (Enable true); Tick 11] seen = 21.
Proof.
  intros [|]; eexists _, _, [Returned (RBool true); Returned RUnit; Returned (RTick true [(0, 0); (0, 0)]%nat)], _, _, _;
    (split; [vm_compute; reflexivity|split; [vm_compute; reflexivity|split; [vm_compute; reflexivity|vm_compute; reflexivity]]]).
Qed.
Example demo_callbacks_avoid : forall j h, avoids 1 (demo_cb j h).
Proof. intros [|[|j]] h; cbn; auto. split; auto. intros [|[|]| | |]; cbn; auto. Qed.
Example demo_runs : exists seen c, spec_run (timer_spec false false demo_cb 50) demo (power_up 3) = Some (seen, c) /\ fired c <> [].
Proof. eexists _, _. split; [vm_compute; reflexivity|discriminate]. Qed.
