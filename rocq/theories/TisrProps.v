(** Timers whose calls are interrupted by the tick (C56): callback_timer.h, callback_timer_atomic.h, callback_timer_interrupt.h, callback_timer_locked.h
    and message_timer.h, message_timer_atomic.h, message_timer_interrupt.h, message_timer_locked.h *)
From Coq Require Import List Arith Lia Bool String ZArith.
From Verif Require Import Util Slots Cmd TimerModel TimerSpec TimerProofs TimerProofs2 TimerProofs3 TimerProofs4 TisrModel TisrSpec TisrProofs TisrProofs2 TisrProofs3 TisrProofs4 TisrProofs5 TisrProofs6.
Import ListNotations.
Local Open Scope Z_scope.

(** For every timer, every history of calls with any ticks arriving at any points of the calls - except, for the calls that stop a timer, and the unlocked time_to_next,
    the one point between the check and the lock, which is free for timers that repeat: no access goes astray and every call returns; every tick that arrives is
    offered exactly once, in order; and the calls, together with the ticks that are not refused, are a history without interrupts: each processed tick before or
    after the call it interrupts, with the same answers and the same expirations. *)
Theorem C56_interrupted_history_is_serial :
  forall (msg : bool) (kd : kind) (max : nat), (max <= 254)%nat ->
  forall h, Forall (fun x => allowed msg max (fst x)) h -> Forall (fun x => Forall (Forall (fun n => 0 <= n < 4294967296)) (snd x)) h ->
    Forall (window_free msg kd) h \/ Forall (fun x => repeats (fst x)) h ->
  exists fuel0 l s ops seen,
    Forall2 (fun x y => map fst (snd y) = List.concat (snd x)) h l /\
    serial (map (fun x => (fst (fst x), fst (snd x), snd (snd x))) (combine h l)) ops seen /\
    forall fuel, (fuel0 <= fuel)%nat ->
      exec_history msg kd fuel h (make max) = Ok s l /\
      exists s', run (exec msg (callback_first kd) quiet fuel) ops (make max) = Some (seen, s') /\ log s' = log s.
Proof.
  intros msg kd max Hm h Al F W. pose proof (rep_make max Hm) as R.
  assert (Em : all_regs (fun _ => False) (power_up max)).
  { intros i r H. cbn in H. apply nth_error_In in H. apply repeat_spec in H. discriminate. }
  assert (Hl : List.length (timers (power_up max)) = max) by (cbn; apply repeat_length).
  destruct (history_ok msg kd h (make max) (power_up max) R) as (s & l & c & ops & seen & N & R1 & L & Fm & Se & E & _).
  - intros i r H. destruct (Em i r H).
  - rewrite Hl. exact Al.
  - eapply Forall_impl; [|exact F]. intros x. apply Forall_impl. intros y. apply Forall_impl. intros n Hn. apply is_u32_spec. exact Hn.
  - destruct W as [W|W]; [left; exact W|right; split; [intros i r H; destruct (Em i r H)|exact W]].
  - exists N, l, s, ops, seen. conj; auto. intros fuel Hf. destruct (E fuel Hf) as (E1 & E2). split; [exact E1|].
    destruct (run_refines (exec msg (callback_first kd) quiet fuel) (timer_spec msg (callback_first kd) quiet fuel) rep (step_refines msg (callback_first kd) quiet fuel) ops _ _ seen c R E2) as (s' & E3 & R3).
    exists s'. split; [exact E3|]. rewrite (p_log _ _ R3), (p_log _ _ R1). reflexivity.
Qed.
Print Assumptions C56_interrupted_history_is_serial.

(** With an interrupt lock no tick is lost: once the timers are enabled, every tick that arrives is processed, those that arrive under the lock right after it. *)
Theorem C56_interrupt_lock_loses_no_tick :
  forall (msg : bool) (kd : kind) (max : nat), (max <= 254)%nat -> defers kd = true ->
  forall h, Forall (fun x => allowed msg max (fst x) /\ forall b, fst x <> Enable b) h -> Forall (fun x => Forall (Forall (fun n => 0 <= n < 4294967296)) (snd x)) h ->
    Forall (window_free msg kd) h \/ Forall (fun x => repeats (fst x)) h ->
  exists fuel0 r0 l s,
    Forall2 (fun x y => snd y = map (fun n => (n, true)) (List.concat (snd x))) h l /\
    forall fuel, (fuel0 <= fuel)%nat -> exec_history msg kd fuel ((Enable true, []) :: h) (make max) = Ok s (r0 :: l).
Proof.
  intros msg kd max Hm D h Al F W. pose proof (rep_make max Hm) as R0.
  set (s0 := set_enabled true (make max)). set (c0 := with_running true (power_up max)).
  assert (R : rep s0 c0) by (unfold s0, c0; destruct R0; split; auto).
  assert (Em : all_regs (fun _ => False) c0).
  { intros i r H. cbn in H. apply nth_error_In in H. apply repeat_spec in H. discriminate. }
  assert (Hl : List.length (timers c0) = max) by (cbn; apply repeat_length).
  destruct (history_ok msg kd h s0 c0 R) as (s & l & c & ops & seen & N & R1 & L & Fm & Se & E & Q).
  - intros i r H. destruct (Em i r H).
  - rewrite Hl. eapply Forall_impl; [|exact Al]. intros x H. apply H.
  - eapply Forall_impl; [|exact F]. intros x. apply Forall_impl. intros y. apply Forall_impl. intros n Hn. apply is_u32_spec. exact Hn.
  - destruct W as [W|W]; [left; exact W|right; split; [intros i r H; destruct (Em i r H)|exact W]].
  - exists N, (RUnit, []), l, s. split.
    + assert (Q1 : Forall (fun y => Forall (fun t : Z * bool => snd t = true) (snd y)) l).
      { apply Q; auto. eapply Forall_impl; [|exact Al]. intros [k a] (_ & Hk). cbn in *. destruct k; cbn; auto. exact (Hk b eq_refl). }
      clear - Fm Q1. induction Fm as [|x y h l H Fm IH]; [constructor|]. inversion_clear Q1 as [|? ? A B]. constructor; auto.
      rewrite <- H. clear - A. induction (snd y) as [|[n b] r IH]; [reflexivity|]. inversion_clear A as [|? ? X Y]. cbn in *. subst b. f_equal. auto.
    + intros fuel Hf. cbn [exec_history threads]. unfold cbind at 1.
      assert (X : exec_thread msg kd fuel (Act (modify (set_enabled true)) (fun _ => Fin RUnit)) [] [] 0 (make max) = Ok s0 (RUnit, [])).
      { cbn [exec_thread]. unfold point. cbn [Nat.eqb negb]. rewrite !andb_false_r. reflexivity. }
      rewrite X. unfold cbind. rewrite (proj1 (E fuel Hf)). reflexivity.
Qed.
Print Assumptions C56_interrupt_lock_loses_no_tick.

(** A tick that is called while a call holds the lock changes nothing and says so. *)
Theorem C56_refused_tick :
  forall msg kd fuel held n s, handler msg kd fuel (S held) n s = Ok s false.
Proof. intros. apply handler_locked. Qed.
Print Assumptions C56_refused_tick.

(** FINDING: stop, unregister_timer, set_period and set_mode look whether the timer is active before they take the lock. A tick that comes in between and in which
    the single-shot timer expires takes it off the list; the call then takes it off again: the links say "no timer" (255), and the list is written out of bounds.
    In all eight headers, with every kind of lock. *)
Definition race (c : call) : list (call * list (list Z)) :=
  [(Register (Some 0%nat) 5 false, []); (Register (Some 1%nat) 50 false, []); (Start 0 false, []); (Start 1 false, []); (Enable true, []); (c, [[]; []; [7]])].
Theorem C56_stop_race_refuted :
  forall msg kd c, In c [Stop 0; SetPeriod 0 9; SetMode 0 true] \/ (c = Unregister 0 /\ msg = false) ->
    Forall (fun x => allowed msg 2 (fst x)) (race c) /\
    exec_history msg kd 5 (race c) (make 2) = Bad /\
    (* a moment earlier or later it does no harm *)
    forall arrivals, In arrivals [[]; [[7]]; [[]; [7]]; [[]; []; []; [7]]] ->
      exists s l, exec_history msg kd 5 (removelast (race c) ++ [(c, arrivals)]) (make 2) = Ok s l.
Proof.
  intros msg kd c H. split; [|split].
  - destruct H as [[<-|[<-|[<-|[]]]]|[-> ->]]; repeat constructor; cbn; auto; lia.
  - destruct H as [[<-|[<-|[<-|[]]]]|[-> ->]]; try destruct msg; destruct kd as [[]| | |]; vm_compute; reflexivity.
  - intros arrivals A. destruct H as [[<-|[<-|[<-|[]]]]|[-> ->]]; try destruct msg; destruct kd as [[]| | |];
      destruct A as [<-|[<-|[<-|[<-|[]]]]]; eexists; eexists; vm_compute; reflexivity.
Qed.
Print Assumptions C56_stop_race_refuted.

(** FINDING: time_to_next of callback_timer.h takes no lock: if the last timer expires between has_active_timer() and front(), element 255 is read. *)
Theorem C56_time_to_next_race_refuted :
  forall b, exec_history false (Basic b) 5 [(Register (Some 0%nat) 5 false, []); (Start 0 false, []); (Enable true, []); (TimeToNext, [[]; [7]])] (make 1) = Bad /\
  (* the other headers *)
  forall msg kd, bare msg kd = false -> exists s,
    exec_history msg kd 5 [(Register (Some 0%nat) 5 false, []); (Start 0 false, []); (Enable true, []); (TimeToNext, [[]; [7]])] (make 1) =
    Ok s [(RId 0, []); (RBool true, []); (RUnit, []); (RTime 5, [(7, defers kd)])].
Proof.
  intros b. split; [destruct b; vm_compute; reflexivity|]. intros [] [[]| | |] H; try discriminate; eexists; vm_compute; reflexivity.
Qed.
Print Assumptions C56_time_to_next_race_refuted.

(** ** Non-vacuity: a history with ticks in the middle of start, register and clear *)
Definition busy : list (call * list (list Z)) :=
  [(Register (Some 7%nat) 5 true, [[1]; [2; 3]]); (Enable true, []); (Start 0 false, [[4]; []; [1]; [6]; [7]]); (Register (Some 8%nat) 3 false, [[2]; [2]; [9]; [4]]);
   (Start 1 true, [[]; []; []; []; [3]]); (TimeToNext, [[1]; []; [5]]); (IsActive 1, [[]; [1]; [2]]); (Stop 0, [[]; [6]; []; [7]]); (Clear, [[1]; [2]; [3]; [4]; [5]])].
Example busy_meets : Forall (fun x => allowed false 2 (fst x)) busy /\ Forall (fun x => Forall (Forall (fun n => 0 <= n < 4294967296)) (snd x)) busy /\ Forall (window_free false Atomic) busy.
Proof. conj; repeat constructor; cbn; auto; lia. Qed.
Definition summary (o : Out st (list (res * list (Z * bool)))) : option (nat * list (list (Z * bool))) := match o with Ok s l => Some (List.length (log s), map snd l) | _ => None end.
Example busy_semaphore : summary (exec_history false Atomic 20 busy (make 2)) =
  Some (6%nat, [[(1, false); (2, false); (3, false)]; []; [(4, true); (1, true); (6, false); (7, false)]; [(2, true); (2, true); (9, true); (4, true)];
    [(3, false)]; [(1, true); (5, false)]; [(1, true); (2, false)]; [(6, true); (7, false)]; [(1, true); (2, false); (3, false); (4, true); (5, true)]]).
Proof. vm_compute. reflexivity. Qed.
Example busy_interrupt : summary (exec_history false Interrupt 20 busy (make 2)) =
  Some (10%nat, [[(1, false); (2, false); (3, false)]; []; [(4, true); (1, true); (6, true); (7, true)]; [(2, true); (2, true); (9, true); (4, true)];
    [(3, true)]; [(1, true); (5, true)]; [(1, true); (2, true)]; [(6, true); (7, true)]; [(1, true); (2, true); (3, true); (4, true); (5, true)]]).
Proof. vm_compute. reflexivity. Qed.
Example busy_repeating : Forall (fun x => repeats (fst x)) (filter (fun x => match fst x with Register _ _ false => false | _ => true end) busy).
Proof. repeat constructor; cbn; auto. Qed.
